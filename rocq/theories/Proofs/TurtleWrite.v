(** serialize_turtle: which objects are written and what can go wrong (C46, C48). *)
From Coq Require Import Permutation.
From Verif Require Import Model.Py Model.Terms Model.Graph Model.GraphRun Model.Curie Model.TurtleTree Model.Resource Model.ResourceRun Model.TurtleOut
  Spec.GraphSpec Spec.CurieSpec Spec.TurtleSpec Spec.ResourceSpec Spec.TurtleOutSpec
  Proofs.GraphInv Proofs.GraphHist Proofs.CurieLemmas Proofs.LangLemmas Proofs.ResourceLemmas Proofs.ClassLemmas Proofs.ResourceMore Proofs.TurtleRepr Proofs.ListClass.
Open Scope N_scope.

(** ** Names and their order *)
Lemma named_ok : forall pm base nodes l, named pm base nodes = Ok l ->
  map snd l = nodes /\ Forall (fun nx => turtle_repr pm base (snd nx) = Ok (fst nx)) l.
Proof.
  intros pm base. induction nodes as [|x nodes IH]; intros l H; cbn [named] in H; [injection H as <-; auto|].
  destruct (turtle_repr pm base x) as [n|e] eqn:E; [|discriminate]. cbn [bind] in H.
  destruct (named pm base nodes) as [l'|e]; [|discriminate]. injection H as <-. destruct (IH l' eq_refl) as [A B]. cbn. split; [now rewrite A|].
  constructor; auto.
Qed.
Lemma named_err : forall pm base nodes e, named pm base nodes = Err e -> exists x, In x nodes /\ turtle_repr pm base x = Err e.
Proof.
  intros pm base. induction nodes as [|x nodes IH]; intros e H; cbn [named] in H; [discriminate|].
  destruct (turtle_repr pm base x) as [n|e'] eqn:E; cbn [bind] in H; [|injection H as ->; exists x; split; [now left|exact E]].
  destruct (named pm base nodes) as [l'|e']; [discriminate|]. injection H as ->. destruct (IH e eq_refl) as (y & J & Y). exists y. split; [now right|exact Y].
Qed.
Lemma named_total : forall pm base nodes, (forall x, In x nodes -> exists n, turtle_repr pm base x = Ok n) -> exists l, named pm base nodes = Ok l.
Proof.
  intros pm base. induction nodes as [|x nodes IH]; intro H; [now exists []|]. destruct (H x ltac:(now left)) as [n N]. destruct IH as [l L]; [intros y J; apply H; now right|].
  exists ((n, x) :: l). cbn. now rewrite N, L.
Qed.
Lemma sort_insert_perm : forall x l l', sort_insert x l = Ok l' -> Permutation (x :: l) l'.
Proof.
  intros x. induction l as [|y l IH]; intros l' H; cbn [sort_insert] in H; [injection H as <-; auto|].
  destruct (pair_lt y x) as [[]|e]; cbn [bind] in H; [|injection H as <-; auto|discriminate].
  destruct (sort_insert x l) as [l1|e]; [|discriminate]. injection H as <-. rewrite perm_swap. apply perm_skip. auto.
Qed.
Lemma sort_perm : forall l l', sort_pairs l = Ok l' -> Permutation l l'.
Proof.
  induction l as [|x l IH]; intros l' H; cbn [sort_pairs] in H; [injection H as <-; auto|].
  destruct (sort_pairs l) as [l1|e]; [|discriminate]. cbn [bind] in H. apply sort_insert_perm in H. rewrite <- H. apply perm_skip. auto.
Qed.
Definition is_iri (nx : str * term) : Prop := exists i, snd nx = Iri i.
Lemma pair_lt_iri : forall a b, is_iri a -> is_iri b -> exists r, pair_lt a b = Ok r.
Proof.
  intros [n x] [m y] [i Hi] [j Hj]. cbn in Hi, Hj. subst. unfold pair_lt. cbn [fst snd]. destruct (str_eq_dec n m); eauto. destruct (term_eq_dec (Iri i) (Iri j)); cbn; eauto.
Qed.
Lemma sort_insert_iri : forall x l, is_iri x -> Forall is_iri l -> exists l', sort_insert x l = Ok l'.
Proof.
  intros x l X F. induction F as [|y l Y F [l' IH]]; cbn [sort_insert]; eauto. destruct (pair_lt_iri y x Y X) as [[] ->]; cbn [bind]; eauto. rewrite IH. cbn. eauto.
Qed.
Lemma sort_iri : forall l, Forall is_iri l -> exists l', sort_pairs l = Ok l'.
Proof.
  induction l as [|x l IH]; intro F; cbn [sort_pairs]; eauto. inversion F as [|? ? X F']; subst. destruct (IH F') as [l1 E]. rewrite E. cbn [bind].
  apply sort_insert_iri; auto. apply sort_perm in E. eapply Permutation_Forall; eauto.
Qed.
Lemma sorted_ok : forall pm base nodes l, turtle_sorted_names pm base nodes = Ok l ->
  Permutation (map snd l) nodes /\ Forall (fun nx => turtle_repr pm base (snd nx) = Ok (fst nx)) l.
Proof.
  intros pm base nodes l H. unfold turtle_sorted_names in H. destruct (named pm base nodes) as [l1|e] eqn:E; [|discriminate]. cbn [bind] in H.
  apply named_ok in E. destruct E as [<- F]. apply sort_perm in H. split; [now rewrite H|]. eapply Permutation_Forall; eauto.
Qed.
(** with IRIs and blank nodes only, the one error there is comes from a blank node *)
Lemma sorted_nodes : forall pm base nodes, Forall node nodes ->
  (exists l, turtle_sorted_names pm base nodes = Ok l /\ Forall (fun x => exists i, x = Iri i) nodes) \/
  (turtle_sorted_names pm base nodes = Err AttributeError /\ exists b, In (BNode b) nodes).
Proof.
  intros pm base nodes F. unfold turtle_sorted_names. rewrite Forall_forall in F. destruct (named pm base nodes) as [l|e] eqn:E; cbn [bind].
  - left. apply named_ok in E. destruct E as [<- R]. assert (X : Forall is_iri l).
    { rewrite Forall_forall in *. intros [n x] J. assert (N := F x ltac:(apply in_map_iff; exists (n, x); auto)). specialize (R _ J). cbn in R.
      destruct x as [i|b|v l' d]; [now exists i|discriminate R|destruct N]. }
    destruct (sort_iri l X) as [l' L]. exists l'. split; [exact L|]. rewrite Forall_forall in *. intros x J. apply in_map_iff in J. destruct J as (nx & <- & J). exact (X nx J).
  - right. apply named_err in E. destruct E as (x & J & R). assert (N := F x J). destruct x as [i|b|v l d]; [discriminate R|injection R as <-; eauto|destruct N].
Qed.

Lemma tags_dec : forall a b, tags_agree a b \/ ~ tags_agree a b.
Proof. intros a b. destruct (lang_match (Some a) (Some b)) eqn:E; [left; now apply lang_match_spec|right; intro T; apply lang_match_spec in T; congruence]. Qed.
Section Write.
  Variables (ord : list term -> list term) (fuel : nat) (pm : dict str str) (base : option str) (g : graph).
  Hypothesis RG : reachable g.
  Hypothesis SH : shuffle ord.
  Notation G := (g_iter g).
  Notation wobj := (write_object ord fuel pm base g).

  Lemma write_object_world : forall w o w' r, LC w -> wobj w o = (w', r) -> LC w'.
  Proof.
    intros w o w' r L H. unfold write_object in H. destruct (is_list w 1 g o) as [[]|e]; try (injection H as <- <-; exact L).
    destruct (list_iter ord fuel w 1 g (as_subject o)) as [w1 [vs fin]] eqn:E. destruct (write_elements pm base true vs fin) as [t x]. injection H as <- <-.
    pose proof L as (I & V & _). destruct (list_iter_extends ord 1 g SH _ _ _ _ _ I V E) as [I1 X1]. exact (proj1 (list_class_extends _ _ _ _ _ _ _ I1 X1 L)).
  Qed.
  Lemma is_list_bool : forall w o, LC w -> exists b, is_list w 1 g o = Ok b.
  Proof. intros w o (_ & _ & _ & MR & _). apply resolve_means in MR. unfold is_list. rewrite MR. cbn. eauto. Qed.
  Lemma plain_subjects_ok : forall w l, LC w -> exists l', plain_subjects g w l = Ok l' /\
    forall s, In s l' <-> In s l /\ is_list w 1 g s = Ok false.
  Proof.
    intros w l L. induction l as [|s l IH]; cbn [plain_subjects].
    - exists []. split; [reflexivity|]. intros s. cbn. tauto.
    - destruct IH as (l' & E & M). destruct (is_list_bool w s L) as [b B]. rewrite B, E. cbn [bind]. destruct b.
      + exists l'. split; [reflexivity|]. intros s'. rewrite M. cbn. split; [tauto|]. intros [[<-|J] K]; [congruence|auto].
      + exists (s :: l'). split; [reflexivity|]. intros s'. cbn. rewrite M. split; [intros [<-|[J K]]; auto|]. intros [[<-|J] K]; auto.
  Qed.
  Lemma plain_subjects_sub : forall w l l', plain_subjects g w l = Ok l' -> NoDup l -> NoDup l'.
  Proof.
    intros w. induction l as [|s l IH]; intros l' H N; cbn [plain_subjects] in H; [injection H as <-; constructor|].
    destruct (is_list w 1 g s) as [b|e]; [|discriminate]. cbn [bind] in H. destruct (plain_subjects g w l) as [r|e] eqn:E; [|discriminate].
    inversion N; subst. assert (ND : NoDup r) by auto. injection H as <-. destruct b; auto. constructor; auto. intro J.
    assert (K : forall a b, plain_subjects g w a = Ok b -> incl b a).
    { clear. induction a as [|x a IH]; intros b H; cbn [plain_subjects] in H; [injection H as <-; apply incl_refl|].
      destruct (is_list w 1 g x) as [c|e]; [|discriminate]. cbn [bind] in H. destruct (plain_subjects g w a) as [r|e]; [|discriminate].
      injection H as <-. specialize (IH r eq_refl). destruct c; [now apply incl_tl|]. intros y [<-|Y]; [now left|right; auto]. }
    apply (K _ _ E) in J. contradiction.
  Qed.
  Notation ser := (serialize_turtle ord fuel pm base g).
  (** ** Tracing the calls, for an invariant of the world *)
  Definition is_object (o : term) : Prop := exists s p, In (Tr s p o) G.
  Lemma match_In : forall s p o t, In t (g_match g s p o) <-> In t G /\ fits (as_wildcard s) (as_wildcard p) (as_wildcard o) t.
  Proof. intros s p o t. exact (proj2 (g_match_lists g s p o (reachable_wf _ RG)) t). Qed.
  Notation objs_of s p := (map st_o (g_match g (Some s) (Some p) None)).
  Notation preds_of s := (nodup term_eq_dec (map st_p (g_match g (Some s) None None))).
  Section Trace.
  Variable Inv : world -> Prop.
  Hypothesis step : forall w o w' r, is_object o -> Inv w -> wobj w o = (w', r) -> Inv w'.
  (** an object was written, or failed *)
  Definition obj_did (o : term) (r : res unit) : Prop := exists w1 w2 t, Inv w1 /\ wobj w1 o = (w2, (t, r)).
  Lemma write_objects_trace : forall l w sep ind w' t r, Forall is_object l -> Inv w -> write_objects ord fuel pm base g w sep ind l = (w', (t, r)) ->
    Inv w' /\ match r with Ok _ => forall o, In o l -> obj_did o (Ok tt) | Err e => exists o, In o l /\ obj_did o (Err e) end.
  Proof.
    induction l as [|o l IH]; intros w sep ind w' t r FO L H; cbn [write_objects] in H.
    - injection H as <- <- <-. split; [exact L|]. intros o [].
    - inversion FO as [|? ? O FO']; subst. destruct (wobj w o) as [w1 [t1 [[]|e]]] eqn:E; pose proof (step _ _ _ _ O L E) as L1.
      + destruct (write_objects ord fuel pm base g w1 (s2l "," ++ nl ++ ind) ind l) as [w2 [t2 x]] eqn:E2. injection H as <- <- <-.
        destruct (IH _ _ _ _ _ _ FO' L1 E2) as [L2 D]. split; [exact L2|]. destruct x as [u|e].
        * intros o' [<-|J]; [exists w, w1, t1; auto|auto].
        * destruct D as (o' & J & D). exists o'. split; [now right|exact D].
      + injection H as <- <- <-. split; [exact L1|]. exists o. split; [now left|]. exists w, w1, t1. auto.
  Qed.
  Lemma objs_objects : forall s p, Forall is_object (objs_of s p).
  Proof.
    intros s p. apply Forall_forall. intros o J. apply in_map_iff in J. destruct J as (t & <- & J). apply match_In in J. destruct J as [J _].
    pose proof (reachable_wf _ RG) as (_ & HT & _). specialize (HT t J). destruct t as [a b c d]. cbn in *. rewrite HT in J. exists a, b. exact J.
  Qed.
  Lemma write_predicates_trace : forall l w s sep n w' t r, Inv w -> write_predicates ord fuel pm base g w s sep n l = (w', (t, r)) ->
    Inv w' /\ match r with
             | Ok _ => forall p, In p (map snd l) -> forall o, In o (objs_of s p) -> obj_did o (Ok tt)
             | Err e => exists p o, In p (map snd l) /\ In o (objs_of s p) /\ obj_did o (Err e)
             end.
  Proof.
    induction l as [|[name p] l IH]; intros w s sep n w' t r L H; cbn [write_predicates] in H.
    - injection H as <- <- <-. split; [exact L|]. intros p [].
    - destruct (write_objects ord fuel pm base g w [] (spaces (n + length name + 1)) (objs_of s p)) as [w1 [t1 [[]|e]]] eqn:E;
        apply write_objects_trace in E; auto using objs_objects; destruct E as [L1 D1].
      + destruct (write_predicates ord fuel pm base g w1 s (spaces n) n l) as [w2 [t2 x]] eqn:E2. injection H as <- <- <-.
        destruct (IH _ _ _ _ _ _ _ L1 E2) as [L2 D]. split; [exact L2|]. destruct x as [u|e].
        * cbn [map snd]. intros p' [<-|J]; [exact D1|exact (D p' J)].
        * destruct D as (p' & o & J & D). exists p', o. split; [now right|exact D].
      + injection H as <- <- <-. split; [exact L1|]. destruct D1 as (o & J & D). exists p, o. split; [now left|auto].
  Qed.
  Lemma write_subjects_trace : forall l w w' t r, Inv w -> write_subjects ord fuel pm base g w l = (w', (t, r)) ->
    Inv w' /\ match r with
             | Ok _ => forall s, In s (map snd l) -> (exists ps, turtle_sorted_names pm base (preds_of s) = Ok ps) /\
                 forall p o, In p (preds_of s) -> In o (objs_of s p) -> obj_did o (Ok tt)
             | Err e => exists s, In s (map snd l) /\ (turtle_sorted_names pm base (preds_of s) = Err e \/
                 exists p o, In p (preds_of s) /\ In o (objs_of s p) /\ obj_did o (Err e))
             end.
  Proof.
    induction l as [|[name s] l IH]; intros w w' t r L H; cbn [write_subjects] in H.
    - injection H as <- <- <-. split; [exact L|]. intros s [].
    - destruct (turtle_sorted_names pm base (preds_of s)) as [ps|e] eqn:EP.
      2:{ injection H as <- <- <-. split; [exact L|]. exists s. split; [now left|]. now left. }
      pose proof (proj1 (sorted_ok _ _ _ _ EP)) as PP.
      destruct (write_predicates ord fuel pm base g w s [] (S (length name)) ps) as [w1 [t1 [[]|e]]] eqn:E;
        apply write_predicates_trace in E; auto; destruct E as [L1 D1].
      + destruct (write_subjects ord fuel pm base g w1 l) as [w2 [t2 x]] eqn:E2. injection H as <- <- <-.
        destruct (IH _ _ _ _ L1 E2) as [L2 D]. split; [exact L2|]. destruct x as [u|e].
        * cbn [map snd]. intros s' [<-|J]; [|exact (D s' J)]. split; [eauto|]. intros p o P O. apply (D1 p); auto. now apply (Permutation_in _ (Permutation_sym PP)).
        * destruct D as (s' & J & D). exists s'. split; [now right|exact D].
      + injection H as <- <- <-. split; [exact L1|]. destruct D1 as (p & o & P & O & D). exists s. split; [now left|]. right. exists p, o.
        split; [now apply (Permutation_in _ PP)|auto].
  Qed.

  (** what a serialization that went through has done; otherwise, what failed *)
  Lemma serialize_trace : forall w w' t r, LC w -> Inv w -> ser w = (w', (t, r)) ->
    match r with
    | Ok _ => forall s, In s (g_subjects g) -> is_list w 1 g s = Ok false ->
        (exists n, turtle_repr pm base s = Ok n) /\ (forall p, In p (preds_of s) -> exists n, turtle_repr pm base p = Ok n) /\
        forall p o, In p (preds_of s) -> In o (objs_of s p) -> obj_did o (Ok tt)
    | Err e =>
        (exists l, (forall s, In s l <-> In s (g_subjects g) /\ is_list w 1 g s = Ok false) /\
           turtle_sorted_names pm base l = Err e /\ w' = w /\ t = header pm base) \/
        exists s, In s (g_subjects g) /\ is_list w 1 g s = Ok false /\
          (turtle_sorted_names pm base (preds_of s) = Err e \/ exists p o, In p (preds_of s) /\ In o (objs_of s p) /\ obj_did o (Err e))
    end.
  Proof.
    intros w w' t r L IV H. unfold serialize_turtle in H. destruct (plain_subjects_ok w (g_subjects g) L) as (l & E & M). rewrite E in H. cbn [bind] in H.
    destruct (turtle_sorted_names pm base l) as [sl|e] eqn:ES.
    - pose proof (proj1 (sorted_ok _ _ _ _ ES)) as PS. pose proof (proj2 (sorted_ok _ _ _ _ ES)) as FS.
      destruct (write_subjects ord fuel pm base g w sl) as [w1 [t1 x]] eqn:EW. injection H as <- <- <-.
      apply write_subjects_trace in EW; auto. destruct EW as [_ D]. destruct x as [u|e].
      + intros s J K. assert (J1 : In s (map snd sl)) by (apply (Permutation_in _ (Permutation_sym PS)), M; auto).
        destruct (D s J1) as [(ps & EP) O]. split; [|split; [|exact O]].
        * apply in_map_iff in J1. destruct J1 as ([n s'] & E1 & J1). cbn in E1. subst s'. rewrite Forall_forall in FS. exists n. exact (FS _ J1).
        * intros p P. apply sorted_ok in EP. destruct EP as [PP FP]. apply (Permutation_in _ (Permutation_sym PP)) in P. apply in_map_iff in P.
          destruct P as ([n p'] & E1 & P). cbn in E1. subst p'. rewrite Forall_forall in FP. exists n. exact (FP _ P).
      + destruct D as (s & J & D). right. exists s. apply (Permutation_in _ PS), M in J. tauto.
    - injection H as <- <- <-. left. exists l. auto.
  Qed.

  Lemma serialize_world : forall w w' t r, LC w -> Inv w -> ser w = (w', (t, r)) -> Inv w'.
  Proof.
    intros w w' t r L IV H. unfold serialize_turtle in H. destruct (plain_subjects_ok w (g_subjects g) L) as (l & E & M). rewrite E in H. cbn [bind] in H.
    destruct (turtle_sorted_names pm base l) as [sl|e] eqn:ES; [|now injection H as <- <- <-].
    destruct (write_subjects ord fuel pm base g w sl) as [w1 [t1 x]] eqn:EW. injection H as <- <- <-. apply write_subjects_trace in EW; auto. apply EW.
  Qed.
  End Trace.
  (** ** Blank nodes (C46) *)
  Lemma wild_agrees : forall a x, a = None \/ a = Some x -> agrees (as_wildcard a) x.
  Proof. intros a x [-> | ->]; unfold as_wildcard; match goal with |- context [oterm_eq_dec ?a ?b] => destruct (oterm_eq_dec a b) end; cbn; unfold agrees; auto. Qed.
  Lemma fits_self : forall s p o a b c, a = None \/ a = Some s -> b = None \/ b = Some p -> c = None \/ c = Some o ->
    fits (as_wildcard a) (as_wildcard b) (as_wildcard c) (Tr s p o).
  Proof. intros s p o a b c A B C. split; [|split]; now apply wild_agrees. Qed.
  Lemma blank_plain : forall w b, LC w -> ~ list_cell G (BNode b) -> is_list w 1 g (BNode b) = Ok false.
  Proof. intros w b L N. destruct (is_list_spec w g (BNode b) RG L ltac:(discriminate)) as [[_ X]|[X _]]; [contradiction|exact X]. Qed.
  Lemma subject_In : forall t, In t G -> In (st_s t) (g_subjects g).
  Proof. intros t J. destruct (in_use_always_listed g t RG J) as [X _]. exact X. Qed.
  Lemma repr_total : forall ns t, lookup pm (s2l "xsd") ns -> (forall b, t <> BNode b) -> exists n, turtle_repr pm base t = Ok n.
  Proof.
    intros ns t L N. destruct t as [i|b|v l d]; [cbn; eauto|now destruct (N b)|]. destruct (repr_lit pm base ns v l L) as (A & B & C & D).
    destruct d as [d|]; [|eauto]. destruct (str_eq_dec d (ns ++ s2l "string")) as [->|NS]; [eauto|].
    destruct (in_dec str_eq_dec d (map (fun n => ns ++ n) xsd_names)) as [J|J].
    - apply in_map_iff in J. destruct J as (n & <- & J). eauto.
    - eexists. apply D; auto. intros n Jn ->. apply J. apply in_map_iff. eauto.
  Qed.
  Lemma blank_subject : forall early w ns b p o, wreach_if early w -> lookup pm (s2l "xsd") ns -> In (Tr (BNode b) p o) G -> ~ list_cell G (BNode b) ->
    ser w = (w, (header pm base, Err AttributeError)).
  Proof.
    intros early w ns b p o WR LX J NL. destruct (list_class_reached _ _ WR) as [L _]. unfold serialize_turtle.
    destruct (plain_subjects_ok w (g_subjects g) L) as (l & E & M). rewrite E. cbn [bind].
    assert (JB : In (BNode b) l) by (apply M; split; [exact (subject_In _ J)|now apply blank_plain]).
    unfold turtle_sorted_names. destruct (named pm base l) as [nl|e] eqn:EN; cbn [bind].
    - exfalso. apply named_ok in EN. destruct EN as [<- F]. apply in_map_iff in JB. destruct JB as ([n x] & Ex & JB). cbn in Ex. subst x.
      rewrite Forall_forall in F. specialize (F _ JB). discriminate F.
    - apply named_err in EN. destruct EN as (x & _ & X). destruct x as [i|b'|v l' d].
      + discriminate X.
      + cbn in X. injection X as <-. reflexivity.
      + destruct (repr_total ns (Lit v l' d) LX ltac:(discriminate)) as [n N]. congruence.
  Qed.
  Lemma obj_did_blank : forall b r, ~ list_cell G (BNode b) -> obj_did LC (BNode b) r -> r = Err AttributeError.
  Proof.
    intros b r N (w1 & w2 & t & L & H). unfold write_object in H. rewrite (blank_plain w1 b L N) in H. now injection H as <- <- <-.
  Qed.
  Lemma blank_object : forall early w s p b w' t r, wreach_if early w -> In (Tr s p (BNode b)) G -> honoured (Some s) ->
    ~ list_cell G s -> ~ list_cell G (BNode b) -> ser w = (w', (t, r)) -> exists e, r = Err e.
  Proof.
    intros early w s p b w' t r WR J Hs NS NB H. destruct (list_class_reached _ _ WR) as [L _]. apply (serialize_trace LC) in H; auto; [|intros; eapply write_object_world; eauto].
    destruct r as [u|e]; [exfalso|eauto].
    assert (K : is_list w 1 g s = Ok false) by (destruct (is_list_spec w g s RG L Hs) as [[_ X]|[X _]]; [contradiction|exact X]).
    destruct (H s (subject_In _ J) K) as (_ & _ & D).
    assert (P : In p (preds_of s)).
    { apply nodup_In, in_map_iff. exists (Tr s p (BNode b)). split; [reflexivity|]. apply match_In. split; [exact J|].
      apply fits_self; auto. }
    assert (O : In (BNode b) (objs_of s p)).
    { apply in_map_iff. exists (Tr s p (BNode b)). split; [reflexivity|]. apply match_In. split; [exact J|].
      apply fits_self; auto. }
    specialize (D p (BNode b) P O). apply obj_did_blank in D; [discriminate|exact NB].
  Qed.

  (** ** Lists (C48) *)
  Definition lit_value (v : gres) : Prop := exists a l d, v = One (RLit (Lit a l d)).
  Lemma elements_end : forall ns vs b fin t x, lookup pm (s2l "xsd") ns -> write_elements pm base b vs fin = (t, x) -> x = fin \/ x = Err AttributeError.
  Proof.
    intros ns vs b fin t x LX. revert b t x. induction vs as [|v vs IH]; intros b t x H; cbn [write_elements] in H; [injection H as <- <-; auto|].
    destruct v as [os|[|y|k y]]; try (injection H as <- <-; auto).
    destruct y as [i|bb|v l d]; [cbn [turtle_repr] in H|cbn [turtle_repr] in H; injection H as <- <-; auto|].
    - destruct (write_elements pm base false vs fin) as [t' x'] eqn:E. injection H as <- <-. eauto.
    - destruct (repr_total ns (Lit v l d) LX ltac:(discriminate)) as [n N]. rewrite N in H.
      destruct (write_elements pm base false vs fin) as [t' x'] eqn:E. injection H as <- <-. eauto.
  Qed.
  Lemma elements_bad : forall ns vs b fin t x, lookup pm (s2l "xsd") ns -> write_elements pm base b vs fin = (t, x) ->
    (exists v, In v vs /\ (v = One RNone \/ exists k y, v = One (RRes k y))) -> x = Err AttributeError.
  Proof.
    intros ns vs b fin t x LX. revert b t x. induction vs as [|v vs IH]; intros b t x H (v0 & J & D); [destruct J|]. cbn [write_elements] in H.
    destruct v as [os|[|y|k y]]; try (now injection H as <- <-).
    destruct J as [<-|J]; [destruct D as [D|(k & z & D)]; discriminate D|].
    destruct (turtle_repr pm base y) as [n|e] eqn:N.
    - destruct (write_elements pm base false vs fin) as [t' x'] eqn:E. injection H as <- <-. eauto.
    - injection H as <- <-. destruct y as [i|bb|a l d]; [discriminate N|now injection N as <-|].
      destruct (repr_total ns (Lit a l d) LX ltac:(discriminate)) as [n N']. congruence.
  Qed.
  Lemma elements_ok : forall os vs ns b fin, Forall2 (fun o n => turtle_repr pm base o = Ok n) os ns -> vs = map (fun o => One (RLit o)) os ->
    write_elements pm base b vs fin = ((if b then [] else match ns with [] => [] | _ => [32] end) ++ spaced ns, fin).
  Proof.
    intros os vs ns b fin F. revert vs b. induction F as [|o n os ns N F IH]; intros vs b ->; cbn [map write_elements]; [destruct b; reflexivity|].
    rewrite N, (IH _ false eq_refl). f_equal. cbn [spaced]. destruct b, ns; cbn [app]; rewrite ?app_nil_r; reflexivity.
  Qed.
  Lemma shown_literals : forall os vs, Forall2 (shown (s2l "en")) os vs ->
    (Forall en_literal os /\ vs = map (fun o => One (RLit o)) os) \/ (~ Forall en_literal os /\ exists v, In v vs /\ (v = One RNone \/ exists k y, v = One (RRes k y))).
  Proof.
    induction 1 as [|o v os vs S F IH]; [left; split; [constructor|reflexivity]|].
    assert (D : (en_literal o /\ v = One (RLit o)) \/ (~ en_literal o /\ (v = One RNone \/ exists k y, v = One (RRes k y)))).
    { destruct o as [i|b|a l d]; cbn [shown] in S.
      - right. destruct S as [k ->]. split; [intros (x & y & z & E & _); discriminate E|eauto].
      - right. destruct S as [k ->]. split; [intros (x & y & z & E & _); discriminate E|eauto].
      - destruct l as [l|]; [destruct d as [d|]|].
        + left. split; [|exact S]. exists a, (Some l), (Some d). split; [reflexivity|discriminate].
        + destruct S as [S1 S2]. destruct (tags_dec (s2l "en") l) as [T|T].
          * left. split; [|auto]. exists a, (Some l), None. split; [reflexivity|]. now intros _ t [= <-].
          * right. split; [|auto]. intros (x & y & z & [= -> <- <-] & T'). auto.
        + left. split; [|destruct d; exact S]. exists a, None, d. split; [reflexivity|discriminate]. }
    destruct D as [[E ->]|[NE D]].
    - destruct IH as [[A ->]|[A (v' & J & D)]]; [left; split; [constructor; auto|reflexivity]|]. right. split; [intro X; inversion X; auto|]. exists v'. split; [now right|exact D].
    - right. split; [intro X; inversion X; auto|]. exists v. split; [now left|exact D].
  Qed.
  Lemma path_end : forall s os e, path G (rdf_name "first") (rdf_name "rest") (rdf_name "nil") s os e -> forall os' e',
    path G (rdf_name "first") (rdf_name "rest") (rdf_name "nil") s os' e' ->
    (e = Iri (rdf_name "nil") \/ broken G (rdf_name "first") (rdf_name "rest") (rdf_name "nil") e) ->
    (e' = Iri (rdf_name "nil") \/ broken G (rdf_name "first") (rdf_name "rest") (rdf_name "nil") e') -> os = os' /\ e = e'.
  Proof.
    assert (NC : forall s o s', cell G (rdf_name "first") (rdf_name "rest") (rdf_name "nil") s o s' -> 
      (s = Iri (rdf_name "nil") \/ broken G (rdf_name "first") (rdf_name "rest") (rdf_name "nil") s) -> False).
    { intros s o s' (NN & _ & _ & R & N) [E|(_ & _ & _ & [B|(x & B & X)])]; [contradiction| |].
      - apply (B s'), R. reflexivity.
      - assert (s' = x) by (apply B, R; reflexivity). subst. contradiction. }
    induction 1 as [s|s o s' os e C P IH]; intros os' e' P' T T'; inversion P' as [|? o2 s2 ? ? C2 P2]; subst; auto.
    - exfalso. eauto.
    - exfalso. eauto.
    - pose proof C as (_ & _ & F & R & _). pose proof C2 as (_ & _ & F2 & R2 & _). assert (o2 = o) by (apply F, F2; reflexivity). assert (s2 = s') by (apply R, R2; reflexivity).
      subst. destruct (IH _ _ P2 T T') as [-> ->]. auto.
  Qed.
  (** an object that heads a list *)
  Lemma list_object : forall early ns w o n w' t r, wreach_if early w -> lookup pm (s2l "xsd") ns -> honoured (Some o) -> node o -> list_cell G o ->
    list_types_clear w G -> plain_list G o n -> (n < fuel)%nat -> wobj w o = (w', (t, r)) ->
    w' = w /\ ((exists os ns, list_of G o os /\ Forall en_literal os /\ Forall2 (fun o n => turtle_repr pm base o = Ok n) os ns /\ t = [40] ++ spaced ns ++ [41] /\ r = Ok tt) \/
               ((forall os, list_of G o os -> ~ Forall en_literal os) /\ r = Err AttributeError)).
  Proof.
    intros early ns w o n w' t r WR LX Ho No LCo CL (os & e & Len & P & End) FU H. destruct (list_class_reached _ _ WR) as [L LG].
    assert (LK : list_keys w 1 (rdf_name "first") (rdf_name "rest") (rdf_name "nil") (rdf_name "type")) by (destruct L as (_ & _ & A & B & C & D & E & F & _); repeat (split; [assumption|]); assumption).
    assert (LN : lang_of w 1 <> []) by apply L. assert (V : valid w 1) by apply L.
    unfold write_object in H. destruct (is_list_spec w g o RG L Ho) as [[IL _]|[_ X]]; [rewrite IL in H|contradiction].
    assert (ASO : as_subject o = o) by (destruct o; [reflexivity|reflexivity|destruct No]). rewrite ASO in H.
    destruct (list_iter ord fuel w 1 g o) as [w1 [vs fin]] eqn:E.
    assert (FE : exists f, fuel = (length os + S f)%nat) by (exists (fuel - S (length os))%nat; lia). destruct FE as [f FE]. rewrite FE in E.
    destruct (write_elements pm base true vs fin) as [t1 x] eqn:EW.
    destruct End as [-> |BR].
    - destruct (list_ends _ _ _ _ _ _ _ _ _ _ _ _ _ _ _ WR SH V RG LK LN P E) as [D U]. destruct (U CL) as (-> & -> & _). destruct D as [[_ F]|D]; [|discriminate D].
      rewrite LG in F. destruct (shown_literals _ _ F) as [[A ->]|[A B]].
      + assert (NS : exists l, Forall2 (fun o n => turtle_repr pm base o = Ok n) os l).
        { clear -A LX. induction A as [|o os A _ [l IH]]; [exists []; constructor|]. destruct A as (v & lg & d & -> & _).
          destruct (repr_total ns (Lit v lg d) LX ltac:(discriminate)) as [n N]. exists (n :: l). constructor; auto. }
        destruct NS as [l FL]. rewrite (elements_ok os _ l true (Ok tt) FL eq_refl) in EW. injection EW as <- <-. injection H as <- <- <-. split; [reflexivity|]. left.
        exists os, l. cbn [app]. auto 6.
      + apply (elements_bad ns) in EW; auto. subst x. injection H as <- <- <-. split; [reflexivity|]. right. split; [|reflexivity].
        intros os' P'. destruct (path_end _ _ _ P _ _ P' ltac:(auto) ltac:(auto)) as [<- _]. exact A.
    - destruct (list_breaks _ _ _ _ _ _ _ _ _ _ _ _ _ _ _ _ WR SH V RG LK LN P BR E) as [_ U]. destruct (U CL) as (-> & -> & _).
      assert (x = Err AttributeError) by (apply (elements_end ns) in EW; intuition). subst x. injection H as <- <- <-. split; [reflexivity|]. right. split; [|reflexivity].
      intros os' P'. destruct (path_end _ _ _ P _ _ P' ltac:(auto) ltac:(auto)) as [_ EE]. destruct BR as [NN _]. contradiction.
  Qed.
  (** ** What can be written *)
  Section Usual.
    Variables (early : world -> Prop) (w : world) (ns : str).
    Hypotheses (WR : wreach_if early w) (LX : lookup pm (s2l "xsd") ns) (US : usual w G (g_subjects g) fuel).
    Lemma objs_In : forall s p o, honoured (Some s) -> honoured (Some p) -> In o (objs_of s p) <-> In (Tr s p o) G.
    Proof.
      intros s p o Hs Hp. rewrite in_map_iff. split.
      - intros (t & <- & J). apply match_In in J. destruct J as [J F]. rewrite !as_wildcard_honoured in F by (try assumption; discriminate).
        pose proof (reachable_wf _ RG) as (_ & HT & _). specialize (HT t J). destruct t as [a b c d]. cbn in HT. unfold is_triple in HT. cbn in HT. subst d.
        destruct F as ([A|A] & [B|B] & _); try discriminate. cbn in A, B. injection A as ->. injection B as ->. exact J.
      - intro J. exists (Tr s p o). split; [reflexivity|]. apply match_In. split; [exact J|]. apply fits_self; auto.
    Qed.
    Lemma preds_In : forall s p, honoured (Some s) -> In p (preds_of s) <-> exists o, In (Tr s p o) G.
    Proof.
      intros s p Hs. rewrite nodup_In, in_map_iff. split.
      - intros (t & <- & J). apply match_In in J. destruct J as [J F]. rewrite !as_wildcard_honoured in F by (try assumption; discriminate).
        pose proof (reachable_wf _ RG) as (_ & HT & _). specialize (HT t J). destruct t as [a b c d]. cbn in HT. unfold is_triple in HT. cbn in HT. subst d.
        destruct F as ([A|A] & _); try discriminate. cbn in A. injection A as ->. exists c. exact J.
      - intros [o J]. exists (Tr s p o). split; [reflexivity|]. apply match_In. split; [exact J|]. apply fits_self; auto.
    Qed.
    Lemma object_written : forall o, is_object o -> exists t,
      (printable_object G o /\ wobj w o = (w, (t, Ok tt)) /\ 
         ((~ list_cell G o /\ turtle_repr pm base o = Ok t) \/ 
          (list_cell G o /\ exists os names, list_of G o os /\ Forall2 (fun o n => turtle_repr pm base o = Ok n) os names /\ t = [40] ++ spaced names ++ [41]))) \/
      (~ printable_object G o /\ wobj w o = (w, (t, Err AttributeError))).
    Proof.
      intros o (s & p & J). destruct (list_class_reached _ _ WR) as [L LG]. destruct US as (_ & U2 & CL & U4).
      destruct (U2 _ J) as [_ (Hs & Hp & Ho)]. cbn [st_o] in Ho.
      destruct (is_list_spec w g o RG L Ho) as [[IL LCo]|[IL NL]].
      - destruct (U4 _ J LCo) as (n & PL & FU). cbn [st_o] in *. destruct (wobj w o) as [w' [t r]] eqn:E.
        assert (No : node o) by (destruct LCo as [x X]; destruct (U2 _ X) as [[N _] _]; exact N).
        destruct (list_object _ _ _ _ _ _ _ _ WR LX Ho No LCo CL PL FU E) as [-> [(os & names & LO & EN & FN & -> & ->)|[NE ->]]]; exists t || exists ([40] ++ spaced names ++ [41]).
        + left. split; [right; eauto|]. split; [reflexivity|]. right. split; [exact LCo|]. exists os, names. auto.
        + right. split; [|reflexivity]. intros [[X _]|(_ & os & LO & EN)]; [contradiction|]. exact (NE os LO EN).
      - unfold write_object. rewrite IL. destruct o as [i|b|v l d].
        + exists (repr_iri pm base i). left. split; [left; split; [exact NL|discriminate]|]. split; [reflexivity|]. left. auto.
        + exists []. right. split; [|reflexivity]. intros [[_ X]|[X _]]; [now apply (X b)|contradiction].
        + destruct (repr_total ns (Lit v l d) LX ltac:(discriminate)) as [n N]. rewrite N. exists n. left. split; [left; split; [exact NL|discriminate]|]. split; [reflexivity|]. left. auto.
    Qed.
    Lemma serialize_outcome : 
      fst (ser w) = w /\
      (snd (snd (ser w)) = Ok tt /\ printable G (g_subjects g) \/ snd (snd (ser w)) = Err AttributeError /\ ~ printable G (g_subjects g)).
    Proof.
      destruct (list_class_reached _ _ WR) as [L LG].
      assert (step : forall w1 o w' r, is_object o -> w = w1 -> wobj w1 o = (w', r) -> w = w').
      { intros w1 o w' r O <- E. destruct (object_written o O) as (t & [(_ & E' & _)|[_ E']]); congruence. }
      destruct (ser w) as [w' [t r]] eqn:E. pose proof (serialize_trace (eq w) step w w' t r L eq_refl E) as T. cbn [fst snd].
      pose proof US as (U1 & U2 & CL & U4).
      assert (PL : forall s, In s (g_subjects g) -> is_list w 1 g s = Ok false <-> ~ list_cell G s).
      { intros s J. destruct (U1 s J) as [_ Hs]. destruct (is_list_spec w g s RG L Hs) as [[-> X]|[-> X]]; split; intro Y; try discriminate; auto. contradiction. }
      split.
      { pose proof (serialize_world (eq w) step w w' t r L eq_refl E) as X. now symmetry. }
      destruct r as [[]|e]; [left|right].
      - split; [reflexivity|]. split.
        + intros s J NL b ->. destruct (T _ J (proj2 (PL _ J) NL)) as ([n N] & _). discriminate N.
        + intros [s p o gg] J NL. pose proof (reachable_wf _ RG) as (_ & HT & _). pose proof (HT _ J) as HT'. cbn in HT'. unfold is_triple in HT'. cbn in HT'. subst gg.
          cbn [st_s st_o] in *. pose proof (subject_In _ J) as JS. cbn [st_s] in JS. destruct (T _ JS (proj2 (PL _ JS) NL)) as (_ & _ & D).
          destruct (U2 _ J) as [_ (Hs & Hp & Ho)]. cbn [st_s st_p st_o] in *.
          destruct (D p o) as (w1 & w2 & t1 & <- & EO); [apply preds_In; eauto|now apply objs_In|].
          destruct (object_written o ltac:(now exists s, p)) as (t2 & [(P & _)|[_ E2]]); [exact P|congruence].
      - destruct T as [(l & M & ES & _ & _)|(s & J & IL & D)].
        + destruct (sorted_nodes pm base l) as [(l' & E1 & _)|(E1 & b & JB)].
          * apply Forall_forall. intros x X. apply M in X. exact (proj1 (U1 x (proj1 X))).
          * congruence.
          * split; [congruence|]. intros [P1 _]. apply M in JB. destruct JB as [JB IL]. exact (P1 _ JB (proj1 (PL _ JB) IL) b eq_refl).
        + destruct (U1 s J) as [Ns Hs]. destruct D as [D|(p & o & P & O & (w1 & w2 & t1 & <- & EO))].
          * exfalso. destruct (sorted_nodes pm base (preds_of s)) as [(l' & E1 & _)|(_ & b & JB)].
            -- apply Forall_forall. intros x X. apply preds_In in X; [|exact Hs]. destruct X as [o X]. destruct (U2 _ X) as [(_ & i & Ei) _]. cbn in Ei. subst. exact Logic.I.
            -- congruence.
            -- apply preds_In in JB; [|exact Hs]. destruct JB as [o X]. destruct (U2 _ X) as [(_ & i & Ei) _]. discriminate Ei.
          * apply preds_In in P; [|exact Hs]. destruct P as [o' P]. destruct (U2 _ P) as [_ (_ & Hp & _)]. cbn [st_p] in Hp. apply objs_In in O; auto.
            destruct (object_written o ltac:(now exists s, p)) as (t2 & [(_ & E2 & _)|[N E2]]); [congruence|]. split; [congruence|].
            intros [_ P2]. apply N. apply (P2 _ O). apply PL; auto.
    Qed.
  End Usual.
End Write.
