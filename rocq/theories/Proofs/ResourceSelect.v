(** The methods of Resource that select objects for a predicate (C102). *)
From Coq Require Import Permutation.
From Verif Require Import Model.Py Model.Terms Model.Graph Model.GraphRun Model.Codec Model.Curie Model.Resource Model.ResourceRun
  Spec.GraphSpec Spec.CurieSpec Spec.ResourceSpec
  Proofs.DictLemmas Proofs.GraphInv Proofs.GraphHist Proofs.CurieLemmas Proofs.CurieMore Proofs.LangLemmas Proofs.ResourceLemmas
  Proofs.ClassLemmas Proofs.ResourceRead Proofs.ResourceMore Proofs.ResourceSet Proofs.ResourceAccept.
Open Scope N_scope.

Lemma keeps_filter {A} : forall (f : A -> bool) K l, (forall x, In x l -> (f x = true <-> K x)) -> keeps K l (filter f l).
Proof.
  intros f K. induction l as [|x l IH]; intros H; cbn [filter]; [constructor|].
  assert (T : keeps K l (filter f l)) by (apply IH; intros y J; apply H; now right).
  destruct (f x) eqn:E.
  - apply keeps_take; [apply H; [now left|exact E]|exact T].
  - apply keeps_drop; [|exact T]. intro X. apply H in X; [congruence|now left].
Qed.
Lemma honoured_wild : forall a, honoured a -> as_wildcard a = a.
Proof. intros a H. unfold as_wildcard. destruct (oterm_eq_dec a (Some empty_iri)); [contradiction|reflexivity]. Qed.
Lemma objects_all : forall g s p, reachable g -> honoured (Some s) -> honoured (option_map Iri p) ->
  objects_of (g_iter g) s (option_map Iri p) (objects g s p).
Proof.
  intros g s p R Hs Hp. exists (g_match g (Some s) (Resource.pred p) None). split; [|reflexivity].
  pose proof (g_match_lists g (Some s) (Resource.pred p) None (reachable_wf _ R)) as M.
  unfold Resource.pred in *. rewrite !honoured_wild in M by (assumption || discriminate). exact M.
Qed.
Lemma tagged_filter_spec : forall t, match t with Lit _ (Some _) _ => true | _ => false end = true <-> tagged t.
Proof.
  intros [x|a|v [l|] d]; unfold tagged; split; try discriminate; try (intros (v' & l2 & d2 & E); discriminate); [|reflexivity].
  intros _. eauto.
Qed.
Lemma bare_keeps : forall g s p, keeps bare (objects g s p) (bare_literals g s p).
Proof. intros. apply keeps_filter. intros x _. apply is_bare_spec. Qed.
Lemma lang_keeps : forall g s p lang, keeps (lang_wanted lang) (objects g s p) (objects_by_lang g s p lang).
Proof.
  intros g s p [[|c l]|]; cbn [lang_wanted objects_by_lang].
  - apply bare_keeps.
  - apply keeps_filter. intros x _. apply lang_filter_spec.
  - apply keeps_filter. intros x _. apply tagged_filter_spec.
Qed.
Lemma type_keeps : forall g s p dt, keeps (type_wanted dt) (objects g s p) (objects_by_datatype g s p dt).
Proof.
  intros g s p [[|c l]|]; cbn [type_wanted objects_by_datatype].
  - apply bare_keeps.
  - apply keeps_filter. intros x _. apply dt_filter_spec.
  - apply keeps_filter. intros x _. apply typed_filter_spec.
Qed.
Lemma node_keeps : forall ord w c g s p, exists os, objects_by_type ord w c g s p None = (w, Ok os) /\ keeps node (objects g s p) os.
Proof.
  intros. eexists. split; [reflexivity|]. apply keeps_filter. intros x _. apply is_node_spec.
Qed.
Lemma single_extends : forall w w' G tp o, extends w w' -> single w G tp o -> single w' G tp o.
Proof.
  intros w w' G tp o (_ & _ & R & _) S t t' k k' A B C D. apply (S t t' k k'); auto.
  - assert (X : reg_type (w_reg w') (Iri t) = Some k) by (apply reg_type_registered; eauto). rewrite R in X.
    apply reg_type_registered in X. destruct X as (u & [= ->] & X). exact X.
  - assert (X : reg_type (w_reg w') (Iri t') = Some k') by (apply reg_type_registered; eauto). rewrite R in X.
    apply reg_type_registered in X. destruct X as (u & [= ->] & X). exact X.
Qed.
Lemma instances_fail : forall ord c g k tp, reachable g -> shuffle ord -> forall l w w' e, wreach w -> valid w c -> key_means w c (s2l "rdf:type") tp ->
  (forall o, In o l -> honoured (Some o)) -> instances ord w c g k l = (w', Err e) ->
  exists o, In o l /\ node o /\ ~ single w (g_iter g) tp o.
Proof.
  intros ord c g k tp RG SH. induction l as [|t l IH]; intros w w' e WR V MT HO H; cbn [instances] in H; [discriminate|].
  pose proof (wreach_if_inv _ _ WR) as I.
  destruct (is_node t) eqn:N.
  - apply is_node_spec in N. destruct (classify ord w c g t) as [w1 r] eqn:K.
    destruct (classify_node _ _ _ _ _ _ _ _ RG WR SH V MT N (HO t (or_introl eq_refl)) K) as [WR1 [(-> & -> & NS)|(k' & -> & _)]].
    + exists t. split; [now left|]. auto.
    + destruct (classify_spec _ _ _ _ _ _ _ I SH V K) as (_ & X1 & _).
      destruct (instances ord w1 c g k l) as [w2 [ts|e2]] eqn:Q; cbn [bind] in H; [discriminate|].
      destruct (IH w1 w2 e2 WR1 (extends_valid _ _ _ X1 V)) as (o & J & No & NS); auto.
      { apply resolve_means. apply resolve_means in MT. rewrite (resolve_extends _ _ _ _ X1 V). exact MT. }
      { intros o J. apply HO. now right. }
      exists o. split; [now right|]. split; [exact No|]. intro S. apply NS. eapply single_extends; eauto.
  - destruct (IH w w' e WR V MT) as (o & J & No & NS); auto. { intros o J. apply HO. now right. }
    exists o. split; [now right|]. auto.
Qed.
Lemma class_keeps : forall ord w c g s p k tp, reachable g -> shuffle ord -> wreach w -> valid w c -> written w k ->
  key_means w c (s2l "rdf:type") tp -> ~ In empty_iri (objects g s p) ->
  exists w', (objects_by_type ord w c g s p (Some k) = (w', Err TypeError) /\
               exists o, In o (objects g s p) /\ node o /\ ~ single w (g_iter g) tp o) \/
  exists os, objects_by_type ord w c g s p (Some k) = (w', Ok os) /\ keeps (instance w (g_iter g) tp k) (objects g s p) os.
Proof.
  intros ord w c g s p k tp RG SH WR V WK MT NE. pose proof (reachable_wf _ RG) as W. pose proof (wreach_if_inv _ _ WR) as I.
  destruct (rdf_type_means _ _ _ I V MT) as [RT NT]. unfold objects_by_type.
  assert (HO : forall o, In o (objs g s p) -> honoured (Some o)) by (intros o J [= ->]; exact (NE J)).
  fold (objects g s p) in *.
  destruct (instances ord w c g k (objects g s p)) as [w' x] eqn:E. exists w'.
  destruct (instances_spec ord c g k tp SH W NT _ _ _ _ I (wreach_cached _ WR) V WK RT HO E) as (I' & C' & X' & Y).
  destruct x as [os|e].
  - right. exists os. split; [reflexivity|]. destruct Y as [[_ YF] Y]. rewrite YF. apply keeps_filter. intros o J. rewrite among_spec, Y. tauto.
  - left. subst e. split; [reflexivity|]. eapply instances_fail; eauto.
Qed.

(** no literal has both a language and a datatype: nodes, bare, tagged and typed
    literals are all the objects *)
Lemma partition_objects : forall ord w c g s p os, (forall v l d, ~ In (Lit v (Some l) (Some d)) (objects g s p)) ->
  objects_by_type ord w c g s p None = (w, Ok os) ->
  Permutation (objects g s p) (os ++ bare_literals g s p ++ objects_by_lang g s p None ++ objects_by_datatype g s p None).
Proof.
  intros ord w c g s p os NB H. injection H as <-. unfold bare_literals, objects_by_lang, objects_by_datatype. fold (objects g s p). revert NB.
  induction (objects g s p) as [|t l IH]; intro NB; [constructor|].
  assert (R := IH (fun v l' d J => NB v l' d (or_intror J))).
  destruct t as [x|a|v [la|] [d|]]; cbn [filter is_node is_bare].
  - cbn [app]. now constructor.
  - cbn [app]. now constructor.
  - exfalso. apply (NB v la d). now left.
  - rewrite !app_assoc. rewrite <- (app_assoc _ _ (filter _ l)). etransitivity; [|apply Permutation_app_comm].
    cbn [app]. etransitivity; [|apply Permutation_cons; [reflexivity|apply Permutation_app_comm]].
    constructor. rewrite <- app_assoc in *. rewrite app_assoc. rewrite <- app_assoc. exact R.
  - rewrite !app_assoc. apply Permutation_cons_app. rewrite <- !app_assoc. exact R.
  - apply Permutation_cons_app. exact R.
Qed.

(** ** If no object has two registered types, classes are never combined *)
Lemma instances_single : forall ord w c g k tp, wf g -> winv w -> shuffle ord -> valid w c -> key_means w c (s2l "rdf:type") tp ->
  forall l, (forall o, In o l -> node o -> honoured (Some o) /\ single w (g_iter g) tp o) -> exists ts, instances ord w c g k l = (w, Ok ts).
Proof.
  intros ord w c g k tp W I SH V MT. induction l as [|t l IH]; intro H; cbn [instances]; [eauto|].
  destruct IH as [ts E]; [intros o J; apply H; now right|].
  destruct (is_node t) eqn:N; [|eauto]. apply is_node_spec in N. destruct (H t (or_introl eq_refl) N) as [Ho S].
  destruct (classify_single ord w c g t tp W I SH V MT N Ho S) as (_ & _ & k' & ->). rewrite E. cbn [bind]. eauto.
Qed.
Lemma select_unmixed : forall ord w c g s t k p tp, reachable g -> honoured (Some s) -> p <> [] -> key_means w c t p ->
  shuffle ord -> wreach w -> valid w c -> written w k -> key_means w c (s2l "rdf:type") tp ->
  ~ has (g_iter g) s p empty_iri -> unmixed w (g_iter g) tp s p ->
  exists os, objects_for_key ord w c g s (KPair t (FClass k)) = (w, Ok (Some p, os)) /\
    lists os (fun o => has (g_iter g) s p o /\ instance w (g_iter g) tp k o).
Proof.
  intros ord w c g s t k p tp RG Hs Hp M SH WR V WK MT NE U. pose proof (reachable_wf _ RG) as W. pose proof (wreach_if_inv _ _ WR) as I.
  destruct (select_class ord w c g s t k p tp RG Hs Hp M SH WR V WK MT NE) as (w' & x & E & _ & D).
  assert (AL := all_lists g s p W Hs Hp).
  destruct (instances_single ord w c g k tp W I SH V MT (objs g s (Some p))) as [ts IS].
  { intros o J N. apply AL in J. split; [intros [= ->]; exact (NE J)|]. now apply U. }
  assert (E2 := E). unfold objects_for_key in E2. rewrite (interpret_ok _ _ (KPair t (FClass k)) p M) in E2. cbn [objects_by_type] in E2. rewrite IS in E2.
  cbn [bind] in E2. injection E2 as <- <-. destruct D as [D|(os & D & L)]; [discriminate|]. injection D as <-.
  exists ts. split; [exact E|]. exact L.
Qed.
Lemma read_unmixed : forall ord w c g s t k p tp, reachable g -> honoured (Some s) -> p <> [] -> key_means w c t p ->
  shuffle ord -> wreach w -> valid w c -> written w k -> key_means w c (s2l "rdf:type") tp ->
  ~ has (g_iter g) s p empty_iri -> unmixed w (g_iter g) tp s p ->
  let key := KPair t (FClass k) in
  let sel o := has (g_iter g) s p o /\ instance w (g_iter g) tp k o in
  exists os, lists os sel /\
    (exists b, contains ord w c g s key = (w, Ok b) /\ (b = true <-> exists o, sel o)) /\
    (~ scalar w c p -> getitem ord w c g s key = (w, Ok (Many os))) /\
    ((forall o, ~ sel o) -> (scalar w c p -> getitem ord w c g s key = (w, Ok (One RNone))) /\ get_scalar ord w c g s key = (w, Ok RNone)) /\
    (forall o, sel o -> (forall o', sel o' -> o' = o) ->
       exists k', (scalar w c p -> getitem ord w c g s key = (w, Ok (One (RRes k' o)))) /\ get_scalar ord w c g s key = (w, Ok (RRes k' o))) /\
    (forall o o', sel o -> sel o' -> o <> o' ->
       (scalar w c p -> getitem ord w c g s key = (w, Err ValueError)) /\ get_scalar ord w c g s key = (w, Err ValueError)) /\
    (exists g', delitem ord w c g s key = (w, g', Ok tt)).
Proof.
  intros ord w c g s t k p tp RG Hs Hp M SH WR V WK MT NE U key sel.
  destruct (select_unmixed ord w c g s t k p tp RG Hs Hp M SH WR V WK MT NE U) as (os & E & L). fold key in E. fold sel in L.
  pose proof (reachable_wf _ RG) as W. pose proof (wreach_if_inv _ _ WR) as I.
  destruct (one_lists os sel L) as (O0 & O1 & O2).
  assert (SC : forall A (a b : A), scalar w c p -> (if negb (in_scalars w c (Some p)) || false then a else b) = b).
  { intros A a b S. rewrite (proj2 (in_scalars_spec w c p) S). reflexivity. }
  exists os. split; [exact L|]. split; [|split; [|split; [|split; [|split]]]].
  - unfold contains. rewrite E. cbn [bind snd]. eexists. split; [reflexivity|]. destruct L as [_ L]. destruct os as [|o os].
    + split; [discriminate|]. intros (o & J). now apply L in J.
    + split; [|reflexivity]. intros _. exists o. apply L. now left.
  - intro S. unfold getitem. rewrite E. rewrite (proj2 (in_scalars_false w c p) S). reflexivity.
  - intro N. unfold getitem, get_scalar. rewrite E, (O0 N). split; [intro S|]; [unfold key; rewrite SC by exact S|]; reflexivity.
  - intros o So Un. assert (No : node o) by apply So. assert (Ho : honoured (Some o)) by (intros [= ->]; exact (NE (proj1 So))).
    destruct (classify_single ord w c g o tp W I SH V MT No Ho (U o (proj1 So) No)) as (_ & _ & k' & Ek).
    exists k'. unfold getitem, get_scalar. rewrite E, (O1 o So Un). cbn [classify_opt]. rewrite Ek.
    split; [intro S; unfold key; rewrite SC by exact S|]; reflexivity.
  - intros o o' A B D. unfold getitem, get_scalar. rewrite E, (O2 o o' A B D). split; [intro S; unfold key; rewrite SC by exact S|]; reflexivity.
  - destruct (delete_by_class ord w c g s t k p tp RG Hs Hp M SH WR V WK MT NE) as (w' & g' & r & D & C). fold key in D.
    unfold delitem in *. rewrite E in *. destruct (remove_objs g s (Some p) os) as [g2 x] eqn:R. injection D as <- <- <-.
    destruct (remove_objs_spec _ _ _ _ _ _ RG R) as (_ & X & _). destruct C as [(C & _)|(C & _)]; [|rewrite C; eauto]. destruct X; congruence.
Qed.
Lemma objectify_single : forall ord g tp0 w a lang dt, wf g -> winv w -> shuffle ord -> key_means w 0 (s2l "rdf:type") tp0 ->
  (forall t, a = ATerm t -> node t -> honoured (Some t) /\ single w (g_iter g) tp0 t) -> a <> APy VOther ->
  exists x, objectify ord w g a lang dt = (w, Ok x).
Proof.
  intros ord g tp0 w a lang dt W I SH MT H NO. destruct a as [t|c s|v].
  - destruct t as [x|n|x l d]; [| |cbn; eauto].
    + destruct (H _ eq_refl Logic.I) as [Ho S].
      destruct (classify_single ord w 0 g (Iri x) tp0 W I SH (i_zero _ I) MT Logic.I Ho S) as (_ & _ & k & E). cbn [objectify]. eauto.
    + destruct (H _ eq_refl Logic.I) as [Ho S].
      destruct (classify_single ord w 0 g (BNode n) tp0 W I SH (i_zero _ I) MT Logic.I Ho S) as (_ & _ & k & E). cbn [objectify]. eauto.
  - cbn. eauto.
  - destruct v; cbn; eauto. congruence.
Qed.
Lemma literalize_single : forall ord g tp0 w v lang dt, wf g -> winv w -> shuffle ord -> key_means w 0 (s2l "rdf:type") tp0 ->
  (forall t, In (ATerm t) (values v) -> node t -> honoured (Some t) /\ single w (g_iter g) tp0 t) -> (forall a, In a (values v) -> a <> APy VOther) ->
  exists lv, literalize ord w g v lang dt = (w, Ok lv).
Proof.
  intros ord g tp0 w v lang dt W I SH MT H NO. destruct v as [a|l]; cbn [literalize values] in *.
  - destruct (objectify_single ord g tp0 w a lang dt W I SH MT) as [x ->]; [intros t ->; apply H; now left|apply NO; now left|]. cbn. eauto.
  - assert (K : exists xs, objectify_all ord w g l lang dt = (w, Ok xs)).
    { induction l as [|a l IH]; cbn [objectify_all]; [eauto|].
      destruct (objectify_single ord g tp0 w a lang dt W I SH MT) as [x ->]; [intros t ->; apply H; now left|apply NO; now left|].
      destruct IH as [xs ->]; [intros t J; apply H; now right|intros b J; apply NO; now right|]. cbn. eauto. }
    destruct K as [xs ->]. cbn. eauto.
Qed.
Lemma set_unmixed : forall ord w c g s k p v w' g' r tp tp0 sc, reachable g -> honoured (Some s) -> p <> [] -> key_means w c (key_text k) p ->
  wreach w -> shuffle ord -> valid w c -> key_means w c (s2l "rdf:type") tp -> key_means w 0 (s2l "rdf:type") tp0 -> (sc = true <-> scalar w c p) ->
  (forall kc, class_key k = Some kc -> written w kc /\ ~ has (g_iter g) s p empty_iri /\ unmixed w (g_iter g) tp s p) ->
  (forall a, In a (values v) -> usable w a) -> (forall t, In (ATerm t) (values v) -> node t -> single w (g_iter g) tp0 t) ->
  setitem ord w c g s k v = (w', g', r) ->
  let lang := text_lang sc (lang_of w c) k in
  sane_literals (g_iter g) -> (forall a, In a (values v) -> a <> APy VOther) -> form_ok (scalar w c p) k v ->
  (forall t f, k = KPair t f -> ~ falsy f -> forall a o, In a (values v) -> one_value lang (text_type k) a o ->
     value_fits w (instance w (g_iter g) tp0) f a o) ->
  w' = w /\ r = Ok tt.
Proof.
  intros ord w c g s k p v w' g' r tp tp0 sc RG Hs Hp M WR SH V MT MT0 SC HC GV SV E lang SL NO FO VF.
  pose proof (reachable_wf _ RG) as W. pose proof (wreach_if_inv _ _ WR) as I.
  assert (Q : w' = w /\ r <> Err TypeError).
  { unfold setitem in E. destruct (interpret_text w c k p M) as (rc & EI & ->). rewrite EI in E.
    destruct (literalize_single ord g tp0 w v (text_lang (in_scalars w c (Some p)) (lang_of w c) k) (text_type k) W I SH MT0) as [lv EL];
      [intros t J N; split; [exact (GV _ J)|auto]|exact NO|]. rewrite EL in E. clear EL.
    assert (B : exists x, (if is_pair k then objects_for_explicit_set ord w c g s (Some p) lv (text_lang (in_scalars w c (Some p)) (lang_of w c) k) (text_type k) (class_key k)
                           else (w, objects_for_implicit_set w c g s (Some p) lv)) = (w, x) /\ x <> Err TypeError).
    { destruct k as [t|t f]; cbn [is_pair].
      - eexists. split; [reflexivity|]. unfold objects_for_implicit_set. destruct (in_scalars w c (Some p)); [|discriminate].
        destruct lv as [[|[?|?|? [[|? ?]|] ?]|]|]; discriminate.
      - unfold objects_for_explicit_set. destruct (check_objects w lv _ _ _) as [[|]|e] eqn:CO.
        + destruct (ostr_truthy (text_lang _ _ _)) eqn:TL; [destruct (in_scalars w c (Some p)); eexists; (split; [reflexivity|discriminate])|].
          destruct (in_scalars w c (Some p)) eqn:IS; [eexists; (split; [reflexivity|discriminate])|].
          destruct (ostr_truthy (text_type _)) eqn:TT; [eexists; (split; [reflexivity|discriminate])|].
          destruct (class_key (KPair t f)) as [kc|] eqn:CK.
          * destruct (HC kc eq_refl) as (WK & NE & U).
            destruct (instances_single ord w c g kc tp W I SH V MT (objects g s (Some p))) as [ts EI'].
            -- intros o J N. apply (all_lists g s p W Hs Hp) in J. split; [intros [= ->]; contradiction|auto].
            -- unfold objects_by_type. fold (objects g s (Some p)). rewrite EI'. eexists. split; [reflexivity|discriminate].
          * exfalso. apply in_scalars_false in IS. apply IS. cbn [form_ok] in FO. apply FO. apply (falsy_filters false (lang_of w c) t f). auto.
        + eexists. split; [reflexivity|discriminate].
        + eexists. split; [reflexivity|]. apply check_errors in CO. congruence. }
    destruct B as (x & B & NX). rewrite B in E. destruct x as [os|e]; [|injection E as <- <- <-; split; [reflexivity|congruence]].
    destruct (remove_objs g s (Some p) os) as [g1 y] eqn:RM. destruct (remove_objs_spec _ _ _ _ _ _ RG RM) as (_ & [-> | ->] & _);
      injection E as <- <- <-; (split; [reflexivity|discriminate]). }
  destruct Q as [Q1 Q2]. split; [exact Q1|].
  destruct (set_accepts ord w c g s k p v w' g' r tp tp0 sc RG Hs Hp M WR SH V MT MT0 SC) as [R|[R _]]; auto; [|contradiction].
  intros kc K. destruct (HC kc K) as (A & B & _). auto.
Qed.
Lemma delete_unmixed : forall ord w c g s t k p tp, reachable g -> honoured (Some s) -> p <> [] -> key_means w c t p ->
  shuffle ord -> wreach w -> valid w c -> written w k -> key_means w c (s2l "rdf:type") tp ->
  ~ has (g_iter g) s p empty_iri -> unmixed w (g_iter g) tp s p ->
  exists g', delitem ord w c g s (KPair t (FClass k)) = (w, g', Ok tt) /\
    forall x, In x (g_iter g') <-> In x (g_iter g) /\ ~ exists o, has (g_iter g) s p o /\ instance w (g_iter g) tp k o /\ x = Tr s (Iri p) o.
Proof.
  intros ord w c g s t k p tp RG Hs Hp M SH WR V WK MT NE U.
  destruct (select_unmixed ord w c g s t k p tp RG Hs Hp M SH WR V WK MT NE U) as (os & E & L).
  destruct (read_unmixed ord w c g s t k p tp RG Hs Hp M SH WR V WK MT NE U) as (_ & _ & _ & _ & _ & _ & _ & g' & D).
  exists g'. split; [exact D|]. unfold delitem in D. rewrite E in D. destruct (remove_objs g s (Some p) os) as [g2 x] eqn:R. injection D as -> ->.
  destruct (remove_objs_spec _ _ _ _ _ _ RG R) as (_ & _ & _ & _ & X & _). intro x. rewrite (X eq_refl). destruct L as [_ L]. split; intros [A B]; (split; [exact A|]).
  - intros (o & H1 & H2 & ->). apply (B o); [now apply L|reflexivity].
  - intros o J ->. apply B. exists o. apply L in J. tauto.
Qed.
