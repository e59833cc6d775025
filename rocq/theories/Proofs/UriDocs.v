(** Turtle documents with urllib's urljoin. *)
From Verif Require Import Model.Py Model.Terms Model.Codec Model.TurtleTree Model.UrlJoin Model.Turtle Spec.CodecSpec Spec.TurtleSpec Spec.UriSpec
  Proofs.CurieLemmas Proofs.TurtleLemmas Proofs.TurtleReject Proofs.TurtleDoc Proofs.TurtleTrip Proofs.TurtleRound Proofs.UriLemmas Proofs.UriParse Proofs.UriDots Proofs.UriJoin Proofs.UriAbs.
Open Scope N_scope.

(** ** A text has one reading *)
Lemma split_first : forall (P : char -> Prop) a b c d, Forall (fun x => ~ P x) a -> Forall (fun x => ~ P x) c ->
  (b = [] \/ exists x r, b = x :: r /\ P x) -> (d = [] \/ exists x r, d = x :: r /\ P x) -> a ++ b = c ++ d -> a = c /\ b = d.
Proof.
  induction a as [|x a IH]; intros b [|y c] d A C B D E; cbn in E.
  - auto.
  - exfalso. inversion_clear C. destruct B as [->|(z & r & -> & Z)]; [discriminate|]. injection E as -> _. contradiction.
  - exfalso. inversion_clear A. destruct D as [->|(z & r & -> & Z)]; [discriminate|]. injection E as -> _. contradiction.
  - injection E as -> E. inversion_clear A. inversion_clear C. destruct (IH b c d) as [-> ->]; auto.
Qed.
Lemma pre_opt_inj : forall c o o', pre_opt [c] o = pre_opt [c] o' -> o = o'.
Proof. intros c [x|] [y|] E; cbn in E; try discriminate; auto. injection E as ->. reflexivity. Qed.
Lemma pre_opt_start : forall c o, pre_opt [c] o = [] \/ exists x r, pre_opt [c] o = x :: r /\ x = c.
Proof. intros c [x|]; [right; exists c, x; auto|now left]. Qed.
Definition scheme_part (r : uri) : str := match r_scheme r with Some s => s ++ [58] | None => [] end.
Lemma scheme_chars : forall s, scheme_name s -> Forall (fun c => ~ (c = 47 \/ c = 58 \/ c = 63)) s.
Proof.
  intros s (c & r & -> & A & F). constructor; [unfold alpha in A; lia|]. apply Forall_impl with (2 := F). intros x X. unfold schar, alpha in X. lia.
Qed.
Lemma no_query : forall R, uri_ok R -> ~ In 63 (scheme_part R ++ pre_opt [47; 47] (r_auth R) ++ r_path R).
Proof.
  intros R (S1 & S2 & S3 & _). unfold scheme_part. rewrite !in_app_iff. intros [X|[X|X]].
  - destruct (r_scheme R); [|destruct X]. apply in_app_or in X. destruct X as [X|[X|[]]]; [|discriminate].
    apply scheme_chars in S1. rewrite Forall_forall in S1. apply S1 in X. tauto.
  - destruct (r_auth R); cbn in X; [|destruct X]. destruct X as [X|[X|X]]; try discriminate. cbn in S2. rewrite Forall_forall in S2. apply S2 in X. tauto.
  - rewrite Forall_forall in S3. apply S3 in X. tauto.
Qed.
Lemma not_in_Forall : forall c (s : str), ~ In c s -> Forall (fun x => ~ x = c) s.
Proof. intros c s N. apply Forall_forall. intros x X ->. contradiction. Qed.
(** the first "/" or ":" of a text without a scheme is no ":" *)
Lemma no_scheme_colon : forall R a b, uri_ok R -> r_scheme R = None -> pre_opt [47; 47] (r_auth R) ++ r_path R = a ++ 58 :: b -> In 47 a.
Proof.
  intros R a b (_ & _ & _ & _ & _ & _ & H) S E. destruct (r_auth R) as [x|] eqn:A.
  - cbn in E. destruct a as [|y a]; [discriminate|]. injection E as <- _. now left.
  - cbn in E. eauto.
Qed.
Lemma uri_text_unique : forall A B, uri_ok A -> uri_ok B -> uri_text A = uri_text B -> A = B.
Proof.
  intros A B OA OB E. rewrite (text_frag A), (text_frag B) in E. apply (split_first (fun x => x = 35)) in E; auto using not_in_Forall, no_hash, pre_opt_start.
  destruct E as [E EF]. apply pre_opt_inj in EF. fold (scheme_part A) (scheme_part B) in E.
  rewrite !(app_assoc _ (r_path _)), !(app_assoc (scheme_part _)) in E. rewrite <- !(app_assoc _ _ (r_path _)) in E || idtac.
  apply (split_first (fun x => x = 63)) in E; auto using pre_opt_start.
  2:{ apply not_in_Forall. rewrite ?app_assoc_reverse. now apply no_query. }
  2:{ apply not_in_Forall. rewrite ?app_assoc_reverse. now apply no_query. }
  destruct E as [E EQ]. apply pre_opt_inj in EQ. rewrite ?app_assoc_reverse in E.
  assert (K : r_scheme A = r_scheme B /\ pre_opt [47; 47] (r_auth A) ++ r_path A = pre_opt [47; 47] (r_auth B) ++ r_path B).
  { unfold scheme_part in E. assert (NA := fun a b => no_scheme_colon A a b OA). assert (NB := fun a b => no_scheme_colon B a b OB). destruct OA as (SA & _), OB as (SB & _).
    destruct (r_scheme A) as [s|], (r_scheme B) as [t|].
    - rewrite <- !app_assoc in E. apply (split_first (fun x => x = 58)) in E.
      + destruct E as [-> E]. injection E as E. auto.
      + apply Forall_impl with (2 := scheme_chars _ SA). tauto.
      + apply Forall_impl with (2 := scheme_chars _ SB). tauto.
      + right. cbn [app]. eexists _, _. split; reflexivity.
      + right. cbn [app]. eexists _, _. split; reflexivity.
    - exfalso. rewrite <- app_assoc in E. cbn [app] in E. apply scheme_chars in SA. rewrite Forall_forall in SA.
      assert (J : In 47 s) by (eapply NB; [reflexivity|symmetry; exact E]). apply SA in J. tauto.
    - exfalso. rewrite <- app_assoc in E. cbn [app] in E. apply scheme_chars in SB. rewrite Forall_forall in SB.
      assert (J : In 47 t) by (eapply NA; [reflexivity|exact E]). apply SB in J. tauto.
    - auto. }
  destruct K as [ES EH]. destruct OA as (_ & A2 & _ & _ & _ & A6 & _), OB as (_ & B2 & _ & _ & _ & B6 & _).
  destruct A as [sa aa pa qa fa], B as [sb ab pb qb fb]; cbn in *. subst.
  destruct aa as [x|], ab as [y|]; cbn in *.
  - injection EH as EH. apply (split_first (fun c => c = 47)) in EH.
    + destruct EH as [-> ->]. reflexivity.
    + apply Forall_impl with (2 := A2). tauto.
    + apply Forall_impl with (2 := B2). tauto.
    + destruct A6 as [->|[r ->]]; eauto.
    + destruct B6 as [->|[r ->]]; eauto.
  - exfalso. apply B6. eauto.
  - exfalso. apply A6. eauto.
  - now subst.
Qed.

(** ** What RFC 3986 says is what urllib does *)
Lemma target_self : forall B R s, r_scheme R = Some s -> no_dot_segment (r_path R) -> target B R R.
Proof.
  intros B [sr ar pr qr fr] s E N. cbn in *. subst. apply (TgScheme B (mkUri (Some s) ar pr qr fr) s pr); auto. now apply dots_none.
Qed.
Lemma agreed_join : forall bo nk B R, agreed B R -> exists T, target B R T /\ smart_urljoin (urljoin bo nk) (uri_text B) (uri_text R) = Ok (uri_text T).
Proof.
  intros bo nk B R [HB HR|s LB SB KR SR LS N C|s c a LB SB IS KR SR AR N].
  - now apply join_relative.
  - exists R. split; [eapply target_self; eauto|eapply join_absolute; eauto].
  - exists (mkUri (r_scheme B) (Some (c :: a)) (r_path R) (r_query R) (r_frag R)). split.
    + apply TgAuth; auto. now apply dots_none.
    + rewrite (join_network bo nk B R s c a) by auto. unfold uri_text, hier_text. cbn. now rewrite SB, SR, AR, <- app_assoc.
Qed.
Lemma rfc_incl : forall bo nk b u x, rfc_resolves b u x -> resolves_by (urljoin bo nk) b u x.
Proof.
  intros bo nk b u x [[-> ->]|(B & R & T & -> & -> & A & H & ->)]; apply smart_resolves.
  - apply smart_same. reflexivity.
  - destruct (agreed_join bo nk B R A) as (T' & H' & E). now rewrite (target_unique _ _ _ _ H H').
Qed.

(** ** One reading for another *)
Section Switch.
  Variables R1 R2 : str -> str -> str -> Prop.
  Hypothesis INC : forall b u x, R1 b u x -> R2 b u x.
  Hypothesis FUN : forall b u x y, R2 b u x -> R2 b u y -> x = y.
  Lemma ref_incl : forall e body x, ref_means R1 e body x -> ref_means R2 e body x.
  Proof. intros e body x (u & D & F & R). exists u. auto. Qed.
  Lemma iri_incl : forall e i x, iri_means R1 e i x -> iri_means R2 e i x.
  Proof. intros e i x M. destruct M; constructor; auto using ref_incl. Qed.
  Lemma ref_switch : forall e body x y, ref_means R1 e body x -> ref_means R2 e body y -> x = y.
  Proof. intros e body x y M M'. apply ref_incl in M. eapply ref_det; eauto. Qed.
  Lemma iri_switch : forall e i x y, iri_means R1 e i x -> iri_means R2 e i y -> iri_means R1 e i y.
  Proof. intros e i x y M M'. assert (x = y) by (eapply (iri_det R2); eauto using iri_incl). now subst. Qed.
  Lemma lit_switch : forall e x t t', lit_means R1 e x t -> lit_means R2 e x t' -> lit_means R1 e x t'.
  Proof. intros e x t t' M M'. destruct M'; inversion M; subst; econstructor; eauto using iri_switch. Qed.
  Lemma lit_incl : forall e x t, lit_means R1 e x t -> lit_means R2 e x t.
  Proof. intros e x t M. destruct M; econstructor; eauto using iri_incl. Qed.
  Lemma verb_switch : forall e v p p', verb_means R1 e v p -> verb_means R2 e v p' -> verb_means R1 e v p'.
  Proof. intros e v p p' M M'. destruct M'; inversion M; subst; econstructor; eauto using iri_switch. Qed.
  Section Trees.
    Variables (e : tenv) (L L' : str -> N).
    Definition sw_o (o : tobj) : Prop := forall x ts bs x' ts' bs', obj_means R1 e L o x ts bs -> obj_means R2 e L' o x' ts' bs' -> obj_means R1 e L' o x' ts' bs'.
    Definition sw_p (p : tpol) : Prop := forall s s' ts bs ts' bs', pol_means R1 e L s p ts bs -> pol_means R2 e L' s' p ts' bs' -> pol_means R1 e L' s' p ts' bs'.
    Definition sw_l (l : tobjs) : Prop := sw_o (TColl l) /\ forall v p, sw_p p -> sw_p (PCons v l p).
    Lemma trees_switch : (forall o, sw_o o) /\ (forall l, sw_l l) /\ (forall p, sw_p p).
    Proof.
      apply tree_ind3.
      - intros i x ts bs x' ts' bs' M M'. inversion M; inversion M'; subst. constructor. eauto using iri_switch.
      - intros l x ts bs x' ts' bs' M M'. inversion M'; subst. constructor.
      - intros x ts bs x' ts' bs' M M'. inversion M'; subst. constructor.
      - intros l [H _]. exact H.
      - intros p H x ts bs x' ts' bs' M M'. inversion M; inversion M'; subst. constructor. eauto.
      - intros y x ts bs x' ts' bs' M M'. inversion M; inversion M'; subst. constructor. eauto using lit_switch.
      - split.
        + intros x ts bs x' ts' bs' M M'. inversion M'; subst. constructor.
        + intros v p H s s' ts bs ts' bs' M M'. inversion M; inversion M'; subst. constructor. eauto.
      - intros o HO l [HC HP]. split.
        + intros x ts bs x' ts' bs' M M'. inversion M; inversion M'; subst. constructor; eauto.
        + intros v p H s s' ts bs ts' bs' M M'. inversion M; inversion M'; subst. constructor; eauto using verb_switch. eapply (HP v p H); eauto.
      - intros s s' ts bs ts' bs' M M'. inversion M'; subst. constructor.
      - intros v l [_ HP] p H. apply HP. exact H.
    Qed.
  End Trees.
  Lemma doc_switch : forall L L' e d ts bs ts' bs', doc_means R1 L e d ts bs -> doc_means R2 L' e d ts' bs' -> doc_means R1 L' e d ts' bs'.
  Proof.
    intros L L' e d ts bs ts' bs' M. revert ts' bs'.
    induction M as [e|e ns body iri d ts bs R M IH|e body iri d ts bs R M IH|e s p d x t1 t2 t3 b1 b2 b3 MO MP M IH]; intros ts' bs' M'.
    - inversion M'; subst. constructor.
    - inversion M'; subst. match goal with H : ref_means R2 _ _ ?i |- _ => assert (X : iri = i) by (eapply ref_switch; eauto); subst end. econstructor; eauto.
    - inversion M'; subst. match goal with H : ref_means R2 _ _ ?i |- _ => assert (X : iri = i) by (eapply ref_switch; eauto); subst end. econstructor; eauto.
    - inversion M'; subst. destruct (trees_switch e L L') as (DO & _ & DP). econstructor; eauto. eapply DO; eauto. eapply DP; eauto.
  Qed.
  (** readings of one kind are readings of the other *)
  Section Trees.
    Variables (e : tenv) (L : str -> N).
    Definition in_o (o : tobj) : Prop := forall x ts bs, obj_means R1 e L o x ts bs -> obj_means R2 e L o x ts bs.
    Definition in_p (p : tpol) : Prop := forall s ts bs, pol_means R1 e L s p ts bs -> pol_means R2 e L s p ts bs.
    Definition in_l (l : tobjs) : Prop := in_o (TColl l) /\ forall v p, in_p p -> in_p (PCons v l p).
    Lemma trees_incl : (forall o, in_o o) /\ (forall l, in_l l) /\ (forall p, in_p p).
    Proof.
      apply tree_ind3.
      - intros i x ts bs M. inversion M; subst. constructor. auto using iri_incl.
      - intros l x ts bs M. inversion M; subst. constructor.
      - intros x ts bs M. inversion M; subst. constructor.
      - intros l [H _]. exact H.
      - intros p H x ts bs M. inversion M; subst. constructor. eauto.
      - intros y x ts bs M. inversion M; subst. constructor. auto using lit_incl.
      - split.
        + intros x ts bs M. inversion M; subst. constructor.
        + intros v p H s ts bs M. inversion M; subst. constructor. eauto.
      - intros o HO l [HC HP]. split.
        + intros x ts bs M. inversion M; subst. constructor; eauto.
        + intros v p H s ts bs M. inversion M as [| |? ? q ? ? ? y t1 t2 b1 b2 V M1 M2]; subst. constructor; eauto.
          * destruct V; constructor; auto using iri_incl.
          * eapply (HP v p H); eauto.
      - intros s ts bs M. inversion M; subst. constructor.
      - intros v l [_ HP] p H. apply HP. exact H.
    Qed.
  End Trees.
  Lemma doc_incl : forall L e d ts bs, doc_means R1 L e d ts bs -> doc_means R2 L e d ts bs.
  Proof.
    intros L e d ts bs M. induction M; try (econstructor; eauto using ref_incl; fail). destruct (trees_incl e L) as (DO & _ & DP).
    eapply dm_triples; [apply DO; eassumption|apply DP; eassumption|eassumption].
  Qed.
End Switch.
