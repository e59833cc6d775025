(** The class List in every world. *)
From Verif Require Import Model.Py Model.Terms Model.Graph Model.Curie Model.GraphRun Model.Resource Model.ResourceRun Spec.GraphSpec Spec.CurieSpec
  Spec.ResourceSpec Spec.TurtleSpec Spec.TurtleOutSpec Proofs.GraphInv Proofs.GraphHist Proofs.CurieLemmas Proofs.CurieMore Proofs.ResourceLemmas
  Proofs.ClassLemmas Proofs.ResourceRead Proofs.ResourceSet Proofs.ResourceMore.
Open Scope N_scope.

Definition body (x : cls) := (c_prefixes x, c_scalars x, c_lang x, c_mro x).
Definition kept (w w' : world) : Prop := forall c, valid w c -> valid w' c /\ body (class_at w' c) = body (class_at w c).
Lemma kept_extends : forall w w', extends w w' -> kept w w'.
Proof. intros w w' X c V. split; [exact (extends_valid _ _ _ X V)|]. destruct X as (_ & C & _). now rewrite C. Qed.
Lemma wreach_body : forall early w, wreach_if early w -> kept world0 w.
Proof.
  assert (TR : forall a b c, kept a b -> kept b c -> kept a c).
  { intros a b c A B k V. destruct (A k V) as [V' E]. destruct (B k V') as [V'' E']. split; congruence. }
  induction 1 as [|w name bases own scalars lang rdfs R IH NE VB|w t c R IH E V|ord w c g o R IH SH V|w gp gt R IH].
  - intros c V. auto.
  - apply (TR _ w); [exact IH|]. apply kept_extends. destruct (make_class _ _ _ _ _ _ _) as [w' r] eqn:M. exact (make_class_extends _ _ _ _ _ _ _ _ _ M).
  - apply (TR _ w); [exact IH|]. unfold register_class. destruct (resolve w c t) as [[iri|]|e]; cbn [fst]; [|intros k K; auto..].
    intros k K. split; [unfold valid, set_rdf; cbn; now rewrite length_upd|]. rewrite set_rdf_class by exact V. destruct (Nat.eq_dec c k); reflexivity.
  - apply (TR _ w); [exact IH|]. apply kept_extends. destruct (classify ord w c g o) as [w' r] eqn:M.
    exact (proj1 (proj2 (classify_spec _ _ _ _ _ _ _ (wreach_if_inv _ _ R) SH V M))).
  - exact IH.
Qed.
Notation LC := (list_class 1 (rdf_name "first") (rdf_name "rest") (rdf_name "nil") (rdf_name "type")).
Lemma resolve_kept : forall w key iri, c_prefixes (class_at w 1) = c_prefixes (class_at world0 1) ->
  parse_curie key (c_prefixes (class_at world0 1)) = Ok iri -> key_means w 1 key iri.
Proof. intros w key iri E H. apply resolve_means. unfold resolve. now rewrite E, H. Qed.
Lemma list_class_reached : forall early w, wreach_if early w -> LC w /\ lang_of w 1 = s2l "en".
Proof.
  intros early w R. pose proof (wreach_body _ _ R) as K.
  assert (V0 : valid world0 0 /\ valid world0 1) by (vm_compute; lia). destruct V0 as [V0 V1].
  destruct (K _ V0) as [_ B0]. destruct (K _ V1) as [V B1]. unfold body in B0, B1.
  assert (P := f_equal (fun x => fst (fst (fst x))) B1). assert (S := f_equal (fun x => snd (fst (fst x))) B1).
  assert (LA0 := f_equal (fun x => snd (fst x)) B0). assert (LA1 := f_equal (fun x => snd (fst x)) B1). assert (M := f_equal snd B1). cbn [fst snd] in P, S, LA0, LA1, M.
  assert (LG : lang_of w 1 = s2l "en").
  { unfold lang_of. rewrite M. assert (EM : c_mro (class_at world0 1) = [1%nat; O]) by (vm_compute; reflexivity). rewrite EM. cbn [map]. rewrite LA0, LA1.
    vm_compute. reflexivity. }
  split; [|exact LG]. split; [exact (wreach_if_inv _ _ R)|]. split; [exact V|].
  split; [apply (resolve_kept w _ _ P); vm_compute; reflexivity|].
  split; [apply (resolve_kept w _ _ P); vm_compute; reflexivity|].
  split; [apply (resolve_kept w _ _ P); vm_compute; reflexivity|].
  split; [apply (resolve_kept w _ _ P); vm_compute; reflexivity|].
  assert (SC : forall x, (if in_dec str_eq_dec x (c_scalars (class_at world0 1)) then true else false) = true -> scalar w 1 x).
  { intros x X. unfold scalar. rewrite S. destruct (in_dec str_eq_dec x (c_scalars (class_at world0 1))); [assumption|discriminate]. }
  split; [apply SC; vm_compute; reflexivity|]. split; [apply SC; vm_compute; reflexivity|].
  rewrite LG. discriminate.
Qed.
(** reading and iterating only add classes *)
Lemma classify_opt_extends : forall ord w c g o w' r, winv w -> shuffle ord -> valid w c -> classify_opt ord w c g o = (w', r) -> winv w' /\ extends w w'.
Proof.
  intros ord w c g [o|] w' r I SH V H; cbn in H; [|injection H as <- <-; split; [exact I|apply extends_refl]].
  destruct (classify_spec _ _ _ _ _ _ _ I SH V H) as (A & B & _). auto.
Qed.
Lemma getitem_extends : forall ord w c g s t w' r, winv w -> shuffle ord -> valid w c -> getitem ord w c g s (KName t) = (w', r) -> winv w' /\ extends w w'.
Proof.
  intros ord w c g s t w' r I SH V H. unfold getitem in H.
  assert (O : fst (objects_for_key ord w c g s (KName t)) = w).
  { unfold objects_for_key. cbn [interpret_key]. destruct (resolve w c t) as [p|e]; [|reflexivity]. cbn [bind]. destruct (in_scalars w c p); [|reflexivity].
    now destruct (lang_of w c). }
  destruct (objects_for_key ord w c g s (KName t)) as [w1 [[p os]|e]]; cbn [fst] in O; subst w1.
  - destruct (negb (in_scalars w c p) || false); [injection H as <- <-; split; [exact I|apply extends_refl]|].
    destruct (one_or_none os) as [o|e]; [|injection H as <- <-; split; [exact I|apply extends_refl]].
    destruct (classify_opt ord w c g o) as [w2 x] eqn:E. injection H as <- <-. exact (classify_opt_extends _ _ _ _ _ _ _ I SH V E).
  - injection H as <- <-. split; [exact I|apply extends_refl].
Qed.
Lemma list_iter_extends : forall ord c g, shuffle ord -> forall f w s w' r, winv w -> valid w c -> list_iter ord f w c g s = (w', r) -> winv w' /\ extends w w'.
Proof.
  intros ord c g SH. induction f as [|f IH]; intros w s w' r I V H; cbn [list_iter] in H.
  - injection H as <- <-. split; [exact I|apply extends_refl].
  - destruct (resolve w c (s2l "rdf:nil")) as [nl|e]; [|injection H as <- <-; split; [exact I|apply extends_refl]].
    destruct (oterm_eq_dec (Some s) (Resource.pred nl)); [injection H as <- <-; split; [exact I|apply extends_refl]|].
    destruct (getitem ord w c g s (KName (s2l "rdf:first"))) as [w1 [v|e]] eqn:E1; destruct (getitem_extends _ _ _ _ _ _ _ _ I SH V E1) as [I1 X1].
    2:{ injection H as <- <-. auto. }
    pose proof (extends_valid _ _ _ X1 V) as V1.
    destruct (getitem ord w1 c g s (KName (s2l "rdf:rest"))) as [w2 [v2|e]] eqn:E2; destruct (getitem_extends _ _ _ _ _ _ _ _ I1 SH V1 E2) as [I2 X2];
      pose proof (extends_trans _ _ _ X1 X2) as X12.
    2:{ injection H as <- <-. auto. }
    destruct v2 as [os|[|t|k s']]; try (injection H as <- <-; auto).
    destruct (list_iter ord f w2 c g s') as [w3 [vs x]] eqn:E3. injection H as <- <-.
    destruct (IH _ _ _ _ I2 (extends_valid _ _ _ X12 V) E3) as [I3 X3]. split; [exact I3|exact (extends_trans _ _ _ X12 X3)].
Qed.
Lemma is_list_spec : forall w g o, reachable g -> LC w -> honoured (Some o) ->
  is_list w 1 g o = Ok true /\ list_cell (g_iter g) o \/ is_list w 1 g o = Ok false /\ ~ list_cell (g_iter g) o.
Proof.
  intros w g o RG (_ & _ & _ & MR & _) H. apply resolve_means in MR. unfold is_list. rewrite MR. cbn [bind].
  assert (ML := objs_lists g o (rdf_name "rest") (reachable_wf _ RG) H ltac:(discriminate)). unfold objs in ML.
  destruct (g_match g (Some o) (Resource.pred (Some (rdf_name "rest"))) None) as [|t l].
  - right. split; [reflexivity|]. intros [x X]. apply (proj2 ML x). exact X.
  - left. split; [reflexivity|]. exists (st_o t). apply (proj2 ML (st_o t)). now left.
Qed.
