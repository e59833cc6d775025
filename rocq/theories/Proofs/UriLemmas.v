(** urljoin and RFC 3986: paths and segments. *)
From Verif Require Import Model.Py Model.Codec Model.UrlJoin Spec.UriSpec.
Open Scope N_scope.

Definition segs_text (l : list str) : str := concat (map (cons 47) l).
Lemma segs_text_app : forall a b, segs_text (a ++ b) = segs_text a ++ segs_text b.
Proof. intros. unfold segs_text. rewrite map_app, concat_app. reflexivity. Qed.
Lemma segs_text1 : forall s, segs_text [s] = 47 :: s.
Proof. intros. unfold segs_text. cbn. now rewrite app_nil_r. Qed.
Lemma segs_text_next : forall l, slash_next (segs_text l).
Proof. intros [|s l]; [left; reflexivity|right; unfold segs_text; cbn; eauto]. Qed.

Lemma seg_dot_iff : forall s, seg_dot s = true <-> s = s2l ".".
Proof. intros. change (s2l ".") with [46]. unfold seg_dot, str_eqb. destruct str_eq_dec; split; intros; congruence. Qed.
Lemma seg_dots_iff : forall s, seg_dots s = true <-> s = s2l "..".
Proof. intros. change (s2l "..") with [46; 46]. unfold seg_dots, str_eqb. destruct str_eq_dec; split; intros; congruence. Qed.
Lemma seg_dot_f : forall s, seg_dot s = false <-> s <> s2l ".".
Proof. intros. rewrite <- seg_dot_iff. destruct (seg_dot s); split; congruence. Qed.
Lemma seg_dots_f : forall s, seg_dots s = false <-> s <> s2l "..".
Proof. intros. rewrite <- seg_dots_iff. destruct (seg_dots s); split; congruence. Qed.

Definition last_step (o : list str) (s : str) : list str :=
  if seg_dots s then removelast o ++ [[]] else if seg_dot s then o ++ [[]] else o ++ [s].

Lemma removed_segs : forall o, Forall no_slash o -> last_removed (segs_text o) (segs_text (removelast o)).
Proof.
  intros o H. destruct o as [|x o'] using rev_ind.
  - cbn. apply LrNone. intros [].
  - rewrite removelast_last, segs_text_app, segs_text1. apply LrSlash.
    apply Forall_app in H. destruct H as [_ H]. now inversion H.
Qed.
Lemma Forall_removelast : forall {A} (P : A -> Prop) l, Forall P l -> Forall P (removelast l).
Proof. intros A P l Ho. induction l as [|x o IHo]; [constructor|]. inversion_clear Ho. destruct o; [constructor|]. constructor; auto. Qed.
Lemma resolve_all : forall (P : str -> Prop) l o, Forall P o -> Forall P l -> Forall P (resolve o l).
Proof.
  induction l as [|s l IH]; intros o Ho Hl; cbn; [exact Ho|]. inversion_clear Hl.
  repeat match goal with |- context [if ?b then _ else _] => destruct b end; apply IH; auto using Forall_removelast;
    apply Forall_app; split; auto.
Qed.
Lemma dr_slash : forall o, dots_removed o [47] (o ++ [47]).
Proof.
  intros. change [47] with (47 :: [] ++ []) at 1. apply DrE; [intros []|discriminate|discriminate|left; reflexivity|apply DrEnd].
Qed.
(** the RFC on a rooted path *)
Lemma dots_segs : forall l o s, Forall no_slash o -> Forall no_slash l -> no_slash s ->
  dots_removed (segs_text o) (segs_text (l ++ [s])) (segs_text (last_step (resolve o l) s)).
Proof.
  induction l as [|x l IH]; intros o s Ho Hl Hs.
  - cbn [app resolve]. rewrite segs_text1. unfold last_step. destruct (seg_dots s) eqn:E.
    + apply seg_dots_iff in E. subst. apply (DrC2 _ (segs_text (removelast o))); [now apply removed_segs|].
      rewrite segs_text_app, segs_text1. apply dr_slash.
    + destruct (seg_dot s) eqn:E2.
      * apply seg_dot_iff in E2. subst. apply DrB2. rewrite segs_text_app, segs_text1. apply dr_slash.
      * rewrite <- (app_nil_r (47 :: s)). cbn [app]. apply DrE; auto.
        -- now apply seg_dot_f. -- now apply seg_dots_f. -- left; reflexivity.
        -- rewrite segs_text_app, segs_text1. apply DrEnd.
  - inversion_clear Hl. cbn [app resolve].
    change (segs_text (x :: l ++ [s])) with ((47 :: x) ++ segs_text (l ++ [s])).
    assert (N : exists r, segs_text (l ++ [s]) = 47 :: r) by (destruct l; cbn; eauto). destruct N as [r N].
    destruct (seg_dots x) eqn:E.
    + apply seg_dots_iff in E. subst. rewrite N. cbn [app s2l].
      apply (DrC1 _ (segs_text (removelast o)) r); [now apply removed_segs|].
      rewrite <- N. apply IH; auto using Forall_removelast.
    + destruct (seg_dot x) eqn:E2.
      * apply seg_dot_iff in E2. subst. rewrite N. apply (DrB1 _ r). rewrite <- N. apply IH; auto.
      * cbn [app]. apply DrE; auto.
        -- now apply seg_dot_f. -- now apply seg_dots_f. -- right; eauto.
        -- rewrite <- segs_text1, <- segs_text_app. apply IH; auto. apply Forall_app; auto.
Qed.

(** Python keeps an empty first segment for the root, and may lose it *)
Lemma resolve_root : forall l o, resolve ([] :: o) l = [] :: resolve o l \/ resolve ([] :: o) l = resolve o l.
Proof.
  induction l as [|s l IH]; intros o; cbn [resolve]; [left; reflexivity|].
  destruct (seg_dots s).
  - destruct o as [|x o]; [right; reflexivity|]. change (removelast ([] :: x :: o)) with ([] :: removelast (x :: o)). apply IH.
  - destruct (seg_dot s); [apply IH|]. apply (IH (o ++ [s])).
Qed.
Lemma resolve_app : forall a b o, resolve o (a ++ b) = resolve (resolve o a) b.
Proof.
  induction a as [|s a IH]; intros; cbn; [reflexivity|]. destruct (seg_dots s); [|destruct (seg_dot s)]; apply IH.
Qed.
Lemma final_step : forall l s o,
  (if seg_dot s || seg_dots s then resolve o (l ++ [s]) ++ [[]] else resolve o (l ++ [s])) = last_step (resolve o l) s.
Proof.
  intros. rewrite resolve_app. unfold last_step. cbn. destruct (seg_dots s) eqn:E.
  - now rewrite orb_true_r.
  - destruct (seg_dot s); reflexivity.
Qed.
Lemma last_step_root : forall o s, last_step ([] :: o) s = [] :: last_step o s \/ last_step ([] :: o) s = last_step o s.
Proof.
  intros. unfold last_step. destruct (seg_dots s).
  - destruct o; [right; reflexivity|left; reflexivity].
  - destruct (seg_dot s); left; reflexivity.
Qed.
Lemma join_segs : forall l, l <> [] -> segs_text l = 47 :: join_slash l.
Proof.
  intros [|x l] H; [congruence|]. clear H. unfold segs_text. cbn [map concat app]. f_equal.
  revert x. induction l as [|y l IH]; intros x; [cbn; now rewrite app_nil_r|].
  change (join_slash (x :: y :: l)) with (x ++ 47 :: join_slash (y :: l)). rewrite <- IH. reflexivity.
Qed.
Lemma last_step_ne : forall o s, last_step o s <> [].
Proof. intros. unfold last_step. destruct (seg_dots s); [|destruct (seg_dot s)]; destruct o; try discriminate; intros H; apply app_eq_nil in H; destruct H; discriminate. Qed.

(** urlunsplit puts the slash back *)
Definition rooted (p : str) : str := if str_truthy p && negb (startswith p [47]) then 47 :: p else p.
Lemma sw_nil : forall s, startswith s [] = true.
Proof. now destruct s. Qed.
Lemma sw_slash : forall c p, startswith (c :: p) [47] = (47 =? c).
Proof. intros. cbn [startswith]. now rewrite sw_nil, andb_true_r. Qed.
Lemma rooted_slash : forall p, rooted (47 :: p) = 47 :: p.
Proof. intros. unfold rooted. cbn. now rewrite sw_nil. Qed.
Lemma resolved_rooted : forall l s t, Forall (fun x => x <> []) l -> Forall no_slash l -> no_slash s ->
  let p := resolved_path ([] :: l ++ [s]) in
  p <> [] /\ rooted (p ++ t) = segs_text (last_step (resolve [] l) s) ++ t.
Proof.
  intros l s t NE NL NS p. subst p. unfold resolved_path.
  change ([] :: l ++ [s]) with (([] :: l) ++ [s]). rewrite last_last, final_step.
  cbn [resolve]. change (seg_dots []) with false. change (seg_dot []) with false. cbn [app].
  set (X := last_step (resolve [] l) s).
  assert (H : last_step (resolve [[]] l) s = [] :: X \/ last_step (resolve [[]] l) s = X).
  { destruct (resolve_root l []) as [E|E]; rewrite E; [apply last_step_root|right; reflexivity]. }
  assert (XN : X <> []) by apply last_step_ne.
  assert (FX : forall y Y, X = [] :: y :: Y -> False).
  { intros y Y EX. subst X. assert (F : Forall (fun x => x <> []) (resolve [] l)) by (apply resolve_all; auto).
    unfold last_step in EX.
    assert (G : forall (o : list str) z, Forall (fun x => x <> []) o -> o ++ [z] <> [] :: y :: Y).
    { intros [|a o] z Fo EE; [discriminate|]. inversion_clear Fo. cbn in EE. congruence. }
    destruct (seg_dots s); [|destruct (seg_dot s)]; eapply G; try exact EX; auto using Forall_removelast. }
  assert (SX : Forall no_slash X).
  { subst X. assert (F : Forall no_slash (resolve [] l)) by (apply resolve_all; auto).
    assert (E : no_slash []) by (intros []).
    unfold last_step. destruct (seg_dots s); [|destruct (seg_dot s)]; apply Forall_app; auto using Forall_removelast. }
  clearbody X. destruct H as [H|H]; rewrite H.
  - destruct X as [|x X]; [congruence|]. change (join_slash ([] :: x :: X)) with (47 :: join_slash (x :: X)).
    rewrite <- join_segs by discriminate. unfold segs_text. cbn. split; [discriminate|apply rooted_slash].
  - rewrite (join_segs X XN). destruct (join_slash X) as [|c p] eqn:EJ; cbn; [split; [discriminate|apply rooted_slash]|].
    split; [discriminate|]. unfold rooted. cbn [app str_truthy andb]. rewrite sw_slash. destruct (N.eqb_spec 47 c).
    + subst c. exfalso. destruct X as [|x [|y X]]; [discriminate| |].
      * cbn in EJ. subst x. inversion_clear SX. apply H0. left. reflexivity.
      * change (join_slash (x :: y :: X)) with (x ++ 47 :: join_slash (y :: X)) in EJ. destruct x; [exact (FX _ _ eq_refl)|].
        injection EJ as E _. subst. inversion_clear SX. apply H0. left. reflexivity.
    + reflexivity.
Qed.
