(** The relations of the RFC are functions. *)
From Verif Require Import Model.Py Spec.UriSpec.
Open Scope N_scope.

Lemma seg_unique : forall a s a' s', no_slash a -> no_slash a' -> slash_next s -> slash_next s' ->
  a ++ s = a' ++ s' -> a = a' /\ s = s'.
Proof.
  induction a as [|x a IH]; intros s [|y a'] s' N N' S S' E; cbn in E.
  - auto.
  - exfalso. destruct S as [->|[r ->]]; [discriminate|]. injection E as E0 _; subst. apply N'. now left.
  - exfalso. destruct S' as [->|[r ->]]; [discriminate|]. injection E as E0 _; subst. apply N. now left.
  - injection E as -> E. destruct (IH s a' s') as [-> ->]; auto; intros X; [apply N|apply N']; now right.
Qed.
Lemma last_removed_unique : forall o a b, last_removed o a -> last_removed o b -> a = b.
Proof.
  assert (K : forall a s b t : str, no_slash s -> no_slash t -> a ++ 47 :: s = b ++ 47 :: t -> a = b).
  { intros a s b t N M E. apply (f_equal (@rev _)) in E. rewrite !rev_app_distr in E. cbn in E. rewrite <- !app_assoc in E. cbn in E.
    assert (S : forall x, no_slash x -> no_slash (rev x)) by (intros x H X; apply H, in_rev, X).
    apply seg_unique in E; [|now apply S|now apply S|right; eauto|right; eauto].
    destruct E as [_ E]. injection E as E. apply (f_equal (@rev _)) in E. now rewrite !rev_involutive in E. }
  intros o a b H. destruct H as [o s N|s N]; intros H'; inversion H' as [o' s' N' E|s' N' E]; subst.
  - now apply K in E.
  - exfalso. apply N'. apply in_or_app. right. now left.
  - exfalso. apply N. apply in_or_app. right. now left.
  - reflexivity.
Qed.

(** one step: leading slash or not, first segment, rest *)
Inductive dr_step (o : str) : bool -> str -> str -> str -> Prop :=
| SEnd : dr_step o false [] [] o
| SRelDot seg s t : seg = s2l "." \/ seg = s2l ".." -> dots_removed o s t -> dr_step o false seg (47 :: s) t
| SRelDotEnd seg : seg = s2l "." \/ seg = s2l ".." -> dr_step o false seg [] o
| SDot s t : dots_removed o (47 :: s) t -> dr_step o true (s2l ".") (47 :: s) t
| SDotEnd t : dots_removed o [47] t -> dr_step o true (s2l ".") [] t
| SDots o' s t : last_removed o o' -> dots_removed o' (47 :: s) t -> dr_step o true (s2l "..") (47 :: s) t
| SDotsEnd o' t : last_removed o o' -> dots_removed o' [47] t -> dr_step o true (s2l "..") [] t
| SSeg seg s t : seg <> s2l "." -> seg <> s2l ".." -> dots_removed (o ++ 47 :: seg) s t -> dr_step o true seg s t
| SRelSeg seg s t : seg <> [] -> seg <> s2l "." -> seg <> s2l ".." -> dots_removed (o ++ seg) s t -> dr_step o false seg s t.
Definition lead (b : bool) : str := if b then [47] else [].
Lemma dr_step_inv : forall o i t, dots_removed o i t ->
  exists b seg s, i = lead b ++ seg ++ s /\ no_slash seg /\ slash_next s /\ (b = false -> seg = [] -> s = []) /\ dr_step o b seg s t.
Proof.
  assert (N1 : no_slash (s2l ".")) by (intros [X|[]]; discriminate).
  assert (N2 : no_slash (s2l "..")) by (intros [X|[X|[]]]; discriminate).
  assert (N0 : no_slash []) by (intros []).
  assert (Z : slash_next []) by (left; reflexivity).
  assert (Y : forall s, slash_next (47 :: s)) by (intros s; right; eauto).
  intros o i t H. destruct H.
  - exists false, [], []. repeat split; auto. apply SEnd.
  - exists false, (s2l ".."), (47 :: s). repeat split; auto; [discriminate|]. apply SRelDot; auto.
  - exists false, (s2l "."), (47 :: s). repeat split; auto; [discriminate|]. apply SRelDot; auto.
  - exists true, (s2l "."), (47 :: s). repeat split; auto; [discriminate|]. now apply SDot.
  - exists true, (s2l "."), []. repeat split; auto. now apply SDotEnd.
  - exists true, (s2l ".."), (47 :: s). repeat split; auto; [discriminate|]. now apply (SDots o o').
  - exists true, (s2l ".."), []. repeat split; auto. now apply (SDotsEnd o o').
  - exists false, (s2l "."), []. repeat split; auto. apply SRelDotEnd; auto.
  - exists false, (s2l ".."), []. repeat split; auto. apply SRelDotEnd; auto.
  - exists true, seg, s. repeat split; auto; [discriminate|]. now apply SSeg.
  - exists false, seg, s. repeat split; auto; [congruence|]. now apply SRelSeg.
Qed.
Lemma lead_unique : forall b seg s b' seg' s', no_slash seg -> no_slash seg' -> slash_next s -> slash_next s' ->
  (b = false -> seg = [] -> s = []) -> (b' = false -> seg' = [] -> s' = []) ->
  lead b ++ seg ++ s = lead b' ++ seg' ++ s' -> b = b' /\ seg = seg' /\ s = s'.
Proof.
  assert (X : forall seg s seg' s', no_slash seg' -> (seg' = [] -> s' = []) -> 47 :: seg ++ s = seg' ++ s' -> False).
  { intros seg s seg' s' N E H. destruct seg' as [|c g]; [rewrite E in H by auto; discriminate|]. injection H as <- _. apply N. now left. }
  intros [] seg s [] seg' s' N N' S S' E E' H; cbn in H.
  - injection H as H. apply seg_unique in H; tauto.
  - exfalso. eauto.
  - exfalso. symmetry in H. eauto.
  - apply seg_unique in H; tauto.
Qed.
Lemma dots_unique : forall n o i t t', (length i <= n)%nat -> dots_removed o i t -> dots_removed o i t' -> t = t'.
Proof.
  induction n as [|n IH]; intros o i t t' L H H'.
  all: apply dr_step_inv in H; destruct H as (b & seg & s & E & N & S & Z & H).
  all: apply dr_step_inv in H'; destruct H' as (b' & seg' & s' & E' & N' & S' & Z' & H').
  all: rewrite E in E'; apply lead_unique in E'; auto; destruct E' as (<- & <- & <-); subst i; rewrite !app_length in L.
  - destruct b; cbn in L; [lia|]. destruct seg; cbn in L; [|lia]. destruct s; cbn in L; [|lia].
    inversion H; subst; inversion H'; subst; try congruence; try (destruct H0; discriminate); try (destruct H1; discriminate).
  - assert (D1 : s2l "." <> []) by discriminate. assert (D2 : s2l ".." <> []) by discriminate. assert (D3 : s2l ".." <> s2l ".") by discriminate.
    inversion H; subst; inversion H'; subst; cbn [lead length app s2l] in L;
      repeat match goal with X : _ = s2l _ \/ _ = s2l _ |- _ => destruct X end; subst; try congruence; try discriminate;
      try (match goal with A : last_removed ?o ?a, B : last_removed ?o ?b |- _ => rewrite (last_removed_unique _ _ _ A B) in * end);
      try (eapply IH; [|eassumption|eassumption]; cbn [length] in *; try lia).
    all: destruct seg; [congruence|cbn in L; lia].
Qed.
Lemma merged_unique : forall B p m m', merged B p m -> merged B p m' -> m = m'.
Proof.
  intros B p m m' H H'. destruct H as [a A P|d l A P N D]; inversion H' as [a' A' P'|d' l' A' P' N' D']; subst; auto.
  - destruct A'; congruence.
  - destruct A; congruence.
  - f_equal. rewrite P in P'. apply (f_equal (@rev _)) in P'. rewrite !rev_app_distr in P'.
    assert (S : forall x, no_slash x -> no_slash (rev x)) by (intros x H X; apply H, in_rev, X).
    assert (Q : forall x : str, x = [] \/ (exists y, x = y ++ [47]) -> slash_next (rev x)).
    { intros x [->|[y ->]]; [left; reflexivity|right; rewrite rev_app_distr; cbn; eauto]. }
    apply seg_unique in P'; auto. destruct P' as [_ P']. apply (f_equal (@rev _)) in P'. now rewrite !rev_involutive in P'.
Qed.
Lemma target_unique : forall B R T T', target B R T -> target B R T' -> T = T'.
Proof.
  intros B R T T' H H'.
  destruct H; inversion H'; subst; try congruence;
    try (match goal with A : dots_removed _ _ _, C : dots_removed _ _ _ |- _ => idtac end).
  all: repeat match goal with A : merged ?B ?p ?m, C : merged ?B ?p ?n |- _ => rewrite (merged_unique _ _ _ _ A C) in *; clear A end.
  all: try (match goal with A : dots_removed _ _ _, C : dots_removed _ _ _ |- _ => rewrite (dots_unique _ _ _ _ _ (le_n _) A C) end; congruence).
  all: try (exfalso; congruence).
  all: exfalso; match goal with A : forall q, r_path _ <> _ |- _ => eapply A; eassumption end.
Qed.
