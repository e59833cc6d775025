(** Lemmas about association-list dictionaries. *)
From Verif Require Import Model.Py.
From Coq Require Import Permutation.

Section D.
  Context {K V : Type} (eqd : forall a b : K, {a = b} + {a <> b}).
  Implicit Types (d : list (K * V)) (k : K) (v : V).

  Notation get := (dget (V:=V) eqd).
  Notation set := (dset (V:=V) eqd).
  Notation del := (ddel (V:=V) eqd).

  Lemma dget_dset_eq : forall d k v, get (set d k v) k = Some v.
  Proof.
    induction d as [|[k' v'] d IH]; intros k v; simpl.
    - destruct (eqd k k); congruence.
    - destruct (eqd k k') as [->|n]; simpl.
      + destruct (eqd k' k'); congruence.
      + destruct (eqd k k'); [congruence|apply IH].
  Qed.

  Lemma dget_dset_neq : forall d k k' v, k <> k' -> get (set d k v) k' = get d k'.
  Proof.
    induction d as [|[k0 v0] d IH]; intros k k' v n; simpl.
    - destruct (eqd k' k); congruence.
    - destruct (eqd k k0) as [->|n0]; simpl.
      + destruct (eqd k' k0); congruence.
      + destruct (eqd k' k0); [congruence|apply IH; auto].
  Qed.

  Lemma dget_dset : forall d k k' v,
    get (set d k v) k' = if eqd k k' then Some v else get d k'.
  Proof.
    intros d k k' v. destruct (eqd k k') as [->|n].
    - apply dget_dset_eq.
    - apply dget_dset_neq; auto.
  Qed.

  Lemma dget_None_iff : forall d k, get d k = None <-> ~ In k (dkeys d).
  Proof.
    induction d as [|[k0 v0] d IH]; intros k; simpl; [tauto|].
    destruct (eqd k k0) as [->|n].
    - split; [discriminate|tauto].
    - rewrite IH. intuition congruence.
  Qed.

  Lemma dget_Some_In : forall d k v, get d k = Some v -> In (k, v) d.
  Proof.
    induction d as [|[k0 v0] d IH]; intros k v; simpl; [discriminate|].
    destruct (eqd k k0) as [->|n]; [intros [= ->]; auto|auto].
  Qed.

  Lemma dget_Some_key : forall d k v, get d k = Some v -> In k (dkeys d).
  Proof. intros d k v H. apply dget_Some_In in H. change k with (fst (k, v)). apply in_map, H. Qed.

  Lemma In_key_dget : forall d k, In k (dkeys d) -> exists v, get d k = Some v.
  Proof.
    intros d k H. destruct (get d k) eqn:E; [eauto|]. apply dget_None_iff in E. contradiction.
  Qed.

  Lemma In_dget : forall d k v, NoDup (dkeys d) -> In (k, v) d -> get d k = Some v.
  Proof.
    induction d as [|[k0 v0] d IH]; intros k v ND H; simpl in *; [contradiction|].
    inversion ND; subst. destruct H as [[= -> ->]|H].
    - destruct (eqd k k); congruence.
    - destruct (eqd k k0) as [->|n].
      + exfalso. apply H2. change k0 with (fst (k0, v)). apply in_map, H.
      + apply IH; auto.
  Qed.

  Lemma dkeys_dset_in : forall d k v, In k (dkeys d) -> dkeys (set d k v) = dkeys d.
  Proof.
    induction d as [|[k0 v0] d IH]; intros k v H; simpl in *; [contradiction|].
    destruct (eqd k k0) as [->|n]; simpl; [auto|].
    f_equal. apply IH. destruct H; congruence.
  Qed.

  Lemma dkeys_dset_notin : forall d k v, ~ In k (dkeys d) -> set d k v = d ++ [(k, v)].
  Proof.
    induction d as [|[k0 v0] d IH]; intros k v H; simpl in *; [auto|].
    destruct (eqd k k0) as [->|n]; simpl; [tauto|].
    f_equal. apply IH. tauto.
  Qed.

  Lemma In_dkeys_dset : forall d k v k', In k' (dkeys (set d k v)) <-> k' = k \/ In k' (dkeys d).
  Proof.
    intros d k v k'. destruct (in_dec eqd k (dkeys d)) as [i|n].
    - rewrite dkeys_dset_in by auto. intuition congruence.
    - rewrite dkeys_dset_notin by auto. unfold dkeys. rewrite map_app, in_app_iff. simpl. intuition.
  Qed.

  Lemma NoDup_snoc {A} : forall (l : list A) x, NoDup l -> ~ In x l -> NoDup (l ++ [x]).
  Proof.
    intros l x H n. apply Permutation_NoDup with (x :: l).
    - apply Permutation_cons_append.
    - constructor; auto.
  Qed.

  Lemma NoDup_dset : forall d k v, NoDup (dkeys d) -> NoDup (dkeys (set d k v)).
  Proof.
    intros d k v H. destruct (in_dec eqd k (dkeys d)) as [i|n].
    - rewrite dkeys_dset_in; auto.
    - rewrite dkeys_dset_notin by auto. unfold dkeys. rewrite map_app. simpl. apply NoDup_snoc; auto.
  Qed.

  Lemma dset_same : forall d k v, get d k = Some v -> set d k v = d.
  Proof.
    induction d as [|[k0 v0] d IH]; intros k v H; simpl in *; [discriminate|].
    destruct (eqd k k0) as [->|n]; [congruence|]. f_equal. auto.
  Qed.

  Lemma dset_dset : forall d k v w, set (set d k v) k w = set d k w.
  Proof.
    induction d as [|[k0 v0] d IH]; intros k v w; simpl.
    - destruct (eqd k k); congruence.
    - destruct (eqd k k0) as [->|n]; simpl.
      + destruct (eqd k0 k0); congruence.
      + destruct (eqd k k0); [congruence|]. f_equal. auto.
  Qed.

  Lemma dget_ddel_neq : forall d k k', k <> k' -> get (del d k) k' = get d k'.
  Proof.
    induction d as [|[k0 v0] d IH]; intros k k' n; simpl; [auto|].
    destruct (eqd k k0) as [->|n0]; simpl.
    - destruct (eqd k' k0); congruence.
    - destruct (eqd k' k0); [auto|auto].
  Qed.

  Lemma dkeys_ddel_incl : forall d k k', In k' (dkeys (del d k)) -> In k' (dkeys d).
  Proof.
    induction d as [|[k0 v0] d IH]; intros k k' H; simpl in *; [auto|].
    destruct (eqd k k0); simpl in *; [auto|]. destruct H; eauto.
  Qed.

  Lemma dget_ddel_eq : forall d k, NoDup (dkeys d) -> get (del d k) k = None.
  Proof.
    induction d as [|[k0 v0] d IH]; intros k ND; simpl; [auto|].
    inversion ND; subst. destruct (eqd k k0) as [->|n]; simpl.
    - apply dget_None_iff. auto.
    - destruct (eqd k k0); [congruence|]. auto.
  Qed.

  Lemma NoDup_ddel : forall d k, NoDup (dkeys d) -> NoDup (dkeys (del d k)).
  Proof.
    induction d as [|[k0 v0] d IH]; intros k ND; simpl; [auto|].
    inversion ND; subst. destruct (eqd k k0) as [->|n]; simpl; [auto|].
    constructor; [|auto]. intro H. apply dkeys_ddel_incl in H. auto.
  Qed.

  Lemma length_ddel : forall d k v, get d k = Some v -> S (length (del d k)) = length d.
  Proof.
    induction d as [|[k0 v0] d IH]; intros k v H; simpl in *; [discriminate|].
    destruct (eqd k k0); simpl; [auto|]. f_equal. eauto.
  Qed.

  Lemma In_dvals : forall d v, NoDup (dkeys d) -> (In v (dvals d) <-> exists k, get d k = Some v).
  Proof.
    intros d v ND. unfold dvals. rewrite in_map_iff. split.
    - intros [[k w] [E H]]. simpl in E. subst. exists k. apply In_dget; auto.
    - intros [k H]. exists (k, v). split; [auto|]. apply dget_Some_In; auto.
  Qed.

  Lemma dmem_true : forall d k, dmem eqd d k = true <-> In k (dkeys d).
  Proof.
    intros d k. unfold dmem. destruct (get d k) eqn:E.
    - apply dget_Some_key in E. tauto.
    - apply dget_None_iff in E. split; [discriminate|contradiction].
  Qed.

  Lemma dmem_false : forall d k, dmem eqd d k = false <-> ~ In k (dkeys d).
  Proof.
    intros d k. rewrite <- dmem_true. destruct (dmem eqd d k); intuition congruence.
  Qed.

  (** update: later entries win *)
  Lemma dupdate_get : forall o d k, NoDup (dkeys o) ->
    get (dupdate eqd d o) k = match get o k with Some v => Some v | None => get d k end.
  Proof.
    unfold dupdate. induction o as [|[k0 v0] o IH]; intros d k ND; simpl; [auto|].
    inversion ND; subst. rewrite IH by auto. destruct (eqd k k0) as [->|n].
    - apply dget_None_iff in H1. rewrite H1. apply dget_dset_eq.
    - destruct (get o k); [auto|]. apply dget_dset_neq; auto.
  Qed.

  Lemma NoDup_dupdate : forall o d, NoDup (dkeys d) -> NoDup (dkeys (dupdate eqd d o)).
  Proof.
    unfold dupdate. induction o as [|[k0 v0] o IH]; intros d ND; simpl; [auto|].
    apply IH. apply NoDup_dset. auto.
  Qed.

  Lemma In_dkeys_dupdate : forall o d k,
    In k (dkeys (dupdate eqd d o)) <-> In k (dkeys o) \/ In k (dkeys d).
  Proof.
    unfold dupdate. induction o as [|[k0 v0] o IH]; intros d k; simpl; [tauto|].
    rewrite IH, In_dkeys_dset. intuition.
  Qed.
End D.
