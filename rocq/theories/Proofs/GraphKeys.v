(** Proofs for C120: the size of a listing is the same after a program of calls iff the
    program adds no triple with a new term. *)
From Verif Require Import Model.Py Model.Terms Model.Graph Spec.GraphSpec Model.GraphRun Model.GraphKeys Spec.KeysSpec Proofs.GraphInv Proofs.GraphHist.

Lemma keys_listed : forall wh g, g_keys wh g = listed g wh.
Proof. now intros [] g. Qed.
Lemma role_key : forall wh t, role wh t = key_of wh t.
Proof. now intros [] t. Qed.

Lemma keys_run_In : forall wh g ops k, wf g -> Forall gop_triples ops ->
  (In k (g_keys wh (g_run g ops)) <-> In k (g_keys wh g) \/ exists t, ever_added ops t /\ role wh t = k).
Proof.
  intros wh g ops k W F. rewrite !keys_listed, (listed_run ops g wh k W F). split; intros [H|H]; auto.
Qed.

Lemma keys_NoDup : forall wh g, wf g -> NoDup (g_keys wh g).
Proof. intros. rewrite keys_listed. now apply listed_NoDup. Qed.

Definition same_keys (wh : which) (l : list term) (g : graph) : Prop :=
  wf g /\ length (g_keys wh g) = length l /\ forall k, In k (g_keys wh g) <-> In k l.

Lemma same_step : forall wh l g ops, same_keys wh l g -> Forall gop_triples ops ->
  (forall t, ever_added ops t -> In (role wh t) l) -> same_keys wh l (g_run g ops).
Proof.
  intros wh l g ops (W & L & I) F K. split; [now apply g_run_wf|].
  assert (E : forall k, In k (g_keys wh (g_run g ops)) <-> In k (g_keys wh g)).
  { intro k. rewrite (keys_run_In wh g ops k W F). split; [|auto]. intros [H|(t & A & <-)]; [auto|]. apply I. now apply K. }
  split.
  - rewrite <- L. apply Permutation.Permutation_length, Permutation.NoDup_Permutation; auto using keys_NoDup, g_run_wf.
  - intro k. rewrite E. apply I.
Qed.

Lemma new_step : forall wh l g ops t, same_keys wh l g -> Forall gop_triples ops ->
  ever_added ops t -> ~ In (role wh t) l -> length l < length (g_keys wh (g_run g ops)).
Proof.
  intros wh l g ops t (W & L & I) F A N. rewrite <- L.
  assert (ND : NoDup (role wh t :: g_keys wh g)) by (constructor; [rewrite I; exact N|now apply keys_NoDup]).
  apply (NoDup_incl_length ND). intros k J. apply (keys_run_In wh g ops k W F). destruct J as [<-|J]; [right; now exists t|now left].
Qed.

Lemma g_run_app : forall a b g, g_run g (a ++ b) = g_run (g_run g a) b.
Proof. intros. unfold g_run. apply fold_left_app. Qed.

Lemma body_Forall : forall body x, body_triples body -> Forall gop_triples (body x).
Proof. intros body x B. apply Forall_forall. exact (B x). Qed.

Lemma run_same : forall wh body l rem g, body_triples body -> same_keys wh l g ->
  (forall x, In x rem -> keeps_to wh l body x) ->
  keys_run wh body g (length l) rem = (g_run g (flat_map body rem), rem, Ok tt).
Proof.
  intros wh body l rem. induction rem as [|x r IH]; intros g B S K; cbn [keys_run flat_map].
  - destruct S as (_ & -> & _). now rewrite Nat.eqb_refl.
  - pose proof S as (_ & E & _). rewrite E, Nat.eqb_refl.
    rewrite (IH (g_run g (body x)) B).
    + now rewrite g_run_app.
    + apply same_step; [exact S|now apply body_Forall|]. apply K. now left.
    + intros y J. apply K. now right.
Qed.

Lemma run_new : forall wh body l a g x b t, body_triples body -> same_keys wh l g ->
  (forall y, In y a -> keeps_to wh l body y) -> ever_added (body x) t -> ~ In (role wh t) l ->
  keys_run wh body g (length l) (a ++ x :: b) = (g_run g (flat_map body (a ++ [x])), a ++ [x], Err RuntimeError).
Proof.
  intros wh body l a. induction a as [|y a IH]; intros g x b t B S K A N; cbn [keys_run flat_map app]; pose proof S as (_ & E & _); rewrite E, Nat.eqb_refl.
  - rewrite app_nil_r. pose proof (new_step wh l g (body x) t S (body_Forall body x B) A N) as L.
    assert (F : Nat.eqb (length (g_keys wh (g_run g (body x)))) (length l) = false) by (apply Nat.eqb_neq; lia).
    destruct b; cbn [keys_run]; rewrite F; reflexivity.
  - rewrite (IH (g_run g (body y)) x b t B); auto.
    + now rewrite g_run_app.
    + apply same_step; [exact S|now apply body_Forall|]. apply K. now left.
    + intros z J. apply K. now right.
Qed.

Lemma same_refl : forall wh g, wf g -> same_keys wh (g_keys wh g) g.
Proof. intros. split; [auto|]. split; [auto|]. tauto. Qed.

Lemma loop_same : forall wh body g, wf g -> body_triples body ->
  (forall x, In x (g_keys wh g) -> keeps_to wh (g_keys wh g) body x) ->
  keys_loop wh body g = (g_run g (flat_map body (g_keys wh g)), g_keys wh g, Ok tt).
Proof. intros. unfold keys_loop. apply run_same; auto using same_refl. Qed.

Lemma loop_new : forall wh body g a x b t, wf g -> body_triples body -> g_keys wh g = a ++ x :: b ->
  (forall y, In y a -> keeps_to wh (g_keys wh g) body y) -> ever_added (body x) t -> ~ In (role wh t) (g_keys wh g) ->
  keys_loop wh body g = (g_run g (flat_map body (a ++ [x])), a ++ [x], Err RuntimeError).
Proof.
  intros wh body g a x b t W B E K A N. unfold keys_loop. rewrite E at 2.
  exact (run_new wh body (g_keys wh g) a g x b t B (same_refl wh g W) K A N).
Qed.

(** a program of adds *)
Lemma history_adds : forall ts (Q : stmt -> Prop) x, set_of_history Q (map OpAdd ts) x <-> In x ts \/ Q x.
Proof.
  induction ts as [|t ts IH]; intros Q x; cbn [map set_of_history]; [cbn; tauto|].
  rewrite IH. cbn. intuition auto.
Qed.
Lemma flat_map_one : forall {A B} (f : A -> B) l, flat_map (fun x => [f x]) l = map f l.
Proof. induction l; cbn; congruence. Qed.
(** a program that adds nothing *)
Lemma history_shrinks : forall ops (Q : stmt -> Prop) x, (forall t, ~ ever_added ops t) -> set_of_history Q ops x -> Q x.
Proof.
  induction ops as [|op ops IH]; intros Q x N H; cbn [set_of_history] in H; [exact H|].
  apply IH in H.
  - destruct op; cbn in H.
    + destruct H as [->|H]; [|exact H]. destruct (N t). exists (OpAdd t). split; [now left|reflexivity].
    + destruct H as [J|H]; [|exact H]. destruct (N x). exists (OpAddAll ts). split; [now left|exact J].
    + now destruct H.
    + exact H.
  - intros t (o & J & A). apply (N t). exists o. split; [now right|exact A].
Qed.
