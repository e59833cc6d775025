(** Proofs for C123. *)
From Verif Require Import Model.Py Model.Terms Model.Graph Spec.GraphSpec Model.GraphRun Model.GraphLoop Spec.GLoopSpec Proofs.GraphInv Proofs.GraphHist.
From Coq Require Import Permutation.

Lemma added_cons : forall op ops t, ever_added ops t -> ever_added (op :: ops) t.
Proof. intros op ops t (o & J & A). exists o. split; [now right|exact A]. Qed.
Lemma added_head : forall op ops t, match op with OpAdd x => x = t | OpAddAll ts => In t ts | _ => False end -> ever_added (op :: ops) t.
Proof. intros op ops t H. exists op. split; [now left|exact H]. Qed.

(** histories that do nothing; that only add; that only remove *)
Lemma idle_history : forall ops (Q : stmt -> Prop), (forall t, (ever_added ops t -> Q t) /\ (ever_removed ops t -> ~ Q t)) -> forall x, set_of_history Q ops x <-> Q x.
Proof.
  assert (E : forall ops (Q R : stmt -> Prop), (forall x, Q x <-> R x) -> forall x, set_of_history Q ops x <-> set_of_history R ops x).
  { induction ops as [|op ops IH]; intros Q R H x; cbn [set_of_history]; [apply H|]. apply IH. intro y. destruct op; cbn; rewrite H; tauto. }
  induction ops as [|op ops IH]; intros Q H x; cbn [set_of_history]; [tauto|].
  rewrite (E ops (set_after Q op) Q).
  - apply IH. intro t. split; intro A; [apply H; now apply added_cons|]. apply H. now right.
  - intro y. destruct op; cbn; try tauto.
    + split; [|auto]. intros [->|K]; [|exact K]. apply H. now apply added_head.
    + split; [|auto]. intros [J|K]; [|exact K]. apply H. now apply added_head.
    + split; [tauto|]. intro K. split; [exact K|]. intros ->. destruct (H t) as [_ H2]. apply H2; [now left|exact K].
Qed.
Lemma adds_history : forall ops (Q : stmt -> Prop), only_adds ops -> forall x, set_of_history Q ops x <-> Q x \/ ever_added ops x.
Proof.
  induction ops as [|op ops IH]; intros Q H x; cbn [set_of_history].
  - split; [auto|]. intros [K|(o & [] & _)]. exact K.
  - rewrite IH by (intros t J; apply (H t); now right). destruct op; cbn.
    + split; [intros [[->|K]|K]|intros [K|(w & [<-|J] & A)]]; auto using added_cons; [right; now apply added_head|].
      right. now exists w.
    + split; [intros [[J|K]|K]|intros [K|(w & [<-|J] & A)]]; auto using added_cons; [right; now apply added_head|].
      right. now exists w.
    + destruct (H t). now left.
    + split; [intros [K|K]; auto using added_cons|]. intros [K|(w & [<-|J] & A)]; [auto|destruct A|]. right. now exists w.
Qed.
Lemma removes_history : forall ops (Q : stmt -> Prop), only_removes ops -> forall x, set_of_history Q ops x <-> Q x /\ ~ ever_removed ops x.
Proof.
  induction ops as [|op ops IH]; intros Q H x; cbn [set_of_history]; [unfold ever_removed; cbn; tauto|].
  rewrite IH by (intros t J; apply (H t); now apply added_cons). unfold ever_removed. cbn [In]. destruct op; cbn.
  - destruct (H t). now apply added_head.
  - destruct ts as [|t ts].
    + cbn. intuition congruence.
    + destruct (H t). apply added_head. now left.
  - intuition congruence.
  - intuition congruence.
Qed.

Definition same_set (l : list stmt) (g : graph) : Prop := wf g /\ length (g_triples g) = length l /\ forall t, In t (g_triples g) <-> In t l.
Lemma wf_NoDup : forall g, wf g -> NoDup (g_triples g).
Proof. intros g W. apply W. Qed.
Lemma same_set_refl : forall g, wf g -> same_set (g_triples g) g.
Proof. intros. split; [auto|]. split; [auto|tauto]. Qed.
Lemma idle_same : forall l g ops, same_set l g -> Forall gop_triples ops -> idle l ops -> same_set l (g_run g ops).
Proof.
  intros l g ops (W & L & S) F I.
  assert (E : forall t, In t (g_triples (g_run g ops)) <-> In t (g_triples g)).
  { intro t. rewrite (g_run_In ops g t W F). apply (idle_history ops (fun y => In y (g_triples g))). intro u. rewrite S. apply I. }
  split; [now apply g_run_wf|]. split; [|intro t; rewrite E; apply S].
  rewrite <- L. apply Permutation_length, NoDup_Permutation; auto using wf_NoDup, g_run_wf.
Qed.
Lemma stirs_size : forall l g ops, same_set l g -> Forall gop_triples ops -> one_way ops -> stirs l ops -> length (g_triples (g_run g ops)) <> length l.
Proof.
  intros l g ops (W & L & S) F OW (t & ST). rewrite <- L. pose proof (g_run_wf ops g W F) as W'.
  destruct OW as [A|R].
  - destruct ST as [[EA N]|[ER _]]; [|destruct (A t ER)].
    assert (K : length (t :: g_triples g) <= length (g_triples (g_run g ops))); [|cbn in K; lia].
    apply NoDup_incl_length; [constructor; [now rewrite S|now apply wf_NoDup]|]. intros x J. apply (g_run_In ops g x W F).
    apply (adds_history ops (fun y => In y (g_triples g)) A). destruct J as [<-|J]; auto.
  - destruct ST as [[EA _]|[ER P]]; [destruct (R t EA)|].
    assert (M : forall x, In x (g_triples (g_run g ops)) <-> In x (g_triples g) /\ ~ ever_removed ops x).
    { intro x. rewrite (g_run_In ops g x W F). apply (removes_history ops (fun y => In y (g_triples g)) R). }
    assert (K : length (t :: g_triples (g_run g ops)) <= length (g_triples g)); [|cbn in K; lia].
    apply NoDup_incl_length; [constructor; [rewrite M; tauto|now apply wf_NoDup]|]. intros x [<-|J]; [now apply S|now apply M].
Qed.

Lemma run_app : forall a b g, g_run g (a ++ b) = g_run (g_run g a) b.
Proof. intros. unfold g_run. apply fold_left_app. Qed.
Lemma loop_Forall : forall l body t, loop_triples l body -> In t l -> Forall gop_triples (body t).
Proof. intros l body t B J. apply Forall_forall. intros op. now apply B. Qed.

Lemma giter_idle : forall body l rem g, loop_triples rem body -> same_set l g -> (forall t, In t rem -> idle l (body t)) ->
  giter_run body g (length l) rem = (g_run g (flat_map body rem), rem, Ok tt) /\ same_set l (g_run g (flat_map body rem)).
Proof.
  intros body l rem. induction rem as [|x r IH]; intros g B S K; cbn [giter_run flat_map].
  - pose proof S as (_ & -> & _). now rewrite Nat.eqb_refl.
  - pose proof S as (_ & E & _). rewrite E, Nat.eqb_refl, run_app.
    destruct (IH (g_run g (body x))) as [EQ SS].
    + intros t op J. apply B. now right.
    + apply idle_same; [exact S|apply (loop_Forall (x :: r)); [exact B|now left]|]. apply K. now left.
    + intros y J. apply K. now right.
    + rewrite EQ. now split.
Qed.
Lemma giter_stirs : forall body l a g x b, loop_triples (a ++ [x]) body -> same_set l g -> (forall t, In t a -> idle l (body t)) -> one_way (body x) -> stirs l (body x) ->
  giter_run body g (length l) (a ++ x :: b) = (g_run g (flat_map body (a ++ [x])), a ++ [x], Err RuntimeError).
Proof.
  intros body l a. induction a as [|y a IH]; intros g x b B S K O ST; cbn [giter_run flat_map app]; pose proof S as (_ & E & _); rewrite E, Nat.eqb_refl.
  - rewrite app_nil_r. pose proof (stirs_size l g (body x) S (loop_Forall [x] body x B (or_introl eq_refl)) O ST) as L. apply Nat.eqb_neq in L.
    destruct b; cbn [giter_run]; rewrite L; reflexivity.
  - rewrite (IH (g_run g (body y)) x b); auto.
    + now rewrite run_app.
    + intros t op J. apply B. now right.
    + apply idle_same; [exact S|apply (loop_Forall _ body y B); now left|]. apply K. now left.
    + intros z J. apply K. now right.
Qed.

Lemma gmatch_set : forall body rem n g used, length rem < n -> gmatch_loop body n g (GSet used rem) = giter_run body g used rem.
Proof.
  intros body rem. induction rem as [|t r IH]; intros [|n] g used L; cbn [length] in L; try lia; cbn [gmatch_loop giter_run gen_next]; destruct (length (g_triples g) =? used); try reflexivity.
  rewrite IH by lia. reflexivity.
Qed.
Lemma gmatch_start : forall body n g, length (g_triples g) < n -> gmatch_loop body n g (GStart None None None) = graph_loop body g.
Proof.
  intros body [|n] g L; [lia|]. unfold graph_loop. cbn [gmatch_loop]. cbn [gen_next]. cbn. destruct (g_triples g) as [|t r] eqn:E.
  - cbn [giter_run length]. now rewrite E.
  - cbn [giter_run]. rewrite E, Nat.eqb_refl. cbn [length] in L. now rewrite gmatch_set by lia.
Qed.
