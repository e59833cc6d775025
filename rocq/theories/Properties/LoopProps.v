(** Property C119: [for q in ds: body(q)], a loop over a dataset with a body that works on
    the same dataset. *)
From Verif Require Import Model.Py Model.Terms Model.Graph Model.Dataset Spec.GraphSpec Spec.DatasetSpec Spec.IterSpec Spec.DIterSpec Spec.FeedSpec
  Model.DatasetFeed Spec.DFeedSpec Model.DatasetLoop Spec.LoopSpec Proofs.DatasetInv Proofs.DatasetHist Proofs.DatasetIter Proofs.DatasetLoop.

(** whatever the body does with the methods of the dataset, the loop does the same with
    [ds] as with [ds.match()]: the same quads in the same order, the same exception at the
    same time, the same dataset at the end; so C106 and C118 also concern loops over [ds] *)
Theorem C119_as_match : forall body w n, ds_reachable w -> body_quads body -> iter_loop body n w IStart = match_loop body n w (DStart None None None None).
Proof. intros body w n R B. apply (loop_sim body B); [exact (ds_reachable_dwf w R)|now right]. Qed.

(** a body that changes nothing is run for all quads, in the order of [ds_iter] *)
Theorem C119_reads_all : forall body w n, body_idle w body -> length (ds_iter w) < n -> iter_loop body n w IStart = (w, ds_iter w, Ok tt).
Proof. intros body w n B L. exact (loop_left body n w IStart Logic.I B L). Qed.

(** ds.addAll(ds) changes nothing and returns *)
Theorem C119_self : forall w n, ds_reachable w -> length (ds_iter w) < n -> iter_loop (fun q => [DAdd q]) n w IStart = (w, ds_iter w, Ok tt).
Proof.
  intros w n R L. pose proof (ds_reachable_dwf w R) as W. apply C119_reads_all; [|exact L]. intros q J. apply (iter_holds w q W) in J. exact (add_again w q W J).
Qed.

(** [for q in ds: if test(q): ds.remove(q)] removes the first quad of this kind, and only
    that, and then raises RuntimeError; it returns only if there is no such quad *)
Theorem C119_remove : forall test w n, ds_reachable w -> length (ds_iter w) + 1 < n ->
  (forall a q b, ds_iter w = a ++ q :: b -> (forall y, In y a -> test y = false) -> test q = true ->
     exists w', iter_loop (body_remove test) n w IStart = (w', a ++ [q], Err RuntimeError) /\ forall x, In x (ds_iter w') <-> In x (ds_iter w) /\ x <> q) /\
  ((forall y, In y (ds_iter w) -> test y = false) -> iter_loop (body_remove test) n w IStart = (w, ds_iter w, Ok tt)).
Proof.
  intros test w n R L. pose proof (ds_reachable_dwf w R) as W. split.
  - intros a q b E A T. exists (fst (ds_remove w q)). split; [apply (loop_remove test a n w IStart q b W Logic.I E A T); rewrite E, app_length in L; cbn in L; lia|].
    assert (H : holds w q) by (apply (iter_holds w q W); rewrite E; apply in_app_iff; right; now left). unfold holds in H. destruct (st_graph q) as [m|] eqn:SG; [|contradiction].
    destruct (ds_remove_spec w q m W SG) as (w' & r & E' & D & X & _). rewrite E'. cbn [fst]. intro x. rewrite (iter_holds w' x D), (iter_holds w x W). apply X.
  - intro A. apply C119_reads_all; [|lia]. intros q J. unfold body_remove. now rewrite (A q J).
Qed.

(** [for q in list(ds): ds.remove(q)] removes all quads: the loop is over a list *)
Theorem C119_remove_copy : forall w, ds_reachable w -> ds_iter (ds_run w (map DRemove (ds_iter w))) = [].
Proof.
  intros w R. pose proof (ds_reachable_dwf w R) as W. destruct (remove_each (ds_iter w) w W) as [D H].
  - intros q J. apply (iter_holds w q W) in J. unfold holds in J. destruct (st_graph q) as [m|] eqn:E; [exists m; exact E|contradiction].
  - destruct (ds_iter (ds_run w (map DRemove (ds_iter w)))) as [|q l] eqn:E; [reflexivity|]. exfalso.
    assert (J : In q (ds_iter (ds_run w (map DRemove (ds_iter w))))) by (rewrite E; now left). apply (iter_holds _ q D), H in J. destruct J as [J1 J2]. apply J2, (iter_holds w q W), J1.
Qed.

(** a loop that adds the conclusions of a rule is the call of C118 without arguments *)
Theorem C119_rule : forall f w n w' ys r, ds_reachable w -> gives_quads f -> iter_loop (body_add f) n w IStart = (w', ys, r) -> r <> Err OutOfFuel ->
  dfeeds f w None None None None w' r.
Proof.
  intros f w n w' ys r R F E N. exists n. split; [|exact N]. rewrite (loop_feed f F n w (DStart None None None None) (ds_reachable_dwf w R) Logic.I).
  rewrite <- (C119_as_match (body_add f) w n R), E; [reflexivity|]. intros q op [<-|[]]. exact (F q).
Qed.

(** *** Examples *)
Definition lo_p := Iri (s2l "http://e/p").
Definition lo_g (n : N) : oterm := Some (BNode n).
Definition lo_q (n : N) (g : N) := Qd (BNode n) lo_p (BNode 0) (lo_g g).
Definition lo_ds : world := ds_step (ds_new []) (DAddAll [lo_q 1 1; lo_q 2 1; lo_q 3 2; lo_q 4 2]).
Lemma lo_reach : ds_reachable lo_ds.
Proof. apply dr_step; [apply dr_new; intros g []|]. intros q [<-|[<-|[<-|[<-|[]]]]]; discriminate. Qed.
Definition lo_in2 (q : stmt) : bool := if stmt_eq_dec q (lo_q 3 2) then true else if stmt_eq_dec q (lo_q 4 2) then true else false.
Example C119_ex_iter : ds_iter lo_ds = [lo_q 1 1; lo_q 2 1; lo_q 3 2; lo_q 4 2] /\
  snd (fst (iter_loop (fun _ => []) 9 lo_ds IStart)) = [lo_q 1 1; lo_q 2 1; lo_q 3 2; lo_q 4 2].
Proof. split; vm_compute; reflexivity. Qed.
(** C119_as_match: a body that removes a quad of the graph being read, and asks *)
Example C119_ex_body : let body := fun q => [DRemove (lo_q 1 1); DQuery None None None (lo_g 1)] in body_quads body /\
  iter_loop body 9 lo_ds IStart = (fst (fst (iter_loop body 9 lo_ds IStart)), [lo_q 1 1], Err RuntimeError).
Proof. split; [intros q op [<-|[<-|[]]]; [eexists; reflexivity|exact Logic.I]|vm_compute; reflexivity]. Qed.
(** C119_reads_all: a body that only asks *)
Example C119_ex_idle : body_idle lo_ds (fun q => [DQuery (Some (st_s q)) None None None]).
Proof.
  assert (I : ds_iter lo_ds = [lo_q 1 1; lo_q 2 1; lo_q 3 2; lo_q 4 2]) by (vm_compute; reflexivity). intros q J. rewrite I in J.
  destruct J as [<-|[<-|[<-|[<-|[]]]]]; vm_compute; reflexivity.
Qed.
(** C119_remove: removing graph 2 in a loop stops at its first quad *)
Example C119_ex_remove : ds_iter lo_ds = [lo_q 1 1; lo_q 2 1] ++ lo_q 3 2 :: [lo_q 4 2] /\ (forall y, In y [lo_q 1 1; lo_q 2 1] -> lo_in2 y = false) /\ lo_in2 (lo_q 3 2) = true /\
  snd (iter_loop (body_remove lo_in2) 9 lo_ds IStart) = Err RuntimeError /\ ds_iter (fst (fst (iter_loop (body_remove lo_in2) 9 lo_ds IStart))) = [lo_q 1 1; lo_q 2 1; lo_q 4 2].
Proof. split; [vm_compute; reflexivity|]. split; [intros y [<-|[<-|[]]]; vm_compute; reflexivity|]. split; [vm_compute; reflexivity|]. split; vm_compute; reflexivity. Qed.
Example C119_ex_copy : ds_len lo_ds = 4 /\ ds_len (ds_run lo_ds (map DRemove (ds_iter lo_ds))) = 0.
Proof. split; vm_compute; reflexivity. Qed.
(** C119_rule: from graph 1 to graph 2 *)
Example C119_ex_rule : let f := fun q => [Qd (st_s q) (st_p q) (st_o q) (lo_g 2)] in gives_quads f /\
  snd (iter_loop (body_add f) 9 lo_ds IStart) = Ok tt /\ length (snd (fst (iter_loop (body_add f) 9 lo_ds IStart))) = 6.
Proof. split; [intros q u [<-|[]]; eexists; reflexivity|]. split; vm_compute; reflexivity. Qed.

Print Assumptions C119_as_match.
Print Assumptions C119_reads_all.
Print Assumptions C119_self.
Print Assumptions C119_remove.
Print Assumptions C119_remove_copy.
Print Assumptions C119_rule.
