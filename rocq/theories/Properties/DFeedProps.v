(** Property C118: [ds.addAll(u for q in ds.match(s, p, o, gr) for u in f(q))], a rule
    applied to a dataset and its conclusions added to the same dataset while match() is
    open. *)
From Verif Require Import Model.Py Model.Terms Model.Graph Model.Dataset Spec.GraphSpec Spec.DatasetSpec Spec.IterSpec Spec.DIterSpec Spec.FeedSpec
  Model.DatasetFeed Spec.DFeedSpec Proofs.DatasetHist Proofs.DatasetFeed.

(** the call ends, whatever the rule is, and it ends in one way only *)
Theorem C118_ends : forall f w s p o gr, ds_reachable w -> gives_quads f ->
  exists w' r, dfeeds f w s p o gr w' r /\ forall w2 r2, dfeeds f w s p o gr w2 r2 -> w2 = w' /\ r2 = r.
Proof.
  intros f w s p o gr R F. destruct (dfeed_total f w s p o gr (ds_reachable_dwf w R) F) as (w' & r & ys & H & _). exists w', r. split; [exact H|].
  intros w2 r2 H2. exact (dfeeds_det f w s p o gr w2 r2 w' r H2 H).
Qed.

(** the rule is applied to quads [ys] that match, each once, and all its conclusions from
    these are added; a call that returns has applied it to every match that was there at
    the start and, if no graph was named, has made no new graph; a call that raises raises
    RuntimeError, and has added a match or, if no graph was named, a graph *)
Theorem C118_outcome : forall f w s p o gr w' r, ds_reachable w -> gives_quads f -> dfeeds f w s p o gr w' r ->
  exists ys, NoDup ys /\ (forall y, In y ys -> qhits s p o gr y /\ In y (ds_iter w')) /\
    (forall q, In q (ds_iter w') <-> In q (ds_iter w) \/ derived f ys q) /\
    (r = Ok tt /\ (forall q, qhits s p o gr q -> In q (ds_iter w) -> In q ys) /\ (~ bound gr -> graph_names w' = graph_names w) \/
     r = Err RuntimeError /\ ((exists q, qhits s p o gr q /\ In q (ds_iter w') /\ ~ In q (ds_iter w)) \/
                              ~ bound gr /\ exists n, In n (graph_names w') /\ ~ In n (graph_names w))).
Proof. intros f w s p o gr w' r R F H. exact (dfeed_outcome f w s p o gr w' r (ds_reachable_dwf w R) F H). Qed.

(** a rule whose conclusions do not match the pattern, or are there already, is applied to
    all matches and to nothing else; if no graph is named, its conclusions have to stay in
    graphs of the dataset *)
Theorem C118_harmless : forall f w s p o gr w' r, ds_reachable w -> gives_quads f -> dfeeds f w s p o gr w' r ->
  (forall y, qhits s p o gr y -> In y (ds_iter w) -> qharmless f s p o gr (ds_iter w) y) ->
  (~ bound gr -> forall y q n, qhits s p o gr y -> In y (ds_iter w) -> In q (f y) -> st_graph q = Some n -> In n (graph_names w)) ->
  r = Ok tt /\ forall q, In q (ds_iter w') <-> In q (ds_iter w) \/ exists y, In y (ds_iter w) /\ qhits s p o gr y /\ In q (f y).
Proof. intros f w s p o gr w' r R F H. exact (dfeed_harmless f w s p o gr w' r (ds_reachable_dwf w R) F H). Qed.

(** without a named graph, a rule with a conclusion in a new graph always raises *)
Theorem C118_new_graph : forall f w s p o gr w' r, ds_reachable w -> gives_quads f -> dfeeds f w s p o gr w' r -> ~ bound gr ->
  (exists y q n, qhits s p o gr y /\ In y (ds_iter w) /\ In q (f y) /\ st_graph q = Some n /\ ~ In n (graph_names w)) -> r = Err RuntimeError.
Proof.
  intros f w s p o gr w' r R F H NB (y & q & n & Y1 & Y2 & Y3 & Y4 & Y5). pose proof (ds_reachable_dwf w R) as W.
  destruct (dfeed_main f w s p o gr w' r W F H) as (zs & _ & _ & _ & _ & _ & G & _). pose proof (wg_dwf _ _ G) as W'.
  destruct (dfeed_outcome f w s p o gr w' r W F H) as (ys & _ & _ & C & [(-> & D & N)|(-> & _)]); [exfalso|reflexivity].
  apply Y5. rewrite <- (N NB). assert (J : In q (ds_iter w')) by (apply C; right; exists y; split; [now apply D|exact Y3]).
  apply (iter_holds w' q W') in J. destruct (holds_name _ _ J) as (m & i & M1 & M2 & _). rewrite Y4 in M1. injection M1 as <-.
  apply Proofs.DictLemmas.dget_Some_In in M2. exact (in_map fst _ _ M2).
Qed.

(** *** Examples *)
Definition df_p := Iri (s2l "http://e/p").
Definition df_r := Iri (s2l "http://e/r").
Definition df_g (n : N) : oterm := Some (BNode n).
Definition df_q (n : N) (g : N) := Qd (BNode n) df_p (BNode 0) (df_g g).
Definition df_ds (l : list stmt) : world := ds_step (ds_new []) (DAddAll l).
(** copy to graph [k] *)
Definition df_copy (k : N) (q : stmt) : list stmt := [Qd (st_s q) (st_p q) (st_o q) (df_g k)].
(** p is a sub-property of r, in each graph *)
Definition df_sub (q : stmt) : list stmt := match st_graph q with Some n => [Qd (st_s q) df_r (st_o q) n] | None => [] end.
(** from graph 1 to graph 2, from graph 2 to graph 3 *)
Definition df_shift (q : stmt) : list stmt :=
  match st_graph q with
  | Some n => if oterm_eq_dec n (df_g 1) then df_copy 2 q else if oterm_eq_dec n (df_g 2) then df_copy 3 q else []
  | None => []
  end.
Definition df_a := df_ds [df_q 1 1; df_q 2 2; df_q 3 3].
Definition df_b := df_ds [df_q 3 3; df_q 2 2; df_q 1 1].
Lemma df_reach : forall l, (forall q, In q l -> is_quad q) -> ds_reachable (df_ds l).
Proof. intros l H. apply dr_step; [apply dr_new; intros g []|]. intros q J. destruct (H q J) as [n E]. rewrite E. discriminate. Qed.
Lemma df_ra : ds_reachable df_a.
Proof. apply df_reach. intros q [<-|[<-|[<-|[]]]]; eexists; reflexivity. Qed.
Lemma df_rb : ds_reachable df_b.
Proof. apply df_reach. intros q [<-|[<-|[<-|[]]]]; eexists; reflexivity. Qed.
Lemma df_quads : (forall k, gives_quads (df_copy k)) /\ gives_quads df_sub /\ gives_quads df_shift.
Proof.
  split; [intros k q u [<-|[]]; eexists; reflexivity|]. split.
  - intros q u. unfold df_sub. destruct (st_graph q); [intros [<-|[]]; eexists; reflexivity|intros []].
  - intros q u. unfold df_shift. destruct (st_graph q) as [n|]; [|intros []]. destruct (oterm_eq_dec n (df_g 1)); [intros [<-|[]]; eexists; reflexivity|].
    destruct (oterm_eq_dec n (df_g 2)); [intros [<-|[]]; eexists; reflexivity|intros []].
Qed.

(** the order in which the graphs were made decides what is derived: the same rule on
    datasets with the same quads returns twice, with different results; one of them is not
    closed under the rule *)
Theorem C118_order_refuted : exists f w1 w2 s p o gr w1' w2', ds_reachable w1 /\ ds_reachable w2 /\ gives_quads f /\
  (forall q, In q (ds_iter w1) <-> In q (ds_iter w2)) /\ dfeeds f w1 s p o gr w1' (Ok tt) /\ dfeeds f w2 s p o gr w2' (Ok tt) /\
  (exists q, In q (ds_iter w1') /\ ~ In q (ds_iter w2')) /\
  exists y q, In y (ds_iter w2') /\ qhits s p o gr y /\ In q (f y) /\ ~ In q (ds_iter w2').
Proof.
  exists df_shift, df_a, df_b, None, None, None, None, (fst (dfeed_loop df_shift 9 df_a (DStart None None None None))), (fst (dfeed_loop df_shift 9 df_b (DStart None None None None))).
  split; [exact df_ra|]. split; [exact df_rb|]. split; [exact (proj2 (proj2 df_quads))|]. split; [intro q; vm_compute; tauto|].
  split; [exists 9%nat; split; [vm_compute; reflexivity|discriminate]|]. split; [exists 9%nat; split; [vm_compute; reflexivity|discriminate]|].
  split; [exists (df_q 1 3); split; [vm_compute; auto 9|vm_compute; intuition discriminate]|].
  exists (df_q 1 2), (df_q 1 3). split; [vm_compute; auto 9|]. split; [vm_compute; auto|]. split; [vm_compute; auto|vm_compute; intuition discriminate].
Qed.

(** C118_ends, C118_outcome: copying graph 1 to graph 2 while all graphs are read; the copy
    is read too *)
Example C118_ex_outcome : exists w', dfeeds (df_copy 2) (df_ds [df_q 1 1; df_q 2 2]) None (Some df_p) None None w' (Ok tt) /\ ds_iter w' = [df_q 1 1; df_q 2 2; df_q 1 2] /\
  graph_names w' = [df_g 1; df_g 2].
Proof.
  exists (fst (dfeed_loop (df_copy 2) 9 (df_ds [df_q 1 1; df_q 2 2]) (DStart None (Some df_p) None None))).
  split; [exists 9%nat; split; [vm_compute; reflexivity|discriminate]|]. split; vm_compute; reflexivity.
Qed.
(** the other way round, the pattern without arguments reads graph 1 with a set iterator *)
Example C118_ex_raise : exists w', dfeeds (df_copy 1) (df_ds [df_q 2 2; df_q 1 1; df_q 4 1]) None None None (df_g 1) w' (Ok tt) /\
  exists w'', dfeeds (fun q => [Qd (BNode 7) df_p (st_s q) (df_g 1)]) (df_ds [df_q 2 2; df_q 1 1; df_q 4 1]) None None None (df_g 1) w'' (Err RuntimeError) /\
  ds_iter w'' = [df_q 2 2; df_q 1 1; df_q 4 1; Qd (BNode 7) df_p (BNode 1) (df_g 1)].
Proof.
  exists (fst (dfeed_loop (df_copy 1) 9 (df_ds [df_q 2 2; df_q 1 1; df_q 4 1]) (DStart None None None (df_g 1)))).
  split; [exists 9%nat; split; [vm_compute; reflexivity|discriminate]|].
  exists (fst (dfeed_loop (fun q => [Qd (BNode 7) df_p (st_s q) (df_g 1)]) 9 (df_ds [df_q 2 2; df_q 1 1; df_q 4 1]) (DStart None None None (df_g 1)))).
  split; [exists 9%nat; split; [vm_compute; reflexivity|discriminate]|vm_compute; reflexivity].
Qed.
(** C118_harmless: its hypotheses for a sub-property over all graphs, and the result *)
Example C118_ex_sub : (forall y, qhits None (Some df_p) None None y -> In y (ds_iter df_a) -> qharmless df_sub None (Some df_p) None None (ds_iter df_a) y) /\
  (forall y q n, qhits None (Some df_p) None None y -> In y (ds_iter df_a) -> In q (df_sub y) -> st_graph q = Some n -> In n (graph_names df_a)) /\
  exists w', dfeeds df_sub df_a None (Some df_p) None None w' (Ok tt) /\ length (ds_iter w') = 6.
Proof.
  assert (I : ds_iter df_a = [df_q 1 1; df_q 2 2; df_q 3 3]) by (vm_compute; reflexivity). assert (N : graph_names df_a = [df_g 1; df_g 2; df_g 3]) by (vm_compute; reflexivity). rewrite I, N.
  split; [|split].
  - intros y _ [<-|[<-|[<-|[]]]] q [<-|[]] ((_ & [H|H] & _) & _); vm_compute in H; discriminate H.
  - intros y q n _ [<-|[<-|[<-|[]]]] [<-|[]] E; injection E as <-; cbn; auto.
  - exists (fst (dfeed_loop df_sub 9 df_a (DStart None (Some df_p) None None))). split; [exists 9%nat; split; [vm_compute; reflexivity|discriminate]|vm_compute; reflexivity].
Qed.
(** C118_new_graph: copying all graphs to a new one raises after the first quad that has a
    successor in another graph; copying one named graph to a new one returns *)
Example C118_ex_new : ~ bound None /\ (exists y q n, qhits None None None None y /\ In y (ds_iter df_a) /\ In q (df_copy 9 y) /\ st_graph q = Some n /\ ~ In n (graph_names df_a)) /\
  (exists w', dfeeds (df_copy 9) df_a None None None None w' (Err RuntimeError) /\ ds_iter w' = ds_iter df_a ++ [df_q 1 9]) /\
  exists w', dfeeds (df_copy 9) df_a None None None (df_g 2) w' (Ok tt) /\ ds_iter w' = ds_iter df_a ++ [df_q 2 9].
Proof.
  split; [intros [H _]; now apply H|]. split.
  - exists (df_q 1 1), (df_q 1 9), (df_g 9). split; [vm_compute; auto 6|]. split; [vm_compute; auto|]. split; [now left|]. split; [reflexivity|]. vm_compute. intuition discriminate.
  - split.
    + exists (fst (dfeed_loop (df_copy 9) 9 df_a (DStart None None None None))). split; [exists 9%nat; split; [vm_compute; reflexivity|discriminate]|vm_compute; reflexivity].
    + exists (fst (dfeed_loop (df_copy 9) 9 df_a (DStart None None None (df_g 2)))). split; [exists 9%nat; split; [vm_compute; reflexivity|discriminate]|vm_compute; reflexivity].
Qed.

Print Assumptions C118_ends.
Print Assumptions C118_outcome.
Print Assumptions C118_harmless.
Print Assumptions C118_new_graph.
Print Assumptions C118_order_refuted.
