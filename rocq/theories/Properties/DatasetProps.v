(** Properties C09-C15 of Dataset, and the part of C07 that needs object identity. *)
From Verif Require Import Model.Py Model.Terms Model.Graph Model.GraphRun Model.Dataset
  Spec.GraphSpec Spec.DatasetSpec Proofs.GraphHist Proofs.DatasetHist Properties.GraphProps.
From Coq Require Import Permutation.

Definition ex_n1 : oterm := Some (Iri (s2l "http://e/g1")).
Definition ex_n2 : oterm := Some (BNode 3).
Definition ex_q1 := t_as_q ex_n1 ex_t1.
Definition ex_q2 := t_as_q ex_n2 ex_t1.
Definition ex_q3 := t_as_q None ex_t2.
Definition ex_qops := [QAdd ex_q1; QAddAll [ex_q2; ex_q3; ex_q1]; QQuery None None None (Some ex_s); QRemove ex_q1; QRemove ex_q1].
Definition ex_w := ds_run (ds_new []) (map dop_of ex_qops).
Example ex_qops_ok : Forall qop_quads ex_qops.
Proof.
  repeat constructor; simpl; try (eexists; reflexivity).
  intros q [<-|[<-|[<-|[]]]]; eexists; reflexivity.
Qed.
Example ex_w_reachable : ds_reachable ex_w.
Proof. apply q_run_reachable; [constructor; simpl; tauto|apply ex_qops_ok]. Qed.
Example ex_w_value : ds_iter ex_w = [ex_q2; ex_q3] /\ length (ds_graphs ex_w) = 4.
Proof. vm_compute. auto. Qed.

(** C07: merge makes a new object; no existing graph (the operands included) changes *)
Theorem C07_merge_frame : forall w i j, i < length (w_heap w) -> j < length (w_heap w) ->
  let '(w', k) := heap_merge w i j in
  heap_get w' k = g_merge (heap_get w i) (heap_get w j) /\
  (forall l, l < length (w_heap w) -> heap_get w' l = heap_get w l) /\
  w_graphs w' = w_graphs w.
Proof. exact heap_merge_spec. Qed.
Example C07_frame_case : let w := ds_new [ex_g; ex_g] in
  length (w_heap w) = 2 /\ length (g_iter (heap_get (fst (heap_merge w 0 1)) 2)) = 2.
Proof. vm_compute. auto. Qed.

(** C09 *)
Theorem C09_dataset_is_a_set : forall ops, Forall qop_quads ops ->
  let w := ds_run (ds_new []) (map dop_of ops) in
  let S := qset_of_history (fun _ => False) ops in
  lists (ds_iter w) S /\
  (forall q, is_quad q -> (ds_contains w q = true <-> S q)) /\
  (forall t, is_triple t -> (ds_contains w t = true <-> exists n, S (t_as_q n t))) /\
  ds_len w = length (ds_iter w) /\
  lists (ds_toArray w) S.
Proof. exact dataset_is_a_set. Qed.
Theorem C09_remove_outcome : forall w q n, ds_reachable w -> st_graph q = Some n ->
  exists w' r, ds_remove w q = (w', r) /\
    lists (ds_iter w') (fun x => In x (ds_iter w) /\ x <> q) /\
    (In q (ds_iter w) -> r = Ok tt) /\ (~ In q (ds_iter w) -> r = Err KeyError).
Proof. exact ds_remove_outcome. Qed.
Example C09_case : snd (ds_remove ex_w ex_q2) = Ok tt /\ snd (ds_remove ex_w ex_q1) = Err KeyError /\
  ds_contains ex_w ex_t2 = true /\ ds_contains ex_w ex_t3 = false.
Proof. vm_compute. auto. Qed.

(** C10 *)
Theorem C10_match_exact : forall w s p o gr n, ds_reachable w -> length (ds_iter w) < n ->
  exists w' l, ds_drain n w (DStart s p o gr) = (w', Ok l) /\
    lists l (fun q => In q (ds_iter w) /\ qfits (as_wildcard s) (as_wildcard p) (as_wildcard o) (as_wildcard gr) q) /\
    lists (ds_iter w') (fun q => In q (ds_iter w)).
Proof. exact ds_match_exact. Qed.
Example C10_case : snd (ds_drain 9 ex_w (DStart None (Some ex_p) None ex_n2)) = Ok [ex_q2] /\
  snd (ds_drain 9 ex_w (DStart None None None None)) = Ok [ex_q2; ex_q3].
Proof. vm_compute. auto. Qed.

(** C11 *)
Theorem C11_query_creates : forall w s p o gr n, ds_reachable w -> length (ds_iter w) < n ->
  let w' := fst (ds_drain n w (DStart s p o gr)) in
  length (ds_graphs w') =
    (if in_dec oterm_eq_dec gr (ds_names w) then 0 else if oterm_truthy gr then 1 else 0) + length (ds_graphs w).
Proof. exact query_creates. Qed.
Theorem C11_remove_creates : forall w q n, ds_reachable w -> st_graph q = Some n ->
  length (ds_graphs (fst (ds_remove w q))) =
    (if in_dec oterm_eq_dec n (ds_names w) then 0 else 1) + length (ds_graphs w).
Proof. exact remove_creates. Qed.
Example C11_case : ~ In (Some ex_p) (ds_names ex_w) /\
  length (ds_graphs (fst (ds_drain 9 ex_w (DStart None None None (Some ex_p))))) = 5 /\
  length (ds_graphs (fst (ds_remove ex_w (t_as_q (Some ex_p) ex_t1)))) = 5.
Proof.
  split; [|vm_compute; auto].
  assert (E : ds_names ex_w = [ex_n1; ex_n2; None; Some ex_s]) by (vm_compute; reflexivity).
  rewrite E. intros [H|[H|[H|[H|[]]]]]; vm_compute in H; discriminate.
Qed.

(** C12 *)
Theorem C12_add_graph : forall w i named, i < length (w_heap w) ->
  let name := if oterm_truthy named then named else g_uri (heap_get w i) in
  (oterm_truthy name = false -> ds_add_graph w i named = (w, Err ValueError)) /\
  (oterm_truthy name = true -> exists w', ds_add_graph w i named = (w', Ok tt) /\
     (forall t, is_triple t -> ds_contains w' (t_as_q name t) = g_contains (heap_get w i) t) /\
     (forall n t, n <> name -> ds_contains w' (t_as_q n t) = ds_contains w (t_as_q n t)) /\
     (forall g2 t, is_triple t -> ds_contains (heap_set w' i g2) (t_as_q name t) = g_contains g2 t)).
Proof. exact add_graph_contents. Qed.
Theorem C12_unnamed_graph_accepted : forall w i, i < length (w_heap w) -> heap_get w i = graph_new None ->
  exists w', ds_add_graph w i None = (w', Ok tt) /\
    dget oterm_eq_dec (w_graphs w') (Some (Iri (s2l "None"))) = Some i.
Proof. exact add_unnamed_graph. Qed.
Example C12_case : let w := ds_new [ex_g; graph_new (Some [])] in
  snd (ds_add_graph w 0 ex_n1) = Ok tt /\ ds_iter (fst (ds_add_graph w 0 ex_n1)) = map (t_as_q ex_n1) [ex_t2; ex_t3] /\
  snd (ds_add_graph w 1 None) = Err ValueError /\ heap_get w 5 = graph_new None.
Proof. vm_compute. auto. Qed.

(** C13 *)
Theorem C13_two_names : forall w i n1 n2 t, ds_reachable w -> i < length (w_heap w) -> ~ In i (ds_graphs w) ->
  bound n1 -> bound n2 -> n1 <> n2 -> In t (g_iter (heap_get w i)) ->
  let w2 := fst (ds_add_graph (fst (ds_add_graph w i n1)) i n2) in
  count_occ stmt_eq_dec (ds_iter w2) (t_as_q n2 t) = 2 /\
  ~ In (t_as_q n1 t) (ds_iter w2) /\
  ds_contains w2 (t_as_q n1 t) = true /\
  ds_contains w2 (t_as_q n2 t) = true.
Proof. exact alias_effect. Qed.
Theorem C13_iteration_agrees_without_aliasing : forall w n, ds_reachable w -> length (ds_iter w) < n ->
  exists w' l, ds_drain n w (DStart None None None None) = (w', Ok l) /\ Permutation l (ds_iter w).
Proof. exact iter_agrees_with_match. Qed.
Example C13_case : let w := ds_new [ex_g] in ds_reachable w /\ 0 < length (w_heap w) /\ ~ In 0 (ds_graphs w) /\
  bound ex_n1 /\ bound ex_n2 /\ ex_n1 <> ex_n2 /\ In ex_t2 (g_iter (heap_get w 0)).
Proof.
  split; [constructor; intros g [<-|[]]; apply ex_g_reachable|].
  split; [vm_compute; lia|]. split; [simpl; tauto|].
  split; [vm_compute; split; discriminate|]. split; [vm_compute; split; discriminate|].
  split; [unfold ex_n1, ex_n2; discriminate|]. vm_compute. auto.
Qed.
(** a graph created by a query and then filled through ds.graphs is mislabelled too *)
Theorem C13_query_created_graph_refuted : exists w i t n,
  w = ds_run (ds_new []) [DQuery None None None n; DGraphAdd i t] /\ In i (ds_graphs w) /\
  ds_contains w (t_as_q n t) = true /\ ~ In (t_as_q n t) (ds_iter w) /\
  In (t_as_q (Some (Iri (s2l "None"))) t) (ds_iter w).
Proof.
  exists (ds_run (ds_new []) [DQuery None None None ex_n1; DGraphAdd 0 ex_t1]), 0, ex_t1, ex_n1.
  split; [reflexivity|]. split; [vm_compute; auto|]. split; [vm_compute; reflexivity|].
  split; [|vm_compute; auto]. vm_compute. intros [H|[]]. discriminate.
Qed.

(** C14 *)
Theorem C14_removeMatches : forall w s p o gr, ds_reachable w ->
  let m q := In q (ds_iter w) /\ qfits (as_wildcard s) (as_wildcard p) (as_wildcard o) (as_wildcard gr) q in
  exists w' r, ds_removeMatches w s p o gr = (w', r) /\
  ((forall q, ~ m q) -> r = Ok tt /\ lists (ds_iter w') (fun q => In q (ds_iter w))) /\
  (bound s -> bound p -> bound o -> r = Ok tt /\ lists (ds_iter w') (fun q => In q (ds_iter w) /\ ~ m q)) /\
  ((exists q, m q) -> ~ (bound s /\ bound p /\ bound o) ->
      r = Err RuntimeError /\ exists q, m q /\ lists (ds_iter w') (fun x => In x (ds_iter w) /\ x <> q)).
Proof. exact ds_removeMatches_outcome. Qed.
Example C14_case : let w := ds_step ex_w (DAdd ex_q1) in
  snd (ds_removeMatches w (Some ex_s) (Some ex_p) (Some ex_o) None) = Ok tt /\
  ds_iter (fst (ds_removeMatches w (Some ex_s) (Some ex_p) (Some ex_o) None)) = [ex_q3] /\
  snd (ds_removeMatches w (Some ex_s) None None None) = Err RuntimeError /\
  length (ds_iter (fst (ds_removeMatches w (Some ex_s) None None None))) = 2.
Proof. vm_compute. auto. Qed.

(** C15 *)
Theorem C15_remove_graph_has_no_effect : forall w n, ds_remove_graph w n = (w, Ok tt).
Proof. reflexivity. Qed.
Theorem C15_removed_graph_stays_visible : forall w n t, ds_contains w (t_as_q n t) = true ->
  let w' := fst (ds_remove_graph w n) in
  ds_contains w' (t_as_q n t) = true /\ ds_iter w' = ds_iter w /\ ds_graphs w' = ds_graphs w.
Proof. intros w n t H. auto. Qed.
Example C15_case : ds_contains ex_w ex_q2 = true.
Proof. vm_compute. reflexivity. Qed.

Print Assumptions C07_merge_frame.
Print Assumptions C09_dataset_is_a_set.
Print Assumptions C09_remove_outcome.
Print Assumptions C10_match_exact.
Print Assumptions C11_query_creates.
Print Assumptions C11_remove_creates.
Print Assumptions C12_add_graph.
Print Assumptions C12_unnamed_graph_accepted.
Print Assumptions C13_two_names.
Print Assumptions C13_iteration_agrees_without_aliasing.
Print Assumptions C13_query_created_graph_refuted.
Print Assumptions C14_removeMatches.
Print Assumptions C15_remove_graph_has_no_effect.
Print Assumptions C15_removed_graph_stays_visible.
