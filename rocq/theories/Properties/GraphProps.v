(** Properties C01-C08 of Graph. *)
From Verif Require Import Model.Py Model.Terms Model.Graph Model.GraphRun Spec.GraphSpec Spec.IterSpec Proofs.GraphHist.
From Coq Require Import Permutation.

Definition ex_s := Iri (s2l "http://e/s").
Definition ex_p := Iri (s2l "http://e/p").
Definition ex_q := Iri (s2l "http://e/q").
Definition ex_o := Lit (s2l "x") (Some (s2l "en")) None.
Definition ex_b := BNode 7.
Definition ex_t1 := Tr ex_s ex_p ex_o.
Definition ex_t2 := Tr ex_s ex_q ex_b.
Definition ex_t3 := Tr ex_b ex_p ex_o.
Definition ex_ops := [OpAdd ex_t1; OpAddAll [ex_t2; ex_t3; ex_t2]; OpQuery (Some ex_s) None None;
                      OpRemove ex_t1; OpRemove ex_t1; OpAdd ex_t3].
Definition ex_g := g_run (graph_new None) ex_ops.
Example ex_ops_ok : Forall gop_triples ex_ops.
Proof. repeat constructor; simpl; intuition (subst; reflexivity). Qed.
Example ex_g_reachable : reachable ex_g.
Proof. apply g_run_reachable; [constructor|apply ex_ops_ok]. Qed.
Example ex_g_value : g_iter ex_g = [ex_t2; ex_t3].
Proof. vm_compute. reflexivity. Qed.

(** C01 *)
Theorem C01_graph_is_a_set : forall u ops, Forall gop_triples ops ->
  let g := g_run (graph_new u) ops in
  let S := set_of_history (fun _ => False) ops in
  (forall t, g_contains g t = true <-> S t) /\
  lists (g_iter g) S /\
  (forall l, lists l S -> length l = g_len g).
Proof. exact graph_is_a_set. Qed.
Theorem C01_add_present_changes_nothing : forall g t, reachable g -> In t (g_iter g) -> g_add g t = g.
Proof. exact add_present. Qed.
Theorem C01_remove_outcome : forall g t, reachable g ->
  (In t (g_iter g) -> exists g', g_remove g t = (g', Ok tt) /\
      lists (g_iter g') (fun x => In x (g_iter g) /\ x <> t)) /\
  (~ In t (g_iter g) -> g_remove g t = (g, Err KeyError)).
Proof. exact remove_outcome. Qed.
Example C01_case : set_of_history (fun _ => False) ex_ops ex_t2 /\ ~ set_of_history (fun _ => False) ex_ops ex_t1 /\
  In ex_t2 (g_iter ex_g) /\ ~ In ex_t1 (g_iter ex_g).
Proof.
  assert (ex_t1 <> ex_t2) by (vm_compute; discriminate).
  assert (ex_t1 <> ex_t3) by (vm_compute; discriminate).
  rewrite ex_g_value. simpl. intuition congruence.
Qed.

(** C02: [drain n g (GStart s p o)] is list(g.match(s, p, o)) with at most n steps;
    any bound above len(g) suffices. *)
Theorem C02_match_exact : forall g s p o n, reachable g -> honoured s -> honoured p -> honoured o ->
  length (g_iter g) < n ->
  exists l, snd (drain n g (GStart s p o)) = Ok l /\
    lists l (fun t => In t (g_iter g) /\ fits s p o t).
Proof. exact match_exact. Qed.
Example C02_case : snd (drain 3 ex_g (GStart (Some ex_s) None None)) = Ok [ex_t2] /\
  honoured (Some ex_s) /\ length (g_iter ex_g) < 3.
Proof. split; [vm_compute; reflexivity|]. split; [discriminate|vm_compute; lia]. Qed.

(** C03 *)
Theorem C03_empty_iri_is_wildcard : forall g s p o n, reachable g -> length (g_iter g) < n ->
  drain n g (GStart s p o) = drain n g (GStart (as_wildcard s) (as_wildcard p) (as_wildcard o)).
Proof. exact match_empty_iri. Qed.
Theorem C03_documented_match_refuted : exists g s p o l t,
  reachable g /\ s = Some empty_iri /\ snd (drain 10 g (GStart s p o)) = Ok l /\
  In t l /\ ~ fits s p o t.
Proof.
  exists ex_g, (Some empty_iri), None, None, [ex_t2; ex_t3], ex_t2.
  split; [apply ex_g_reachable|]. split; [reflexivity|]. split; [vm_compute; reflexivity|].
  split; [simpl; auto|]. intros [[H|H] _]; discriminate.
Qed.

Example C03_example : reachable ex_g /\ length (g_iter ex_g) < 10 /\
  drain 10 ex_g (GStart (Some empty_iri) None None) = (ex_g, Ok [ex_t2; ex_t3]) /\ drain 10 ex_g (GStart None None None) = (ex_g, Ok [ex_t2; ex_t3]).
Proof. split; [apply ex_g_reachable|]. split; [vm_compute; lia|]. split; vm_compute; reflexivity. Qed.

(** C04 *)
Theorem C04_match_leaves_graph : forall g s p o n, reachable g -> fst (drain n g (GStart s p o)) = g.
Proof. exact query_pure. Qed.
(** ... and no step of any of several generators that are kept open while the graph changes does *)
Theorem C04_next_never_modifies : forall es u i, Forall ev_triples es ->
  let c := client_run (graph_new u, []) es in
  fst (client_step c (EvNext i)) = fst c.
Proof. exact next_never_modifies. Qed.
Definition ex_es := [EvOp (OpAdd ex_t1); EvOp (OpAdd ex_t2); EvMatch (Some ex_s) None None; EvNext 0;
                     EvMatch None None None; EvOp (OpRemove ex_t1); EvNext 0; EvNext 1].
Example C04_case : Forall ev_triples ex_es /\
  snd (client_run (graph_new None, []) ex_es) = [GDone; GSet 1 []] /\
  snd (gen_next (graph_new None) (GStart (Some ex_s) (Some ex_p) None)) = Ok None /\
  g_subjects (fst (drain 5 (graph_new None) (GStart (Some ex_s) (Some ex_p) None))) = [].
Proof. split; [repeat constructor|vm_compute; auto]. Qed.

(** C05 *)
Theorem C05_removeMatches : forall g s p o, reachable g ->
  let m t := In t (g_iter g) /\ fits (as_wildcard s) (as_wildcard p) (as_wildcard o) t in
  exists g' r, g_removeMatches g s p o = (g', r) /\
  ((forall t, ~ m t) -> g' = g /\ r = Ok tt) /\
  (bound s -> bound p -> bound o -> r = Ok tt /\ lists (g_iter g') (fun t => In t (g_iter g) /\ ~ m t)) /\
  ((exists t, m t) -> ~ (bound s /\ bound p /\ bound o) ->
      r = Err RuntimeError /\ exists t, m t /\ lists (g_iter g') (fun x => In x (g_iter g) /\ x <> t)).
Proof. exact removeMatches_outcome. Qed.
Example C05_case :
  let '(g', r) := g_removeMatches ex_g None (Some ex_p) None in r = Err RuntimeError /\ g_iter g' = [ex_t2].
Proof. vm_compute. auto. Qed.
Example C05_case2 :
  let '(g', r) := g_removeMatches ex_g (Some ex_b) (Some ex_p) (Some ex_o) in r = Ok tt /\ g_iter g' = [ex_t2].
Proof. vm_compute. auto. Qed.

(** C06 *)
Theorem C06_listings_are_ever_used : forall u ops, Forall gop_triples ops ->
  let g := g_run (graph_new u) ops in
  lists (g_subjects g) (fun x => exists t, ever_added ops t /\ st_s t = x) /\
  lists (g_predicates g) (fun x => exists t, ever_added ops t /\ st_p t = x) /\
  lists (g_objects g) (fun x => exists t, ever_added ops t /\ st_o t = x).
Proof. exact listing. Qed.
Theorem C06_exact_without_removal : forall u ops, Forall gop_triples ops -> Forall no_remove ops ->
  let g := g_run (graph_new u) ops in
  lists (g_subjects g) (fun x => exists t, In t (g_iter g) /\ st_s t = x) /\
  lists (g_predicates g) (fun x => exists t, In t (g_iter g) /\ st_p t = x) /\
  lists (g_objects g) (fun x => exists t, In t (g_iter g) /\ st_o t = x).
Proof. exact listing_no_removal. Qed.
Theorem C06_never_misses : forall g t, reachable g -> In t (g_iter g) ->
  In (st_s t) (g_subjects g) /\ In (st_p t) (g_predicates g) /\ In (st_o t) (g_objects g) /\
  NoDup (g_subjects g) /\ NoDup (g_predicates g) /\ NoDup (g_objects g).
Proof. exact in_use_always_listed. Qed.
Theorem C06_stale_refuted : exists g s, reachable g /\ In s (g_subjects g) /\
  forall t, In t (g_iter g) -> st_s t <> s.
Proof.
  exists (g_run (graph_new None) [OpAdd ex_t1; OpRemove ex_t1]), ex_s.
  split; [apply g_run_reachable; [constructor|repeat constructor]|]. split; [vm_compute; auto|].
  intros t H. vm_compute in H. contradiction.
Qed.
Example C06_case : Forall no_remove [OpAdd ex_t1; OpAddAll [ex_t2; ex_t3]] /\
  g_subjects (g_run (graph_new None) [OpAdd ex_t1; OpAddAll [ex_t2; ex_t3]]) = [ex_s; ex_b].
Proof. split; [repeat constructor|vm_compute; reflexivity]. Qed.

(** C07 *)
Theorem C07_merge_is_union : forall g h, reachable g -> reachable h ->
  lists (g_iter (g_merge g h)) (fun t => In t (g_iter g) \/ In t (g_iter h)).
Proof. exact merge_union. Qed.
Theorem C07_match_on_merge : forall g h s p o n, reachable g -> reachable h ->
  honoured s -> honoured p -> honoured o -> length (g_iter (g_merge g h)) < n ->
  exists l, snd (drain n (g_merge g h) (GStart s p o)) = Ok l /\
    lists l (fun t => In t (g_iter (g_merge g h)) /\ fits s p o t).
Proof. exact (fun g h s p o n Rg Rh => match_exact (g_merge g h) s p o n (reach_merge g h Rg Rh)). Qed.
Example C07_case : g_iter (g_merge ex_g (g_add (graph_new None) ex_t1)) = [ex_t1; ex_t2; ex_t3].
Proof. vm_compute. reflexivity. Qed.

(** C08 *)
Theorem C08_insertion_order : forall u1 u2 ts1 ts2,
  (forall t, In t ts1 -> is_triple t) -> (forall t, In t ts1 <-> In t ts2) ->
  let g := g_addAll (graph_new u1) ts1 in
  let h := g_addAll (graph_new u2) ts2 in
  Permutation (g_iter g) (g_iter h) /\ g_len g = g_len h /\
  (forall t, g_contains g t = g_contains h t) /\
  (forall s p o, Permutation (g_match g s p o) (g_match h s p o)).
Proof. exact insertion_order. Qed.
(** [g_match] is what draining the generator yields *)
Theorem C08_match_is_drain : forall g s p o n, reachable g -> length (g_iter g) < n ->
  drain n g (GStart s p o) = (g, Ok (g_match g s p o)).
Proof. exact drain_is_match. Qed.
Example C08_case : (forall t, In t [ex_t1; ex_t2; ex_t1] <-> In t [ex_t2; ex_t1]) /\
  g_iter (g_addAll (graph_new None) [ex_t1; ex_t2; ex_t1]) = [ex_t1; ex_t2] /\
  g_iter (g_addAll (graph_new None) [ex_t2; ex_t1]) = [ex_t2; ex_t1].
Proof. split; [simpl; tauto|vm_compute; auto]. Qed.

Print Assumptions C01_graph_is_a_set.
Print Assumptions C01_add_present_changes_nothing.
Print Assumptions C01_remove_outcome.
Print Assumptions C02_match_exact.
Print Assumptions C03_empty_iri_is_wildcard.
Print Assumptions C03_documented_match_refuted.
Print Assumptions C04_match_leaves_graph.
Print Assumptions C04_next_never_modifies.
Print Assumptions C05_removeMatches.
Print Assumptions C06_listings_are_ever_used.
Print Assumptions C06_exact_without_removal.
Print Assumptions C06_never_misses.
Print Assumptions C06_stale_refuted.
Print Assumptions C07_merge_is_union.
Print Assumptions C07_match_on_merge.
Print Assumptions C08_insertion_order.
Print Assumptions C08_match_is_drain.
