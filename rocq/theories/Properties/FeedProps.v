(** Property C114: [g.addAll(u for t in g.match(s, p, o) for u in f(t))], a rule applied
    to a graph and its conclusions added to the same graph while match() is open. *)
From Verif Require Import Model.Py Model.Terms Model.Graph Model.GraphRun Spec.GraphSpec Spec.IterSpec Model.GraphFeed Spec.FeedSpec
  Proofs.GraphHist Proofs.GraphFeed.

(** the call ends, whatever the rule is, also when its conclusions match the pattern
    again; and it ends in one way only *)
Theorem C114_ends : forall f g s p o, reachable g -> gives_triples f ->
  exists g' r, feeds f g s p o g' r /\ forall g2 r2, feeds f g s p o g2 r2 -> g2 = g' /\ r2 = r.
Proof.
  intros f g s p o R F. destruct (feed_ends f g s p o (reachable_wf g R) F) as (g' & r & H). exists g', r. split; [exact H|].
  intros g2 r2 H2. exact (feeds_det f g s p o g2 r2 g' r H2 H).
Qed.

(** the rule is applied to triples [ys] that match, each once, and all its conclusions
    from these are added; a call that returns has applied it to every match that was
    there at the start; a call that raises raises RuntimeError and has added a match *)
Theorem C114_outcome : forall f g s p o g' r, reachable g -> gives_triples f -> feeds f g s p o g' r ->
  exists ys, NoDup ys /\ (forall y, In y ys -> hits s p o y /\ In y (g_iter g')) /\
    (forall t, In t (g_iter g') <-> In t (g_iter g) \/ derived f ys t) /\
    (r = Ok tt /\ (forall t, hits s p o t -> In t (g_iter g) -> In t ys) \/
     r = Err RuntimeError /\ exists t, hits s p o t /\ In t (g_iter g') /\ ~ In t (g_iter g)).
Proof.
  intros f g s p o g' r R F H. destruct (feed_main f s p o g F (reachable_wf g R) g' r H) as (ys & A & B & C & _ & _ & D). exists ys.
  split; [exact A|]. split; [exact B|]. split; [exact C|]. destruct D as [(D1 & D2 & _)|D]; [left; auto|right; exact D].
Qed.

(** a rule whose conclusions do not match the pattern, or are there already, is applied
    to all matches and to nothing else *)
Theorem C114_harmless : forall f g s p o g' r, reachable g -> gives_triples f -> feeds f g s p o g' r ->
  (forall y, hits s p o y -> In y (g_iter g) -> harmless f s p o (g_iter g) y) ->
  r = Ok tt /\ forall t, In t (g_iter g') <-> In t (g_iter g) \/ exists y, In y (g_iter g) /\ hits s p o y /\ In t (f y).
Proof. intros f g s p o g' r R F H. exact (feed_harmless f s p o g F (reachable_wf g R) g' r H). Qed.

(** with two arguments or none, a rule with a new matching conclusion always raises:
    after the first triple with such a conclusion, which is the last one it is applied to *)
Theorem C114_noticed : forall f g s p o g' r, reachable g -> gives_triples f -> feeds f g s p o g' r ->
  ~ one_bound s p o -> ~ (bound s /\ bound p /\ bound o) ->
  (exists y, hits s p o y /\ In y (g_iter g) /\ ~ harmless f s p o (g_iter g) y) ->
  r = Err RuntimeError /\ exists ys y, NoDup (ys ++ [y]) /\ (forall z, In z (ys ++ [y]) -> hits s p o z /\ In z (g_iter g)) /\
    Forall (harmless f s p o (g_iter g)) ys /\ ~ harmless f s p o (g_iter g) y /\
    forall t, In t (g_iter g') <-> In t (g_iter g) \/ derived f (ys ++ [y]) t.
Proof. intros f g s p o g' r R F H N1 N2. exact (feed_noticed f s p o g F (reachable_wf g R) (conj N1 N2) g' r H). Qed.

(** with all three arguments the call always returns *)
Theorem C114_three : forall f g s p o g' r, reachable g -> gives_triples f -> feeds f g s p o g' r -> bound s -> bound p -> bound o -> r = Ok tt.
Proof. intros f g s p o g' r _ _ H A B C. exact (feed_three f s p o g A B C g' r H). Qed.

(** *** Examples *)
Definition fd_p := Iri (s2l "http://e/p").
Definition fd_q := Iri (s2l "http://e/q").
Definition fd_1 := Tr (BNode 1) fd_p (BNode 2).
Definition fd_2 := Tr (BNode 2) fd_p (BNode 3).
Definition fd_3 := Tr (BNode 9) fd_p (BNode 3).
Definition fd_g (l : list stmt) : graph := g_step (graph_new None) (OpAddAll l).
(** p is a sub-property of q *)
Definition fd_sub (t : stmt) : list stmt := [Tr (st_s t) fd_q (st_o t)].
(** p is symmetric *)
Definition fd_sym (t : stmt) : list stmt := [Tr (st_o t) fd_p (st_s t)].
(** from (1 p 2): (9 p 3); from (9 p 3): (9 q 3) *)
Definition fd_two (t : stmt) : list stmt := if stmt_eq_dec t fd_1 then [fd_3] else if stmt_eq_dec t fd_3 then [Tr (BNode 9) fd_q (BNode 3)] else [].
(** from (1 p 2) and from (2 p 3): (9 p 3) *)
Definition fd_same (t : stmt) : list stmt := if stmt_eq_dec t fd_1 then [fd_3] else if stmt_eq_dec t fd_2 then [fd_3] else [].
Lemma fd_reach : forall l, Forall is_triple l -> reachable (fd_g l).
Proof. intros l H. apply reach_step; [apply reach_new|]. cbn [gop_triples]. intros t J. rewrite Forall_forall in H. now apply H. Qed.
Lemma fd_12 : reachable (fd_g [fd_1; fd_2]).
Proof. apply fd_reach. repeat constructor. Qed.
Lemma fd_21 : reachable (fd_g [fd_2; fd_1]).
Proof. apply fd_reach. repeat constructor. Qed.
Lemma fd_triples : gives_triples fd_sub /\ gives_triples fd_sym /\ gives_triples fd_two /\ gives_triples fd_same.
Proof.
  repeat split; intro t; unfold fd_sub, fd_sym, fd_two, fd_same; repeat destruct (stmt_eq_dec _ _); repeat constructor.
Qed.

(** the order in which the triples were added decides what is derived: the same rule on
    graphs with the same triples returns twice, with different results; one of them is
    not closed under the rule *)
Theorem C114_order_refuted : exists f g1 g2 s p o g1' g2', reachable g1 /\ reachable g2 /\ gives_triples f /\
  (forall t, In t (g_iter g1) <-> In t (g_iter g2)) /\ feeds f g1 s p o g1' (Ok tt) /\ feeds f g2 s p o g2' (Ok tt) /\
  (exists t, In t (g_iter g1') /\ ~ In t (g_iter g2')) /\
  exists y t, In y (g_iter g2') /\ hits s p o y /\ In t (f y) /\ ~ In t (g_iter g2').
Proof.
  exists fd_two, (fd_g [fd_1; fd_2]), (fd_g [fd_2; fd_1]), None, (Some fd_p), None,
    (fst (feed_loop fd_two 9 (fd_g [fd_1; fd_2]) (GStart None (Some fd_p) None))), (fst (feed_loop fd_two 9 (fd_g [fd_2; fd_1]) (GStart None (Some fd_p) None))).
  split; [exact fd_12|]. split; [exact fd_21|]. split; [exact (proj1 (proj2 (proj2 fd_triples)))|]. split; [intro t; cbn; tauto|].
  split; [exists 9%nat; split; [vm_compute; reflexivity|discriminate]|]. split; [exists 9%nat; split; [vm_compute; reflexivity|discriminate]|].
  split; [exists (Tr (BNode 9) fd_q (BNode 3)); split; [vm_compute; auto 9|vm_compute; intuition discriminate]|].
  exists fd_3, (Tr (BNode 9) fd_q (BNode 3)). split; [vm_compute; auto 9|]. split; [vm_compute; auto|]. split; [vm_compute; auto|vm_compute; intuition discriminate].
Qed.
(** and whether the call returns or raises *)
Theorem C114_raise_refuted : exists f g1 g2 s p o g1' g2', reachable g1 /\ reachable g2 /\ gives_triples f /\
  (forall t, In t (g_iter g1) <-> In t (g_iter g2)) /\ feeds f g1 s p o g1' (Ok tt) /\ feeds f g2 s p o g2' (Err RuntimeError).
Proof.
  exists fd_same, (fd_g [fd_1; fd_2]), (fd_g [fd_2; fd_1]), None, (Some fd_p), None,
    (fst (feed_loop fd_same 9 (fd_g [fd_1; fd_2]) (GStart None (Some fd_p) None))), (fst (feed_loop fd_same 9 (fd_g [fd_2; fd_1]) (GStart None (Some fd_p) None))).
  split; [exact fd_12|]. split; [exact fd_21|]. split; [exact (proj2 (proj2 (proj2 fd_triples)))|]. split; [intro t; cbn; tauto|].
  split; [exists 9%nat; split; [vm_compute; reflexivity|discriminate]|exists 9%nat; split; [vm_compute; reflexivity|discriminate]].
Qed.

(** C114_ends, C114_outcome: a symmetric property; with match(None, p, None) the first
    conclusion makes a new object, so the call raises with one triple added *)
Example C114_ex_sym : feeds fd_sym (fd_g [fd_1; fd_2]) None (Some fd_p) None (fd_g [fd_1; fd_2; Tr (BNode 2) fd_p (BNode 1)]) (Err RuntimeError).
Proof. exists 9%nat. split; [vm_compute; reflexivity|discriminate]. Qed.
(** C114_harmless: its hypotheses, and the result *)
Example C114_ex_sub : (forall y, hits None (Some fd_p) None y -> In y (g_iter (fd_g [fd_1; fd_2])) -> harmless fd_sub None (Some fd_p) None (g_iter (fd_g [fd_1; fd_2])) y) /\
  exists g', feeds fd_sub (fd_g [fd_1; fd_2]) None (Some fd_p) None g' (Ok tt) /\ g_iter g' = [fd_1; fd_2; Tr (BNode 1) fd_q (BNode 2); Tr (BNode 2) fd_q (BNode 3)].
Proof.
  split.
  - intros y _ _ t [<-|[]] (_ & [H|H] & _); vm_compute in H; discriminate H.
  - exists (fst (feed_loop fd_sub 9 (fd_g [fd_1; fd_2]) (GStart None (Some fd_p) None))). split; [exists 9%nat; split; [vm_compute; reflexivity|discriminate]|vm_compute; reflexivity].
Qed.
(** C114_noticed: the same rule over the whole graph *)
Example C114_ex_whole : ~ one_bound None None None /\ ~ (bound None /\ bound None /\ bound None) /\
  (exists y, hits None None None y /\ In y (g_iter (fd_g [fd_1; fd_2])) /\ ~ harmless fd_sub None None None (g_iter (fd_g [fd_1; fd_2])) y) /\
  exists g', feeds fd_sub (fd_g [fd_1; fd_2]) None None None g' (Err RuntimeError) /\ g_iter g' = [fd_1; fd_2; Tr (BNode 1) fd_q (BNode 2)].
Proof.
  assert (B : ~ bound None) by (intros [H _]; now apply H).
  split; [unfold one_bound; tauto|]. split; [tauto|]. split.
  - exists fd_1. split; [vm_compute; auto|]. split; [now left|]. intro H. specialize (H (Tr (BNode 1) fd_q (BNode 2)) (or_introl eq_refl)).
    vm_compute in H. destruct H as [H|[H|[]]]; [auto|discriminate H|discriminate H].
  - exists (fst (feed_loop fd_sub 9 (fd_g [fd_1; fd_2]) (GStart None None None))). split; [exists 9%nat; split; [vm_compute; reflexivity|discriminate]|vm_compute; reflexivity].
Qed.
(** C114_three *)
Example C114_ex_three : exists g', feeds fd_sym (fd_g [fd_1; fd_2]) (Some (BNode 1)) (Some fd_p) (Some (BNode 2)) g' (Ok tt) /\ g_iter g' = [fd_1; fd_2; Tr (BNode 2) fd_p (BNode 1)].
Proof.
  exists (fst (feed_loop fd_sym 9 (fd_g [fd_1; fd_2]) (GStart (Some (BNode 1)) (Some fd_p) (Some (BNode 2))))). split; [exists 9%nat; split; [vm_compute; reflexivity|discriminate]|vm_compute; reflexivity].
Qed.

Print Assumptions C114_ends.
Print Assumptions C114_outcome.
Print Assumptions C114_harmless.
Print Assumptions C114_noticed.
Print Assumptions C114_three.
Print Assumptions C114_order_refuted.
Print Assumptions C114_raise_refuted.
