(** Property C123: [for t in g: body(t)], loops over a graph that change it, and iter(g). *)
From Verif Require Import Model.Py Model.Terms Model.Graph Spec.GraphSpec Model.GraphRun Model.GraphLoop Spec.GLoopSpec Proofs.GraphInv Proofs.GraphHist Proofs.GraphLoop.

(** the loop over g and the one over g.match() are the same, whatever the body does *)
Theorem C123_as_match : forall body g n, length (g_iter g) < n -> gmatch_loop body n g (GStart None None None) = graph_loop body g.
Proof. intros body g n. exact (gmatch_start body n g). Qed.

(** a body that adds only what is there and removes only what is not is run for all triples,
    and the set is the same afterwards *)
Theorem C123_idle : forall body g, reachable g -> loop_triples (g_iter g) body -> (forall t, In t (g_iter g) -> idle (g_iter g) (body t)) ->
  exists g', graph_loop body g = (g', g_iter g, Ok tt) /\ forall t, In t (g_iter g') <-> In t (g_iter g).
Proof.
  intros body g R B K. pose proof (reachable_wf g R) as W. destruct (giter_idle body (g_triples g) (g_triples g) g B (same_set_refl g W) K) as [E (_ & _ & S)].
  eexists. split; [exact E|exact S].
Qed.

(** the first body that adds something new, or removes something, but not both, is run to its
    end; then the loop raises RuntimeError, also when it was run for the last triple *)
Theorem C123_stirs : forall body g a x b, reachable g -> loop_triples (g_iter g) body -> g_iter g = a ++ x :: b ->
  (forall t, In t a -> idle (g_iter g) (body t)) -> one_way (body x) -> stirs (g_iter g) (body x) ->
  exists g', graph_loop body g = (g', a ++ [x], Err RuntimeError) /\
    forall t, In t (g_iter g') <-> In t (g_iter g) /\ ~ ever_removed (body x) t \/ ever_added (body x) t.
Proof.
  intros body g a x b R B E K O ST. pose proof (reachable_wf g R) as W. unfold g_iter in *.
  assert (B1 : loop_triples (a ++ [x]) body) by (intros t op J; apply B; rewrite E; apply in_app_iff; apply in_app_iff in J; cbn in *; tauto).
  assert (B2 : loop_triples a body) by (intros t op J; apply B1; apply in_app_iff; now left).
  pose proof (giter_stirs body (g_triples g) a g x b B1 (same_set_refl g W) K O ST) as L. rewrite <- E in L.
  eexists. split; [exact L|]. intro t. rewrite flat_map_app. cbn [flat_map]. rewrite app_nil_r, run_app.
  destruct (giter_idle body (g_triples g) a g B2 (same_set_refl g W) K) as [_ (W' & _ & S)].
  rewrite (g_run_In (body x) _ t W' (loop_Forall _ body x B1 (in_elt x a []))). destruct O as [A|A].
  - rewrite (adds_history (body x) _ A), S. split; [|tauto]. intros [H|H]; [|tauto]. left. split; [exact H|]. apply A.
  - rewrite (removes_history (body x) _ A), S. split; [tauto|]. intros [H|H]; [exact H|destruct (A t H)].
Qed.

(** g.addAll(g) changes nothing and returns *)
Theorem C123_self : forall g, reachable g -> exists g', graph_loop (fun t => [OpAdd t]) g = (g', g_iter g, Ok tt) /\ forall t, In t (g_iter g') <-> In t (g_iter g).
Proof.
  intros g R. pose proof (reachable_wf g R) as W. apply C123_idle; [exact R| |].
  - intros t op J [<-|[]]. now apply W.
  - intros t J u. split; [intros (op & [<-|[]] & <-); exact J|intros [H|[]]; discriminate].
Qed.

(** [for t in g: if test(t): g.remove(t)] removes the first such triple, and only that, and
    then raises RuntimeError; it returns only if there is none *)
Theorem C123_remove : forall test g, reachable g ->
  (forall a x b, g_iter g = a ++ x :: b -> (forall y, In y a -> test y = false) -> test x = true ->
     exists g', graph_loop (remove_if test) g = (g', a ++ [x], Err RuntimeError) /\ forall t, In t (g_iter g') <-> In t (g_iter g) /\ t <> x) /\
  ((forall y, In y (g_iter g) -> test y = false) -> exists g', graph_loop (remove_if test) g = (g', g_iter g, Ok tt) /\ forall t, In t (g_iter g') <-> In t (g_iter g)).
Proof.
  intros test g R. pose proof (reachable_wf g R) as W.
  assert (B : loop_triples (g_iter g) (remove_if test)).
  { intros t op J. unfold remove_if. destruct (test t); [|intros []]. intros [<-|[]]. now apply W. }
  assert (I : forall t, test t = false -> idle (g_iter g) (remove_if test t)).
  { intros t T u. unfold remove_if. rewrite T. split; [intros (op & [] & _)|intros []]. }
  split.
  - intros a x b E A T. assert (EX : remove_if test x = [OpRemove x]) by (unfold remove_if; now rewrite T).
    destruct (C123_stirs (remove_if test) g a x b R B E) as (g' & L & M).
    + intros t J. apply I. now apply A.
    + rewrite EX. right. intros t (op & [<-|[]] & H). exact H.
    + rewrite EX. exists x. right. split; [now left|]. rewrite E. apply in_elt.
    + exists g'. split; [exact L|]. intro t. rewrite M, EX. unfold ever_removed. cbn [In]. split.
      * intros [[H N]|(op & [<-|[]] & [])]. split; [exact H|]. intros ->. apply N. now left.
      * intros [H N]. left. split; [exact H|]. intros [K|[]]. apply N. now injection K.
  - intro A. apply C123_idle; [exact R|exact B|]. intros t J. apply I. now apply A.
Qed.

(** [for t in list(g): if test(t): g.remove(t)], and g.toArray() for list(g), removes all such triples *)
Theorem C123_remove_copy : forall test g, reachable g ->
  forall t, In t (g_iter (g_run g (flat_map (remove_if test) (g_iter g)))) <-> In t (g_iter g) /\ test t = false.
Proof.
  intros test g R t. pose proof (reachable_wf g R) as W. unfold g_iter.
  assert (F : Forall gop_triples (flat_map (remove_if test) (g_triples g))).
  { apply Forall_forall. intros op J. apply in_flat_map in J. destruct J as (x & Jx & J). unfold remove_if in J. destruct (test x); [|destruct J]. destruct J as [<-|[]]. now apply W. }
  assert (O : only_removes (flat_map (remove_if test) (g_triples g))).
  { intros x (op & J & A). apply in_flat_map in J. destruct J as (y & _ & J). unfold remove_if in J. destruct (test y); [|destruct J]. destruct J as [<-|[]]. exact A. }
  rewrite (g_run_In _ g t W F), (removes_history _ (fun y => In y (g_triples g)) O). unfold ever_removed. rewrite in_flat_map. split.
  - intros [H N]. split; [exact H|]. destruct (test t) eqn:T; [|reflexivity]. destruct N. exists t. split; [exact H|]. unfold remove_if. rewrite T. now left.
  - intros [H T]. split; [exact H|]. intros (y & _ & J). unfold remove_if in J. destruct (test y) eqn:Y; [|destruct J]. destruct J as [J|[]]. injection J as ->. congruence.
Qed.

(** iter(g) looks at the graph when it is made, the generator g.match() at its first next():
    after additions of new triples, or after removals, next() on the iterator raises
    RuntimeError, and the generator gives the first triple of the graph as it is now *)
Theorem C123_iter : forall g ops, reachable g -> Forall gop_triples ops -> one_way ops -> stirs (g_iter g) ops ->
  giter_next (g_run g ops) (g_iterator g) = Err RuntimeError /\
  match snd (gen_next (g_run g ops) (GStart None None None)) with
  | Ok (Some (t, _)) => In t (g_iter (g_run g ops)) | Ok None => g_iter (g_run g ops) = [] | Err _ => False end.
Proof.
  intros g ops R F O ST. pose proof (reachable_wf g R) as W. split.
  - unfold giter_next, g_iterator. pose proof (stirs_size (g_triples g) g ops (same_set_refl g W) F O ST) as N. apply Nat.eqb_neq in N. now rewrite N.
  - cbn. destruct (g_triples (g_run g ops)) as [|t r] eqn:E; cbn [snd]; [exact E|]. unfold g_iter. rewrite E. now left.
Qed.

Definition ex_a : stmt := Tr (Iri [97%N]) (Iri [98%N]) (Iri [99%N]).
Definition ex_b : stmt := Tr (Iri [100%N]) (Iri [98%N]) (Iri [97%N]).
Definition ex_g : graph := g_run (graph_new None) [OpAdd ex_a; OpAdd ex_b].
Lemma ex_g_reachable : reachable ex_g.
Proof. apply g_run_reachable; [constructor|]. repeat constructor. Qed.
Definition inverse (t : stmt) : list gop := [OpAdd (Tr (st_o t) (st_p t) (st_s t))].
(** adding the inverses stops after the first *)
Example ex_C123_stirs : snd (fst (graph_loop inverse ex_g)) = [ex_a] /\ snd (graph_loop inverse ex_g) = Err RuntimeError /\ length (g_iter (fst (fst (graph_loop inverse ex_g)))) = 3.
Proof. repeat split; vm_compute; reflexivity. Qed.
Example ex_C123_stirs_hyp : g_iter ex_g = [] ++ ex_a :: [ex_b] /\ one_way (inverse ex_a) /\ stirs (g_iter ex_g) (inverse ex_a).
Proof.
  split; [vm_compute; reflexivity|]. split.
  - left. intros t [H|[]]. discriminate.
  - exists (Tr (Iri [99%N]) (Iri [98%N]) (Iri [97%N])). left. split; [exists (OpAdd (Tr (Iri [99%N]) (Iri [98%N]) (Iri [97%N]))); split; [now left|reflexivity]|]. vm_compute. intros [H|[H|[]]]; discriminate.
Qed.
(** a body that asks, adds what is there and removes what is not *)
Example ex_C123_idle : let body := fun t => [OpQuery None None None; OpAdd t; OpRemove (Tr (Iri [120%N]) (Iri [98%N]) (Iri [97%N]))] in
  snd (fst (graph_loop body ex_g)) = [ex_a; ex_b] /\ snd (graph_loop body ex_g) = Ok tt.
Proof. split; vm_compute; reflexivity. Qed.
Example ex_C123_remove : graph_loop (remove_if (fun _ => true)) ex_g = (fst (g_remove ex_g ex_a), [ex_a], Err RuntimeError) /\
  g_iter (g_run ex_g (flat_map (remove_if (fun _ => true)) (g_iter ex_g))) = [].
Proof. split; vm_compute; reflexivity. Qed.
Example ex_C123_iter : giter_next (g_run ex_g [OpRemove ex_a]) (g_iterator ex_g) = Err RuntimeError /\
  snd (gen_next (g_run ex_g [OpRemove ex_a]) (GStart None None None)) = Ok (Some (ex_b, GSet 1 [])).
Proof. split; vm_compute; reflexivity. Qed.

Print Assumptions C123_as_match.
Print Assumptions C123_idle.
Print Assumptions C123_stirs.
Print Assumptions C123_self.
Print Assumptions C123_remove.
Print Assumptions C123_remove_copy.
Print Assumptions C123_iter.
