(** Property C105: the generators of Graph.match stay open while the program changes the
    graph.  A program is a list of events: [es0] before match(s, p, o) is called, [es1]
    between that and the first next() on this generator, and [es2] after it; any other
    generators may be opened and used in between.

    What is modelled of a Python dict or set under iteration: the size is compared at
    each step, and the entries to come are those of the start.  CPython does the same as
    long as the container does not both lose and gain entries between two steps; the
    hypotheses calm, growing and shrinking of the theorems exclude that. *)
From Verif Require Import Model.Py Model.Terms Model.Graph Model.GraphRun Spec.GraphSpec Spec.IterSpec Proofs.GraphIter.

(** nothing the pattern is about changes: the generator gives the matches of the moment
    of the first next(), each once, and then ends; whatever else is added or removed *)
Theorem C105_undisturbed : forall u es0 s p o es1 es2, Forall ev_triples (es0 ++ es1 ++ es2) -> ~ In (EvNext (opened es0)) es1 ->
  let i := opened es0 in let c := client_run (graph_new u, []) (es0 ++ EvMatch s p o :: es1) in let G := g_iter (fst c) in
  Forall (calm s p o G) es2 ->
  exists l, lists l (fun t => In t G /\ hits s p o t) /\
    forall k r, nth_error (client_trace i c (EvNext i :: es2)) k = Some r -> r = Ok (nth_error l k).
Proof. exact iter_undisturbed. Qed.

(** matching triples are added, none removed *)
Theorem C105_growing : forall u es0 s p o es1 es2, Forall ev_triples (es0 ++ es1 ++ es2) -> ~ In (EvNext (opened es0)) es1 ->
  let i := opened es0 in let c := client_run (graph_new u, []) (es0 ++ EvMatch s p o :: es1) in let G := g_iter (fst c) in
  Forall (growing s p o) es2 ->
  let outs := client_trace i c (EvNext i :: es2) in let G2 := g_iter (fst (client_run c (EvNext i :: es2))) in
  NoDup (yields outs) /\ (forall t, In t (yields outs) -> hits s p o t /\ In t G2) /\
  (In (Ok None) outs -> (forall e, ~ In (Err e) outs) -> forall t, hits s p o t -> In t G -> In t (yields outs)) /\
  (forall e, In (Err e) outs -> e = RuntimeError /\ exists t, hits s p o t /\ In t G2 /\ ~ In t G).
Proof. intros u es0 s p o es1 es2 T J i c G F. exact (iter_growing u es0 s p o es1 es2 T J F). Qed.

(** matching triples are removed, none added *)
Theorem C105_shrinking : forall u es0 s p o es1 es2, Forall ev_triples (es0 ++ es1 ++ es2) -> ~ In (EvNext (opened es0)) es1 ->
  let i := opened es0 in let c := client_run (graph_new u, []) (es0 ++ EvMatch s p o :: es1) in let G := g_iter (fst c) in
  Forall (shrinking s p o) es2 ->
  let outs := client_trace i c (EvNext i :: es2) in let G2 := g_iter (fst (client_run c (EvNext i :: es2))) in
  NoDup (yields outs) /\ (forall t, In t (yields outs) -> hits s p o t /\ In t G) /\
  (In (Ok None) outs -> (forall e, ~ In (Err e) outs) -> forall t, hits s p o t -> In t G2 -> In t (yields outs)) /\
  (forall e, In (Err e) outs -> e = RuntimeError /\ exists t, hits s p o t /\ In t G /\ ~ In t G2).
Proof. intros u es0 s p o es1 es2 T J i c G F. exact (iter_shrinking u es0 s p o es1 es2 T J F). Qed.

(** in both cases a triple is given only while it is in the graph, and not twice *)
Theorem C105_current : forall u es0 s p o es1 es2 t, Forall ev_triples (es0 ++ es1 ++ es2) -> ~ In (EvNext (opened es0)) es1 ->
  let i := opened es0 in let c := client_run (graph_new u, []) (es0 ++ EvMatch s p o :: es1) in
  Forall (growing s p o) es2 \/ Forall (shrinking s p o) es2 ->
  let c2 := client_run c (EvNext i :: es2) in
  client_trace i c2 [EvNext i] = [Ok (Some t)] ->
  hits s p o t /\ In t (g_iter (fst c2)) /\ ~ In t (yields (client_trace i c (EvNext i :: es2))).
Proof. intros u es0 s p o es1 es2 t T J i c F c2 H. exact (iter_current u es0 s p o es1 es2 T J F t H). Qed.

(** with two arguments or none, the first next() after such a change raises *)
Theorem C105_noticed : forall u es0 s p o es1 es2, Forall ev_triples (es0 ++ es1 ++ es2) -> ~ In (EvNext (opened es0)) es1 ->
  let i := opened es0 in let c := client_run (graph_new u, []) (es0 ++ EvMatch s p o :: es1) in
  Forall (growing s p o) es2 \/ Forall (shrinking s p o) es2 ->
  ~ one_bound s p o -> ~ (bound s /\ bound p /\ bound o) ->
  let c2 := client_run c (EvNext i :: es2) in
  Forall (fun r => exists t, r = Ok (Some t)) (client_trace i c (EvNext i :: es2)) ->
  (exists t, hits s p o t /\ ~ (In t (g_iter (fst c)) <-> In t (g_iter (fst c2)))) ->
  client_trace i c2 [EvNext i] = [Err RuntimeError].
Proof. intros u es0 s p o es1 es2 T J i c F N1 N2 c2 A D. exact (iter_noticed u es0 s p o es1 es2 T J F (conj N1 N2) A D). Qed.

(** *** Examples *)
Definition it_s := Iri (s2l "http://e/s").
Definition it_p := Iri (s2l "http://e/p").
Definition it_q := Iri (s2l "http://e/q").
Definition it_r := Iri (s2l "http://e/r").
Definition it_1 := Tr it_s it_p (BNode 1).
Definition it_2 := Tr it_s it_q (BNode 2).
Definition it_3 := Tr (BNode 3) it_p it_s.
Definition it_0 : list event := [EvOp (OpAddAll [it_1; it_2; it_3])].
Definition it_run (s p o : oterm) (es : list event) := client_trace 0 (client_run (graph_new None, []) (it_0 ++ [EvMatch s p o])) (EvNext 0 :: es).
(** for t in g.match(None, p, None): g.add(Triple(s, r, t.subject)), and g.remove of one that does not match *)
Definition it_calm : list event := [EvOp (OpAdd (Tr it_s it_r it_s)); EvNext 0; EvOp (OpAdd (Tr it_s it_r (BNode 3))); EvOp (OpRemove it_2); EvNext 0; EvNext 0].
Example C105_undisturbed_example : Forall ev_triples (it_0 ++ [] ++ it_calm) /\
  Forall (calm None (Some it_p) None (g_iter (fst (client_run (graph_new None, []) (it_0 ++ [EvMatch None (Some it_p) None]))))) it_calm /\
  it_run None (Some it_p) None it_calm = [Ok (Some it_1); Ok (Some it_3); Ok None; Ok None].
Proof.
  split; [repeat constructor; cbn; intuition (subst; reflexivity)|]. split; [|vm_compute; reflexivity].
  assert (A : forall a b, ~ hits None (Some it_p) None (Tr a it_r b)) by (intros a b [_ [H _]]; vm_compute in H; destruct H; discriminate).
  repeat (apply Forall_cons || apply Forall_nil); intros t H; (split; [|]); try (intros []; fail); intros <-; try exact (False_ind _ (A _ _ H)).
  destruct H as [_ [H _]]; vm_compute in H; destruct H; discriminate.
Qed.
(** match(s) while another value of q is added is told of it, if q has not been reached; a new predicate makes it fail *)
Example C105_growing_example : Forall ev_triples (it_0 ++ [] ++ [EvOp (OpAdd (Tr it_s it_q (BNode 5))); EvNext 0; EvNext 0; EvNext 0]) /\
  Forall (growing (Some it_s) None None) [EvOp (OpAdd (Tr it_s it_q (BNode 5))); EvNext 0; EvNext 0; EvNext 0] /\
  it_run (Some it_s) None None [EvOp (OpAdd (Tr it_s it_q (BNode 5))); EvNext 0; EvNext 0; EvNext 0] =
    [Ok (Some it_1); Ok (Some it_2); Ok (Some (Tr it_s it_q (BNode 5))); Ok None] /\
  it_run (Some it_s) None None [EvOp (OpAdd (Tr it_s it_r (BNode 5))); EvNext 0; EvNext 0] = [Ok (Some it_1); Err RuntimeError; Ok None].
Proof.
  split; [repeat constructor; cbn; intuition (subst; reflexivity)|]. split; [repeat constructor; intros ? ? []|]. split; [vm_compute; reflexivity|vm_compute; reflexivity].
Qed.
(** removing a triple that is still to come, and one that has been given *)
Example C105_shrinking_example : Forall ev_triples (it_0 ++ [] ++ [EvOp (OpRemove it_2); EvNext 0]) /\
  Forall (shrinking (Some it_s) None None) [EvOp (OpRemove it_2); EvNext 0] /\
  it_run (Some it_s) None None [EvOp (OpRemove it_2); EvNext 0] = [Ok (Some it_1); Ok None] /\
  it_run (Some it_s) None None [EvOp (OpRemove it_1); EvNext 0] = [Ok (Some it_1); Err RuntimeError].
Proof.
  split; [repeat constructor; cbn; intuition (subst; reflexivity)|]. split; [repeat constructor; intros ? ? []|]. split; [vm_compute; reflexivity|vm_compute; reflexivity].
Qed.
Example C105_current_example : client_trace 0 (client_run (graph_new None, []) (it_0 ++ [EvMatch (Some it_s) None None; EvNext 0; EvOp (OpAdd (Tr it_s it_q (BNode 5))); EvNext 0])) [EvNext 0] =
  [Ok (Some (Tr it_s it_q (BNode 5)))].
Proof. vm_compute. reflexivity. Qed.
(** for t in g.match(): g.add(something new) *)
Example C105_noticed_example : ~ one_bound None None None /\ ~ (bound None /\ bound None /\ bound None) /\
  Forall (growing None None None) [EvOp (OpAdd (Tr it_s it_r it_s))] /\
  (forall t, hits None None None t) /\ ~ In (Tr it_s it_r it_s) [it_1; it_2; it_3] /\
  it_run None None None [EvOp (OpAdd (Tr it_s it_r it_s)); EvNext 0] = [Ok (Some it_1); Err RuntimeError] /\
  it_run (Some it_s) (Some it_p) None [EvOp (OpAdd (Tr it_s it_p it_s)); EvNext 0] = [Ok (Some it_1); Err RuntimeError].
Proof.
  split; [unfold one_bound, bound; intuition congruence|]. split; [unfold bound; intuition congruence|]. split; [repeat constructor; intros ? ? []|].
  split; [intro t; unfold hits; cbn; firstorder|]. split; [vm_compute; intuition discriminate|]. split; [vm_compute; reflexivity|vm_compute; reflexivity].
Qed.

Print Assumptions C105_undisturbed.
Print Assumptions C105_growing.
Print Assumptions C105_shrinking.
Print Assumptions C105_current.
Print Assumptions C105_noticed.
