(** Property C120: [for s in g.subjects(): body(s)] (or predicates(), objects()), a loop over
    a listing of a graph with a body that works on the same graph. *)
From Verif Require Import Model.Py Model.Terms Model.Graph Spec.GraphSpec Model.GraphRun Model.GraphKeys Spec.KeysSpec Proofs.GraphInv Proofs.GraphHist Proofs.GraphKeys.

(** what subjects() returns is no copy: kept in a variable, it lists what was listed when it
    was made and the terms of all triples added since, also of those removed again *)
Theorem C120_view : forall wh g ops k, reachable g -> Forall gop_triples ops ->
  (In k (keys_view wh g ops) <-> In k (g_keys wh g) \/ exists t, ever_added ops t /\ role wh t = k).
Proof. intros wh g ops k R F. exact (keys_run_In wh g ops k (reachable_wf g R) F). Qed.

(** a body that adds only triples with listed terms, and removes and asks whatever it wants,
    is run for all listed terms in turn, and the loop returns *)
Theorem C120_returns : forall wh body g, reachable g -> body_triples body ->
  (forall x, In x (g_keys wh g) -> keeps_to wh (g_keys wh g) body x) ->
  keys_loop wh body g = (g_run g (flat_map body (g_keys wh g)), g_keys wh g, Ok tt).
Proof. intros wh body g R. exact (loop_same wh body g (reachable_wf g R)). Qed.

(** the first body that adds a triple with a new term in this role is run to its end; then
    the loop raises RuntimeError, also when it was run for the last term *)
Theorem C120_raises : forall wh body g a x b t, reachable g -> body_triples body -> g_keys wh g = a ++ x :: b ->
  (forall y, In y a -> keeps_to wh (g_keys wh g) body y) -> ever_added (body x) t -> ~ In (role wh t) (g_keys wh g) ->
  keys_loop wh body g = (g_run g (flat_map body (a ++ [x])), a ++ [x], Err RuntimeError).
Proof. intros wh body g a x b t R. exact (loop_new wh body g a x b t (reachable_wf g R)). Qed.

(** [for s in g.subjects(): g.add(Triple(s, p, o))] returns, and adds one triple for each
    listed subject *)
Theorem C120_tag : forall p o g, reachable g ->
  exists g', keys_loop SPO (fun s => [OpAdd (Tr s p o)]) g = (g', g_subjects g, Ok tt) /\
  forall t, In t (g_triples g') <-> In t (g_triples g) \/ exists s, In s (g_subjects g) /\ t = Tr s p o.
Proof.
  intros p o g R. pose proof (reachable_wf g R) as W. exists (g_run g (flat_map (fun s => [OpAdd (Tr s p o)]) (g_subjects g))). split.
  - apply (C120_returns SPO); [exact R| |].
    + intros x op [<-|[]]. reflexivity.
    + intros x J t (op & [<-|[]] & <-). exact J.
  - intro t. rewrite g_run_In; [|exact W|].
    + rewrite (flat_map_one (fun s => OpAdd (Tr s p o))), <- (map_map (fun s => Tr s p o) OpAdd), history_adds, in_map_iff. split.
      * intros [(s & <- & J)|J]; [right; now exists s|now left].
      * intros [J|(s & J & ->)]; [now right|left; now exists s].
    + apply Forall_forall. intros op J. apply in_flat_map in J. destruct J as (s & _ & [<-|[]]). reflexivity.
Qed.

(** [for s in g.subjects(): for t in list(g.match(s)): g.remove(t)]: a loop whose body only
    removes returns, and the listing is the same after it *)
Theorem C120_removing : forall wh body g, reachable g -> body_triples body -> (forall x t, ~ ever_added (body x) t) ->
  exists g', keys_loop wh body g = (g', g_keys wh g, Ok tt) /\
  (forall k, In k (g_keys wh g') <-> In k (g_keys wh g)) /\ forall t, In t (g_triples g') -> In t (g_triples g).
Proof.
  intros wh body g R B N. pose proof (reachable_wf g R) as W. exists (g_run g (flat_map body (g_keys wh g))).
  assert (F : Forall gop_triples (flat_map body (g_keys wh g))) by (apply Forall_forall; intros op J; apply in_flat_map in J; destruct J as (x & _ & J); exact (B x op J)).
  assert (M : forall t, ~ ever_added (flat_map body (g_keys wh g)) t).
  { intros t (op & J & H). apply in_flat_map in J. destruct J as (x & _ & J). apply (N x t). now exists op. }
  split; [apply C120_returns; auto; intros x _ t A; destruct (N x t A)|]. split.
  - intro k. rewrite (keys_run_In wh g _ k W F). split; [|auto]. intros [H|(t & A & _)]; [auto|destruct (M t A)].
  - intros t. rewrite (g_run_In _ g t W F). apply history_shrinks. exact M.
Qed.

(** the loop over subjects() is not a loop over the subjects that have triples: it also
    tags those whose triples were all removed *)
Theorem C120_stale_refuted : exists g p o s, reachable g /\ ~ (exists t, In t (g_triples g) /\ st_s t = s) /\
  In (Tr s p o) (g_triples (fst (fst (keys_loop SPO (fun s => [OpAdd (Tr s p o)]) g)))).
Proof.
  exists (g_run (graph_new None) [OpAdd (Tr (Iri [97%N]) (Iri [98%N]) (Iri [99%N])); OpRemove (Tr (Iri [97%N]) (Iri [98%N]) (Iri [99%N]))]), (Iri [98%N]), (Iri [100%N]), (Iri [97%N]). split; [|split].
  - apply g_run_reachable; [constructor|]. repeat constructor.
  - vm_compute. intros (t & [] & _).
  - vm_compute. auto.
Qed.

Definition ex_k : graph := g_run (graph_new None) [OpAdd (Tr (Iri [97%N]) (Iri [98%N]) (Iri [99%N])); OpAdd (Tr (Iri [100%N]) (Iri [98%N]) (Iri [97%N]))].
Lemma ex_k_reachable : reachable ex_k.
Proof. apply g_run_reachable; [constructor|]. repeat constructor. Qed.
(** two subjects get a new object; the listing of the objects is not the one of the loop *)
Example ex_C120_returns :
  snd (fst (keys_loop SPO (fun s => [OpAdd (Tr s (Iri [101%N]) (Iri [102%N]))]) ex_k)) = [Iri [97%N]; Iri [100%N]] /\
  snd (keys_loop SPO (fun s => [OpAdd (Tr s (Iri [101%N]) (Iri [102%N]))]) ex_k) = Ok tt.
Proof. split; vm_compute; reflexivity. Qed.
(** the same body over objects() is stopped after the first object *)
Example ex_C120_raises :
  snd (fst (keys_loop OSP (fun s => [OpAdd (Tr s (Iri [101%N]) (Iri [102%N]))]) ex_k)) = [Iri [99%N]] /\
  snd (keys_loop OSP (fun s => [OpAdd (Tr s (Iri [101%N]) (Iri [102%N]))]) ex_k) = Err RuntimeError /\
  length (g_objects ex_k) = 2.
Proof. repeat split; vm_compute; reflexivity. Qed.
(** ... and its hypotheses hold there *)
Example ex_C120_raises_hyp : g_keys OSP ex_k = [] ++ Iri [99%N] :: [Iri [97%N]] /\ ~ In (Iri [102%N]) (g_keys OSP ex_k).
Proof. split; vm_compute; [reflexivity|]. intros [H|[H|[]]]; discriminate. Qed.
(** a view made before the add lists the new subject *)
Example ex_C120_view : keys_view SPO ex_k [OpAdd (Tr (Iri [120%N]) (Iri [98%N]) (Iri [99%N])); OpRemove (Tr (Iri [120%N]) (Iri [98%N]) (Iri [99%N]))] = [Iri [97%N]; Iri [100%N]; Iri [120%N]].
Proof. vm_compute. reflexivity. Qed.
(** removing all triples with the subject of the loop *)
Example ex_C120_removing :
  let body := fun s => [OpQuery (Some s) None None; OpRemove (Tr s (Iri [98%N]) (Iri [99%N]))] in
  snd (keys_loop SPO body ex_k) = Ok tt /\ g_triples (fst (fst (keys_loop SPO body ex_k))) = [Tr (Iri [100%N]) (Iri [98%N]) (Iri [97%N])].
Proof. split; vm_compute; reflexivity. Qed.

Print Assumptions C120_view.
Print Assumptions C120_returns.
Print Assumptions C120_raises.
Print Assumptions C120_tag.
Print Assumptions C120_removing.
Print Assumptions C120_stale_refuted.
