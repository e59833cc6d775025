(** Property C106: the generators of Dataset.match stay open while the program changes the
    dataset.  As in C105, a program is a list of events: [es0] before match(s, p, o, gr) is
    called, [es1] between that and the first next() on this generator, [es2] after it.  It
    starts from any dataset a program can have made.  dataset.add_graph is not among the
    events [es0], [es1] and [es2]: replacing the graph of a name changes a value of the dict under
    iteration, which the remembered entries of the model would not show. *)
From Verif Require Import Model.Py Model.Terms Model.Graph Model.GraphRun Model.Dataset Model.DatasetRun Spec.GraphSpec Spec.DatasetSpec Spec.DIterSpec Proofs.DatasetHist Proofs.DatasetIter.

(** As long as no quad the pattern is about is added or removed: the quads given are
    among those of the first next(), each once; then StopIteration, and in this case all of
    them have been given; or RuntimeError, and then no graph was named in the call and the
    dataset has got a new graph. *)
Theorem C106_outcomes : forall w es0 s p o gr es1 es2, ds_reachable w -> Forall dev_quads (es0 ++ es1) -> ~ In (DvNext (dopened es0)) es1 ->
  Forall dev_quads es2 ->
  let k := dopened es0 in let c := d_run (w, []) (es0 ++ DvMatch s p o gr :: es1) in let G := ds_iter (fst c) in
  Forall (qcalm s p o gr G) es2 ->
  exists ys tail, d_trace k c (DvNext k :: es2) = map (fun q => Ok (Some q)) ys ++ tail /\
    NoDup ys /\ (forall q, In q ys -> In q G /\ qhits s p o gr q) /\
    (tail = [] \/
     (exists m, tail = repeat (Ok None) (S m)) /\ (forall q, In q G -> qhits s p o gr q -> In q ys) \/
     (exists m, tail = Err RuntimeError :: repeat (Ok None) m) /\ ~ bound gr /\
       length (ds_graphs (fst c)) < length (ds_graphs (fst (d_run c (DvNext k :: es2))))).
Proof. intros w es0 s p o gr es1 es2 R Q J Q2 k c G A. exact (d_outcomes w es0 s p o gr es1 R Q J es2 Q2 A). Qed.

(** so a loop over match that names a graph, or makes no new one, is not disturbed *)
Theorem C106_undisturbed : forall w es0 s p o gr es1 es2, ds_reachable w -> Forall dev_quads (es0 ++ es1) -> ~ In (DvNext (dopened es0)) es1 ->
  Forall dev_quads es2 ->
  let k := dopened es0 in let c := d_run (w, []) (es0 ++ DvMatch s p o gr :: es1) in let G := ds_iter (fst c) in
  Forall (qcalm s p o gr G) es2 ->
  bound gr \/ length (ds_graphs (fst (d_run c (DvNext k :: es2)))) = length (ds_graphs (fst c)) ->
  (forall e, ~ In (Err e) (d_trace k c (DvNext k :: es2))) /\
  (In (Ok None) (d_trace k c (DvNext k :: es2)) ->
   exists ys m, d_trace k c (DvNext k :: es2) = map (fun q => Ok (Some q)) ys ++ repeat (Ok None) m /\ lists ys (fun q => In q G /\ qhits s p o gr q)).
Proof.
  intros w es0 s p o gr es1 es2 R Q J Q2 k c G A B. destruct (C106_outcomes w es0 s p o gr es1 es2 R Q J Q2 A) as (ys & tail & E & ND & I & T). fold k in E, T. fold c in E, I, T. fold G in I, T. rewrite E.
  assert (NE : forall r, In r (map (fun q => Ok (Some q)) ys) -> exists q, r = Ok (Some q)) by (intros r X; apply in_map_iff in X; destruct X as (q & <- & _); eauto).
  destruct T as [->|[((m & ->) & F)|(_ & NB & L)]].
  - rewrite app_nil_r. split; [intros e X; destruct (NE _ X); discriminate|intro X; destruct (NE _ X); discriminate].
  - split; [intros e X; apply in_app_or in X; destruct X as [X|X]; [destruct (NE _ X); discriminate|apply repeat_spec in X; discriminate]|].
    intros _. exists ys, (S m). split; [reflexivity|]. split; [exact ND|]. intro q. split; [apply I|intros [X Y]; now apply F].
  - exfalso. destruct B as [B|B]; [contradiction|]. lia.
Qed.

(** a new graph, also one that a query with an unknown graph name has made (C11), ends a
    loop over all graphs: after the rest of one graph the generator raises RuntimeError and
    not StopIteration *)
Theorem C106_new_graph : forall w es0 s p o gr es1 ea eb, ds_reachable w -> Forall dev_quads (es0 ++ es1) -> ~ In (DvNext (dopened es0)) es1 ->
  Forall dev_quads (ea ++ eb) ->
  let k := dopened es0 in let c := d_run (w, []) (es0 ++ DvMatch s p o gr :: es1) in let c1 := d_run c (DvNext k :: ea) in
  Forall (qcalm s p o gr (ds_iter (fst c))) (ea ++ eb) -> ~ bound gr ->
  Forall (fun r => exists q, r = Ok (Some q)) (d_trace k c (DvNext k :: ea)) ->
  length (ds_graphs (fst c1)) <> length (ds_graphs (fst c)) ->
  exists n ys tail, d_trace k c1 eb = map (fun q => Ok (Some q)) ys ++ tail /\ (forall q, In q ys -> st_graph q = Some n) /\
    (tail = [] \/ exists m, tail = Err RuntimeError :: repeat (Ok None) m).
Proof. intros w es0 s p o gr es1 ea eb R Q J Q2 k c c1 A NB F L. exact (d_new_graph w es0 s p o gr es1 R Q J ea eb Q2 A NB F L). Qed.

(** *** Examples *)
Definition di_s := Iri (s2l "http://e/s").
Definition di_p := Iri (s2l "http://e/p").
Definition di_r := Iri (s2l "http://e/r").
Definition di_g1 := Some (Iri (s2l "http://e/g1")).
Definition di_g2 := Some (Iri (s2l "http://e/g2")).
Definition di_g3 := Some (Iri (s2l "http://e/g3")).
Definition di_1 := Qd di_s di_p (BNode 1) di_g1.
Definition di_2 := Qd di_s di_p (BNode 2) di_g1.
Definition di_3 := Qd di_s di_p (BNode 3) di_g2.
Definition di_0 : list dev := [DvOp (DAddAll [di_1; di_2; di_3])].
Definition di_run (gr : oterm) (es : list dev) := d_trace 0 (d_run (ds_new [], []) (di_0 ++ [DvMatch None (Some di_p) None gr])) (DvNext 0 :: es).
(** for q in ds.match(None, p): ds.add(Quad(s, r, q.object, g1)); list(ds.match(graph=g2)) *)
Definition di_calm : list dev := [DvOp (DAdd (Qd di_s di_r (BNode 1) di_g1)); DvOp (DQuery None None None di_g2); DvNext 0; DvNext 0; DvNext 0].
(** the same with a query for a graph that is not there *)
Definition di_query : list dev := [DvOp (DQuery None None None di_g3); DvNext 0; DvNext 0; DvNext 0].
Example C106_programs : ds_reachable (ds_new []) /\ Forall dev_quads (di_0 ++ []) /\ Forall dev_quads di_calm /\ Forall dev_quads di_query /\
  Forall (qcalm None (Some di_p) None None [di_1; di_2; di_3]) di_calm /\ Forall (qcalm None (Some di_p) None None [di_1; di_2; di_3]) di_query /\
  ds_iter (fst (d_run (ds_new [], []) (di_0 ++ [DvMatch None (Some di_p) None None]))) = [di_1; di_2; di_3].
Proof.
  split; [apply dr_new; intros g []|]. split; [repeat constructor; intros q [<-|[<-|[<-|[]]]]; eexists; reflexivity|]. split; [repeat constructor; eexists; reflexivity|]. split; [repeat constructor|].
  split; [|split; [repeat constructor|vm_compute; reflexivity]].
  repeat (apply Forall_cons || apply Forall_nil); intros q H; try exact Logic.I. intros <-. destruct H as [[_ [H _]] _]; vm_compute in H; destruct H; discriminate.
Qed.
Example C106_undisturbed_example : di_run None di_calm = [Ok (Some di_1); Ok (Some di_2); Ok (Some di_3); Ok None] /\
  length (ds_graphs (fst (d_run (ds_new [], []) (di_0 ++ DvMatch None (Some di_p) None None :: DvNext 0 :: di_calm)))) = 2.
Proof. split; vm_compute; reflexivity. Qed.
Example C106_new_graph_example : di_run None di_query = [Ok (Some di_1); Ok (Some di_2); Err RuntimeError; Ok None] /\
  length (ds_graphs (fst (d_run (ds_new [], []) (di_0 ++ DvMatch None (Some di_p) None None :: DvNext 0 :: di_query)))) = 3 /\ ~ bound None.
Proof. split; [vm_compute; reflexivity|]. split; [vm_compute; reflexivity|]. intros [X _]. now apply X. Qed.
Example C106_named_graph : di_run di_g1 di_query = [Ok (Some di_1); Ok (Some di_2); Ok None; Ok None] /\ bound di_g1.
Proof. split; [vm_compute; reflexivity|]. split; discriminate. Qed.

Print Assumptions C106_outcomes.
Print Assumptions C106_undisturbed.
Print Assumptions C106_new_graph.
