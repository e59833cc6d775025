(** C126: one JSON-LD parser used many times.
    What is proved is about Model/JsonLdRun.v. *)
From Verif Require Import Model.Py Model.Terms Model.Graph Model.GraphRun Model.Dataset Model.JsonLd Model.JsonLdRun
  Spec.GraphSpec Spec.DatasetSpec Spec.JsonLdSpec Spec.JsonLdRunSpec Proofs.JsonLdRun.
Open Scope N_scope.

(** Any program of parse_json and document.parse, any of which may raise, with any sinks: every sink holds
    what it held and exactly the data of the calls that store in it; labels of different
    calls mean different new blank nodes, the same label within a call (or among the documents parsed after
    a failed one) the same.  The outcomes are those of [said]. *)
Theorem C126_run : forall start sinks calls st outs, Forall ds_reachable sinks -> sinks_there (length sinks) calls -> jr_run (mkJS start None sinks) calls = (st, outs) ->
  let deps := stored 0 (length sinks) None calls in
  outs = said (length sinks) false calls /\
  exists f, (forall i, lists (ds_iter (nth i (js_sinks st) (ds_new []))) (fun q => In q (ds_iter (nth i sinks (ds_new []))) \/ exists k data, In (k, i, data) deps /\ in_data (f k) data q)) /\
    (forall k l k' l', in_scope deps k l -> in_scope deps k' l' -> f k l = f k' l' -> k = k' /\ l = l') /\
    (forall k l, in_scope deps k l -> start <= f k l < js_next st).
Proof. exact program. Qed.
Print Assumptions C126_run.

(** As long as no parse_json raises, document.parse stores nothing at all. *)
Theorem C126_clean : forall start sinks calls, (forall s e, ~ In (JParse s (Err e)) calls) -> Forall ds_reachable sinks -> sinks_there (length sinks) calls ->
  fst (jr_run (mkJS start None sinks) calls) = fst (jr_run (mkJS start None sinks) (filter is_parse calls)).
Proof. intros start sinks calls NF F V. exact (clean calls (mkJS start None sinks) eq_refl NF F V). Qed.
Print Assumptions C126_clean.

(** A concrete program: a document with a blank node is parsed twice into dataset 0 and once into a new one; a
    call fails; then document.parse stores in the dataset of the failed call. *)
Definition ex (s : string) : str := s2l s.
Definition exdata : rdf_dataset := [(s2l "@default", [mkJT (FBlank (ex "_:b0")) (FIri (ex "p")) (FIri (ex "o"))])].
Definition excalls : list jcall := [JParse None (Ok exdata); JDoc (Ok exdata); JParse (Some 0%nat) (Ok exdata); JParse None (Ok exdata); JParse (Some 1%nat) (Err ValueError); JDoc (Ok exdata); JDoc (Ok exdata); JParse None (Ok [])].
Example ex_there : sinks_there 0 excalls.
Proof. cbn. repeat split; intros i E; try discriminate; injection E as <-; lia. Qed.
Example ex_said : snd (jr_run (mkJS 7 None []) excalls) = [Ok (Some 0%nat); Err AttributeError; Ok (Some 0%nat); Ok (Some 1%nat); Err ValueError; Ok None; Ok None; Ok (Some 2%nat)] /\
  map (fun x => fst x) (stored 0 0 None excalls) = [(0, 0); (2, 0); (3, 1); (4, 1); (4, 1); (7, 2)]%nat /\
  map (fun w => map st_s (ds_iter w)) (js_sinks (fst (jr_run (mkJS 7 None []) excalls))) = [[BNode 7; BNode 8]; [BNode 9; BNode 10]; []].
Proof. vm_compute. auto. Qed.
Example ex_clean : length (filter is_parse (firstn 4 excalls)) = 3%nat /\ forall s e, ~ In (JParse s (Err e)) (firstn 4 excalls).
Proof. split; [reflexivity|]. cbn. intros s e H. repeat (destruct H as [H|H]; [discriminate|]). exact H. Qed.

(** document.parse does change a dataset after a parse_json that raised: the one of that call. *)
Theorem C126_leak_refuted : exists start calls data st outs st', jr_run (mkJS start None []) calls = (st, outs) /\ sinks_there 0 calls /\
  (forall c, In c calls -> is_parse c = true) /\ jr_step st (JDoc (Ok data)) = (st', Ok None) /\
  ds_iter (nth 0 (js_sinks st) (ds_new [])) = [] /\ ds_iter (nth 0 (js_sinks st') (ds_new [])) <> [].
Proof.
  exists 0, [JParse None (Ok []); JParse (Some 0%nat) (Err ValueError)], exdata. do 3 eexists. split; [vm_compute; reflexivity|]. split; [cbn; repeat split; intros i E; try discriminate; injection E as <-; lia|].
  split; [intros c [<-|[<-|[]]]; reflexivity|]. split; [vm_compute; reflexivity|]. split; [reflexivity|]. vm_compute. discriminate.
Qed.
Print Assumptions C126_leak_refuted.
(** Two documents parsed after such a call share their blank nodes, which two documents never do otherwise. *)
Theorem C126_shared_refuted : exists start data e, let run calls := js_sinks (fst (jr_run (mkJS start None []) calls)) in
  length (ds_iter (nth 0 (run [JParse None (Err e); JDoc (Ok data); JDoc (Ok data)]) (ds_new []))) = 1%nat /\
  length (ds_iter (nth 0 (run [JParse None (Ok data); JParse (Some 0%nat) (Ok data)]) (ds_new []))) = 2%nat.
Proof. exists 0, exdata, ValueError. vm_compute. auto. Qed.
Print Assumptions C126_shared_refuted.
