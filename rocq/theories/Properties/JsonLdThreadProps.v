(** C127: threads that parse JSON-LD with one parser.
    What is proved is about Model/JsonLdThreads.v. *)
From Verif Require Import Model.Py Model.Terms Model.Graph Model.GraphRun Model.Dataset Model.JsonLd Model.JsonLdRun Model.JsonLdThreads
  Spec.GraphSpec Spec.DatasetSpec Spec.JsonLdSpec Spec.JsonLdThreadSpec Proofs.JsonLdThreads.
From Coq Require Import PeanoNat.
Open Scope N_scope.

(** When all threads have made their calls, every dataset holds what it held and exactly the data of the
    calls that had it as a sink; labels of different calls mean different blank nodes. *)
Theorem C127_threads : forall start sinks progs sch y, Forall ds_reachable sinks -> sinks_exist sinks progs -> y = jy_run (jy_start start sinks progs) sch ->
  (forall x, In x (jy_threads y) -> all_parsed x) ->
  exists f, (forall i, lists (ds_iter (nth i (sh_sinks (jy_shared y)) (ds_new []))) (fun q => In q (ds_iter (nth i sinks (ds_new []))) \/ exists k c data, call_of progs k c = Some (i, data) /\ in_data (f k c) data q)) /\
    apart progs f.
Proof. intros start sinks progs sch y F SE. exact (at_end start sinks progs F SE sch y). Qed.
Print Assumptions C127_threads.

(** At any time: no thread has raised anything, and a dataset holds nothing else. *)
Theorem C127_any_time : forall start sinks progs sch y, Forall ds_reachable sinks -> sinks_exist sinks progs -> y = jy_run (jy_start start sinks progs) sch ->
  (forall x, In x (jy_threads y) -> th_err x = None) /\
  exists f, forall i q, In q (ds_iter (nth i (sh_sinks (jy_shared y)) (ds_new []))) -> In q (ds_iter (nth i sinks (ds_new []))) \/ exists k c data, call_of progs k c = Some (i, data) /\ in_data (f k c) data q.
Proof. intros start sinks progs sch y F SE. exact (any_time start sinks progs F SE sch y). Qed.
Print Assumptions C127_any_time.

(** A step for each triple and one for the end of each call are enough, whatever the others do. *)
Theorem C127_ends : forall start sinks progs sch y, Forall ds_reachable sinks -> sinks_exist sinks progs -> y = jy_run (jy_start start sinks progs) sch ->
  (forall k prog, nth_error progs k = Some prog -> (work_of prog <= count_occ Nat.eq_dec sch k)%nat) -> forall x, In x (jy_threads y) -> all_parsed x.
Proof. exact ends. Qed.
Print Assumptions C127_ends.

(** One thread does what the calls of parse_json do (C68, C126). *)
Theorem C127_alone : forall start sinks prog, Forall ds_reachable sinks -> sinks_exist sinks [prog] ->
  let st := fst (jr_run (mkJS start None sinks) (calls_of prog)) in
  jy_shared (jy_run (jy_start start sinks [prog]) (repeat 0%nat (work_of prog))) = mkSh (js_next st) (js_sinks st).
Proof. exact alone. Qed.
Print Assumptions C127_alone.

(** A concrete case: two threads parse the same document, whose label occurs twice, into one dataset, the
    second also into another; they go in turns, so that the label tables grow side by side. *)
Definition ex (s : string) : str := s2l s.
Definition exdata : rdf_dataset := [(s2l "@default", [mkJT (FBlank (ex "_:b0")) (FIri (ex "p")) (FBlank (ex "_:b1")); mkJT (FBlank (ex "_:b1")) (FIri (ex "p")) (FBlank (ex "_:b0"))])].
Definition exprogs : list (list (nat * rdf_dataset)) := [[(0%nat, exdata)]; [(0%nat, exdata); (1%nat, exdata)]].
Definition exsinks : list world := [ds_new []; ds_new []].
Definition exsch : list nat := concat (repeat [0; 1]%nat 6).
Lemma ex_reach : Forall ds_reachable exsinks.
Proof. repeat constructor; intros g []. Qed.
Lemma ex_exist : sinks_exist exsinks exprogs.
Proof.
  intros [|[|k]] c i data E; unfold call_of in E; cbn in E.
  - destruct c as [|c]; cbn in E; [injection E as <- _; cbn; lia|destruct c; discriminate].
  - destruct c as [|[|c]]; cbn in E; [injection E as <- _; cbn; lia|injection E as <- _; cbn; lia|destruct c; discriminate].
  - destruct k; discriminate.
Qed.
Example ex_run : map (fun w => map (fun q => (st_s q, st_o q)) (ds_iter w)) (sh_sinks (jy_shared (jy_run (jy_start 5 exsinks exprogs) exsch))) =
  [[(BNode 5, BNode 6); (BNode 7, BNode 8); (BNode 6, BNode 5); (BNode 8, BNode 7)]; [(BNode 9, BNode 10); (BNode 10, BNode 9)]] /\
  map work_of exprogs = [3; 6]%nat /\ map (count_occ Nat.eq_dec exsch) [0; 1]%nat = [6; 6]%nat.
Proof. vm_compute. auto. Qed.
Example ex_done : forall x, In x (jy_threads (jy_run (jy_start 5 exsinks exprogs) exsch)) -> all_parsed x.
Proof.
  apply (C127_ends 5 exsinks exprogs exsch _ ex_reach ex_exist eq_refl). intros [|[|k]] prog E; cbn [exprogs nth_error] in E; [injection E as <-; vm_compute; lia|injection E as <-; vm_compute; lia|destruct k; discriminate].
Qed.
