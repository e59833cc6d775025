(** C115: threads that read a graph while others change it.
    What is proved is about Model/GraphReaders.v. *)
From Verif Require Import Model.Py Model.Terms Model.Graph Model.GraphThreads Model.GraphReaders Spec.GraphSpec Spec.ThreadGraphSpec Spec.ReaderSpec Proofs.ThreadReaders Proofs.ThreadTop.
From Coq Require Import Lia PeanoNat.

(** However the threads are interleaved, there is one order of all the calls, in which every thread makes
    its calls in its order and a call that had returned before another was made stands before it, such that
    every [in], len and toArray answers for the set that the calls before it leave: what one thread has
    seen, no other misses later.  add never fails; remove may raise KeyError although the triple was there. *)
Theorem C115_linear : forall ops0 sch0 s0 callss sch s, of_triples ops0 -> (forall calls, In calls callss -> of_triples (writes calls)) ->
  s0 = s_run (mkS c_new [th_new ops0]) sch0 -> finished s0 -> s = rs_run (mkRS (s_graph s0) (map r_new callss)) sch -> r_finished s ->
  exists order, merges callss order /\
    lists (c_triples (rs_graph s)) (fun t => In t (after (c_triples (s_graph s0)) order)) /\
    (forall i x, nth_error (rs_threads s) i = Some x -> Forall2 (fair false) (r_out x) (mine i (history (c_triples (s_graph s0)) order))) /\
    forall sch1 sch2, sch = sch1 ++ sch2 -> exists o1 o2, order = o1 ++ o2 /\ counted callss (rs_threads (rs_run (mkRS (s_graph s0) (map r_new callss)) sch1)) o1.
Proof. exact linear_any. Qed.
Print Assumptions C115_linear.

(** Threads that do not meet (as for C112; the reads do not matter): remove fails only when the triple is not there. *)
Theorem C115_apart : forall ops0 sch0 s0 callss sch s, of_triples ops0 -> (forall calls, In calls callss -> of_triples (writes calls)) ->
  s0 = s_run (mkS c_new [th_new ops0]) sch0 -> finished s0 -> s = rs_run (mkRS (s_graph s0) (map r_new callss)) sch -> r_finished s ->
  no_clash (map writes callss) -> prepared ops0 (map writes callss) ->
  exists order, merges callss order /\
    lists (c_triples (rs_graph s)) (fun t => In t (after (c_triples (s_graph s0)) order)) /\
    (forall i x, nth_error (rs_threads s) i = Some x -> Forall2 (fair true) (r_out x) (mine i (history (c_triples (s_graph s0)) order))) /\
    forall sch1 sch2, sch = sch1 ++ sch2 -> exists o1 o2, order = o1 ++ o2 /\ counted callss (rs_threads (rs_run (mkRS (s_graph s0) (map r_new callss)) sch1)) o1.
Proof. exact linear_apart. Qed.
Print Assumptions C115_apart.

Theorem C115_ends : forall g callss sch, (forall i calls, nth_error callss i = Some calls -> 21 * length calls <= count_occ Nat.eq_dec sch i) ->
  r_finished (rs_run (mkRS g (map r_new callss)) sch).
Proof. exact readers_end. Qed.
Print Assumptions C115_ends.

(** ** Examples *)
Definition exi (s : string) : term := Iri (s2l s).
Definition ext (s p o : string) : stmt := Tr (exi s) (exi p) (exi o).
Lemma ex_triples : forall ops, Forall (fun op => match op with CAdd t | CRemove t => st_graph t = None end) ops -> of_triples ops.
Proof. intros ops H t J. rewrite Forall_forall in H. destruct J as [J|J]; exact (H _ J). Qed.
Definition turns (n k : nat) : list nat := concat (repeat (seq 0 k) n).
Definition ex_first : list cop := [CAdd (ext "s" "p" "o")].
Definition ex_s0 : cstate := s_run (mkS c_new [th_new ex_first]) (turns 21 1).
Example ex_s0_end : finished ex_s0.
Proof. unfold ex_s0. change [th_new ex_first] with (map th_new [ex_first]). apply threads_end. intros [|i] ops E; [|destruct i; discriminate]. injection E as <-. vm_compute. lia. Qed.
(** one thread adds and removes, one reads, one does both *)
Definition ex_callss : list (list call) :=
  [[Wr (CAdd (ext "s" "p" "a")); Wr (CRemove (ext "s" "p" "o"))];
   [Rd QLen; Rd (QIn (ext "s" "p" "a")); Rd QLen; Rd QAll; Rd QLen];
   [Rd (QIn (ext "s" "p" "a")); Wr (CAdd (ext "t" "p" "o")); Rd QAll; Rd (QIn (ext "s" "p" "o"))]].
Definition ex_sched : list nat := [1; 0; 2; 0; 1; 1; 0; 2; 2; 1] ++ turns 84 3 ++ repeat 1 21.
Example ex_callss_triples : forall calls, In calls ex_callss -> of_triples (writes calls).
Proof. intros calls [<-|[<-|[<-|[]]]]; apply ex_triples; repeat constructor. Qed.
Example ex_callss_end : r_finished (rs_run (mkRS (s_graph ex_s0) (map r_new ex_callss)) ex_sched).
Proof. apply C115_ends. intros [|[|[|i]]] calls E; [| | |destruct i; discriminate]; injection E as <-; vm_compute; lia. Qed.
Example ex_no_clash : no_clash (map writes ex_callss).
Proof.
  intros [|[|[|i]]] [|[|[|j]]] a b t NE E E'; try congruence; try (destruct i; discriminate); try (destruct j; discriminate); injection E as <-; injection E' as <-; intros J J'; cbn in J, J'; try contradiction;
    repeat match goal with H : _ \/ _ |- _ => destruct H as [H|H] end; try contradiction; try discriminate; injection J as <-; discriminate.
Qed.
Example ex_prepared : prepared ex_first (map writes ex_callss).
Proof.
  intros i j a b t u k1 k2 NE E E' J J' R K.
  assert (Y : k1 = st_p /\ k2 = st_o /\ k1 t = exi "p" /\ k2 t <> k2 u).
  { destruct i as [|[|[|i]]]; destruct j as [|[|[|j]]]; try congruence; try (destruct i; discriminate E); try (destruct j; discriminate E'); injection E as <-; injection E' as <-; cbn in J, J', R; try contradiction;
      repeat match goal with H : _ \/ _ |- _ => destruct H as [H|H] end; try contradiction; try discriminate; injection J as <-; injection J' as <-; injection R as <- <-; cbn in K; try discriminate; cbn; repeat split; discriminate. }
  destruct Y as (-> & -> & A & B). split; [|intro C; contradiction]. exists (ext "s" "p" "o"). split; [now left|]. rewrite A. reflexivity.
Qed.
Example ex_out :
  map r_out (rs_threads (rs_run (mkRS (s_graph ex_s0) (map r_new ex_callss)) ex_sched)) =
  [[(Wr (CAdd (ext "s" "p" "a")), ADone (Ok tt)); (Wr (CRemove (ext "s" "p" "o")), ADone (Ok tt))];
   [(Rd QLen, ALen 1); (Rd (QIn (ext "s" "p" "a")), ABool true); (Rd QLen, ALen 2); (Rd QAll, ASet [ext "s" "p" "o"; ext "s" "p" "a"; ext "t" "p" "o"]); (Rd QLen, ALen 3)];
   [(Rd (QIn (ext "s" "p" "a")), ABool false); (Wr (CAdd (ext "t" "p" "o")), ADone (Ok tt)); (Rd QAll, ASet [ext "s" "p" "a"; ext "t" "p" "o"]);
    (Rd (QIn (ext "s" "p" "o")), ABool false)]].
Proof. vm_compute. reflexivity. Qed.

(** A thread that has seen a triple with [in], and is the only one that removes it, may get KeyError. *)
Theorem C115_seen_refuted : exists callss sch s t x,
  (forall calls, In calls callss -> of_triples (writes calls)) /\ s = rs_run (mkRS c_new (map r_new callss)) sch /\ r_finished s /\
  nth_error (rs_threads s) 1 = Some x /\ r_out x = [(Rd (QIn t), ABool true); (Wr (CRemove t), ADone (Err KeyError)); (Rd (QIn t), ABool false)] /\
  forall i calls, nth_error callss i = Some calls -> In (CRemove t) (writes calls) -> i = 1.
Proof.
  exists [[Wr (CAdd (ext "s" "p" "a"))]; [Rd (QIn (ext "s" "p" "a")); Wr (CRemove (ext "s" "p" "a")); Rd (QIn (ext "s" "p" "a"))]], (repeat 0 2 ++ repeat 1 63 ++ repeat 0 19).
  eexists. exists (ext "s" "p" "a"). eexists. split; [|split; [reflexivity|split; [|split; [|split]]]].
  - intros calls [<-|[<-|[]]]; apply ex_triples; repeat constructor.
  - apply C115_ends. intros [|[|i]] calls E; [| |destruct i; discriminate]; injection E as <-; vm_compute; lia.
  - vm_compute. reflexivity.
  - vm_compute. reflexivity.
  - intros [|[|i]] calls E J; [injection E as <-; cbn in J; destruct J as [J|[]]; discriminate|reflexivity|destruct i; discriminate].
Qed.
Print Assumptions C115_seen_refuted.
