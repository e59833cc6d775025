(** C111-C112: several threads that add to and remove from one Graph.
    What is proved is about Model/GraphThreads.v. *)
From Verif Require Import Model.Py Model.Terms Model.Graph Model.GraphThreads Spec.GraphSpec Spec.ThreadGraphSpec Proofs.ThreadTop.
From Coq Require Import Lia PeanoNat.

(** ** Examples *)
Definition exi (s : string) : term := Iri (s2l s).
Definition ext (s p o : string) : stmt := Tr (exi s) (exi p) (exi o).
Lemma ex_triples : forall ops, Forall (fun op => match op with CAdd t | CRemove t => st_graph t = None end) ops -> of_triples ops.
Proof. intros ops H t J. rewrite Forall_forall in H. destruct J as [J|J]; exact (H _ J). Qed.
(** turns one after the other *)
Definition turns (n k : nat) : list nat := concat (repeat (seq 0 k) n).

(** ** C111: any threads *)
(** However the threads are interleaved, the set of triples, iteration, len and [in] are as if the calls
    had been made one after the other, in an order in which every thread makes its calls in its order;
    add never fails; remove fails with KeyError when the triple is not there, and may fail with
    KeyError when it is (C112); whatever match gives fits the pattern and was added by some call. *)
Theorem C111_set : forall opss sch s, (forall ops, In ops opss -> of_triples ops) -> s = s_run (mkS c_new (map th_new opss)) sch -> finished s ->
  exists order, interleaves opss order /\
    lists (c_triples (s_graph s)) (fun t => In t (fst (answers [] order))) /\
    (forall i x, nth_error (s_threads s) i = Some x -> Forall2 at_worst (th_out x) (mine i (snd (answers [] order)))) /\
    forall s' p o n l, honoured s' -> honoured p -> honoured o -> snd (drain n (seen (s_graph s)) (GStart s' p o)) = Ok l ->
      forall t, In t l -> fits s' p o t /\ exists ops, In ops opss /\ In (CAdd t) ops.
Proof. exact any_threads. Qed.
Print Assumptions C111_set.

(** Threads that only add: every triple is there, no call fails, and match invents nothing. *)
Theorem C111_only_adds : forall opss sch s, (forall ops, In ops opss -> of_triples ops) -> (forall ops t, In ops opss -> ~ In (CRemove t) ops) ->
  s = s_run (mkS c_new (map th_new opss)) sch -> finished s ->
  lists (c_triples (s_graph s)) (fun t => exists ops, In ops opss /\ In (CAdd t) ops) /\
  (forall i x ops, nth_error (s_threads s) i = Some x -> nth_error opss i = Some ops -> th_out x = map (fun op => (op, Ok tt)) ops) /\
  forall s' p o n l, honoured s' -> honoured p -> honoured o -> snd (drain n (seen (s_graph s)) (GStart s' p o)) = Ok l ->
    forall t, In t l -> In t (c_triples (s_graph s)) /\ fits s' p o t.
Proof. exact only_adds. Qed.
Print Assumptions C111_only_adds.

(** No thread waits for another or runs for ever: 21 steps of a thread are enough for a call. *)
Theorem C111_ends : forall g opss sch, (forall i ops, nth_error opss i = Some ops -> 21 * length ops <= count_occ Nat.eq_dec sch i) ->
  finished (s_run (mkS g (map th_new opss)) sch).
Proof. exact threads_end. Qed.
Print Assumptions C111_ends.

Definition ex_opss : list (list cop) :=
  [[CAdd (ext "s" "p" "a"); CAdd (ext "s" "q" "b"); CRemove (ext "s" "p" "c")]; [CAdd (ext "s" "p" "c"); CAdd (ext "s" "p" "a")]].
Example ex_opss_triples : forall ops, In ops ex_opss -> of_triples ops.
Proof. intros ops [<-|[<-|[]]]; apply ex_triples; repeat constructor. Qed.
Example ex_opss_end : finished (s_run (mkS c_new (map th_new ex_opss)) (turns 63 2)).
Proof. apply C111_ends. intros [|[|i]] ops E; [| |destruct i; discriminate]; injection E as <-; vm_compute; lia. Qed.
(** turn by turn *)
Example ex_opss_out :
  let s := s_run (mkS c_new (map th_new ex_opss)) (turns 63 2) in
  c_triples (s_graph s) = [ext "s" "p" "a"; ext "s" "q" "b"] /\
  map th_out (s_threads s) = [[(CAdd (ext "s" "p" "a"), Ok tt); (CAdd (ext "s" "q" "b"), Ok tt); (CRemove (ext "s" "p" "c"), Ok tt)];
                              [(CAdd (ext "s" "p" "c"), Ok tt); (CAdd (ext "s" "p" "a"), Ok tt)]].
Proof. split; [vm_compute; reflexivity|vm_compute; reflexivity]. Qed.
Definition ex_adds : list (list cop) := [[CAdd (ext "s" "p" "a"); CAdd (ext "s" "q" "b")]; [CAdd (ext "s" "p" "c"); CAdd (ext "s" "p" "a")]].
Example ex_adds_only : forall ops t, In ops ex_adds -> ~ In (CRemove t) ops.
Proof. intros ops t [<-|[<-|[]]]; cbn; intuition discriminate. Qed.
Example ex_adds_out :
  let s := s_run (mkS c_new (map th_new ex_adds)) (turns 42 2) in
  c_triples (s_graph s) = [ext "s" "p" "a"; ext "s" "p" "c"; ext "s" "q" "b"].
Proof. vm_compute. reflexivity. Qed.

(** ** C112: threads that do not meet *)
(** When no triple is added by one thread and removed by another, and when for every term that the
    triples of two threads share in a place the dictionaries are there already, then the
    threads see and leave what they would if their calls were made one after the other, and match is exact. *)
Theorem C112_apart : forall ops0 sch0 s0 opss sch s, of_triples ops0 -> (forall ops, In ops opss -> of_triples ops) ->
  s0 = s_run (mkS c_new [th_new ops0]) sch0 -> finished s0 ->
  s = s_run (mkS (s_graph s0) (map th_new opss)) sch -> finished s ->
  no_clash opss -> prepared ops0 opss ->
  exists order, interleaves opss order /\
    lists (c_triples (s_graph s)) (fun t => In t (fst (answers (c_triples (s_graph s0)) order))) /\
    (forall i x, nth_error (s_threads s) i = Some x -> th_out x = mine i (snd (answers (c_triples (s_graph s0)) order))) /\
    forall s' p o n, honoured s' -> honoured p -> honoured o -> length (c_triples (s_graph s)) < n ->
      exists l, snd (drain n (seen (s_graph s)) (GStart s' p o)) = Ok l /\ lists l (fun t => In t (c_triples (s_graph s)) /\ fits s' p o t).
Proof. exact apart. Qed.
Print Assumptions C112_apart.

(** One thread: as the calls say. *)
Theorem C112_alone : forall ops sch s, of_triples ops -> s = s_run (mkS c_new [th_new ops]) sch -> finished s ->
  let calls := answers [] (map (fun op => (0, op)) ops) in
  lists (c_triples (s_graph s)) (fun t => In t (fst calls)) /\
  (forall x, In x (s_threads s) -> th_out x = map snd (snd calls)) /\
  forall s' p o n, honoured s' -> honoured p -> honoured o -> length (c_triples (s_graph s)) < n ->
    exists l, snd (drain n (seen (s_graph s)) (GStart s' p o)) = Ok l /\ lists l (fun t => In t (c_triples (s_graph s)) /\ fits s' p o t).
Proof. exact alone. Qed.
Print Assumptions C112_alone.

(** Without the second condition match loses triples: two threads add triples with a subject that is
    new to the graph, and the first is stopped inside Index(). *)
Theorem C112_lost_refuted : exists opss sch s t l,
  (forall ops, In ops opss -> of_triples ops) /\ no_clash opss /\ s = s_run (mkS c_new (map th_new opss)) sch /\ finished s /\
  In t (c_triples (s_graph s)) /\ fits (Some (st_s t)) None None t /\
  snd (drain 9 (seen (s_graph s)) (GStart (Some (st_s t)) None None)) = Ok l /\ ~ In t l.
Proof.
  exists [[CAdd (ext "s" "p" "a")]; [CAdd (ext "s" "q" "b")]], (repeat 0 4 ++ repeat 1 21 ++ repeat 0 17).
  eexists. exists (ext "s" "q" "b"), [ext "s" "p" "a"]. split; [|split; [|split; [reflexivity|split; [|split; [|split; [|split]]]]]].
  - intros ops [<-|[<-|[]]]; apply ex_triples; repeat constructor.
  - intros [|[|i]] [|[|j]] a b t NE E E'; try congruence; try (destruct i; discriminate); try (destruct j; discriminate); injection E as <-; injection E' as <-; cbn; intuition discriminate.
  - apply C111_ends. intros [|[|i]] ops E; [| |destruct i; discriminate]; injection E as <-; vm_compute; lia.
  - vm_compute. auto.
  - split; [now right|]. split; now left.
  - vm_compute. reflexivity.
  - vm_compute. intros [X|[]]. discriminate.
Qed.
Print Assumptions C112_lost_refuted.

(** Without the first, match gives a triple that is not in the graph, and remove raises KeyError after it has removed. *)
Theorem C112_clash_refuted : exists opss sch s t l,
  (forall ops, In ops opss -> of_triples ops) /\ prepared [] opss /\ s = s_run (mkS c_new (map th_new opss)) sch /\ finished s /\
  ~ In t (c_triples (s_graph s)) /\ snd (drain 9 (seen (s_graph s)) (GStart (Some (st_s t)) None None)) = Ok l /\ In t l /\
  exists x, nth_error (s_threads s) 1 = Some x /\ th_out x = [(CRemove t, Err KeyError)].
Proof.
  exists [[CAdd (ext "s" "p" "a")]; [CRemove (ext "s" "p" "a")]], (repeat 0 2 ++ repeat 1 21 ++ repeat 0 19).
  eexists. exists (ext "s" "p" "a"), [ext "s" "p" "a"]. split; [|split; [|split; [reflexivity|split; [|split; [|split; [|split]]]]]].
  - intros ops [<-|[<-|[]]]; apply ex_triples; repeat constructor.
  - intros [|[|i]] [|[|j]] a b t u k1 k2 NE E E'; try congruence; try (destruct i; discriminate); try (destruct j; discriminate); injection E as <-; injection E' as <-; cbn; intuition discriminate.
  - apply C111_ends. intros [|[|i]] ops E; [| |destruct i; discriminate]; injection E as <-; vm_compute; lia.
  - vm_compute. tauto.
  - vm_compute. reflexivity.
  - now left.
  - eexists. split; [vm_compute; reflexivity|vm_compute; reflexivity].
Qed.
Print Assumptions C112_clash_refuted.

(** the first thread works under the subject [s], the second under [r]; [p] and the pairs they share were there before *)
Definition ex_ops0 : list cop := [CAdd (ext "x" "p" "a"); CAdd (ext "s" "p" "z"); CRemove (ext "x" "p" "a")].
Definition ex_safe : list (list cop) := [[CAdd (ext "s" "p" "a"); CRemove (ext "s" "p" "z")]; [CAdd (ext "r" "p" "a"); CRemove (ext "s" "p" "z")]].
Example ex_ops0_triples : of_triples ex_ops0.
Proof. apply ex_triples. repeat constructor. Qed.
Example ex_safe_triples : forall ops, In ops ex_safe -> of_triples ops.
Proof. intros ops [<-|[<-|[]]]; apply ex_triples; repeat constructor. Qed.
Example ex_ops0_end : finished (s_run (mkS c_new [th_new ex_ops0]) (repeat 0 63)).
Proof. apply (C111_ends c_new [ex_ops0]). intros [|i] ops E; [|destruct i; discriminate]. injection E as <-. vm_compute. lia. Qed.
Example ex_safe_end : finished (s_run (mkS (s_graph (s_run (mkS c_new [th_new ex_ops0]) (repeat 0 63))) (map th_new ex_safe)) (turns 42 2)).
Proof. apply C111_ends. intros [|[|i]] ops E; [| |destruct i; discriminate]; injection E as <-; vm_compute; lia. Qed.
Example ex_safe_clash : no_clash ex_safe.
Proof.
  intros [|[|i]] [|[|j]] a b t NE E E'; try congruence; try (destruct i; discriminate); try (destruct j; discriminate); injection E as <-; injection E' as <-; cbn; intros [X|[X|[]]]; try discriminate; injection X as <-; intros [Y|[Y|[]]]; discriminate.
Qed.
Example ex_safe_prepared : prepared ex_ops0 ex_safe.
Proof.
  intros [|[|i]] [|[|j]] a b t u k1 k2 NE E E'; try congruence; try (destruct i; discriminate); try (destruct j; discriminate); injection E as <-; injection E' as <-;
    (intros [X|[X|[]]]; try discriminate); injection X as <-; (intros [Y|[Y|[]]]; try discriminate); injection Y as <-; (intros [Z|[Z|[Z|[]]]]; injection Z as <- <-); intro K; try discriminate;
    (split; [exists (ext "x" "p" "a"); cbn; auto|intro K2; try discriminate; exists (ext "x" "p" "a"); cbn; auto]).
Qed.
Example ex_safe_out :
  let s := s_run (mkS (s_graph (s_run (mkS c_new [th_new ex_ops0]) (repeat 0 63))) (map th_new ex_safe)) (turns 42 2) in
  c_triples (s_graph s) = [ext "s" "p" "a"; ext "r" "p" "a"] /\
  map th_out (s_threads s) = [[(CAdd (ext "s" "p" "a"), Ok tt); (CRemove (ext "s" "p" "z"), Ok tt)];
                              [(CAdd (ext "r" "p" "a"), Ok tt); (CRemove (ext "s" "p" "z"), Err KeyError)]].
Proof. split; [vm_compute; reflexivity|vm_compute; reflexivity]. Qed.
