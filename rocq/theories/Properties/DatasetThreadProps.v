(** C113: several threads that add to and remove from one Dataset.
    What is proved is about Model/DatasetThreads.v. *)
From Verif Require Import Model.Py Model.Terms Model.Graph Model.GraphThreads Model.Dataset Model.DatasetThreads Spec.GraphSpec Spec.DatasetSpec Spec.ThreadGraphSpec Spec.ThreadDatasetSpec
  Proofs.DThreadTop Proofs.DThreadSound.
From Coq Require Import Lia PeanoNat.

Definition exi (s : string) : term := Iri (s2l s).
Definition exq (g s p o : string) : stmt := Qd (exi s) (exi p) (exi o) (Some (exi g)).
Lemma ex_quads : forall ops, Forall (fun op => match op with CAdd q | CRemove q => is_quad q end) ops -> of_quads ops.
Proof. intros ops H t J. rewrite Forall_forall in H. destruct J as [J|J]; exact (H _ J). Qed.
Definition turns (n k : nat) : list nat := concat (repeat (seq 0 k) n).

(** ** C113 *)
(** When no quad is added by one thread and removed by another, when every graph that two threads work
    on has been touched before, and when for every term that the quads of two threads share in a place
    of one graph the dictionaries are there already, then the threads see and leave what they would if
    their calls were made one after the other, and iteration and match are exact. *)
Theorem C113_apart : forall ops0 sch0 s0 opss sch s, of_quads ops0 -> (forall ops, In ops opss -> of_quads ops) ->
  s0 = d_run (mkDS d_new [dt_new ops0]) sch0 -> all_made s0 ->
  s = d_run (mkDS (ds_state s0) (map dt_new opss)) sch -> all_made s ->
  no_clash opss -> graphs_there ops0 opss -> roads_there ops0 opss ->
  let before := ds_iter (seen_d (ds_state s0)) in let w := seen_d (ds_state s) in
  exists order, interleaves opss order /\
    lists (ds_iter w) (fun q => In q (fst (answers before order))) /\
    (forall i x, nth_error (ds_threads s) i = Some x -> dt_out x = mine i (snd (answers before order))) /\
    forall s' p o gr n, honoured s' -> honoured p -> honoured o -> honoured gr -> length (ds_iter w) < n ->
      exists l, snd (ds_drain n w (DStart s' p o gr)) = Ok l /\ lists l (fun q => In q (ds_iter w) /\ qfits s' p o gr q).
Proof. exact d_apart. Qed.
Print Assumptions C113_apart.

(** One thread: as the calls say. *)
Theorem C113_alone : forall ops sch s, of_quads ops -> s = d_run (mkDS d_new [dt_new ops]) sch -> all_made s ->
  let calls := answers [] (map (fun op => (0, op)) ops) in let w := seen_d (ds_state s) in
  lists (ds_iter w) (fun q => In q (fst calls)) /\
  (forall x, In x (ds_threads s) -> dt_out x = map snd (snd calls)) /\
  forall s' p o gr n, honoured s' -> honoured p -> honoured o -> honoured gr -> length (ds_iter w) < n ->
    exists l, snd (ds_drain n w (DStart s' p o gr)) = Ok l /\ lists l (fun q => In q (ds_iter w) /\ qfits s' p o gr q).
Proof. exact d_alone. Qed.
Print Assumptions C113_alone.

(** Any threads, at any time: a quad that the dataset says it contains was added by some call. *)
Theorem C113_sound : forall opss sch s, (forall ops, In ops opss -> of_quads ops) -> s = d_run (mkDS d_new (map dt_new opss)) sch ->
  forall q, is_quad q -> ds_contains (seen_d (ds_state s)) q = true -> exists ops, In ops opss /\ In (CAdd q) ops.
Proof. exact d_sound. Qed.
Print Assumptions C113_sound.

(** No thread waits for another or runs for ever: 26 steps of a thread are enough for a call. *)
Theorem C113_ends : forall g opss sch, (forall i ops, nth_error opss i = Some ops -> 26 * length ops <= count_occ Nat.eq_dec sch i) ->
  all_made (d_run (mkDS g (map dt_new opss)) sch).
Proof. exact d_end. Qed.
Print Assumptions C113_ends.

(** When two threads add the first quads of a graph, a quad may be in the dataset neither for [in] nor
    for iteration, although nobody removes anything and every add succeeds. *)
Theorem C113_lost_refuted : exists opss sch s q,
  (forall ops, In ops opss -> of_quads ops) /\ no_clash opss /\ roads_there [] opss /\
  s = d_run (mkDS d_new (map dt_new opss)) sch /\ all_made s /\
  (exists ops, In ops opss /\ In (CAdd q) ops) /\ (forall ops q', In ops opss -> ~ In (CRemove q') ops) /\
  (forall x y, In x (ds_threads s) -> In y (dt_out x) -> snd y = Ok tt) /\
  ds_contains (seen_d (ds_state s)) q = false /\ ~ In q (ds_iter (seen_d (ds_state s))).
Proof.
  exists [[CAdd (exq "g" "s" "p" "a")]; [CAdd (exq "g" "r" "q" "b")]], (repeat 0 2 ++ repeat 1 26 ++ repeat 0 24).
  eexists. exists (exq "g" "r" "q" "b"). split; [|split; [|split; [|split; [reflexivity|split; [|split; [|split; [|split; [|split]]]]]]]].
  - intros ops [<-|[<-|[]]]; apply ex_quads; repeat constructor; eexists; reflexivity.
  - intros [|[|i]] [|[|j]] a b t NE E E'; try congruence; try (destruct i; discriminate); try (destruct j; discriminate); injection E as <-; injection E' as <-; cbn; intuition discriminate.
  - intros [|[|i]] [|[|j]] a b t u k1 k2 NE E E'; try congruence; try (destruct i; discriminate); try (destruct j; discriminate); injection E as <-; injection E' as <-; intros [<-|[]] || (intros [X|[]]; injection X as <-); (intros [Y|[]]; injection Y as <-); (intros [Z|[Z|[Z|[]]]]; injection Z as <- <-); intros _ K; discriminate.
  - apply C113_ends. intros [|[|i]] ops E; [| |destruct i; discriminate]; injection E as <-; vm_compute; lia.
  - exists [CAdd (exq "g" "r" "q" "b")]. cbn. auto.
  - intros ops q' [<-|[<-|[]]]; cbn; intuition discriminate.
  - vm_compute. intros x y [<-|[<-|[]]]; (intros [<-|[]]); reflexivity.
  - vm_compute. reflexivity.
  - vm_compute. intuition discriminate.
Qed.
Print Assumptions C113_lost_refuted.

(** When one thread adds the first quad of a graph while another removes from it, iteration may give a quad
    with the graph NamedNode(None), that nobody named. *)
Theorem C113_graph_refuted : exists opss sch s q,
  (forall ops, In ops opss -> of_quads ops) /\ no_clash opss /\ s = d_run (mkDS d_new (map dt_new opss)) sch /\ all_made s /\
  In q (ds_iter (seen_d (ds_state s))) /\ (forall ops, In ops opss -> ~ concerns ops (st_graph q)) /\ ds_contains (seen_d (ds_state s)) q = false.
Proof.
  exists [[CAdd (exq "g" "s" "p" "a")]; [CRemove (exq "g" "s" "p" "b")]], (repeat 1 2 ++ repeat 0 4 ++ repeat 1 24 ++ repeat 0 22).
  eexists. exists (exq "None" "s" "p" "a"). split; [|split; [|split; [reflexivity|split; [|split; [|split]]]]].
  - intros ops [<-|[<-|[]]]; apply ex_quads; repeat constructor; eexists; reflexivity.
  - intros [|[|i]] [|[|j]] a b t NE E E'; try congruence; try (destruct i; discriminate); try (destruct j; discriminate); injection E as <-; injection E' as <-; cbn; intros [X|[]]; try discriminate; injection X as <-; intros [Y|[]]; discriminate.
  - apply C113_ends. intros [|[|i]] ops E; [| |destruct i; discriminate]; injection E as <-; vm_compute; lia.
  - vm_compute. auto.
  - intros ops [<-|[<-|[]]] (q & J & E); cbn in J; (destruct J as [[X|[]]|[X|[]]]; try discriminate; injection X as <-; discriminate).
  - vm_compute. reflexivity.
Qed.
Print Assumptions C113_graph_refuted.

(** ** Examples *)
(** two threads in the graph [g], which was there, and the second also in a graph of its own *)
Definition ex_ops0 : list cop := [CAdd (exq "g" "x" "p" "a"); CAdd (exq "g" "s" "p" "z"); CRemove (exq "g" "x" "p" "a")].
Definition ex_safe : list (list cop) :=
  [[CAdd (exq "g" "s" "p" "a"); CRemove (exq "g" "s" "p" "z")]; [CAdd (exq "g" "r" "p" "a"); CRemove (exq "g" "s" "p" "z"); CAdd (exq "h" "s" "p" "a")]].
Example ex_ops0_quads : of_quads ex_ops0.
Proof. apply ex_quads. repeat constructor; eexists; reflexivity. Qed.
Example ex_safe_quads : forall ops, In ops ex_safe -> of_quads ops.
Proof. intros ops [<-|[<-|[]]]; apply ex_quads; repeat constructor; eexists; reflexivity. Qed.
Example ex_ops0_made : all_made (d_run (mkDS d_new [dt_new ex_ops0]) (repeat 0 78)).
Proof. apply (C113_ends d_new [ex_ops0]). intros [|i] ops E; [|destruct i; discriminate]. injection E as <-. vm_compute. lia. Qed.
Example ex_safe_made : all_made (d_run (mkDS (ds_state (d_run (mkDS d_new [dt_new ex_ops0]) (repeat 0 78))) (map dt_new ex_safe)) (turns 78 2)).
Proof. apply C113_ends. intros [|[|i]] ops E; [| |destruct i; discriminate]; injection E as <-; vm_compute; lia. Qed.
Example ex_safe_clash : no_clash ex_safe.
Proof.
  intros [|[|i]] [|[|j]] a b t NE E E'; try congruence; try (destruct i; discriminate); try (destruct j; discriminate); injection E as <-; injection E' as <-; cbn.
  - intros [X|[X|[]]]; try discriminate; injection X as <-; intros [Y|[Y|[Y|[]]]]; discriminate.
  - intros [X|[X|[X|[]]]]; try discriminate; injection X as <-; intros [Y|[Y|[]]]; discriminate.
Qed.
Example ex_safe_graphs : graphs_there ex_ops0 ex_safe.
Proof.
  assert (G : concerns ex_ops0 (Some (Some (exi "g")))) by (exists (exq "g" "s" "p" "z"); cbn; auto).
  intros [|[|i]] [|[|j]] a b n NE E E'; try congruence; try (destruct i; discriminate); try (destruct j; discriminate); injection E as <-; injection E' as <-.
  - intros (q & J & <-) _. cbn in J. destruct J as [[X|[X|[]]]|[X|[X|[]]]]; try discriminate; injection X as <-; exact G.
  - intros _ (q & J & <-). cbn in J. destruct J as [[X|[X|[]]]|[X|[X|[]]]]; try discriminate; injection X as <-; exact G.
Qed.
Example ex_safe_roads : roads_there ex_ops0 ex_safe.
Proof.
  intros [|[|i]] [|[|j]] a b t u k1 k2 NE E E'; try congruence; try (destruct i; discriminate); try (destruct j; discriminate); injection E as <-; injection E' as <-;
    (intros [X|[X|[X|[]]]] || intros [X|[X|[]]]; try discriminate); injection X as <-; (intros [Y|[Y|[Y|[]]]] || intros [Y|[Y|[]]]; try discriminate); injection Y as <-; (intros [Z|[Z|[Z|[]]]]; injection Z as <- <-); intros G K; try discriminate;
    (split; [exists (exq "g" "x" "p" "a"); cbn; auto|intro K2; try discriminate; exists (exq "g" "x" "p" "a"); cbn; auto]).
Qed.
Example ex_safe_out :
  let s := d_run (mkDS (ds_state (d_run (mkDS d_new [dt_new ex_ops0]) (repeat 0 78))) (map dt_new ex_safe)) (turns 78 2) in
  ds_iter (seen_d (ds_state s)) = [exq "g" "s" "p" "a"; exq "g" "r" "p" "a"; exq "h" "s" "p" "a"] /\
  map dt_out (ds_threads s) = [[(CAdd (exq "g" "s" "p" "a"), Ok tt); (CRemove (exq "g" "s" "p" "z"), Ok tt)];
                               [(CAdd (exq "g" "r" "p" "a"), Ok tt); (CRemove (exq "g" "s" "p" "z"), Err KeyError); (CAdd (exq "h" "s" "p" "a"), Ok tt)]].
Proof. split; [vm_compute; reflexivity|vm_compute; reflexivity]. Qed.
