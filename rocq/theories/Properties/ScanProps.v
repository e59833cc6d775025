(** C116: threads that run list(g.match(s, p, o)) while others add.
    What is proved is about Model/GraphScan.v. *)
From Verif Require Import Model.Py Model.Terms Model.Graph Model.GraphRun Model.GraphThreads Model.GraphScan Spec.GraphSpec Spec.ThreadGraphSpec Spec.ScanSpec Proofs.ThreadScan Proofs.ThreadTop.
From Coq Require Import Lia PeanoNat.

(** A scan that has not begun after [sch1] gives, whatever happens then, different triples that fit and are
    in the graph.  If it comes to its end, then none is missing that was in the graph, its add returned, when
    the scan had not begun; if not, then with a RuntimeError, and a triple that fits has since been added (or was being). *)
Theorem C116_scan : forall ops0 addss g pats sch1 sch2 s1 s j s' p' o' x, start_of ops0 addss g ->
  s1 = m_run (m_start g addss pats) sch1 -> s = m_run s1 sch2 ->
  honoured s' -> honoured p' -> honoured o' -> nth_error (m_scans s1) j = Some (scan_new s' p' o') -> nth_error (m_scans s) j = Some x ->
  exists l, sc_out x = map CVal l /\ NoDup l /\ (forall t, In t l -> fits s' p' o' t /\ In t (c_triples (m_graph s))) /\
    match sc_pc x with
    | SEnd (Ok _) => forall t, settled s1 t -> fits s' p' o' t -> In t l
    | SEnd (Err e) => e = RuntimeError /\ exists t, fits s' p' o' t /\ In t (c_triples (m_graph s)) /\ ~ settled s1 t
    | _ => True
    end.
Proof. intros ops0 addss g pats sch1 sch2 s1 s j s' p' o' x ST E1. rewrite (m_start_eq addss g pats) in E1. intros. eapply (t_scan ops0 addss g ST pats sch1 sch2 s1 s); eauto. Qed.
Print Assumptions C116_scan.

(** When every triple that fits and is added is in the graph already, nothing disturbs the scan: it gives
    exactly the triples of the graph that fit. *)
Theorem C116_undisturbed : forall ops0 addss g pats sch s j s' p' o' x r, start_of ops0 addss g ->
  s = m_run (m_start g addss pats) sch -> nth_error pats j = Some (s', p', o') -> honoured s' -> honoured p' -> honoured o' ->
  (forall l t, In l addss -> In t l -> fits s' p' o' t -> In t (c_triples g)) ->
  nth_error (m_scans s) j = Some x -> sc_pc x = SEnd r ->
  r = Ok tt /\ exists l, sc_out x = map CVal l /\ lists l (fun t => In t (c_triples g) /\ fits s' p' o' t).
Proof.
  intros ops0 addss g pats sch s j s' p' o' x r ST ES EP HS HP HO KN EX ER. rewrite (m_start_eq addss g pats) in ES. refine (t_undisturbed ops0 addss g ST pats sch s j s' p' o' x ES EP HS HP HO EX _ r ER).
  intros ops t J K. apply in_map_iff in J. destruct J as (l & <- & J). apply in_map_iff in K. destruct K as (u & E & K). injection E as <-. eauto.
Qed.
Print Assumptions C116_undisturbed.

(** The scans change nothing for the threads that add: graph and threads are as without them. *)
Theorem C116_silent : forall ops0 addss g pats sch s, start_of ops0 addss g -> s = m_run (m_start g addss pats) sch ->
  mkS (m_graph s) (m_adders s) = s_run (mkS g (map th_new (map (map CAdd) addss))) (adders sch).
Proof. intros ops0 addss g pats sch s ST ES. rewrite (m_start_eq addss g pats) in ES. exact (t_silent ops0 addss g ST pats sch s ES). Qed.
Print Assumptions C116_silent.

(** Every scan ends after a number of its turns that does not depend on the schedule. *)
Theorem C116_ends : forall ops0 addss g pats, start_of ops0 addss g ->
  exists n, forall sch j x, n <= turns_of j sch -> nth_error (m_scans (m_run (m_start g addss pats) sch)) j = Some x -> exists r, sc_pc x = SEnd r.
Proof. intros ops0 addss g pats ST. rewrite (m_start_eq addss g pats). exact (t_ends ops0 addss g ST pats). Qed.
Print Assumptions C116_ends.

(** With one thread that adds nothing has to be asked of what it adds. *)
Theorem C116_one_writer : forall ops0 l sch0 s0, of_triples ops0 -> (forall t, In t l -> is_triple t) ->
  s0 = s_run (mkS c_new [th_new ops0]) sch0 -> finished s0 -> start_of ops0 [l] (s_graph s0).
Proof.
  intros ops0 l sch0 s0 T0 T E F. split; [exact T0|]. split; [intros m t [<-|[]]; apply T|]. split; [|exists sch0, s0; auto].
  intros [|i] [|j] a b t u k1 k2 NE EA EB; [congruence|destruct j; discriminate|destruct i; discriminate|destruct i; discriminate].
Qed.
Print Assumptions C116_one_writer.

(** ** Examples *)
Definition exi (s : string) : term := Iri (s2l s).
Definition ext (s p o : string) : stmt := Tr (exi s) (exi p) (exi o).
Definition ex_ops0 : list cop := [CAdd (ext "s" "p" "a"); CAdd (ext "s" "p" "b"); CAdd (ext "t" "p" "a")].
Definition ex_g : cgraph := s_graph (s_run (mkS c_new [th_new ex_ops0]) (repeat 0 63)).
Example ex_begun : forall l, (forall t, In t l -> is_triple t) -> start_of ex_ops0 [l] ex_g.
Proof.
  intros l T. unfold ex_g. eapply C116_one_writer; [|exact T|reflexivity|].
  - intros t J. cbn in J. repeat match goal with H : _ \/ _ |- _ => destruct H as [H|H] end; try contradiction; try discriminate; injection J as <-; reflexivity.
  - change [th_new ex_ops0] with (map th_new [ex_ops0]). apply threads_end. intros [|i] ops E; [|destruct i; discriminate]. injection E as <-. vm_compute. lia.
Qed.
(** one thread adds (s, p, c) and (t, q, a), two scans are under way *)
Definition ex_pats : list pattern := [(Some (exi "s"), Some (exi "p"), None); (None, None, Some (exi "a"))].
Definition ex_adds : list (list stmt) := [[ext "s" "p" "c"; ext "t" "q" "a"]].
Definition ends_of (s : mstate) : list (pc * list cell) := map (fun x => (sc_pc x, sc_out x)) (m_scans s).
Definition rows (l : list stmt) : list cell := map CVal l.
(** the first scan reaches its end before the thread stores what it adds, the second after *)
Example ex_scan_ok : ends_of (m_run (m_start ex_g ex_adds ex_pats) (repeat (Scanner 0) 9 ++ repeat (Adder 0) 3 ++ repeat (Scanner 0) 9 ++ repeat (Adder 0) 40 ++ repeat (Scanner 1) 40))
  = [(SEnd (Ok tt), rows [ext "s" "p" "a"; ext "s" "p" "b"]); (SEnd (Ok tt), rows [ext "s" "p" "a"; ext "t" "p" "a"; ext "t" "q" "a"])].
Proof. vm_compute. reflexivity. Qed.
(** both are caught by what is added *)
Example ex_scan_err : ends_of (m_run (m_start ex_g ex_adds ex_pats) (repeat (Scanner 0) 10 ++ repeat (Scanner 1) 17 ++ repeat (Adder 0) 42 ++ repeat (Scanner 0) 9 ++ repeat (Scanner 1) 40))
  = [(SEnd (Err RuntimeError), rows [ext "s" "p" "a"; ext "s" "p" "b"]); (SEnd (Err RuntimeError), rows [ext "s" "p" "a"; ext "t" "p" "a"])].
Proof. vm_compute. reflexivity. Qed.
Example ex_adds_triples : forall t, In t (hd [] ex_adds) -> is_triple t.
Proof. intros t [<-|[<-|[]]]; reflexivity. Qed.
(** the hypotheses of C116_scan *)
Example ex_meets : start_of ex_ops0 ex_adds ex_g /\
  nth_error (m_scans (m_run (m_start ex_g ex_adds ex_pats) (repeat (Adder 0) 18))) 0 = Some (scan_new (Some (exi "s")) (Some (exi "p")) None) /\
  settled (m_run (m_start ex_g ex_adds ex_pats) (repeat (Adder 0) 18)) (ext "s" "p" "c") /\
  exists x, nth_error (m_scans (m_run (m_run (m_start ex_g ex_adds ex_pats) (repeat (Adder 0) 18)) (repeat (Scanner 0) 20))) 0 = Some x /\ sc_pc x = SEnd (Ok tt) /\ sc_out x = rows [ext "s" "p" "a"; ext "s" "p" "b"; ext "s" "p" "c"].
Proof.
  split; [exact (ex_begun _ ex_adds_triples)|]. split; [vm_compute; reflexivity|]. split.
  - split; [vm_compute; auto|]. intros x r ms J. assert (E : map th_now (m_adders (m_run (m_start ex_g ex_adds ex_pats) (repeat (Adder 0) 18))) = [None]) by (vm_compute; reflexivity). apply (in_map th_now) in J. rewrite E in J. destruct J as [<-|[]]. discriminate.
  - eexists. split; [vm_compute; reflexivity|]. split; reflexivity.
Qed.
(** triples added that are there already or do not fit *)
Example ex_undisturbed : ends_of (m_run (m_start ex_g [[ext "s" "p" "b"; ext "t" "q" "c"]] ex_pats) (repeat (Scanner 0) 10 ++ repeat (Scanner 1) 17 ++ repeat (Adder 0) 42 ++ repeat (Scanner 0) 9 ++ repeat (Scanner 1) 40))
  = [(SEnd (Ok tt), rows [ext "s" "p" "a"; ext "s" "p" "b"]); (SEnd (Ok tt), rows [ext "s" "p" "a"; ext "t" "p" "a"])].
Proof. vm_compute. reflexivity. Qed.
Example ex_undisturbed_meets : start_of ex_ops0 [[ext "s" "p" "b"; ext "t" "q" "c"]] ex_g /\
  forall l t, In l [[ext "s" "p" "b"; ext "t" "q" "c"]] -> In t l -> fits (Some (exi "s")) (Some (exi "p")) None t -> In t (c_triples ex_g).
Proof.
  split; [apply ex_begun; intros t [<-|[<-|[]]]; reflexivity|]. intros l t [<-|[]] [<-|[<-|[]]] [A [B C]]; [vm_compute; auto|]. exfalso. destruct A as [A|A]; discriminate.
Qed.
Example ex_silent : adders [Scanner 0; Adder 0; Scanner 1; Adder 0] = [0; 0].
Proof. reflexivity. Qed.

(** Threads that add may meet; then a scan can lose a triple that a thread adds: the scan's own subscript stores an
    empty dictionary over the one in which the triple is.  With the same steps of the threads that add and no scan
    the triple is found. *)
Theorem C116_loses_refuted : exists addss pats sch s s' t l,
  (forall l t, In l addss -> In t l -> is_triple t) /\ s = m_run (m_start c_new addss pats) sch /\ s' = s_run (mkS c_new (map th_new (map (map CAdd) addss))) (adders sch) /\
  finished s' /\ (forall x, In x (m_adders s) -> done x) /\ In t (c_triples (m_graph s)) /\
  snd (drain 9 (seen (s_graph s')) (GStart (Some (st_s t)) (Some (st_p t)) None)) = Ok l /\ In t l /\
  snd (drain 9 (seen (m_graph s)) (GStart (Some (st_s t)) (Some (st_p t)) None)) = Ok [].
Proof.
  exists [[ext "s" "p" "a"]; [ext "s" "q" "b"]; [ext "s" "p" "c"]], [(Some (exi "s"), Some (exi "p"), None)],
    (repeat (Adder 0) 4 ++ repeat (Adder 1) 4 ++ repeat (Adder 0) 3 ++ repeat (Scanner 0) 5 ++ repeat (Adder 1) 1 ++ repeat (Scanner 0) 2 ++ repeat (Adder 2) 21 ++ repeat (Scanner 0) 1 ++ repeat (Adder 0) 21 ++ repeat (Adder 1) 21).
  eexists. eexists. exists (ext "s" "p" "c"), [ext "s" "p" "c"]. split; [|split; [reflexivity|split; [reflexivity|split; [|split; [|split; [|split; [|split]]]]]]].
  - intros l t [<-|[<-|[<-|[]]]] [<-|[]]; reflexivity.
  - apply threads_end. intros [|[|[|i]]] ops E; [| | |destruct i; discriminate]; injection E as <-; vm_compute; lia.
  - match goal with |- forall x, In x ?l -> _ => assert (E : map (fun x => (th_now x, th_ops x)) l = [(None, []); (None, []); (None, [])]) by (vm_compute; reflexivity) end.
    intros x J. apply (in_map (fun x => (th_now x, th_ops x))) in J. rewrite E in J. destruct J as [J|[J|[J|[]]]]; injection J as A B; split; congruence.
  - vm_compute. auto.
  - vm_compute. reflexivity.
  - now left.
  - vm_compute. reflexivity.
Qed.
Print Assumptions C116_loses_refuted.
