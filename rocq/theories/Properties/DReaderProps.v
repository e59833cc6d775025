(** C125: threads that read a Dataset to which other threads add.
    What is proved is about Model/DatasetReaders.v. *)
From Verif Require Import Model.Py Model.Terms Model.Graph Model.GraphThreads Model.Dataset Model.DatasetThreads Model.DatasetReaders
  Spec.GraphSpec Spec.DatasetSpec Spec.ThreadGraphSpec Spec.ThreadDatasetSpec Spec.DReaderSpec Proofs.DThreadTop Proofs.DatasetReaders.
From Coq Require Import Lia PeanoNat.

(** A dataset built by one thread; then threads add quads to its graphs while others read.  [s1] is the
    moment before the first step of the reader, [s] a moment at which it has its answer. *)
Theorem C125_has : forall ops0 addss g qs sch1 sch2 s1 s j q x r, fixed_graphs ops0 addss g ->
  s1 = dr_run (dr_start g (map (map CAdd) addss) qs) sch1 -> s = dr_run s1 sch2 ->
  nth_error (dr_readers s1) j = Some (rd_new (QHas q)) -> nth_error (dr_readers s) j = Some x -> rd_pc x = REnd r ->
  r = Ok tt /\ exists sch3 sch4, sch2 = sch3 ++ sch4 /\ (rd_yes x = true <-> among (quads_at (dr_run s1 sch3)) q).
Proof. intros ops0 addss g qs sch1 sch2 s1 s j q x r F -> -> A B C. destruct (fixed _ _ _ F) as [D N]. exact (has_answer g addss D N qs sch1 sch2 j (QHas q) x r A B C q eq_refl). Qed.
Print Assumptions C125_has.

Theorem C125_len : forall ops0 addss g qs sch1 sch2 s1 s j x r, fixed_graphs ops0 addss g ->
  s1 = dr_run (dr_start g (map (map CAdd) addss) qs) sch1 -> s = dr_run s1 sch2 ->
  nth_error (dr_readers s1) j = Some (rd_new QSize) -> nth_error (dr_readers s) j = Some x -> rd_pc x = REnd r ->
  r = Ok tt /\ exists sch3 sch4, sch2 = sch3 ++ sch4 /\ rd_sum x = length (quads_at (dr_run s1 sch3)).
Proof. intros ops0 addss g qs sch1 sch2 s1 s j x r F -> -> A B C. destruct (fixed _ _ _ F) as [D N]. exact (size_answer g addss D N qs sch1 sch2 j QSize x r A B C eq_refl). Qed.
Print Assumptions C125_len.

(** Iteration gives no quad twice and only quads that are there; it gives all that were there when it
    began, or raises RuntimeError, which happens only if a quad has been added since. *)
Theorem C125_list : forall ops0 addss g qs sch1 sch2 s1 s j x r, fixed_graphs ops0 addss g ->
  s1 = dr_run (dr_start g (map (map CAdd) addss) qs) sch1 -> s = dr_run s1 sch2 ->
  nth_error (dr_readers s1) j = Some (rd_new QList) -> nth_error (dr_readers s) j = Some x -> rd_pc x = REnd r ->
  NoDup (rd_out x) /\ (forall q, In q (rd_out x) -> In q (quads_at s)) /\
  match r with
  | Ok _ => forall q, In q (quads_at s1) -> In q (rd_out x)
  | Err e => e = RuntimeError /\ exists q, In q (quads_at s) /\ ~ In q (quads_at s1)
  end.
Proof. intros ops0 addss g qs sch1 sch2 s1 s j x r F -> -> A B C. destruct (fixed _ _ _ F) as [D N]. exact (list_answer g addss D N qs sch1 sch2 j QList x r A B C eq_refl). Qed.
Print Assumptions C125_list.

(** What the writers do and find does not depend on the readers, whatever the writers are. *)
Theorem C125_silent : forall g opss qs sch, let s := dr_run (dr_start g opss qs) sch in
  mkDS (dr_state s) (dr_writers s) = d_run (mkDS g (map dt_new opss)) (writers_of sch).
Proof. intros g opss qs sch. exact (silent sch (dr_start g opss qs)). Qed.
Print Assumptions C125_silent.

(** A reader has its answer after a number of its own steps that is known beforehand. *)
Theorem C125_ends : forall ops0 addss g qs sch j x, fixed_graphs ops0 addss g ->
  3 + length (d_names g) * (length (ds_iter (seen_d g)) + length (concat addss) + 3) <= turns j sch ->
  nth_error (dr_readers (dr_run (dr_start g (map (map CAdd) addss) qs) sch)) j = Some x -> exists r, rd_pc x = REnd r.
Proof.
  intros ops0 addss g qs sch j x F T. destruct (fixed _ _ _ F) as [D N]. apply (ends g addss D N qs sch j x). unfold most. pose proof (quads_length g addss D (dr_start g (opss addss) qs) (dgood_start g addss D qs)) as L.
  unfold quads_at in L. cbn [dr_start dr_state] in L. rewrite <- L. unfold dkeys. rewrite map_length. exact T.
Qed.
Print Assumptions C125_ends.

(** Concrete cases: two graphs, each with a quad; a writer adds a quad to each. *)
Definition exi (s : string) : term := Iri (s2l s).
Definition exq (g s : string) : stmt := Qd (exi s) (exi "p") (exi "o") (Some (exi g)).
Definition exops : list cop := [CAdd (exq "g1" "a"); CAdd (exq "g2" "a")].
Definition exg : dstate := ds_state (d_run (mkDS d_new [dt_new exops]) (repeat 0 60)).
Definition exadds : list (list stmt) := [[exq "g1" "b"; exq "g2" "b"]].
Lemma ex_made : forall ops n, 26 * length ops <= n -> all_made (d_run (mkDS d_new [dt_new ops]) (repeat 0 n)).
Proof. intros ops n L. apply (d_end d_new [ops]). intros [|[|i]] o E; cbn in E; try discriminate. injection E as <-. now rewrite count_occ_repeat_eq. Qed.
Lemma ex_fixed : fixed_graphs exops exadds exg.
Proof.
  split; [|split].
  - intros q [[E|[E|[]]]|[E|[E|[]]]]; try discriminate; injection E as <-; eexists; reflexivity.
  - exists (repeat 0 60), (d_run (mkDS d_new [dt_new exops]) (repeat 0 60)). split; [reflexivity|]. split; [|reflexivity]. apply ex_made. cbn. lia.
  - intros l q [<-|[]] [<-|[<-|[]]]; (split; [eexists; reflexivity|]).
    + exists (exq "g1" "a"). split; [left; left; reflexivity|reflexivity].
    + exists (exq "g2" "a"). split; [left; right; left; reflexivity|reflexivity].
Qed.
Definition exqs : list dquery := [QHas (exq "g2" "b"); QHas (q_as_t (exq "g2" "b")); QSize; QList].
Definition exw (n : nat) : list turn := repeat (Writer 0) n.
Definition exr (j n : nat) : list turn := repeat (Reader j) n.
Definition exrun (sch : list turn) : drsystem := dr_run (dr_start exg (map (map CAdd) exadds) exqs) sch.
Definition exsaid (sch : list turn) (j : nat) := match nth_error (dr_readers (exrun sch)) j with Some x => Some (rd_pc x, rd_yes x, rd_sum x, rd_out x) | None => None end.
(** a reader that counted the first graph before the writer and the second after it: the answer is 3,
    although the dataset had 2 quads when it began and has 4 when it ends *)
Example ex_len : exsaid (exr 2 3 ++ exw 30 ++ exr 2 3) 2 = Some (REnd (Ok tt), false, 3, []) /\ length (quads_at (exrun [])) = 2 /\ length (quads_at (exrun (exr 2 3 ++ exw 30 ++ exr 2 3))) = 4.
Proof. vm_compute. auto. Qed.
(** two readers that ask for a quad: the one in time says no, the other yes *)
Example ex_has : exsaid (exr 0 3 ++ exw 30 ++ exr 1 6) 0 = Some (REnd (Ok tt), false, 0, []) /\ exsaid (exr 0 3 ++ exw 30 ++ exr 1 6) 1 = Some (REnd (Ok tt), true, 0, []).
Proof. vm_compute. auto. Qed.
(** iteration that is past the first graph when the writer begins; and one in the middle of it *)
Example ex_list : exsaid (exr 3 5 ++ exw 30 ++ exr 3 6) 3 = Some (REnd (Ok tt), false, 0, [exq "g1" "a"; exq "g2" "a"; exq "g2" "b"]) /\
  exsaid (exr 3 4 ++ exw 30 ++ exr 3 6) 3 = Some (REnd (Err RuntimeError), false, 0, [exq "g1" "a"]).
Proof. vm_compute. auto. Qed.
(** the theorems apply to them *)
Lemma ex_from : forall sch, dr_run (exrun []) sch = exrun sch.
Proof. intro sch. unfold exrun. reflexivity. Qed.
Lemma ex_new : nth_error (dr_readers (exrun [])) 2 = Some (rd_new QSize).
Proof. reflexivity. Qed.
Lemma ex_at : forall sch n, exsaid sch 2 = Some (REnd (Ok tt), false, n, []) -> exists sch3 sch4, sch = sch3 ++ sch4 /\ n = length (quads_at (exrun sch3)).
Proof.
  intros sch n L. unfold exsaid in L. destruct (nth_error (dr_readers (exrun sch)) 2) as [x|] eqn:E; [|discriminate L].
  assert (X : rd_pc x = REnd (Ok tt) /\ rd_sum x = n) by (split; congruence).
  destruct (C125_len exops exadds exg exqs [] sch (exrun []) _ 2 x (Ok tt) ex_fixed eq_refl (eq_sym (ex_from _)) ex_new E (proj1 X)) as (_ & a & b & A & B). exists a, b. split; [exact A|]. rewrite <- (proj2 X), <- ex_from. exact B.
Qed.
Example ex_applies : exists sch3 sch4, exr 2 3 ++ exw 30 ++ exr 2 3 = sch3 ++ sch4 /\ 3 = length (quads_at (exrun sch3)).
Proof. exact (ex_at _ 3 (proj1 ex_len)). Qed.
Example ex_ends : 3 + length (d_names exg) * (length (ds_iter (seen_d exg)) + length (concat exadds) + 3) = 17.
Proof. vm_compute. reflexivity. Qed.

(** When somebody removes as well, len may be a number that the dataset never had. *)
Definition exops2 : list cop := [CAdd (exq "g1" "a"); CAdd (exq "g2" "a"); CRemove (exq "g1" "a")].
Definition exs2 : dsystem := d_run (mkDS d_new [dt_new exops2]) (repeat 0 90).
Definition exopss2 : list (list cop) := [[CAdd (exq "g1" "b"); CRemove (exq "g2" "a")]].
Definition exsch2 : list turn := exr 0 3 ++ exw 60 ++ exr 0 3.
Lemma prefixes : forall (P : list turn -> bool) sch, forallb (fun n => P (firstn n sch)) (List.seq 0 (Datatypes.S (length sch))) = true -> forall a b, sch = a ++ b -> P a = true.
Proof.
  intros P sch H a b ->. rewrite forallb_forall in H. specialize (H (length a)). rewrite firstn_app, firstn_all, Nat.sub_diag, app_nil_r in H. apply H. apply in_seq. rewrite app_length. lia.
Qed.
Lemma never : forall g opss qs n sch, forallb (fun k => negb (n =? length (quads_at (dr_run (dr_start g opss qs) (firstn k sch))))) (List.seq 0 (Datatypes.S (length sch))) = true ->
  forall a b, sch = a ++ b -> n <> length (quads_at (dr_run (dr_start g opss qs) a)).
Proof.
  intros g opss qs n sch X a b E. pose proof (prefixes (fun p => negb (n =? length (quads_at (dr_run (dr_start g opss qs) p)))) sch X a b E) as Y. cbv beta in Y. intro Z. rewrite <- Z, Nat.eqb_refl in Y. discriminate.
Qed.
Lemma ex_never : forallb (fun k => negb (0 =? length (quads_at (dr_run (dr_start (ds_state exs2) exopss2 [QSize]) (firstn k exsch2))))) (List.seq 0 (Datatypes.S (length exsch2))) = true.
Proof. vm_compute. reflexivity. Qed.
Lemma ex_zero : nth_error (dr_readers (dr_run (dr_start (ds_state exs2) exopss2 [QSize]) exsch2)) 0 = Some (mkRd QSize (REnd (Ok tt)) false 0 []).
Proof. vm_compute. reflexivity. Qed.
Theorem C125_len_refuted : exists ops0 sch0 s0 opss sch s x,
  of_quads ops0 /\ s0 = d_run (mkDS d_new [dt_new ops0]) sch0 /\ all_made s0 /\ (forall ops, In ops opss -> of_quads ops) /\ graphs_there ops0 opss /\
  s = dr_run (dr_start (ds_state s0) opss [QSize]) sch /\ nth_error (dr_readers s) 0 = Some x /\ rd_pc x = REnd (Ok tt) /\
  forall sch3 sch4, sch = sch3 ++ sch4 -> rd_sum x <> length (quads_at (dr_run (dr_start (ds_state s0) opss [QSize]) sch3)).
Proof.
  exists exops2, (repeat 0 90), exs2, exopss2, exsch2, (dr_run (dr_start (ds_state exs2) exopss2 [QSize]) exsch2), (mkRd QSize (REnd (Ok tt)) false 0 []).
  split; [intros q [[E|[E|[E|[]]]]|[E|[E|[E|[]]]]]; try discriminate; injection E as <-; eexists; reflexivity|]. split; [reflexivity|]. split; [apply ex_made; cbn; lia|].
  split; [intros ops [<-|[]] q [[E|[E|[]]]|[E|[E|[]]]]; try discriminate; injection E as <-; eexists; reflexivity|].
  split; [intros i j; intros; destruct i as [|[|i]], j as [|[|j]]; cbn in *; congruence|]. split; [reflexivity|]. split; [exact ex_zero|]. split; [reflexivity|]. exact (never (ds_state exs2) exopss2 [QSize] 0 exsch2 ex_never).
Qed.
Print Assumptions C125_len_refuted.

(** When somebody adds the first quad of a new graph, len and [in] with a triple may raise RuntimeError. *)
Definition exs : dsystem := d_run (mkDS d_new [dt_new exops]) (repeat 0 60).
Definition exqs3 : list dquery := [QSize; QHas (q_as_t (exq "g1" "c"))].
Definition exsch3 : list turn := exr 0 1 ++ exr 1 1 ++ exw 30 ++ exr 0 3 ++ exr 1 3.
Lemma ex_raise : dr_readers (dr_run (dr_start (ds_state exs) [map CAdd [exq "g3" "a"]] exqs3) exsch3) = map (fun q => mkRd q (REnd (Err RuntimeError)) false 0 []) exqs3.
Proof. vm_compute. reflexivity. Qed.
Theorem C125_new_graph_refuted : exists ops0 sch0 s0 adds q qs sch s x y,
  of_quads ops0 /\ s0 = d_run (mkDS d_new [dt_new ops0]) sch0 /\ all_made s0 /\ of_quads (map CAdd adds) /\ qs = [QSize; QHas q] /\
  s = dr_run (dr_start (ds_state s0) [map CAdd adds] qs) sch /\ nth_error (dr_readers s) 0 = Some x /\ nth_error (dr_readers s) 1 = Some y /\
  rd_pc x = REnd (Err RuntimeError) /\ rd_pc y = REnd (Err RuntimeError).
Proof.
  exists exops, (repeat 0 60), exs, [exq "g3" "a"], (q_as_t (exq "g1" "c")), exqs3, exsch3, (dr_run (dr_start (ds_state exs) [map CAdd [exq "g3" "a"]] exqs3) exsch3),
    (mkRd QSize (REnd (Err RuntimeError)) false 0 []), (mkRd (QHas (q_as_t (exq "g1" "c"))) (REnd (Err RuntimeError)) false 0 []).
  split; [intros p [[E|[E|[]]]|[E|[E|[]]]]; try discriminate; injection E as <-; eexists; reflexivity|]. split; [reflexivity|]. split; [apply ex_made; cbn; lia|].
  split; [intros p [[E|[]]|[E|[]]]; try discriminate; injection E as <-; eexists; reflexivity|]. split; [reflexivity|]. split; [reflexivity|]. rewrite ex_raise. repeat split.
Qed.
Print Assumptions C125_new_graph_refuted.
