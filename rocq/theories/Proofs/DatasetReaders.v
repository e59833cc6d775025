(** Threads that read a dataset to which others add (C125). *)
From Coq Require Import Lia PeanoNat.
From Verif Require Import Model.Py Model.Terms Model.Graph Model.GraphThreads Model.Dataset Model.DatasetThreads Model.DatasetReaders
  Spec.GraphSpec Spec.DatasetSpec Spec.ThreadGraphSpec Spec.ThreadDatasetSpec Spec.DReaderSpec
  Proofs.DictLemmas Proofs.GraphInv Proofs.GraphIter Proofs.GraphHist Proofs.ThreadHeap Proofs.ThreadRun Proofs.ThreadMain Proofs.ThreadTop Proofs.DatasetInv Proofs.DatasetGen Proofs.DThreadInv Proofs.DThreadRun Proofs.DThreadTop.

Definition gtri (g : dstate) (n : oterm) : list stmt := c_triples (graph_of g n).
Definition grow1 (g g' : dstate) : Prop :=
  (forall n, gtri g' n = gtri g n) \/
  exists n t, ~ In t (gtri g n) /\ gtri g' n = gtri g n ++ [t] /\ forall m, m <> n -> gtri g' m = gtri g m.
Definition grow (g g' : dstate) : Prop := forall n, exists ext, gtri g' n = gtri g n ++ ext.
Lemma grow_refl : forall g, grow g g.
Proof. intros g n. exists []. now rewrite app_nil_r. Qed.
Lemma grow_trans : forall a b c, grow a b -> grow b c -> grow a c.
Proof. intros a b c A B n. destruct (A n) as [x E]. destruct (B n) as [y F]. exists (x ++ y). now rewrite F, E, app_assoc. Qed.
Lemma grow1_grow : forall a b, grow1 a b -> grow a b.
Proof.
  intros a b [E|(n & t & _ & E & O)] m; [exists []; now rewrite app_nil_r, E|]. destruct (oterm_eq_dec m n) as [->|NE]; [now exists [t]|exists []; now rewrite app_nil_r, O].
Qed.
Lemma grow_in : forall a b n t, grow a b -> In t (gtri a n) -> In t (gtri b n).
Proof. intros a b n t G J. destruct (G n) as [x ->]. apply in_app_iff. now left. Qed.
Lemma sum_one : forall (f f' : oterm -> nat) n l, NoDup l -> (forall m, m <> n -> f' m = f m) -> f' n = f n + 1 ->
  list_sum (map f l) <= list_sum (map f' l) <= list_sum (map f l) + 1 /\ (~ In n l -> list_sum (map f' l) = list_sum (map f l)).
Proof.
  intros f f' n l ND O E. induction ND as [|m l NI ND IH]; [cbn; split; lia|]. destruct IH as [A B]. cbn [map list_sum fold_right]. fold (list_sum (map f l)). fold (list_sum (map f' l)).
  destruct (oterm_eq_dec m n) as [->|NE].
  - rewrite E, (B NI). split; [lia|]. intro X. destruct X. now left.
  - rewrite (O m NE). split; [lia|]. intro X. rewrite B; [reflexivity|]. intro J. apply X. now right.
Qed.

Definition sz (g : dstate) (ns : list oterm) : nat := list_sum (map (fun n => length (gtri g n)) ns).
Lemma sz_app : forall g a b, sz g (a ++ b) = sz g a + sz g b.
Proof. intros g a b. unfold sz. now rewrite map_app, list_sum_app. Qed.
Lemma sz_grow : forall a b ns, grow a b -> sz a ns <= sz b ns.
Proof.
  intros a b ns G. induction ns as [|n ns IH]; [reflexivity|]. unfold sz in *. cbn [map list_sum fold_right]. fold (list_sum (map (fun n => length (gtri a n)) ns)). fold (list_sum (map (fun n => length (gtri b n)) ns)).
  destruct (G n) as [x ->]. rewrite app_length. lia.
Qed.
Lemma sz_grow1 : forall a b ns, NoDup ns -> grow1 a b -> sz b ns <= sz a ns + 1.
Proof.
  intros a b ns ND [E|(n & t & _ & E & O)].
  - unfold sz. rewrite (map_ext _ (fun n => length (gtri a n))); [lia|]. intro n. now rewrite E.
  - apply (sum_one (fun n => length (gtri a n)) (fun n => length (gtri b n)) n ns ND).
    + intros m NE. now rewrite O.
    + rewrite E, app_length. reflexivity.
Qed.

Lemma nodup_left {A} : forall (a b : list A), NoDup (a ++ b) -> NoDup a.
Proof. intros a b. induction a as [|x a IH]; intro H; [constructor|]. cbn in H. inversion H as [|? ? NI ND]; subst. constructor; [|now apply IH]. intro J. apply NI. apply in_app_iff. now left. Qed.
(** ** Threads that add to graphs that are there *)
Section Add.
  Variable g0 : dstate.
  Variable addss : list (list stmt).
  Hypothesis DQ : dquiet g0.
  Hypothesis NM : forall l q, In l addss -> In q l -> exists n, st_graph q = Some n /\ nget (d_names g0) n <> None.
  Definition opss : list (list cop) := map (map CAdd) addss.
  Notation D := (d_names g0).
  Notation K := (dkeys (d_names g0)).

  Lemma all_adds : forall k op, In op (ops_of opss k) -> exists l q n, op = CAdd q /\ In l addss /\ In q l /\ st_graph q = Some n /\ nget D n <> None.
  Proof.
    intros k op J. unfold ops_of, opss in J. rewrite nth_error_map in J. destruct (nth_error addss k) as [l|] eqn:E; [|destruct J]. cbn in J. apply in_map_iff in J. destruct J as (q & <- & J).
    apply nth_error_In in E. destruct (NM l q E J) as (n & A & B). now exists l, q, n.
  Qed.
  Lemma AQ : forall k op, In op (ops_of opss k) -> gname op <> None.
  Proof. intros k op J. destruct (all_adds k op J) as (l & q & n & -> & _ & _ & E & _). unfold gname. cbn. congruence. Qed.
  Lemma A3 : forall k k' op op' n, k <> k' -> In op (ops_of opss k) -> In op' (ops_of opss k') -> gname op = Some n -> gname op' = Some n -> nget D n <> None.
  Proof. intros k k' op op' n _ J _ E _. destruct (all_adds k op J) as (l & q & m & -> & _ & _ & F & N). unfold gname in E. cbn in E. congruence. Qed.

  Record good (s : dsystem) : Prop := {
    gd_inv : dinv D (ops_of opss) s;
    gd_names : d_names (ds_state s) = D;
    gd_nodup : forall n, NoDup (gtri (ds_state s) n);
    gd_trip : forall n t, In t (gtri (ds_state s) n) -> is_triple t;
    gd_from : forall n t, In t (gtri (ds_state s) n) -> In t (gtri g0 n) \/ In t (map q_as_t (concat addss)) }.
  Lemma good_start : good (mkDS g0 (map dt_new opss)).
  Proof.
    destruct DQ as [GI QU].
    assert (ST : forall k x, nth_error (map dt_new opss) k = Some x -> exists ops, nth_error opss k = Some ops /\ x = dt_new ops).
    { intros k x E. rewrite nth_error_map in E. destruct (nth_error opss k) as [ops|]; [|discriminate]. injection E as <-. now exists ops. }
    split; cbn [ds_state ds_threads].
    - split; cbn [ds_state ds_threads].
      + exact GI.
      + intros k x op E J. apply ST in E. destruct E as (ops & E & ->). unfold ops_of. now rewrite E.
      + intros k x op i r ms E N. apply ST in E. destruct E as (ops & E & ->). discriminate.
      + intros k k' x x' op i r n j ms op' i' r' n' j' ms' _ E _ N. apply ST in E. destruct E as (ops & E & ->). discriminate.
    - reflexivity.
    - intro n. apply (q_trip _ (QU n)).
    - intros n t. apply (q_trip _ (QU n)).
    - auto.
  Qed.
  Lemma gtri_set : forall g n i u c, ginv D g -> nget (d_names g) n = Some i -> forall m, gtri (set_obj g i (u, c)) m = if oterm_eq_dec m n then c_triples c else gtri g m.
  Proof.
    intros g n i u c GI E m. unfold gtri, graph_of. cbn [set_obj d_names]. destruct (nget (d_names g) m) as [j|] eqn:EJ.
    - rewrite (obj_set g i (u, c) j) by (now apply (g_range _ _ GI n)). destruct (Nat.eq_dec j i) as [->|NE].
      + destruct (oterm_eq_dec m n) as [_|NE]; [reflexivity|]. destruct NE. exact (g_inj _ _ GI m n i EJ E).
      + destruct (oterm_eq_dec m n) as [->|_]; [congruence|reflexivity].
    - destruct (oterm_eq_dec m n) as [->|_]; [congruence|reflexivity].
  Qed.
  (** one step of a thread that adds *)
  Lemma writer_state : forall s k x, good s -> nth_error (ds_threads s) k = Some x -> let g' := fst (dt_step (ds_state s) x) in
    d_names g' = d_names (ds_state s) /\
    ((forall n, gtri g' n = gtri (ds_state s) n) \/ exists n q, In q (concat addss) /\ forall m, gtri g' m = if oterm_eq_dec m n then set_add (q_as_t q) (gtri (ds_state s) n) else gtri (ds_state s) m).
  Proof.
    intros s k [now ops out] G E. pose proof (gd_inv s G) as DI. pose proof (d_g _ _ _ DI) as GI. set (g := ds_state s) in *. unfold dt_step. cbn [dt_now dt_ops dt_out].
    destruct now as [[[[op i] r] ms]|]; [|destruct ops; (split; [reflexivity|left; reflexivity])].
    destruct (d_pos _ _ _ DI k _ op i r ms E eq_refl) as (JO & n & GN & AP). destruct (all_adds k op JO) as (l & q & n' & -> & JL & JQ & EQ & NN).
    unfold gname in GN. cbn [op_stmt] in GN. assert (n' = n) by congruence. subst n'. rewrite <- (gd_names s G) in NN. fold g in AP, NN.
    assert (IG : nget (d_names g) n <> None) by exact NN.
    assert (SAME : forall a : res (nat * nat * list dmicro), d_names g = d_names g /\ ((forall m, gtri g m = gtri g m) \/ exists n q, In q (concat addss) /\ forall m, gtri g m = if oterm_eq_dec m n then set_add (q_as_t q) (gtri g n) else gtri g m)) by (intros _; split; [reflexivity|left; reflexivity]).
    destruct AP as [|j rest DS NO JR JF|q' EO NI|q' EO NI UO|R0 NI UO|ml PL NI].
    - unfold dscript. rewrite EQ. cbn [dexec]. destruct (nget (d_names g) n) as [j|]; [|now destruct IG]. cbn [fst]. exact (SAME (Err KeyError)).
    - contradiction.
    - cbn [dexec fst]. split; [reflexivity|]. left. intro m. rewrite (gtri_set g n i n _ GI NI). destruct (oterm_eq_dec m n) as [->|_]; [|reflexivity]. unfold gtri, graph_of. now rewrite NI.
    - cbn [dexec]. rewrite NI. cbn [fst]. exact (SAME (Err KeyError)).
    - cbn [with_t script map dexec exec]. cbn [fst]. split; [reflexivity|]. right. exists n, q. split; [apply in_concat; now exists l|].
      intro m. rewrite (gtri_set g n i _ _ GI NI). cbn [c_triples]. destruct (oterm_eq_dec m n) as [->|_]; [|reflexivity]. unfold gtri, graph_of. now rewrite NI.
    - destruct ml as [|m ml]; [exact (SAME (Err KeyError))|]. cbn [map dexec]. pose proof (exec_empty (snd (obj g i)) r m (PL m (or_introl eq_refl))) as EE.
      destruct (exec (snd (obj g i)) r m) as [c [[r' ms']|e]]; cbn [fst] in *; (split; [reflexivity|]); left; intro m'; rewrite (gtri_set g n i _ _ GI NI); (destruct (oterm_eq_dec m' n) as [->|_]; [|reflexivity]); rewrite EE; unfold gtri, graph_of; now rewrite NI.
  Qed.
  Lemma good_step : forall s k, good s -> good (d_step s k) /\ grow1 (ds_state s) (ds_state (d_step s k)).
  Proof.
    intros s k G. unfold d_step. destruct (nth_error (ds_threads s) k) as [x|] eqn:E; [|split; [exact G|left; reflexivity]].
    pose proof (step_after D (ops_of opss) A3 AQ s k x (gd_inv s G) E) as AF. pose proof (writer_state s k x G E) as WS. destruct (dt_step (ds_state s) x) as [g' x']. cbn [fst] in WS. destruct AF as [D' _]. destruct WS as [NS WS].
    assert (GS : (forall n t, In t (gtri g' n) -> In t (gtri (ds_state s) n) \/ In t (map q_as_t (concat addss))) /\ (forall n, NoDup (gtri g' n)) /\ grow1 (ds_state s) g').
    { destruct WS as [EQ|(n & q & JQ & EQ)].
      - split; [intros n t; rewrite EQ; auto|]. split; [intro n; rewrite EQ; now apply gd_nodup|now left].
      - assert (JT : In (q_as_t q) (map q_as_t (concat addss))) by now apply in_map. unfold set_add in EQ. destruct (in_dec stmt_eq_dec (q_as_t q) (gtri (ds_state s) n)) as [J|NJ].
        + assert (E2 : forall m, gtri g' m = gtri (ds_state s) m) by (intro m; rewrite EQ; destruct (oterm_eq_dec m n) as [->|_]; reflexivity).
          split; [intros m t; rewrite E2; auto|]. split; [intro m; rewrite E2; now apply gd_nodup|now left].
        + split; [|split].
          * intros m t. rewrite EQ. destruct (oterm_eq_dec m n) as [->|_]; [|auto]. rewrite in_app_iff. intros [X|[<-|[]]]; auto.
          * intro m. rewrite EQ. destruct (oterm_eq_dec m n) as [->|_]; [|now apply gd_nodup]. apply NoDup_snoc; [now apply gd_nodup|exact NJ].
          * right. exists n, (q_as_t q). split; [exact NJ|]. split; [rewrite EQ; destruct (oterm_eq_dec n n) as [_|X]; [reflexivity|now destruct X]|]. intros m NE. rewrite EQ. destruct (oterm_eq_dec m n); [contradiction|reflexivity]. }
    destruct GS as (FR & ND & GR). split; [|exact GR]. split; cbn [ds_state].
    - exact D'.
    - rewrite NS. now apply gd_names.
    - exact ND.
    - intros n t J. apply FR in J. destruct J as [J|J]; [now apply (gd_trip s G n)|]. apply in_map_iff in J. destruct J as (q & <- & _). reflexivity.
    - intros n t J. apply FR in J. destruct J as [J|J]; [now apply (gd_from s G)|now right].
  Qed.

  Definition dgood (s : drsystem) : Prop := good (mkDS (dr_state s) (dr_writers s)).
  Lemma dgood_start : forall qs, dgood (dr_start g0 opss qs).
  Proof. intro qs. exact good_start. Qed.
  Lemma dgood_step : forall s x, dgood s -> dgood (dr_step s x) /\ grow1 (dr_state s) (dr_state (dr_step s x)).
  Proof.
    intros s [k|j] G; cbn [dr_step].
    - destruct (good_step _ k G) as [A B]. split; [|exact B]. unfold dgood. cbn [dr_state dr_writers]. now destruct (d_step _ k).
    - destruct (nth_error (dr_readers s) j); (split; [exact G|left; reflexivity]).
  Qed.
  Lemma dgood_run : forall sch s, dgood s -> dgood (dr_run s sch) /\ grow (dr_state s) (dr_state (dr_run s sch)).
  Proof.
    induction sch as [|x sch IH]; intros s G; [split; [exact G|apply grow_refl]|]. destruct (dgood_step s x G) as [A B]. destruct (IH _ A) as [C E]. split; [exact C|]. eapply grow_trans; [apply grow1_grow; exact B|exact E].
  Qed.
  Lemma K_nodup : NoDup K.
  Proof. destruct DQ as [GI _]. apply (g_keys _ _ GI). Qed.

  (** ** The quads of a moment *)
  Definition dhas (g : dstate) (q : stmt) : Prop := match st_graph q with Some n => In (q_as_t q) (gtri g n) | None => exists n, In n K /\ In q (gtri g n) end.
  Lemma dvals_keys : forall (d : dict oterm nat), NoDup (dkeys d) -> dvals d = map (fun n => match nget d n with Some i => i | None => 0 end) (dkeys d).
  Proof.
    intros d ND. assert (X : forall d2 : dict oterm nat, (forall n i, In (n, i) d2 -> nget d n = Some i) -> dvals d2 = map (fun n => match nget d n with Some i => i | None => 0 end) (dkeys d2)).
    { induction d2 as [|[n i] d2 IH]; intro H; [reflexivity|]. unfold dvals, dkeys in *. cbn [map fst snd]. rewrite (H n i (or_introl eq_refl)). f_equal. apply IH. intros m j J. apply H. now right. }
    apply X. intros n i J. now apply In_dget.
  Qed.
  Lemma quads_eq : forall s, dgood s -> quads_at s = concat (map (fun n => map (t_as_q n) (gtri (dr_state s) n)) K).
  Proof.
    intros s G. pose proof (gd_names _ G) as N. cbn [ds_state] in N. pose proof (d_g _ _ _ (gd_inv _ G)) as GI. cbn [ds_state] in GI. unfold quads_at, ds_iter, ds_graphs, gid. cbn [seen_d w_graphs]. rewrite N, (dvals_keys D K_nodup), map_map. f_equal.
    apply map_ext_in. intros n J. apply (In_key_dget oterm_eq_dec) in J. destruct J as [i J]. rewrite J, heap_get_seen. unfold gtri, graph_of. rewrite N, J. unfold g_iter. cbn [g_triples set_uri g_uri seen].
    destruct (g_lab _ _ GI n i) as [E|E]; [now rewrite N| |].
    - now rewrite E.
    - now rewrite E.
  Qed.
  Lemma quads_length : forall s, dgood s -> length (quads_at s) = sz (dr_state s) K.
  Proof.
    intros s G. rewrite (quads_eq s G). unfold sz. generalize K. intro ns. induction ns as [|n ns IH]; [reflexivity|]. cbn [map concat list_sum fold_right]. now rewrite app_length, map_length, IH.
  Qed.
  Lemma back_and_forth : forall n t, is_triple t -> q_as_t (t_as_q n t) = t.
  Proof. intros n [s p o g] E. unfold is_triple in E. cbn in E. now subst g. Qed.
  Lemma forth_and_back : forall n q, st_graph q = Some n -> t_as_q n (q_as_t q) = q.
  Proof. intros n [s p o g] E. cbn in E. now subst g. Qed.
  Lemma gtri_key : forall g n t, d_names g = D -> In t (gtri g n) -> In n K.
  Proof. intros g n t E J. unfold gtri, graph_of in J. rewrite E in J. destruct (nget D n) eqn:X; [|destruct J]. now apply (dget_Some_key oterm_eq_dec) in X. Qed.
  Lemma quads_in : forall s q, dgood s -> In q (quads_at s) <-> dholds (dr_state s) q.
  Proof.
    intros s q G. rewrite (quads_eq s G), in_concat. unfold dholds. fold (gtri (dr_state s)). split.
    - intros (l & J & JQ). apply in_map_iff in J. destruct J as (n & <- & JN). apply in_map_iff in JQ. destruct JQ as (t & <- & JT). cbn [t_as_q Qd st_graph]. change (In (q_as_t (t_as_q n t)) (gtri (dr_state s) n)). rewrite back_and_forth; [exact JT|]. exact (gd_trip _ G n t JT).
    - destruct (st_graph q) as [n|] eqn:E; [|intros []]. intro J. change (In (q_as_t q) (gtri (dr_state s) n)) in J. exists (map (t_as_q n) (gtri (dr_state s) n)). split.
      + apply in_map_iff. exists n. split; [reflexivity|]. apply (gtri_key _ _ _ (gd_names _ G) J).
      + apply in_map_iff. exists (q_as_t q). split; [now apply forth_and_back|exact J].
  Qed.
  Lemma quads_among : forall s q, dgood s -> among (quads_at s) q <-> dhas (dr_state s) q.
  Proof.
    intros s q G. unfold among, dhas. destruct (st_graph q) as [n|] eqn:E.
    - rewrite (quads_in s q G). unfold dholds. now rewrite E.
    - split.
      + intros (q' & J & <-). apply (quads_in s q' G) in J. unfold dholds in J. destruct (st_graph q') as [n|] eqn:E'; [|destruct J]. exists n. split; [|exact J]. apply (gtri_key _ _ _ (gd_names _ G) J).
      + intros (n & JN & J). exists (t_as_q n q). split; [|now apply back_and_forth]. apply (quads_in s _ G). unfold dholds. cbn [t_as_q Qd st_graph]. change (In (q_as_t (t_as_q n q)) (gtri (dr_state s) n)). now rewrite back_and_forth.
  Qed.
  Lemma quads_nodup : forall s, dgood s -> NoDup (quads_at s).
  Proof.
    intros s G. rewrite (quads_eq s G). pose proof K_nodup as ND. revert ND. generalize K. intros ns ND. induction ND as [|n ns NI ND IH]; [constructor|]. cbn [map concat]. apply NoDup_app_disj; [|exact IH|].
    - assert (X : forall l, NoDup l -> (forall t, In t l -> is_triple t) -> NoDup (map (t_as_q n) l)).
      { intros l NL T. induction NL as [|t l NT NL IL]; [constructor|]. cbn. constructor; [|apply IL; intros u J; apply T; now right]. intro J. apply in_map_iff in J. destruct J as (u & EU & JU). apply NT.
        rewrite <- (back_and_forth n t (T t (or_introl eq_refl))), <- EU, (back_and_forth n u (T u (or_intror JU))). exact JU. }
      apply X; [now apply (gd_nodup _ G)|now apply (gd_trip _ G)].
    - intros q J J'. apply in_map_iff in J. destruct J as (t & <- & _). apply in_concat in J'. destruct J' as (l & JL & JQ). apply in_map_iff in JL. destruct JL as (m & <- & JM). apply in_map_iff in JQ. destruct JQ as (u & EU & _). apply NI. now injection EU as _ _ _ ->.
  Qed.

  (** ** What a reader has seen *)
  Record view (g1 g : dstate) : Prop := {
    v_names1 : d_names g1 = D;
    v_names : d_names g = D;
    v_grow : grow g1 g;
    v_trip : forall n t, In t (gtri g n) -> is_triple t;
    v_nodup : forall n, NoDup (gtri g n);
    v_lab : forall n i, nget D n = Some i -> gtri g n = [] \/ fst (obj g i) = n }.
  Lemma gtri_obj : forall g n i, d_names g = D -> nget D n = Some i -> c_triples (snd (obj g i)) = gtri g n.
  Proof. intros g n i E N. unfold gtri, graph_of. now rewrite E, N. Qed.
  Definition Lok (g1 g : dstate) (vis : list oterm) (out : list stmt) : Prop :=
    NoDup out /\ (forall q, In q out -> exists n, In n vis /\ st_graph q = Some n /\ In (q_as_t q) (gtri g n)) /\
    (forall n t, In n vis -> In t (gtri g1 n) -> In (t_as_q n t) out).
  Definition JS (g1 g : dstate) (x : reader) : Prop :=
    match rd_pc x with
    | RNew => rd_sum x = 0
    | RNext used rem => used = length D /\ exists vis, K = vis ++ rem /\ sz g1 vis <= rd_sum x <= sz g vis
    | RAt used rem i => used = length D /\ exists vis n, K = vis ++ n :: rem /\ nget D n = Some i /\ sz g1 vis <= rd_sum x <= sz g vis
    | REnd r => r = Ok tt /\ sz g1 K <= rd_sum x <= sz g K
    | _ => False
    end.
  Definition JH (q : stmt) (g1 g : dstate) (x : reader) : Prop :=
    match rd_pc x with
    | RNew => rd_yes x = false
    | RGraph n => st_graph q = Some n /\ nget D n <> None
    | RTest i => exists n, st_graph q = Some n /\ nget D n = Some i
    | RNext used rem => used = length D /\ st_graph q = None /\ rd_yes x = false /\ exists vis, K = vis ++ rem /\ forall n, In n vis -> ~ In q (gtri g1 n)
    | RAt used rem i => used = length D /\ st_graph q = None /\ rd_yes x = false /\ exists vis n, K = vis ++ n :: rem /\ nget D n = Some i /\ forall n, In n vis -> ~ In q (gtri g1 n)
    | REnd r => r = Ok tt /\ (rd_yes x = true -> dhas g q) /\ (rd_yes x = false -> ~ dhas g1 q)
    | RIn _ _ _ _ _ => False
    end.
  Definition JL (g1 g : dstate) (x : reader) : Prop :=
    match rd_pc x with
    | RNew => rd_out x = []
    | RNext used rem => used = length D /\ exists vis, K = vis ++ rem /\ Lok g1 g vis (rd_out x)
    | RAt used rem i => used = length D /\ exists vis n, K = vis ++ n :: rem /\ nget D n = Some i /\ Lok g1 g vis (rd_out x)
    | RIn used rem i su srem => used = length D /\ exists vis n ext o1 given, K = vis ++ n :: rem /\ nget D n = Some i /\ gtri g n = (given ++ srem) ++ ext /\
        su = length (given ++ srem) /\ (forall t, In t (gtri g1 n) -> In t (given ++ srem)) /\ Lok g1 g vis o1 /\ rd_out x = o1 ++ map (t_as_q n) given
    | REnd (Ok _) => Lok g1 g K (rd_out x)
    | REnd (Err e) => e = RuntimeError /\ NoDup (rd_out x) /\ (forall q, In q (rd_out x) -> dholds g q) /\ exists q, dholds g q /\ ~ dholds g1 q
    | _ => False
    end.
  Definition J (g1 g : dstate) (x : reader) : Prop := match rd_query x with QHas q => JH q g1 g x | QSize => JS g1 g x | QList => JL g1 g x end.

  Lemma dhas_grow : forall a b q, grow a b -> dhas a q -> dhas b q.
  Proof. intros a b q G H. unfold dhas in *. destruct (st_graph q) as [n|]; [now apply (grow_in a)|]. destruct H as (n & A & B). exists n. split; [exact A|now apply (grow_in a)]. Qed.
  Lemma dholds_grow : forall a b q, grow a b -> dholds a q -> dholds b q.
  Proof. intros a b q G H. unfold dholds in *. destruct (st_graph q) as [n|]; [|destruct H]. now apply (grow_in a). Qed.
  Lemma Lok_grow : forall g1 g g' vis out, grow g g' -> Lok g1 g vis out -> Lok g1 g' vis out.
  Proof. intros g1 g g' vis out G (A & B & C). split; [exact A|]. split; [|exact C]. intros q JQ. destruct (B q JQ) as (n & X & Y & Z). exists n. split; [exact X|]. split; [exact Y|now apply (grow_in g)]. Qed.
  Lemma J_grow : forall g1 g g' x, grow g g' -> J g1 g x -> J g1 g' x.
  Proof.
    intros g1 g g' x G H. unfold J in *. destruct (rd_query x) as [q| |].
    - unfold JH in *. destruct (rd_pc x); try exact H. destruct H as (A & B & C). split; [exact A|]. split; [|exact C]. intro Y. apply (dhas_grow g); auto.
    - unfold JS in *. destruct (rd_pc x); try exact H.
      + destruct H as (A & vis & B & C). split; [exact A|]. exists vis. split; [exact B|]. pose proof (sz_grow g g' vis G). lia.
      + destruct H as (A & vis & n & B & N & C). split; [exact A|]. exists vis, n. split; [exact B|]. split; [exact N|]. pose proof (sz_grow g g' vis G). lia.
      + destruct H as (A & B). split; [exact A|]. pose proof (sz_grow g g' K G). lia.
    - unfold JL in *. destruct (rd_pc x) as [| | | | | |[u|e]]; try exact H.
      + destruct H as (A & vis & B & C). split; [exact A|]. exists vis. split; [exact B|]. now apply (Lok_grow g1 g).
      + destruct H as (A & vis & n & B & N & C). split; [exact A|]. exists vis, n. split; [exact B|]. split; [exact N|]. now apply (Lok_grow g1 g).
      + destruct H as (A & vis & n & ext & o1 & given & B & N & T & S1 & S2 & L & O). split; [exact A|]. destruct (G n) as [e' E']. exists vis, n, (ext ++ e'), o1, given. repeat split; try assumption.
        * rewrite E', T. now rewrite <- app_assoc.
        * apply (Lok_grow g1 g g' vis o1 G L).
        * apply (Lok_grow g1 g g' vis o1 G L).
        * apply (Lok_grow g1 g g' vis o1 G L).
      + now apply (Lok_grow g1 g).
      + destruct H as (A & B & C & q & Q1 & Q2). split; [exact A|]. split; [exact B|]. split; [intros q' J'; apply (dholds_grow g); auto|]. exists q. split; [now apply (dholds_grow g)|exact Q2].
  Qed.
  Lemma key_of : forall vis n rem, K = vis ++ n :: rem -> exists i, nget D n = Some i.
  Proof. intros vis n rem E. apply (In_key_dget oterm_eq_dec). rewrite E. apply in_elt. Qed.
  Lemma answer_spec : forall t l, answer_in t l = true <-> In t l.
  Proof. intros t l. unfold answer_in. destruct (in_dec stmt_eq_dec t l); split; intro; (assumption || reflexivity || discriminate || contradiction). Qed.
  Lemma J_step : forall g1 g x, view g1 g -> J g1 g x -> J g1 g (rd_step g x).
  Proof.
    intros g1 g [qu pc yes sum out] V H. destruct V as [N1 NN GR TR ND LA]. unfold J in *. unfold rd_step. rewrite NN. cbn [rd_pc rd_query] in *. destruct qu as [q| |].
    - unfold JH in H. cbn [rd_pc rd_yes] in H. destruct pc as [|n|i|used rem|used rem i|used rem i su srem|r]; cbn [rd_query rd_pc rd_yes rd_sum rd_out].
      + subst yes. destruct (st_graph q) as [n|] eqn:E.
        * cbn [at_pc rd_query]. unfold JH. cbn [at_pc rd_pc rd_yes]. unfold dmem. destruct (dget oterm_eq_dec D n) as [i|] eqn:EN.
          -- split; [exact E|]. intro X. change (dget oterm_eq_dec D n = None) in X. congruence.
          -- split; [reflexivity|]. split; [discriminate|]. intros _ X. unfold dhas in X. rewrite E in X. unfold gtri, graph_of in X. rewrite N1 in X. destruct (nget D n) eqn:EN2 in X; [|exact X]. unfold gid in *. congruence.
        * cbn [at_pc rd_query]. unfold JH. cbn [at_pc rd_pc rd_yes]. split; [reflexivity|]. split; [exact E|]. split; [reflexivity|]. exists []. split; [reflexivity|]. intros n [].
      + destruct H as [A B]. cbn [at_pc rd_query]. unfold JH. cbn [at_pc rd_pc rd_yes]. destruct (nget D n) as [i|] eqn:E; [|now destruct B]. now exists n.
      + destruct H as (n & A & B). unfold JH. cbn [rd_pc rd_yes]. rewrite (gtri_obj g n i NN B). split; [reflexivity|]. unfold dhas. rewrite A. split.
        * intro X. now apply answer_spec.
        * intros X Y. apply (grow_in g1 g) in Y; [|exact GR]. apply answer_spec in Y. congruence.
      + destruct H as (-> & A & -> & vis & B & C). rewrite Nat.eqb_refl. cbn [at_pc rd_query]. unfold JH. cbn [at_pc rd_pc rd_yes]. destruct rem as [|n rem].
        * split; [reflexivity|]. split; [discriminate|]. intros _ X. unfold dhas in X. rewrite A in X. destruct X as (n & X & Y). rewrite app_nil_r in B. rewrite B in X. exact (C n X Y).
        * destruct (key_of _ _ _ B) as [i E]. rewrite E. split; [reflexivity|]. split; [exact A|]. split; [reflexivity|]. now exists vis, n.
      + destruct H as (-> & A & -> & vis & n & B & E & C). rewrite (gtri_obj g n i NN E). destruct (answer_in q (gtri g n)) eqn:AN.
        * unfold JH. cbn [rd_pc rd_yes rd_query]. split; [reflexivity|]. split; [|discriminate]. intros _. unfold dhas. rewrite A. exists n. split; [rewrite B; apply in_elt|]. now apply answer_spec.
        * cbn [at_pc rd_query]. unfold JH. cbn [at_pc rd_pc rd_yes]. split; [reflexivity|]. split; [exact A|]. split; [reflexivity|]. exists (vis ++ [n]). split; [rewrite <- app_assoc; exact B|].
          intros m JM. apply in_app_iff in JM. destruct JM as [JM|[<-|[]]]; [now apply C|]. intro Y. apply (grow_in g1 g) in Y; [|exact GR]. apply answer_spec in Y. congruence.
      + destruct H.
      + exact H.
    - unfold JS in H. cbn [rd_pc rd_sum] in H. destruct pc as [|n|i|used rem|used rem i|used rem i su srem|r]; cbn [rd_query rd_pc rd_yes rd_sum rd_out at_pc]; try (now destruct H).
      + unfold JS. cbn. split; [reflexivity|]. exists []. split; [reflexivity|]. subst sum. cbn. lia.
      + destruct H as (-> & vis & B & C). rewrite Nat.eqb_refl. unfold JS. cbn [rd_pc rd_sum]. destruct rem as [|n rem].
        * rewrite app_nil_r in B. split; [reflexivity|]. now rewrite B.
        * destruct (key_of _ _ _ B) as [i E]. rewrite E. split; [reflexivity|]. now exists vis, n.
      + destruct H as (-> & vis & n & B & E & C). rewrite (gtri_obj g n i NN E). unfold JS. cbn [rd_pc rd_sum]. split; [reflexivity|]. exists (vis ++ [n]). split; [rewrite <- app_assoc; exact B|].
        rewrite !sz_app. unfold sz at 2 4. cbn [map list_sum fold_right]. destruct (GR n) as [ex ->]. rewrite app_length. lia.
    - unfold JL in H. cbn [rd_pc rd_out] in H. destruct pc as [|n|i|used rem|used rem i|used rem i su srem|r]; cbn [rd_query rd_pc rd_yes rd_sum rd_out at_pc]; try (now destruct H).
      + subst out. unfold JL. cbn [rd_pc rd_out]. split; [reflexivity|]. exists []. split; [reflexivity|]. split; [constructor|]. split; [intros q []|intros n t []].
      + destruct H as (-> & vis & B & C). rewrite Nat.eqb_refl. unfold JL. cbn [rd_pc rd_out]. destruct rem as [|n rem].
        * rewrite app_nil_r in B. now rewrite B.
        * destruct (key_of _ _ _ B) as [i E]. rewrite E. split; [reflexivity|]. now exists vis, n.
      + destruct H as (-> & vis & n & B & E & C). rewrite (gtri_obj g n i NN E). unfold JL. cbn [rd_pc rd_out]. split; [reflexivity|]. exists vis, n, [], out, []. cbn [app map]. rewrite !app_nil_r. repeat split; try assumption; try apply C.
        intros t JT. now apply (grow_in g1 g).
      + destruct H as (-> & vis & n & ext & o1 & given & B & E & T & SU & S2 & L & O).
        assert (NV : ~ In n vis). { pose proof K_nodup as NK. rewrite B in NK. apply NoDup_remove_2 in NK. intro X. apply NK. apply in_app_iff. now left. }
        rewrite (gtri_obj g n i NN E).
        assert (OUT : NoDup out /\ forall q, In q out -> exists m, (In m vis \/ m = n) /\ st_graph q = Some m /\ In (q_as_t q) (gtri g m)).
        { subst out. destruct L as (L1 & L2 & L3). split.
          - apply NoDup_app_disj; [exact L1| |].
            + assert (NG : NoDup given). { specialize (ND n). rewrite T in ND. now apply nodup_left, nodup_left in ND. }
              assert (TG : forall t, In t given -> is_triple t) by (intros t JT; apply (TR n); rewrite T; apply in_app_iff; left; apply in_app_iff; now left).
              clear - NG TG. induction NG as [|t l NT NL IL]; [constructor|]. cbn. constructor; [|apply IL; intros u J'; apply TG; now right]. intro J'. apply in_map_iff in J'. destruct J' as (u & EU & JU). apply NT.
              rewrite <- (back_and_forth n t (TG t (or_introl eq_refl))), <- EU, (back_and_forth n u (TG u (or_intror JU))). exact JU.
            + intros q J1 J2. apply L2 in J1. destruct J1 as (m & X & Y & _). apply in_map_iff in J2. destruct J2 as (t & <- & _). cbn in Y. injection Y as <-. contradiction.
          - intros q JQ. apply in_app_iff in JQ. destruct JQ as [JQ|JQ].
            + destruct (L2 q JQ) as (m & X & Y & Z). exists m. auto.
            + apply in_map_iff in JQ. destruct JQ as (t & <- & JT). exists n. split; [now right|]. split; [reflexivity|]. assert (X : In t (gtri g n)) by (rewrite T; apply in_app_iff; left; apply in_app_iff; now left). rewrite back_and_forth; [exact X|now apply (TR n)]. }
        destruct (Nat.eqb_spec (length (gtri g n)) su) as [ES|NS].
        * destruct srem as [|t srem].
          -- unfold JL. cbn [rd_pc rd_out]. split; [reflexivity|]. exists (vis ++ [n]). split; [rewrite <- app_assoc; exact B|]. split; [apply OUT|]. split.
             ++ intros q JQ. destruct (proj2 OUT q JQ) as (m & X & Y). exists m. split; [|exact Y]. apply in_app_iff. destruct X as [X| ->]; [now left|right; now left].
             ++ intros m t JM JT. subst out. apply in_app_iff. apply in_app_iff in JM. destruct JM as [JM|[<-|[]]]; [left; now apply L|]. right. apply in_map. rewrite app_nil_r in S2. now apply S2.
          -- unfold JL. cbn [rd_pc rd_out]. split; [reflexivity|]. exists vis, n, ext, o1, (given ++ [t]). rewrite <- (app_assoc given [t] srem). cbn [app]. repeat split; try assumption; try apply L.
             rewrite map_app, app_assoc, <- O. cbn [map]. destruct (LA n i E) as [X|X]; [rewrite T in X; destruct given; discriminate|]. now rewrite X.
        * unfold JL. cbn [rd_pc rd_out]. split; [reflexivity|]. split; [|split].
          -- apply OUT.
          -- intros q JQ. destruct (proj2 OUT q JQ) as (m & _ & Y & Z). unfold dholds. now rewrite Y.
          -- destruct ext as [|t ext]; [rewrite app_nil_r in T; rewrite T in NS; congruence|]. exists (t_as_q n t). assert (X : In t (gtri g n)) by (rewrite T; apply in_elt). unfold dholds. cbn [t_as_q Qd st_graph]. change (q_as_t (Qd (st_s t) (st_p t) (st_o t) n)) with (q_as_t (t_as_q n t)). rewrite (back_and_forth n t (TR n t X)). split; [exact X|].
             change (~ In t (gtri g1 n)). intro Y. apply S2 in Y. specialize (ND n). rewrite T in ND. clear - ND Y. apply NoDup_remove_2 in ND. apply ND. apply in_app_iff. now left.
      + exact H.
  Qed.
  Lemma view_of : forall s1 s, dgood s1 -> dgood s -> grow (dr_state s1) (dr_state s) -> view (dr_state s1) (dr_state s).
  Proof.
    intros s1 s G1 G GR. split.
    - exact (gd_names _ G1).
    - exact (gd_names _ G).
    - exact GR.
    - exact (gd_trip _ G).
    - exact (gd_nodup _ G).
    - intros n i E. pose proof (d_g _ _ _ (gd_inv _ G)) as GI. pose proof (gd_names _ G) as N. cbn [ds_state] in *. rewrite <- N in E. destruct (g_lab _ _ GI n i E) as [X|X]; [left|now right]. unfold gtri, graph_of. now rewrite E.
  Qed.
  Lemma set_nth_at : forall (A : Type) (l : list A) i j (y x : A), nth_error (set_nth l i y) j = Some x -> (i = j /\ x = y) \/ (i <> j /\ nth_error l j = Some x).
  Proof.
    intros A l i j y x. revert i j. induction l as [|a l IH]; intros i j E; [destruct i, j; discriminate|]. destruct i as [|i], j as [|j]; cbn in E |- *.
    - left. split; congruence.
    - right. split; [discriminate|exact E].
    - right. split; [discriminate|exact E].
    - destruct (IH i j E) as [[-> ->]|[N F]]; [now left|right; split; [congruence|exact F]].
  Qed.
  Lemma step_J : forall s1 s u j x', dgood s1 -> dgood s -> grow (dr_state s1) (dr_state s) -> (forall x, nth_error (dr_readers s) j = Some x -> J (dr_state s1) (dr_state s) x) ->
    nth_error (dr_readers (dr_step s u)) j = Some x' -> J (dr_state s1) (dr_state (dr_step s u)) x'.
  Proof.
    intros s1 s [k|i] j x' G1 G GR H E.
    - destruct (dgood_step s (Writer k) G) as [_ B]. apply (J_grow _ (dr_state s)); [now apply grow1_grow|]. now apply H.
    - cbn [dr_step] in *. destruct (nth_error (dr_readers s) i) as [x|] eqn:EI; [|now apply H]. cbn [dr_readers dr_state] in *. apply set_nth_at in E. destruct E as [[-> ->]|[_ E]]; [|now apply H]. apply J_step; [now apply view_of|now apply H].
  Qed.
  Lemma run_J : forall sch s1 s j, dgood s1 -> dgood s -> grow (dr_state s1) (dr_state s) -> (forall x, nth_error (dr_readers s) j = Some x -> J (dr_state s1) (dr_state s) x) ->
    forall x, nth_error (dr_readers (dr_run s sch)) j = Some x -> J (dr_state s1) (dr_state (dr_run s sch)) x.
  Proof.
    induction sch as [|u sch IH]; intros s1 s j G1 G GR H; [exact H|]. cbn [dr_run fold_left]. fold (dr_run (dr_step s u) sch). destruct (dgood_step s u G) as [A B]. apply IH; [exact G1|exact A| |].
    - eapply grow_trans; [exact GR|]. now apply grow1_grow.
    - intros x E. now apply (step_J s1 s u j).
  Qed.
  Lemma J_new : forall g1 g q, J g1 g (rd_new q).
  Proof. intros g1 g [q| |]; reflexivity. Qed.
  Lemma step_query : forall g x, rd_query (rd_step g x) = rd_query x.
  Proof.
    intros g [qu pc yes sum out]. unfold rd_step. cbn [rd_query rd_pc]. destruct pc as [|n|i|used rem|used rem i|used rem i su srem|r]; try reflexivity.
    - destruct qu as [q| |]; [destruct (st_graph q)| |]; reflexivity.
    - destruct qu; reflexivity.
    - destruct qu as [q| |]; [destruct (answer_in _ _)| |]; reflexivity.
    - destruct (_ =? su); [|reflexivity]. destruct srem; reflexivity.
  Qed.
  Lemma query_kept : forall sch s j x, nth_error (dr_readers s) j = Some x -> exists x', nth_error (dr_readers (dr_run s sch)) j = Some x' /\ rd_query x' = rd_query x.
  Proof.
    induction sch as [|u sch IH]; intros s j x E; [now exists x|]. cbn [dr_run fold_left]. fold (dr_run (dr_step s u) sch).
    assert (X : exists x', nth_error (dr_readers (dr_step s u)) j = Some x' /\ rd_query x' = rd_query x).
    { destruct u as [k|i]; [now exists x|]. cbn [dr_step]. destruct (nth_error (dr_readers s) i) as [y|] eqn:EI; [|now exists x]. cbn [dr_readers]. destruct (Nat.eq_dec i j) as [->|NE].
      - rewrite E in EI. injection EI as <-. exists (rd_step (dr_state s) x). split.
        + assert (L : j < length (dr_readers s)) by (apply nth_error_Some; congruence). clear - L. revert j L. generalize (dr_readers s). intro l. induction l as [|a l IH]; intros j L; [cbn in L; lia|]. destruct j as [|j]; [reflexivity|]. cbn in *. apply IH. lia.
        + apply step_query.
      - exists x. split; [|reflexivity]. clear - E NE. revert i j E NE. generalize (dr_readers s). intro l. induction l as [|a l IH]; intros i j E NE; [destruct j; discriminate|]. destruct i as [|i], j as [|j]; cbn in *; try congruence. apply IH; congruence. }
    destruct X as (x1 & E1 & Q1). destruct (IH _ _ _ E1) as (x2 & E2 & Q2). exists x2. split; [exact E2|congruence].
  Qed.

  (** ** The answers *)
  Lemma moment_of_size : forall sch s v, dgood s -> sz (dr_state s) K <= v <= sz (dr_state (dr_run s sch)) K -> exists a b, sch = a ++ b /\ length (quads_at (dr_run s a)) = v.
  Proof.
    induction sch as [|u sch IH]; intros s v G B.
    - exists [], []. split; [reflexivity|]. cbn [dr_run fold_left] in *. rewrite quads_length by exact G. lia.
    - destruct (Nat.eq_dec (sz (dr_state s) K) v) as [E|NE].
      + exists [], (u :: sch). split; [reflexivity|]. cbn [dr_run fold_left]. now rewrite quads_length.
      + destruct (dgood_step s u G) as [A S1]. pose proof (sz_grow1 _ _ K K_nodup S1). cbn [dr_run fold_left] in B. fold (dr_run (dr_step s u) sch) in B. destruct (IH (dr_step s u) v A) as (a & b & -> & E); [lia|]. exists (u :: a), b. now split.
  Qed.
  Section Answer.
    Variables (qs : list dquery) (sch1 sch2 : list turn) (j : nat) (query : dquery) (x : reader) (r : res unit).
    Notation s1 := (dr_run (dr_start g0 opss qs) sch1).
    Notation s := (dr_run s1 sch2).
    Hypothesis E1 : nth_error (dr_readers s1) j = Some (rd_new query).
    Hypothesis E2 : nth_error (dr_readers s) j = Some x.
    Hypothesis ER : rd_pc x = REnd r.
    Lemma dgood_1 : dgood s1.
    Proof. apply dgood_run, dgood_start. Qed.
    Lemma dgood_2 : dgood s.
    Proof. apply dgood_run, dgood_1. Qed.
    Lemma J_end : rd_query x = query /\ J (dr_state s1) (dr_state s) x.
    Proof.
      split; [destruct (query_kept sch2 _ _ _ E1) as (x' & X & Y); rewrite E2 in X; injection X as <-; exact Y|].
      apply (run_J sch2 s1 s1 j dgood_1 dgood_1 (grow_refl _)); [|exact E2]. intros y Y. rewrite E1 in Y. injection Y as <-. apply J_new.
    Qed.
    Lemma has_answer : forall q, query = QHas q -> r = Ok tt /\ exists a b, sch2 = a ++ b /\ (rd_yes x = true <-> among (quads_at (dr_run s1 a)) q).
    Proof.
      intros q EQ. destruct J_end as [Q H]. unfold J in H. rewrite Q, EQ in H. unfold JH in H. rewrite ER in H. destruct H as (A & B & C). split; [exact A|]. destruct (rd_yes x).
      - exists sch2, []. split; [now rewrite app_nil_r|]. rewrite (quads_among _ q dgood_2). split; [intros _; now apply B|reflexivity].
      - exists [], sch2. split; [reflexivity|]. change (dr_run s1 []) with s1. rewrite (quads_among _ q dgood_1). split; [discriminate|]. intro X. now destruct (C eq_refl).
    Qed.
    Lemma size_answer : query = QSize -> r = Ok tt /\ exists a b, sch2 = a ++ b /\ rd_sum x = length (quads_at (dr_run s1 a)).
    Proof.
      intro EQ. destruct J_end as [Q H]. unfold J in H. rewrite Q, EQ in H. unfold JS in H. rewrite ER in H. destruct H as (A & B). split; [exact A|]. destruct (moment_of_size sch2 s1 (rd_sum x) dgood_1 B) as (a & b & X & Y). exists a, b. split; [exact X|now symmetry].
    Qed.
    Lemma list_answer : query = QList ->
      NoDup (rd_out x) /\ (forall q, In q (rd_out x) -> In q (quads_at s)) /\
      match r with
      | Ok _ => forall q, In q (quads_at s1) -> In q (rd_out x)
      | Err e => e = RuntimeError /\ exists q, In q (quads_at s) /\ ~ In q (quads_at s1)
      end.
    Proof.
      intro EQ. destruct J_end as [Q H]. unfold J in H. rewrite Q, EQ in H. unfold JL in H. rewrite ER in H. destruct r as [u|e].
      - destruct H as (A & B & C). split; [exact A|]. split.
        + intros q JQ. destruct (B q JQ) as (n & _ & X & Y). apply (quads_in _ q dgood_2). unfold dholds. now rewrite X.
        + intros q JQ. apply (quads_in _ q dgood_1) in JQ. unfold dholds in JQ. destruct (st_graph q) as [n|] eqn:E; [|destruct JQ]. rewrite <- (forth_and_back n q E). apply C; [|exact JQ]. apply (gtri_key _ _ _ (gd_names _ dgood_1) JQ).
      - destruct H as (A & B & C & q & X & Y). split; [exact B|]. split; [intros p JP; apply (quads_in _ p dgood_2); now apply C|]. split; [exact A|]. exists q. split; [now apply (quads_in _ q dgood_2)|]. intro Z. apply Y. now apply (quads_in _ q dgood_1).
    Qed.
  End Answer.

  (** ** Every reader comes to an end *)
  Definition most : nat := sz g0 K + length (concat addss).
  Definition left (x : reader) : nat :=
    match rd_pc x with
    | RNew => 3 + length K * (most + 3)
    | RGraph _ => 2
    | RTest _ => 1
    | RNext _ rem => 1 + length rem * (most + 3)
    | RAt _ rem _ => 1 + length rem * (most + 3) + most + 2
    | RIn _ rem _ _ srem => 1 + length rem * (most + 3) + length srem + 1
    | REnd _ => 0
    end.
  Lemma sz_in : forall g n l, In n l -> length (gtri g n) <= sz g l.
  Proof. intros g n l JN. apply in_split in JN. destruct JN as (a & b & ->). rewrite sz_app. unfold sz at 2. cbn [map list_sum fold_right]. lia. Qed.
  Lemma gtri_most : forall s n, dgood s -> In n K -> length (gtri (dr_state s) n) <= most.
  Proof.
    intros s n G JN. unfold most. pose proof (sz_in g0 n K JN). assert (X : length (gtri (dr_state s) n) <= length (gtri g0 n ++ map q_as_t (concat addss))); [|rewrite app_length, map_length in X; lia].
    apply NoDup_incl_length; [exact (gd_nodup _ G n)|]. intros t JT. apply in_app_iff. exact (gd_from _ G n t JT).
  Qed.
  Lemma left_step : forall s x g1, dgood s -> J g1 (dr_state s) x -> left (rd_step (dr_state s) x) <= left x - 1.
  Proof.
    intros s [qu pc yes sum out] g1 G H. pose proof (gd_names _ G) as NN. cbn [ds_state] in NN. unfold rd_step. rewrite NN. cbn [rd_pc rd_query] in *. destruct pc as [|n|i|used rem|used rem i|used rem i su srem|r].
    - destruct qu as [q| |]; [|cbn; lia|cbn; lia]. destruct (st_graph q); [|cbn; lia]. unfold at_pc, left. cbn [rd_pc]. destruct (dmem oterm_eq_dec D o); lia.
    - cbn. destruct (nget D n); cbn; lia.
    - destruct qu; cbn; try lia; now destruct H.
    - cbn. destruct (_ =? used); [|cbn; lia]. destruct rem as [|n rem]; [cbn; lia|]. destruct (nget D n); cbn; lia.
    - assert (X : exists n, In n K /\ nget D n = Some i). { destruct qu; cbn in H; [destruct H as (_ & _ & _ & vis & n & A & B & _)|destruct H as (_ & vis & n & A & B & _)|destruct H as (_ & vis & n & A & B & _)]; (exists n; split; [rewrite A; apply in_elt|exact B]). }
      destruct X as (n & A & B). rewrite (gtri_obj _ n i NN B). pose proof (gtri_most s n G A). destruct qu as [q| |]; [destruct (answer_in _ _)| |]; unfold left; cbn [at_pc rd_pc]; lia.
    - destruct (_ =? su); [|cbn; lia]. destruct srem; cbn; lia.
    - cbn. lia.
  Qed.
  Lemma left_turns : forall sch s1 s j, dgood s1 -> dgood s -> grow (dr_state s1) (dr_state s) -> (forall x, nth_error (dr_readers s) j = Some x -> J (dr_state s1) (dr_state s) x) ->
    forall b, (forall x, nth_error (dr_readers s) j = Some x -> left x <= b) -> forall x, nth_error (dr_readers (dr_run s sch)) j = Some x -> left x <= b - turns j sch.
  Proof.
    induction sch as [|u sch IH]; intros s1 s j G1 G GR H b B x E.
    - cbn in *. specialize (B x E). unfold turns. cbn. lia.
    - cbn [dr_run fold_left] in E. fold (dr_run (dr_step s u) sch) in E. destruct (dgood_step s u G) as [A S1].
      assert (GR' : grow (dr_state s1) (dr_state (dr_step s u))) by (eapply grow_trans; [exact GR|now apply grow1_grow]).
      assert (H' : forall x, nth_error (dr_readers (dr_step s u)) j = Some x -> J (dr_state s1) (dr_state (dr_step s u)) x) by (intros y Y; now apply (step_J s1 s u j)).
      destruct u as [k|i].
      + exact (IH s1 _ j G1 A GR' H' b B x E).
      + unfold turns. cbn [filter]. destruct (Nat.eqb_spec i j) as [->|NE].
        * cbn [length]. fold (turns j sch). enough (left x <= (b - 1) - turns j sch) by lia. apply (IH s1 _ j G1 A GR' H'); [|exact E]. intros y Y. cbn [dr_step] in Y. destruct (nth_error (dr_readers s) j) as [z|] eqn:EZ; [|congruence]. cbn [dr_readers] in Y. apply set_nth_at in Y. destruct Y as [[_ ->]|[X _]]; [|now destruct X].
          pose proof (left_step s z (dr_state s1) G (H z eq_refl)). specialize (B z eq_refl). lia.
        * fold (turns j sch). apply (IH s1 _ j G1 A GR' H'); [|exact E]. intros y Y. cbn [dr_step] in Y. destruct (nth_error (dr_readers s) i) as [z|] eqn:EZ; [|now apply B]. cbn [dr_readers] in Y. apply set_nth_at in Y. destruct Y as [[X _]|[_ Y]]; [contradiction|now apply B].
  Qed.
  Lemma ends : forall qs sch j x, 3 + length K * (most + 3) <= turns j sch -> nth_error (dr_readers (dr_run (dr_start g0 opss qs) sch)) j = Some x -> exists r, rd_pc x = REnd r.
  Proof.
    intros qs sch j x T E.
    assert (NEW : forall y, nth_error (dr_readers (dr_start g0 opss qs)) j = Some y -> exists q, y = rd_new q).
    { intros y Y. cbn [dr_start dr_readers] in Y. rewrite nth_error_map in Y. destruct (nth_error qs j) as [q|]; [|discriminate]. injection Y as <-. now exists q. }
    pose proof (left_turns sch (dr_start g0 opss qs) (dr_start g0 opss qs) j (dgood_start qs) (dgood_start qs) (grow_refl _)) as L.
    assert (L0 : left x <= 0).
    { enough (left x <= (3 + length K * (most + 3)) - turns j sch) by lia. apply L; [| |exact E].
      - intros y Y. destruct (NEW y Y) as [q ->]. apply J_new.
      - intros y Y. destruct (NEW y Y) as [q ->]. unfold left. cbn [rd_new rd_pc]. lia. }
    unfold left in L0. destruct (rd_pc x); try lia. now exists r.
  Qed.
End Add.

Lemma fixed : forall ops0 addss g, fixed_graphs ops0 addss g -> dquiet g /\ forall l q, In l addss -> In q l -> exists n, st_graph q = Some n /\ nget (d_names g) n <> None.
Proof.
  intros ops0 addss g (OQ & (sch & s & E & AM & ->) & H). destruct (d_one ops0 sch s OQ E AM) as (DQ & NM & _). split; [exact DQ|]. intros l q JL JQ. destruct (H l q JL JQ) as [IQ (q0 & JO & EQ)].
  destruct (st_graph q) as [n|] eqn:EN; [|unfold is_quad in IQ; try (destruct IQ as [? IQ]); congruence]. exists n. split; [reflexivity|]. destruct JO as [JO|JO]; apply (NM _ n JO); exact EQ.
Qed.
Lemma silent : forall sch s, mkDS (dr_state (dr_run s sch)) (dr_writers (dr_run s sch)) = d_run (mkDS (dr_state s) (dr_writers s)) (writers_of sch).
Proof.
  induction sch as [|u sch IH]; intro s; [reflexivity|]. cbn [dr_run fold_left]. fold (dr_run (dr_step s u) sch). rewrite IH. destruct u as [k|j].
  - cbn [writers_of flat_map app dr_step dr_state dr_writers]. cbn [d_run fold_left]. now destruct (d_step _ k).
  - cbn [writers_of flat_map app dr_step]. now destruct (nth_error (dr_readers s) j).
Qed.
