(** Threads in one Dataset: the statements of Properties/DatasetThreadProps.v. *)
From Verif Require Import Model.Py Model.Terms Model.Graph Model.GraphThreads Model.Dataset Model.DatasetThreads Spec.GraphSpec Spec.DatasetSpec Spec.ThreadGraphSpec Spec.ThreadDatasetSpec
  Proofs.DictLemmas Proofs.GraphInv Proofs.GraphHist Proofs.ThreadHeap Proofs.ThreadRun Proofs.ThreadMain Proofs.ThreadTop Proofs.DatasetInv Proofs.DatasetGen Proofs.DThreadInv Proofs.DThreadRun.
From Coq Require Import Lia PeanoNat.

(** ** A dataset that no thread is working on *)
Definition dquiet (g : dstate) : Prop := ginv (d_names g) g /\ forall n, quiet (graph_of g n).
Definition dholds (g : dstate) (q : stmt) : Prop := match st_graph q with Some n => In (q_as_t q) (c_triples (graph_of g n)) | None => False end.
Lemma dquiet_new : dquiet d_new.
Proof.
  split; [|intro n; exact quiet_new]. split; cbn; try discriminate; auto.
  - constructor.
  - intro j. right. unfold obj. cbn. now destruct j.
Qed.
Lemma heap_get_seen : forall g i, heap_get (seen_d g) i = set_uri (seen (snd (obj g i))) (fst (obj g i)).
Proof.
  intros g i. exact (map_nth (fun x => set_uri (seen (snd x)) (fst x)) (d_objs g) o_new i).
Qed.
Lemma holds_seen : forall g q, holds (seen_d g) q <-> dholds g q.
Proof.
  intros g q. unfold holds, dholds, graph_of, gid. destruct (st_graph q) as [n|]; [|tauto]. cbn [seen_d w_graphs]. destruct (nget (d_names g) n) as [i|]; [|split; intros []]. rewrite heap_get_seen. reflexivity.
Qed.
Lemma vals_nodup : forall d : dict oterm nat, NoDup (dkeys d) -> (forall n m i, nget d n = Some i -> nget d m = Some i -> n = m) -> NoDup (dvals d).
Proof.
  intros d K IJ. assert (P : forall n i, In (n, i) d -> nget d n = Some i) by (intros n i J; now apply In_dget).
  assert (IJ' : forall n m i, In (n, i) d -> In (m, i) d -> n = m) by (intros n m i A B; apply (IJ n m i); now apply P). clear IJ P. unfold dkeys, dvals in *. induction d as [|[n i] d IH]; [constructor|].
  cbn [map fst snd] in *. apply NoDup_cons_iff in K. destruct K as [K1 K2]. apply NoDup_cons_iff. split.
  - intro J. apply in_map_iff in J. destruct J as ([m i'] & E & J). cbn in E. subst i'. apply K1. rewrite (IJ' n m i (or_introl eq_refl) (or_intror J)). change m with (fst (m, i)). now apply in_map.
  - apply IH; [exact K2|]. intros a b j A B. exact (IJ' a b j (or_intror A) (or_intror B)).
Qed.
Lemma dquiet_dwf : forall g, dquiet g -> dwf (seen_d g).
Proof.
  intros g [[K IJ R RE KE LA] Q]. split; cbn [seen_d w_graphs w_heap].
  - intro i. rewrite heap_get_seen. apply set_uri_wf, quiet_wf. destruct (RE i) as [(n & E)|E]; [|rewrite E; exact quiet_new]. specialize (Q n). unfold graph_of in Q. now rewrite E in Q.
  - exact K.
  - now apply vals_nodup.
  - intros i J. rewrite map_length. apply in_map_iff in J. destruct J as ([n i'] & E & J). cbn in E. subst i'. apply (R n). now apply In_dget.
  - intros n i J. unfold labelled. rewrite heap_get_seen. apply LA. now apply In_dget.
Qed.

(** ** A run *)
Lemma in_only : forall n op ops, In op (only n ops) <-> exists op', In op' ops /\ gname op' = Some n /\ op = with_t op'.
Proof.
  intros n op ops. unfold only. rewrite in_map_iff. split.
  - intros (op' & <- & J). apply filter_In in J. destruct J as [J OF]. exists op'. unfold of_n in OF. destruct (oq_dec (gname op') (Some n)); [auto|discriminate].
  - intros (op' & J & GN & ->). exists op'. split; [reflexivity|]. apply filter_In. split; [exact J|now apply of_n_yes].
Qed.
Lemma add_only : forall n t ops, In (CAdd t) (only n ops) <-> exists q, In (CAdd q) ops /\ st_graph q = Some n /\ t = q_as_t q.
Proof. intros n t ops. rewrite in_only. split; [intros ([q|q] & J & GN & E); [injection E as ->; now exists q|discriminate]|]. intros (q & J & GN & ->). now exists (CAdd q). Qed.
Lemma remove_only : forall n t ops, In (CRemove t) (only n ops) <-> exists q, In (CRemove q) ops /\ st_graph q = Some n /\ t = q_as_t q.
Proof. intros n t ops. rewrite in_only. split; [intros ([q|q] & J & GN & E); [discriminate|injection E as ->; now exists q]|]. intros (q & J & GN & ->). now exists (CRemove q). Qed.
Lemma key1_t : forall w q, key1 w (q_as_t q) = key1 w q. Proof. now intros []. Qed.
Lemma key2_t : forall w q, key2 w (q_as_t q) = key2 w q. Proof. now intros []. Qed.
Lemma proj_start : forall n ops, proj_th n (dt_new ops) = th_new (only n ops).
Proof. reflexivity. Qed.
Lemma quads_named : forall ops op, of_quads ops -> In op ops -> gname op <> None.
Proof. intros ops op Q J. unfold gname. destruct op as [q|q]; cbn [op_stmt]; destruct (Q q) as (n & E); auto; congruence. Qed.
Section Main.
  Variable g0 : dstate.
  Variable opss : list (list cop).
  Variable qs : list stmt.
  Hypothesis DQ : dquiet g0.
  Hypothesis T : forall ops, In ops opss -> of_quads ops.
  Hypothesis QS : forall q, In q qs <-> dholds g0 q.
  Hypothesis H1 : no_clash opss.
  Hypothesis H3 : forall i j a b op op' n, i <> j -> nth_error opss i = Some a -> nth_error opss j = Some b -> In op a -> In op' b -> gname op = Some n -> gname op' = Some n -> nget (d_names g0) n <> None.
  Hypothesis H2 : forall i j a c t u n w b, i <> j -> nth_error opss i = Some a -> nth_error opss j = Some c -> In (CAdd t) a -> In (CAdd u) c -> st_graph t = Some n -> st_graph u = Some n ->
    pre b w t ++ [key12 b w t] = pre b w u ++ [key12 b w u] -> ThreadHeap.walk (c_heap (graph_of g0 n)) (root w) (pre b w t ++ [key12 b w t]) <> None.
  Lemma main : forall sch s, s = d_run (mkDS g0 (map dt_new opss)) sch -> all_made s ->
    dquiet (ds_state s) /\
    (forall ops op n, In ops opss -> In op ops -> gname op = Some n -> nget (d_names (ds_state s)) n <> None) /\
    (forall ops t n w, In ops opss -> In (CAdd t) ops -> st_graph t = Some n -> ThreadHeap.walk (c_heap (graph_of (ds_state s) n)) (root w) [key1 w t; key2 w t] <> None) /\
    exists o, interleaves opss o /\ (forall q, dholds (ds_state s) q <-> In q (fst (answers qs o))) /\
      forall k x, nth_error (ds_threads s) k = Some x -> dt_out x = mine k (snd (answers qs o)).
  Proof.
    intros sch s ES F. set (s0 := mkDS g0 (map dt_new opss)) in *. destruct DQ as [GI QU].
    assert (AQ : forall k op, In op (ops_of opss k) -> gname op <> None).
    { intros k op J. unfold ops_of in J. destruct (nth_error opss k) as [ops|] eqn:E; [|contradiction]. apply (quads_named ops); [|exact J]. apply T. now apply nth_error_In in E. }
    assert (A3 : forall k k' op op' n, k <> k' -> In op (ops_of opss k) -> In op' (ops_of opss k') -> gname op = Some n -> gname op' = Some n -> nget (d_names g0) n <> None).
    { intros k k' op op' n NE J J'. unfold ops_of in J, J'. destruct (nth_error opss k) as [a|] eqn:E; [|contradiction]. destruct (nth_error opss k') as [b|] eqn:E'; [|contradiction]. exact (H3 k k' a b op op' n NE E E' J J'). }
    assert (ST : forall k x, nth_error (ds_threads s0) k = Some x -> exists ops, nth_error opss k = Some ops /\ x = dt_new ops).
    { intros k x E. cbn [s0 ds_threads] in E. rewrite nth_error_map in E. destruct (nth_error opss k) as [ops|]; [|discriminate]. injection E as <-. now exists ops. }
    assert (D0 : dinv (d_names g0) (ops_of opss) s0).
    { split.
      - exact GI.
      - intros k x op E J. apply ST in E. destruct E as (ops & E & ->). unfold ops_of. now rewrite E.
      - intros k x op i r ms E N. apply ST in E. destruct E as (ops & E & ->). discriminate.
      - intros k k' x x' op i r n j ms op' i' r' n' j' ms' _ E _ N. apply ST in E. destruct E as (ops & E & ->). discriminate. }
    assert (O0 : dord (ops_of opss) s0 []).
    { split; [|contradiction]. intros k x E. apply ST in E. destruct E as (ops & E & ->). split; [|reflexivity]. unfold ops_of. now rewrite E. }
    destruct (run_all (d_names g0) (ops_of opss) A3 AQ sch s0 [] D0 O0) as (D & [OA OB] & SIM). cbn [app] in *. rewrite <- ES in *. set (o := order_d s0 sch) in *.
    assert (LT : length (ds_threads s) = length opss).
    { rewrite ES. assert (X : forall sch s, length (ds_threads (d_run s sch)) = length (ds_threads s)).
      { clear. induction sch as [|k sch IH]; intro s; [reflexivity|]. cbn. unfold d_run in IH. rewrite IH. unfold d_step. destruct (nth_error (ds_threads s) k); [|reflexivity]. destruct (dt_step (ds_state s) d). cbn. apply length_set. }
      rewrite X. cbn. apply map_length. }
    assert (DONE : forall k x, nth_error (ds_threads s) k = Some x -> dt_now x = None /\ dt_ops x = []) by (intros k x E; apply nth_error_In in E; exact (F x E)).
    assert (FULL : forall k ops, nth_error opss k = Some ops -> mine k o = ops).
    { intros k ops E. destruct (nth_error (ds_threads s) k) as [x|] eqn:EX; [|apply nth_error_None in EX; assert (k < length opss) by (apply nth_error_Some; congruence); lia].
      destruct (OA _ _ EX) as [A _]. destruct (DONE _ _ EX) as [B C]. unfold waits in A. rewrite B, C, app_nil_r in A. unfold ops_of in A. now rewrite E in A. }
    (* each graph *)
    assert (EACH : forall n, quiet (graph_of (ds_state s) n) /\
      (forall ops t w, In ops opss -> In (CAdd t) (only n ops) -> ThreadHeap.walk (c_heap (graph_of (ds_state s) n)) (root w) [key1 w t; key2 w t] <> None) /\
      (forall t, In t (c_triples (graph_of (ds_state s) n)) <-> In t (fst (answers (c_triples (graph_of g0 n)) (only_order n o)))) /\
      forall k x, nth_error (ds_threads s) k = Some x -> only_out n (dt_out x) = mine k (snd (answers (c_triples (graph_of g0 n)) (only_order n o)))).
    { intro n. destruct (SIM n) as (b & EB & OB'). assert (P0 : proj_s n s0 = mkS (graph_of g0 n) (map th_new (map (only n) opss))) by (unfold proj_s, s0; cbn [ds_state ds_threads]; now rewrite !map_map).
      rewrite P0 in *. assert (FN : finished (proj_s n s)).
      { intros y J. cbn [proj_s s_threads] in J. apply in_map_iff in J. destruct J as (x & <- & J). destruct (F x J) as [A B]. unfold proj_th, done. rewrite A, B. auto. }
      destruct (safe_main_o (graph_of g0 n) (map (only n) opss)) with (sch := b) (s := proj_s n s) as (Q & _ & P & IL & TR & OU); auto.
      - intros ops J. apply in_map_iff in J. destruct J as (ops' & <- & J). intros t [K|K]; [apply add_only in K|apply remove_only in K]; destruct K as (q & _ & _ & ->); apply q_as_t_triple.
      - intros i j a c t NE E E' J J'. rewrite nth_error_map in E, E'. destruct (nth_error opss i) as [a'|] eqn:EA; [|discriminate]. destruct (nth_error opss j) as [c'|] eqn:EC; [|discriminate]. injection E as <-. injection E' as <-.
        apply add_only in J. destruct J as (q & J & GN & ->). apply remove_only in J'. destruct J' as (q' & J' & GN' & EQ). apply (quad_eq q q' n GN GN') in EQ. subst q'. exact (H1 i j a' c' q NE EA EC J J').
      - intros i j a c t u w b0 NE E E' J J' EQ. rewrite nth_error_map in E, E'. destruct (nth_error opss i) as [a'|] eqn:EA; [|discriminate]. destruct (nth_error opss j) as [c'|] eqn:EC; [|discriminate]. injection E as <-. injection E' as <-.
        apply add_only in J. destruct J as (q & J & GN & ->). apply add_only in J'. destruct J' as (q' & J' & GN' & ->). assert (PT : forall y, pre b0 w (q_as_t y) ++ [key12 b0 w (q_as_t y)] = pre b0 w y ++ [key12 b0 w y]) by (intro y; destruct b0, w; reflexivity).
        rewrite !PT in EQ. rewrite PT. exact (H2 i j a' c' q q' n w b0 NE EA EC J J' GN GN' EQ).
      - rewrite <- order_conc, start_conc in IL, TR, OU. rewrite OB' in *. split; [exact Q|]. split; [|split; [exact TR|]].
        + intros ops t w J K. apply (P (only n ops) t w); [now apply in_map|exact K].
        + intros k x E. rewrite <- (OU k (proj_th n x)); [|cbn [proj_s s_threads]; now rewrite nth_error_map, E]. destruct (DONE _ _ E) as [A _]. unfold proj_th. now rewrite A. }
    assert (RELN : forall n q, st_graph q = Some n -> (In (q_as_t q) (c_triples (graph_of g0 n)) <-> In q qs)) by (intros n q GN; rewrite QS; unfold dholds; rewrite GN; tauto).
    split; [|split; [|split]].
    - split; [|intro n; apply EACH]. destruct (d_g _ _ _ D). split; auto.
    - intros ops op n JO J GN. apply In_nth_error in JO. destruct JO as (k & E). rewrite <- (FULL _ _ E) in J. unfold mine in J. apply in_map_iff in J. destruct J as ([k' op'] & EQ & J). cbn in EQ. subst op'. apply filter_In in J. destruct J as [J _].
      destruct (OB _ _ J) as (_ & m & GM & N). congruence.
    - intros ops t n w JO J GN. destruct (EACH n) as (_ & P & _). rewrite <- key1_t, <- key2_t. apply (P ops); [exact JO|]. apply add_only. now exists t.
    - exists o. split; [split; [exact FULL|]|split].
      + intros k op J. rewrite <- LT. now apply (OB k op).
      + assert (QO : forall l : list (nat * cop), (forall k op, In (k, op) l -> gname op <> None) -> forall ys, (forall q, In q ys -> st_graph q <> None) -> forall q, In q (fst (answers ys l)) -> st_graph q <> None).
        { clear. induction l as [|[i op] l IH]; intros HL ys HY q J; [exact (HY q J)|]. rewrite answers_cons in J. cbn zeta in J. cbn [fst] in J. refine (IH (fun k o' K => HL k o' (or_intror K)) _ _ q J). pose proof (HL i op (or_introl eq_refl)) as GN. unfold gname in GN. destruct op as [t|t]; cbn [op_stmt] in *.
          - intros y [<-|K]; [exact GN|now apply HY].
          - destruct (in_dec stmt_eq_dec t ys); [|exact HY]. intros y K. apply in_remove in K. apply HY. tauto. }
        intro q. destruct (st_graph q) as [n|] eqn:GN.
        * destruct (EACH n) as (_ & _ & TR & _). unfold dholds. rewrite GN, TR. destruct (answers_only n o qs (c_triples (graph_of g0 n)) (RELN n)) as [A _]. now apply A.
        * unfold dholds. rewrite GN. split; [contradiction|]. intro J. apply (QO o) in J; [congruence| |].
          -- intros k op K. destruct (OB _ _ K) as (_ & m & GM & _). congruence.
          -- intros y K. apply QS in K. unfold dholds in K. destruct (st_graph y); [discriminate|contradiction].
      + intros k x E. destruct (OA _ _ E) as [_ B]. destruct (DONE _ _ E) as [C _]. unfold running in B. rewrite C, app_nil_r in B. apply by_name.
        * now rewrite fst_answers.
        * intros op J. rewrite B in J. unfold mine in J. apply in_map_iff in J. destruct J as ([k' op'] & EQ & J). cbn in EQ. subst op'. apply filter_In in J. destruct J as [J _]. destruct (OB _ _ J) as (_ & m & GM & _). congruence.
        * intro n. destruct (EACH n) as (_ & _ & _ & OU). rewrite (OU _ _ E). destruct (answers_only n o qs (c_triples (graph_of g0 n)) (RELN n)) as [_ A]. now rewrite A, mine_drop.
  Qed.
End Main.

(** ** Datasets seen by a program *)
Lemma iter_holds : forall g, dquiet g -> lists (ds_iter (seen_d g)) (dholds g).
Proof. intros g Q. apply (lists_iff _ (holds (seen_d g))); [apply ds_iter_lists; now apply dquiet_dwf|]. intro q. apply holds_seen. Qed.
Lemma quiet_quads : forall g s p o gr n, dquiet g -> honoured s -> honoured p -> honoured o -> honoured gr -> length (ds_iter (seen_d g)) < n ->
  exists l, snd (ds_drain n (seen_d g) (DStart s p o gr)) = Ok l /\ lists l (fun q => In q (ds_iter (seen_d g)) /\ qfits s p o gr q).
Proof.
  intros g s p o gr n Q HS HP HO HG L. pose proof (dquiet_dwf g Q) as W. exists (q_list (seen_d g) s p o gr). rewrite ds_drain_match; [|exact W|pose proof (q_list_length (seen_d g) s p o gr W); rewrite ds_len_iter in *; lia].
  split; [reflexivity|]. eapply lists_iff; [apply q_list_lists; exact W|]. intro q. cbn. rewrite !as_wildcard_honoured by assumption. rewrite (proj2 (ds_iter_lists _ W) q). tauto.
Qed.
Lemma alone_one : forall (ops : list cop) i j a b, i <> j -> nth_error [ops] i = Some a -> nth_error [ops] j = Some b -> False.
Proof. intros ops i j a b NE E E'. assert (i < 1) by (apply (proj1 (nth_error_Some [ops] i)); congruence). assert (j < 1) by (apply (proj1 (nth_error_Some [ops] j)); congruence). lia. Qed.
Lemma d_one : forall ops0 sch0 s0, of_quads ops0 -> s0 = d_run (mkDS d_new [dt_new ops0]) sch0 -> all_made s0 ->
  dquiet (ds_state s0) /\
  (forall op n, In op ops0 -> gname op = Some n -> nget (d_names (ds_state s0)) n <> None) /\
  (forall t n w, In (CAdd t) ops0 -> st_graph t = Some n -> ThreadHeap.walk (c_heap (graph_of (ds_state s0) n)) (root w) [key1 w t; key2 w t] <> None) /\
  exists o, interleaves [ops0] o /\ (forall q, dholds (ds_state s0) q <-> In q (fst (answers [] o))) /\
    forall k x, nth_error (ds_threads s0) k = Some x -> dt_out x = mine k (snd (answers [] o)).
Proof.
  intros ops0 sch0 s0 T E F. change [dt_new ops0] with (map dt_new [ops0]) in E. destruct (main d_new [ops0] [] dquiet_new) with (sch := sch0) (s := s0) as (Q & N & P & O); auto.
  - intros ops [<-|[]]. exact T.
  - intro q. unfold dholds. destruct (st_graph q); split; intros [].
  - intros i j a b t NE EA EB. exfalso. exact (alone_one ops0 i j a b NE EA EB).
  - intros i j a b op op' n NE EA EB. exfalso. exact (alone_one ops0 i j a b NE EA EB).
  - intros i j a b t u n w b' NE EA EB. exfalso. exact (alone_one ops0 i j a b NE EA EB).
  - split; [exact Q|]. split; [intros op n; apply (N ops0); now left|]. split; [intros t n w; apply (P ops0); now left|exact O].
Qed.
Lemma d_apart : forall ops0 sch0 s0 opss sch s, of_quads ops0 -> (forall ops, In ops opss -> of_quads ops) ->
  s0 = d_run (mkDS d_new [dt_new ops0]) sch0 -> all_made s0 ->
  s = d_run (mkDS (ds_state s0) (map dt_new opss)) sch -> all_made s ->
  no_clash opss -> graphs_there ops0 opss -> roads_there ops0 opss ->
  let before := ds_iter (seen_d (ds_state s0)) in let w := seen_d (ds_state s) in
  exists order, interleaves opss order /\
    lists (ds_iter w) (fun q => In q (fst (answers before order))) /\
    (forall i x, nth_error (ds_threads s) i = Some x -> dt_out x = mine i (snd (answers before order))) /\
    forall s' p o gr n, honoured s' -> honoured p -> honoured o -> honoured gr -> length (ds_iter w) < n ->
      exists l, snd (ds_drain n w (DStart s' p o gr)) = Ok l /\ lists l (fun q => In q (ds_iter w) /\ qfits s' p o gr q).
Proof.
  intros ops0 sch0 s0 opss sch s T0 T E0 F0 ES F NC GT RT before w. destruct (d_one ops0 sch0 s0 T0 E0 F0) as (Q0 & N0 & P0 & _).
  destruct (main (ds_state s0) opss before Q0 T) with (sch := sch) (s := s) as (Q & _ & _ & order & IL & TR & OU); auto.
  - intro q. apply (iter_holds _ Q0).
  - intros i j a b op op' n NE EA EB J J' GN GN'. destruct (GT i j a b (Some n) NE EA EB) as (q & JQ & GQ).
    + exists (op_stmt op). split; [|exact GN]. destruct op; auto.
    + exists (op_stmt op'). split; [|exact GN']. destruct op'; auto.
    + destruct JQ as [JQ|JQ]; exact (N0 _ _ JQ GQ).
  - intros i j a c t u n w' b NE EA EC J J' GN GN' EQ. assert (K1 : key1 w' t = key1 w' u) by (destruct b; cbn in EQ; congruence).
    assert (IR : In (key1 w', key2 w') roads) by (destruct w'; cbn; auto).
    destruct (RT i j a c t u (key1 w') (key2 w') NE EA EC J J' IR ltac:(congruence) K1) as [(v & V1 & VG & V2) A2]. destruct b; cbn [pre key12 app] in *.
    + destruct A2 as (v' & W1 & WG & W2 & W3); [congruence|]. rewrite <- W2, <- W3. apply P0; [exact W1|congruence].
    + rewrite <- V2. pose proof (P0 v n w' V1 ltac:(congruence)) as X. cbn [ThreadHeap.walk] in *. destruct (tget (deref (c_heap (graph_of (ds_state s0) n)) (root w')) (key1 w' v)) as [[]|]; congruence.
  - exists order. split; [exact IL|]. split; [apply (lists_iff _ (dholds (ds_state s))); [now apply iter_holds|exact TR]|]. split; [exact OU|]. intros. now apply quiet_quads.
Qed.
Lemma d_alone : forall ops sch s, of_quads ops -> s = d_run (mkDS d_new [dt_new ops]) sch -> all_made s ->
  let calls := answers [] (map (fun op => (0, op)) ops) in let w := seen_d (ds_state s) in
  lists (ds_iter w) (fun q => In q (fst calls)) /\
  (forall x, In x (ds_threads s) -> dt_out x = map snd (snd calls)) /\
  forall s' p o gr n, honoured s' -> honoured p -> honoured o -> honoured gr -> length (ds_iter w) < n ->
    exists l, snd (ds_drain n w (DStart s' p o gr)) = Ok l /\ lists l (fun q => In q (ds_iter w) /\ qfits s' p o gr q).
Proof.
  intros ops sch s T ES F calls w. destruct (d_one ops sch s T ES F) as (Q & _ & _ & order & IL & TR & OU). apply interleaves_one in IL. subst order.
  split; [apply (lists_iff _ (dholds (ds_state s))); [now apply iter_holds|exact TR]|]. split; [|intros; now apply quiet_quads].
  intros x J. apply In_nth_error in J. destruct J as (i & E). rewrite (OU _ _ E). assert (LT : length (ds_threads s) = 1).
  { rewrite ES. assert (X : forall sch s, length (ds_threads (d_run s sch)) = length (ds_threads s)).
    { clear. induction sch as [|k sch IH]; intro s; [reflexivity|]. cbn. unfold d_run in IH. rewrite IH. unfold d_step. destruct (nth_error (ds_threads s) k); [|reflexivity]. destruct (dt_step (ds_state s) d). cbn. apply length_set. }
    now rewrite X. }
  assert (i < 1) by (rewrite <- LT; apply nth_error_Some; congruence). replace i with 0 by lia. apply mine_zero.
Qed.

(** ** Every thread ends *)
Definition dcost (m : dmicro) : nat := match m with NGet _ => 2 | NG m => cost m | _ => 1 end.
Fixpoint dcosts (ms : list dmicro) : nat := match ms with [] => 0 | m :: r => dcost m + dcosts r end.
Definition dleft (x : dthread) : nat := match dt_now x with Some (_, _, _, ms) => 1 + dcosts ms | None => 0 end + 26 * length (dt_ops x).
Lemma dcosts_map : forall l, dcosts (map NG l) = costs l.
Proof. induction l as [|m l IH]; [reflexivity|]. cbn. now rewrite IH. Qed.
Lemma dcosts_script : forall op, dcosts (dscript op) <= 24.
Proof. intros [q|q]; unfold dscript; destruct (st_graph q); cbn; lia. Qed.
Lemma dcosts_app : forall a b, dcosts (a ++ b) = dcosts a + dcosts b.
Proof. induction a as [|m a IH]; intro b; cbn; [reflexivity|]. rewrite IH. lia. Qed.
Lemma dleft_step : forall g x n, dleft x <= Datatypes.S n -> dleft (snd (dt_step g x)) <= n.
Proof.
  intros g [v ops out] n L. unfold dt_step, dleft in *. cbn [dt_now dt_ops dt_out] in *. destruct v as [[[[op i] r] ms]|].
  - destruct ms as [|m ms]; cbn [snd dt_now dt_ops dcosts] in *; [lia|]. assert (X : match dexec g i r m with (_, Ok (_, _, ms')) => dcosts ms' < dcost m | _ => True end).
    { destruct m as [n'|n' j|n'|m|]; cbn; auto; try lia.
      - destruct (nget (d_names g) n'); cbn; lia.
      - pose proof (left_step (snd (obj g i)) (mkTh (Some (op, r, [m])) [] []) (cost m)) as Y. unfold left, th_step in Y. cbn [th_now th_ops costs length] in Y. specialize (Y ltac:(lia)).
        destruct (exec (snd (obj g i)) r m) as [c [[r' ms']|e]]; [|exact Logic.I]. cbn [snd th_now th_ops length] in Y. rewrite costs_app in Y. cbn [costs] in Y. rewrite dcosts_map. lia. }
    destruct (dexec g i r m) as [g' [[[i' r'] ms']|e]]; cbn [snd dt_now dt_ops]; [rewrite dcosts_app; lia|]. assert (0 < dcost m) by (destruct m as [| | |[]|]; cbn; lia). lia.
  - destruct ops as [|op ops]; cbn [snd dt_now dt_ops length] in *; [lia|]. pose proof (dcosts_script op). lia.
Qed.
Lemma d_all_end : forall sch s, (forall i x, nth_error (ds_threads s) i = Some x -> dleft x <= count_occ Nat.eq_dec sch i) -> all_made (d_run s sch).
Proof.
  induction sch as [|i sch IH]; intros s H.
  - intros x J. apply In_nth_error in J. destruct J as (i & E). cbn in E. pose proof (H i x E) as L. cbn in L. unfold dleft in L. unfold d_done. destruct (dt_now x) as [[[[op j] r] ms]|], (dt_ops x); cbn in L; try lia. auto.
  - cbn. apply IH. intros j y E. unfold d_step in E. destruct (nth_error (ds_threads s) i) as [x|] eqn:EX.
    + destruct (dt_step (ds_state s) x) as [g' x'] eqn:ET. cbn [ds_threads] in E. rewrite (nth_set _ _ _ _ _ EX) in E. destruct (Nat.eq_dec j i) as [->|NE].
      * injection E as <-. pose proof (H i x EX) as L. cbn [count_occ] in L. destruct (Nat.eq_dec i i); [|congruence]. pose proof (dleft_step (ds_state s) x _ L) as X. now rewrite ET in X.
      * pose proof (H j y E) as L. cbn [count_occ] in L. destruct (Nat.eq_dec i j); [congruence|exact L].
    + assert (NE : j <> i) by (intros ->; congruence). pose proof (H j y E) as L. cbn [count_occ] in L. destruct (Nat.eq_dec i j); [congruence|exact L].
Qed.
Lemma d_end : forall g opss sch, (forall i ops, nth_error opss i = Some ops -> 26 * length ops <= count_occ Nat.eq_dec sch i) -> all_made (d_run (mkDS g (map dt_new opss)) sch).
Proof. intros g opss sch H. apply d_all_end. cbn [ds_threads]. intros i x E. rewrite nth_error_map in E. destruct (nth_error opss i) as [ops|] eqn:EO; [|discriminate]. injection E as <-. unfold dleft. cbn [dt_new dt_now dt_ops]. now apply H. Qed.
