(** Whole histories of a Dataset; add_graph; aliasing; merge on the heap. *)
From Verif Require Import Model.Py Model.Terms Model.Graph Model.GraphRun Model.Dataset
  Spec.GraphSpec Spec.DatasetSpec Proofs.DictLemmas Proofs.GraphInv Proofs.GraphGen Proofs.GraphHist
  Proofs.DatasetInv Proofs.DatasetGen.
From Coq Require Import Permutation.
Local Arguments oterm_truthy : simpl never.

Lemma quad_is : forall q, st_graph q <> None -> is_quad q.
Proof. intros q H. unfold is_quad. destruct (st_graph q) as [n|]; [eauto|congruence]. Qed.

(** *** add_graph *)
Definition add_name (w : world) (i : gid) (named : oterm) : oterm :=
  if oterm_truthy named then named else g_uri (heap_get w i).

Lemma add_graph_eq : forall w i named, i < length (w_heap w) ->
  let name := add_name w i named in
  ds_add_graph w i named =
  if oterm_truthy name then
    (mkWorld (w_heap (heap_set w i (set_uri (heap_get w i) name))) (nset (w_graphs w) name i), Ok tt)
  else (w, Err ValueError).
Proof.
  intros w i named L name. unfold ds_add_graph. fold (add_name w i named). fold name.
  destruct (oterm_truthy name); [|auto]. cbv zeta.
  rewrite heap_get_set. destruct (Nat.eq_dec i i); [|congruence].
  destruct (lt_dec i (length (w_heap w))); [|contradiction]. reflexivity.
Qed.

Lemma heap_get_mk : forall w d j, heap_get (mkWorld (w_heap w) d) j = heap_get w j.
Proof. reflexivity. Qed.

Lemma set_uri_iter : forall g u, g_iter (set_uri g u) = g_iter g.
Proof. reflexivity. Qed.

Lemma NoDup_dvals_dset : forall (d : dict oterm gid) n i, NoDup (dvals d) -> ~ In i (dvals d) ->
  NoDup (dvals (nset d n i)).
Proof.
  unfold dvals. induction d as [|[m j] d IH]; intros n i ND Ni; simpl in *.
  - constructor; [auto|constructor].
  - inversion ND; subst. destruct (oterm_eq_dec n m); simpl.
    + constructor; [tauto|auto].
    + constructor.
      * intros H. assert (In j (map snd d) \/ j = i).
        { clear - H. induction d as [|[a b] d IH]; simpl in *; [intuition|].
          destruct (oterm_eq_dec n a); simpl in *; intuition. }
        intuition.
      * apply IH; auto.
Qed.
Lemma In_dvals_dset : forall (d : dict oterm gid) n i j, In j (dvals (nset d n i)) -> j = i \/ In j (dvals d).
Proof.
  unfold dvals. induction d as [|[a b] d IH]; intros n i j H; simpl in *; [intuition|].
  destruct (oterm_eq_dec n a); simpl in *; [intuition|].
  destruct H as [H|H]; [auto|]. destruct (IH _ _ _ H); auto.
Qed.
Lemma In_dset : forall (d : dict oterm gid) n i m j, NoDup (dkeys d) -> In (m, j) (nset d n i) ->
  (m = n /\ j = i) \/ (m <> n /\ In (m, j) d).
Proof.
  intros d n i m j ND H. apply (In_dget oterm_eq_dec) in H; [|apply NoDup_dset; auto].
  rewrite dget_dset in H. destruct (oterm_eq_dec n m) as [->|Ne].
  - left. split; congruence.
  - right. split; [auto|]. eapply dget_Some_In; eauto.
Qed.

Lemma add_graph_dwf : forall w i named, dwf w -> i < length (w_heap w) -> ~ In i (dvals (w_graphs w)) ->
  dwf (fst (ds_add_graph w i named)).
Proof.
  intros w i named W L Ni. rewrite add_graph_eq by auto.
  destruct (oterm_truthy (add_name w i named)); cbn [fst]; [|auto].
  set (name := add_name w i named). pose proof W as [W1 W2 W3 W4 W5].
  set (w1 := heap_set w i (set_uri (heap_get w i) name)).
  assert (G : forall j, heap_get w1 j = if Nat.eq_dec i j then set_uri (heap_get w i) name else heap_get w j).
  { intros j. unfold w1. rewrite heap_get_set. destruct (Nat.eq_dec i j); [|auto].
    destruct (lt_dec i (length (w_heap w))); [auto|contradiction]. }
  assert (Lw : length (w_heap w1) = length (w_heap w)) by apply heap_set_len.
  clearbody w1. constructor; cbn [w_graphs w_heap].
  - intros j. rewrite heap_get_mk, G. destruct (Nat.eq_dec i j); auto. apply set_uri_wf; auto.
  - apply NoDup_dset; auto.
  - apply NoDup_dvals_dset; auto.
  - intros j Hj. rewrite Lw. apply In_dvals_dset in Hj. destruct Hj as [->|Hj]; auto.
  - intros m j Hj. apply In_dset in Hj; [|auto]. unfold labelled. rewrite heap_get_mk, G.
    destruct Hj as [[-> ->]|[Nm Hj]].
    + destruct (Nat.eq_dec i i); [right; auto|congruence].
    + destruct (Nat.eq_dec i j) as [->|]; [|apply (W5 m j); auto].
      exfalso. apply Ni. eapply In_pair_dvals; eauto.
Qed.

(** *** every tidy program keeps the invariant *)
Lemma drain_ds : forall w s p o gr, dwf w ->
  ds_drain (S (ds_len w)) w (DStart s p o gr) = (q_world w gr, Ok (q_list w s p o gr)).
Proof. intros. apply ds_drain_match; auto. pose proof (q_list_length w s p o gr H). lia. Qed.

Lemma heap_set_dwf_any : forall w i g, dwf w -> wf g ->
  (forall n, In (n, i) (w_graphs w) -> g_iter g = [] \/ g_uri g = n) ->
  dwf (heap_set w i g).
Proof.
  intros w i g W Wg L. pose proof W as [W1 W2 W3 W4 W5].
  constructor; rewrite ?heap_set_graphs, ?heap_set_len; auto.
  - intros j. rewrite heap_get_set. destruct (Nat.eq_dec i j), (lt_dec i (length (w_heap w))); auto.
  - intros m j Hj. unfold labelled. rewrite heap_get_set.
    destruct (Nat.eq_dec i j) as [<-|]; [|apply (W5 m j); auto].
    destruct (lt_dec i (length (w_heap w))); [auto|apply (W5 m i); auto].
Qed.

Lemma tidy_dwf : forall w op, dwf w -> tidy w op -> dwf (ds_step w op).
Proof.
  intros w op W T. destruct op as [q|qs|q|s p o gr|s p o gr|u|i named|n|i t|i t]; cbn [ds_step tidy] in *.
  - apply quad_is in T. destruct T as [n Hn]. destruct (ds_add_spec w q n W Hn) as (w' & E & D & _). rewrite E. auto.
  - destruct (ds_addAll_spec qs w W) as (w' & E & D & _); [intros; apply quad_is; auto|]. rewrite E. auto.
  - apply quad_is in T. destruct T as [n Hn]. destruct (ds_remove_spec w q n W Hn) as (w' & r & E & D & _). rewrite E. auto.
  - rewrite drain_ds by auto. apply q_world_dwf. auto.
  - destruct (ds_removeMatches_spec w s p o gr W) as (w' & r & E & D & _). rewrite E. auto.
  - pose proof W as [W1 W2 W3 W4 W5]. unfold heap_new. simpl.
    assert (G : forall j, wf (heap_get (mkWorld (w_heap w ++ [graph_new u]) (w_graphs w)) j)).
    { intros j. rewrite heap_get_app. destruct (lt_dec j (length (w_heap w))); [apply W1|].
      destruct (Nat.eq_dec j (length (w_heap w))); apply graph_new_wf. }
    constructor; simpl; auto.
    + intros i Hi. rewrite app_length. apply W4 in Hi. simpl. lia.
    + intros n i Hi. unfold labelled. rewrite heap_get_app.
      pose proof (W4 i (In_pair_dvals _ _ _ Hi)). destruct (lt_dec i (length (w_heap w))); [|contradiction].
      apply (W5 n i Hi).
  - destruct (i <? length (w_heap w)) eqn:E; [|auto]. apply Nat.ltb_lt in E. apply add_graph_dwf; auto.
  - auto.
  - destruct T as [T1 T2]. apply heap_set_dwf_any; [auto| |].
    + apply g_add_wf; [apply W|auto].
    + intros n Hn. right. simpl. auto.
  - destruct (in_dec stmt_eq_dec t (g_triples (heap_get w i))) as [Hi|Hn].
    + destruct (g_remove_present _ t (dwf_graphs w W i) Hi) as (g' & E & Wg & Eu & _). rewrite E.
      apply heap_set_dwf_any; auto. intros n Hn. right. simpl. rewrite Eu.
      destruct (dwf_label w W n i Hn) as [L|L]; [|auto]. unfold g_iter in L. rewrite L in Hi. contradiction.
    + rewrite g_remove_absent by auto. simpl. rewrite heap_set_same. auto.
Qed.

Lemma ds_new_dwf : forall h, (forall g, In g h -> reachable g) -> dwf (ds_new h).
Proof.
  intros h H. constructor; simpl; [|constructor|constructor|tauto|tauto].
  intros i. unfold heap_get. simpl. destruct (nth_in_or_default i h (graph_new None)) as [Hi|E].
  - apply reachable_wf. auto.
  - rewrite E. apply graph_new_wf.
Qed.

Lemma ds_reachable_dwf : forall w, ds_reachable w -> dwf w.
Proof.
  induction 1.
  - apply ds_new_dwf; auto.
  - apply tidy_dwf; auto.
Qed.

(** *** Set-of-quads semantics over histories *)
Definition dop_of (op : qop) : dop :=
  match op with
  | QAdd q => DAdd q | QAddAll qs => DAddAll qs | QRemove q => DRemove q
  | QQuery s p o gr => DQuery s p o gr
  end.
Lemma qop_tidy : forall w op, qop_quads op -> tidy w (dop_of op).
Proof.
  intros w [q|qs|q|s p o gr] H; simpl in *; auto.
  - destruct H as [n ->]. discriminate.
  - intros q Hq. destruct (H q Hq) as [n ->]. discriminate.
  - destruct H as [n ->]. discriminate.
Qed.

Lemma qop_holds : forall w op x, dwf w -> qop_quads op ->
  (holds (ds_step w (dop_of op)) x <-> qset_after (holds w) op x).
Proof.
  intros w [q|qs|q|s p o gr] x W H; cbn [dop_of ds_step qset_after qop_quads] in *.
  - destruct H as [n Hn]. destruct (ds_add_spec w q n W Hn) as (w' & E & D & Hh). rewrite E. apply Hh.
  - destruct (ds_addAll_spec qs w W H) as (w' & E & D & Hh). rewrite E. apply Hh.
  - destruct H as [n Hn]. destruct (ds_remove_spec w q n W Hn) as (w' & r & E & D & Hh & _). rewrite E. apply Hh.
  - rewrite drain_ds by auto. apply q_world_holds. auto.
Qed.

Lemma qset_ext : forall ops (P Q : stmt -> Prop), (forall x, P x <-> Q x) ->
  forall x, qset_of_history P ops x <-> qset_of_history Q ops x.
Proof.
  induction ops as [|op ops IH]; intros P Q H x; simpl; [auto|].
  apply IH. intros y. destruct op; simpl; rewrite H; tauto.
Qed.

Lemma q_run : forall ops w, dwf w -> Forall qop_quads ops ->
  dwf (ds_run w (map dop_of ops)) /\
  forall x, holds (ds_run w (map dop_of ops)) x <-> qset_of_history (holds w) ops x.
Proof.
  unfold ds_run. induction ops as [|op ops IH]; intros w W H; simpl; [split; [auto|tauto]|].
  inversion H; subst.
  destruct (IH (ds_step w (dop_of op))) as [D E]; auto.
  { apply tidy_dwf; auto. apply qop_tidy; auto. }
  split; [auto|]. intros x. rewrite E. apply qset_ext. intros y. apply qop_holds; auto.
Qed.

Lemma dataset_is_a_set : forall ops, Forall qop_quads ops ->
  let w := ds_run (ds_new []) (map dop_of ops) in
  let S := qset_of_history (fun _ => False) ops in
  lists (ds_iter w) S /\
  (forall q, is_quad q -> (ds_contains w q = true <-> S q)) /\
  (forall t, is_triple t -> (ds_contains w t = true <-> exists n, S (t_as_q n t))) /\
  ds_len w = length (ds_iter w) /\
  lists (ds_toArray w) S.
Proof.
  intros ops H w S. destruct (q_run ops (ds_new [])) as [D E]; auto.
  { apply ds_new_dwf. simpl. tauto. }
  fold w in D, E.
  assert (ES : forall x, holds w x <-> S x).
  { intros x. rewrite E. apply qset_ext. intros y. unfold holds. simpl. destruct (st_graph y); tauto. }
  assert (L : lists (ds_iter w) S).
  { eapply lists_iff; [apply ds_iter_lists; auto|]. auto. }
  split; [auto|]. split; [|split; [|split]].
  - intros q Hq. rewrite ds_contains_quad by auto. auto.
  - intros t Ht. rewrite ds_contains_triple by auto. split; intros [n Hn]; exists n; apply ES; auto.
  - apply ds_len_iter.
  - unfold ds_toArray. split; [apply NoDup_nodup|]. intros x. rewrite nodup_In. apply L.
Qed.

Lemma q_run_reachable : forall ops w, ds_reachable w -> Forall qop_quads ops -> ds_reachable (ds_run w (map dop_of ops)).
Proof.
  unfold ds_run. induction ops as [|op ops IH]; intros w R H; simpl; [auto|].
  inversion H; subst. apply IH; auto. constructor; auto. apply qop_tidy; auto.
Qed.

Lemma iter_holds : forall w q, dwf w -> (In q (ds_iter w) <-> holds w q).
Proof. intros w q W. apply (ds_iter_lists w W). Qed.

Lemma ds_remove_outcome : forall w q n, ds_reachable w -> st_graph q = Some n ->
  exists w' r, ds_remove w q = (w', r) /\
    lists (ds_iter w') (fun x => In x (ds_iter w) /\ x <> q) /\
    (In q (ds_iter w) -> r = Ok tt) /\ (~ In q (ds_iter w) -> r = Err KeyError).
Proof.
  intros w q n R Hq. apply ds_reachable_dwf in R.
  destruct (ds_remove_spec w q n R Hq) as (w' & r & E & D & Hh & A & B).
  exists w', r. split; [auto|]. rewrite iter_holds by auto. split; [|split].
  - eapply lists_iff; [apply ds_iter_lists; auto|]. intros x. simpl. rewrite iter_holds by auto. apply Hh.
  - intros Hx. apply A; auto.
  - intros Hx. apply B; auto.
Qed.

Lemma ds_match_exact : forall w s p o gr n, ds_reachable w -> length (ds_iter w) < n ->
  exists w' l, ds_drain n w (DStart s p o gr) = (w', Ok l) /\
    lists l (fun q => In q (ds_iter w) /\ qfits (as_wildcard s) (as_wildcard p) (as_wildcard o) (as_wildcard gr) q) /\
    lists (ds_iter w') (fun q => In q (ds_iter w)).
Proof.
  intros w s p o gr n R L. apply ds_reachable_dwf in R.
  rewrite <- ds_len_iter in L. pose proof (q_list_length w s p o gr R).
  rewrite ds_drain_match by (auto; lia). eexists _, _. split; [reflexivity|]. split.
  - eapply lists_iff; [apply q_list_lists; auto|]. intros q. simpl. rewrite iter_holds by auto. tauto.
  - eapply lists_iff; [apply ds_iter_lists; apply q_world_dwf; auto|]. intros q.
    rewrite q_world_holds, iter_holds by auto. tauto.
Qed.

(** *** graphs created by queries *)
Lemma touch_graphs : forall w n, dwf w ->
  w_graphs (fst (ds_touch w n)) = w_graphs w \/ 
  (~ In n (dkeys (w_graphs w)) /\ exists i, w_graphs (fst (ds_touch w n)) = w_graphs w ++ [(n, i)]).
Proof.
  intros w n W. pose proof (ds_touch_spec w n W) as T. destruct (ds_touch w n) as [w1 i]. simpl.
  destruct T as (_ & _ & _ & A & B & _). destruct (nget (w_graphs w) n) as [j|] eqn:E.
  - left. destruct (A j eq_refl) as [-> _]. auto.
  - right. split; [apply dget_None_iff in E; auto|]. destruct (B eq_refl) as [_ ->]. eauto.
Qed.
Lemma touch_count : forall w n, dwf w ->
  length (ds_graphs (fst (ds_touch w n))) =
  (if in_dec oterm_eq_dec n (dkeys (w_graphs w)) then 0 else 1) + length (ds_graphs w).
Proof.
  intros w n W. unfold ds_graphs, dvals. rewrite !map_length.
  pose proof (ds_touch_spec w n W) as T. destruct (ds_touch w n) as [w1 i]. cbn [fst].
  destruct T as (_ & _ & _ & A & B & _).
  destruct (in_dec oterm_eq_dec n (dkeys (w_graphs w))) as [Hi|Hn].
  - apply (In_key_dget oterm_eq_dec) in Hi. destruct Hi as [j Hj]. destruct (A j Hj) as [-> _]. auto.
  - apply (dget_None_iff oterm_eq_dec) in Hn. destruct (B Hn) as [_ E]. rewrite E, app_length. simpl. lia.
Qed.

(** the names of the graphs of a dataset *)
Definition ds_names (w : world) : list oterm := dkeys (w_graphs w).

Lemma query_creates : forall w s p o gr n, ds_reachable w -> length (ds_iter w) < n ->
  let w' := fst (ds_drain n w (DStart s p o gr)) in
  length (ds_graphs w') = (if in_dec oterm_eq_dec gr (ds_names w) then 0 else if oterm_truthy gr then 1 else 0) + length (ds_graphs w).
Proof.
  intros w s p o gr n R L w'. apply ds_reachable_dwf in R.
  rewrite <- ds_len_iter in L. pose proof (q_list_length w s p o gr R).
  unfold w'. rewrite ds_drain_match by (auto; lia). simpl. unfold q_world.
  destruct (oterm_truthy gr).
  - rewrite touch_count by auto. reflexivity.
  - destruct (in_dec oterm_eq_dec gr (ds_names w)); auto.
Qed.
Lemma remove_creates : forall w q n, ds_reachable w -> st_graph q = Some n ->
  length (ds_graphs (fst (ds_remove w q))) =
  (if in_dec oterm_eq_dec n (ds_names w) then 0 else 1) + length (ds_graphs w).
Proof.
  intros w q n R Hq. apply ds_reachable_dwf in R.
  destruct (ds_remove_spec w q n R Hq) as (w' & r & E & D & Hh & A & B). rewrite E. cbn [fst].
  assert (Dec : holds w q \/ ~ holds w q).
  { unfold holds. rewrite Hq. destruct (nget (w_graphs w) n) as [i|]; [|tauto].
    destruct (in_dec stmt_eq_dec (q_as_t q) (g_iter (heap_get w i))); auto. }
  destruct Dec as [Hw|Hw].
  - destruct (A Hw) as [_ G]. unfold ds_graphs, dvals. rewrite !map_length, G.
    destruct (in_dec oterm_eq_dec n (ds_names w)) as [|Nn]; [auto|].
    exfalso. apply Nn. unfold holds in Hw. rewrite Hq in Hw. unfold ds_names.
    destruct (nget (w_graphs w) n) eqn:En; [|contradiction]. eapply dget_Some_key; eauto.
  - destruct (B Hw) as [_ ->]. apply touch_count. auto.
Qed.

(** *** add_graph, any world *)
Lemma add_graph_contents : forall w i named, i < length (w_heap w) ->
  let name := if oterm_truthy named then named else g_uri (heap_get w i) in
  (oterm_truthy name = false -> ds_add_graph w i named = (w, Err ValueError)) /\
  (oterm_truthy name = true -> exists w', ds_add_graph w i named = (w', Ok tt) /\
     (forall t, is_triple t -> ds_contains w' (t_as_q name t) = g_contains (heap_get w i) t) /\
     (forall n t, n <> name -> ds_contains w' (t_as_q n t) = ds_contains w (t_as_q n t)) /\
     (* later changes through the same reference *)
     (forall g2 t, is_triple t -> ds_contains (heap_set w' i g2) (t_as_q name t) = g_contains g2 t)).
Proof.
  intros w i named L name. rewrite add_graph_eq by auto. change (add_name w i named) with name.
  split; intros E; rewrite E; [auto|]. eexists. split; [reflexivity|].
  assert (Et : forall n t, is_triple t -> q_as_t (t_as_q n t) = t).
  { intros n [a b c d]; unfold is_triple; simpl; intros ->; auto. }
  assert (G : forall j, heap_get (heap_set w i (set_uri (heap_get w i) name)) j =
     if Nat.eq_dec i j then set_uri (heap_get w i) name else heap_get w j).
  { intros j. rewrite heap_get_set. destruct (Nat.eq_dec i j); [|auto].
    destruct (lt_dec i (length (w_heap w))); [auto|contradiction]. }
  split; [|split].
  - intros t Ht. unfold ds_contains. simpl st_graph. cbn [w_graphs]. rewrite dget_dset_eq, heap_get_mk, G, Et by auto.
    destruct (Nat.eq_dec i i); [reflexivity|congruence].
  - intros n t Nn. unfold ds_contains. simpl st_graph. cbn [w_graphs]. rewrite dget_dset_neq by auto.
    destruct (nget (w_graphs w) n) as [j|]; [|auto]. rewrite heap_get_mk, G.
    destruct (Nat.eq_dec i j) as [->|]; reflexivity.
  - intros g2 t Ht. unfold ds_contains. simpl st_graph. cbn [w_graphs heap_set]. rewrite dget_dset_eq, Et by auto.
    rewrite heap_get_set. destruct (Nat.eq_dec i i); [|congruence]. cbn [w_heap]. rewrite heap_set_len.
    destruct (lt_dec i (length (w_heap w))); [auto|contradiction].
Qed.

Lemma add_unnamed_graph : forall w i, i < length (w_heap w) -> heap_get w i = graph_new None ->
  exists w', ds_add_graph w i None = (w', Ok tt) /\ nget (w_graphs w') (Some (Iri (s2l "None"))) = Some i.
Proof.
  intros w i L E. rewrite add_graph_eq by auto. unfold add_name. change (oterm_truthy None) with false. cbv iota.
  rewrite E. simpl g_uri. change (oterm_truthy (Some (Iri _))) with true. cbv iota.
  eexists. split; [reflexivity|]. cbn [w_graphs]. apply dget_dset_eq.
Qed.

(** *** the same Graph under two names *)
Lemma alias_effect : forall w i n1 n2 t, ds_reachable w -> i < length (w_heap w) -> ~ In i (ds_graphs w) ->
  bound n1 -> bound n2 -> n1 <> n2 -> In t (g_iter (heap_get w i)) ->
  let w2 := fst (ds_add_graph (fst (ds_add_graph w i n1)) i n2) in
  count_occ stmt_eq_dec (ds_iter w2) (t_as_q n2 t) = 2 /\
  ~ In (t_as_q n1 t) (ds_iter w2) /\
  ds_contains w2 (t_as_q n1 t) = true /\
  ds_contains w2 (t_as_q n2 t) = true.
Proof.
  intros w i n1 n2 t R L Ni B1 B2 N12 Hi w2. apply ds_reachable_dwf in R.
  apply oterm_truthy_true in B1, B2.
  assert (E1 : ds_add_graph w i n1 =
     (mkWorld (w_heap (heap_set w i (set_uri (heap_get w i) n1))) (nset (w_graphs w) n1 i), Ok tt)).
  { rewrite add_graph_eq by auto. unfold add_name. rewrite B1, B1. auto. }
  set (w1 := fst (ds_add_graph w i n1)) in *.
  assert (D1 : dwf w1) by (apply add_graph_dwf; auto).
  assert (L1 : i < length (w_heap w1)) by (unfold w1; rewrite E1; cbn [fst w_heap]; rewrite heap_set_len; auto).
  assert (E2 : ds_add_graph w1 i n2 =
     (mkWorld (w_heap (heap_set w1 i (set_uri (heap_get w1 i) n2))) (nset (w_graphs w1) n2 i), Ok tt)).
  { rewrite add_graph_eq by auto. unfold add_name. rewrite B2, B2. auto. }
  assert (G1 : heap_get w1 i = set_uri (heap_get w i) n1).
  { unfold w1. rewrite E1. cbn [fst]. rewrite heap_get_mk, heap_get_set.
    destruct (Nat.eq_dec i i); [|congruence]. destruct (lt_dec i (length (w_heap w))); [auto|contradiction]. }
  assert (N1 : nget (w_graphs w1) n1 = Some i) by (unfold w1; rewrite E1; simpl; apply dget_dset_eq).
  assert (EW2 : w2 = mkWorld (w_heap (heap_set w1 i (set_uri (heap_get w1 i) n2))) (nset (w_graphs w1) n2 i)).
  { unfold w2. rewrite E2. auto. }
  clearbody w2 w1. clear E2.
  assert (G2 : forall j, heap_get w2 j = if Nat.eq_dec i j then set_uri (heap_get w1 i) n2 else heap_get w1 j).
  { intros j. rewrite EW2, heap_get_mk, heap_get_set. destruct (Nat.eq_dec i j); [|auto].
    destruct (lt_dec i (length (w_heap w1))); [auto|contradiction]. }
  assert (Tt : is_triple t) by (eapply wf_triples; [apply (dwf_graphs w R i)|auto]).
  assert (Et : forall n, q_as_t (t_as_q n t) = t).
  { intros n. destruct t as [a b c d]; unfold is_triple in Tt; simpl in *; subst; auto. }
  assert (It2 : g_iter (heap_get w2 i) = g_iter (heap_get w i)).
  { rewrite G2. destruct (Nat.eq_dec i i); [|congruence]. rewrite G1. auto. }
  assert (Ng : w_graphs w2 = nset (w_graphs w1) n2 i) by (rewrite EW2; auto).
  assert (ND1 : NoDup (dkeys (w_graphs w1))) by apply D1.
  assert (Gn1 : nget (w_graphs w2) n1 = Some i) by (rewrite Ng, dget_dset_neq; auto).
  assert (Gn2 : nget (w_graphs w2) n2 = Some i) by (rewrite Ng, dget_dset_eq; auto).
  assert (ND2 : NoDup (dkeys (w_graphs w2))) by (rewrite Ng; apply NoDup_dset; auto).
  (* graphs under other names are other, correctly labelled objects *)
  assert (Oth : forall m j, In (m, j) (w_graphs w2) -> m <> n1 -> m <> n2 ->
            i <> j /\ (g_iter (heap_get w2 j) = [] \/ g_uri (heap_get w2 j) = m)).
  { intros m j Hm M1 M2. rewrite Ng in Hm. apply In_dset in Hm; [|auto].
    destruct Hm as [[-> _]|[_ Hm]]; [congruence|].
    assert (i <> j).
    { intros <-. apply M1. eapply (noalias_inj w1); eauto. apply In_dget; auto. }
    split; [auto|]. rewrite G2. destruct (Nat.eq_dec i j); [contradiction|].
    apply (dwf_label w1 D1 m j Hm). }
  assert (U2 : g_uri (heap_get w2 i) = n2).
  { rewrite G2. destruct (Nat.eq_dec i i); [auto|congruence]. }
  (* counting over the dictionary *)
  assert (CNT : forall n, count_occ stmt_eq_dec (ds_iter w2) (t_as_q n t) =
     if oterm_eq_dec n n2 then 2 else
       fold_right Nat.add 0 (map (fun mj => if oterm_eq_dec (fst mj) n1 then 0 else if oterm_eq_dec (fst mj) n2 then 0 else
          count_occ stmt_eq_dec (map (t_as_q (g_uri (heap_get w2 (snd mj)))) (g_iter (heap_get w2 (snd mj)))) (t_as_q n t)) (w_graphs w2))).
  { intros n.
    set (f := fun mj : oterm * gid => count_occ stmt_eq_dec (map (t_as_q (g_uri (heap_get w2 (snd mj)))) (g_iter (heap_get w2 (snd mj)))) (t_as_q n t)).
    assert (C0 : count_occ stmt_eq_dec (ds_iter w2) (t_as_q n t) = fold_right Nat.add 0 (map f (w_graphs w2))).
    { unfold ds_iter, ds_graphs, dvals. rewrite map_map. unfold f. clear.
      induction (w_graphs w2) as [|[m j] l IH]; simpl; [auto|]. rewrite count_occ_app, IH. auto. }
    rewrite C0.
    (* value of f at n1, n2 *)
    assert (Fi : forall m, f (m, i) = if oterm_eq_dec n n2 then 1 else 0).
    { intros m. unfold f. simpl snd. rewrite U2.
      destruct (oterm_eq_dec n n2) as [->|Nn].
      - assert (Cn : count_occ stmt_eq_dec (map (t_as_q n2) (g_iter (heap_get w2 i))) (t_as_q n2 t) = 1); [|exact Cn].
        rewrite It2. apply NoDup_count_occ'; [apply map_t_as_q_NoDup; apply R|]. apply in_map; auto.
      - apply count_occ_not_In. intros H. apply in_map_iff in H. destruct H as (u & Eu & _).
        unfold t_as_q, Qd in Eu. injection Eu as _ _ _ Eu. congruence. }
    (* decompose the sum *)
    assert (SUM : forall l, NoDup (dkeys l) -> (forall m j, In (m, j) l -> In (m, j) (w_graphs w2)) ->
      fold_right Nat.add 0 (map f l) =
      (if in_dec oterm_eq_dec n1 (dkeys l) then f (n1, i) else 0) + (if in_dec oterm_eq_dec n2 (dkeys l) then f (n2, i) else 0) +
      fold_right Nat.add 0 (map (fun mj => if oterm_eq_dec (fst mj) n1 then 0 else if oterm_eq_dec (fst mj) n2 then 0 else f mj) l)).
    { induction l as [|[m j] l IH]; intros NDl Hl; [simpl; auto|].
      inversion NDl as [|? ? Nm NDl']; subst. specialize (IH NDl' (fun a b H => Hl a b (or_intror H))).
      assert (Hm := Hl m j (or_introl eq_refl)).
      cbn [map fold_right fst dkeys]. rewrite IH. clear IH.
      match goal with |- context [fold_right ?a ?b (map ?c l)] => generalize (fold_right a b (map c l)); intros R0 end.
      destruct (oterm_eq_dec m n1) as [->|M1].
      - assert (j = i) by (apply (In_dget oterm_eq_dec) in Hm; [congruence|auto]). subst j.
        destruct (in_dec oterm_eq_dec n1 (n1 :: map fst l)) as [_|X]; [|simpl in X; tauto].
        destruct (in_dec oterm_eq_dec n1 (dkeys l)); [contradiction|].
        destruct (in_dec oterm_eq_dec n2 (n1 :: map fst l)) as [[|Y]|Y], (in_dec oterm_eq_dec n2 (dkeys l)); unfold dkeys in *; simpl in *; try tauto; rewrite ?Fi; destruct (oterm_eq_dec n n2); lia.
      - destruct (oterm_eq_dec m n2) as [->|M2].
        + assert (j = i) by (apply (In_dget oterm_eq_dec) in Hm; [congruence|auto]). subst j.
          destruct (in_dec oterm_eq_dec n2 (n2 :: map fst l)) as [_|X]; [|simpl in X; tauto].
          destruct (in_dec oterm_eq_dec n2 (dkeys l)); [contradiction|].
          destruct (in_dec oterm_eq_dec n1 (n2 :: map fst l)) as [[|Y]|Y], (in_dec oterm_eq_dec n1 (dkeys l)); unfold dkeys in *; simpl in *; try congruence; try tauto; rewrite ?Fi; destruct (oterm_eq_dec n n2); lia.
        + assert (Q : forall k, m <> k -> (if in_dec oterm_eq_dec k (m :: map fst l) then f (k, i) else 0) = (if in_dec oterm_eq_dec k (dkeys l) then f (k, i) else 0)).
          { intros k Mk. destruct (in_dec oterm_eq_dec k (m :: map fst l)) as [[|Y]|Y], (in_dec oterm_eq_dec k (dkeys l)); unfold dkeys in *; simpl in *; try congruence; try tauto. }
          rewrite (Q n1 M1), (Q n2 M2). clear Q. generalize (f (m, j)). intros.
          destruct (in_dec oterm_eq_dec n1 (dkeys l)), (in_dec oterm_eq_dec n2 (dkeys l));
          rewrite ?Fi; destruct (oterm_eq_dec n n2); lia. }
    rewrite (SUM (w_graphs w2) ND2) by auto. clear SUM. rewrite !Fi.
    destruct (in_dec oterm_eq_dec n1 (dkeys (w_graphs w2))) as [_|X]; [|exfalso; apply X; eapply dget_Some_key; eauto].
    destruct (in_dec oterm_eq_dec n2 (dkeys (w_graphs w2))) as [_|X]; [|exfalso; apply X; eapply dget_Some_key; eauto].
    destruct (oterm_eq_dec n n2) as [->|Nn]; [|reflexivity].
    assert (Z : forall l, (forall m j, In (m, j) l -> In (m, j) (w_graphs w2)) ->
       fold_right Nat.add 0 (map (fun mj => if oterm_eq_dec (fst mj) n1 then 0 else if oterm_eq_dec (fst mj) n2 then 0 else f mj) l) = 0).
    { induction l as [|[m j] l IH]; intros Hl; [auto|]. cbn [map fold_right fst].
      rewrite IH by (intros; apply Hl; simpl; auto).
      destruct (oterm_eq_dec m n1); [auto|]. destruct (oterm_eq_dec m n2) as [|M2]; [auto|].
      assert (F0 : f (m, j) = 0); [|rewrite F0; auto].
      destruct (Oth m j) as [_ [Z|Z]]; auto; [apply Hl; simpl; auto| |]; unfold f; simpl snd.
      - rewrite Z. auto.
      - rewrite Z. apply count_occ_not_In. intros H. apply in_map_iff in H. destruct H as (u & Eu & _).
        unfold t_as_q, Qd in Eu. injection Eu as _ _ _ Eu. congruence. }
    rewrite Z by auto. lia. }
  split; [|split; [|split]].
  - rewrite CNT. destruct (oterm_eq_dec n2 n2); congruence.
  - apply (count_occ_not_In stmt_eq_dec). rewrite CNT. destruct (oterm_eq_dec n1 n2); [congruence|].
    assert (Z : forall l, (forall m j, In (m, j) l -> In (m, j) (w_graphs w2)) ->
       fold_right Nat.add 0 (map (fun mj => if oterm_eq_dec (fst mj) n1 then 0 else if oterm_eq_dec (fst mj) n2 then 0 else
         count_occ stmt_eq_dec (map (t_as_q (g_uri (heap_get w2 (snd mj)))) (g_iter (heap_get w2 (snd mj)))) (t_as_q n1 t)) l) = 0).
    { induction l as [|[m j] l IH]; intros Hl; [auto|]. cbn [map fold_right fst snd].
      rewrite IH by (intros; apply Hl; simpl; auto).
      destruct (oterm_eq_dec m n1); [auto|]. destruct (oterm_eq_dec m n2) as [|M2]; [auto|].
      destruct (Oth m j) as [_ [Z|Z]]; auto; [apply Hl; simpl; auto| |].
      - rewrite Z. auto.
      - rewrite Z. rewrite (proj1 (count_occ_not_In stmt_eq_dec _ _)); [auto|].
        intros H. apply in_map_iff in H. destruct H as (u & Eu & _).
        unfold t_as_q, Qd in Eu. injection Eu as _ _ _ Eu. congruence. }
    apply Z; auto.
  - unfold ds_contains. simpl st_graph. cbv iota. rewrite Gn1, Et. apply g_contains_true.
    change (In t (g_iter (heap_get w2 i))). rewrite It2. auto.
  - unfold ds_contains. simpl st_graph. cbv iota. rewrite Gn2, Et. apply g_contains_true.
    change (In t (g_iter (heap_get w2 i))). rewrite It2. auto.
Qed.

Lemma iter_agrees_with_match : forall w n, ds_reachable w -> length (ds_iter w) < n ->
  exists w' l, ds_drain n w (DStart None None None None) = (w', Ok l) /\ Permutation l (ds_iter w).
Proof.
  intros w n R L. destruct (ds_match_exact w None None None None n R L) as (w' & l & E & H1 & H2).
  exists w', l. split; [auto|]. apply ds_reachable_dwf in R. eapply lists_perm; [exact H1|].
  split; [apply (ds_iter_lists w R)|]. intros q.
  change (as_wildcard None) with (@None term). unfold qfits, fits, agrees. intuition.
Qed.

Lemma ds_removeMatches_outcome : forall w s p o gr, ds_reachable w ->
  let m q := In q (ds_iter w) /\ qfits (as_wildcard s) (as_wildcard p) (as_wildcard o) (as_wildcard gr) q in
  exists w' r, ds_removeMatches w s p o gr = (w', r) /\
  ((forall q, ~ m q) -> r = Ok tt /\ lists (ds_iter w') (fun q => In q (ds_iter w))) /\
  (bound s -> bound p -> bound o -> r = Ok tt /\ lists (ds_iter w') (fun q => In q (ds_iter w) /\ ~ m q)) /\
  ((exists q, m q) -> ~ (bound s /\ bound p /\ bound o) ->
      r = Err RuntimeError /\ exists q, m q /\ lists (ds_iter w') (fun x => In x (ds_iter w) /\ x <> q)).
Proof.
  intros w s p o gr R m. apply ds_reachable_dwf in R.
  destruct (ds_removeMatches_spec w s p o gr R) as (w' & r & E & D & _ & A & B & C).
  assert (M : forall q, m q <-> holds w q /\ qfits (as_wildcard s) (as_wildcard p) (as_wildcard o) (as_wildcard gr) q).
  { intros q. unfold m. rewrite iter_holds by auto. tauto. }
  assert (LI : forall P, (forall q, holds w' q <-> P q) -> lists (ds_iter w') P).
  { intros P HP. eapply lists_iff; [apply ds_iter_lists; auto|auto]. }
  exists w', r. split; [auto|]. split; [|split].
  - intros N. destruct A as [-> ->]; [intros q Hq; apply (N q); apply M; auto|].
    split; [auto|]. apply LI. intros q. rewrite q_world_holds, iter_holds by auto. tauto.
  - intros B1 B2 B3. destruct B as [-> B]; auto. split; [auto|]. apply LI. intros q.
    rewrite B, iter_holds, M by auto. tauto.
  - intros [q Hq] NB. destruct C as [-> (q' & C1 & C2)]; [exists q; apply M; auto|auto|].
    split; [auto|]. exists q'. split; [apply M; auto|]. apply LI. intros x. rewrite C2, iter_holds by auto. tauto.
Qed.

(** *** merge on the heap: a new object, operands unchanged *)
Lemma heap_addAll_spec : forall ts w k, k < length (w_heap w) ->
  w_graphs (heap_addAll w k ts) = w_graphs w /\
  length (w_heap (heap_addAll w k ts)) = length (w_heap w) /\
  heap_get (heap_addAll w k ts) k = g_addAll (heap_get w k) ts /\
  (forall j, j <> k -> heap_get (heap_addAll w k ts) j = heap_get w j).
Proof.
  unfold heap_addAll, g_addAll. induction ts as [|t ts IH]; intros w k L; cbn [fold_left]; [auto|].
  destruct (IH (heap_set w k (g_add (heap_get w k) t)) k) as (A & B & C & D).
  { rewrite heap_set_len. auto. }
  rewrite A, B, C, heap_set_len. split; [auto|]. split; [auto|]. split.
  - rewrite heap_get_set. destruct (Nat.eq_dec k k); [|congruence].
    destruct (lt_dec k (length (w_heap w))); [auto|contradiction].
  - intros j Hj. rewrite D by auto. rewrite heap_get_set. destruct (Nat.eq_dec k j); [congruence|auto].
Qed.

Lemma heap_merge_spec : forall w i j, i < length (w_heap w) -> j < length (w_heap w) ->
  let '(w', k) := heap_merge w i j in
  heap_get w' k = g_merge (heap_get w i) (heap_get w j) /\
  (forall l, l < length (w_heap w) -> heap_get w' l = heap_get w l) /\
  w_graphs w' = w_graphs w.
Proof.
  intros w i j Li Lj. unfold heap_merge, heap_new.
  set (w1 := mkWorld (w_heap w ++ [graph_new None]) (w_graphs w)). set (k := length (w_heap w)).
  assert (G1 : forall l, l < length (w_heap w) -> heap_get w1 l = heap_get w l).
  { intros l Hl. unfold w1. rewrite heap_get_app. destruct (lt_dec l (length (w_heap w))); [auto|contradiction]. }
  assert (Gk : heap_get w1 k = graph_new None).
  { unfold w1. rewrite heap_get_app. unfold k. destruct (lt_dec _ _); [lia|]. destruct (Nat.eq_dec _ _); [auto|congruence]. }
  assert (Lk : k < length (w_heap w1)) by (unfold w1, k; simpl; rewrite app_length; simpl; lia).
  destruct (heap_addAll_spec (g_iter (heap_get w1 j)) w1 k Lk) as (A & B & C & D).
  set (w2 := heap_addAll w1 k (g_iter (heap_get w1 j))) in *.
  destruct (heap_addAll_spec (g_iter (heap_get w2 i)) w2 k) as (A2 & B2 & C2 & D2); [rewrite B; auto|].
  split; [|split].
  - rewrite C2, C, Gk. rewrite (D i) by (unfold k; lia). rewrite !G1 by auto. reflexivity.
  - intros l Hl. rewrite D2, D, G1 by (auto; unfold k; lia). auto.
  - rewrite A2, A. auto.
Qed.
