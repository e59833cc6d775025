(** Representation invariant of a Dataset whose graphs are not aliased. *)
From Verif Require Import Model.Py Model.Terms Model.Graph Model.GraphRun Model.Dataset
  Spec.GraphSpec Spec.DatasetSpec Proofs.DictLemmas Proofs.GraphInv Proofs.GraphGen Proofs.GraphHist.
From Coq Require Import Permutation.

(** *** heap *)
Lemma upd_length {A} : forall (l : list A) i x, length (upd l i x) = length l.
Proof.
  intros l i x. unfold upd. rewrite app_length.
  rewrite <- (firstn_skipn i l) at 3. rewrite app_length. f_equal.
  destruct (skipn i l); auto.
Qed.
Lemma nth_upd {A} : forall (l : list A) i j x d,
  nth j (upd l i x) d = if Nat.eq_dec i j then if lt_dec i (length l) then x else nth j l d else nth j l d.
Proof.
  induction l as [|a l IH]; intros i j x d; unfold upd.
  - rewrite firstn_nil, skipn_nil. simpl. destruct (Nat.eq_dec i j), (lt_dec i 0); auto; lia.
  - destruct i as [|i]; simpl.
    + destruct j; simpl; auto. 
    + destruct j as [|j]; simpl; [auto|]. fold (upd l i x). rewrite IH.
      destruct (Nat.eq_dec i j), (Nat.eq_dec (S i) (S j)); try lia;
        destruct (lt_dec i (length l)), (lt_dec (S i) (S (length l))); try lia; auto.
Qed.
Lemma heap_get_set : forall w i j g,
  heap_get (heap_set w i g) j =
  if Nat.eq_dec i j then if lt_dec i (length (w_heap w)) then g else heap_get w j else heap_get w j.
Proof. intros. apply nth_upd. Qed.
Lemma heap_set_graphs : forall w i g, w_graphs (heap_set w i g) = w_graphs w.
Proof. reflexivity. Qed.
Lemma heap_set_len : forall w i g, length (w_heap (heap_set w i g)) = length (w_heap w).
Proof. intros. apply upd_length. Qed.
Lemma heap_set_same : forall w i, heap_set w i (heap_get w i) = w.
Proof.
  intros [h d] i. unfold heap_set, heap_get. simpl. f_equal.
  apply nth_ext with (d := graph_new None) (d' := graph_new None); [apply upd_length|].
  intros n Hn. rewrite nth_upd. destruct (Nat.eq_dec i n) as [->|]; [|auto].
  destruct (lt_dec n (length h)); auto.
Qed.

Definition labelled (w : world) (n : oterm) (i : gid) : Prop :=
  g_iter (heap_get w i) = [] \/ g_uri (heap_get w i) = n.

Record dwf (w : world) : Prop := {
  dwf_graphs : forall i, wf (heap_get w i);
  dwf_names : NoDup (dkeys (w_graphs w));
  dwf_noalias : NoDup (dvals (w_graphs w));
  dwf_range : forall i, In i (dvals (w_graphs w)) -> i < length (w_heap w);
  dwf_label : forall n i, In (n, i) (w_graphs w) -> labelled w n i
}.

(** the quads of the dataset *)
Definition holds (w : world) (q : stmt) : Prop :=
  match st_graph q with
  | Some n => match nget (w_graphs w) n with
              | Some i => In (q_as_t q) (g_iter (heap_get w i))
              | None => False
              end
  | None => False
  end.

Lemma In_pair_dvals : forall (d : dict oterm gid) n i, In (n, i) d -> In i (dvals d).
Proof. intros d n i H. change i with (snd (n, i)). apply in_map. auto. Qed.

Lemma noalias_inj : forall w n m i, dwf w ->
  nget (w_graphs w) n = Some i -> nget (w_graphs w) m = Some i -> n = m.
Proof.
  intros w n m i W Hn Hm. apply dget_Some_In in Hn, Hm.
  pose proof (dwf_noalias w W) as ND. unfold dvals in ND.
  apply In_nth_error in Hn, Hm. destruct Hn as [a Ha], Hm as [b Hb].
  rewrite NoDup_nth_error in ND.
  assert (a = b).
  { apply ND.
    - rewrite map_length. apply nth_error_Some. congruence.
    - rewrite !nth_error_map, Ha, Hb. auto. }
  congruence.
Qed.

(** *** changing one graph in place *)
Lemma dwf_update : forall w n i g, dwf w -> nget (w_graphs w) n = Some i -> wf g ->
  (g_iter g = [] \/ g_uri g = n) -> dwf (heap_set w i g).
Proof.
  intros w n i g W Hn Wg L. pose proof W as [W1 W2 W3 W4 W5].
  assert (Li : i < length (w_heap w)).
  { apply W4. apply dget_Some_In in Hn. eapply In_pair_dvals; eauto. }
  constructor; rewrite ?heap_set_graphs, ?heap_set_len; auto.
  - intros j. rewrite heap_get_set. destruct (Nat.eq_dec i j), (lt_dec i (length (w_heap w))); auto.
  - intros m j Hj. unfold labelled. rewrite heap_get_set.
    destruct (Nat.eq_dec i j) as [->|]; [|apply (W5 m j); auto].
    destruct (lt_dec j (length (w_heap w))); [|lia].
    apply (In_dget oterm_eq_dec) in Hj; auto.
    rewrite (noalias_inj w m n j); auto.
Qed.

Lemma holds_update : forall w n i g q, dwf w -> nget (w_graphs w) n = Some i ->
  (holds (heap_set w i g) q <->
   (st_graph q = Some n /\ In (q_as_t q) (g_iter g)) \/ (st_graph q <> Some n /\ holds w q)).
Proof.
  intros w n i g q W Hn. pose proof W as [W1 W2 W3 W4 W5].
  assert (Li : i < length (w_heap w)).
  { apply W4. apply dget_Some_In in Hn. eapply In_pair_dvals; eauto. }
  unfold holds. rewrite heap_set_graphs. destruct (st_graph q) as [m|]; [|intuition congruence].
  destruct (oterm_eq_dec m n) as [->|Nm].
  - rewrite Hn, heap_get_set. destruct (Nat.eq_dec i i); [|congruence].
    destruct (lt_dec i (length (w_heap w))); [|lia]. intuition congruence.
  - destruct (nget (w_graphs w) m) as [j|] eqn:Em; [|intuition congruence].
    rewrite heap_get_set. destruct (Nat.eq_dec i j) as [->|].
    + exfalso. apply Nm. eapply noalias_inj; eauto.
    + intuition congruence.
Qed.

(** *** self._graphs[name] *)
Lemma heap_get_app : forall h g d i, heap_get (mkWorld (h ++ [g]) d) i =
  if lt_dec i (length h) then nth i h (graph_new None)
  else if Nat.eq_dec i (length h) then g else graph_new None.
Proof.
  intros. unfold heap_get. simpl. destruct (lt_dec i (length h)).
  - apply app_nth1. auto.
  - destruct (Nat.eq_dec i (length h)) as [->|].
    + rewrite app_nth2, Nat.sub_diag by lia. auto.
    + apply nth_overflow. rewrite app_length. simpl. lia.
Qed.

Lemma ds_touch_spec : forall w n, dwf w ->
  let '(w1, i) := ds_touch w n in
  dwf w1 /\ nget (w_graphs w1) n = Some i /\
  (forall q, holds w1 q <-> holds w q) /\
  (forall j, nget (w_graphs w) n = Some j -> w1 = w /\ i = j) /\
  (nget (w_graphs w) n = None -> g_iter (heap_get w1 i) = [] /\ w_graphs w1 = w_graphs w ++ [(n, i)]) /\
  (forall j, j < length (w_heap w) -> heap_get w1 j = heap_get w j) /\
  length (w_heap w) <= length (w_heap w1).
Proof.
  intros w n W. pose proof W as [W1 W2 W3 W4 W5].
  destruct (nget (w_graphs w) n) as [i|] eqn:E.
  { unfold ds_touch. rewrite E. split; [auto|]. split; [auto|]. split; [tauto|].
    split; [intros j [= <-]; auto|]. split; [discriminate|]. auto. }
  assert (Nn : ~ In n (dkeys (w_graphs w))) by (apply dget_None_iff in E; auto).
  set (w1 := mkWorld (w_heap w ++ [graph_new None]) (w_graphs w ++ [(n, length (w_heap w))])).
  assert (ET : ds_touch w n = (w1, length (w_heap w))).
  { unfold ds_touch. rewrite E. simpl. rewrite dkeys_dset_notin by auto. reflexivity. }
  rewrite ET. clear ET.
  assert (G : forall j, heap_get w1 j = heap_get w j).
  { intros j. unfold w1. rewrite heap_get_app. unfold heap_get.
    destruct (lt_dec j (length (w_heap w))); [auto|]. rewrite (nth_overflow (w_heap w)) by lia.
    destruct (Nat.eq_dec j (length (w_heap w))); auto. }
  assert (GN : heap_get w1 (length (w_heap w)) = graph_new None).
  { rewrite G. unfold heap_get. apply nth_overflow. lia. }
  assert (Get : forall m, nget (w_graphs w1) m = if oterm_eq_dec n m then Some (length (w_heap w)) else nget (w_graphs w) m).
  { intros m. unfold w1. simpl. rewrite <- (dkeys_dset_notin oterm_eq_dec) by auto. apply dget_dset. }
  split; [|split; [|split; [|split; [|split; [|split]]]]].
  - constructor.
    + intros j. rewrite G. auto.
    + unfold w1; simpl. unfold dkeys. rewrite map_app. apply NoDup_snoc; auto.
    + unfold w1; simpl. unfold dvals. rewrite map_app. apply NoDup_snoc; auto.
      intros H. apply W4 in H. revert H. apply Nat.lt_irrefl.
    + unfold w1; simpl. unfold dvals. rewrite map_app, app_length. simpl. intros j Hj.
      apply in_app_iff in Hj. destruct Hj as [Hj|[<-|[]]]; [apply W4 in Hj|]; lia.
    + intros m j Hj. unfold w1 in Hj; simpl in Hj. apply in_app_iff in Hj.
      unfold labelled. rewrite G. destruct Hj as [Hj|[[= <- <-]|[]]]; [apply (W5 m j); auto|].
      left. rewrite <- G, GN. reflexivity.
  - rewrite Get. destruct (oterm_eq_dec n n); [reflexivity|congruence].
  - intros q. unfold holds. destruct (st_graph q) as [m|]; [|tauto]. rewrite Get.
    destruct (oterm_eq_dec n m) as [<-|].
    + rewrite GN, E. simpl. tauto.
    + destruct (nget (w_graphs w) m); [|tauto]. rewrite G. tauto.
  - congruence.
  - intros _. rewrite GN. auto.
  - intros; apply G.
  - unfold w1; simpl. rewrite app_length. lia.
Qed.

(** *** add and remove *)
Lemma q_as_t_triple : forall q, is_triple (q_as_t q).
Proof. reflexivity. Qed.
Lemma quad_eta : forall q n, st_graph q = Some n -> q = t_as_q n (q_as_t q).
Proof. intros [s p o g] n; simpl; intros ->. reflexivity. Qed.
Lemma quad_eq : forall q r n, st_graph q = Some n -> st_graph r = Some n -> q_as_t q = q_as_t r -> q = r.
Proof. intros q r n Hq Hr E. rewrite (quad_eta q n Hq), (quad_eta r n Hr), E. auto. Qed.

Lemma set_uri_wf : forall g u, wf g -> wf (set_uri g u).
Proof. intros g u H. exact H. Qed.

Lemma graph_dec : forall (x : stmt) n, st_graph x = Some n \/ st_graph x <> Some n.
Proof.
  intros x n. destruct (st_graph x) as [m|]; [|right; discriminate].
  destruct (oterm_eq_dec m n) as [->|]; [left; auto|right; congruence].
Qed.

Lemma ds_add_spec : forall w q n, dwf w -> st_graph q = Some n ->
  exists w', ds_add w q = (w', Ok tt) /\ dwf w' /\ (forall x, holds w' x <-> x = q \/ holds w x).
Proof.
  intros w q n W Hq. unfold ds_add, quad_graph. rewrite Hq.
  pose proof (ds_touch_spec w n W) as T. destruct (ds_touch w n) as [w1 i].
  destruct T as (D1 & N1 & H1 & _).
  set (w2 := heap_set w1 i (set_uri (heap_get w1 i) n)).
  assert (D2 : dwf w2).
  { apply dwf_update with n; auto. apply set_uri_wf, D1. }
  assert (N2 : nget (w_graphs w2) n = Some i) by exact N1.
  assert (T2 : ds_touch w2 n = (w2, i)) by (unfold ds_touch; rewrite N2; auto).
  rewrite T2. eexists. split; [reflexivity|].
  assert (Li : i < length (w_heap w1)).
  { apply (dwf_range w1 D1). apply dget_Some_In in N1. eapply In_pair_dvals; eauto. }
  assert (G2 : heap_get w2 i = set_uri (heap_get w1 i) n).
  { unfold w2. rewrite heap_get_set. destruct (Nat.eq_dec i i); [|congruence].
    destruct (lt_dec i (length (w_heap w1))); [auto|lia]. }
  split.
  - apply dwf_update with n; auto.
    + apply g_add_wf; [apply D2|apply q_as_t_triple].
    + right. rewrite G2. reflexivity.
  - intros x. rewrite (holds_update w2 n i) by auto. rewrite G2.
    unfold g_iter. rewrite g_add_In. simpl.
    unfold w2. rewrite (holds_update w1 n i) by auto. rewrite H1. unfold g_iter. simpl.
    destruct (graph_dec x n) as [Ex|Ex].
    + split.
      * intros [[Hx [E|Hi]]|[Hx _]]; [| |contradiction].
        -- left. eapply quad_eq; eauto.
        -- right. apply H1. unfold holds. rewrite Hx, N1. auto.
      * intros [->|Hh]; left; split; auto. right.
        apply H1 in Hh. unfold holds in Hh. rewrite Ex, N1 in Hh. auto.
    + split.
      * intros [[Hx _]|[_ [[Hx _]|[_ Hh]]]]; try contradiction; auto.
      * intros [->|Hh]; [contradiction|]. right. auto.
Qed.

Lemma ds_remove_spec : forall w q n, dwf w -> st_graph q = Some n ->
  exists w' r, ds_remove w q = (w', r) /\ dwf w' /\
   (forall x, holds w' x <-> holds w x /\ x <> q) /\
   (holds w q -> r = Ok tt /\ w_graphs w' = w_graphs w) /\
   (~ holds w q -> r = Err KeyError /\ w' = fst (ds_touch w n)).
Proof.
  intros w q n W Hq. unfold ds_remove, quad_graph. rewrite Hq.
  pose proof (ds_touch_spec w n W) as T. destruct (ds_touch w n) as [w1 i].
  destruct T as (D1 & N1 & H1 & P1 & A1 & _).
  assert (Hw : holds w q <-> In (q_as_t q) (g_iter (heap_get w1 i))).
  { rewrite <- H1. unfold holds. rewrite Hq, N1. tauto. }
  destruct (in_dec stmt_eq_dec (q_as_t q) (g_iter (heap_get w1 i))) as [Hi|Hn].
  - destruct (g_remove_present (heap_get w1 i) (q_as_t q)) as (g' & E & Wg & Eu & Et & _); auto.
    { apply D1. }
    rewrite E. eexists _, _. split; [reflexivity|].
    assert (w1 = w).
    { assert (Hh : holds w q) by (apply Hw; auto). unfold holds in Hh. rewrite Hq in Hh.
      destruct (nget (w_graphs w) n) as [j|] eqn:En; [|contradiction]. apply (P1 j); auto. }
    subst w1. split; [|split; [intros x; split; [intros Hx; split|]|split; [intros _; split; reflexivity|tauto]]].
    + apply dwf_update with n; auto. right. rewrite Eu.
      apply dget_Some_In in N1. destruct (dwf_label w W n i N1) as [L|L]; [|auto].
      rewrite L in Hi. contradiction.
    + apply (holds_update w n i) in Hx; auto.
      destruct Hx as [[Ex Hx]|[Ex Hx]].
      * unfold g_iter in Hx. rewrite Et in Hx. apply set_remove_In in Hx. destruct Hx as [Hx _].
        apply H1. unfold holds. rewrite Ex, N1. auto.
      * auto.
    + intros Eq. subst x. apply (holds_update w n i) in Hx; auto.
      destruct Hx as [[Ex Hx]|[Ex Hx]]; [|contradiction].
      unfold g_iter in Hx. rewrite Et in Hx. apply set_remove_In in Hx. tauto.
    + intros [Hx Nx]. apply (holds_update w n i); auto. destruct (graph_dec x n) as [Ex|Ex]; [left|right; auto].
      split; [auto|]. unfold g_iter. rewrite Et. apply set_remove_In. split.
      * unfold holds in Hx. rewrite Ex, N1 in Hx. auto.
      * intros Eq. apply Nx. eapply quad_eq; eauto.
  - rewrite g_remove_absent by auto. rewrite heap_set_same.
    eexists _, _. split; [reflexivity|]. simpl. split; [auto|]. split; [|split; [tauto|auto]].
    intros x. rewrite H1. split; [|tauto]. intros Hx. split; [auto|]. intros ->. tauto.
Qed.

Lemma ds_addAll_spec : forall qs w, dwf w -> (forall q, In q qs -> is_quad q) ->
  exists w', ds_addAll w qs = (w', Ok tt) /\ dwf w' /\ (forall x, holds w' x <-> In x qs \/ holds w x).
Proof.
  induction qs as [|q qs IH]; intros w W H; simpl.
  - exists w. split; [auto|]. split; [auto|]. tauto.
  - destruct (H q) as [n Hn]; [simpl; auto|].
    destruct (ds_add_spec w q n W Hn) as (w1 & E & D & Hh). rewrite E.
    destruct (IH w1 D) as (w2 & E2 & D2 & Hh2); [intros; apply H; simpl; auto|].
    exists w2. split; [auto|]. split; [auto|]. intros x. rewrite Hh2, Hh. intuition.
Qed.

(** *** iteration, len, contains *)
Lemma t_as_q_inj : forall n t u, is_triple t -> is_triple u -> t_as_q n t = t_as_q n u -> t = u.
Proof. intros n [s p o g] [s' p' o' g']; unfold is_triple; simpl; intros -> -> [= -> -> ->]. auto. Qed.

Lemma map_t_as_q_NoDup : forall n g, wf g -> NoDup (map (t_as_q n) (g_iter g)).
Proof.
  intros n g (ND & HT & _). unfold g_iter. induction (g_triples g) as [|t l IH]; simpl; [constructor|].
  inversion ND; subst. constructor.
  - intros Hi. apply in_map_iff in Hi. destruct Hi as (u & E & Hu).
    apply t_as_q_inj in E; [subst; auto| |]; apply HT; simpl; auto.
  - apply IH; auto. intros; apply HT; simpl; auto.
Qed.

Lemma In_map_t_as_q : forall n g q, wf g ->
  (In q (map (t_as_q n) (g_iter g)) <-> st_graph q = Some n /\ In (q_as_t q) (g_iter g)).
Proof.
  intros n g q W. rewrite in_map_iff. split.
  - intros (t & <- & Ht). split; [auto|]. apply (wf_triples _ _ W) in Ht as T.
    destruct t; unfold is_triple in T; simpl in *; subst. auto.
  - intros [E Hi]. exists (q_as_t q). split; [|auto]. symmetry. apply quad_eta. auto.
Qed.

(** the list obtained by walking the dictionary and labelling by key *)
Definition walk (w : world) (f : graph -> list stmt) : list stmt :=
  concat (map (fun ni => map (t_as_q (fst ni)) (f (heap_get w (snd ni)))) (w_graphs w)).

Lemma ds_iter_walk : forall w, dwf w -> ds_iter w = walk w g_iter.
Proof.
  intros w W. unfold ds_iter, walk, ds_graphs, dvals. rewrite map_map. f_equal.
  apply map_ext_in. intros [n i] Hi. simpl. destruct (dwf_label w W n i Hi) as [E|E]; rewrite E; auto.
Qed.

Lemma walk_lists : forall w f P, dwf w ->
  (forall i, lists (f (heap_get w i)) (fun t => In t (g_iter (heap_get w i)) /\ P t)) ->
  lists (walk w f) (fun q => holds w q /\ P (q_as_t q)).
Proof.
  intros w f P W Hf.
  assert (HT : forall i t, In t (f (heap_get w i)) -> is_triple t).
  { intros i t Ht. apply (proj2 (Hf i)) in Ht. eapply wf_triples; [apply (dwf_graphs w W i)|apply Ht]. }
  assert (In1 : forall n i q, In q (map (t_as_q n) (f (heap_get w i))) <->
             st_graph q = Some n /\ In (q_as_t q) (f (heap_get w i))).
  { intros n i q. rewrite in_map_iff. split.
    - intros (t & <- & Ht). split; [auto|]. apply HT in Ht as T. destruct t; unfold is_triple in T; simpl in *; subst; auto.
    - intros [E Hi]. exists (q_as_t q). split; [|auto]. symmetry. apply quad_eta; auto. }
  split.
  - unfold walk. apply concat_NoDup.
    + intros l Hl. apply in_map_iff in Hl. destruct Hl as ([n i] & <- & _). simpl.
      pose proof (proj1 (Hf i)) as ND. pose proof (HT i) as T.
      induction (f (heap_get w i)) as [|t l IH]; simpl; [constructor|].
      inversion ND; subst. constructor.
      * intros Hi. apply in_map_iff in Hi. destruct Hi as (u & E & Hu).
        apply t_as_q_inj in E; [subst; auto| |]; apply T; simpl; auto.
      * apply IH; auto. intros; apply T; simpl; auto.
    + intros a b l1 l2 q A1 A2 B1 B2. rewrite nth_error_map in A1, A2.
      destruct (nth_error (w_graphs w) a) as [[n1 i1]|] eqn:I1; [|discriminate].
      destruct (nth_error (w_graphs w) b) as [[n2 i2]|] eqn:I2; [|discriminate].
      simpl in *. injection A1 as <-. injection A2 as <-.
      apply In1 in B1, B2. assert (n1 = n2) by intuition congruence. subst n2.
      pose proof (dwf_names w W) as ND. unfold dkeys in ND. rewrite NoDup_nth_error in ND. apply ND.
      * rewrite map_length. apply nth_error_Some. congruence.
      * rewrite !nth_error_map, I1, I2. auto.
  - intros q. unfold walk. rewrite in_concat. split.
    + intros (l & Hl & Hq). apply in_map_iff in Hl. destruct Hl as ([n i] & <- & Hi). simpl in Hq.
      apply In1 in Hq. destruct Hq as [E Hq]. apply (proj2 (Hf i)) in Hq. split; [|tauto].
      unfold holds. rewrite E. rewrite (In_dget oterm_eq_dec _ n i (dwf_names w W) Hi). tauto.
    + intros [Hh HP]. unfold holds in Hh. destruct (st_graph q) as [n|] eqn:E; [|contradiction].
      destruct (nget (w_graphs w) n) as [i|] eqn:En; [|contradiction].
      exists (map (t_as_q n) (f (heap_get w i))). split.
      * apply in_map_iff. exists (n, i). split; [auto|]. eapply dget_Some_In; eauto.
      * apply In1. split; [auto|]. apply (proj2 (Hf i)). auto.
Qed.

Lemma ds_iter_lists : forall w, dwf w -> lists (ds_iter w) (holds w).
Proof.
  intros w W. rewrite ds_iter_walk by auto.
  eapply lists_iff; [apply (walk_lists w g_iter (fun _ => True) W)|].
  - intros i. split; [apply (dwf_graphs w W i)|]. tauto.
  - intros q. simpl. tauto.
Qed.

Lemma ds_len_iter : forall w, ds_len w = length (ds_iter w).
Proof.
  intros w. unfold ds_len, ds_iter. induction (ds_graphs w) as [|i l IH]; simpl; [auto|].
  rewrite app_length, map_length, <- IH. auto.
Qed.

Lemma ds_contains_quad : forall w q, is_quad q -> (ds_contains w q = true <-> holds w q).
Proof.
  intros w q [n Hn]. unfold ds_contains, holds. rewrite Hn. destruct (nget (w_graphs w) n) as [i|].
  - apply g_contains_true.
  - split; [discriminate|contradiction].
Qed.
Lemma ds_contains_triple : forall w t, dwf w -> is_triple t ->
  (ds_contains w t = true <-> exists n, holds w (t_as_q n t)).
Proof.
  intros w t W T. unfold ds_contains. rewrite T. rewrite existsb_exists.
  assert (Et : forall n, q_as_t (t_as_q n t) = t) by (intros; destruct t; unfold is_triple in T; simpl in *; subst; auto).
  split.
  - intros (i & Hi & Hc). apply g_contains_true in Hc. unfold ds_graphs in Hi.
    apply (In_dvals oterm_eq_dec) in Hi; [|apply W]. destruct Hi as [n Hn]. exists n.
    unfold holds. simpl. rewrite Hn. rewrite Et. auto.
  - intros [n H]. unfold holds in H. simpl in H. destruct (nget (w_graphs w) n) as [i|] eqn:En; [|contradiction].
    exists i. split.
    + apply dget_Some_In in En. eapply In_pair_dvals; eauto.
    + apply g_contains_true. rewrite Et in H. auto.
Qed.
