(** Dataset.match and Dataset.removeMatches. *)
From Verif Require Import Model.Py Model.Terms Model.Graph Model.GraphRun Model.Dataset
  Spec.GraphSpec Spec.DatasetSpec Proofs.DictLemmas Proofs.GraphInv Proofs.GraphGen Proofs.GraphHist
  Proofs.DatasetInv.
From Coq Require Import Permutation.
Local Arguments oterm_truthy : simpl never.

Definition matches_in (w : world) (s p o : oterm) (ni : oterm * gid) : list stmt :=
  map (t_as_q (fst ni)) (g_match (heap_get w (snd ni)) s p o).

Definition d_rest (w : world) (x : dgen) : list stmt :=
  match x with
  | DStart s p o gr => []
  | DDone => []
  | DOne n i x => map (t_as_q n) (gen_rest (heap_get w i) x)
  | DMany s p o _ rem n i x =>
      map (t_as_q n) (gen_rest (heap_get w i) x) ++ concat (map (matches_in w s p o) rem)
  end.
Definition d_ok (w : world) (x : dgen) : Prop :=
  match x with
  | DStart _ _ _ _ => False
  | DDone => True
  | DOne n i x => gen_ok (heap_get w i) x
  | DMany _ _ _ used _ n i x => gen_ok (heap_get w i) x /\ length (w_graphs w) = used
  end.
Definition dstep_ok (w : world) (rest : list stmt) (r : world * res (option (stmt * dgen))) : Prop :=
  match rest with
  | [] => r = (w, Ok None)
  | t :: rest' => exists x', r = (w, Ok (Some (t, x'))) /\ d_ok w x' /\ d_rest w x' = rest'
  end.

Lemma inner_next_ok : forall w i x, wf (heap_get w i) -> gen_ok (heap_get w i) x ->
  match gen_rest (heap_get w i) x with
  | [] => inner_next w i x = (w, Ok None)
  | t :: rest' => exists x', inner_next w i x = (w, Ok (Some (t, x'))) /\
      gen_ok (heap_get w i) x' /\ gen_rest (heap_get w i) x' = rest'
  end.
Proof.
  intros w i x W H. pose proof (gen_next_ok _ x W H) as S. unfold inner_next.
  destruct (gen_rest (heap_get w i) x) as [|t l]; simpl in S.
  - rewrite S. rewrite heap_set_same. auto.
  - destruct S as (x' & E & A & B). rewrite E, heap_set_same. eauto.
Qed.

Lemma many_outer_ok : forall w s p o used, (forall i, wf (heap_get w i)) -> length (w_graphs w) = used ->
  forall rem, dstep_ok w (concat (map (matches_in w s p o) rem)) (many_outer w s p o used rem).
Proof.
  intros w s p o used W U. induction rem as [|[n i] rem IH]; simpl; rewrite U, Nat.eqb_refl.
  - simpl. auto.
  - pose proof (inner_next_ok w i (GStart s p o) (W i) I) as N. simpl gen_rest in N.
    unfold matches_in at 1. simpl.
    destruct (g_match (heap_get w i) s p o) as [|t l]; simpl.
    + rewrite N. auto.
    + destruct N as (x' & E & A & B). rewrite E. eexists. split; [reflexivity|]. simpl. rewrite B. auto.
Qed.

Lemma dgen_next_ok : forall w x, (forall i, wf (heap_get w i)) -> d_ok w x ->
  dstep_ok w (d_rest w x) (dgen_next w x).
Proof.
  intros w [s p o gr| |n i x|s p o used rem n i x] W H; simpl in *; auto; [contradiction| |].
  - pose proof (inner_next_ok w i x (W i) H) as N. unfold one_next.
    destruct (gen_rest (heap_get w i) x) as [|t l]; simpl.
    + rewrite N. auto.
    + destruct N as (x' & E & A & B). rewrite E. eexists. split; [reflexivity|]. simpl. rewrite B. auto.
  - destruct H as [H U]. pose proof (inner_next_ok w i x (W i) H) as N.
    destruct (gen_rest (heap_get w i) x) as [|t l]; simpl.
    + rewrite N. apply many_outer_ok; auto.
    + destruct N as (x' & E & A & B). rewrite E. eexists. split; [reflexivity|]. simpl. rewrite B. auto.
Qed.

Lemma ds_drain_ok : forall n w x, (forall i, wf (heap_get w i)) -> d_ok w x -> length (d_rest w x) < n ->
  ds_drain n w x = (w, Ok (d_rest w x)).
Proof.
  induction n as [|n IH]; intros w x W H L; [lia|]. simpl.
  pose proof (dgen_next_ok w x W H) as S. destruct (d_rest w x) as [|t l]; simpl in *.
  - rewrite S. auto.
  - destruct S as (x' & S1 & S2 & S3). rewrite S1. rewrite IH by (auto; rewrite S3; lia). rewrite S3. auto.
Qed.

(** the world and the list left by list(ds.match(s, p, o, gr)) *)
Definition q_world (w : world) (gr : oterm) : world :=
  if oterm_truthy gr then fst (ds_touch w gr) else w.
Definition q_list (w : world) (s p o gr : oterm) : list stmt :=
  if oterm_truthy gr then
    map (t_as_q gr) (g_match (heap_get (fst (ds_touch w gr)) (snd (ds_touch w gr))) s p o)
  else walk w (fun g => g_match g s p o).

Lemma q_world_dwf : forall w gr, dwf w -> dwf (q_world w gr).
Proof.
  intros w gr W. unfold q_world. destruct (oterm_truthy gr); [|auto].
  pose proof (ds_touch_spec w gr W) as T. destruct (ds_touch w gr); apply T.
Qed.
Lemma q_world_holds : forall w gr q, dwf w -> (holds (q_world w gr) q <-> holds w q).
Proof.
  intros w gr q W. unfold q_world. destruct (oterm_truthy gr); [|tauto].
  pose proof (ds_touch_spec w gr W) as T. destruct (ds_touch w gr); apply T.
Qed.

Lemma q_list_lists : forall w s p o gr, dwf w ->
  lists (q_list w s p o gr)
    (fun q => holds w q /\ qfits (as_wildcard s) (as_wildcard p) (as_wildcard o) (as_wildcard gr) q).
Proof.
  intros w s p o gr W. unfold q_list, qfits. destruct (oterm_truthy gr) eqn:E.
  - rewrite (as_wildcard_truthy _ E).
    pose proof (ds_touch_spec w gr W) as T. destruct (ds_touch w gr) as [w1 i]. simpl.
    destruct T as (D1 & N1 & H1 & _).
    pose proof (g_match_lists (heap_get w1 i) s p o (dwf_graphs w1 D1 i)) as [ND ML]. split.
    + assert (T : forall t, In t (g_match (heap_get w1 i) s p o) -> is_triple t).
      { intros t Ht. apply ML in Ht. eapply wf_triples; [apply (dwf_graphs w1 D1 i)|apply Ht]. }
      clear ML. induction (g_match (heap_get w1 i) s p o) as [|t l IH]; simpl; [constructor|].
      inversion ND; subst. constructor.
      * intros Hi. apply in_map_iff in Hi. destruct Hi as (u & Eu & Hu).
        apply t_as_q_inj in Eu; [subst; auto| |]; apply T; simpl; auto.
      * apply IH; auto. intros; apply T; simpl; auto.
    + intros q. rewrite in_map_iff. split.
      * intros (t & <- & Ht). apply ML in Ht. destruct Ht as [Ht F].
        assert (Tt : is_triple t) by (eapply wf_triples; [apply (dwf_graphs w1 D1 i)|apply Ht]).
        split; [|split; [exact F|auto]].
        apply H1. unfold holds. simpl. rewrite N1. destruct t; unfold is_triple in Tt; simpl in *; subst; auto.
      * intros (Hh & F & [Eg|Eg]); [subst; discriminate|].
        exists (q_as_t q). split; [symmetry; apply quad_eta; auto|]. apply ML. split; [|exact F].
        apply H1 in Hh. unfold holds in Hh. rewrite Eg, N1 in Hh. auto.
  - rewrite (oterm_truthy_false _ E).
    eapply lists_iff.
    + apply (walk_lists w _ (fits (as_wildcard s) (as_wildcard p) (as_wildcard o)) W).
      intros i. apply g_match_lists. apply W.
    + intros q. simpl. unfold fits. destruct q; simpl. tauto.
Qed.

Lemma q_list_length : forall w s p o gr, dwf w -> length (q_list w s p o gr) <= ds_len w.
Proof.
  intros w s p o gr W. rewrite ds_len_iter. destruct (q_list_lists w s p o gr W) as [ND H].
  apply NoDup_incl_length; [auto|]. intros q Hq. apply H in Hq. apply (ds_iter_lists w W). tauto.
Qed.

Lemma ds_drain_match : forall n w s p o gr, dwf w -> length (q_list w s p o gr) < n ->
  ds_drain n w (DStart s p o gr) = (q_world w gr, Ok (q_list w s p o gr)).
Proof.
  intros n w s p o gr W L. unfold q_list, q_world in *. destruct n as [|n]; [lia|].
  destruct (oterm_truthy gr) eqn:E.
  - pose proof (ds_touch_spec w gr W) as T.
    transitivity (ds_drain (S n) (fst (ds_touch w gr)) (DOne gr (snd (ds_touch w gr)) (GStart s p o))).
    + cbn [ds_drain dgen_next]. rewrite E. destruct (ds_touch w gr) as [w1 i]. reflexivity.
    + destruct (ds_touch w gr) as [w1 i]. simpl fst in *. simpl snd in *.
      apply (ds_drain_ok (S n) w1 (DOne gr i (GStart s p o))); simpl; auto.
      intros; apply T.
  - pose proof (many_outer_ok w s p o (length (w_graphs w)) (dwf_graphs w W) eq_refl (w_graphs w)) as M.
    assert (EL : walk w (fun g => g_match g s p o) = concat (map (matches_in w s p o) (w_graphs w))) by reflexivity.
    rewrite EL in *. cbn [ds_drain dgen_next]. rewrite E.
    destruct (concat (map (matches_in w s p o) (w_graphs w))) as [|t l]; simpl in M.
    + rewrite M. auto.
    + destruct M as (x' & M1 & M2 & M3). rewrite M1.
      rewrite ds_drain_ok; auto; [|intros; apply W|rewrite M3; simpl in L; lia]. rewrite M3. auto.
Qed.

(** *** removing a quad that is present *)
Lemma ds_remove_present : forall w n i t, dwf w -> nget (w_graphs w) n = Some i ->
  In t (g_iter (heap_get w i)) ->
  exists g', g_remove (heap_get w i) t = (g', Ok tt) /\
    ds_remove w (t_as_q n t) = (heap_set w i g', Ok tt).
Proof.
  intros w n i t W Hn Hi.
  destruct (g_remove_present _ t (dwf_graphs w W i) Hi) as (g' & E & _).
  exists g'. split; [auto|]. unfold ds_remove, quad_graph. simpl. unfold ds_touch. rewrite Hn.
  assert (Et : q_as_t (t_as_q n t) = t).
  { apply (wf_triples _ _ (dwf_graphs w W i)) in Hi. destruct t; unfold is_triple in Hi; simpl in *; subst; auto. }
  rewrite Et, E. auto.
Qed.

(** where the first yield of the loop over all graphs comes from *)
Lemma many_first : forall w s p o used, (forall i, wf (heap_get w i)) -> length (w_graphs w) = used ->
  forall rem,
  (concat (map (matches_in w s p o) rem) = [] /\ many_outer w s p o used rem = (w, Ok None)) \/
  exists pre n i rem' t x, rem = pre ++ (n, i) :: rem' /\
    (forall ni, In ni pre -> matches_in w s p o ni = []) /\
    gen_next (heap_get w i) (GStart s p o) = (heap_get w i, Ok (Some (t, x))) /\
    In t (g_match (heap_get w i) s p o) /\
    many_outer w s p o used rem = (w, Ok (Some (t_as_q n t, DMany s p o used rem' n i x))).
Proof.
  intros w s p o used W U. induction rem as [|[n i] rem IH].
  - left. simpl. rewrite U, Nat.eqb_refl. auto.
  - pose proof (gen_next_ok _ (GStart s p o) (W i) I) as N. simpl gen_rest in N.
    cbn [many_outer]. rewrite U, Nat.eqb_refl. unfold inner_next.
    destruct (g_match (heap_get w i) s p o) as [|t l] eqn:Em; unfold step_ok in N.
    + rewrite N, heap_set_same.
      assert (M0 : matches_in w s p o (n, i) = []) by (unfold matches_in; simpl; rewrite Em; auto).
      destruct IH as [[A B]|(pre & n' & i' & rem' & t & x & A & B & C)].
      * left. simpl. rewrite M0. auto.
      * right. exists ((n, i) :: pre), n', i', rem', t, x. split; [rewrite A; auto|]. split; [|auto].
        intros ni [<-|H]; auto.
    + destruct N as (x & E & _ & _). rewrite E, heap_set_same. right.
      exists [], n, i, rem, t, x. split; [auto|]. split; [simpl; tauto|]. split; [auto|].
      split; [rewrite Em; simpl; auto|auto].
Qed.

Lemma g_match_full : forall g s p o, bound (Some s) -> bound (Some p) -> bound (Some o) ->
  g_match g (Some s) (Some p) (Some o) = if g_contains g (Tr s p o) then [Tr s p o] else [].
Proof.
  intros g s p o B1 B2 B3. apply oterm_truthy_true in B1, B2, B3. unfold g_match.
  rewrite B1, B2, B3. auto.
Qed.

(** loop over the remaining graphs with a fully bound pattern *)
Definition pending (w : world) (t : stmt) (rem : list (oterm * gid)) : nat :=
  length (filter (fun ni => g_contains (heap_get w (snd ni)) t) rem).

Lemma rm_loop_full : forall s p o used, bound (Some s) -> bound (Some p) -> bound (Some o) ->
  forall fuel rem w X, dwf w -> incl rem (w_graphs w) -> NoDup (map fst rem) ->
  length (w_graphs w) = used ->
  dgen_next w X = many_outer w (Some s) (Some p) (Some o) used rem ->
  pending w (Tr s p o) rem < fuel ->
  exists w', ds_rm_loop fuel w X = (w', Ok tt) /\ dwf w' /\ w_graphs w' = w_graphs w /\
    (forall q, holds w' q <-> holds w q /\ ~ (q_as_t q = Tr s p o /\ exists ni, In ni rem /\ st_graph q = Some (fst ni))).
Proof.
  intros s p o used B1 B2 B3. induction fuel as [|fuel IH]; intros rem w X W Inc ND U EX F; [lia|].
  cbn [ds_rm_loop]. rewrite EX.
  destruct (many_first w (Some s) (Some p) (Some o) used (dwf_graphs w W) U rem)
    as [[A B]|(pre & n & i & rem' & t & x & A & B & C & D & E)].
  - rewrite B. exists w. split; [auto|]. split; [auto|]. split; [auto|].
    intros q. split; [|tauto]. intros Hh. split; [auto|]. intros (Eq & [n i] & Hni & Eg). simpl in Eg.
    apply Inc in Hni as Hw. apply (In_dget oterm_eq_dec) in Hw; [|apply W].
    assert (M : matches_in w (Some s) (Some p) (Some o) (n, i) = []).
    { destruct (matches_in w (Some s) (Some p) (Some o) (n, i)) as [|y l] eqn:Em; [auto|].
      exfalso. assert (Hy : In y (concat (map (matches_in w (Some s) (Some p) (Some o)) rem))).
      { apply in_concat. exists (matches_in w (Some s) (Some p) (Some o) (n, i)).
        split; [apply in_map; auto|rewrite Em; simpl; auto]. }
      rewrite A in Hy. auto. }
    unfold holds in Hh. rewrite Eg, Hw, Eq in Hh.
    unfold matches_in in M. cbn [fst snd] in M. rewrite (g_match_full _ s p o B1 B2 B3) in M.
    apply (g_contains_true (heap_get w i)) in Hh. rewrite Hh in M. discriminate.
  - rewrite E. rewrite (g_match_full _ s p o B1 B2 B3) in D.
    destruct (g_contains (heap_get w i) (Tr s p o)) eqn:Ec; simpl in D; [|contradiction].
    destruct D as [<-|[]]. apply g_contains_true in Ec.
    assert (Hni : In (n, i) rem) by (rewrite A; apply in_app_iff; simpl; auto).
    assert (Hn : nget (w_graphs w) n = Some i) by (apply In_dget; [apply W|auto]).
    destruct (ds_remove_present w n i (Tr s p o) W Hn Ec) as (g' & R1 & R2). rewrite R2.
    destruct (g_remove_present _ _ (dwf_graphs w W i) Ec) as (g'' & R1' & Wg & Eu & Et & _).
    rewrite R1 in R1'. injection R1' as <-.
    set (w1 := heap_set w i g').
    assert (D1 : dwf w1).
    { apply dwf_update with n; auto. right. rewrite Eu. apply dget_Some_In in Hn.
      destruct (dwf_label w W n i Hn) as [L|L]; [|auto]. unfold g_iter in L. rewrite L in Ec. contradiction. }
    assert (X1 : x = GDone).
    { simpl in C. apply oterm_truthy_true in B1, B2, B3. rewrite B1, B2, B3 in C.
      destruct (g_contains (heap_get w i) (Tr s p o)); [|discriminate]. congruence. }
    subst x.
    assert (Nrem : NoDup (map fst rem') /\ ~ In n (map fst rem')).
    { rewrite A, map_app in ND. simpl in ND. apply NoDup_remove in ND. destruct ND as [ND1 ND2].
      split.
      - clear - ND1. induction (map fst pre); simpl in *; [auto|]. inversion ND1; auto.
      - intros H. apply ND2. apply in_app_iff. auto. }
    destruct Nrem as [Nrem Nn].
    assert (Pre0 : forall ni, In ni pre -> g_contains (heap_get w (snd ni)) (Tr s p o) = false).
    { intros [m j] Hm. specialize (B _ Hm). unfold matches_in in B. cbn [fst snd] in B.
      rewrite (g_match_full _ s p o B1 B2 B3) in B. cbn [fst snd].
      destruct (g_contains (heap_get w j) (Tr s p o)); [discriminate|auto]. }
    assert (Other : forall ni, In ni rem' -> heap_get w1 (snd ni) = heap_get w (snd ni)).
    { intros [m j] Hm. simpl. unfold w1. rewrite heap_get_set. destruct (Nat.eq_dec i j) as [<-|]; [|auto].
      exfalso. apply Nn. assert (m = n).
      { eapply (noalias_inj w); eauto. apply In_dget; [apply W|]. apply Inc. rewrite A. apply in_app_iff. simpl; auto. }
      subst m. change n with (fst (n, i)). apply in_map. auto. }
    destruct (IH rem' w1 (DMany (Some s) (Some p) (Some o) used rem' n i GDone)) as (w' & L1 & L2 & L3 & L4); auto.
    + intros ni Hi. unfold w1. simpl. apply Inc. rewrite A. apply in_app_iff. simpl; auto.
    + simpl. unfold inner_next. simpl. rewrite heap_set_same. auto.
    + assert (P : pending w (Tr s p o) rem = S (pending w1 (Tr s p o) rem')).
      { unfold pending. rewrite A.
        assert (F1 : filter (fun ni => g_contains (heap_get w (snd ni)) (Tr s p o)) pre = []).
        { clear - Pre0. induction pre as [|a pre IH]; simpl; [auto|]. rewrite Pre0 by (simpl; auto).
          apply IH. intros; apply Pre0; simpl; auto. }
        rewrite filter_app, F1. simpl.
        assert (Ec' : g_contains (heap_get w i) (Tr s p o) = true) by (apply g_contains_true; auto).
        rewrite Ec'. simpl. f_equal. f_equal.
        clear - Other. induction rem' as [|a l IH]; simpl; [auto|].
        rewrite Other by (simpl; auto). rewrite IH by (intros; apply Other; simpl; auto). auto. }
      lia.
    + exists w'. split; [auto|]. split; [auto|]. split; [rewrite L3; auto|].
      intros q. rewrite L4. unfold w1. rewrite (holds_update w n i) by auto. unfold g_iter. rewrite Et.
      rewrite set_remove_In. split.
      * intros [Hh NQ]. destruct Hh as [[Eg [Hi Ne]]|[Ng Hh]].
        -- split; [unfold holds; rewrite Eg, Hn; auto|]. intros [Eq _]. auto.
        -- split; [auto|]. intros (Eq & [m j] & Hm & Eg). simpl in Eg. apply NQ. split; [auto|].
           exists (m, j). split; [|auto]. rewrite A in Hm. apply in_app_iff in Hm.
           destruct Hm as [Hm|[[= <- <-]|Hm]]; auto; [|contradiction].
           exfalso. assert (Hw : nget (w_graphs w) m = Some j).
           { apply In_dget; [apply W|]. apply Inc. rewrite A. apply in_app_iff; auto. }
           unfold holds in Hh. rewrite Eg, Hw, Eq in Hh. apply (g_contains_true (heap_get w j)) in Hh.
           specialize (Pre0 _ Hm). simpl in Pre0. congruence.
      * intros [Hh NQ]. split.
        -- destruct (graph_dec q n) as [Eg|Eg]; [left|right; auto]. split; [auto|]. split.
           ++ unfold holds in Hh. rewrite Eg, Hn in Hh. auto.
           ++ intros Eq. apply NQ. split; [auto|]. exists (n, i). auto.
        -- intros (Eq & ni & Hm & Eg). apply NQ. split; [auto|]. exists ni. split; [|auto].
           rewrite A. apply in_app_iff. simpl; auto.
Qed.

Lemma pending_le_len : forall w s p o, dwf w -> pending w (Tr s p o) (w_graphs w) <= ds_len w.
Proof.
  intros w s p o W. unfold pending, ds_len, ds_graphs, dvals.
  induction (w_graphs w) as [|[n i] l IH]; simpl; [auto|].
  destruct (g_contains (heap_get w i) (Tr s p o)) eqn:E; simpl; [|lia].
  apply g_contains_true in E. unfold g_len in *. destruct (g_triples (heap_get w i)); [contradiction|]. simpl. lia.
Qed.

(** after a yield that leaves a size-checked iterator open, removing the yielded
    quad makes the next step fail *)
Lemma rm_one_error : forall fuel w n i t x s p o X X', dwf w -> nget (w_graphs w) n = Some i ->
  gen_next (heap_get w i) (GStart s p o) = (heap_get w i, Ok (Some (t, x))) ->
  In t (g_match (heap_get w i) s p o) ->
  ~ (bound s /\ bound p /\ bound o) ->
  dgen_next w X = (w, Ok (Some (t_as_q n t, X'))) ->
  (forall w', dgen_next w' X' = match inner_next w' i x with (w'', Err e) => (w'', Err e) | _ => dgen_next w' X' end) ->
  exists w', ds_rm_loop (S (S fuel)) w X = (w', Err RuntimeError) /\ dwf w' /\ w_graphs w' = w_graphs w /\
    (forall q, holds w' q <-> holds w q /\ q <> t_as_q n t).
Proof.
  intros fuel w n i t x s p o X X' W Hn C D NB EX EX'.
  assert (Hi : In t (g_iter (heap_get w i))).
  { apply (g_match_lists _ s p o (dwf_graphs w W i)) in D. apply D. }
  destruct (ds_remove_present w n i t W Hn Hi) as (g' & R1 & R2).
  destruct (ds_remove_spec w (t_as_q n t) n W eq_refl) as (w' & r & R3 & R4 & R5 & R6 & _).
  rewrite R2 in R3. injection R3 as <- <-.
  exists (heap_set w i g'). cbn [ds_rm_loop]. rewrite EX, R2.
  split; [|split; [auto|split; [auto|auto]]].
  rewrite EX'. unfold inner_next.
  assert (Li : i < length (w_heap w)).
  { apply (dwf_range w W). apply dget_Some_In in Hn. eapply In_pair_dvals; eauto. }
  assert (G : heap_get (heap_set w i g') i = g').
  { rewrite heap_get_set. destruct (Nat.eq_dec i i); [|congruence]. destruct (lt_dec i (length (w_heap w))); [auto|lia]. }
  rewrite G.
  destruct (first_yield _ _ _ _ _ _ (dwf_graphs w W i) C) as [(Ba & Bb & Bc & _)|A]; [tauto|].
  rewrite (remove_then_next _ t x g' (dwf_graphs w W i) A Hi R1).
  rewrite <- G at 2. rewrite heap_set_same. auto.
Qed.

Lemma ds_removeMatches_spec : forall w s p o gr, dwf w ->
  let m q := holds w q /\ qfits (as_wildcard s) (as_wildcard p) (as_wildcard o) (as_wildcard gr) q in
  exists w' r, ds_removeMatches w s p o gr = (w', r) /\ dwf w' /\ w_graphs w' = w_graphs (q_world w gr) /\
  ((forall q, ~ m q) -> w' = q_world w gr /\ r = Ok tt) /\
  (bound s -> bound p -> bound o -> r = Ok tt /\ (forall q, holds w' q <-> holds w q /\ ~ m q)) /\
  ((exists q, m q) -> ~ (bound s /\ bound p /\ bound o) ->
      r = Err RuntimeError /\ exists q, m q /\ (forall x, holds w' x <-> holds w x /\ x <> q)).
Proof.
  intros w s p o gr W m. unfold ds_removeMatches.
  assert (ML := q_list_lists w s p o gr W). fold m in ML.
  destruct (oterm_truthy gr) eqn:Eg.
  - (* one named graph *)
    assert (EWr : as_wildcard gr = gr) by (apply as_wildcard_truthy; auto).
    unfold q_world, q_list in *. rewrite Eg in *.
    pose proof (ds_touch_spec w gr W) as T.
    assert (EL : forall f, ds_rm_loop (S f) w (DStart s p o gr) =
      ds_rm_loop (S f) (fst (ds_touch w gr)) (DOne gr (snd (ds_touch w gr)) (GStart s p o))).
    { intros f. cbn [ds_rm_loop dgen_next]. rewrite Eg. destruct (ds_touch w gr); reflexivity. }
    rewrite EL. destruct (ds_touch w gr) as [w1 i]. simpl fst in *. simpl snd in *.
    destruct T as (D1 & N1 & H1 & _).
    pose proof (gen_next_ok _ (GStart s p o) (dwf_graphs w1 D1 i) I) as N. simpl gen_rest in N.
    destruct (g_match (heap_get w1 i) s p o) as [|t l] eqn:Em; unfold step_ok in N.
    + exists w1, (Ok tt). cbn [ds_rm_loop dgen_next]. unfold one_next, inner_next. rewrite N, heap_set_same.
      assert (NM : forall q, ~ m q) by (intros q Hq; apply (proj2 ML q) in Hq; auto).
      split; [auto|]. split; [auto|]. split; [auto|]. split; [auto|]. split.
      * intros _ _ _. split; [auto|]. intros q. rewrite H1. specialize (NM q). tauto.
      * intros [q Hq]. destruct (NM q Hq).
    + destruct N as (x & E & A & B).
      assert (Ht : In t (g_match (heap_get w1 i) s p o)) by (rewrite Em; simpl; auto).
      assert (Hi : In t (g_iter (heap_get w1 i))).
      { apply (g_match_lists _ s p o (dwf_graphs w1 D1 i)) in Ht. apply Ht. }
      assert (Mt : m (t_as_q gr t)) by (apply (proj2 ML); simpl; auto).
      assert (EX : dgen_next w1 (DOne gr i (GStart s p o)) = (w1, Ok (Some (t_as_q gr t, DOne gr i x)))).
      { cbn [dgen_next]. unfold one_next, inner_next. rewrite E, heap_set_same. auto. }
      destruct (first_yield _ _ _ _ _ _ (dwf_graphs w1 D1 i) E) as [(Ba & Bb & Bc & ->)|AY].
      * (* fully bound *)
        destruct (ds_remove_spec w1 (t_as_q gr t) gr D1 eq_refl) as (w' & r & R3 & R4 & R5 & R6 & _).
        destruct R6 as [R6 R7]; [unfold holds; simpl; rewrite N1|].
        { apply (wf_triples _ _ (dwf_graphs w1 D1 i)) in Hi as Tt. destruct t; unfold is_triple in Tt; simpl in *; subst; auto. }
        exists w', (Ok tt). cbn [ds_rm_loop]. rewrite EX, R3, R6.
        split.
        { cbn [ds_rm_loop dgen_next]. unfold one_next, inner_next. simpl. rewrite heap_set_same.
          destruct (ds_len w); reflexivity. }
        split; [auto|]. split; [auto|]. split; [|split].
        -- intros NM. destruct (NM _ Mt).
        -- intros _ _ _. split; [auto|]. intros q. rewrite R5, H1. simpl in B. subst l. simpl in ML.
           split; intros [Hq1 Hq2]; (split; [auto|]).
           ++ intros Hm. apply (proj2 ML) in Hm. destruct Hm as [Hm|[]]. congruence.
           ++ intros ->. auto.
        -- intros _ NB. tauto.
      * destruct (rm_one_error (ds_len w) w1 gr i t x s p o (DOne gr i (GStart s p o)) (DOne gr i x))
          as (w' & R1 & R2 & R3 & R4); auto.
        { intros (Ba & Bb & Bc). destruct s as [s|], p as [p|], o as [o|]; try (destruct Ba, Bb, Bc; congruence).
          apply oterm_truthy_true in Ba, Bb, Bc. simpl in E. rewrite Ba, Bb, Bc in E.
          destruct (g_contains _ _); [|discriminate]. injection E as <- <-. simpl in AY. auto. }
        { intros w'. cbn [dgen_next]. unfold one_next. destruct (inner_next w' i x) as [w'' [[[? ?]|]|?]]; auto. }
        exists w', (Err RuntimeError). split; [auto|]. split; [auto|]. split; [auto|].
        assert (NB : ~ (bound s /\ bound p /\ bound o)).
        { intros (Ba & Bb & Bc). destruct s as [s|], p as [p|], o as [o|]; try (destruct Ba, Bb, Bc; congruence).
          apply oterm_truthy_true in Ba, Bb, Bc. simpl in E. rewrite Ba, Bb, Bc in E.
          destruct (g_contains _ _); [|discriminate]. injection E as <- <-. simpl in AY. auto. }
        split; [|split].
        -- intros NM. destruct (NM _ Mt).
        -- tauto.
        -- intros _ _. split; [auto|]. exists (t_as_q gr t). split; [auto|].
           intros y. rewrite R4, H1. tauto.
  - (* all graphs *)
    assert (EWr : as_wildcard gr = None) by (apply oterm_truthy_false; auto).
    unfold q_world, q_list in *. rewrite Eg in *.
    assert (EX : dgen_next w (DStart s p o gr) = many_outer w s p o (length (w_graphs w)) (w_graphs w)).
    { cbn [dgen_next]. rewrite Eg. auto. }
    assert (Full : bound s /\ bound p /\ bound o \/ ~ (bound s /\ bound p /\ bound o)).
    { rewrite <- !oterm_truthy_true. destruct (oterm_truthy s), (oterm_truthy p), (oterm_truthy o); intuition congruence. }
    destruct Full as [(Ba & Bb & Bc)|NB].
    + destruct s as [s|], p as [p|], o as [o|]; try (destruct Ba, Bb, Bc; congruence).
      destruct (rm_loop_full s p o (length (w_graphs w)) Ba Bb Bc (S (S (ds_len w))) (w_graphs w) w (DStart (Some s) (Some p) (Some o) gr))
        as (w' & L1 & L2 & L3 & L4); auto.
      * apply incl_refl.
      * apply W.
      * pose proof (pending_le_len w s p o W). lia.
      * assert (EQ : forall q, holds w q /\ ~ (q_as_t q = Tr s p o /\ exists ni, In ni (w_graphs w) /\ st_graph q = Some (fst ni))
           <-> holds w q /\ ~ m q).
        { intros q. split; intros [Hq Nq]; (split; [auto|]); intros Hx; apply Nq; clear Nq.
          - destruct Hx as [_ [F _]]. unfold fits, agrees in F.
            rewrite !as_wildcard_honoured in F by (apply Ba || apply Bb || apply Bc).
            split; [unfold q_as_t; intuition congruence|].
            unfold holds in Hq. destruct (st_graph q) as [n|]; [|contradiction].
            destruct (nget (w_graphs w) n) as [i|] eqn:En; [|contradiction].
            exists (n, i). split; [eapply dget_Some_In; eauto|auto].
          - destruct Hx as [Eq _]. split; [auto|]. split; [|rewrite EWr; auto].
            unfold fits, agrees. rewrite !as_wildcard_honoured by (apply Ba || apply Bb || apply Bc).
            unfold q_as_t, Tr in Eq. injection Eq as -> -> ->. auto. }
        exists w', (Ok tt). split; [auto|]. split; [auto|]. split; [auto|]. split; [|split].
        -- intros NM. split; [|auto]. clear L4.
           cbn [ds_rm_loop] in L1. rewrite EX in L1.
           destruct (many_first w (Some s) (Some p) (Some o) _ (dwf_graphs w W) eq_refl (w_graphs w))
             as [[A B]|(pre & n & i & rem' & t & x & A & B & C & D & E)].
           ++ rewrite B in L1. congruence.
           ++ exfalso. apply (NM (t_as_q n t)). apply (proj2 ML). apply in_concat.
              exists (matches_in w (Some s) (Some p) (Some o) (n, i)). split.
              ** change (map _ _) with (map (matches_in w (Some s) (Some p) (Some o)) (w_graphs w)).
                 apply in_map. rewrite A. apply in_app_iff. simpl; auto.
              ** unfold matches_in. apply in_map. auto.
        -- intros _ _ _. split; [auto|]. intros q. rewrite L4. apply EQ.
        -- intros _ NB. destruct NB. auto.
    + destruct (many_first w s p o _ (dwf_graphs w W) eq_refl (w_graphs w))
        as [[A B]|(pre & n & i & rem' & t & x & A & B & C & D & E)].
      * exists w, (Ok tt). cbn [ds_rm_loop]. rewrite EX, B.
        assert (NM : forall q, ~ m q).
        { intros q Hq. apply (proj2 ML) in Hq. change (walk w _) with (concat (map (matches_in w s p o) (w_graphs w))) in Hq.
          rewrite A in Hq. auto. }
        split; [auto|]. split; [auto|]. split; [auto|]. split; [auto|]. split.
        -- intros. destruct NB. auto.
        -- intros [q Hq]. destruct (NM q Hq).
      * assert (Hn : nget (w_graphs w) n = Some i).
        { apply In_dget; [apply W|]. rewrite A. apply in_app_iff. simpl; auto. }
        destruct (rm_one_error (ds_len w) w n i t x s p o (DStart s p o gr) (DMany s p o (length (w_graphs w)) rem' n i x))
          as (w' & R1 & R2 & R3 & R4); auto.
        { rewrite EX. auto. }
        { intros w'. cbn [dgen_next]. destruct (inner_next w' i x) as [w'' [[[? ?]|]|?]]; auto. }
        exists w', (Err RuntimeError). split; [auto|]. split; [auto|]. split; [auto|].
        assert (Mt : m (t_as_q n t)).
        { apply (proj2 ML). apply in_concat. exists (matches_in w s p o (n, i)). split.
          - change (map _ _) with (map (matches_in w s p o) (w_graphs w)).
            apply in_map. rewrite A. apply in_app_iff. simpl; auto.
          - unfold matches_in. apply in_map. auto. }
        split; [|split].
        -- intros NM. destruct (NM _ Mt).
        -- intros. destruct NB. auto.
        -- intros _ _. split; [auto|]. exists (t_as_q n t). auto.
Qed.
