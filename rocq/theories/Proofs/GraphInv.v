(** The representation invariant of Graph and its preservation. *)
From Verif Require Import Model.Py Model.Terms Model.Graph Spec.GraphSpec Proofs.DictLemmas.
From Coq Require Import Permutation.

(** value or empty *)
Definition gd {V} (ix : dict term (dict term V)) (a : term) : dict term V :=
  match tget ix a with Some d => d | None => [] end.

Lemma gd_tset : forall V (ix : dict term (dict term V)) a v a',
  gd (tset ix a v) a' = if term_eq_dec a a' then v else gd ix a'.
Proof. intros. unfold gd. rewrite dget_dset. destruct (term_eq_dec a a'); auto. Qed.

Lemma gd_touch : forall V (ix : dict term (dict term V)) a, snd (touch ix a) = gd ix a.
Proof. intros. unfold touch, gd. destruct (tget ix a); auto. Qed.

Lemma tset_touch : forall V (ix : dict term (dict term V)) a v, tset (fst (touch ix a)) a v = tset ix a v.
Proof. intros. unfold touch. destruct (tget ix a) eqn:E; simpl; [auto|]. apply dset_dset. Qed.

Definition lookup3 (ix : index) (a b c : term) : option stmt := tget (gd (gd ix a) b) c.

Lemma idx_set_eq : forall ix a b c t,
  idx_set ix a b c t = tset ix a (tset (gd ix a) b (tset (gd (gd ix a) b) c t)).
Proof.
  intros. unfold idx_set.
  pose proof (gd_touch _ ix a) as H1. pose proof (tset_touch _ ix a) as H2.
  destruct (touch ix a) as [ix1 d1]. simpl in *. subst.
  pose proof (gd_touch _ (gd ix a) b) as H3. pose proof (tset_touch _ (gd ix a) b) as H4.
  destruct (touch (gd ix a) b) as [d1' d2]. simpl in *. subst. rewrite H2, H4. auto.
Qed.

Lemma idx_del_eq : forall ix a b c t, lookup3 ix a b c = Some t ->
  idx_del ix a b c = (tset ix a (tset (gd ix a) b (tdel (gd (gd ix a) b) c)), Ok tt).
Proof.
  intros ix a b c t H. unfold lookup3 in H. unfold idx_del.
  pose proof (gd_touch _ ix a) as H1. pose proof (tset_touch _ ix a) as H2.
  destruct (touch ix a) as [ix1 d1]. simpl in *. subst.
  pose proof (gd_touch _ (gd ix a) b) as H3. pose proof (tset_touch _ (gd ix a) b) as H4.
  destruct (touch (gd ix a) b) as [d1' d2]. simpl in *. subst. rewrite H, H2, H4. auto.
Qed.

Definition nodup3 (ix : index) : Prop :=
  NoDup (dkeys ix) /\
  (forall a, NoDup (dkeys (gd ix a))) /\
  (forall a b, NoDup (dkeys (gd (gd ix a) b))).

Definition idx_ok (k1 k2 k3 : stmt -> term) (ix : index) (ts : list stmt) : Prop :=
  nodup3 ix /\
  forall a b c t, lookup3 ix a b c = Some t <-> In t ts /\ k1 t = a /\ k2 t = b /\ k3 t = c.

Definition wf (g : graph) : Prop :=
  NoDup (g_triples g) /\
  (forall t, In t (g_triples g) -> is_triple t) /\
  idx_ok st_s st_p st_o (g_spo g) (g_triples g) /\
  idx_ok st_p st_o st_s (g_pos g) (g_triples g) /\
  idx_ok st_o st_s st_p (g_osp g) (g_triples g).

(** the keys determine a triple *)
Definition keyed (k1 k2 k3 : stmt -> term) : Prop :=
  forall t u, is_triple t -> is_triple u ->
    k1 t = k1 u -> k2 t = k2 u -> k3 t = k3 u -> t = u.

Lemma keyed_spo : keyed st_s st_p st_o.
Proof. intros [s p o g] [s' p' o' g']; unfold is_triple; simpl; congruence. Qed.
Lemma keyed_pos : keyed st_p st_o st_s.
Proof. intros [s p o g] [s' p' o' g']; unfold is_triple; simpl; congruence. Qed.
Lemma keyed_osp : keyed st_o st_s st_p.
Proof. intros [s p o g] [s' p' o' g']; unfold is_triple; simpl; congruence. Qed.

Lemma NoDup_nil_keys {V} : NoDup (dkeys ([] : dict term V)).
Proof. constructor. Qed.

Lemma nodup3_set : forall ix a b e, nodup3 ix -> NoDup (dkeys e) ->
  nodup3 (tset ix a (tset (gd ix a) b e)).
Proof.
  intros ix a b e (H1 & H2 & H3) He. repeat split.
  - apply NoDup_dset; auto.
  - intros a'. rewrite gd_tset. destruct (term_eq_dec a a'); [|auto]. apply NoDup_dset; auto.
  - intros a' b'. rewrite gd_tset. destruct (term_eq_dec a a'); [|auto].
    rewrite gd_tset. destruct (term_eq_dec b b'); auto.
Qed.

Lemma lookup3_set : forall ix a b e a' b' c',
  lookup3 (tset ix a (tset (gd ix a) b e)) a' b' c' =
  if term_eq_dec a a' then if term_eq_dec b b' then tget e c' else lookup3 ix a' b' c'
  else lookup3 ix a' b' c'.
Proof.
  intros. unfold lookup3. rewrite gd_tset. destruct (term_eq_dec a a') as [->|]; [|auto].
  rewrite gd_tset. destruct (term_eq_dec b b') as [->|]; auto.
Qed.

Lemma set_add_In : forall t l x, In x (set_add t l) <-> x = t \/ In x l.
Proof.
  intros. unfold set_add. destruct (in_dec stmt_eq_dec t l).
  - intuition congruence.
  - rewrite in_app_iff. simpl. intuition.
Qed.
Lemma set_add_NoDup : forall t l, NoDup l -> NoDup (set_add t l).
Proof.
  intros. unfold set_add. destruct (in_dec stmt_eq_dec t l); [auto|]. apply NoDup_snoc; auto.
Qed.
Lemma set_remove_In : forall t l x, In x (set_remove t l) <-> In x l /\ x <> t.
Proof.
  intros. unfold set_remove. split.
  - apply in_remove.
  - intros [H n]. apply in_in_remove; auto.
Qed.
Lemma set_remove_NoDup : forall t l, NoDup l -> NoDup (set_remove t l).
Proof.
  intros t l. unfold set_remove. induction l as [|x l IH]; intros H; simpl; [auto|].
  inversion H; subst. destruct (stmt_eq_dec t x); [auto|]. constructor; [|auto].
  intro Hi. apply in_remove in Hi. tauto.
Qed.
Lemma set_remove_length : forall t l, NoDup l -> In t l -> S (length (set_remove t l)) = length l.
Proof.
  intros t l. unfold set_remove. induction l as [|x l IH]; intros ND H; simpl; [contradiction|].
  inversion ND; subst. destruct (stmt_eq_dec t x) as [->|n].
  - rewrite notin_remove by auto. auto.
  - simpl. destruct H; [congruence|]. rewrite IH; auto.
Qed.

Lemma idx_add_ok : forall k1 k2 k3 ix ts t, keyed k1 k2 k3 ->
  (forall x, In x ts -> is_triple x) -> is_triple t ->
  idx_ok k1 k2 k3 ix ts ->
  idx_ok k1 k2 k3 (idx_set ix (k1 t) (k2 t) (k3 t) t) (set_add t ts).
Proof.
  intros k1 k2 k3 ix ts t KD HT Ht [ND HL]. rewrite idx_set_eq. split.
  - apply nodup3_set; [auto|]. destruct ND as (H1 & H2 & H3). apply NoDup_dset; auto.
  - intros a b c x. rewrite lookup3_set, set_add_In.
    destruct (term_eq_dec (k1 t) a) as [<-|n1].
    2:{ rewrite HL. intuition congruence. }
    destruct (term_eq_dec (k2 t) b) as [<-|n2].
    2:{ rewrite HL. intuition congruence. }
    rewrite dget_dset. destruct (term_eq_dec (k3 t) c) as [<-|n3].
    2:{ fold (lookup3 ix (k1 t) (k2 t) c). rewrite HL. intuition congruence. }
    split.
    + intros [= ->]. auto.
    + intros [[->|Hi] (E1 & E2 & E3)]; [auto|]. f_equal. apply KD; auto.
Qed.

Lemma g_add_wf : forall g t, wf g -> is_triple t -> wf (g_add g t).
Proof.
  intros g t (ND & HT & H1 & H2 & H3) Ht. unfold wf, g_add; simpl.
  split; [apply set_add_NoDup; auto|]. split.
  { intros x Hx. apply set_add_In in Hx. destruct Hx as [->|]; auto. }
  split; [apply (idx_add_ok st_s st_p st_o); auto using keyed_spo|].
  split; [apply (idx_add_ok st_p st_o st_s); auto using keyed_pos|].
  apply (idx_add_ok st_o st_s st_p); auto using keyed_osp.
Qed.

Lemma g_add_In : forall g t x, In x (g_triples (g_add g t)) <-> x = t \/ In x (g_triples g).
Proof. intros. apply set_add_In. Qed.

Lemma idx_del_ok : forall k1 k2 k3 ix ts t, keyed k1 k2 k3 ->
  (forall x, In x ts -> is_triple x) -> In t ts ->
  idx_ok k1 k2 k3 ix ts ->
  exists ix', idx_del ix (k1 t) (k2 t) (k3 t) = (ix', Ok tt) /\
    idx_ok k1 k2 k3 ix' (set_remove t ts) /\
    ix' = tset ix (k1 t) (tset (gd ix (k1 t)) (k2 t) (tdel (gd (gd ix (k1 t)) (k2 t)) (k3 t))).
Proof.
  intros k1 k2 k3 ix ts t KD HT Ht [ND HL].
  assert (L : lookup3 ix (k1 t) (k2 t) (k3 t) = Some t) by (apply HL; auto).
  erewrite idx_del_eq by eauto. eexists. split; [reflexivity|]. split; [|reflexivity].
  assert (ND' := ND). destruct ND' as (N1 & N2 & N3).
  split.
  - apply nodup3_set; [auto|]. apply NoDup_ddel; auto.
  - intros a b c x. rewrite lookup3_set, set_remove_In.
    destruct (term_eq_dec (k1 t) a) as [<-|n1].
    2:{ rewrite HL. intuition congruence. }
    destruct (term_eq_dec (k2 t) b) as [<-|n2].
    2:{ rewrite HL. intuition congruence. }
    destruct (term_eq_dec (k3 t) c) as [<-|n3].
    + rewrite dget_ddel_eq by auto. split; [discriminate|].
      intros [[Hi n] (E1 & E2 & E3)]. exfalso. apply n. apply KD; auto.
    + rewrite dget_ddel_neq by auto. fold (lookup3 ix (k1 t) (k2 t) c). rewrite HL.
      intuition congruence.
Qed.

Lemma g_remove_present : forall g t, wf g -> In t (g_triples g) ->
  exists g', g_remove g t = (g', Ok tt) /\ wf g' /\
    g_uri g' = g_uri g /\
    g_triples g' = set_remove t (g_triples g) /\
    g_spo g' = tset (g_spo g) (st_s t) (tset (gd (g_spo g) (st_s t)) (st_p t)
                 (tdel (gd (gd (g_spo g) (st_s t)) (st_p t)) (st_o t))) /\
    g_pos g' = tset (g_pos g) (st_p t) (tset (gd (g_pos g) (st_p t)) (st_o t)
                 (tdel (gd (gd (g_pos g) (st_p t)) (st_o t)) (st_s t))) /\
    g_osp g' = tset (g_osp g) (st_o t) (tset (gd (g_osp g) (st_o t)) (st_s t)
                 (tdel (gd (gd (g_osp g) (st_o t)) (st_s t)) (st_p t))).
Proof.
  intros g t (ND & HT & H1 & H2 & H3) Ht. unfold g_remove.
  destruct (in_dec stmt_eq_dec t (g_triples g)); [|contradiction].
  destruct (idx_del_ok _ _ _ _ _ _ keyed_spo HT Ht H1) as (i1 & E1 & K1 & F1).
  destruct (idx_del_ok _ _ _ _ _ _ keyed_pos HT Ht H2) as (i2 & E2 & K2 & F2).
  destruct (idx_del_ok _ _ _ _ _ _ keyed_osp HT Ht H3) as (i3 & E3 & K3 & F3).
  rewrite E1, E2, E3. eexists. split; [reflexivity|]. simpl. split.
  - split; [apply set_remove_NoDup; auto|]. split; [|auto].
    intros x Hx. apply set_remove_In in Hx. apply HT. tauto.
  - auto 8.
Qed.

Lemma g_remove_absent : forall g t, ~ In t (g_triples g) -> g_remove g t = (g, Err KeyError).
Proof. intros. unfold g_remove. destruct (in_dec stmt_eq_dec t (g_triples g)); tauto. Qed.

Lemma graph_new_wf : forall u, wf (graph_new u).
Proof.
  intros u. unfold wf, graph_new; simpl.
  assert (H : forall k1 k2 k3, idx_ok k1 k2 k3 [] []).
  { intros. split.
    - repeat split; intros; constructor.
    - intros. unfold lookup3, gd; simpl. split; [discriminate|tauto]. }
  repeat split; try apply H; try constructor; try tauto; try (intros; constructor).
  all: try (intros; discriminate). all: intros [[] _].
Qed.

Lemma g_addAll_wf : forall ts g, wf g -> (forall t, In t ts -> is_triple t) -> wf (g_addAll g ts).
Proof.
  unfold g_addAll. induction ts as [|t ts IH]; intros g W H; simpl; [auto|].
  apply IH.
  - apply g_add_wf; [auto|]. apply H; simpl; auto.
  - intros; apply H; simpl; auto.
Qed.

Lemma g_addAll_In : forall ts g x, In x (g_triples (g_addAll g ts)) <-> In x ts \/ In x (g_triples g).
Proof.
  unfold g_addAll. induction ts as [|t ts IH]; intros g x; simpl; [tauto|].
  rewrite IH, g_add_In. intuition.
Qed.

Lemma g_addAll_uri : forall ts g, g_uri (g_addAll g ts) = g_uri g.
Proof. unfold g_addAll. induction ts as [|t ts IH]; intros g; simpl; [auto|]. rewrite IH. auto. Qed.

(** *** match as a list *)

Lemma concat_NoDup {A} : forall (ls : list (list A)),
  (forall l, In l ls -> NoDup l) ->
  (forall i j l1 l2 x, nth_error ls i = Some l1 -> nth_error ls j = Some l2 ->
     In x l1 -> In x l2 -> i = j) ->
  NoDup (concat ls).
Proof.
  induction ls as [|l ls IH]; intros H1 H2; simpl; [constructor|].
  assert (NoDup (concat ls)).
  { apply IH; [intros; apply H1; simpl; auto|].
    intros i j l1 l2 x A1 A2 B1 B2. specialize (H2 (S i) (S j) l1 l2 x A1 A2 B1 B2). lia. }
  assert (D : forall x, In x l -> ~ In x (concat ls)).
  { intros x Hx Hc. apply in_concat in Hc. destruct Hc as (l2 & Hl & Hx2).
    apply In_nth_error in Hl. destruct Hl as [j Hj].
    specialize (H2 0 (S j) l l2 x eq_refl Hj Hx Hx2). lia. }
  assert (NDl : NoDup l) by (apply H1; simpl; auto).
  clear - NDl H D. induction l as [|x l IHl]; simpl; [auto|].
  inversion NDl; subst. constructor.
  - rewrite in_app_iff. intros [|Hc]; [auto|]. apply (D x); simpl; auto.
  - apply IHl; [intros; apply D; simpl; auto|auto].
Qed.

Section Lists.
  Context (k1 k2 k3 : stmt -> term) (ix : index) (ts : list stmt).
  Hypothesis OK : idx_ok k1 k2 k3 ix ts.

  Lemma dvals_lists : forall a b,
    lists (dvals (gd (gd ix a) b)) (fun t => In t ts /\ k1 t = a /\ k2 t = b).
  Proof.
    intros a b. destruct OK as [(N1 & N2 & N3) L]. split.
    - (* values determine keys *)
      assert (Hk : forall k v, tget (gd (gd ix a) b) k = Some v -> k3 v = k).
      { intros k v H. apply (L a b k v) in H. tauto. }
      revert Hk. generalize (N3 a b). generalize (gd (gd ix a) b). clear.
      intros d ND Hk. unfold dvals.
      assert (Hk' : forall k v, In (k, v) d -> k3 v = k).
      { intros. apply Hk. apply In_dget; auto. }
      clear Hk. induction d as [|[k v] d IH]; simpl; [constructor|].
      inversion ND; subst. constructor.
      + intro Hi. apply in_map_iff in Hi. destruct Hi as ([k' v'] & E & Hi). simpl in E. subst.
        assert (k = k').
        { transitivity (k3 v); [symmetry|]; apply Hk'; simpl; auto. }
        subst. apply H1. change k' with (fst (k', v)). apply in_map. auto.
      + apply IH; auto. intros; apply Hk'; simpl; auto.
    - intros t. rewrite (In_dvals term_eq_dec) by auto. split.
      + intros [k H]. apply (L a b k t) in H. tauto.
      + intros (H & E1 & E2). exists (k3 t). apply (L a b (k3 t) t). auto.
  Qed.

  Lemma idx_vals2_lists : forall a b,
    lists (idx_vals2 ix a b) (fun t => In t ts /\ k1 t = a /\ k2 t = b).
  Proof.
    intros a b. pose proof (dvals_lists a b) as H. unfold gd in H. unfold idx_vals2.
    destruct (tget ix a) as [d|]; simpl in *; [destruct (tget d b) as [e|]; simpl in *|]; auto.
  Qed.

  Lemma idx_vals1_lists : forall a,
    lists (idx_vals1 ix a) (fun t => In t ts /\ k1 t = a).
  Proof.
    intros a. unfold idx_vals1.
    assert (E : forall d, (match tget ix a with Some d1 => concat (map (fun kv => dvals (snd kv)) d1) | None => [] end : list stmt) = d ->
      d = concat (map (fun kv => dvals (snd kv)) (gd ix a))).
    { intros d <-. unfold gd. destruct (tget ix a); auto. }
    rewrite (E _ eq_refl). clear E.
    pose proof (dvals_lists a) as H. destruct OK as [(N1 & N2 & N3) L].
    assert (G : forall b e, In (b, e) (gd ix a) -> gd (gd ix a) b = e).
    { intros b e Hi. unfold gd at 1. rewrite (In_dget term_eq_dec _ b e); auto. }
    split.
    - apply concat_NoDup.
      + intros l Hl. apply in_map_iff in Hl. destruct Hl as ([b e] & <- & Hi). simpl.
        rewrite <- (G b e Hi). apply H.
      + intros i j l1 l2 x A1 A2 B1 B2.
        rewrite nth_error_map in A1, A2.
        destruct (nth_error (gd ix a) i) as [[b1 e1]|] eqn:I1; [|discriminate].
        destruct (nth_error (gd ix a) j) as [[b2 e2]|] eqn:I2; [|discriminate].
        simpl in *. injection A1 as <-. injection A2 as <-.
        assert (b1 = b2).
        { pose proof (G b1 e1 (nth_error_In _ _ I1)) as G1. pose proof (G b2 e2 (nth_error_In _ _ I2)) as G2.
          rewrite <- G1 in B1. rewrite <- G2 in B2.
          apply (proj2 (H b1)) in B1. apply (proj2 (H b2)) in B2. intuition congruence. }
        subst b2. pose proof (N2 a) as ND. unfold dkeys in ND.
        rewrite NoDup_nth_error in ND. apply ND.
        * rewrite map_length. apply nth_error_Some. congruence.
        * rewrite !nth_error_map, I1, I2. auto.
    - intros t. rewrite in_concat. split.
      + intros (l & Hl & Ht). apply in_map_iff in Hl. destruct Hl as ([b e] & <- & Hi). simpl in Ht.
        rewrite <- (G b e Hi) in Ht. apply (proj2 (H b)) in Ht. tauto.
      + intros [Hi E1].
        assert (Ht : In t (dvals (gd (gd ix a) (k2 t)))) by (apply (proj2 (H (k2 t))); auto).
        exists (dvals (gd (gd ix a) (k2 t))). split; [|auto].
        apply in_map_iff. unfold gd at 1 in Ht. unfold gd at 1.
        destruct (tget (gd ix a) (k2 t)) as [e|] eqn:Eg; [|contradiction].
        exists (k2 t, e). split; [auto|]. apply dget_Some_In in Eg. auto.
  Qed.
End Lists.

Lemma oterm_truthy_true : forall o, oterm_truthy o = true <-> bound o.
Proof.
  intros [[[|c s]|a|v l d]|]; unfold bound, empty_iri; simpl;
    (split; [intros; split; congruence|]); try reflexivity; intros [? ?]; congruence.
Qed.
Lemma oterm_truthy_false : forall o, oterm_truthy o = false -> as_wildcard o = None.
Proof.
  intros [[[|c s]|a|v l d]|]; simpl; try discriminate; intros _; unfold as_wildcard, empty_iri;
    destruct (oterm_eq_dec _ _); congruence.
Qed.
Lemma as_wildcard_honoured : forall o, honoured o -> as_wildcard o = o.
Proof. intros o H. unfold as_wildcard. destruct (oterm_eq_dec o (Some empty_iri)); [contradiction|auto]. Qed.
Lemma as_wildcard_truthy : forall o, oterm_truthy o = true -> as_wildcard o = o.
Proof. intros o H. apply as_wildcard_honoured. apply oterm_truthy_true in H. apply H. Qed.

Lemma lists_iff {A} : forall (l : list A) P Q, lists l P -> (forall x, P x <-> Q x) -> lists l Q.
Proof. intros l P Q [ND H] E. split; [auto|]. intros x. rewrite H. apply E. Qed.

Lemma g_match_lists : forall g s p o, wf g ->
  lists (g_match g s p o)
    (fun t => In t (g_triples g) /\ fits (as_wildcard s) (as_wildcard p) (as_wildcard o) t).
Proof.
  intros g s p o (ND & HT & H1 & H2 & H3). unfold g_match, fits, agrees.
  destruct s as [s'|], p as [p'|], o as [o'|];
  repeat match goal with |- context [oterm_truthy (Some ?x)] =>
    let E := fresh "E" in destruct (oterm_truthy (Some x)) eqn:E;
    [rewrite (as_wildcard_truthy _ E)|rewrite (oterm_truthy_false _ E)] end;
  simpl oterm_truthy; cbv iota;
  try (change (as_wildcard None) with (@None term));
  try (eapply lists_iff; [eapply idx_vals2_lists; eassumption|]; intros t; simpl; intuition congruence);
  try (eapply lists_iff; [eapply idx_vals1_lists; eassumption|]; intros t; simpl; intuition congruence);
  try (split; [assumption|]; intros t; simpl; intuition congruence).
  (* fully bound *)
  unfold g_contains. destruct (in_dec stmt_eq_dec (Tr s' p' o') (g_triples g)) as [i|n].
  - split; [constructor; [auto|constructor]|]. intros t. simpl. split.
    + intros [<-|[]]. simpl. auto 6.
    + intros (Hi & A & B & C). left. apply HT in Hi. destruct t as [a b c q]. unfold is_triple in Hi.
      simpl in *. unfold Tr. intuition congruence.
  - split; [constructor|]. intros t. simpl. split; [tauto|]. intros (Hi & A & B & C).
    apply n. pose proof (HT _ Hi) as Q. destruct t as [a b c q]. unfold is_triple in Q. simpl in *.
    unfold Tr. replace s' with a by intuition congruence. replace p' with b by intuition congruence.
    replace o' with c by intuition congruence. subst. auto.
Qed.
