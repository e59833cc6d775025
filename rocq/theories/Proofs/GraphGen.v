(** The match generator: it never modifies the graph, and draining it yields
    the list [g_match]. *)
From Verif Require Import Model.Py Model.Terms Model.Graph Spec.GraphSpec Proofs.DictLemmas Proofs.GraphInv.
From Coq Require Import Permutation.

Local Arguments oterm_truthy : simpl never.

Lemma set_index_same : forall g w, set_index g w (g_index g w) = g.
Proof. intros [u t a b c] []; reflexivity. Qed.

Lemma touch_present : forall V (ix : dict term (dict term V)) a d,
  tget ix a = Some d -> touch ix a = (ix, d).
Proof. intros. unfold touch. rewrite H. auto. Qed.

Lemma touch2_present : forall ix a b d e,
  tget ix a = Some d -> tget d b = Some e -> touch2 ix a b = (ix, e).
Proof.
  intros. unfold touch2. rewrite (touch_present _ _ _ _ H), (touch_present _ _ _ _ H0).
  rewrite dset_same; auto.
Qed.

(** What a suspended generator needs so that resuming it creates no entries;
    it stays true whatever is done to the graph in between. *)
Definition gen_keys (g : graph) (x : gen) : Prop :=
  match x with
  | GNest w a _ orem _ _ _ =>
      exists d, tget (g_index g w) a = Some d /\ (forall b, In b orem -> In b (dkeys d))
  | _ => True
  end.

Lemma nest_outer_pure : forall w a oused orem g d,
  tget (g_index g w) a = Some d -> (forall b, In b orem -> In b (dkeys d)) ->
  exists r, nest_outer g w a oused orem = (g, r) /\
    forall t x', r = Ok (Some (t, x')) -> gen_keys g x'.
Proof.
  intros w a oused. induction orem as [|b orem IH]; intros g d H Hk; simpl;
    rewrite (touch_present _ _ _ _ H), set_index_same; destruct (length d =? oused);
    try (eexists; split; [reflexivity|intros; discriminate]).
  destruct (In_key_dget term_eq_dec d b) as [e He]; [apply Hk; simpl; auto|].
  rewrite (touch2_present _ _ _ _ _ H He), set_index_same.
  destruct (dvals e) as [|t r].
  - apply IH with d; auto. intros; apply Hk; simpl; auto.
  - eexists; split; [reflexivity|]. intros t' x' [= <- <-]. simpl.
    exists d. split; [auto|]. intros; apply Hk; simpl; auto.
Qed.

Lemma vals_next_keys : forall g w a b u r t x, vals_next g w a b u r = Ok (Some (t, x)) -> gen_keys g x.
Proof.
  intros g w a b u r t x. unfold vals_next.
  destruct (tget (g_index g w) a) as [d|]; [|discriminate].
  destruct (tget d b) as [e|]; [|discriminate].
  destruct (length e =? u); [|discriminate]. destruct r; [discriminate|].
  intros [= <- <-]. simpl. auto.
Qed.

Lemma gen_next_pure : forall g x, gen_keys g x ->
  exists r, gen_next g x = (g, r) /\ forall t x', r = Ok (Some (t, x')) -> gen_keys g x'.
Proof.
  intros g x H.
  assert (VS : forall w a b, exists r, vals_start g w a b = (g, r) /\
                forall t x', r = Ok (Some (t, x')) -> gen_keys g x').
  { intros w a b. unfold vals_start, dmem.
    destruct (tget (g_index g w) a) as [d|] eqn:Ea.
    2:{ eexists; split; [reflexivity|intros; discriminate]. }
    rewrite (touch_present _ _ _ _ Ea), set_index_same.
    destruct (tget d b) as [e|] eqn:Eb.
    2:{ eexists; split; [reflexivity|intros; discriminate]. }
    rewrite (touch2_present _ _ _ _ _ Ea Eb), set_index_same.
    eexists; split; [reflexivity|]. intros. eapply vals_next_keys; eauto. }
  assert (NS : forall w a, exists r, nest_start g w a = (g, r) /\
                forall t x', r = Ok (Some (t, x')) -> gen_keys g x').
  { intros w a. unfold nest_start, dmem.
    destruct (tget (g_index g w) a) as [d|] eqn:Ea.
    2:{ eexists; split; [reflexivity|intros; discriminate]. }
    rewrite (touch_present _ _ _ _ Ea), set_index_same.
    eapply nest_outer_pure; eauto. }
  destruct x as [s p o| |w a b u r|w a ou or b u r|u r]; simpl.
  - destruct s as [s|], p as [p|], o as [o|];
    repeat match goal with |- context [if oterm_truthy ?x then _ else _] => destruct (oterm_truthy x) end;
    simpl; auto;
    try (eexists; split; [reflexivity|]; try (destruct (g_contains _ _)); intros t' x'; intros [= <- <-] || discriminate; simpl; auto; fail);
    try (destruct (g_triples g); eexists; split; try reflexivity; intros t' x'; (intros [= <- <-] || discriminate); simpl; auto; fail).
  - eexists; split; [reflexivity|intros; discriminate].
  - eexists; split; [reflexivity|]. intros. eapply vals_next_keys; eauto.
  - simpl in H. destruct H as (d & Ha & Hk).
    destruct (vals_next g w a b u r) as [[[t x]|]|e] eqn:E.
    + eexists; split; [reflexivity|]. intros t' x' [= <- <-]. simpl. eauto.
    + eapply nest_outer_pure; eauto.
    + eexists; split; [reflexivity|intros; discriminate].
  - destruct (length (g_triples g) =? u); [|eexists; split; [reflexivity|intros; discriminate]].
    destruct r; eexists; (split; [reflexivity|]); intros t' x'; (intros [= <- <-] || discriminate); simpl; auto.
Qed.

Lemma drain_pure : forall n g x, gen_keys g x -> fst (drain n g x) = g.
Proof.
  induction n as [|n IH]; intros g x H; simpl; [auto|].
  destruct (gen_next_pure g x H) as (r & E & K). rewrite E.
  destruct r as [[[t x']|]|e]; simpl; auto.
  specialize (IH g x' (K _ _ eq_refl)). destruct (drain n g x') as [g' [l|e]]; auto.
Qed.

(** keys are never dropped *)
Lemma idx_set_keys : forall ix a b c t a' d, tget ix a' = Some d ->
  exists d', tget (idx_set ix a b c t) a' = Some d' /\ (forall k, In k (dkeys d) -> In k (dkeys d')).
Proof.
  intros. rewrite idx_set_eq, dget_dset. destruct (term_eq_dec a a') as [->|n].
  - eexists; split; [reflexivity|]. intros k Hk. apply In_dkeys_dset. right. unfold gd. rewrite H. auto.
  - eauto.
Qed.
Lemma idx_del_keys : forall ix a b c a' d, tget ix a' = Some d ->
  exists d', tget (fst (idx_del ix a b c)) a' = Some d' /\ (forall k, In k (dkeys d) -> In k (dkeys d')).
Proof.
  intros ix a b c a' d H. unfold idx_del.
  pose proof (gd_touch _ ix a) as H1. pose proof (tset_touch _ ix a) as H2.
  destruct (touch ix a) as [ix1 d1]. simpl in *. subst.
  pose proof (gd_touch _ (gd ix a) b) as H3. pose proof (tset_touch _ (gd ix a) b) as H4.
  assert (H5 : forall k, In k (dkeys (gd ix a)) -> In k (dkeys (fst (touch (gd ix a) b)))).
  { intros k Hk. unfold touch. destruct (tget (gd ix a) b); simpl; [auto|]. apply In_dkeys_dset; auto. }
  destruct (touch (gd ix a) b) as [d1' d2]. simpl in *. subst.
  destruct (tget (gd (gd ix a) b) c); simpl; rewrite H2, dget_dset; destruct (term_eq_dec a a') as [->|n]; eauto.
  - eexists; split; [reflexivity|]. intros k Hk. rewrite H4. apply In_dkeys_dset. right.
    unfold gd. rewrite H. auto.
  - eexists; split; [reflexivity|]. intros k Hk. apply H5. unfold gd. rewrite H. auto.
Qed.

Lemma gen_keys_add : forall g t x, gen_keys g x -> gen_keys (g_add g t) x.
Proof.
  intros g t x H. destruct x as [| | |w a ou or b u r|]; simpl in *; auto.
  destruct H as (d & Ha & Hk).
  destruct w; simpl in *;
    match goal with |- exists d, tget (idx_set _ ?a ?b ?c ?t) _ = _ /\ _ =>
      destruct (idx_set_keys _ a b c t _ _ Ha) as (d' & E & K) end; eauto.
Qed.
Lemma gen_keys_remove : forall g t x, gen_keys g x -> gen_keys (fst (g_remove g t)) x.
Proof.
  intros g t x H. destruct x as [| | |w a ou or b u r|]; simpl in *; auto.
  destruct H as (d & Ha & Hk). unfold g_remove.
  destruct (in_dec stmt_eq_dec t (g_triples g)); [|simpl; eauto].
  assert (D : forall (ix : index) a0 b0 c0, g_index g w = ix ->
    exists d', tget (fst (idx_del ix a0 b0 c0)) a = Some d' /\ (forall k, In k or -> In k (dkeys d'))).
  { intros ix a0 b0 c0 <-. destruct (idx_del_keys _ a0 b0 c0 _ _ Ha) as (d' & E & K). eauto. }
  destruct w; simpl in D;
  specialize (D _ (st_s t) (st_p t) (st_o t) eq_refl) as D1;
  specialize (D _ (st_p t) (st_o t) (st_s t) eq_refl) as D2;
  specialize (D _ (st_o t) (st_s t) (st_p t) eq_refl) as D3; simpl in Ha;
  destruct (idx_del (g_spo g) (st_s t) (st_p t) (st_o t)) as [spo [[]|]];
  simpl; eauto;
  destruct (idx_del (g_pos g) (st_p t) (st_o t) (st_s t)) as [pos [[]|]];
  simpl; eauto;
  destruct (idx_del (g_osp g) (st_o t) (st_s t) (st_p t)) as [osp [[]|]];
  simpl; eauto.
Qed.

(** *** Draining *)

Definition gen_rest (g : graph) (x : gen) : list stmt :=
  match x with
  | GStart s p o => g_match g s p o
  | GDone => []
  | GVals _ _ _ _ rem => rem
  | GNest w a _ orem _ _ rem =>
      rem ++ concat (map (fun b => dvals (gd (gd (g_index g w) a) b)) orem)
  | GSet _ rem => rem
  end.

Definition gen_ok (g : graph) (x : gen) : Prop :=
  match x with
  | GVals w a b u _ => exists d e, tget (g_index g w) a = Some d /\ tget d b = Some e /\ length e = u
  | GNest w a ou orem b u _ =>
      exists d e, tget (g_index g w) a = Some d /\ tget d b = Some e /\ length e = u /\
        length d = ou /\ (forall k, In k orem -> In k (dkeys d))
  | GSet u _ => length (g_triples g) = u
  | _ => True
  end.

(** one step of a generator over an unchanged graph *)
Definition step_ok (g : graph) (rest : list stmt) (r : graph * res (option (stmt * gen))) : Prop :=
  match rest with
  | [] => r = (g, Ok None)
  | t :: rest' => exists x', r = (g, Ok (Some (t, x'))) /\ gen_ok g x' /\ gen_rest g x' = rest'
  end.

Lemma nest_outer_ok : forall g w a ou d, tget (g_index g w) a = Some d -> length d = ou ->
  forall orem, (forall k, In k orem -> In k (dkeys d)) ->
  step_ok g (concat (map (fun b => dvals (gd (gd (g_index g w) a) b)) orem)) (nest_outer g w a ou orem).
Proof.
  intros g w a ou d Ha Hd orem. induction orem as [|b orem IH]; intros Hk; simpl;
    rewrite (touch_present _ _ _ _ Ha), set_index_same, Hd, Nat.eqb_refl.
  - simpl. auto.
  - destruct (In_key_dget term_eq_dec d b) as [e He]; [apply Hk; simpl; auto|].
    rewrite (touch2_present _ _ _ _ _ Ha He), set_index_same.
    assert (G : gd (gd (g_index g w) a) b = e).
    { unfold gd at 2. rewrite Ha. unfold gd. rewrite He. auto. }
    rewrite G.
    destruct (dvals e) as [|t r] eqn:Ev; simpl.
    + apply IH. intros; apply Hk; simpl; auto.
    + eexists. split; [reflexivity|]. split; [|reflexivity]. simpl.
      exists d, e. repeat split; auto. intros; apply Hk; simpl; auto.
Qed.

Lemma vals_next_ok : forall g w a b u d e rem,
  tget (g_index g w) a = Some d -> tget d b = Some e -> length e = u ->
  step_ok g rem (g, vals_next g w a b u rem).
Proof.
  intros g w a b u d e rem Ha Hb Hu. unfold vals_next. rewrite Ha, Hb, Hu, Nat.eqb_refl.
  destruct rem as [|t rem]; simpl; [auto|].
  eexists; split; [reflexivity|]. simpl. eauto 6.
Qed.

Lemma vals_start_ok : forall g w a b,
  step_ok g (idx_vals2 (g_index g w) a b) (vals_start g w a b).
Proof.
  intros. unfold idx_vals2, vals_start, dmem.
  destruct (tget (g_index g w) a) as [d|] eqn:Ea; [|simpl; auto].
  rewrite (touch_present _ _ _ _ Ea), set_index_same.
  destruct (tget d b) as [e|] eqn:Eb; [|simpl; auto].
  rewrite (touch2_present _ _ _ _ _ Ea Eb), set_index_same.
  eapply vals_next_ok; eauto.
Qed.

Lemma concat_by_keys : forall (d : dict term (dict term stmt)), NoDup (dkeys d) ->
  concat (map (fun kv => dvals (snd kv)) d) = concat (map (fun b => dvals (gd d b)) (dkeys d)).
Proof.
  intros d ND. unfold dkeys. rewrite map_map. f_equal. apply map_ext_in. intros [k v] H. simpl.
  unfold gd. rewrite (In_dget term_eq_dec _ k v); auto.
Qed.

Lemma nest_start_ok : forall g w a, nodup3 (g_index g w) ->
  step_ok g (idx_vals1 (g_index g w) a) (nest_start g w a).
Proof.
  intros g w a (N1 & N2 & N3). unfold idx_vals1, nest_start, dmem.
  destruct (tget (g_index g w) a) as [d|] eqn:Ea; [|simpl; auto].
  rewrite (touch_present _ _ _ _ Ea), set_index_same.
  rewrite concat_by_keys.
  2:{ specialize (N2 a). unfold gd in N2. rewrite Ea in N2. auto. }
  pose proof (nest_outer_ok g w a _ d Ea eq_refl (dkeys d) (fun k H => H)) as H.
  unfold gd at 2 in H. rewrite Ea in H. auto.
Qed.

Lemma wf_nodup3 : forall g w, wf g -> nodup3 (g_index g w).
Proof. intros g w (_ & _ & H1 & H2 & H3). destruct w; simpl; [apply H1|apply H2|apply H3]. Qed.

Lemma gen_next_ok : forall g x, wf g -> gen_ok g x -> step_ok g (gen_rest g x) (gen_next g x).
Proof.
  intros g x W H.
  assert (TS : step_ok g (g_triples g)
     (match g_triples g with [] => (g, Ok None) | t :: r => (g, Ok (Some (t, GSet (length (g_triples g)) r))) end)).
  { destruct (g_triples g) as [|t l] eqn:E; simpl; [auto|].
    eexists; split; [reflexivity|]. simpl. rewrite E. auto. }
  assert (VS := vals_start_ok g). assert (NS := fun w a => nest_start_ok g w a (wf_nodup3 g w W)).
  destruct x as [s p o| |w a b u r|w a ou or b u r|u r].
  - simpl. unfold g_match.
    destruct s as [s|], p as [p|], o as [o|];
    repeat match goal with |- context [if oterm_truthy ?x then _ else _] => destruct (oterm_truthy x) end;
    try apply (VS SPO); try apply (VS POS); try apply (VS OSP);
    try apply (NS SPO); try apply (NS POS); try apply (NS OSP);
    try exact TS.
    destruct (g_contains g (Tr s p o)); simpl; [|auto].
    exists GDone. auto.
  - simpl. auto.
  - simpl in *. destruct H as (d & e & A & B & C). eapply vals_next_ok; eauto.
  - simpl in *. destruct H as (d & e & A & B & C & D & K).
    pose proof (vals_next_ok g w a b u d e r A B C) as V.
    destruct r as [|t r]; simpl in *.
    + injection V as ->. eapply nest_outer_ok; eauto.
    + destruct V as (x' & V & _ & _). injection V as ->.
      eexists; split; [reflexivity|]. simpl. split; [|auto]. exists d, e. auto.
  - simpl in *. subst. rewrite Nat.eqb_refl. destruct r; simpl; [auto|].
    eexists; split; [reflexivity|]. simpl. auto.
Qed.

Lemma drain_ok : forall n g x, wf g -> gen_ok g x -> length (gen_rest g x) < n ->
  drain n g x = (g, Ok (gen_rest g x)).
Proof.
  induction n as [|n IH]; intros g x W H L; [lia|]. simpl.
  pose proof (gen_next_ok g x W H) as S. destruct (gen_rest g x) as [|t l] eqn:E; simpl in *.
  - rewrite S. auto.
  - destruct S as (x' & S1 & S2 & S3). rewrite S1.
    rewrite (IH g x' W S2) by (rewrite S3; lia). rewrite S3. auto.
Qed.

Lemma drain_match : forall n g s p o, wf g -> length (g_match g s p o) < n ->
  drain n g (GStart s p o) = (g, Ok (g_match g s p o)).
Proof. intros. apply (drain_ok n g (GStart s p o)); simpl; auto. Qed.

(** a match listing is never longer than the graph *)
Lemma g_match_length : forall g s p o, wf g -> length (g_match g s p o) <= length (g_triples g).
Proof.
  intros. destruct (g_match_lists g s p o H) as [ND HL].
  apply NoDup_incl_length; [auto|]. intros x Hx. apply HL in Hx. tauto.
Qed.

(** *** removeMatches *)

(** a generator that checks a container size, suspended right after yielding *)
Definition after_yield (g : graph) (t : stmt) (x : gen) : Prop :=
  match x with
  | GVals w a b u _ | GNest w a _ _ b u _ =>
      exists d e, tget (g_index g w) a = Some d /\ tget d b = Some e /\ length e = u /\ In t (dvals e)
  | GSet u _ => length (g_triples g) = u /\ In t (g_triples g)
  | _ => False
  end.

Lemma remove_shrinks : forall k1 k2 k3 ix ts w g g' t a b d e,
  idx_ok k1 k2 k3 ix ts -> ix = g_index g w ->
  tget ix a = Some d -> tget d b = Some e -> In t (dvals e) ->
  g_index g' w = tset ix (k1 t) (tset (gd ix (k1 t)) (k2 t) (tdel (gd (gd ix (k1 t)) (k2 t)) (k3 t))) ->
  exists d' e', tget (g_index g' w) a = Some d' /\ tget d' b = Some e' /\ S (length e') = length e.
Proof.
  intros k1 k2 k3 ix ts w g g' t a b d e OK -> Ha Hb Hi ->.
  assert (G : gd (gd (g_index g w) a) b = e).
  { unfold gd at 2. rewrite Ha. unfold gd. rewrite Hb. auto. }
  pose proof (dvals_lists _ _ _ _ _ OK a b) as [_ L]. rewrite G in L.
  apply L in Hi. destruct Hi as (Hi & E1 & E2). subst a b.
  exists (tset d (k2 t) (tdel e (k3 t))), (tdel e (k3 t)).
  assert (gd (g_index g w) (k1 t) = d) by (unfold gd; rewrite Ha; auto).
  rewrite G, H, !dget_dset_eq. repeat split; auto.
  eapply length_ddel. destruct OK as [_ OK].
  pose proof (proj2 (OK (k1 t) (k2 t) (k3 t) t) (conj Hi (conj eq_refl (conj eq_refl eq_refl)))) as Q.
  unfold lookup3 in Q. rewrite G in Q. eauto.
Qed.

Lemma remove_then_next : forall g t x g', wf g -> after_yield g t x -> In t (g_triples g) ->
  g_remove g t = (g', Ok tt) -> gen_next g' x = (g', Err RuntimeError).
Proof.
  intros g t x g' W A Hi R.
  destruct (g_remove_present g t W Hi) as (g'' & R' & W' & _ & Ht & E1 & E2 & E3).
  rewrite R in R'. injection R' as <-.
  destruct W as (ND & _ & H1 & H2 & H3).
  assert (V : forall w a b u r, (exists d e, tget (g_index g w) a = Some d /\ tget d b = Some e /\
     length e = u /\ In t (dvals e)) -> vals_next g' w a b u r = Err RuntimeError).
  { intros w a b u r (d & e & A1 & A2 & A3 & A4).
    assert (Q : exists d' e', tget (g_index g' w) a = Some d' /\ tget d' b = Some e' /\ S (length e') = length e).
    { destruct w; simpl in A1.
      - eapply (remove_shrinks _ _ _ _ _ SPO g g' t a b d e H1); eauto.
      - eapply (remove_shrinks _ _ _ _ _ POS g g' t a b d e H2); eauto.
      - eapply (remove_shrinks _ _ _ _ _ OSP g g' t a b d e H3); eauto. }
    destruct Q as (d' & e' & Q1 & Q2 & Q3). unfold vals_next. rewrite Q1, Q2.
    destruct (length e' =? u) eqn:El; [apply Nat.eqb_eq in El; lia|auto]. }
  destruct x as [s p o| |w a b u r|w a ou or b u r|u r]; simpl in *; try contradiction.
  - rewrite V; auto.
  - rewrite V; auto.
  - destruct A as [A1 A2]. rewrite Ht.
    pose proof (set_remove_length t _ ND A2).
    destruct (length (set_remove t (g_triples g)) =? u) eqn:El; [apply Nat.eqb_eq in El; lia|auto].
Qed.

Lemma first_yield : forall g s p o t x, wf g ->
  gen_next g (GStart s p o) = (g, Ok (Some (t, x))) ->
  (bound s /\ bound p /\ bound o /\ x = GDone) \/ after_yield g t x.
Proof.
  intros g s p o t x W.
  assert (VS : forall w a b, vals_start g w a b = (g, Ok (Some (t, x))) -> after_yield g t x).
  { intros w a b. unfold vals_start, dmem.
    destruct (tget (g_index g w) a) as [d|] eqn:Ea; [|discriminate].
    rewrite (touch_present _ _ _ _ Ea), set_index_same.
    destruct (tget d b) as [e|] eqn:Eb; [|discriminate].
    rewrite (touch2_present _ _ _ _ _ Ea Eb), set_index_same.
    unfold vals_next. rewrite Ea, Eb, Nat.eqb_refl. destruct (dvals e) as [|t' r] eqn:Ev; [discriminate|].
    intros [= <- <-]. simpl. exists d, e. rewrite Ev. simpl. auto. }
  assert (NO : forall w a d ou orem, tget (g_index g w) a = Some d -> (forall b, In b orem -> In b (dkeys d)) ->
     nest_outer g w a ou orem = (g, Ok (Some (t, x))) -> after_yield g t x).
  { intros w a d ou orem Ea. induction orem as [|b orem IH]; intros Hk; simpl;
      rewrite (touch_present _ _ _ _ Ea), set_index_same; destruct (length d =? ou); try discriminate.
    destruct (In_key_dget term_eq_dec d b) as [e He]; [apply Hk; simpl; auto|].
    rewrite (touch2_present _ _ _ _ _ Ea He), set_index_same.
    destruct (dvals e) as [|t' r] eqn:Ev.
    - apply IH. intros; apply Hk; simpl; auto.
    - intros [= <- <-]. simpl. exists d, e. rewrite Ev. simpl. auto. }
  assert (NS : forall w a, nest_start g w a = (g, Ok (Some (t, x))) -> after_yield g t x).
  { intros w a. unfold nest_start, dmem.
    destruct (tget (g_index g w) a) as [d|] eqn:Ea; [|discriminate].
    rewrite (touch_present _ _ _ _ Ea), set_index_same. eapply NO; eauto. }
  assert (TS : (match g_triples g with [] => (g, Ok None) | t :: r => (g, Ok (Some (t, GSet (length (g_triples g)) r))) end)
     = (g, Ok (Some (t, x))) -> after_yield g t x).
  { destruct (g_triples g) as [|t' r] eqn:E; [discriminate|]. intros [= <- <-].
    simpl. rewrite E. simpl. auto. }
  simpl.
  destruct s as [s|], p as [p|], o as [o|];
  repeat match goal with |- context [if oterm_truthy ?x then _ else _] =>
    let E := fresh "E" in destruct (oterm_truthy x) eqn:E end;
  intros HN; eauto.
  destruct (g_contains g (Tr s p o)); [|discriminate].
  injection HN as <- <-. left. rewrite <- !oterm_truthy_true. auto.
Qed.

Lemma removeMatches_spec : forall g s p o, wf g ->
  (g_match g s p o = [] /\ g_removeMatches g s p o = (g, Ok tt)) \/
  (exists t l g', g_match g s p o = t :: l /\ In t (g_triples g) /\ g_remove g t = (g', Ok tt) /\
     ((bound s /\ bound p /\ bound o /\ l = [] /\ g_removeMatches g s p o = (g', Ok tt)) \/
      (~ (bound s /\ bound p /\ bound o) /\ g_removeMatches g s p o = (g', Err RuntimeError)))).
Proof.
  intros g s p o W. unfold g_removeMatches.
  pose proof (gen_next_ok g (GStart s p o) W I) as S. simpl gen_rest in S.
  destruct (g_match g s p o) as [|t l] eqn:E; unfold step_ok in S.
  - left. split; [auto|]. cbn [rm_loop]. rewrite S. auto.
  - right. destruct S as (x' & S1 & S2 & S3).
    assert (Hi : In t (g_triples g)).
    { apply (proj2 (g_match_lists g s p o W) t). rewrite E. simpl; auto. }
    destruct (g_remove_present g t W Hi) as (g' & R & W' & _ & Ht & _).
    exists t, l, g'. repeat split; auto.
    destruct (first_yield _ _ _ _ _ _ W S1) as [(B1 & B2 & B3 & ->)|A].
    + left. simpl in S3. repeat split; auto; try apply B1; try apply B2; try apply B3.
      cbn [rm_loop]. rewrite S1, R.
      destruct (length (g_triples g)); reflexivity.
    + right. split.
      * intros (B1 & B2 & B3). apply oterm_truthy_true in B1, B2, B3.
        destruct s as [s|], p as [p|], o as [o|]; try discriminate.
        simpl in S1. rewrite B1, B2, B3 in S1.
        destruct (g_contains _ _); [|discriminate]. injection S1 as <- <-. simpl in A. auto.
      * cbn [rm_loop]. rewrite S1, R.
        assert (L : length (g_triples g) <> 0) by (destruct (g_triples g); simpl in *; [tauto|discriminate]).
        destruct (length (g_triples g)) as [|k]; [congruence|]. cbn [rm_loop].
        rewrite (remove_then_next g t x' g' W A Hi R). auto.
Qed.
