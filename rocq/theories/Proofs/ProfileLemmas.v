(** Lemmas about profiles as heap objects: C40-C42, C75. *)
From Verif Require Import Model.Py Model.Terms Model.Curie Spec.CurieSpec Spec.ProfileSpec
  Proofs.DictLemmas Proofs.CodecLemmas Proofs.CurieLemmas Proofs.CurieMore.

Lemma length_upd : forall {A} (l : list A) i x, length (upd l i x) = length l.
Proof. induction l as [|a l IH]; intros [|i] x; cbn; auto. Qed.
Lemma nth_upd : forall {A} (l : list A) i j x d, (i < length l)%nat -> nth j (upd l i x) d = if Nat.eq_dec i j then x else nth j l d.
Proof.
  induction l as [|a l IH]; intros [|i] [|j] x d L; cbn in L; try lia; cbn [upd nth]; try reflexivity.
  rewrite IH by lia. destruct (Nat.eq_dec i j), (Nat.eq_dec (S i) (S j)); congruence.
Qed.
Lemma nth_upd_neq : forall {A} (l : list A) i j x d, i <> j -> nth j (upd l i x) d = nth j l d.
Proof. induction l as [|a l IH]; intros [|i] [|j] x d L; cbn [upd nth]; try reflexivity; [congruence|]. apply IH. congruence. Qed.

Definition heap_ok (h : heap) : Prop :=
  Forall (fun pt => fst pt < length (h_pms h) /\ snd pt < length (h_tms h))%nat (h_profs h) /\
  Forall (fun m => NoDup (map fst m)) (h_pms h) /\ Forall (fun m => NoDup (map fst (tm_items m))) (h_tms h).
Lemma Forall_nth' : forall {A} (P : A -> Prop) l d i, Forall P l -> P d -> P (nth i l d).
Proof. intros A P l d i F D. revert i. induction F; intros [|i]; cbn; auto. Qed.
Lemma Forall_upd : forall {A} (P : A -> Prop) l i x, Forall P l -> P x -> Forall P (upd l i x).
Proof. intros A P l i x F. revert i. induction F; intros [|i] X; cbn; constructor; auto. Qed.
Lemma Forall_nth_lt : forall {A} (P : A -> Prop) l d i, Forall P l -> (i < length l)%nat -> P (nth i l d).
Proof. intros A P l d i F. revert i. induction F; intros [|i] L; cbn in *; try lia; auto. apply IHF. lia. Qed.
Lemma prof_range : forall h i, heap_ok h -> (i < length (h_profs h))%nat ->
  (fst (prof h i) < length (h_pms h) /\ snd (prof h i) < length (h_tms h))%nat.
Proof. intros h i [F _] L. unfold prof. exact (Forall_nth_lt _ _ _ _ F L). Qed.
Lemma pm_nodup : forall h i, heap_ok h -> NoDup (map fst (pm_at h i)).
Proof. intros h i (_ & F & _). unfold pm_at. apply (Forall_nth' (fun m => NoDup (map fst m))); [exact F|constructor]. Qed.
Lemma tm_nodup : forall h i, heap_ok h -> NoDup (map fst (tm_items (tm_at h i))).
Proof. intros h i (_ & _ & F). unfold tm_at. apply (Forall_nth' (fun m => NoDup (map fst (tm_items m)))); [exact F|constructor]. Qed.

Lemma pm_at_put : forall h i j m, (i < length (h_pms h))%nat -> pm_at (pm_put h i m) j = if Nat.eq_dec i j then m else pm_at h j.
Proof. intros. unfold pm_at, pm_put. cbn [h_pms]. now apply nth_upd. Qed.
Lemma tm_at_put : forall h i j m, (i < length (h_tms h))%nat -> tm_at (tm_put h i m) j = if Nat.eq_dec i j then m else tm_at h j.
Proof. intros. unfold tm_at, tm_put. cbn [h_tms]. now apply nth_upd. Qed.
Lemma pm_put_same : forall h i j m, tm_at (pm_put h i m) j = tm_at h j.
Proof. reflexivity. Qed.
Lemma heap_ok_pm_put : forall h i m, heap_ok h -> NoDup (map fst m) -> heap_ok (pm_put h i m).
Proof.
  intros h i m (A & B & C) D. split; [|split]; cbn [pm_put h_pms h_tms h_profs]; [|apply Forall_upd; assumption|exact C].
  rewrite length_upd. exact A.
Qed.
Lemma heap_ok_tm_put : forall h i m, heap_ok h -> NoDup (map fst (tm_items m)) -> heap_ok (tm_put h i m).
Proof.
  intros h i m (A & B & C) D. split; [|split]; cbn [tm_put h_pms h_tms h_profs]; [|exact B|apply Forall_upd; assumption].
  rewrite length_upd. exact A.
Qed.
Lemma heap_ok_pm_alloc : forall h m, heap_ok h -> NoDup (map fst m) -> heap_ok (fst (pm_alloc h m)).
Proof.
  intros h m (A & B & C) D. split; [|split]; cbn [fst pm_alloc h_pms h_tms h_profs]; [|apply Forall_app; auto|exact C].
  rewrite app_length. eapply Forall_impl; [|exact A]. cbn. intros x X. lia.
Qed.
Lemma heap_ok_tm_alloc : forall h m, heap_ok h -> NoDup (map fst (tm_items m)) -> heap_ok (fst (tm_alloc h m)).
Proof.
  intros h m (A & B & C) D. split; [|split]; cbn [fst tm_alloc h_pms h_tms h_profs]; [|exact B|apply Forall_app; auto].
  rewrite app_length. eapply Forall_impl; [|exact A]. cbn. intros x X. lia.
Qed.
Lemma add_missing_nodup : forall m k v, NoDup (map fst m) -> NoDup (map fst (add_missing m k v)).
Proof. intros m k v D. unfold add_missing. destruct (dmem str_eq_dec m k); [exact D|now apply NoDup_dset]. Qed.
Lemma add_missing_get : forall m k v k', sget (add_missing m k v) k' =
  match sget m k' with Some x => Some x | None => if str_eq_dec k k' then Some v else None end.
Proof.
  intros m k v k'. unfold add_missing. destruct (dmem str_eq_dec m k) eqn:E.
  - destruct (sget m k') eqn:G; [reflexivity|]. destruct (str_eq_dec k k') as [->|]; [|reflexivity].
    unfold dmem in E. rewrite G in E. discriminate.
  - rewrite dget_dset. destruct (str_eq_dec k k') as [->|].
    + unfold dmem in E. now destruct (sget m k').
    + now destruct (sget m k').
Qed.

(** what Profile(p, t) does *)
Definition with_defaults (m : dict str str) : dict str str :=
  add_missing (add_missing m (s2l "rdf") rdf_ns) (s2l "xsd") xsd_ns.
Record new_profile (h : heap) (p t : option nat) (h' : heap) (a b : nat) : Prop := {
  np_profs : h_profs h' = h_profs h ++ [(a, b)];
  np_a : (given_pm h p <> [] -> p = Some a /\ length (h_pms h') = length (h_pms h)) /\
         (given_pm h p = [] -> a = length (h_pms h) /\ length (h_pms h') = S (length (h_pms h)));
  np_b : (tm_items (given_tm h t) <> [] -> t = Some b /\ h_tms h' = h_tms h) /\
         (tm_items (given_tm h t) = [] -> b = length (h_tms h) /\ h_tms h' = h_tms h ++ [mkTM [] None]);
  np_pm : pm_at h' a = with_defaults (given_pm h p);
  np_other : forall i, i <> a -> pm_at h' i = pm_at h i
}.
Lemma profile_new_spec : forall h p t, pop_ok h (NewProfile p t) ->
  exists a b, new_profile h p t (fst (profile_new h p t)) a b /\ snd (profile_new h p t) = length (h_profs h).
Proof.
  intros h p t [Rp Rt].
  (* the prefix map *)
  assert (P : exists h1 a, (match p with
                  | Some i => match pm_at h i with [] => pm_alloc h [] | _ => (h, i) end
                  | None => pm_alloc h []
                  end) = (h1, a) /\ h_profs h1 = h_profs h /\ h_tms h1 = h_tms h /\ (a < length (h_pms h1))%nat /\
     pm_at h1 a = given_pm h p /\ (forall i, pm_at h1 i = pm_at h i) /\
     (given_pm h p <> [] -> p = Some a /\ length (h_pms h1) = length (h_pms h)) /\
     (given_pm h p = [] -> a = length (h_pms h) /\ length (h_pms h1) = S (length (h_pms h)))).
  { assert (New : given_pm h p = [] -> exists h1 a, pm_alloc h [] = (h1, a) /\ h_profs h1 = h_profs h /\ h_tms h1 = h_tms h /\ (a < length (h_pms h1))%nat /\
     pm_at h1 a = given_pm h p /\ (forall i, pm_at h1 i = pm_at h i) /\
     (given_pm h p <> [] -> p = Some a /\ length (h_pms h1) = length (h_pms h)) /\
     (given_pm h p = [] -> a = length (h_pms h) /\ length (h_pms h1) = S (length (h_pms h)))).
    { intro E. exists (mkH (h_pms h ++ [[]]) (h_tms h) (h_profs h)), (length (h_pms h)). split; [reflexivity|]. split; [reflexivity|].
      split; [reflexivity|]. cbn [h_pms]. rewrite app_length. cbn [length]. split; [lia|]. unfold pm_at. cbn [h_pms].
      split; [rewrite E, app_nth2, Nat.sub_diag by lia; reflexivity|]. split.
      - intro i. destruct (Nat.lt_ge_cases i (length (h_pms h))) as [L|L]; [now rewrite app_nth1|].
        rewrite app_nth2 by lia. rewrite (nth_overflow (h_pms h)) by lia. destruct (i - length (h_pms h))%nat as [|[|k]]; reflexivity.
      - split; [congruence|]. intros _. split; [reflexivity|lia]. }
    destruct p as [i|]; [|apply New; reflexivity]. cbn [given_pm] in *. destruct (pm_at h i) as [|x y] eqn:E; [apply New; reflexivity|].
    exists h, i. rewrite E. split; [reflexivity|]. split; [reflexivity|]. split; [reflexivity|]. split; [now apply Rp|]. split; [reflexivity|].
    split; [reflexivity|]. split; [auto|discriminate]. }
  destruct P as (h1 & a & E1 & Pf1 & Tm1 & La & Ga & Oa & Ne1 & Em1).
  assert (Q : exists h2 b, (match t with
                  | Some i => match tm_items (tm_at h1 i) with [] => tm_alloc h1 (mkTM [] None) | _ => (h1, i) end
                  | None => tm_alloc h1 (mkTM [] None)
                  end) = (h2, b) /\ h_profs h2 = h_profs h1 /\ h_pms h2 = h_pms h1 /\
     (tm_items (given_tm h t) <> [] -> t = Some b /\ h_tms h2 = h_tms h) /\
     (tm_items (given_tm h t) = [] -> b = length (h_tms h) /\ h_tms h2 = h_tms h ++ [mkTM [] None])).
  { assert (New : tm_items (given_tm h t) = [] -> exists h2 b, tm_alloc h1 (mkTM [] None) = (h2, b) /\ h_profs h2 = h_profs h1 /\ h_pms h2 = h_pms h1 /\
     (tm_items (given_tm h t) <> [] -> t = Some b /\ h_tms h2 = h_tms h) /\
     (tm_items (given_tm h t) = [] -> b = length (h_tms h) /\ h_tms h2 = h_tms h ++ [mkTM [] None])).
    { intro E. eexists _, _. split; [reflexivity|]. cbn [h_profs h_pms h_tms]. rewrite Tm1. split; [reflexivity|]. split; [reflexivity|].
      split; [congruence|]. auto. }
    destruct t as [i|]; [|apply New; reflexivity]. assert (X : tm_at h1 i = tm_at h i) by (unfold tm_at; now rewrite Tm1).
    rewrite X. cbn [given_tm] in *. destruct (tm_items (tm_at h i)) as [|x y] eqn:E; [apply New; reflexivity|].
    exists h1, i. split; [reflexivity|]. split; [reflexivity|]. split; [reflexivity|]. split; [auto|discriminate]. }
  destruct Q as (h2 & b & E2 & Pf2 & Pm2 & Ne2 & Em2).
  exists a, b. unfold profile_new. rewrite E1, E2. cbn [fst snd]. cbn [pm_put h_profs]. rewrite Pf2, Pf1. split; [|reflexivity].
  set (h3 := pm_put h2 a (add_missing (pm_at h2 a) (s2l "rdf") rdf_ns)).
  set (h4 := pm_put h3 a (add_missing (pm_at h3 a) (s2l "xsd") xsd_ns)).
  assert (A2 : forall i, pm_at h2 i = pm_at h i) by (intro i; unfold pm_at at 1; rewrite Pm2; apply Oa).
  assert (A3 : forall i, pm_at h3 i = if Nat.eq_dec a i then add_missing (given_pm h p) (s2l "rdf") rdf_ns else pm_at h i).
  { intro i. unfold h3. rewrite pm_at_put by (rewrite Pm2; exact La). unfold pm_at at 1. rewrite Pm2. fold (pm_at h1 a). rewrite Ga. destruct (Nat.eq_dec a i); [reflexivity|apply A2]. }
  assert (A4 : forall i, pm_at h4 i = if Nat.eq_dec a i then with_defaults (given_pm h p) else pm_at h i).
  { intro i. unfold h4. rewrite pm_at_put by (unfold h3; cbn [pm_put h_pms]; rewrite length_upd, Pm2; exact La). rewrite !A3.
    destruct (Nat.eq_dec a a); [|congruence]. destruct (Nat.eq_dec a i); reflexivity. }
  constructor.
  - reflexivity.
  - unfold h4, h3. cbn [pm_put h_pms]. rewrite !length_upd, Pm2. auto.
  - unfold h4, h3. cbn [pm_put h_tms]. auto.
  - change (pm_at h4 a = with_defaults (given_pm h p)). rewrite A4. destruct (Nat.eq_dec a a); congruence.
  - intros i Ni. change (pm_at h4 i = pm_at h i). rewrite A4. destruct (Nat.eq_dec a i); congruence.
Qed.

Lemma with_defaults_get : forall m k, sget (with_defaults m) k =
  match sget m k with
  | Some x => Some x
  | None => if str_eq_dec (s2l "rdf") k then Some rdf_ns else if str_eq_dec (s2l "xsd") k then Some xsd_ns else None
  end.
Proof.
  intros m k. unfold with_defaults. rewrite !add_missing_get. destruct (sget m k); [reflexivity|].
  destruct (str_eq_dec (s2l "rdf") k); reflexivity.
Qed.

(** ** an operation keeps the heap well formed *)
Lemma nth_In' : forall {A} (l : list A) i d, (i < length l)%nat -> In (nth i l d) l.
Proof. intros. now apply nth_In. Qed.
Lemma heap_ok_new : forall h p t, heap_ok h -> pop_ok h (NewProfile p t) -> heap_ok (fst (profile_new h p t)).
Proof.
  intros h p t OK R. destruct (profile_new_spec h p t R) as (a & b & [Pf A B Pm Ot] & _). set (h' := fst (profile_new h p t)) in *.
  assert (La : (a < length (h_pms h') /\ length (h_pms h) <= length (h_pms h'))%nat).
  { destruct (given_pm h p) eqn:E; [destruct (proj2 A eq_refl); lia|].
    destruct A as [A _]. destruct A as [A1 A2]; [discriminate|]. destruct R as [R _]. pose proof (R _ A1). lia. }
  assert (Lb : (b < length (h_tms h') /\ length (h_tms h) <= length (h_tms h'))%nat).
  { destruct (tm_items (given_tm h t)) eqn:E.
    - destruct (proj2 B eq_refl) as [B1 B2]. rewrite B2, app_length. cbn. lia.
    - destruct B as [B _]. destruct B as [B1 B2]; [discriminate|]. destruct R as [_ R]. pose proof (R _ B1). rewrite B2. lia. }
  split; [|split].
  - rewrite Pf. apply Forall_app. split; [|constructor; [cbn; lia|constructor]].
    destruct OK as [F _]. eapply Forall_impl; [|exact F]. cbn. intros x X. lia.
  - apply Forall_forall. intros m I. apply In_nth with (d := []) in I. destruct I as (i & L & <-). fold (pm_at h' i).
    destruct (Nat.eq_dec i a) as [->|N]; [|rewrite Ot by assumption; now apply pm_nodup].
    rewrite Pm. unfold with_defaults. do 2 apply add_missing_nodup. destruct p; [now apply pm_nodup|constructor].
  - destruct OK as (_ & _ & F). destruct (tm_items (given_tm h t)) eqn:E.
    + destruct (proj2 B eq_refl) as [_ ->]. apply Forall_app. split; [exact F|]. constructor; [constructor|constructor].
    + destruct B as [B _]. destruct B as [_ ->]; [discriminate|]. exact F.
Qed.
Lemma pstep_ok : forall h op, heap_ok h -> pop_ok h op -> heap_ok (pstep h op).
Proof.
  intros h op OK R. destruct op; cbn [pstep].
  - apply heap_ok_tm_put; [exact OK|]. now apply tm_nodup.
  - apply heap_ok_pm_put; [exact OK|]. apply NoDup_dset. now apply pm_nodup.
  - apply heap_ok_tm_put; [exact OK|]. cbn [tm_items]. apply NoDup_dset. now apply tm_nodup.
  - apply heap_ok_pm_put; [exact OK|]. apply NoDup_dset. now apply pm_nodup.
  - apply heap_ok_tm_put.
    + apply heap_ok_pm_put; [exact OK|]. apply NoDup_map_addAll. now apply pm_nodup.
    + cbn [tm_addAll tm_items]. apply NoDup_map_addAll. apply tm_nodup. apply heap_ok_pm_put; [exact OK|]. apply NoDup_map_addAll. now apply pm_nodup.
  - now apply heap_ok_new.
  - cbn in R. destruct empty; apply heap_ok_new; auto.
    + split; discriminate.
    + destruct (prof_range _ _ OK R). split; intros ? [= <-]; assumption.
  - apply heap_ok_tm_alloc; [exact OK|]. destruct empty; [constructor|now apply tm_nodup].
  - apply heap_ok_pm_alloc; [exact OK|]. destruct empty; [constructor|now apply pm_nodup].
  - apply heap_ok_pm_put; [exact OK|]. apply NoDup_dset. now apply pm_nodup.
  - apply heap_ok_tm_put; [exact OK|]. cbn [tm_items]. apply NoDup_dset. now apply tm_nodup.
Qed.
Lemma prun_ok : forall ops h, heap_ok h -> valid_run h ops -> heap_ok (prun h ops).
Proof. induction ops as [|op ops IH]; intros h OK R; [exact OK|]. destruct R as [R1 R2]. cbn. apply IH; [now apply pstep_ok|exact R2]. Qed.
Lemma reach_ok : forall h, reach h -> heap_ok h.
Proof. intros h (ops & R & ->). apply prun_ok; [|exact R]. repeat split; constructor. Qed.
Lemma valid_run_app : forall a b h, valid_run h (a ++ b) <-> valid_run h a /\ valid_run (prun h a) b.
Proof. induction a as [|x a IH]; intros b h; cbn; [tauto|]. rewrite IH. unfold prun. tauto. Qed.
Lemma prun_app : forall a b h, prun h (a ++ b) = prun (prun h a) b.
Proof. intros. unfold prun. apply fold_left_app. Qed.
Lemma reach_run : forall h ops, reach h -> valid_run h ops -> reach (prun h ops).
Proof.
  intros h ops (o & R & ->) V. exists (o ++ ops). split; [now apply valid_run_app|]. now rewrite prun_app.
Qed.

(** ** profiles never change their maps *)
Lemma pstep_profs : forall h op, exists l, h_profs (pstep h op) = h_profs h ++ l.
Proof.
  intros h op. destruct op; cbn [pstep]; try (exists []; cbn; now rewrite app_nil_r).
  - unfold profile_new. destruct (match prefixes with Some _ => _ | None => _ end) as [h1 p] eqn:E1.
    destruct (match terms with Some _ => _ | None => _ end) as [h2 t] eqn:E2. exists [(p, t)]. cbn.
    assert (h_profs h1 = h_profs h) by (destruct prefixes as [i|]; [destruct (pm_at h i)|]; inversion E1; reflexivity).
    assert (h_profs h2 = h_profs h1) by (destruct terms as [i|]; [destruct (tm_items (tm_at h1 i))|]; inversion E2; reflexivity).
    congruence.
  - destruct empty; [eexists; reflexivity|].
    unfold profile_new. destruct (match pm_at h (fst (prof h i)) with [] => _ | _ => _ end) as [h1 p] eqn:E1.
    destruct (match tm_items (tm_at h1 (snd (prof h i))) with [] => _ | _ => _ end) as [h2 t] eqn:E2. exists [(p, t)]. cbn.
    assert (h_profs h1 = h_profs h) by (destruct (pm_at h (fst (prof h i))); inversion E1; reflexivity).
    assert (h_profs h2 = h_profs h1) by (destruct (tm_items (tm_at h1 (snd (prof h i)))); inversion E2; reflexivity).
    congruence.
Qed.
Lemma prun_profs : forall ops h, exists l, h_profs (prun h ops) = h_profs h ++ l.
Proof.
  induction ops as [|op ops IH]; intro h; [exists []; cbn; now rewrite app_nil_r|].
  destruct (pstep_profs h op) as [l1 E1]. destruct (IH (pstep h op)) as [l2 E2]. exists (l1 ++ l2). cbn. unfold prun in E2. rewrite E2, E1. now rewrite app_assoc.
Qed.
Lemma prof_stable : forall ops h i, (i < length (h_profs h))%nat -> prof (prun h ops) i = prof h i.
Proof. intros ops h i L. destruct (prun_profs ops h) as [l E]. unfold prof. rewrite E. now apply app_nth1. Qed.
Lemma profs_grow : forall ops h, (length (h_profs h) <= length (h_profs (prun h ops)))%nat.
Proof. intros ops h. destruct (prun_profs ops h) as [l E]. rewrite E, app_length. lia. Qed.

(** ** every reachable profile knows rdf and xsd *)
Definition knows (h : heap) : Prop :=
  Forall (fun pt => sget (pm_at h (fst pt)) (s2l "rdf") <> None /\ sget (pm_at h (fst pt)) (s2l "xsd") <> None) (h_profs h).
Definition grows (m m' : dict str str) : Prop := forall k, sget m k <> None -> sget m' k <> None.
Lemma grows_sset : forall m k v, grows m (sset m k v).
Proof. intros m k v k' H. rewrite dget_dset. destruct (str_eq_dec k k'); [discriminate|exact H]. Qed.
Lemma grows_addAll_keep : forall o m, grows m (addAll_keep m o).
Proof.
  induction o as [|[k v] o IH]; intros m k' H; [exact H|]. unfold addAll_keep. cbn [fold_left fst snd].
  fold (addAll_keep (if dmem str_eq_dec m k then m else sset m k v) o). apply IH. destruct (dmem str_eq_dec m k); [exact H|now apply grows_sset].
Qed.
Lemma grows_dupdate : forall o m, grows m (dupdate str_eq_dec m o).
Proof. unfold dupdate. induction o as [|[k v] o IH]; intros m k' H; [exact H|]. cbn [fold_left fst snd]. apply IH. now apply grows_sset. Qed.
Lemma grows_addAll : forall m o ov, grows m (map_addAll m o ov).
Proof. intros m o []; [apply grows_dupdate|apply grows_addAll_keep]. Qed.
Lemma pm_grows : forall h op i, heap_ok h -> pop_ok h op -> grows (pm_at h i) (pm_at (pstep h op) i).
Proof.
  intros h op i OK R. destruct op as [j iri|j iri|j tm iri|j p iri|j j' o|p t|j e|j e|j e|a p iri|a tm iri]; cbn [pstep].
  - intros k H. exact H.
  - destruct (prof_range h j OK R) as [L _]. rewrite pm_at_put by exact L. destruct (Nat.eq_dec _ i) as [<-|]; [apply grows_sset|intros k H; exact H].
  - intros k H. exact H.
  - destruct (prof_range h j OK R) as [L _]. rewrite pm_at_put by exact L. destruct (Nat.eq_dec _ i) as [<-|]; [apply grows_sset|intros k H; exact H].
  - destruct R as [R R']. destruct (prof_range h j OK R) as [L _]. change (grows (pm_at h i) (pm_at (pm_put h (fst (prof h j)) (map_addAll (prof_pm h j) (prof_pm h j') o)) i)).
    rewrite pm_at_put by exact L. destruct (Nat.eq_dec _ i) as [<-|]; [apply grows_addAll|intros k H; exact H].
  - destruct (profile_new_spec h p t R) as (a & b & [Pf A B Pm Ot] & _). destruct (Nat.eq_dec i a) as [->|N].
    + rewrite Pm. intros k H. rewrite with_defaults_get. destruct (given_pm h p) eqn:E.
      * destruct (proj2 A eq_refl) as [-> _]. exfalso. apply H. unfold pm_at. now rewrite nth_overflow.
      * destruct A as [A _]. destruct A as [-> _]; [discriminate|]. cbn [given_pm] in E. rewrite <- E. destruct (sget (pm_at h a) k); [discriminate|congruence].
    + rewrite Ot by assumption. intros k H. exact H.
  - assert (X : exists p t, pop_ok h (NewProfile p t) /\ fst (if e then profile_new h None None else profile_new h (Some (fst (prof h j))) (Some (snd (prof h j)))) = fst (profile_new h p t)).
    { cbn in R. destruct e; eexists _, _; (split; [|reflexivity]); [split; discriminate|]. destruct (prof_range _ _ OK R). split; intros ? [= <-]; assumption. }
    destruct X as (p & t & R' & ->).
    destruct (profile_new_spec h p t R') as (a & b & [Pf A B Pm Ot] & _). destruct (Nat.eq_dec i a) as [->|N].
    + rewrite Pm. intros k H. rewrite with_defaults_get. destruct (given_pm h p) eqn:E.
      * destruct (proj2 A eq_refl) as [-> _]. exfalso. apply H. unfold pm_at. now rewrite nth_overflow.
      * destruct A as [A _]. destruct A as [-> _]; [discriminate|]. cbn [given_pm] in E. rewrite <- E. destruct (sget (pm_at h a) k); [discriminate|congruence].
    + rewrite Ot by assumption. intros k H. exact H.
  - intros k H. exact H.
  - intros k H. unfold pm_at in *. cbn [pm_alloc fst h_pms]. destruct (Nat.lt_ge_cases i (length (h_pms h))) as [L|L]; [now rewrite app_nth1|].
    exfalso. apply H. now rewrite nth_overflow.
  - rewrite pm_at_put by exact R. destruct (Nat.eq_dec _ i) as [<-|]; [apply grows_sset|intros k H; exact H].
  - intros k H. exact H.
Qed.
(** the profile an operation makes, if any *)
Lemma pstep_new : forall h op, heap_ok h -> pop_ok h op ->
  h_profs (pstep h op) = h_profs h \/
  exists p t a b, pop_ok h (NewProfile p t) /\ (op = NewProfile p t \/ exists i, op = CreateProfile i true /\ p = None /\ t = None \/
      op = CreateProfile i false /\ (i < length (h_profs h))%nat /\ p = Some (fst (prof h i)) /\ t = Some (snd (prof h i))) /\
    new_profile h p t (pstep h op) a b.
Proof.
  intros h op OK R. destruct op as [j iri|j iri|j tm iri|j p iri|j j' o|p t|j e|j e|j e|a p iri|a tm iri]; try (left; reflexivity); right.
  - destruct (profile_new_spec h p t R) as (a & b & N & _). exists p, t, a, b. split; [exact R|]. split; [now left|exact N].
  - destruct e.
    + assert (R' : pop_ok h (NewProfile None None)) by (split; discriminate).
      destruct (profile_new_spec h None None R') as (a & b & N & _). exists None, None, a, b. split; [exact R'|]. split; [|exact N]. right. exists j. now left.
    + assert (R' : pop_ok h (NewProfile (Some (fst (prof h j))) (Some (snd (prof h j))))).
      { destruct (prof_range _ _ OK R). split; intros ? [= <-]; assumption. }
      destruct (profile_new_spec _ _ _ R') as (a & b & N & _). eexists _, _, a, b. split; [exact R'|]. split; [|exact N]. right. exists j. right. auto.
Qed.
Lemma pstep_knows : forall h op, heap_ok h -> pop_ok h op -> knows h -> knows (pstep h op).
Proof.
  intros h op OK R K. assert (G : forall i, grows (pm_at h i) (pm_at (pstep h op) i)) by (intro i; now apply pm_grows).
  assert (O : Forall (fun pt => sget (pm_at (pstep h op) (fst pt)) (s2l "rdf") <> None /\ sget (pm_at (pstep h op) (fst pt)) (s2l "xsd") <> None) (h_profs h)).
  { eapply Forall_impl; [|exact K]. intros pt [A B]. split; now apply G. }
  unfold knows. destruct (pstep_new h op OK R) as [->|(p & t & a & b & _ & _ & N)]; [exact O|].
  rewrite (np_profs _ _ _ _ _ _ N). apply Forall_app. split; [exact O|]. constructor; [|constructor]. cbn [fst].
  rewrite (np_pm _ _ _ _ _ _ N). rewrite !with_defaults_get. split.
  - destruct (sget (given_pm h p) (s2l "rdf")); [discriminate|]. destruct (str_eq_dec _ _); [discriminate|congruence].
  - destruct (sget (given_pm h p) (s2l "xsd")); [discriminate|]. destruct (str_eq_dec (s2l "rdf") _); [discriminate|]. destruct (str_eq_dec _ _); [discriminate|congruence].
Qed.
Lemma reach_knows : forall h, reach h -> knows h.
Proof.
  intros h (ops & R & ->). assert (OK : heap_ok heap0) by (repeat split; constructor). assert (K : knows heap0) by constructor.
  revert R OK K. generalize heap0. induction ops as [|op ops IH]; intros h R OK K; [exact K|]. destruct R as [R1 R2]. cbn.
  apply IH; [exact R2|now apply pstep_ok|now apply pstep_knows].
Qed.
Lemma prof_pm_nonempty : forall h i, reach h -> (i < length (h_profs h))%nat -> prof_pm h i <> [].
Proof.
  intros h i R L. apply reach_knows in R. pose proof (Forall_nth_lt _ _ (O, O) _ R L) as [A _]. fold (prof h i) in A.
  intro E. unfold prof_pm in E. rewrite E in A. now apply A.
Qed.

(** ** C42: sharing *)
Lemma create_profile_shares : forall h env ops, reach h -> (env < length (h_profs h))%nat ->
  let n := length (h_profs h) in
  let h' := prun (pstep h (CreateProfile env false)) ops in
  (n < length (h_profs h'))%nat /\ fst (prof h' n) = fst (prof h' env) /\
  (tm_items (prof_tm h env) <> [] -> snd (prof h' n) = snd (prof h' env)) /\
  (tm_items (prof_tm h env) = [] -> snd (prof h' n) <> snd (prof h' env)).
Proof.
  intros h env ops R L n h'. pose proof (reach_ok h R) as OK.
  destruct (prof_range _ _ OK L) as [Lp Lt].
  assert (R' : pop_ok h (NewProfile (Some (fst (prof h env))) (Some (snd (prof h env))))) by (split; intros ? [= <-]; assumption).
  destruct (profile_new_spec _ _ _ R') as (a & b & [Pf A B Pm Ot] & _).
  assert (Ea : a = fst (prof h env)).
  { destruct A as [A _]. pose proof (prof_pm_nonempty h env R L) as NE. destruct (A NE) as [[= E] _]. congruence. }
  assert (Pn : prof (pstep h (CreateProfile env false)) n = (a, b)).
  { unfold prof. cbn [pstep]. rewrite Pf. unfold n. rewrite app_nth2, Nat.sub_diag by lia. reflexivity. }
  assert (Pe : prof (pstep h (CreateProfile env false)) env = prof h env).
  { unfold prof. cbn [pstep]. rewrite Pf. now rewrite app_nth1. }
  assert (Ln : (n < length (h_profs (pstep h (CreateProfile env false))))%nat).
  { cbn [pstep]. rewrite Pf, app_length. unfold n. cbn. lia. }
  assert (Le : (env < length (h_profs (pstep h (CreateProfile env false))))%nat) by (unfold n in Ln; lia).
  unfold h'. rewrite !prof_stable by assumption. rewrite Pn, Pe. cbn [fst snd].
  split; [eapply Nat.lt_le_trans; [exact Ln|apply profs_grow]|]. split; [exact Ea|].
  cbn [given_tm] in B. split; intro H.
  - destruct (proj1 B H) as [[= E] _]. congruence.
  - destruct (proj2 B H) as [-> _]. lia.
Qed.
Lemma set_prefix_get : forall h i k v, heap_ok h -> (i < length (h_profs h))%nat ->
  forall j, (j < length (h_profs h))%nat -> forall k', sget (prof_pm (pstep h (SetPrefix i k v)) j) k' =
    if Nat.eq_dec (fst (prof h i)) (fst (prof h j)) then (if str_eq_dec k k' then Some v else sget (prof_pm h j) k') else sget (prof_pm h j) k'.
Proof.
  intros h i k v OK L j Lj k'. destruct (prof_range _ _ OK L) as [Lp _]. unfold prof_pm at 1. cbn [pstep].
  change (prof (pm_put h (fst (prof h i)) (sset (prof_pm h i) k v)) j) with (prof h j). rewrite pm_at_put by exact Lp.
  destruct (Nat.eq_dec (fst (prof h i)) (fst (prof h j))) as [E|N]; [|reflexivity]. rewrite dget_dset. unfold prof_pm. now rewrite E.
Qed.
Lemma set_term_get : forall h i k v, heap_ok h -> (i < length (h_profs h))%nat ->
  forall j, (j < length (h_profs h))%nat -> forall k', sget (tm_items (prof_tm (pstep h (SetTerm i k v)) j)) k' =
    if Nat.eq_dec (snd (prof h i)) (snd (prof h j)) then (if str_eq_dec k k' then Some v else sget (tm_items (prof_tm h j)) k') else sget (tm_items (prof_tm h j)) k'.
Proof.
  intros h i k v OK L j Lj k'. destruct (prof_range _ _ OK L) as [_ Lp]. unfold prof_tm at 1. cbn [pstep].
  change (prof (tm_put h (snd (prof h i)) _) j) with (prof h j). rewrite tm_at_put by exact Lp.
  destruct (Nat.eq_dec (snd (prof h i)) (snd (prof h j))) as [E|N]; [|reflexivity]. cbn [tm_items]. rewrite dget_dset. unfold prof_tm. now rewrite E.
Qed.

(** ** C42: a copy is independent *)
(** two heaps that differ at prefix map [a] only, which no profile uses *)
Record twin_pm (a : nat) (h g : heap) : Prop := {
  tw_pf : h_profs h = h_profs g;
  tw_tm : h_tms h = h_tms g;
  tw_len : length (h_pms h) = length (h_pms g);
  tw_at : forall i, i <> a -> pm_at h i = pm_at g i;
  tw_free : Forall (fun pt => fst pt <> a) (h_profs h);
  tw_lt : (a < length (h_pms h))%nat
}.
Lemma twin_put : forall a h g i m, twin_pm a h g -> i <> a -> twin_pm a (pm_put h i m) (pm_put g i m).
Proof.
  intros a h g i m [A B C D E F] N. constructor; cbn [pm_put h_profs h_tms h_pms]; auto.
  - now rewrite !length_upd.
  - intros j Nj. unfold pm_at in *. cbn [h_pms pm_put].
    destruct (Nat.lt_ge_cases i (length (h_pms h))) as [L|L].
    + rewrite !nth_upd by congruence. destruct (Nat.eq_dec i j); [reflexivity|now apply D].
    + destruct (Nat.eq_dec i j) as [->|Nij]; [rewrite (nth_overflow (upd (h_pms h) _ _)), (nth_overflow (upd (h_pms g) _ _)) by (rewrite length_upd; lia); reflexivity|].
      rewrite !nth_upd_neq by assumption. now apply D.
  - now rewrite length_upd.
Qed.
Lemma twin_tput : forall a h g i m, twin_pm a h g -> twin_pm a (tm_put h i m) (tm_put g i m).
Proof. intros a h g i m [A B C D E F]. constructor; cbn [tm_put h_profs h_tms h_pms]; auto. now rewrite B. Qed.
Lemma twin_prof : forall a h g i, twin_pm a h g -> (i < length (h_profs h))%nat -> prof h i = prof g i /\ fst (prof h i) <> a /\ prof_pm h i = prof_pm g i /\ prof_tm h i = prof_tm g i.
Proof.
  intros a h g i T L. assert (E : prof h i = prof g i) by (unfold prof; now rewrite (tw_pf _ _ _ T)).
  assert (N : fst (prof h i) <> a) by exact (Forall_nth_lt _ _ (O, O) _ (tw_free _ _ _ T) L).
  split; [exact E|]. split; [exact N|]. split.
  - unfold prof_pm. rewrite <- E. now apply (tw_at _ _ _ T).
  - unfold prof_tm, tm_at. rewrite <- E. now rewrite (tw_tm _ _ _ T).
Qed.
Lemma twin_palloc : forall a h g m, twin_pm a h g -> twin_pm a (fst (pm_alloc h m)) (fst (pm_alloc g m)).
Proof.
  intros a h g m [A B C D E F]. constructor; cbn [pm_alloc fst h_profs h_tms h_pms]; auto.
  - rewrite !app_length. lia.
  - intros i N. unfold pm_at in *. cbn [h_pms]. destruct (Nat.lt_ge_cases i (length (h_pms h))) as [L|L].
    + rewrite !app_nth1 by lia. now apply D.
    + rewrite !app_nth2 by lia. now rewrite C.
  - rewrite app_length. lia.
Qed.
Lemma twin_talloc : forall a h g m, twin_pm a h g -> twin_pm a (fst (tm_alloc h m)) (fst (tm_alloc g m)).
Proof. intros a h g m [A B C D E F]. constructor; cbn [tm_alloc fst h_profs h_tms h_pms]; auto. now rewrite B. Qed.
Lemma twin_new : forall a h g p t, twin_pm a h g -> p <> Some a -> pop_ok h (NewProfile p t) ->
  twin_pm a (fst (profile_new h p t)) (fst (profile_new g p t)).
Proof.
  intros a h g p t T N R. pose proof T as [A B C D E F].
  assert (R' : pop_ok g (NewProfile p t)) by (cbn in *; rewrite <- C, <- B; exact R).
  assert (Gp : given_pm h p = given_pm g p) by (destruct p as [i|]; [|reflexivity]; cbn; apply D; congruence).
  assert (Gt : given_tm h t = given_tm g t) by (destruct t as [i|]; [|reflexivity]; cbn; unfold tm_at; now rewrite B).
  destruct (profile_new_spec h p t R) as (x & y & [Pf X Y Pm Ot] & _). destruct (profile_new_spec g p t R') as (x' & y' & [Pf' X' Y' Pm' Ot'] & _).
  rewrite <- Gp, <- C in X'. rewrite <- Gt, <- B in Y'.
  assert (S : x = x' /\ length (h_pms (fst (profile_new h p t))) = length (h_pms (fst (profile_new g p t))) /\ x <> a /\ (a < length (h_pms (fst (profile_new h p t))))%nat).
  { destruct (given_pm h p) eqn:EG.
    - destruct (proj2 X eq_refl) as [-> ->], (proj2 X' eq_refl) as [-> ->]. lia.
    - destruct X as [X _], X' as [X' _]. destruct X as [-> ->]; [discriminate|]. destruct X' as [[= ->] ->]; [discriminate|]. repeat split; try congruence. }
  destruct S as (<- & SL & Sx & Sa).
  constructor.
  - rewrite Pf, Pf', <- A. f_equal. f_equal. f_equal. destruct (tm_items (given_tm h t)) eqn:EG.
    + destruct (proj2 Y eq_refl) as [-> _], (proj2 Y' eq_refl) as [-> _]. reflexivity.
    + destruct Y as [Y _], Y' as [Y' _]. destruct Y as [-> _]; [discriminate|]. destruct Y' as [[= ->] _]; [discriminate|]. reflexivity.
  - destruct (tm_items (given_tm h t)) eqn:EG.
    + destruct (proj2 Y eq_refl) as [_ ->], (proj2 Y' eq_refl) as [_ ->]. reflexivity.
    + destruct Y as [Y _], Y' as [Y' _]. destruct Y as [_ ->]; [discriminate|]. destruct Y' as [_ ->]; [discriminate|]. reflexivity.
  - exact SL.
  - intros i Ni. destruct (Nat.eq_dec i x) as [->|Nx]; [congruence|]. rewrite Ot, Ot' by assumption. now apply D.
  - rewrite Pf. apply Forall_app. split; [exact E|]. constructor; [exact Sx|constructor].
  - exact Sa.
Qed.
Lemma twin_step : forall a h g op, twin_pm a h g -> heap_ok h -> pop_ok h op -> no_adopt_pm a op -> (forall k v, op <> MapSet a k v) ->
  twin_pm a (pstep h op) (pstep g op).
Proof.
  intros a h g op T OK R NA NW. destruct op as [j iri|j iri|j tm iri|j p iri|j j' o|p t|j e|j e|j e|b p iri|b tm iri]; cbn [pstep].
  - destruct (twin_prof a h g j T R) as (E & N & Ep & Et). rewrite <- E, <- Et. now apply twin_tput.
  - destruct (twin_prof a h g j T R) as (E & N & Ep & Et). rewrite <- E, <- Ep. now apply twin_put.
  - destruct (twin_prof a h g j T R) as (E & N & Ep & Et). rewrite <- E, <- Et. now apply twin_tput.
  - destruct (twin_prof a h g j T R) as (E & N & Ep & Et). rewrite <- E, <- Ep. now apply twin_put.
  - destruct R as [R R']. destruct (twin_prof a h g j T R) as (E & N & Ep & Et). destruct (twin_prof a h g j' T R') as (E' & N' & Ep' & Et').
    rewrite <- E, <- Ep, <- Ep'.
    assert (T1 : twin_pm a (pm_put h (fst (prof h j)) (map_addAll (prof_pm h j) (prof_pm h j') o)) (pm_put g (fst (prof h j)) (map_addAll (prof_pm h j) (prof_pm h j') o))) by now apply twin_put.
    destruct (twin_prof a _ _ j T1 R) as (E1 & _ & _ & Et1). destruct (twin_prof a _ _ j' T1 R') as (_ & _ & _ & Et1').
    rewrite <- E1, <- Et1, <- Et1'. now apply twin_tput.
  - apply twin_new; auto. intros ->. eapply NA. reflexivity.
  - cbn in R. destruct (twin_prof a h g j T R) as (E & N & Ep & Et). destruct e; apply twin_new || idtac.
    + exact T.
    + discriminate.
    + split; discriminate.
    + rewrite <- E. apply twin_new; [exact T|congruence|]. destruct (prof_range _ _ OK R). split; intros ? [= <-]; assumption.
  - cbn in R. destruct (twin_prof a h g j T R) as (E & N & Ep & Et). rewrite <- Et. now apply twin_talloc.
  - cbn in R. destruct (twin_prof a h g j T R) as (E & N & Ep & Et). rewrite <- Ep. now apply twin_palloc.
  - assert (Nb : b <> a) by (intros ->; eapply NW; reflexivity). rewrite <- (tw_at _ _ _ T b Nb). now apply twin_put.
  - assert (Et : tm_at h b = tm_at g b) by (unfold tm_at; now rewrite (tw_tm _ _ _ T)). rewrite <- Et. now apply twin_tput.
Qed.
(** a write to [a] itself leaves the twin relation alone *)
Lemma twin_write : forall a h g k v, twin_pm a h g -> twin_pm a (pstep h (MapSet a k v)) g.
Proof.
  intros a h g k v [A B C D E F]. constructor; cbn [pstep pm_put h_profs h_tms h_pms]; auto.
  - now rewrite length_upd.
  - intros i N. unfold pm_at in *. cbn [h_pms pm_put]. rewrite nth_upd_neq by congruence. now apply D.
  - now rewrite length_upd.
Qed.
Lemma pm_untouched : forall a h op, heap_ok h -> pop_ok h op -> Forall (fun pt => fst pt <> a) (h_profs h) -> (a < length (h_pms h))%nat ->
  no_adopt_pm a op -> (forall k v, op <> MapSet a k v) -> pm_at (pstep h op) a = pm_at h a.
Proof.
  intros a h op OK R Fr L NA NW. assert (PA : forall j, (j < length (h_profs h))%nat -> fst (prof h j) <> a) by (intros j Lj; exact (Forall_nth_lt _ _ (O, O) _ Fr Lj)).
  assert (PUT : forall i m, i <> a -> pm_at (pm_put h i m) a = pm_at h a) by (intros; unfold pm_at; cbn [pm_put h_pms]; now apply nth_upd_neq).
  assert (NEW : forall p t, pop_ok h (NewProfile p t) -> p <> Some a -> pm_at (fst (profile_new h p t)) a = pm_at h a).
  { intros p t R' Np. destruct (profile_new_spec h p t R') as (x & y & [Pf X Y Pm Ot] & _). apply Ot. intros <-.
    destruct (given_pm h p); [destruct (proj2 X eq_refl); lia|]. destruct X as [X _]. destruct X as [X _]; [discriminate|]. congruence. }
  destruct op as [j iri|j iri|j tm iri|j p iri|j j' o|p t|j e|j e|j e|b p iri|b tm iri]; cbn [pstep]; try reflexivity.
  - apply PUT. now apply PA.
  - apply PUT. now apply PA.
  - destruct R as [R R']. change (pm_at (pm_put h (fst (prof h j)) (map_addAll (prof_pm h j) (prof_pm h j') o)) a = pm_at h a). apply PUT. now apply PA.
  - apply NEW; [exact R|]. intros ->. eapply NA. reflexivity.
  - cbn in R. destruct e; apply NEW; try discriminate.
    + split; discriminate.
    + destruct (prof_range _ _ OK R). split; intros ? [= <-]; assumption.
    + specialize (PA j R). congruence.
  - unfold pm_at. cbn [pm_alloc fst h_pms]. now apply app_nth1.
  - apply PUT. intros ->. eapply NW. reflexivity.
Qed.
Lemma is_map_write : forall a op, (exists k v, op = MapSet a k v) \/ (forall k v, op <> MapSet a k v).
Proof.
  intros a op. destruct op; try (right; discriminate). destruct (Nat.eq_dec a a0) as [->|N]; [left; eauto|right; congruence].
Qed.
Lemma writes_skip : forall a op, (forall k v, op <> MapSet a k v) ->
  (match op with MapSet b k v => if Nat.eqb a b then [(k, v)] else [] | _ => [] end) = @nil (str * str) /\
  (match op with MapSet b _ _ => negb (Nat.eqb a b) | _ => true end) = true.
Proof.
  intros a op N. destruct op; auto. destruct (Nat.eqb_spec a a0) as [<-|]; [|auto]. exfalso. eapply N. reflexivity.
Qed.
Lemma copy_run : forall ops a h g, twin_pm a h g -> heap_ok h -> valid_run h ops -> Forall (no_adopt_pm a) ops ->
  pm_at (prun h ops) a = dupdate str_eq_dec (pm_at h a) (pm_writes a ops) /\ twin_pm a (prun h ops) (prun g (skip_pm a ops)).
Proof.
  induction ops as [|op ops IH]; intros a h g T OK V NA; [split; [reflexivity|exact T]|].
  destruct V as [V1 V2]. inversion NA as [|? ? N1 N2]; subst. unfold pm_writes, skip_pm, prun. cbn [flat_map filter fold_left].
  fold (pm_writes a ops) (skip_pm a ops). fold (prun (pstep h op) ops).
  destruct (is_map_write a op) as [(k & v & ->)|NW].
  - rewrite Nat.eqb_refl. cbn [negb app]. destruct (IH a _ g (twin_write a h g k v T) (pstep_ok _ _ OK V1) V2 N2) as [W1 W2].
    split; [|exact W2]. rewrite W1. unfold dupdate. cbn [fold_left fst snd]. cbn [pstep]. rewrite pm_at_put by exact V1.
    destruct (Nat.eq_dec a a); [reflexivity|congruence].
  - destruct (writes_skip a op NW) as [-> ->]. cbn [app fold_left].
    destruct (IH a _ _ (twin_step a h g op T OK V1 N1 NW) (pstep_ok _ _ OK V1) V2 N2) as [W1 W2].
    split; [|exact W2]. rewrite W1. f_equal. apply pm_untouched; auto; [apply T|apply T].
Qed.
Lemma create_prefix_map : forall h env e ops, reach h -> (env < length (h_profs h))%nat ->
  let a := length (h_pms h) in
  let h1 := pstep h (CreatePrefixMap env e) in
  valid_run h1 ops -> Forall (no_adopt_pm a) ops ->
  pm_at h1 a = (if e then [] else prof_pm h env) /\
  pm_at (prun h1 ops) a = dupdate str_eq_dec (pm_at h1 a) (pm_writes a ops) /\
  forall i, (i < length (h_profs (prun h1 ops)))%nat -> prof_pm (prun h1 ops) i = prof_pm (prun h1 (skip_pm a ops)) i.
Proof.
  intros h env e ops R L a h1 V NA. pose proof (reach_ok h R) as OK.
  assert (V1 : pop_ok h (CreatePrefixMap env e)) by exact L.
  assert (T : twin_pm a h1 h1).
  { constructor; auto.
    - cbn. destruct OK as [F _]. eapply Forall_impl; [|exact F]. cbn. intros x X. unfold a. lia.
    - cbn. rewrite app_length. cbn. unfold a. lia. }
  destruct (copy_run ops a h1 h1 T (pstep_ok _ _ OK V1) V NA) as [W1 W2]. split; [|split; [exact W1|]].
  - unfold h1, a, pm_at. cbn [pstep pm_alloc fst h_pms]. rewrite app_nth2, Nat.sub_diag by lia. destruct e; reflexivity.
  - intros i Li. now apply (twin_prof a).
Qed.

(** the same for term maps *)
Record twin_tm (a : nat) (h g : heap) : Prop := {
  tt_pf : h_profs h = h_profs g;
  tt_pm : h_pms h = h_pms g;
  tt_len : length (h_tms h) = length (h_tms g);
  tt_at : forall i, i <> a -> tm_at h i = tm_at g i;
  tt_free : Forall (fun pt => snd pt <> a) (h_profs h);
  tt_lt : (a < length (h_tms h))%nat
}.
Lemma ttwin_put : forall a h g i m, twin_tm a h g -> i <> a -> twin_tm a (tm_put h i m) (tm_put g i m).
Proof.
  intros a h g i m [A B C D E F] N. constructor; cbn [tm_put h_profs h_tms h_pms]; auto.
  - now rewrite !length_upd.
  - intros j Nj. unfold tm_at in *. cbn [h_tms tm_put].
    destruct (Nat.lt_ge_cases i (length (h_tms h))) as [L|L].
    + rewrite !nth_upd by congruence. destruct (Nat.eq_dec i j); [reflexivity|now apply D].
    + destruct (Nat.eq_dec i j) as [->|Nij]; [rewrite (nth_overflow (upd (h_tms h) _ _)), (nth_overflow (upd (h_tms g) _ _)) by (rewrite length_upd; lia); reflexivity|].
      rewrite !nth_upd_neq by assumption. now apply D.
  - now rewrite length_upd.
Qed.
Lemma ttwin_pput : forall a h g i m, twin_tm a h g -> twin_tm a (pm_put h i m) (pm_put g i m).
Proof. intros a h g i m [A B C D E F]. constructor; cbn [pm_put h_profs h_tms h_pms]; auto. now rewrite B. Qed.
Lemma ttwin_prof : forall a h g i, twin_tm a h g -> (i < length (h_profs h))%nat -> prof h i = prof g i /\ snd (prof h i) <> a /\ prof_pm h i = prof_pm g i /\ prof_tm h i = prof_tm g i.
Proof.
  intros a h g i T L. assert (E : prof h i = prof g i) by (unfold prof; now rewrite (tt_pf _ _ _ T)).
  assert (N : snd (prof h i) <> a) by exact (Forall_nth_lt _ _ (O, O) _ (tt_free _ _ _ T) L).
  split; [exact E|]. split; [exact N|]. split.
  - unfold prof_pm, pm_at. rewrite <- E. now rewrite (tt_pm _ _ _ T).
  - unfold prof_tm. rewrite <- E. now apply (tt_at _ _ _ T).
Qed.
Lemma ttwin_talloc : forall a h g m, twin_tm a h g -> twin_tm a (fst (tm_alloc h m)) (fst (tm_alloc g m)).
Proof.
  intros a h g m [A B C D E F]. constructor; cbn [tm_alloc fst h_profs h_tms h_pms]; auto.
  - rewrite !app_length. lia.
  - intros i N. unfold tm_at in *. cbn [h_tms]. destruct (Nat.lt_ge_cases i (length (h_tms h))) as [L|L].
    + rewrite !app_nth1 by lia. now apply D.
    + rewrite !app_nth2 by lia. now rewrite C.
  - rewrite app_length. lia.
Qed.
Lemma ttwin_palloc : forall a h g m, twin_tm a h g -> twin_tm a (fst (pm_alloc h m)) (fst (pm_alloc g m)).
Proof. intros a h g m [A B C D E F]. constructor; cbn [pm_alloc fst h_profs h_tms h_pms]; auto. now rewrite B. Qed.
Lemma upd_same : forall {A} (l : list A) i d, upd l i (nth i l d) = l.
Proof. induction l as [|x l IH]; intros [|i] d; cbn; try reflexivity. f_equal. apply IH. Qed.
Lemma upd_upd : forall {A} (l : list A) i x y, upd (upd l i x) i y = upd l i y.
Proof. induction l as [|z l IH]; intros [|i] x y; cbn; try reflexivity. f_equal. apply IH. Qed.
(** the prefix maps made by Profile(p, t) depend only on the prefix maps *)
Lemma profile_new_pms : forall h g p t t', h_pms h = h_pms g ->
  h_pms (fst (profile_new h p t)) = h_pms (fst (profile_new g p t')).
Proof.
  intros h g p t t' E. unfold profile_new.
  destruct (match p with Some _ => _ | None => _ end) as [h1 a] eqn:E1.
  destruct (match t with Some _ => _ | None => _ end) as [h2 b] eqn:E2.
  destruct (match p with Some _ => match pm_at g _ with [] => _ | _ => _ end | None => _ end) as [g1 a'] eqn:E1'.
  destruct (match t' with Some _ => _ | None => _ end) as [g2 b'] eqn:E2'.
  assert (X : h_pms h1 = h_pms g1 /\ a = a').
  { unfold pm_at, pm_alloc in *. rewrite E in E1. destruct p as [i|]; [destruct (nth i (h_pms g) [])|]; injection E1 as <- <-; injection E1' as <- <-; cbn; rewrite ?E; auto. }
  destruct X as [X <-].
  assert (Y : h_pms h2 = h_pms h1) by (destruct t as [i|]; [destruct (tm_items (tm_at h1 i))|]; injection E2 as <- _; reflexivity).
  assert (Y' : h_pms g2 = h_pms g1) by (destruct t' as [i|]; [destruct (tm_items (tm_at g1 i))|]; injection E2' as <- _; reflexivity).
  cbn [fst h_pms pm_put]. unfold pm_at. cbn [h_pms pm_put]. rewrite Y, Y', X. reflexivity.
Qed.
Lemma ttwin_new : forall a h g p t, twin_tm a h g -> t <> Some a -> pop_ok h (NewProfile p t) ->
  twin_tm a (fst (profile_new h p t)) (fst (profile_new g p t)).
Proof.
  intros a h g p t T N R. pose proof T as [A B C D E F].
  assert (R' : pop_ok g (NewProfile p t)) by (cbn in *; rewrite <- C, <- B; exact R).
  assert (Gp : given_pm h p = given_pm g p) by (destruct p as [i|]; [|reflexivity]; cbn; unfold pm_at; now rewrite B).
  assert (Gt : given_tm h t = given_tm g t) by (destruct t as [i|]; [|reflexivity]; cbn; apply D; congruence).
  pose proof (profile_new_pms h g p t t B) as PP.
  destruct (profile_new_spec h p t R) as (x & y & [Pf X Y Pm Ot] & _). destruct (profile_new_spec g p t R') as (x' & y' & [Pf' X' Y' Pm' Ot'] & _).
  rewrite <- Gp, <- B in X'. rewrite <- Gt, <- C in Y'.
  assert (S : x = x').
  { destruct (given_pm h p) eqn:EG.
    - destruct (proj2 X eq_refl) as [-> _], (proj2 X' eq_refl) as [-> _]. reflexivity.
    - destruct X as [X _], X' as [X' _]. destruct X as [-> _]; [discriminate|]. destruct X' as [[= ->] _]; [discriminate|]. reflexivity. }
  subst x'.
  assert (S : y = y' /\ y <> a /\ length (h_tms (fst (profile_new h p t))) = length (h_tms (fst (profile_new g p t))) /\
     (a < length (h_tms (fst (profile_new h p t))))%nat /\ forall i, i <> a -> tm_at (fst (profile_new h p t)) i = tm_at (fst (profile_new g p t)) i).
  { destruct (tm_items (given_tm h t)) eqn:EG.
    - destruct (proj2 Y eq_refl) as [-> Y2], (proj2 Y' eq_refl) as [-> Y2']. unfold tm_at. rewrite Y2, Y2'. split; [reflexivity|]. split; [lia|].
      rewrite !app_length. split; [lia|]. split; [lia|]. intros i Ni. unfold tm_at in D. destruct (Nat.lt_ge_cases i (length (h_tms h))) as [L|L].
      + rewrite !app_nth1 by lia. now apply D.
      + rewrite !app_nth2 by lia. now rewrite C.
    - destruct Y as [Y _], Y' as [Y' _]. destruct Y as [-> Y2]; [discriminate|]. destruct Y' as [[= <-] Y2']; [discriminate|].
      unfold tm_at. rewrite Y2, Y2'. split; [reflexivity|]. split; [congruence|]. split; [exact C|]. split; [exact F|exact D]. }
  destruct S as (<- & Sy & SL & Sa & SD).
  constructor; auto.
  - rewrite Pf, Pf', <- A. reflexivity.
  - rewrite Pf. apply Forall_app. split; [exact E|]. constructor; [exact Sy|constructor].
Qed.
Lemma ttwin_step : forall a h g op, twin_tm a h g -> heap_ok h -> pop_ok h op -> no_adopt_tm a op -> (forall k v, op <> TermSet a k v) ->
  twin_tm a (pstep h op) (pstep g op).
Proof.
  intros a h g op T OK R NA NW. destruct op as [j iri|j iri|j tm iri|j p iri|j j' o|p t|j e|j e|j e|b p iri|b tm iri]; cbn [pstep].
  - destruct (ttwin_prof a h g j T R) as (E & N & Ep & Et). rewrite <- E, <- Et. now apply ttwin_put.
  - destruct (ttwin_prof a h g j T R) as (E & N & Ep & Et). rewrite <- E, <- Ep. now apply ttwin_pput.
  - destruct (ttwin_prof a h g j T R) as (E & N & Ep & Et). rewrite <- E, <- Et. now apply ttwin_put.
  - destruct (ttwin_prof a h g j T R) as (E & N & Ep & Et). rewrite <- E, <- Ep. now apply ttwin_pput.
  - destruct R as [R R']. destruct (ttwin_prof a h g j T R) as (E & N & Ep & Et). destruct (ttwin_prof a h g j' T R') as (E' & N' & Ep' & Et').
    rewrite <- E, <- Ep, <- Ep'.
    assert (T1 : twin_tm a (pm_put h (fst (prof h j)) (map_addAll (prof_pm h j) (prof_pm h j') o)) (pm_put g (fst (prof h j)) (map_addAll (prof_pm h j) (prof_pm h j') o))) by now apply ttwin_pput.
    destruct (ttwin_prof a _ _ j T1 R) as (E1 & N1 & _ & Et1). destruct (ttwin_prof a _ _ j' T1 R') as (_ & _ & _ & Et1').
    rewrite <- E1, <- Et1, <- Et1'. now apply ttwin_put.
  - apply ttwin_new; auto. intros ->. eapply NA. reflexivity.
  - cbn in R. destruct (ttwin_prof a h g j T R) as (E & N & Ep & Et). destruct e.
    + apply ttwin_new; [exact T|discriminate|]. split; discriminate.
    + rewrite <- E. apply ttwin_new; [exact T|congruence|]. destruct (prof_range _ _ OK R). split; intros ? [= <-]; assumption.
  - cbn in R. destruct (ttwin_prof a h g j T R) as (E & N & Ep & Et). rewrite <- Et. now apply ttwin_talloc.
  - cbn in R. destruct (ttwin_prof a h g j T R) as (E & N & Ep & Et). rewrite <- Ep. now apply ttwin_palloc.
  - assert (Et : pm_at h b = pm_at g b) by (unfold pm_at; now rewrite (tt_pm _ _ _ T)). rewrite <- Et. now apply ttwin_pput.
  - assert (Nb : b <> a) by (intros ->; eapply NW; reflexivity). rewrite <- (tt_at _ _ _ T b Nb). now apply ttwin_put.
Qed.
Lemma ttwin_write : forall a h g k v, twin_tm a h g -> twin_tm a (pstep h (TermSet a k v)) g.
Proof.
  intros a h g k v [A B C D E F]. constructor; cbn [pstep tm_put h_profs h_tms h_pms]; auto.
  - now rewrite length_upd.
  - intros i N. unfold tm_at in *. cbn [h_tms tm_put]. rewrite nth_upd_neq by congruence. now apply D.
  - now rewrite length_upd.
Qed.
Lemma tm_untouched : forall a h op, heap_ok h -> pop_ok h op -> Forall (fun pt => snd pt <> a) (h_profs h) -> (a < length (h_tms h))%nat ->
  no_adopt_tm a op -> (forall k v, op <> TermSet a k v) -> tm_at (pstep h op) a = tm_at h a.
Proof.
  intros a h op OK R Fr L NA NW. assert (PA : forall j, (j < length (h_profs h))%nat -> snd (prof h j) <> a) by (intros j Lj; exact (Forall_nth_lt _ _ (O, O) _ Fr Lj)).
  assert (PUT : forall g i m, i <> a -> tm_at (tm_put g i m) a = tm_at g a) by (intros; unfold tm_at; cbn [tm_put h_tms]; now apply nth_upd_neq).
  assert (NEW : forall p t, pop_ok h (NewProfile p t) -> t <> Some a -> tm_at (fst (profile_new h p t)) a = tm_at h a).
  { intros p t R' Np. destruct (profile_new_spec h p t R') as (x & y & [Pf X Y Pm Ot] & _). unfold tm_at.
    destruct (tm_items (given_tm h t)); [destruct (proj2 Y eq_refl) as [_ ->]; now apply app_nth1|]. destruct Y as [Y _]. destruct Y as [_ ->]; [discriminate|]. reflexivity. }
  destruct op as [j iri|j iri|j tm iri|j p iri|j j' o|p t|j e|j e|j e|b p iri|b tm iri]; cbn [pstep]; try reflexivity.
  - apply PUT. now apply PA.
  - apply PUT. now apply PA.
  - destruct R as [R R']. rewrite PUT; [reflexivity|]. exact (PA j R).
  - apply NEW; [exact R|]. intros ->. eapply NA. reflexivity.
  - cbn in R. destruct e; apply NEW; try discriminate.
    + split; discriminate.
    + destruct (prof_range _ _ OK R). split; intros ? [= <-]; assumption.
    + specialize (PA j R). congruence.
  - unfold tm_at. cbn [tm_alloc fst h_tms]. now apply app_nth1.
  - apply PUT. intros ->. eapply NW. reflexivity.
Qed.
Lemma is_term_write : forall a op, (exists k v, op = TermSet a k v) \/ (forall k v, op <> TermSet a k v).
Proof.
  intros a op. destruct op; try (right; discriminate). destruct (Nat.eq_dec a a0) as [->|N]; [left; eauto|right; congruence].
Qed.
Lemma twrites_skip : forall a op, (forall k v, op <> TermSet a k v) ->
  (match op with TermSet b k v => if Nat.eqb a b then [(k, v)] else [] | _ => [] end) = @nil (str * str) /\
  (match op with TermSet b _ _ => negb (Nat.eqb a b) | _ => true end) = true.
Proof.
  intros a op N. destruct op; auto. destruct (Nat.eqb_spec a a0) as [<-|]; [|auto]. exfalso. eapply N. reflexivity.
Qed.
Lemma tcopy_run : forall ops a h g, twin_tm a h g -> heap_ok h -> valid_run h ops -> Forall (no_adopt_tm a) ops ->
  tm_at (prun h ops) a = mkTM (dupdate str_eq_dec (tm_items (tm_at h a)) (tm_writes a ops)) (tm_default (tm_at h a)) /\ twin_tm a (prun h ops) (prun g (skip_tm a ops)).
Proof.
  induction ops as [|op ops IH]; intros a h g T OK V NA; [split; [cbn; now destruct (tm_at h a)|exact T]|].
  destruct V as [V1 V2]. inversion NA as [|? ? N1 N2]; subst. unfold tm_writes, skip_tm, prun. cbn [flat_map filter fold_left].
  fold (tm_writes a ops) (skip_tm a ops). fold (prun (pstep h op) ops).
  destruct (is_term_write a op) as [(k & v & ->)|NW].
  - rewrite Nat.eqb_refl. cbn [negb app]. destruct (IH a _ g (ttwin_write a h g k v T) (pstep_ok _ _ OK V1) V2 N2) as [W1 W2].
    split; [|exact W2]. rewrite W1. unfold dupdate. cbn [fold_left fst snd]. cbn [pstep]. rewrite tm_at_put by exact V1.
    destruct (Nat.eq_dec a a); [reflexivity|congruence].
  - destruct (twrites_skip a op NW) as [-> ->]. cbn [app fold_left].
    destruct (IH a _ _ (ttwin_step a h g op T OK V1 N1 NW) (pstep_ok _ _ OK V1) V2 N2) as [W1 W2].
    split; [|exact W2]. rewrite W1. rewrite (tm_untouched a h op); auto; [apply T|apply T].
Qed.
Lemma create_term_map : forall h env e ops, reach h -> (env < length (h_profs h))%nat ->
  let a := length (h_tms h) in
  let h1 := pstep h (CreateTermMap env e) in
  valid_run h1 ops -> Forall (no_adopt_tm a) ops ->
  tm_at h1 a = mkTM (if e then [] else tm_items (prof_tm h env)) None /\
  tm_at (prun h1 ops) a = mkTM (dupdate str_eq_dec (tm_items (tm_at h1 a)) (tm_writes a ops)) None /\
  forall i, (i < length (h_profs (prun h1 ops)))%nat -> prof_tm (prun h1 ops) i = prof_tm (prun h1 (skip_tm a ops)) i.
Proof.
  intros h env e ops R L a h1 V NA. pose proof (reach_ok h R) as OK.
  assert (V1 : pop_ok h (CreateTermMap env e)) by exact L.
  assert (T : twin_tm a h1 h1).
  { constructor; auto.
    - cbn. destruct OK as [F _]. eapply Forall_impl; [|exact F]. cbn. intros x X. unfold a. lia.
    - cbn. rewrite app_length. cbn. unfold a. lia. }
  assert (X : tm_at h1 a = mkTM (if e then [] else tm_items (prof_tm h env)) None).
  { unfold h1, a, tm_at at 1. cbn [pstep tm_alloc fst h_tms]. rewrite app_nth2, Nat.sub_diag by lia. destruct e; reflexivity. }
  destruct (tcopy_run ops a h1 h1 T (pstep_ok _ _ OK V1) V NA) as [W1 W2]. split; [exact X|split].
  - rewrite W1, X. reflexivity.
  - intros i Li. now apply (ttwin_prof a).
Qed.

(** ** C40: importProfile *)
Lemma import_profile : forall h i j o, reach h -> (i < length (h_profs h))%nat -> (j < length (h_profs h))%nat ->
  let h' := pstep h (ImportProfile i j o) in
  (forall k, sget (prof_pm h' i) k = merged o (sget (prof_pm h i) k) (sget (prof_pm h j) k)) /\
  (forall k, sget (tm_items (prof_tm h' i)) k = merged o (sget (tm_items (prof_tm h i)) k) (sget (tm_items (prof_tm h j)) k)) /\
  tm_default (prof_tm h' i) = tm_default (prof_tm h i) /\
  (forall a, a <> fst (prof h i) -> pm_at h' a = pm_at h a) /\
  (forall a, a <> snd (prof h i) -> tm_at h' a = tm_at h a) /\
  h_profs h' = h_profs h.
Proof.
  intros h i j o R Li Lj h'. pose proof (reach_ok h R) as OK. destruct (prof_range _ _ OK Li) as [Lp Lt].
  assert (A : forall a, pm_at h' a = if Nat.eq_dec (fst (prof h i)) a then map_addAll (prof_pm h i) (prof_pm h j) o else pm_at h a) by (intro a; exact (pm_at_put h _ a _ Lp)).
  assert (B : forall a, tm_at h' a = if Nat.eq_dec (snd (prof h i)) a then tm_addAll (prof_tm h i) (prof_tm h j) o else tm_at h a).
  { intro a. exact (tm_at_put (pm_put h (fst (prof h i)) (map_addAll (prof_pm h i) (prof_pm h j) o)) _ a _ Lt). }
  assert (P : h_profs h' = h_profs h) by reflexivity. assert (Pi : prof h' i = prof h i) by reflexivity.
  split; [|split; [|split; [|split; [|split]]]].
  - intro k. unfold prof_pm at 1. rewrite A, Pi. destruct (Nat.eq_dec _ _); [|congruence]. apply map_addAll_spec. now apply pm_nodup.
  - intro k. unfold prof_tm at 1. rewrite B, Pi. destruct (Nat.eq_dec _ _); [|congruence]. cbn [tm_addAll tm_items]. apply map_addAll_spec. now apply tm_nodup.
  - unfold prof_tm at 1. rewrite B, Pi. destruct (Nat.eq_dec _ _); [|congruence]. reflexivity.
  - intros a N. rewrite A. destruct (Nat.eq_dec _ _); congruence.
  - intros a N. rewrite B. destruct (Nat.eq_dec _ _); congruence.
  - exact P.
Qed.
(** ** C41 *)
Lemma new_profile_bindings : forall h p t, reach h -> pop_ok h (NewProfile p t) ->
  let h' := pstep h (NewProfile p t) in
  let n := length (h_profs h) in
  length (h_profs h') = S n /\
  (forall k, sget (prof_pm h' n) k =
     match sget (given_pm h p) k with
     | Some x => Some x
     | None => if str_eq_dec (s2l "rdf") k then Some rdf_ns else if str_eq_dec (s2l "xsd") k then Some xsd_ns else None
     end) /\
  tm_items (prof_tm h' n) = tm_items (given_tm h t) /\
  (forall a, p = Some a -> pm_at h a = [] -> fst (prof h' n) <> a /\ pm_at h' a = []) /\
  (forall a, p = Some a -> pm_at h a <> [] -> fst (prof h' n) = a) /\
  (forall b, t = Some b -> tm_items (tm_at h b) = [] -> snd (prof h' n) <> b /\ tm_at h' b = tm_at h b /\ tm_default (prof_tm h' n) = None) /\
  (forall b, t = Some b -> tm_items (tm_at h b) <> [] -> snd (prof h' n) = b).
Proof.
  intros h p t Rh R h' n. destruct (profile_new_spec h p t R) as (a & b & [Pf A B Pm Ot] & _).
  change (fst (profile_new h p t)) with h' in *.
  assert (Pn : prof h' n = (a, b)) by (unfold prof; rewrite Pf; unfold n; rewrite app_nth2, Nat.sub_diag by lia; reflexivity).
  assert (Tb : tm_items (tm_at h' b) = tm_items (given_tm h t)).
  { destruct (tm_items (given_tm h t)) as [|x y] eqn:E.
    - destruct (proj2 B eq_refl) as [-> B2]. unfold tm_at. rewrite B2, app_nth2, Nat.sub_diag by lia. reflexivity.
    - destruct B as [B _]. destruct B as [-> B2]; [discriminate|]. cbn [given_tm] in E. unfold tm_at in *. rewrite B2. exact E. }
  split; [rewrite Pf, app_length; cbn; lia|]. unfold prof_pm, prof_tm. rewrite Pn. cbn [fst snd]. split; [intro k; rewrite Pm; apply with_defaults_get|].
  split; [exact Tb|]. split; [|split; [|split]].
  - intros x -> E. cbn [given_pm] in A. destruct (proj2 A E) as [-> _]. destruct R as [R _]. pose proof (R x eq_refl) as L. split; [lia|].
    rewrite Ot by lia. exact E.
  - intros x -> E. cbn [given_pm] in A. destruct (proj1 A E) as [[= ->] _]. reflexivity.
  - intros x -> E. cbn [given_tm] in B. destruct (proj2 B E) as [-> B2]. destruct R as [_ R]. pose proof (R x eq_refl) as L. split; [lia|].
    unfold tm_at. rewrite B2. split; [now apply app_nth1|]. rewrite app_nth2, Nat.sub_diag by lia. reflexivity.
  - intros x -> E. cbn [given_tm] in B. destruct (proj1 B E) as [[= ->] _]. reflexivity.
Qed.

(** ** Setters (C78) *)
Lemma prefix_setters : forall h i k v op, reach h -> (i < length (h_profs h))%nat ->
  op = SetPrefix i k v \/ (k = [] /\ op = SetDefaultPrefix i v) ->
  let h' := pstep h op in
  sget (prof_pm h' i) k = Some v /\ (forall k', k' <> k -> sget (prof_pm h' i) k' = sget (prof_pm h i) k') /\
  (forall a, a <> fst (prof h i) -> pm_at h' a = pm_at h a) /\ h_tms h' = h_tms h /\ h_profs h' = h_profs h.
Proof.
  intros h i k v op R L O h'. assert (E : h' = pstep h (SetPrefix i k v)) by (destruct O as [->|[-> ->]]; reflexivity). clearbody h'. subst h'.
  destruct (prof_range _ _ (reach_ok h R) L) as [Lp _]. cbn [pstep]. unfold prof_pm at 1 3.
  change (prof (pm_put h (fst (prof h i)) (sset (prof_pm h i) k v)) i) with (prof h i).
  rewrite pm_at_put by exact Lp. destruct (Nat.eq_dec (fst (prof h i)) (fst (prof h i))); [|contradiction]. repeat split.
  - apply dget_dset_eq.
  - intros k' N. apply dget_dset_neq; auto.
  - intros a N. rewrite pm_at_put by exact Lp. destruct (Nat.eq_dec _ a); congruence.
Qed.
Lemma set_term : forall h i k v, reach h -> (i < length (h_profs h))%nat ->
  let h' := pstep h (SetTerm i k v) in
  tm_resolve (prof_tm h' i) k = Some v /\
  (forall k', k' <> k -> tm_resolve (prof_tm h' i) k' = tm_resolve (prof_tm h i) k') /\
  (forall a, a <> snd (prof h i) -> tm_at h' a = tm_at h a) /\ h_pms h' = h_pms h /\ h_profs h' = h_profs h.
Proof.
  intros h i k v R L h'. unfold h'. clear h'. destruct (prof_range _ _ (reach_ok h R) L) as [_ Lt]. cbn [pstep].
  set (h' := tm_put _ _ _). assert (E : prof_tm h' i = mkTM (sset (tm_items (prof_tm h i)) k v) (tm_default (prof_tm h i))).
  { unfold prof_tm at 1. change (prof h' i) with (prof h i). unfold h'. rewrite tm_at_put by exact Lt.
    destruct (Nat.eq_dec (snd (prof h i)) (snd (prof h i))); [reflexivity|contradiction]. }
  rewrite E. repeat split.
  - unfold tm_resolve. cbn [tm_default tm_items]. rewrite dget_dset_eq. now destruct (tm_default _).
  - intros k' N. unfold tm_resolve. cbn [tm_default tm_items]. rewrite dget_dset_neq by auto. reflexivity.
  - intros a N. unfold h'. rewrite tm_at_put by exact Lt. destruct (Nat.eq_dec _ a); congruence.
Qed.
Lemma set_vocabulary : forall h i v, reach h -> (i < length (h_profs h))%nat ->
  let h' := pstep h (SetDefaultVocabulary i v) in
  (forall k, tm_resolve (prof_tm h' i) k = match sget (tm_items (prof_tm h i)) k with Some x => Some x | None => Some (v ++ k) end) /\
  (forall a, a <> snd (prof h i) -> tm_at h' a = tm_at h a) /\ h_pms h' = h_pms h /\ h_profs h' = h_profs h.
Proof.
  intros h i v R L h'. unfold h'. clear h'. destruct (prof_range _ _ (reach_ok h R) L) as [_ Lt]. cbn [pstep].
  set (h' := tm_put _ _ _). assert (E : prof_tm h' i = mkTM (tm_items (prof_tm h i)) (Some v)).
  { unfold prof_tm at 1. change (prof h' i) with (prof h i). unfold h'. rewrite tm_at_put by exact Lt.
    destruct (Nat.eq_dec (snd (prof h i)) (snd (prof h i))); [reflexivity|contradiction]. }
  rewrite E. repeat split. intros a N. unfold h'. rewrite tm_at_put by exact Lt. destruct (Nat.eq_dec _ a); congruence.
Qed.
Lemma new_prefix_used : forall h i k v op x, reach h -> (i < length (h_profs h))%nat ->
  op = SetPrefix i k v \/ (k = [] /\ op = SetDefaultPrefix i v) ->
  ~ In 58 k -> ~ In k schemes -> ~ prefix_of [91] k -> x <> [] ->
  profile_resolve (pstep h op) i (k ++ 58 :: x) = Ok (Some (v ++ x)).
Proof.
  intros h i k v op x R L O K S B X. destruct (prefix_setters h i k v op R L O) as (G & _). unfold profile_resolve.
  assert (C : str_in_char 58 (k ++ 58 :: x) = true) by (apply existsb_exists; exists 58; split; [apply in_elt|reflexivity]). rewrite C.
  assert (SP : splits (k ++ 58 :: x) k x) by (split; auto).
  assert (M : pm_resolve (prof_pm (pstep h op) i) (k ++ 58 :: x) = Ok (v ++ x)).
  { apply parse_curie_ok. apply (MeansPlain _ _ _ _ k x); auto.
    - intros inner E. destruct k as [|c k]; [discriminate E|]. injection E as -> _. apply B. now exists k.
    - now destruct k.
    - apply (MeansPrefix _ _ _ k x v); auto. now apply lookup_sget. }
  now rewrite M.
Qed.
