(** Invariants of threads in one Graph. *)
From Verif Require Import Model.Py Model.Terms Model.Graph Model.GraphThreads Spec.GraphSpec Proofs.DictLemmas Proofs.GraphInv Proofs.ThreadHeap.
From Coq Require Import Lia PeanoNat.

Definition todo (p : pos) : list which :=
  match p with Begin => [] | Idx ws => ws | Sub w _ ws | Pend w _ _ ws | Last w ws => w :: ws end.
Definition busy := nat -> option (cop * pos * nat).
Definition upd (now : busy) (i : nat) (v : option (cop * pos * nat)) : busy := fun j => if Nat.eq_dec j i then v else now j.
Definition pos_lab (n : nat) (L : nat -> label) (t : stmt) (p : pos) (r : nat) : Prop :=
  match p with
  | Sub w b _ => r < n /\ L r = (w, pre b w t)
  | Pend w b m _ => r < n /\ L r = (w, pre b w t) /\ m < n /\ L m = (w, pre b w t ++ [key12 b w t])
  | Last w _ => r < n /\ L r = (w, [key1 w t; key2 w t])
  | _ => True
  end.
Definition weak (h : heap) (now : busy) (L : nat -> label) : Prop :=
  heap_ok h L /\ forall i op p r, now i = Some (op, p, r) -> is_triple (op_stmt op) /\ pos_lab (length h) L (op_stmt op) p r.
Definition pos_walk (h : heap) (t : stmt) (p : pos) (r : nat) : Prop :=
  match p with
  | Sub w b _ | Pend w b _ _ => walk h (root w) (pre b w t) = Some r
  | Last w _ => walk h (root w) [key1 w t; key2 w t] = Some r
  | _ => True
  end.
Lemma pre_next : forall b w t, pre b w t ++ [key12 b w t] = if b then [key1 w t; key2 w t] else [key1 w t].
Proof. intros []; reflexivity. Qed.
Lemma upd_eq : forall now i v, upd now i v i = v.
Proof. intros. unfold upd. destruct (Nat.eq_dec i i); congruence. Qed.
Lemma upd_neq : forall now i v j, j <> i -> upd now i v j = now j.
Proof. intros. unfold upd. destruct (Nat.eq_dec j i); congruence. Qed.
Lemma upd_cases : forall now i v j x, upd now i v j = Some x -> j = i /\ v = Some x \/ j <> i /\ now j = Some x.
Proof. intros now i v j x E. unfold upd in E. destruct (Nat.eq_dec j i); auto. Qed.

Lemma heap_ok_alloc : forall h L l, heap_ok h L -> heap_ok (h ++ [[]]) (fun n => if n =? length h then l else L n).
Proof.
  intros h L l H. pose proof (ho_len _ _ H) as HL. split.
  - rewrite app_length. lia.
  - intro w. pose proof (root_lt _ _ w H). destruct (Nat.eqb_spec (root w) (length h)); [lia|]. apply H.
  - intro n. rewrite deref_alloc. apply H.
  - intros n k v E. rewrite deref_alloc in E. assert (NL : n < length h) by (destruct (Nat.lt_ge_cases n (length h)) as [|G]; [assumption|]; rewrite deref_out in E by exact G; discriminate).
    pose proof (ho_cell _ _ H _ _ _ E) as C. rewrite app_length. cbn [length]. destruct (Nat.eqb_spec n (length h)); [lia|]. destruct v as [m|t]; [|exact C]. destruct C as (M & S & EL). destruct (Nat.eqb_spec m (length h)); [lia|].
    split; [lia|]. auto.
Qed.
Lemma pos_lab_mono : forall n n' L L' t p r, pos_lab n L t p r -> n <= n' -> (forall m, m < n -> L' m = L m) -> pos_lab n' L' t p r.
Proof.
  intros n n' L L' t p r H LE A. destruct p; cbn in *; auto.
  - destruct H as [H1 H2]. rewrite A by exact H1. split; [lia|exact H2].
  - destruct H as (H1 & H2 & H3 & H4). rewrite !A by assumption. repeat split; auto; lia.
  - destruct H as [H1 H2]. rewrite A by exact H1. split; [lia|exact H2].
Qed.
Lemma weak_upd : forall h now L h' L' i v, weak h now L -> heap_ok h' L' -> length h <= length h' -> (forall m, m < length h -> L' m = L m) ->
  (forall op p r, v = Some (op, p, r) -> is_triple (op_stmt op) /\ pos_lab (length h') L' (op_stmt op) p r) -> weak h' (upd now i v) L'.
Proof.
  intros h now L h' L' i v [_ W] OK LE A V. split; [exact OK|]. intros j op p r E. apply upd_cases in E. destruct E as [[_ E]|[_ E]]; [now apply V|].
  destruct (W _ _ _ _ E) as [T P]. split; [exact T|]. now apply (pos_lab_mono (length h) _ L).
Qed.

(** ** A step keeps the labels, whatever the other threads do *)
Definition step_now (g : cgraph) (v : option (cop * pos * nat)) (ops : list cop) : cgraph * option (cop * pos * nat) :=
  let '(g', x) := a_step g (mkA v ops []) in (g', a_now x).
Lemma step_now_a : forall g x, step_now g (a_now x) (a_ops x) = (fst (a_step g x), a_now (snd (a_step g x))).
Proof.
  intros g [v ops out]. unfold step_now, a_step, goes, ends. cbn [a_now a_ops a_out]. destruct v as [[[op p] r]|]; [|destruct ops; reflexivity].
  destruct p as [|[|w ws]|w b ws|w b m ws|w ws].
  - destruct op as [t|t]; [reflexivity|]. destruct (in_dec stmt_eq_dec t (c_triples g)); reflexivity.
  - reflexivity.
  - reflexivity.
  - destruct (tget (deref (c_heap g) r) (key12 b w (op_stmt op))) as [[]|]; reflexivity.
  - reflexivity.
  - destruct op as [t|t]; [reflexivity|]. destruct (tget (deref (c_heap g) r) _) as [[]|]; reflexivity.
Qed.
Lemma next_lab : forall n L t b w ws r, r < n -> L r = (w, pre b w t ++ [key12 b w t]) -> pos_lab n L t (next b w ws) r.
Proof. intros n L t [] w ws r A B; cbn in *; auto. Qed.
Lemma weak_step : forall g now L i ops g' v, weak (c_heap g) now L -> (forall op, In op ops -> is_triple (op_stmt op)) ->
  step_now g (now i) ops = (g', v) -> exists L', weak (c_heap g') (upd now i v) L'.
Proof.
  intros g now L i ops g' v W TO E. destruct W as [OK WP]. assert (W : weak (c_heap g) now L) by (split; assumption).
  unfold step_now, a_step, goes, ends in E. cbn [a_now a_ops a_out] in E. set (h := c_heap g) in *. destruct (now i) as [[[op p] r]|] eqn:EN.
  2: { destruct ops as [|op ops]; cbn in E; injection E as <- <-; exists L; apply (weak_upd h now L h L); auto; intros ? ? ? [=]; subst; cbn; auto using in_eq. }
  destruct (WP _ _ _ _ EN) as [T P].
  assert (SAME : forall g'' v'', c_heap g'' = h -> (forall op p r, v'' = Some (op, p, r) -> is_triple (op_stmt op) /\ pos_lab (length h) L (op_stmt op) p r) -> exists L', weak (c_heap g'') (upd now i v'') L').
  { intros g'' v'' EH V. exists L. rewrite EH. apply (weak_upd h now L h L); auto. }
  assert (NONE : forall op p r, @None (cop * pos * nat) = Some (op, p, r) -> is_triple (op_stmt op) /\ pos_lab (length h) L (op_stmt op) p r) by discriminate.
  destruct p as [|[|w ws]|w b ws|w b m ws|w ws].
  - destruct op as [t|t]; [|destruct (in_dec stmt_eq_dec t (c_triples g))]; cbn in E; injection E as <- <-; apply SAME; auto; intros ? ? ? [= <- <- <-]; cbn; auto.
  - injection E as <- <-. now apply SAME.
  - injection E as <- <-. apply SAME; auto. intros ? ? ? [= <- <- <-]. split; [exact T|]. cbn. split; [exact (root_lt _ _ w OK)|apply OK].
  - destruct P as [RL EL]. destruct (tget (deref h r) (key12 b w (op_stmt op))) as [[n|u]|] eqn:G; cbn in E; injection E as <- <-.
    + apply SAME; auto. intros ? ? ? [= <- <- <-]. split; [exact T|]. pose proof (ho_cell _ _ OK _ _ _ G) as (NL & _ & LN). rewrite EL in LN. now apply next_lab.
    + now apply SAME.
    + exists (fun n => if n =? length h then (w, pre b w (op_stmt op) ++ [key12 b w (op_stmt op)]) else L n). cbn [c_heap].
      apply (weak_upd h now L); auto.
      * apply heap_ok_alloc, OK.
      * rewrite app_length. lia.
      * intros m M. destruct (Nat.eqb_spec m (length h)); [lia|reflexivity].
      * intros ? ? ? [= <- <- <-]. split; [exact T|]. cbn [pos_lab]. rewrite app_length, Nat.eqb_refl. cbn [length]. destruct (Nat.eqb_spec r (length h)); [lia|]. repeat split; auto; lia.
  - destruct P as (RL & EL & ML & EM). cbn in E. injection E as <- <-. cbn [c_heap]. exists L.
    assert (OK' : heap_ok (put h r (tset (deref h r) (key12 b w (op_stmt op)) (CRef m))) L).
    { apply put_ref_ok; auto; rewrite EL; [destruct b; cbn; lia|exact EM]. }
    apply (weak_upd h now L); auto; [rewrite length_put; lia|]. intros ? ? ? [= <- <- <-]. split; [exact T|]. rewrite length_put. now apply next_lab.
  - destruct P as (RL & EL). destruct op as [t|t]; cbn [op_stmt] in *.
    + cbn in E. injection E as <- <-. cbn [c_heap]. exists L. apply (weak_upd h now L); auto; [|rewrite length_put; lia|intros ? ? ? [= <- <- <-]; cbn; auto].
      apply (leaf_ok h L r w t OK RL EL (stored_d h r w t)); [apply NoDup_dset, OK|exact T|]. intros k v0 G. now apply store_cells in G.
    + destruct (tget (deref h r) (key3 w t)) eqn:G; cbn in E; injection E as <- <-; [|now apply SAME]. cbn [c_heap]. exists L.
      apply (weak_upd h now L); auto; [|rewrite length_put; lia|intros ? ? ? [= <- <- <-]; cbn; auto].
      apply (leaf_ok h L r w t OK RL EL (deleted_d h r w t)); [apply NoDup_ddel, OK|exact T|]. intros k v0 G'. left. now apply (del_cells h L r w t OK) in G'.
Qed.

(** ** Without races *)
Section Safe.
  Variable h0 : heap.
  Variable all : nat -> list cop.
  Hypothesis H1 : forall i j t, i <> j -> In (CAdd t) (all i) -> ~ In (CRemove t) (all j).
  Hypothesis H2 : forall i j t u w b, i <> j -> In (CAdd t) (all i) -> In (CAdd u) (all j) ->
    pre b w t ++ [key12 b w t] = pre b w u ++ [key12 b w u] -> walk h0 (root w) (pre b w t ++ [key12 b w t]) <> None.
  Record inv (g : cgraph) (now : busy) : Prop := {
    i_lab : exists L, weak (c_heap g) now L;
    i_trip : NoDup (c_triples g) /\ forall t, In t (c_triples g) -> is_triple t;
    i_paths : forall w ks n, walk h0 (root w) ks = Some n -> walk (c_heap g) (root w) ks = Some n;
    i_ops : forall i op p r, now i = Some (op, p, r) -> In op (all i) /\ NoDup (todo p);
    i_walk : forall i op p r, now i = Some (op, p, r) -> pos_walk (c_heap g) (op_stmt op) p r;
    i_pend : forall i op w b m ws r, now i = Some (op, Pend w b m ws, r) ->
      (exists t, op = CAdd t) /\ tget (deref (c_heap g) r) (key12 b w (op_stmt op)) = None /\ deref (c_heap g) m = [] /\ forall w' ks, walk (c_heap g) (root w') ks <> Some m;
    i_dist : forall i j op w b m ws r op' w' b' m' ws' r', i <> j -> now i = Some (op, Pend w b m ws, r) -> now j = Some (op', Pend w' b' m' ws', r') -> m <> m';
    i_add : forall t w, In t (c_triples g) -> stored (c_heap g) w t \/ exists i p r, now i = Some (CAdd t, p, r) /\ In w (todo p);
    i_del : forall t w, stored (c_heap g) w t -> In t (c_triples g) \/ exists i p r, now i = Some (CRemove t, p, r) /\ In w (todo p);
    i_in : forall i t p r, now i = Some (CAdd t, p, r) -> p <> Begin -> In t (c_triples g);
    i_rem : forall i t p r, now i = Some (CRemove t, p, r) -> p <> Begin -> ~ In t (c_triples g) /\ forall w, In w (todo p) -> stored (c_heap g) w t;
    i_one : forall i j t p r p' r', now i = Some (CRemove t, p, r) -> p <> Begin -> now j = Some (CRemove t, p', r') -> p' <> Begin -> i = j
  }.

  (** steps that change neither the triples nor what is in the dictionaries *)
  Lemma inv_quiet : forall g now i v h', inv g now ->
    (forall m, deref h' m = deref (c_heap g) m) -> (exists L, weak h' (upd now i v) L) ->
    (forall op p r, v = Some (op, p, r) -> In op (all i) /\ NoDup (todo p) /\ pos_walk (c_heap g) (op_stmt op) p r) ->
    (forall op w, (exists p r, now i = Some (op, p, r) /\ In w (todo p)) <-> (exists p r, v = Some (op, p, r) /\ In w (todo p))) ->
    (forall op p r, v = Some (op, p, r) -> p <> Begin -> exists p0 r0, now i = Some (op, p0, r0) /\ p0 <> Begin) ->
    (forall op w b m ws r, v = Some (op, Pend w b m ws, r) -> length (c_heap g) <= m /\
       (exists t, op = CAdd t) /\ tget (deref (c_heap g) r) (key12 b w (op_stmt op)) = None) ->
    inv (mkC (c_triples g) h') (upd now i v).
  Proof.
    intros g now i v h' IV D W VL VT VR VP. destruct IV as [LAB TRIP PATHS OPS WALK PEND DIST ADD DEL INN REM ONE].
    assert (WE : forall ks n, walk h' n ks = walk (c_heap g) n ks).
    { induction ks as [|k ks IH]; intro n; [reflexivity|]. cbn [walk]. rewrite D. destruct (tget (deref (c_heap g) n) k) as [[]|]; auto. }
    assert (SE : forall w t, stored h' w t <-> stored (c_heap g) w t).
    { intros w t. unfold stored. split; intros (n & A & B); exists n; [rewrite WE, D in *|rewrite WE, D]; auto. }
    assert (PW : forall t p r, pos_walk h' t p r <-> pos_walk (c_heap g) t p r) by (intros t p r; destruct p; cbn [pos_walk]; rewrite ?WE; tauto).
    assert (FL : forall op w, (exists j p r, upd now i v j = Some (op, p, r) /\ In w (todo p)) <-> (exists j p r, now j = Some (op, p, r) /\ In w (todo p))).
    { intros op w. split; intros (j & p & r & E & J).
      - apply upd_cases in E. destruct E as [[-> E]|[NE E]]; [|now exists j, p, r]. destruct (proj2 (VT op w)) as (p0 & r0 & E0 & J0); [now exists p, r|]. now exists i, p0, r0.
      - destruct (Nat.eq_dec j i) as [->|NE]; [|exists j, p, r; now rewrite upd_neq]. destruct (proj1 (VT op w)) as (p0 & r0 & E0 & J0); [now exists p, r|]. exists i, p0, r0. now rewrite upd_eq. }
    split; cbn [c_triples c_heap].
    - exact W.
    - exact TRIP.
    - intros w ks n E. rewrite WE. now apply PATHS.
    - intros j op p r E. apply upd_cases in E. destruct E as [[-> E]|[NE E]]; [|now apply (OPS j op p r)]. destruct (VL _ _ _ E) as (A & B & _). auto.
    - intros j op p r E. rewrite PW. apply upd_cases in E. destruct E as [[-> E]|[NE E]]; [now apply VL|now apply (WALK j)].
    - intros j op w b m ws r E. rewrite !D. apply upd_cases in E. destruct E as [[-> E]|[NE E]].
      + destruct (VP _ _ _ _ _ _ E) as (LM & EO & MS). split; [exact EO|]. split; [exact MS|]. split; [now apply deref_out|]. intros w' ks X. rewrite WE in X. destruct LAB as (L & OK & _). destruct (walk_root _ _ OK _ _ _ X) as [_ Y]. lia.
      + destruct (PEND _ _ _ _ _ _ _ E) as (A & B & C & X). repeat split; auto. intros w' ks. rewrite WE. apply X.
    - intros j k op w b m ws r op' w' b' m' ws' r' NE E E'. apply upd_cases in E. apply upd_cases in E'. destruct E as [[-> E]|[N1 E]], E' as [[-> E']|[N2 E']].
      + congruence.
      + destruct (VP _ _ _ _ _ _ E) as (LM & _). destruct LAB as (L & OK & WP). destruct (WP _ _ _ _ E') as [_ (_ & _ & Y & _)]. lia.
      + destruct (VP _ _ _ _ _ _ E') as (LM & _). destruct LAB as (L & OK & WP). destruct (WP _ _ _ _ E) as [_ (_ & _ & Y & _)]. lia.
      + exact (DIST j k _ _ _ _ _ _ _ _ _ _ _ _ NE E E').
    - intros t w J. rewrite SE, FL. now apply ADD.
    - intros t w J. rewrite SE in J. rewrite FL. now apply DEL.
    - intros j t p r E NB. apply upd_cases in E. destruct E as [[-> E]|[NE E]]; [|exact (INN j t p r E NB)]. destruct (VR _ _ _ E NB) as (p0 & r0 & E0 & N0). exact (INN i t p0 r0 E0 N0).
    - intros j t p r E NB. assert (G : exists k p0 r0, now k = Some (CRemove t, p0, r0) /\ p0 <> Begin).
      { apply upd_cases in E. destruct E as [[-> E]|[NE E]]; [destruct (VR _ _ _ E NB) as (p0 & r0 & E0 & N0); now exists i, p0, r0|now exists j, p, r]. }
      destruct G as (k & p0 & r0 & E0 & N0). split; [exact (proj1 (REM _ _ _ _ E0 N0))|]. intros w J. rewrite SE.
      destruct (proj1 (FL (CRemove t) w)) as (k1 & p1 & r1 & E1 & J1); [now exists j, p, r|]. apply (REM k1 t p1 r1 E1); [intros ->; contradiction|exact J1].
    - intros j k t p r p' r' E NB E' NB'. apply upd_cases in E. apply upd_cases in E'. destruct E as [[-> E]|[N1 E]], E' as [[-> E']|[N2 E']]; auto.
      + destruct (VR _ _ _ E NB) as (p0 & r0 & E0 & N0). exact (ONE i k _ _ _ _ _ E0 N0 E' NB').
      + destruct (VR _ _ _ E' NB') as (p0 & r0 & E0 & N0). exact (ONE j i _ _ _ _ _ E NB E0 N0).
      + exact (ONE j k _ _ _ _ _ E NB E' NB').
  Qed.

  Definition three := [SPO; POS; OSP].
  Lemma in_three : forall w, In w three.
  Proof. intros []; cbn; auto. Qed.
  Lemma nodup_three : NoDup three.
  Proof. repeat constructor; cbn; intuition discriminate. Qed.
  Lemma in_add : forall t l u, In u (set_add t l) <-> u = t \/ In u l.
  Proof. intros t l u. unfold set_add. destruct (in_dec stmt_eq_dec t l) as [J|J]; [split; [auto|intros [->|]; auto]|]. rewrite in_app_iff. cbn. intuition. Qed.
  Lemma nodup_add : forall t l, NoDup l -> NoDup (set_add t l).
  Proof. intros t l N. unfold set_add. destruct (in_dec stmt_eq_dec t l); [exact N|]. now apply NoDup_snoc. Qed.
  Lemma in_rem : forall t l u, In u (set_remove t l) <-> In u l /\ u <> t.
  Proof. intros t l u. unfold set_remove. split; [intro J; apply in_remove in J; tauto|intros [J N]; now apply in_in_remove]. Qed.
  Lemma nodup_rem : forall t l, NoDup l -> NoDup (set_remove t l).
  Proof.
    intros t l. unfold set_remove. induction l as [|x l IH]; intro N; [constructor|]. apply NoDup_cons_iff in N. destruct N as [A B]. cbn. destruct (stmt_eq_dec t x); [now apply IH|]. constructor; [|now apply IH].
    intro J. apply in_remove in J. tauto.
  Qed.

  Lemma inv_begin_add : forall g now i t r, inv g now -> now i = Some (CAdd t, Begin, r) ->
    (exists L, weak (c_heap g) (upd now i (Some (CAdd t, Idx three, r))) L) ->
    inv (mkC (set_add t (c_triples g)) (c_heap g)) (upd now i (Some (CAdd t, Idx three, r))).
  Proof.
    intros g now i t r IV EN W. destruct IV as [LAB TRIP PATHS OPS WALK PEND DIST ADD DEL INN REM ONE]. split; cbn [c_triples c_heap].
    - exact W.
    - destruct TRIP as [ND T]. split; [now apply nodup_add|]. intros u J. apply in_add in J. destruct J as [->|J]; [|now apply T]. destruct LAB as (L & _ & WP). apply (WP _ _ _ _ EN).
    - exact PATHS.
    - intros j op p r0 E. apply upd_cases in E. destruct E as [[-> E]|[NE E]]; [|now apply (OPS j op p r0)]. injection E as <- <- <-. split; [apply (OPS _ _ _ _ EN)|exact nodup_three].
    - intros j op p r0 E. apply upd_cases in E. destruct E as [[-> E]|[NE E]]; [injection E as <- <- <-; exact Logic.I|now apply (WALK j)].
    - intros j op w b m ws r0 E. apply upd_cases in E. destruct E as [[-> E]|[NE E]]; [discriminate|now apply (PEND j op w b m ws)].
    - intros j k op w b m ws r0 op' w' b' m' ws' r' NE E E'. apply upd_cases in E. apply upd_cases in E'. destruct E as [[-> E]|[N1 E]], E' as [[-> E']|[N2 E']]; try discriminate.
      exact (DIST j k _ _ _ _ _ _ _ _ _ _ _ _ NE E E').
    - intros u w J. apply in_add in J. destruct J as [->|J].
      + right. exists i, (Idx three), r. rewrite upd_eq. split; [reflexivity|apply in_three].
      + destruct (ADD u w J) as [A|(j & p & r0 & E & K)]; [now left|]. right. exists j, p, r0. split; [|exact K]. rewrite upd_neq; [exact E|]. intros ->. rewrite EN in E. injection E as <- <- <-. contradiction.
    - intros u w J. destruct (DEL u w J) as [A|(j & p & r0 & E & K)]; [left; apply in_add; auto|]. right. exists j, p, r0. split; [|exact K]. rewrite upd_neq; [exact E|]. intros ->. rewrite EN in E. discriminate.
    - intros j u p r0 E NB. apply in_add. apply upd_cases in E. destruct E as [[-> E]|[NE E]]; [injection E as <- <- <-; now left|right; exact (INN _ _ _ _ E NB)].
    - intros j u p r0 E NB. apply upd_cases in E. destruct E as [[-> E]|[NE E]]; [discriminate|]. destruct (REM _ _ _ _ E NB) as [A B]. split; [|exact B].
      intro J. apply in_add in J. destruct J as [->|J]; [|contradiction]. apply (H1 i j t); [congruence|apply (OPS _ _ _ _ EN)|apply (OPS _ _ _ _ E)].
    - intros j k u p r0 p' r' E NB E' NB'. apply upd_cases in E. apply upd_cases in E'. destruct E as [[-> E]|[N1 E]], E' as [[-> E']|[N2 E']]; try discriminate. exact (ONE j k _ _ _ _ _ E NB E' NB').
  Qed.
  Lemma inv_begin_rem : forall g now i t r, inv g now -> now i = Some (CRemove t, Begin, r) -> In t (c_triples g) ->
    (exists L, weak (c_heap g) (upd now i (Some (CRemove t, Idx three, r))) L) ->
    inv (mkC (set_remove t (c_triples g)) (c_heap g)) (upd now i (Some (CRemove t, Idx three, r))).
  Proof.
    intros g now i t r IV EN JT W. destruct IV as [LAB TRIP PATHS OPS WALK PEND DIST ADD DEL INN REM ONE]. destruct TRIP as [ND T]. split; cbn [c_triples c_heap].
    - exact W.
    - split; [now apply nodup_rem|]. intros u J. apply in_rem in J. now apply T.
    - exact PATHS.
    - intros j op p r0 E. apply upd_cases in E. destruct E as [[-> E]|[NE E]]; [|now apply (OPS j op p r0)]. injection E as <- <- <-. split; [apply (OPS _ _ _ _ EN)|exact nodup_three].
    - intros j op p r0 E. apply upd_cases in E. destruct E as [[-> E]|[NE E]]; [injection E as <- <- <-; exact Logic.I|now apply (WALK j)].
    - intros j op w b m ws r0 E. apply upd_cases in E. destruct E as [[-> E]|[NE E]]; [discriminate|now apply (PEND j op w b m ws)].
    - intros j k op w b m ws r0 op' w' b' m' ws' r' NE E E'. apply upd_cases in E. apply upd_cases in E'. destruct E as [[-> E]|[N1 E]], E' as [[-> E']|[N2 E']]; try discriminate.
      exact (DIST j k _ _ _ _ _ _ _ _ _ _ _ _ NE E E').
    - intros u w J. apply in_rem in J. destruct J as [J _]. destruct (ADD u w J) as [A|(j & p & r0 & E & K)]; [now left|]. right. exists j, p, r0. split; [|exact K]. rewrite upd_neq; [exact E|]. intros ->. rewrite EN in E. discriminate.
    - intros u w J. destruct (DEL u w J) as [A|(j & p & r0 & E & K)].
      + destruct (stmt_eq_dec u t) as [->|NE]; [|left; apply in_rem; auto]. right. exists i, (Idx three), r. rewrite upd_eq. split; [reflexivity|apply in_three].
      + right. exists j, p, r0. split; [|exact K]. rewrite upd_neq; [exact E|]. intros ->. rewrite EN in E. injection E as <- <- <-. contradiction.
    - intros j u p r0 E NB. apply in_rem. apply upd_cases in E. destruct E as [[-> E]|[NE E]]; [discriminate|]. split; [exact (INN _ _ _ _ E NB)|]. intros ->. apply (H1 j i t NE); [apply (OPS _ _ _ _ E)|apply (OPS _ _ _ _ EN)].
    - intros j u p r0 E NB. apply upd_cases in E. destruct E as [[-> E]|[NE E]].
      + injection E as <- <- <-. split; [rewrite in_rem; tauto|]. intros w _. destruct (ADD t w JT) as [A|(j & p & r0 & E & K)]; [exact A|]. exfalso.
        assert (NE : j <> i) by (intros ->; rewrite EN in E; discriminate). apply (H1 j i t NE); [apply (OPS _ _ _ _ E)|apply (OPS _ _ _ _ EN)].
      + destruct (REM _ _ _ _ E NB) as [A B]. split; [rewrite in_rem; tauto|exact B].
    - intros j k u p r0 p' r' E NB E' NB'. apply upd_cases in E. apply upd_cases in E'. destruct E as [[-> E]|[N1 E]], E' as [[-> E']|[N2 E']]; auto.
      + injection E as <- <- <-. exfalso. now apply (proj1 (REM _ _ _ _ E' NB')).
      + injection E' as <- <- <-. exfalso. now apply (proj1 (REM _ _ _ _ E NB)).
      + exact (ONE j k _ _ _ _ _ E NB E' NB').
  Qed.

  Lemma inv_put : forall g now i op w b m ws r h', inv g now -> now i = Some (op, Pend w b m ws, r) ->
    h' = put (c_heap g) r (tset (deref (c_heap g) r) (key12 b w (op_stmt op)) (CRef m)) ->
    (exists L, weak h' (upd now i (Some (op, next b w ws, m))) L) ->
    inv (mkC (c_triples g) h') (upd now i (Some (op, next b w ws, m))).
  Proof.
    intros g now i op w b m ws r h' IV EN EH W. destruct IV as [LAB TRIP PATHS OPS WALK PEND DIST ADD DEL INN REM ONE].
    destruct LAB as (L & OK & WP). destruct (WP _ _ _ _ EN) as [T (RL & EL & ML & EM)]. destruct (PEND _ _ _ _ _ _ _ EN) as ((t & EO) & MISS & EMPTY & UNR). subst op. cbn [op_stmt] in *.
    pose proof (WALK _ _ _ _ EN) as WR. cbn [pos_walk op_stmt] in WR. set (h := c_heap g) in *. set (k := key12 b w t) in *.
    assert (SL : length (snd (L r)) < 2) by (rewrite EL; destruct b; cbn; lia). assert (LL : L m = (fst (L r), snd (L r) ++ [k])) by (rewrite EL; exact EM).
    assert (PERS : forall ks n x, walk h n ks = Some x -> walk h' n ks = Some x) by (intros; subst h'; now apply (put_ref_walk h r m k RL MISS)).
    assert (NEW : forall ks n x, walk h' n ks = Some x -> walk h n ks = Some x \/ x = m) by (intros ks n x E; subst h'; now apply (put_ref_new h L r m k RL ML SL LL EMPTY) in E).
    assert (ST : forall w t, stored h' w t <-> stored h w t) by (intros; subst h'; now apply (put_ref_stored h L r m k)).
    assert (MR : m <> r) by (intros ->; now apply (UNR w (pre b w t))).
    assert (DN : forall n, n <> r -> deref h' n = deref h n) by (intros n NE; subst h'; now rewrite deref_put_neq by congruence).
    assert (DR : deref h' r = tset (deref h r) k (CRef m)) by (subst h'; now rewrite deref_put_eq).
    assert (WM : walk h' (root w) (pre b w t ++ [k]) = Some m).
    { rewrite walk_app, (PERS _ _ _ WR). cbn [walk]. now rewrite DR, dget_dset_eq. }
    assert (TN : todo (next b w ws) = w :: ws) by (destruct b; reflexivity). assert (NB0 : next b w ws <> Begin) by (destruct b; discriminate).
    split; cbn [c_triples c_heap].
    - exact W.
    - exact TRIP.
    - intros w' ks n E. apply PERS. now apply PATHS.
    - intros j op p r0 E. apply upd_cases in E. destruct E as [[-> E]|[NE E]]; [|now apply (OPS j op p r0)]. injection E as <- <- <-. rewrite TN. exact (OPS _ _ _ _ EN).
    - intros j op p r0 E. apply upd_cases in E. destruct E as [[-> E]|[NE E]].
      + injection E as <- <- <-. unfold k in WM. rewrite pre_next in WM. destruct b; exact WM.
      + pose proof (WALK _ _ _ _ E) as X. destruct p; cbn [pos_walk] in *; auto.
    - intros j op w' b' m' ws' r0 E. apply upd_cases in E. destruct E as [[-> E]|[NE E]]; [destruct b; discriminate|].
      destruct (PEND _ _ _ _ _ _ _ E) as ((u & ->) & MISS' & EMPTY' & UNR'). cbn [op_stmt] in *. pose proof (WALK _ _ _ _ E) as WR'. cbn [pos_walk op_stmt] in WR'.
      split; [now exists u|]. split; [|split].
      + destruct (Nat.eq_dec r0 r) as [->|NR]; [|now rewrite DN]. rewrite DR, dget_dset. destruct (term_eq_dec k (key12 b' w' u)) as [EK|NK]; [|exact MISS'].
        exfalso. destruct (walk_root _ _ OK _ _ _ WR') as [EL' _]. rewrite EL in EL'. injection EL' as <- EP.
        assert (b = b') as <- by (destruct b, b'; cbn in EP; congruence).
        assert (EQ : pre b w t ++ [key12 b w t] = pre b w u ++ [key12 b w u]) by (rewrite EP; unfold k in EK; now rewrite EK).
        pose proof (H2 i j t u w b ltac:(congruence) (proj1 (OPS _ _ _ _ EN)) (proj1 (OPS _ _ _ _ E)) EQ) as X.
        destruct (walk h0 (root w) (pre b w t ++ [key12 b w t])) as [n|] eqn:E0; [|congruence]. apply PATHS in E0. rewrite walk_app in E0. fold h in E0. rewrite WR in E0. cbn [walk] in E0. fold k in E0. rewrite MISS in E0. discriminate.
      + rewrite DN; [exact EMPTY'|]. intros ->. now apply (UNR' w (pre b w t)).
      + intros w2 ks X. destruct (NEW _ _ _ X) as [X'|X']; [now apply (UNR' w2 ks)|]. exact (DIST i j _ _ _ _ _ _ _ _ _ _ _ _ (fun e => NE (eq_sym e)) EN E (eq_sym X')).
    - intros j k' op w' b' m' ws' r0 op' w2 b2 m2 ws2 r2 NE E E'. apply upd_cases in E. apply upd_cases in E'. destruct E as [[-> E]|[N1 E]], E' as [[-> E']|[N2 E']]; try (destruct b; discriminate).
      exact (DIST j k' _ _ _ _ _ _ _ _ _ _ _ _ NE E E').
    - intros u w' J. rewrite ST. destruct (ADD u w' J) as [A|(j & p & r0 & E & K)]; [now left|]. right. destruct (Nat.eq_dec j i) as [->|NE].
      + rewrite EN in E. injection E as <- <- <-. exists i, (next b w ws), m. rewrite upd_eq, TN. auto.
      + exists j, p, r0. rewrite upd_neq by exact NE. auto.
    - intros u w' J. rewrite ST in J. destruct (DEL u w' J) as [A|(j & p & r0 & E & K)]; [now left|]. right. exists j, p, r0. split; [|exact K]. rewrite upd_neq; [exact E|]. intros ->. rewrite EN in E. discriminate.
    - intros j u p r0 E NB. apply upd_cases in E. destruct E as [[-> E]|[NE E]]; [|exact (INN _ _ _ _ E NB)]. injection E as <- _ _. apply (INN _ _ _ _ EN). discriminate.
    - intros j u p r0 E NB. apply upd_cases in E. destruct E as [[-> E]|[NE E]]; [discriminate|]. destruct (REM _ _ _ _ E NB) as [A B]. split; [exact A|]. intros w' K. rewrite ST. now apply B.
    - intros j k' u p r0 p' r' E NB E' NB'. apply upd_cases in E. apply upd_cases in E'. destruct E as [[-> E]|[N1 E]], E' as [[-> E']|[N2 E']]; try discriminate. exact (ONE j k' _ _ _ _ _ E NB E' NB').
  Qed.

  Lemma inv_store : forall g now i t w ws r h', inv g now -> now i = Some (CAdd t, Last w ws, r) ->
    h' = put (c_heap g) r (stored_d (c_heap g) r w t) ->
    (exists L, weak h' (upd now i (Some (CAdd t, Idx ws, r))) L) ->
    inv (mkC (c_triples g) h') (upd now i (Some (CAdd t, Idx ws, r))).
  Proof.
    intros g now i t w ws r h' IV EN EH W. destruct IV as [LAB TRIP PATHS OPS WALK PEND DIST ADD DEL INN REM ONE].
    destruct LAB as (L & OK & WP). destruct (WP _ _ _ _ EN) as [T (RL & EL)]. cbn [op_stmt] in *.
    pose proof (WALK _ _ _ _ EN) as WR. cbn [pos_walk op_stmt] in WR. set (h := c_heap g) in *.
    assert (HC : forall k v, tget (stored_d h r w t) k = Some v -> tget (deref h r) k = Some v \/ v = CVal t) by (intros k v E; destruct (store_cells _ _ _ _ k v E) as [|[]]; auto).
    assert (WE : forall ks n, walk h' n ks = walk h n ks) by (intros; subst h'; now apply (leaf_walk h L r w t)).
    assert (ST : forall w' u, stored h' w' u <-> stored h w' u \/ w' = w /\ u = t) by (intros; subst h'; now apply (store_stored h L r w t)).
    assert (DN : forall n, n <> r -> deref h' n = deref h n) by (intros n NE; subst h'; now rewrite deref_put_neq by congruence).
    assert (IN : In t (c_triples g)) by (apply (INN _ _ _ _ EN); discriminate).
    split; cbn [c_triples c_heap].
    - exact W.
    - exact TRIP.
    - intros w' ks n E. rewrite WE. now apply PATHS.
    - intros j op p r0 E. apply upd_cases in E. destruct E as [[-> E]|[NE E]]; [|now apply (OPS j op p r0)]. injection E as <- <- <-. destruct (OPS _ _ _ _ EN) as [A B]. split; [exact A|]. apply NoDup_cons_iff in B. apply B.
    - intros j op p r0 E. apply upd_cases in E. destruct E as [[-> E]|[NE E]]; [injection E as <- <- <-; exact Logic.I|]. pose proof (WALK _ _ _ _ E) as X. destruct p; cbn [pos_walk] in *; rewrite ?WE; auto.
    - intros j op w' b' m' ws' r0 E. apply upd_cases in E. destruct E as [[-> E]|[NE E]]; [discriminate|]. destruct (PEND _ _ _ _ _ _ _ E) as (A & MISS' & EMPTY' & UNR').
      destruct (WP _ _ _ _ E) as [_ (_ & EL' & _)]. split; [exact A|]. split; [|split].
      + rewrite DN; [exact MISS'|]. intros ->. rewrite EL in EL'. destruct b'; discriminate.
      + rewrite DN; [exact EMPTY'|]. intros ->. exact (UNR' _ _ WR).
      + intros w2 ks. rewrite WE. apply UNR'.
    - intros j k' op w' b' m' ws' r0 op' w2 b2 m2 ws2 r2 NE E E'. apply upd_cases in E. apply upd_cases in E'. destruct E as [[-> E]|[N1 E]], E' as [[-> E']|[N2 E']]; try discriminate.
      exact (DIST j k' _ _ _ _ _ _ _ _ _ _ _ _ NE E E').
    - intros u w' J. rewrite ST. destruct (ADD u w' J) as [A|(j & p & r0 & E & K)]; [now left; left|]. destruct (Nat.eq_dec j i) as [->|NE].
      + rewrite EN in E. injection E as <- <- <-. cbn [todo] in K. destruct K as [<-|K]; [left; right; auto|]. right. exists i, (Idx ws), r. rewrite upd_eq. auto.
      + right. exists j, p, r0. rewrite upd_neq by exact NE. auto.
    - intros u w' J. rewrite ST in J. destruct J as [J|[_ ->]]; [|now left]. destruct (DEL u w' J) as [A|(j & p & r0 & E & K)]; [now left|]. right. exists j, p, r0. split; [|exact K]. rewrite upd_neq; [exact E|]. intros ->. rewrite EN in E. discriminate.
    - intros j u p r0 E NB. apply upd_cases in E. destruct E as [[-> E]|[NE E]]; [|exact (INN _ _ _ _ E NB)]. injection E as <- _ _. exact IN.
    - intros j u p r0 E NB. apply upd_cases in E. destruct E as [[-> E]|[NE E]]; [discriminate|]. destruct (REM _ _ _ _ E NB) as [A B]. split; [exact A|]. intros w' K. rewrite ST. left. now apply B.
    - intros j k' u p r0 p' r' E NB E' NB'. apply upd_cases in E. apply upd_cases in E'. destruct E as [[-> E]|[N1 E]], E' as [[-> E']|[N2 E']]; try discriminate. exact (ONE j k' _ _ _ _ _ E NB E' NB').
  Qed.
  Lemma inv_delete : forall g now i t w ws r h', inv g now -> now i = Some (CRemove t, Last w ws, r) ->
    h' = put (c_heap g) r (deleted_d (c_heap g) r w t) ->
    (exists L, weak h' (upd now i (Some (CRemove t, Idx ws, r))) L) ->
    inv (mkC (c_triples g) h') (upd now i (Some (CRemove t, Idx ws, r))).
  Proof.
    intros g now i t w ws r h' IV EN EH W. destruct IV as [LAB TRIP PATHS OPS WALK PEND DIST ADD DEL INN REM ONE].
    destruct LAB as (L & OK & WP). destruct (WP _ _ _ _ EN) as [T (RL & EL)]. cbn [op_stmt] in *.
    pose proof (WALK _ _ _ _ EN) as WR. cbn [pos_walk op_stmt] in WR. set (h := c_heap g) in *.
    assert (HC : forall k v, tget (deleted_d h r w t) k = Some v -> tget (deref h r) k = Some v \/ v = CVal t) by (intros k v E; left; now apply (del_cells h L r w t OK) in E).
    assert (WE : forall ks n, walk h' n ks = walk h n ks) by (intros; subst h'; now apply (leaf_walk h L r w t)).
    assert (ST : forall w' u, stored h' w' u <-> stored h w' u /\ ~ (w' = w /\ u = t)) by (intros; subst h'; now apply (del_stored h L r w t)).
    assert (DN : forall n, n <> r -> deref h' n = deref h n) by (intros n NE; subst h'; now rewrite deref_put_neq by congruence).
    destruct (REM _ _ _ _ EN ltac:(discriminate)) as [NIN STO].
    split; cbn [c_triples c_heap].
    - exact W.
    - exact TRIP.
    - intros w' ks n E. rewrite WE. now apply PATHS.
    - intros j op p r0 E. apply upd_cases in E. destruct E as [[-> E]|[NE E]]; [|now apply (OPS j op p r0)]. injection E as <- <- <-. destruct (OPS _ _ _ _ EN) as [A B]. split; [exact A|]. apply NoDup_cons_iff in B. apply B.
    - intros j op p r0 E. apply upd_cases in E. destruct E as [[-> E]|[NE E]]; [injection E as <- <- <-; exact Logic.I|]. pose proof (WALK _ _ _ _ E) as X. destruct p; cbn [pos_walk] in *; rewrite ?WE; auto.
    - intros j op w' b' m' ws' r0 E. apply upd_cases in E. destruct E as [[-> E]|[NE E]]; [discriminate|]. destruct (PEND _ _ _ _ _ _ _ E) as (A & MISS' & EMPTY' & UNR').
      destruct (WP _ _ _ _ E) as [_ (_ & EL' & _)]. split; [exact A|]. split; [|split].
      + rewrite DN; [exact MISS'|]. intros ->. rewrite EL in EL'. destruct b'; discriminate.
      + rewrite DN; [exact EMPTY'|]. intros ->. exact (UNR' _ _ WR).
      + intros w2 ks. rewrite WE. apply UNR'.
    - intros j k' op w' b' m' ws' r0 op' w2 b2 m2 ws2 r2 NE E E'. apply upd_cases in E. apply upd_cases in E'. destruct E as [[-> E]|[N1 E]], E' as [[-> E']|[N2 E']]; try discriminate.
      exact (DIST j k' _ _ _ _ _ _ _ _ _ _ _ _ NE E E').
    - intros u w' J. rewrite ST. destruct (ADD u w' J) as [A|(j & p & r0 & E & K)]; [left; split; [exact A|intros [_ ->]; contradiction]|]. right. exists j, p, r0. split; [|exact K]. rewrite upd_neq; [exact E|]. intros ->. rewrite EN in E. discriminate.
    - intros u w' J. rewrite ST in J. destruct J as [J NJ]. destruct (DEL u w' J) as [A|(j & p & r0 & E & K)]; [now left|]. right. destruct (Nat.eq_dec j i) as [->|NE].
      + rewrite EN in E. injection E as <- <- <-. cbn [todo] in K. destruct K as [<-|K]; [exfalso; now apply NJ|]. exists i, (Idx ws), r. rewrite upd_eq. auto.
      + exists j, p, r0. rewrite upd_neq by exact NE. auto.
    - intros j u p r0 E NB. apply upd_cases in E. destruct E as [[-> E]|[NE E]]; [discriminate|exact (INN _ _ _ _ E NB)].
    - intros j u p r0 E NB. apply upd_cases in E. destruct E as [[-> E]|[NE E]].
      + injection E as <- <- <-. split; [exact NIN|]. intros w' K. rewrite ST. split; [apply STO; now right|]. intros [-> _]. destruct (OPS _ _ _ _ EN) as [_ B]. apply NoDup_cons_iff in B. now apply (proj1 B).
      + destruct (REM _ _ _ _ E NB) as [A B]. split; [exact A|]. intros w' K. rewrite ST. split; [now apply B|]. intros [_ ->]. apply NE. apply (ONE j i t p r0 (Last w ws) r); auto. discriminate.
    - intros j k' u p r0 p' r' E NB E' NB'. assert (F : forall a q s, upd now i (Some (CRemove t, Idx ws, r)) a = Some (CRemove u, q, s) -> q <> Begin -> exists q' s', now a = Some (CRemove u, q', s') /\ q' <> Begin).
      { intros a q s F NQ. apply upd_cases in F. destruct F as [[-> F]|[_ F]]; [|now exists q, s]. injection F as <- _ _. exists (Last w ws), r. split; [exact EN|discriminate]. }
      destruct (F _ _ _ E NB) as (q & x & E1 & N1). destruct (F _ _ _ E' NB') as (q' & x' & E2 & N2). exact (ONE j k' _ _ _ _ _ E1 N1 E2 N2).
  Qed.

  (** ** Steps *)
  Lemma inv_step : forall g now i ops g' v, inv g now -> (forall op, In op ops -> In op (all i) /\ is_triple (op_stmt op)) ->
    step_now g (now i) ops = (g', v) -> inv g' (upd now i v).
  Proof.
    intros g now i ops g' v IV TO E. assert (W : exists L', weak (c_heap g') (upd now i v) L').
    { destruct (i_lab _ _ IV) as (L & WL). apply (weak_step g now L i ops g' v WL); [intros op J; now apply TO|exact E]. }
    assert (GE : forall a b, mkC a b = mkC a b) by reflexivity.
    assert (EG : g = mkC (c_triples g) (c_heap g)) by (now destruct g).
    unfold step_now, a_step, goes, ends in E. cbn [a_now a_ops a_out] in E. destruct (now i) as [[[op p] r]|] eqn:EN.
    2: { destruct ops as [|op ops]; cbn in E; injection E as <- <-; rewrite EG; apply inv_quiet; auto; try discriminate.
         - rewrite EN. intros op w. split; intros (p & r & X & _); discriminate.
         - intros op' p r X. injection X as <- <- <-. split; [apply TO; now left|]. split; [constructor|exact Logic.I].
         - rewrite EN. intros op' w. split; [intros (p & r & X & _); discriminate|]. intros (p & r & X & K). injection X as <- <- <-. contradiction.
         - intros op' p r X NB. injection X as <- <- <-. congruence. }
    destruct (i_lab _ _ IV) as (L & OK & WP). destruct (WP _ _ _ _ EN) as [T PL]. pose proof (i_walk _ _ IV _ _ _ _ EN) as PW. destruct (i_ops _ _ IV _ _ _ _ EN) as [IA NT].
    destruct p as [|[|w ws]|w b ws|w b m ws|w ws].
    - destruct op as [t|t]; [|destruct (in_dec stmt_eq_dec t (c_triples g))]; cbn in E; injection E as <- <-.
      + now apply inv_begin_add.
      + now apply inv_begin_rem.
      + rewrite EG. apply inv_quiet; auto; try discriminate. rewrite EN. intros op w. split; [intros (p & r0 & X & K); injection X as <- <- <-; contradiction|intros (p & r0 & X & _); discriminate].
    - cbn in E. injection E as <- <-. rewrite EG. apply inv_quiet; auto; try discriminate. rewrite EN. intros op' w. split; [intros (p & r0 & X & K); injection X as <- <- <-; contradiction|intros (p & r0 & X & _); discriminate].
    - cbn in E. injection E as <- <-. rewrite EG. apply inv_quiet; auto; try discriminate.
      + intros op' p r0 X. injection X as <- <- <-. split; [exact IA|]. split; [exact NT|]. reflexivity.
      + rewrite EN. intros op' w'. split; intros (p & r0 & X & K); injection X as <- <- <-; [exists (Sub w false ws), (root w)|exists (Idx (w :: ws)), r]; auto.
      + intros op' p r0 X NB. injection X as <- <- <-. rewrite EN. exists (Idx (w :: ws)), r. split; [reflexivity|discriminate].
    - destruct PL as [RL EL]. cbn [pos_walk] in PW. destruct (tget (deref (c_heap g) r) (key12 b w (op_stmt op))) as [[n|u]|] eqn:G; cbn in E; injection E as <- <-.
      + rewrite EG. assert (TN : todo (next b w ws) = w :: ws) by (destruct b; reflexivity). apply inv_quiet; auto; try discriminate.
        * intros op' p r0 X. injection X as <- <- <-. split; [exact IA|]. split; [now rewrite TN|].
          assert (WN : walk (c_heap g) (root w) (pre b w (op_stmt op) ++ [key12 b w (op_stmt op)]) = Some n) by (rewrite walk_app, PW; cbn [walk]; now rewrite G).
          rewrite pre_next in WN. destruct b; exact WN.
        * rewrite EN. intros op' w'. split; intros (p & r0 & X & K); injection X as <- <- <-; [exists (next b w ws), n; rewrite TN|exists (Sub w b ws), r; rewrite TN in K]; auto.
        * intros op' p r0 X NB. injection X as <- <- <-. rewrite EN. exists (Sub w b ws), r. split; [reflexivity|discriminate].
        * intros op' w' b' m' ws' r0 X. destruct b; discriminate.
      + exfalso. pose proof (ho_cell _ _ OK _ _ _ G) as (_ & w2 & X & _). rewrite EL in X. destruct b; discriminate.
      + apply inv_quiet; auto.
        * apply deref_alloc.
        * intros op' p r0 X. injection X as <- <- <-. auto.
        * rewrite EN. intros op' w'. split; intros (p & r0 & X & K); injection X as <- <- <-; [exists (Pend w b (length (c_heap g)) ws), r|exists (Sub w b ws), r]; auto.
        * intros op' p r0 X NB. injection X as <- <- <-. rewrite EN. exists (Sub w b ws), r. split; [reflexivity|discriminate].
        * intros op' w' b' m' ws' r0 X. injection X as <- <- <- <- <- <-. split; [lia|]. split; [|exact G]. destruct op as [t|t]; [now exists t|]. exfalso.
          destruct (i_rem _ _ IV _ _ _ _ EN ltac:(discriminate)) as [_ STO]. destruct (STO w (or_introl eq_refl)) as (n & X & _). cbn [op_stmt] in *.
          change [key1 w t; key2 w t] with ([key1 w t] ++ [key2 w t]) in X. destruct b; cbn [pre key12] in *; cbn [walk app] in X.
          -- cbn [walk] in PW. destruct (tget (deref (c_heap g) (root w)) (key1 w t)) as [[y|y]|]; try discriminate. injection PW as ->. rewrite G in X. discriminate.
          -- cbn [walk] in PW. injection PW as <-. rewrite G in X. discriminate.
    - cbn in E. injection E as <- <-. eapply inv_put; eauto.
    - destruct PL as (RL & EL). cbn [pos_walk] in PW. destruct op as [t|t]; cbn [op_stmt] in *.
      + cbn in E. injection E as <- <-. eapply inv_store; eauto.
      + destruct (i_rem _ _ IV _ _ _ _ EN ltac:(discriminate)) as [_ STO]. destruct (STO w (or_introl eq_refl)) as (n & X & Y). rewrite PW in X. injection X as <-. rewrite Y in E. cbn in E. injection E as <- <-. eapply inv_delete; eauto.
  Qed.
End Safe.
