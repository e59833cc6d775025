(** Runs of threads in one Graph: the invariants along a schedule, and the order of the calls. *)
From Verif Require Import Model.Py Model.Terms Model.Graph Model.GraphThreads Spec.GraphSpec Spec.ThreadGraphSpec Proofs.DictLemmas Proofs.GraphInv Proofs.GraphGen Proofs.ThreadHeap Proofs.ThreadInv Proofs.ThreadView.
From Coq Require Import Lia PeanoNat.

(** ** The threads as a function *)
Definition now_of (l : list ath) : busy := fun i => match nth_error l i with Some x => a_now x | None => None end.
Lemma nth_set : forall A (l : list A) i x y, nth_error l i = Some y -> forall j, nth_error (set_nth l i x) j = if Nat.eq_dec j i then Some x else nth_error l j.
Proof.
  induction l as [|z l IH]; intros [|i] x y E [|j]; try discriminate; cbn [set_nth nth_error].
  - destruct (Nat.eq_dec 0 0); congruence.
  - destruct (Nat.eq_dec (Datatypes.S j) 0); [discriminate|reflexivity].
  - destruct (Nat.eq_dec 0 (Datatypes.S i)); [discriminate|reflexivity].
  - cbn in E. rewrite (IH i x y E j). destruct (Nat.eq_dec j i), (Nat.eq_dec (Datatypes.S j) (Datatypes.S i)); congruence.
Qed.
Lemma length_set : forall A (l : list A) i x, length (set_nth l i x) = length l.
Proof. induction l as [|y l IH]; intros [|i] x; cbn; auto. Qed.
Lemma now_set : forall l i x y, nth_error l i = Some y -> forall j, now_of (set_nth l i x) j = upd (now_of l) i (a_now x) j.
Proof. intros l i x y E j. unfold now_of, upd. rewrite (nth_set _ _ _ _ _ E). destruct (Nat.eq_dec j i); reflexivity. Qed.
Lemma a_ops_step : forall g x op, In op (a_ops (snd (a_step g x))) -> In op (a_ops x).
Proof.
  intros g [v ops out] op. unfold a_step, goes, ends. cbn [a_now a_ops a_out]. destruct v as [[[o p] r]|]; [|destruct ops; cbn; auto].
  destruct p as [|[|w ws]|w b ws|w b m ws|w ws]; cbn; auto.
  - destruct o as [t|t]; cbn; auto. destruct (in_dec stmt_eq_dec t (c_triples g)); cbn; auto.
  - destruct (tget (deref (c_heap g) r) (key12 b w (op_stmt o))) as [[]|]; cbn; auto.
  - destruct o as [t|t]; cbn; auto. destruct (tget (deref (c_heap g) r) _) as [[]|]; cbn; auto.
Qed.
Lemma weak_ext : forall h now now' L, (forall i, now' i = now i) -> weak h now L -> weak h now' L.
Proof. intros h now now' L E [A B]. split; [exact A|]. intros i op p r. rewrite E. apply B. Qed.
Lemma inv_ext : forall h0 all g now now', (forall i, now' i = now i) -> inv h0 all g now -> inv h0 all g now'.
Proof.
  intros h0 all g now now' E [LAB TRIP PATHS OPS WALK PEND DIST ADD DEL INN REM ONE]. split; auto.
  - destruct LAB as (L & W). exists L. now apply (weak_ext _ now).
  - intros i op p r. rewrite E. apply OPS.
  - intros i op p r. rewrite E. apply WALK.
  - intros i op w b m ws r. rewrite E. apply PEND.
  - intros i j op w b m ws r op' w' b' m' ws' r'. rewrite !E. apply DIST.
  - intros t w J. destruct (ADD t w J) as [A|(i & p & r & A)]; [now left|]. right. exists i, p, r. now rewrite E.
  - intros t w J. destruct (DEL t w J) as [A|(i & p & r & A)]; [now left|]. right. exists i, p, r. now rewrite E.
  - intros i t p r. rewrite E. apply INN.
  - intros i t p r. rewrite E. apply REM.
  - intros i j t p r p' r'. rewrite !E. apply ONE.
Qed.

(** ** Labels, along any run *)
Definition ok_state (s : astate) : Prop :=
  (exists L, weak (c_heap (as_graph s)) (now_of (as_threads s)) L) /\
  forall i x op, nth_error (as_threads s) i = Some x -> In op (a_ops x) -> is_triple (op_stmt op).
Lemma ok_step : forall s i, ok_state s -> ok_state (as_step s i).
Proof.
  intros [g l] i [(L & W) T]. unfold as_step. cbn [as_graph as_threads] in *. destruct (nth_error l i) as [x|] eqn:E; [|split; [now exists L|exact T]]. cbn [as_graph as_threads].
  pose proof (step_now_a g x) as SN. split.
  - assert (NX : a_now x = now_of l i) by (unfold now_of; now rewrite E). rewrite NX in SN. destruct (weak_step g (now_of l) L i (a_ops x) _ _ W (fun op J => T _ _ _ E J) SN) as (L' & W').
    exists L'. apply (weak_ext _ (upd (now_of l) i (a_now (snd (a_step g x))))); [|exact W']. intro j. exact (now_set _ _ _ _ E j).
  - intros j y op EJ J. cbn [as_threads] in *. rewrite (nth_set _ _ _ _ _ E) in EJ. destruct (Nat.eq_dec j i) as [->|NE]; [|now apply (T j y)]. injection EJ as <-. apply a_ops_step in J. now apply (T i x).
Qed.

(** ** Without races *)
Section Safe.
  Variable h0 : heap.
  Variable all : nat -> list cop.
  Hypothesis H1 : forall i j t, i <> j -> In (CAdd t) (all i) -> ~ In (CRemove t) (all j).
  Hypothesis H2 : forall i j t u w b, i <> j -> In (CAdd t) (all i) -> In (CAdd u) (all j) ->
    pre b w t ++ [key12 b w t] = pre b w u ++ [key12 b w u] -> walk h0 (root w) (pre b w t ++ [key12 b w t]) <> None.
  Definition safe (s : astate) : Prop :=
    inv h0 all (as_graph s) (now_of (as_threads s)) /\ forall i x op, nth_error (as_threads s) i = Some x -> In op (a_ops x) -> In op (all i) /\ is_triple (op_stmt op).
  Lemma safe_step : forall s i, safe s -> safe (as_step s i).
  Proof.
    intros [g l] i [IV T]. unfold as_step. cbn [as_graph as_threads] in *. destruct (nth_error l i) as [x|] eqn:E; [|split; [exact IV|exact T]]. split; cbn [as_graph as_threads].
    - pose proof (step_now_a g x) as SN. assert (NX : a_now x = now_of l i) by (unfold now_of; now rewrite E). rewrite NX in SN.
      pose proof (inv_step h0 all H1 H2 g (now_of l) i (a_ops x) _ _ IV (fun op J => T _ _ _ E J) SN) as X.
      apply (inv_ext _ _ _ (upd (now_of l) i (a_now (snd (a_step g x))))); [|exact X]. intro j. exact (now_set _ _ _ _ E j).
    - intros j y op EJ J. rewrite (nth_set _ _ _ _ _ E) in EJ. destruct (Nat.eq_dec j i) as [->|NE]; [|now apply (T j y)]. injection EJ as <-. apply a_ops_step in J. now apply (T i x).
  Qed.
  (** a path stays *)
  Lemma walk_step : forall s i w ks n, safe s -> walk (c_heap (as_graph s)) (root w) ks = Some n -> walk (c_heap (as_graph (as_step s i))) (root w) ks = Some n.
  Proof.
    intros [g l] i w ks n [IV T] WK. unfold as_step. cbn [as_graph as_threads] in *. destruct (nth_error l i) as [x|] eqn:E; [|exact WK]. cbn [as_graph].
    pose proof (step_now_a g x) as SN. assert (NX : a_now x = now_of l i) by (unfold now_of; now rewrite E). rewrite NX in SN.
    assert (H2' : forall i j t u w b, i <> j -> In (CAdd t) (all i) -> In (CAdd u) (all j) ->
      pre b w t ++ [key12 b w t] = pre b w u ++ [key12 b w u] -> walk (c_heap g) (root w) (pre b w t ++ [key12 b w t]) <> None).
    { intros a b t u w' b' NE JA JB EQ. pose proof (H2 a b t u w' b' NE JA JB EQ) as X. destruct (walk h0 (root w') (pre b' w' t ++ [key12 b' w' t])) as [y|] eqn:EY; [|congruence].
      rewrite (i_paths _ _ _ _ IV _ _ _ EY). discriminate. }
    assert (IV' : inv (c_heap g) all g (now_of l)) by (destruct IV; split; auto).
    pose proof (inv_step (c_heap g) all H1 H2' g (now_of l) i (a_ops x) _ _ IV' (fun op J => T _ _ _ E J) SN) as X. exact (i_paths _ _ _ _ X _ _ _ WK).
  Qed.
End Safe.

(** ** The order of the calls *)
Definition waiting (x : ath) : list cop := match a_now x with Some (op, Begin, _) => op :: a_ops x | _ => a_ops x end.
Definition going (x : ath) : list (cop * res unit) := match a_now x with Some (_, Begin, _) | None => [] | Some (op, _, _) => [(op, Ok tt)] end.
Definition began (s : astate) (i : nat) : list (nat * cop) :=
  match nth_error (as_threads s) i with
  | Some x => match a_now x with Some (op, Begin, _) => [(i, op)] | _ => [] end
  | None => []
  end.
Fixpoint order_of (s : astate) (sch : list nat) : list (nat * cop) :=
  match sch with [] => [] | i :: r => began s i ++ order_of (as_step s i) r end.

Lemma answers_app : forall l ts l', answers ts (l ++ l') =
  (fst (answers (fst (answers ts l)) l'), snd (answers ts l) ++ snd (answers (fst (answers ts l)) l')).
Proof.
  induction l as [|[i [t|t]] l IH]; intros ts l'; cbn [app answers].
  - cbn [fst snd app]. now destruct (answers ts l').
  - rewrite IH. destruct (answers (t :: ts) l) as [f o]. cbn [fst snd app]. reflexivity.
  - destruct (in_dec stmt_eq_dec t ts); rewrite IH; [destruct (answers (remove stmt_eq_dec t ts) l) as [f o]|destruct (answers ts l) as [f o]]; reflexivity.
Qed.
Lemma mine_app : forall A i (l l' : list (nat * A)), mine i (l ++ l') = mine i l ++ mine i l'.
Proof. intros. unfold mine. now rewrite filter_app, map_app. Qed.
Lemma mine_one : forall A i j (x : A), mine i [(j, x)] = if Nat.eq_dec i j then [x] else [].
Proof. intros A i j x. unfold mine. cbn [filter fst]. destruct (Nat.eqb_spec j i), (Nat.eq_dec i j); try congruence; reflexivity. Qed.

Section Order.
  Variable R : cop * res unit -> cop * res unit -> Prop.
  Hypothesis Rrefl : forall x, R x x.
  Variable ts0 : list stmt.
  Variable ops : nat -> list cop.
  Definition ordered (s : astate) (o : list (nat * cop)) : Prop :=
    (forall i x, nth_error (as_threads s) i = Some x -> mine i o ++ waiting x = ops i /\
       exists ys, mine i (snd (answers ts0 o)) = ys ++ going x /\ Forall2 R (a_out x) ys) /\
    (forall t, In t (c_triples (as_graph s)) <-> In t (fst (answers ts0 o))) /\
    (forall i op, In (i, op) o -> i < length (as_threads s)).
  Lemma ordered_step : forall s i o, ordered s o ->
    (forall x op w b ws r u, nth_error (as_threads s) i = Some x -> a_now x = Some (op, Sub w b ws, r) -> tget (deref (c_heap (as_graph s)) r) (key12 b w (op_stmt op)) <> Some (CVal u)) ->
    (forall x t w ws r, nth_error (as_threads s) i = Some x -> a_now x = Some (CRemove t, Last w ws, r) -> tget (deref (c_heap (as_graph s)) r) (key3 w t) = None -> R (CRemove t, Err KeyError) (CRemove t, Ok tt)) ->
    ordered (as_step s i) (o ++ began s i).
  Proof.
    intros [g l] i o (TH & TR & IX) NV NM. unfold as_step, began. cbn [as_graph as_threads] in *. destruct (nth_error l i) as [x|] eqn:E; [|rewrite app_nil_r; exact (conj TH (conj TR IX))].
    specialize (NV x). specialize (NM x).
    assert (IL : i < length l) by (apply nth_error_Some; congruence). destruct (TH _ _ E) as [EO (ys & EY & FR)].
    (* nothing begins *)
    assert (QUIET : forall g' x', (forall t, In t (c_triples g') <-> In t (c_triples g)) -> waiting x' = waiting x ->
      (going x' = going x /\ a_out x' = a_out x \/ going x' = [] /\ exists op y, going x = [(op, Ok tt)] /\ a_out x' = a_out x ++ [(op, y)] /\ R (op, y) (op, Ok tt)) ->
      ordered (mkAS g' (set_nth l i x')) (o ++ [])).
    { intros g' x' GT EW EG. rewrite app_nil_r. split; [|split]; cbn [as_graph as_threads].
      - intros j y EJ. rewrite (nth_set _ _ _ _ _ E) in EJ. destruct (Nat.eq_dec j i) as [->|NE]; [|now apply TH]. injection EJ as <-. rewrite EW. split; [exact EO|]. destruct EG as [[-> ->]|[-> (op & y & EG & -> & RY)]]; [now exists ys|].
        exists (ys ++ [(op, Ok tt)]). rewrite app_nil_r, <- EG. split; [exact EY|]. rewrite EG. apply Forall2_app; [exact FR|]. repeat constructor. exact RY.
      - intro t. rewrite GT. apply TR.
      - intros j op J. rewrite length_set. now apply (IX j op). }
    unfold a_step, goes, ends in *. unfold waiting, going in *. destruct (a_now x) as [[[op p] r]|] eqn:EN.
    - destruct p as [|[|w ws]|w b ws|w b m ws|w ws].
      + (* begins *)
        assert (STEP : forall g' x' y, (forall t, In t (c_triples g') <-> In t (fst (answers (fst (answers ts0 o)) [(i, op)]))) -> snd (answers (fst (answers ts0 o)) [(i, op)]) = [(i, y)] ->
          waiting x' = a_ops x -> (going x' = [y] /\ a_out x' = a_out x \/ going x' = [] /\ a_out x' = a_out x ++ [y]) ->
          ordered (mkAS g' (set_nth l i x')) (o ++ [(i, op)])).
        { intros g' x' y GT EA EW EG. split; [|split]; cbn [as_graph as_threads].
          - intros j z EJ. rewrite (nth_set _ _ _ _ _ E) in EJ. rewrite answers_app, EA. cbn [fst snd]. rewrite !mine_app, !mine_one. destruct (Nat.eq_dec j i) as [->|NE].
            + injection EJ as <-. rewrite EW, <- app_assoc. split; [exact EO|]. rewrite app_nil_r in EY. destruct EG as [[-> ->]|[-> ->]].
              * exists ys. now rewrite EY.
              * exists (ys ++ [y]). rewrite app_nil_r, EY. split; [reflexivity|]. apply Forall2_app; [exact FR|]. now repeat constructor.
            + rewrite !app_nil_r. now apply TH.
          - intro t. rewrite GT, answers_app. reflexivity.
          - intros j q J. rewrite length_set. apply in_app_iff in J. destruct J as [J|[J|[]]]; [now apply (IX j q)|]. injection J as <- <-. exact IL. }
        destruct op as [t|t]; [|destruct (in_dec stmt_eq_dec t (c_triples g)) as [J|J]]; cbn [fst snd].
        * apply STEP with (y := (CAdd t, Ok tt)); cbn; auto. intro u. rewrite (in_add t (c_triples g) u), TR. intuition.
        * apply STEP with (y := (CRemove t, Ok tt)); cbn; auto; destruct (in_dec stmt_eq_dec t (fst (answers ts0 o))) as [J'|J']; try (exfalso; apply J'; now apply TR); cbn; auto.
          intro u. rewrite in_rem, TR. split; [intros [A B]; now apply in_in_remove|intro A; apply in_remove in A; tauto].
        * apply STEP with (y := (CRemove t, Err KeyError)); cbn; auto; destruct (in_dec stmt_eq_dec t (fst (answers ts0 o))) as [J'|J']; try (exfalso; apply J; now apply TR); cbn; auto.
      + apply QUIET; cbn; auto; [tauto|]. right. split; [reflexivity|]. exists op, (Ok tt). auto.
      + apply QUIET; cbn; auto; tauto.
      + destruct (tget (deref (c_heap g) r) (key12 b w (op_stmt op))) as [[n|u]|] eqn:G; cbn [fst snd].
        * apply QUIET; cbn; auto; [tauto|destruct b; auto|left; destruct b; auto].
        * exfalso. exact (NV op w b ws r u eq_refl eq_refl G).
        * apply QUIET; cbn; auto; tauto.
      + apply QUIET; cbn; auto; [tauto|destruct b; auto|left; destruct b; auto].
      + destruct op as [t|t]; cbn [op_stmt fst snd] in *; [apply QUIET; cbn; auto; tauto|]. destruct (tget (deref (c_heap g) r) (key3 w t)) as [c|] eqn:G; cbn [fst snd].
        * apply QUIET; cbn; auto; tauto.
        * apply QUIET; cbn; auto; [tauto|]. right. split; [reflexivity|]. exists (CRemove t), (Err KeyError). split; [reflexivity|]. split; [reflexivity|]. now apply (NM t w ws r).
    - destruct (a_ops x) as [|op rest] eqn:EA; cbn [fst snd].
      + apply QUIET; cbn; [tauto|now rewrite EN, EA|rewrite EN; auto].
      + apply QUIET; cbn; [tauto|reflexivity|auto].
  Qed.
End Order.
