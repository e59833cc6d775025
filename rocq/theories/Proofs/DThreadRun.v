(** Threads in one Dataset: runs, and what is left when all calls have been made. *)
From Verif Require Import Model.Py Model.Terms Model.Graph Model.GraphThreads Model.Dataset Model.DatasetThreads Spec.GraphSpec Spec.DatasetSpec Spec.ThreadGraphSpec Spec.ThreadDatasetSpec
  Proofs.DictLemmas Proofs.GraphInv Proofs.GraphHist Proofs.ThreadHeap Proofs.ThreadRun Proofs.ThreadMain Proofs.DatasetInv Proofs.DThreadInv.
From Coq Require Import Lia PeanoNat.

(** ** The order of the calls *)
Lemma began_conc : forall a i, began_c (conc_s a) i = began a i.
Proof.
  intros a i. unfold began_c, began, conc_s. cbn [s_threads]. rewrite nth_error_map. destruct (nth_error (as_threads a) i) as [x|]; [|reflexivity]. cbn [option_map]. unfold conc. cbn [th_now].
  destruct (a_now x) as [[[op p] r]|]; [|reflexivity]. destruct p as [|[|w ws]|w [] ws|w [] m ws|w ws]; try reflexivity; [destruct op|destruct op as [t|t]]; reflexivity.
Qed.
Lemma order_conc : forall sch a, order_c (conc_s a) sch = order_of a sch.
Proof. induction sch as [|i sch IH]; intro a; [reflexivity|]. cbn [order_c order_of]. now rewrite began_conc, as_step_conc, IH. Qed.
Lemma order_c_app : forall a b s, order_c s (a ++ b) = order_c s a ++ order_c (s_run s a) b.
Proof. induction a as [|i a IH]; intros b s; [reflexivity|]. cbn [app order_c]. rewrite IH, <- app_assoc. reflexivity. Qed.
Lemma s_run_app : forall a b s, s_run s (a ++ b) = s_run (s_run s a) b.
Proof. intros. unfold s_run. apply fold_left_app. Qed.
Lemma only_order_pair : forall n k ops, only_order n (map (fun op => (k, op)) ops) = map (fun op => (k, op)) (only n ops).
Proof. intros n k. induction ops as [|op ops IH]; [reflexivity|]. unfold only_order, only in *. cbn [map filter snd]. destruct (of_n n op); cbn [map]; [f_equal|]; exact IH. Qed.
Lemma mine_pair : forall A k j (l : list A), mine j (map (fun x => (k, x)) l) = if Nat.eq_dec j k then l else [].
Proof. intros A k j l. induction l as [|x l IH]; [now destruct (Nat.eq_dec j k)|]. unfold mine in *. cbn [map filter fst]. destruct (Nat.eqb_spec k j), (Nat.eq_dec j k); try (exfalso; congruence); cbn [map snd]; [f_equal|]; exact IH. Qed.

Section Run.
  Variable names0 : dict oterm nat.
  Variable all : nat -> list cop.
  Hypothesis H3 : forall k k' op op' n, k <> k' -> In op (all k) -> In op' (all k') -> gname op = Some n -> gname op' = Some n -> nget names0 n <> None.
  Hypothesis HQ : forall k op, In op (all k) -> gname op <> None.
  Definition dord (s : dsystem) (o : list (nat * cop)) : Prop :=
    (forall k x, nth_error (ds_threads s) k = Some x -> mine k o ++ waits x = all k /\ map fst (dt_out x) ++ running x = mine k o) /\
    forall k op, In (k, op) o -> k < length (ds_threads s) /\ exists n, gname op = Some n /\ nget (d_names (ds_state s)) n <> None.
  Lemma step_sim : forall s k n, dinv names0 all s -> exists b, proj_s n (d_step s k) = s_run (proj_s n s) b /\ order_c (proj_s n s) b = only_order n (began_d s k).
  Proof.
    intros s k n D. unfold d_step, began_d. destruct (nth_error (ds_threads s) k) as [x|] eqn:E; [|now exists []]. pose proof (step_after names0 all H3 HQ s k x D E) as AF. destruct (dt_step (ds_state s) x) as [g' x'].
    destruct AF as (_ & LO & _). rewrite only_order_pair. destruct (LO n) as [(PT & PG & PO)|[PT PO]].
    - exists []. rewrite PO. split; [|reflexivity]. unfold proj_s. cbn [ds_state ds_threads s_run fold_left]. rewrite PG, set_nth_map, PT. now rewrite (set_nth_same _ (map (proj_th n) (ds_threads s))) by (now rewrite nth_error_map, E).
    - exists [k]. cbn [s_run fold_left order_c]. rewrite app_nil_r. unfold began_c, s_step, proj_s. cbn [s_threads s_graph ds_state ds_threads]. rewrite nth_error_map, E. cbn [option_map]. rewrite PT, PO, set_nth_map. split; [reflexivity|].
      destruct (th_now (proj_th n x)) as [[[op r] [|m l]]|]; [reflexivity| |reflexivity]. now destruct (first_step m).
  Qed.
  Lemma step_ord : forall s k o, dinv names0 all s -> dord s o -> dinv names0 all (d_step s k) /\ dord (d_step s k) (o ++ began_d s k).
  Proof.
    intros s k o D [OA OB]. unfold d_step, began_d. destruct (nth_error (ds_threads s) k) as [x|] eqn:E; [|rewrite app_nil_r; split; [exact D|now split]]. pose proof (step_after names0 all H3 HQ s k x D E) as AF. destruct (dt_step (ds_state s) x) as [g' x'].
    destruct AF as (D' & _ & WT & RU & NS & KP). split; [exact D'|]. assert (KL : k < length (ds_threads s)) by (apply nth_error_Some; congruence). split; cbn [ds_threads ds_state].
    - intros j y EJ. rewrite (nth_set _ _ _ _ _ E) in EJ. rewrite mine_app, mine_pair. destruct (Nat.eq_dec j k) as [->|NE]; [|rewrite app_nil_r; now apply OA]. injection EJ as <-. destruct (OA _ _ E) as [A B]. rewrite <- app_assoc, <- WT, RU, app_assoc, B. auto.
    - intros j op J. rewrite length_set. apply in_app_iff in J. destruct J as [J|J].
      + destruct (OB _ _ J) as (L & n & GN & N). split; [exact L|]. exists n. auto.
      + apply in_map_iff in J. destruct J as (op' & EQ & J). injection EQ as <- <-. split; [exact KL|]. now apply NS.
  Qed.
  Lemma run_all : forall sch s o, dinv names0 all s -> dord s o -> dinv names0 all (d_run s sch) /\ dord (d_run s sch) (o ++ order_d s sch) /\
    forall n, exists b, proj_s n (d_run s sch) = s_run (proj_s n s) b /\ order_c (proj_s n s) b = only_order n (order_d s sch).
  Proof.
    induction sch as [|k sch IH]; intros s o D O; cbn [order_d].
    - rewrite app_nil_r. split; [exact D|]. split; [exact O|]. intro n. now exists [].
    - destruct (step_ord s k o D O) as [D' O']. destruct (IH _ _ D' O') as (D2 & O2 & S2). rewrite app_assoc. split; [exact D2|]. split; [exact O2|]. intro n.
      destruct (step_sim s k n D) as (b & EB & OB). destruct (S2 n) as (b2 & EB2 & OB2). exists (b ++ b2). rewrite s_run_app, <- EB, order_c_app, OB, <- EB, OB2, only_order_app. split; [exact EB2|reflexivity].
  Qed.
End Run.

(** ** Quads and their triples *)
Lemma answers_cons : forall i op o ts, answers ts ((i, op) :: o) =
  let d := match op with CAdd _ => true | CRemove t => if in_dec stmt_eq_dec t ts then true else false end in
  let ts' := match op with CAdd t => t :: ts | CRemove t => if in_dec stmt_eq_dec t ts then remove stmt_eq_dec t ts else ts end in
  (fst (answers ts' o), (i, (op, if d then Ok tt else Err KeyError)) :: snd (answers ts' o)).
Proof. intros i [t|t] o ts; cbn [answers]; [|destruct (in_dec stmt_eq_dec t ts)]; cbn zeta; match goal with |- context [answers ?a o] => destruct (answers a o) end; reflexivity. Qed.
Definition drop (n : oterm) (l : list (nat * (cop * res unit))) : list (nat * (cop * res unit)) :=
  map (fun x => (fst x, (with_t (fst (snd x)), snd (snd x)))) (filter (fun x => of_n n (fst (snd x))) l).
Lemma with_t_stmt : forall op, op_stmt (with_t op) = q_as_t (op_stmt op).
Proof. now intros []. Qed.
Lemma answers_only : forall n o qs ts, (forall q, st_graph q = Some n -> (In (q_as_t q) ts <-> In q qs)) ->
  (forall q, st_graph q = Some n -> (In (q_as_t q) (fst (answers ts (only_order n o))) <-> In q (fst (answers qs o)))) /\
  snd (answers ts (only_order n o)) = drop n (snd (answers qs o)).
Proof.
  intro n. induction o as [|[i op] o IH]; intros qs ts H; [split; [exact H|reflexivity]|].
  unfold only_order. cbn [filter snd]. fold (only_order n o). rewrite answers_cons. cbn zeta. destruct (of_n n op) eqn:OF.
  - assert (GN : gname op = Some n) by (unfold of_n in OF; destruct (oq_dec (gname op) (Some n)); [assumption|discriminate]).
    cbn [map fst snd]. fold (only_order n o). rewrite answers_cons. cbn zeta. unfold drop. cbn [fst snd filter]. rewrite OF. cbn [map fst snd]. destruct op as [q|q]; unfold gname in GN; cbn [op_stmt with_t] in *.
    + destruct (IH (q :: qs) (q_as_t q :: ts)) as [A B].
      { intros p GP. cbn [In]. rewrite (H p GP). split; (intros [E|J]; [left|now right]); [now apply (quad_eq q p n)|now rewrite E]. }
      split; [exact A|]. now rewrite B.
    + pose proof (H q GN) as HQ. destruct (in_dec stmt_eq_dec q qs) as [J|J], (in_dec stmt_eq_dec (q_as_t q) ts) as [J'|J']; try (exfalso; tauto).
      * destruct (IH (remove stmt_eq_dec q qs) (remove stmt_eq_dec (q_as_t q) ts)) as [A B].
        { intros p GP. pose proof (H p GP) as HP. split; intro K; apply in_remove in K; destruct K as [K NE]; apply in_in_remove; try tauto; intro E; apply NE; [now rewrite E|now apply (quad_eq p q n)]. }
        split; [exact A|]. now rewrite B.
      * destruct (IH qs ts H) as [A B]. split; [exact A|]. now rewrite B.
  - assert (GN : gname op <> Some n) by (unfold of_n in OF; destruct (oq_dec (gname op) (Some n)); [discriminate|assumption]).
    unfold drop. cbn [fst snd filter]. rewrite OF. destruct op as [q|q]; unfold gname in GN; cbn [op_stmt] in *.
    + apply IH. intros p GP. rewrite (H p GP). cbn [In]. split; [now right|]. intros [->|J]; [congruence|exact J].
    + destruct (in_dec stmt_eq_dec q qs) as [J|J]; [|now apply IH]. apply IH. intros p GP. rewrite (H p GP). split; intro K; [apply in_in_remove; [congruence|exact K]|apply in_remove in K; tauto].
Qed.
Lemma mine_drop : forall n k l, mine k (drop n l) = only_out n (mine k l).
Proof.
  intros n k. induction l as [|[i [op y]] l IH]; [reflexivity|]. unfold mine, drop, only_out in *. cbn [filter fst snd]. destruct (of_n n op) eqn:OF; cbn [map filter fst snd].
  - destruct (i =? k); cbn [map filter fst snd]; [rewrite OF; cbn [map fst snd]; f_equal|]; exact IH.
  - destruct (i =? k); cbn [map filter fst snd]; [rewrite OF|]; exact IH.
Qed.
Lemma mine_only : forall n k o, mine k (only_order n o) = only n (mine k o).
Proof.
  intros n k. induction o as [|[i op] o IH]; [reflexivity|]. unfold mine, only_order, only in *. cbn [filter fst snd]. destruct (of_n n op) eqn:OF; cbn [map filter fst snd].
  - destruct (i =? k); cbn [map filter fst snd]; [rewrite OF; cbn [map fst snd]; f_equal|]; exact IH.
  - destruct (i =? k); cbn [map filter fst snd]; [rewrite OF|]; exact IH.
Qed.
Lemma fst_answers : forall k o qs, map fst (mine k (snd (answers qs o))) = mine k o.
Proof. intros k. induction o as [|[i op] o IH]; intro qs; [reflexivity|]. rewrite answers_cons. cbn zeta. cbn [snd]. unfold mine in *. cbn [filter fst]. destruct (i =? k); cbn [map snd fst]; [f_equal|]; apply IH. Qed.
Lemma by_name : forall a b, map fst a = map fst b -> (forall op, In op (map fst a) -> gname op <> None) -> (forall n, only_out n a = only_out n b) -> a = b.
Proof.
  induction a as [|[op y] a IH]; intros [|[op' y'] b] E Q H; try discriminate; [reflexivity|]. cbn [map fst] in E. injection E as <- E. destruct (gname op) as [n|] eqn:GN; [|exfalso; apply (Q op); [now left|exact GN]].
  assert (X : forall m c z, only_out m ((op, z) :: c) = (if of_n m op then [(with_t op, z)] else []) ++ only_out m c) by (intros m c z; unfold only_out; cbn [filter fst]; destruct (of_n m op); reflexivity).
  pose proof (H n) as HN. rewrite !X, (of_n_yes n op GN) in HN. injection HN as <- HN. f_equal. apply IH; [exact E|intros o J; apply Q; now right|]. intro m. specialize (H m). rewrite !X in H. exact (app_inv_head _ _ _ H).
Qed.
