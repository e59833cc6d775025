(** Threads in one Dataset: the graph of each name goes its way as in GraphThreads.v. *)
From Verif Require Import Model.Py Model.Terms Model.Graph Model.GraphThreads Model.Dataset Model.DatasetThreads Spec.GraphSpec Spec.ThreadGraphSpec
  Proofs.DictLemmas Proofs.ThreadHeap Proofs.ThreadRun Proofs.DatasetInv.
From Coq Require Import Lia PeanoNat.

Lemma oq_dec : forall a b : option oterm, {a = b} + {a <> b}.
Proof. decide equality. apply oterm_eq_dec. Qed.
Definition gname (op : cop) : option oterm := st_graph (op_stmt op).
Definition of_n (n : oterm) (op : cop) : bool := if oq_dec (gname op) (Some n) then true else false.
Definition only (n : oterm) (ops : list cop) : list cop := map with_t (filter (of_n n) ops).
Definition only_out (n : oterm) (out : list (cop * res unit)) : list (cop * res unit) := map (fun x => (with_t (fst x), snd x)) (filter (fun x => of_n n (fst x)) out).
Definition only_order (n : oterm) (o : list (nat * cop)) : list (nat * cop) := map (fun x => (fst x, with_t (snd x))) (filter (fun x => of_n n (snd x)) o).
Lemma only_app : forall n a b, only n (a ++ b) = only n a ++ only n b.
Proof. intros. unfold only. now rewrite filter_app, map_app. Qed.
Lemma only_out_app : forall n a b, only_out n (a ++ b) = only_out n a ++ only_out n b.
Proof. intros. unfold only_out. now rewrite filter_app, map_app. Qed.
Lemma only_order_app : forall n a b, only_order n (a ++ b) = only_order n a ++ only_order n b.
Proof. intros. unfold only_order. now rewrite filter_app, map_app. Qed.
Lemma of_n_yes : forall n op, gname op = Some n -> of_n n op = true.
Proof. intros n op E. unfold of_n. destruct (oq_dec (gname op) (Some n)); congruence. Qed.
Lemma of_n_no : forall n m op, gname op = Some n -> m <> n -> of_n m op = false.
Proof. intros n m op E NE. unfold of_n. destruct (oq_dec (gname op) (Some m)); congruence. Qed.

(** ** Projections *)
Fixpoint part (ms : list dmicro) : option (list micro) :=
  match ms with
  | [] => Some []
  | NG m :: r => match part r with Some l => Some (m :: l) | None => None end
  | _ => None
  end.
Lemma part_map : forall l, part (map NG l) = Some l.
Proof. induction l as [|m l IH]; [reflexivity|]. cbn. now rewrite IH. Qed.
Definition graph_of (s : dstate) (n : oterm) : cgraph := match nget (d_names s) n with Some i => snd (obj s i) | None => c_new end.
Definition proj_th (n : oterm) (x : dthread) : thread :=
  match dt_now x with
  | Some (op, i, r, ms) =>
      if of_n n op then match part ms with
                        | Some l => mkTh (Some (with_t op, r, l)) (only n (dt_ops x)) (only_out n (dt_out x))
                        | None => mkTh None (with_t op :: only n (dt_ops x)) (only_out n (dt_out x))
                        end
      else mkTh None (only n (dt_ops x)) (only_out n (dt_out x))
  | None => mkTh None (only n (dt_ops x)) (only_out n (dt_out x))
  end.
Definition proj_s (n : oterm) (s : dsystem) : cstate := mkS (graph_of (ds_state s) n) (map (proj_th n) (ds_threads s)).

(** ** The order of the calls *)
Definition first_step (m : micro) : bool := match m with MAdd _ | MRemove _ => true | _ => false end.
Definition began_c (s : cstate) (i : nat) : list (nat * cop) :=
  match nth_error (s_threads s) i with
  | Some x => match th_now x with Some (op, _, m :: _) => if first_step m then [(i, op)] else [] | _ => [] end
  | None => []
  end.
Fixpoint order_c (s : cstate) (sch : list nat) : list (nat * cop) :=
  match sch with [] => [] | i :: r => began_c s i ++ order_c (s_step s i) r end.
Definition starts (v : option (cop * nat * nat * list dmicro)) : list cop :=
  match v with Some (op, _, _, NG m :: _) => if first_step m then [op] else [] | _ => [] end.
Definition began_d (s : dsystem) (k : nat) : list (nat * cop) :=
  match nth_error (ds_threads s) k with Some x => map (fun op => (k, op)) (starts (dt_now x)) | None => [] end.
Fixpoint order_d (s : dsystem) (sch : list nat) : list (nat * cop) :=
  match sch with [] => [] | i :: r => began_d s i ++ order_d (d_step s i) r end.
Definition begun (ms : list dmicro) : bool := match part ms with Some (m :: _) => negb (first_step m) | Some [] => true | None => false end.
Definition waits (x : dthread) : list cop := match dt_now x with Some (op, _, _, ms) => if begun ms then dt_ops x else op :: dt_ops x | None => dt_ops x end.
Definition running (x : dthread) : list cop := match dt_now x with Some (op, _, _, ms) => if begun ms then [op] else [] | None => [] end.

(** ** The invariant *)
Record ginv (names0 : dict oterm nat) (g : dstate) : Prop := {
  g_keys : NoDup (dkeys (d_names g));
  g_inj : forall n m i, nget (d_names g) n = Some i -> nget (d_names g) m = Some i -> n = m;
  g_range : forall n i, nget (d_names g) n = Some i -> i < length (d_objs g);
  g_rest : forall j, (exists n, nget (d_names g) n = Some j) \/ snd (obj g j) = c_new;
  g_keep : forall n, nget names0 n <> None -> nget (d_names g) n <> None;
  g_lab : forall n i, nget (d_names g) n = Some i -> c_triples (snd (obj g i)) = [] \/ fst (obj g i) = n }.
Definition plain (ms : list micro) : Prop := forall m, In m ms -> first_step m = false.
Inductive at_pos (g : dstate) (n : oterm) (op : cop) (i r : nat) : list dmicro -> Prop :=
| P_start : at_pos g n op i r (dscript op)
| P_put : forall j rest, dscript op = NGet n :: rest -> nget (d_names g) n = None -> j < length (d_objs g) -> (forall m, nget (d_names g) m <> Some j) -> at_pos g n op i r (NPut n j :: rest)
| P_uri : forall q, op = CAdd q -> nget (d_names g) n = Some i -> at_pos g n op i r (NUri n :: NGet n :: map NG (script (with_t op)))
| P_get : forall q, op = CAdd q -> nget (d_names g) n = Some i -> fst (obj g i) = n -> at_pos g n op i r (NGet n :: map NG (script (with_t op)))
| P_enter : r = 0 -> nget (d_names g) n = Some i -> (forall q, op = CAdd q -> fst (obj g i) = n) -> at_pos g n op i r (map NG (script (with_t op)))
| P_in : forall l, plain l -> nget (d_names g) n = Some i -> at_pos g n op i r (map NG l).
Section Inv.
  Variable names0 : dict oterm nat.
  Variable all : nat -> list cop.
  Hypothesis H3 : forall k k' op op' n, k <> k' -> In op (all k) -> In op' (all k') -> gname op = Some n -> gname op' = Some n -> nget names0 n <> None.
  Hypothesis HQ : forall k op, In op (all k) -> gname op <> None.
  Record dinv (s : dsystem) : Prop := {
    d_g : ginv names0 (ds_state s);
    d_ops : forall k x op, nth_error (ds_threads s) k = Some x -> In op (dt_ops x) -> In op (all k);
    d_pos : forall k x op i r ms, nth_error (ds_threads s) k = Some x -> dt_now x = Some (op, i, r, ms) ->
      In op (all k) /\ exists n, gname op = Some n /\ at_pos (ds_state s) n op i r ms;
    d_dist : forall k k' x x' op i r n j ms op' i' r' n' j' ms', k <> k' -> nth_error (ds_threads s) k = Some x -> nth_error (ds_threads s) k' = Some x' ->
      dt_now x = Some (op, i, r, NPut n j :: ms) -> dt_now x' = Some (op', i', r', NPut n' j' :: ms') -> j <> j' }.
  (** what a step for the name [n] leaves *)
  Record frame (n : oterm) (g g' : dstate) : Prop := {
    f_some : forall m i, nget (d_names g) m = Some i -> nget (d_names g') m = Some i;
    f_none : forall m, m <> n -> nget (d_names g) m = None -> nget (d_names g') m = None;
    f_len : length (d_objs g) <= length (d_objs g');
    f_uri : forall m i, nget (d_names g) m = Some i -> fst (obj g i) = m -> fst (obj g' i) = m;
    f_other : forall m i, m <> n -> nget (d_names g) m = Some i -> snd (obj g' i) = snd (obj g i) }.
  Lemma frame_refl : forall n g, frame n g g.
  Proof. intros n g. split; auto. Qed.
  Lemma pos_frame : forall n g g' m op i r ms, m <> n \/ nget (d_names g) m <> None -> frame n g g' ->
    (forall j, ms = NPut m j :: tl ms -> forall m', nget (d_names g') m' <> Some j) -> at_pos g m op i r ms -> at_pos g' m op i r ms.
  Proof.
    intros n g g' m op i r ms NM [FS FN FL FU FO] FR P. destruct P as [|j rest E N L U|q E S|q E S U|E S U|l P S].
    - constructor.
    - apply P_put; [exact E| |lia|exact (FR j eq_refl)]. destruct NM as [NM|NM]; [now apply FN|congruence].
    - now apply (P_uri _ _ _ _ _ q); auto.
    - now apply (P_get _ _ _ _ _ q); auto.
    - apply P_enter; auto. intros q EQ. apply FU; [exact S|now apply (U q)].
    - apply P_in; auto.
  Qed.
  Lemma conclude : forall s k x g' x' n, dinv s -> nth_error (ds_threads s) k = Some x -> ginv names0 g' -> frame n (ds_state s) g' ->
    (exists op, In op (all k) /\ gname op = Some n) ->
    (forall op, In op (dt_ops x') -> In op (dt_ops x)) ->
    (forall op i r ms, dt_now x' = Some (op, i, r, ms) -> In op (all k) /\ gname op = Some n /\ at_pos g' n op i r ms) ->
    (forall op i r m j rest, dt_now x' = Some (op, i, r, NPut m j :: rest) -> j = length (d_objs (ds_state s))) ->
    (forall j, j < length (d_objs (ds_state s)) -> (forall m, nget (d_names (ds_state s)) m <> Some j) ->
       (exists op i r m rest, dt_now x = Some (op, i, r, NPut m j :: rest)) \/ forall m, nget (d_names g') m <> Some j) ->
    dinv (mkDS g' (set_nth (ds_threads s) k x')).
  Proof.
    intros s k x g' x' n [DG DO DP DD] EX G F (op0 & A0 & N0) HO HP HF HU.
    assert (LT : forall k' y op i r m j rest, nth_error (ds_threads s) k' = Some y -> dt_now y = Some (op, i, r, NPut m j :: rest) -> j < length (d_objs (ds_state s)) /\ forall m', nget (d_names (ds_state s)) m' <> Some j).
    { intros k' y op i r m j rest E EN. destruct (DP _ _ _ _ _ _ E EN) as (_ & m' & _ & P). inversion P as [Q|j' rest' Q N L U|q Q S Q'|q Q S U Q'|Q S U Q'|l Q S Q'].
      - exfalso. destruct op as [q|q]; cbn in Q; destruct (st_graph q); discriminate.
      - auto.
      - exfalso. destruct op as [q|q]; discriminate.
      - exfalso. destruct l; discriminate. }
    split; cbn [ds_state ds_threads].
    - exact G.
    - intros k' y op E J. rewrite (nth_set _ _ _ _ _ EX) in E. destruct (Nat.eq_dec k' k) as [->|NE]; [injection E as <-; apply (DO k x op EX); auto|exact (DO _ _ _ E J)].
    - intros k' y op i r ms E EN. rewrite (nth_set _ _ _ _ _ EX) in E. destruct (Nat.eq_dec k' k) as [->|NE].
      + injection E as <-. destruct (HP _ _ _ _ EN) as (A & B & C). split; [exact A|]. now exists n.
      + destruct (DP _ _ _ _ _ _ E EN) as (A & m & B & C). split; [exact A|]. exists m. split; [exact B|]. apply (pos_frame n (ds_state s)); auto.
        * destruct (oterm_eq_dec m n) as [->|NM]; [|now left]. right. apply (g_keep _ _ DG). apply (H3 k' k op op0 n); auto.
        * intros j EM. rewrite EM in EN. destruct (LT _ _ _ _ _ _ _ _ E EN) as [L U]. destruct (HU j L U) as [(op' & i' & r' & m' & rest & EN')|X]; [|exact X].
          exfalso. exact (DD _ _ _ _ _ _ _ _ _ _ _ _ _ _ _ _ NE E EX EN EN' eq_refl).
    - intros k1 k2 x1 x2 op i r m j ms op' i' r' m' j' ms' NE E1 E2 N1 N2. rewrite (nth_set _ _ _ _ _ EX) in E1, E2. destruct (Nat.eq_dec k1 k) as [->|NE1], (Nat.eq_dec k2 k) as [->|NE2]; try congruence.
      + injection E1 as <-. apply HF in N1. destruct (LT _ _ _ _ _ _ _ _ E2 N2). lia.
      + injection E2 as <-. apply HF in N2. destruct (LT _ _ _ _ _ _ _ _ E1 N1). lia.
      + exact (DD _ _ _ _ _ _ _ _ _ _ _ _ _ _ _ _ NE E1 E2 N1 N2).
  Qed.
  (** *** Changes of the state *)
  Lemma obj_alloc : forall g j, obj (mkD (d_names g) (d_objs g ++ [o_new])) j = obj g j.
  Proof.
    intros g j. unfold obj. cbn [d_objs]. destruct (Nat.lt_ge_cases j (length (d_objs g))) as [L|L]; [now rewrite app_nth1|]. rewrite app_nth2, (nth_overflow (d_objs g)) by exact L. destruct (j - length (d_objs g)) as [|[|?]]; reflexivity.
  Qed.
  Lemma alloc_ok : forall n g, ginv names0 g -> ginv names0 (mkD (d_names g) (d_objs g ++ [o_new])) /\ frame n g (mkD (d_names g) (d_objs g ++ [o_new])).
  Proof.
    intros n g [K IJ R RE KE LA]. split; split; cbn [d_names d_objs]; auto.
    - intros m i E. apply R in E. rewrite app_length. lia.
    - intro j. rewrite obj_alloc. apply RE.
    - intros m i E. rewrite obj_alloc. now apply LA.
    - rewrite app_length. lia.
    - intros m i E U. now rewrite obj_alloc.
    - intros m i NE E. now rewrite obj_alloc.
  Qed.
  Lemma nget_set : forall (d : dict oterm nat) n j m, nget (nset d n j) m = if oterm_eq_dec m n then Some j else nget d m.
  Proof. intros d n j m. rewrite dget_dset. destruct (oterm_eq_dec n m), (oterm_eq_dec m n); congruence. Qed.
  Lemma put_ok : forall n j g, ginv names0 g -> nget (d_names g) n = None -> j < length (d_objs g) -> (forall m, nget (d_names g) m <> Some j) ->
    ginv names0 (mkD (nset (d_names g) n j) (d_objs g)) /\ frame n g (mkD (nset (d_names g) n j) (d_objs g)).
  Proof.
    intros n j g [K IJ R RE KE LA] N L U. assert (OB : forall a, obj (mkD (nset (d_names g) n j) (d_objs g)) a = obj g a) by reflexivity. split; split; cbn [d_names d_objs]; auto.
    - now apply NoDup_dset.
    - intros a b i. rewrite !nget_set. destruct (oterm_eq_dec a n), (oterm_eq_dec b n); try congruence.
      apply IJ.
    - intros a i. rewrite nget_set. destruct (oterm_eq_dec a n); [intros [= <-]; exact L|apply R].
    - intro i. rewrite OB. destruct (RE i) as [(m & E)|E]; [|now right]. left. exists m. rewrite nget_set. destruct (oterm_eq_dec m n); congruence.
    - intros a A. rewrite nget_set. destruct (oterm_eq_dec a n); [discriminate|now apply KE].
    - intros a i. rewrite nget_set, OB. destruct (oterm_eq_dec a n); [|apply LA]. intros [= <-]. left. destruct (RE j) as [(m & E)|E]; [exfalso; exact (U _ E)|now rewrite E].
    - intros a i E. rewrite nget_set. destruct (oterm_eq_dec a n); congruence.
    - intros a NE E. rewrite nget_set. destruct (oterm_eq_dec a n); congruence.
  Qed.
  Lemma nth_set_nth : forall A (l : list A) i j x d, nth j (set_nth l i x) d = if Nat.eq_dec j i then (if Nat.ltb i (length l) then x else d) else nth j l d.
  Proof.
    induction l as [|y l IH]; intros i j x d.
    - assert (X : nth j (set_nth (@nil A) i x) d = d) by (destruct i, j; reflexivity). rewrite X. destruct (Nat.eq_dec j i); [reflexivity|]. now destruct j.
    - destruct i as [|i], j as [|j]; try reflexivity. cbn [set_nth nth length]. rewrite IH. destruct (Nat.eq_dec j i), (Nat.eq_dec (Datatypes.S j) (Datatypes.S i)); try congruence. reflexivity.
  Qed.
  Lemma obj_set : forall g i y j, i < length (d_objs g) -> obj (set_obj g i y) j = if Nat.eq_dec j i then y else obj g j.
  Proof. intros g i y j L. unfold obj, set_obj. cbn [d_objs]. rewrite nth_set_nth. apply Nat.ltb_lt in L. now rewrite L. Qed.
  Lemma set_ok : forall n i g u c, ginv names0 g -> nget (d_names g) n = Some i -> u = n \/ u = fst (obj g i) -> c_triples c = [] \/ u = n ->
    ginv names0 (set_obj g i (u, c)) /\ frame n g (set_obj g i (u, c)).
  Proof.
    intros n i g u c [K IJ R RE KE LA] N HU HC. pose proof (R _ _ N) as L. split; split; try (intros; rewrite obj_set by exact L); auto.
    - cbn [set_obj d_objs d_names]. rewrite length_set. exact R.
    - destruct (Nat.eq_dec j i) as [->|NE]; [left; now exists n|apply RE].
    - destruct (Nat.eq_dec i0 i) as [->|NE]; [|now apply LA]. cbn [set_obj d_names fst snd] in *. rewrite (IJ _ _ _ H N). exact HC.
    - unfold set_obj. cbn [d_objs]. now rewrite length_set.
    - destruct (Nat.eq_dec i0 i) as [->|NE]; [|assumption]. cbn [fst]. rewrite (IJ _ _ _ H N) in *. destruct HU as [->| ->]; auto.
    - destruct (Nat.eq_dec i0 i) as [->|NE]; [|reflexivity]. exfalso. apply H. exact (IJ _ _ _ H0 N).
  Qed.
  (** *** A step *)
  Lemma exec_plain : forall c r m c' r' ms, exec c r m = (c', Ok (r', ms)) -> plain ms.
  Proof.
    intros c r m c' r' ms E. destruct m; cbn in E; repeat match type of E with context [match ?x with _ => _ end] => destruct x end; try discriminate; injection E as <- <- <-; intros m [<-|[]] || intros m []; reflexivity.
  Qed.
  Lemma exec_empty : forall c r m, first_step m = false -> c_triples (fst (exec c r m)) = c_triples c.
  Proof. intros c r m E. destruct m; try discriminate; cbn; repeat match goal with |- context [match ?x with _ => _ end] => destruct x end; reflexivity. Qed.
  (** what a step is for the graph of a name, and for the lists of calls *)
  Definition local (m : oterm) (g : dstate) (x : dthread) (g' : dstate) (x' : dthread) : Prop :=
    (proj_th m x' = proj_th m x /\ graph_of g' m = graph_of g m /\ only m (starts (dt_now x)) = []) \/
    (th_step (graph_of g m) (proj_th m x) = (graph_of g' m, proj_th m x') /\
     only m (starts (dt_now x)) = match th_now (proj_th m x) with Some (op, _, b :: _) => if first_step b then [op] else [] | _ => [] end).
  Lemma graph_frame : forall n m g g', frame n g g' -> m <> n -> graph_of g' m = graph_of g m.
  Proof. intros n m g g' [FS FN _ _ FO] NE. unfold graph_of. destruct (nget (d_names g) m) as [i|] eqn:E; [rewrite (FS _ _ E); now apply (FO m)|now rewrite (FN _ NE E)]. Qed.
  Lemma proj_busy_other : forall m n op i r ms ops out, gname op = Some n -> m <> n -> proj_th m (mkDT (Some (op, i, r, ms)) ops out) = mkTh None (only m ops) (only_out m out).
  Proof. intros m n op i r ms ops out E NE. unfold proj_th. cbn [dt_now dt_ops dt_out]. now rewrite (of_n_no n m op E NE). Qed.
  Lemma only_cons_other : forall m n op ops, gname op = Some n -> m <> n -> only m (op :: ops) = only m ops.
  Proof. intros m n op ops E NE. unfold only. cbn [filter]. now rewrite (of_n_no n m op E NE). Qed.
  Lemma only_cons : forall n op ops, gname op = Some n -> only n (op :: ops) = with_t op :: only n ops.
  Proof. intros n op ops E. unfold only. cbn [filter]. now rewrite (of_n_yes n op E). Qed.
  Lemma only_out_one : forall n op y, gname op = Some n -> only_out n [(op, y)] = [(with_t op, y)].
  Proof. intros n op y E. unfold only_out. cbn [filter fst]. now rewrite (of_n_yes n op E). Qed.
  Lemma only_out_one_other : forall m n op y, gname op = Some n -> m <> n -> only_out m [(op, y)] = [].
  Proof. intros m n op y E NE. unfold only_out. cbn [filter fst]. now rewrite (of_n_no n m op E NE). Qed.
  Lemma proj_part : forall n op i r ms l ops out, gname op = Some n -> part ms = Some l -> proj_th n (mkDT (Some (op, i, r, ms)) ops out) = mkTh (Some (with_t op, r, l)) (only n ops) (only_out n out).
  Proof. intros n op i r ms l ops out E P. unfold proj_th. cbn [dt_now dt_ops dt_out]. now rewrite (of_n_yes n op E), P. Qed.
  Lemma proj_nopart : forall n op i r ms ops out, gname op = Some n -> part ms = None -> proj_th n (mkDT (Some (op, i, r, ms)) ops out) = mkTh None (with_t op :: only n ops) (only_out n out).
  Proof. intros n op i r ms ops out E P. unfold proj_th. cbn [dt_now dt_ops dt_out]. now rewrite (of_n_yes n op E), P. Qed.
  Lemma gname_cases : forall op n, gname op = Some n -> exists rest, dscript op = NGet n :: rest /\ part (dscript op) = None /\ starts (Some (op, 0, 0, dscript op)) = [] /\
    (rest = NUri n :: NGet n :: map NG (script (with_t op)) /\ (exists q, op = CAdd q) \/ rest = map NG (script (with_t op)) /\ exists q, op = CRemove q).
  Proof.
    intros [q|q] n E; unfold gname in E; cbn [op_stmt] in E; unfold dscript; rewrite E; eexists; (split; [reflexivity|split; [reflexivity|split; [reflexivity|]]]); [left|right]; (split; [reflexivity|now exists q]).
  Qed.
  Lemma set_nth_same : forall A (l : list A) k x, nth_error l k = Some x -> set_nth l k x = l.
  Proof. induction l as [|y l IH]; intros [|k] x E; try discriminate; cbn in *; [congruence|]. now rewrite IH. Qed.
  Lemma script_first : forall op, exists m l, script op = m :: l /\ first_step m = true /\ plain l /\ (forall t, m = MAdd t -> exists u, op = CAdd u).
  Proof.
    intros [t|t]; eexists; eexists; (split; [reflexivity|split; [reflexivity|split]]).
    - intros m J. repeat (destruct J as [<-|J]; [reflexivity|]). destruct J.
    - intros u _. now exists t.
    - intros m J. repeat (destruct J as [<-|J]; [reflexivity|]). destruct J.
    - intros u [=].
  Qed.
  Definition after (s : dsystem) (k : nat) (x : dthread) (g' : dstate) (x' : dthread) : Prop :=
    let g := ds_state s in
    dinv (mkDS g' (set_nth (ds_threads s) k x')) /\ (forall m, local m g x g' x') /\
    waits x = starts (dt_now x) ++ waits x' /\ map fst (dt_out x') ++ running x' = map fst (dt_out x) ++ running x ++ starts (dt_now x) /\
    (forall op, In op (starts (dt_now x)) -> exists n, gname op = Some n /\ nget (d_names g') n <> None) /\
    forall m, nget (d_names g) m <> None -> nget (d_names g') m <> None.
  Lemma frame_names : forall n g g', frame n g g' -> forall m, nget (d_names g) m <> None -> nget (d_names g') m <> None.
  Proof. intros n g g' F m N. destruct (nget (d_names g) m) as [i|] eqn:E; [|congruence]. rewrite (f_some _ _ _ F _ _ E). discriminate. Qed.
  Lemma begun_map : forall m l, begun (map NG (m :: l)) = negb (first_step m).
  Proof. intros m l. unfold begun. now rewrite part_map. Qed.
  Lemma begun_plain : forall l, plain l -> begun (map NG l) = true.
  Proof. intros [|m l] P; [reflexivity|]. rewrite begun_map, (P m (or_introl eq_refl)). reflexivity. Qed.
  (** a step inside Graph.add or Graph.remove *)
  Lemma graph_step : forall s k n op i r m l ops out, dinv s -> nth_error (ds_threads s) k = Some (mkDT (Some (op, i, r, map NG (m :: l))) ops out) ->
    gname op = Some n -> plain l -> nget (d_names (ds_state s)) n = Some i -> ((exists t, m = MAdd t) -> fst (obj (ds_state s) i) = n) ->
    let '(g', x') := dt_step (ds_state s) (mkDT (Some (op, i, r, map NG (m :: l))) ops out) in after s k (mkDT (Some (op, i, r, map NG (m :: l))) ops out) g' x'.
  Proof.
    intros s k n op i r m l ops out D EX GN PL N LB. set (x := mkDT (Some (op, i, r, map NG (m :: l))) ops out) in *. pose proof (d_g _ D) as G. set (g := ds_state s) in *.
    assert (OK : In op (all k)) by (destruct (d_pos _ D _ _ _ _ _ _ EX eq_refl) as [A _]; exact A).
    assert (GR : graph_of g n = snd (obj g i)) by (unfold graph_of; now rewrite N).
    assert (TRI : c_triples (fst (exec (snd (obj g i)) r m)) = [] \/ fst (obj g i) = n).
    { destruct (first_step m) eqn:FM.
      - destruct m as [t|t| | | | | ]; try discriminate; [right; apply LB; now exists t|]. destruct (g_lab _ _ G _ _ N) as [A|A]; [|now right]. left. cbn. rewrite A. cbn. exact A.
      - rewrite (exec_empty _ _ _ FM). exact (g_lab _ _ G _ _ N). }
    assert (EXG : forall c, graph_of (set_obj g i (fst (obj g i), c)) n = c).
    { intro c. unfold graph_of. cbn [set_obj d_names]. rewrite N. fold (set_obj g i (fst (obj g i), c)). rewrite (obj_set g i (fst (obj g i), c) i (g_range _ _ G _ _ N)). destruct (Nat.eq_dec i i); [reflexivity|congruence]. }
    assert (ST : starts (dt_now x) = if first_step m then [op] else []) by reflexivity.
    assert (RUN : running x ++ starts (dt_now x) = [op]) by (unfold running; cbn [x dt_now]; rewrite begun_map; cbn [starts map]; destruct (first_step m); reflexivity).
    assert (WT : waits x = starts (dt_now x) ++ ops) by (unfold waits; cbn [x dt_now dt_ops]; rewrite begun_map; cbn [starts map]; destruct (first_step m); reflexivity).
    assert (FIN : forall c v out', exec (snd (obj g i)) r m = (c, snd (exec (snd (obj g i)) r m)) ->
      (forall op' i' r' ms, v = Some (op', i', r', ms) -> op' = op /\ i' = i /\ exists l', ms = map NG l' /\ plain l') ->
      (forall m', local m' g x (set_obj g i (fst (obj g i), c)) (mkDT v ops out')) ->
      map fst out' ++ running (mkDT v ops out') = map fst out ++ [op] -> waits (mkDT v ops out') = ops ->
      after s k x (set_obj g i (fst (obj g i), c)) (mkDT v ops out')).
    { intros c v out' EC HV LO RU WA. assert (TC : c_triples c = [] \/ fst (obj g i) = n) by (rewrite EC in TRI; exact TRI).
      destruct (set_ok n i g (fst (obj g i)) c G N (or_intror eq_refl) TC) as [G' F']. split; [|split; [exact LO|split; [now rewrite WA|split; [now rewrite RUN|split]]]].
      - apply (conclude s k x _ _ n); auto.
        + now exists op.
        + intros op' i' r' ms E. cbn [dt_now] in E. destruct (HV _ _ _ _ E) as (-> & -> & l' & -> & PL'). split; [exact OK|]. split; [exact GN|]. apply P_in; auto.
        + intros op' i' r' m' j rest E. cbn [dt_now] in E. destruct (HV _ _ _ _ E) as (_ & _ & l' & E' & _). destruct l'; discriminate.
      - intros op' J. rewrite ST in J. destruct (first_step m); [|contradiction]. destruct J as [<-|[]]. exists n. split; [exact GN|]. cbn [set_obj d_names]. congruence.
      - exact (frame_names _ _ _ F'). }
    assert (OTHER : forall m' v out' c, m' <> n -> frame n g (set_obj g i (fst (obj g i), c)) ->
      (match v with Some (op', _, _, _) => op' = op | None => True end) -> only_out m' out' = only_out m' out -> local m' g x (set_obj g i (fst (obj g i), c)) (mkDT v ops out')).
    { intros m' v out' c NE F' HV EO. left. split; [|split; [exact (graph_frame _ _ _ _ F' NE)|]].
      - unfold x. rewrite (proj_busy_other m' n) by auto. destruct v as [[[[op' i'] r'] ms]|]; [subst op'; rewrite (proj_busy_other m' n) by auto|unfold proj_th; cbn [dt_now dt_ops dt_out]]; now rewrite EO.
      - rewrite ST. destruct (first_step m); [|reflexivity]. now rewrite (only_cons_other m' n). }
    assert (TN : th_now (proj_th n x) = Some (with_t op, r, m :: l)) by (unfold x; now rewrite (proj_part n op i r _ (m :: l)) by (auto; apply part_map)).
    assert (ON : only n (starts (dt_now x)) = if first_step m then [with_t op] else []) by (rewrite ST; destruct (first_step m); [now rewrite (only_cons n)|reflexivity]).
    unfold dt_step. cbn [x dt_now map]. fold x. cbn [dexec dt_ops dt_out]. destruct (exec (snd (obj g i)) r m) as [c [[r' ms']|e]] eqn:EE.
    - assert (FR : frame n g (set_obj g i (fst (obj g i), c))) by (apply set_ok; auto).
      assert (PL2 : plain (ms' ++ l)) by (intros b J; apply in_app_iff in J; destruct J as [J|J]; [exact (exec_plain _ _ _ _ _ _ EE b J)|exact (PL b J)]).
      rewrite <- map_app. apply FIN.
      + reflexivity.
      + intros op' i' r'' ms [= <- <- <- <-]. split; [reflexivity|]. split; [reflexivity|]. exists (ms' ++ l). auto.
      + intro m'. destruct (oterm_eq_dec m' n) as [->|NE]; [|now apply OTHER]. right. split; [|rewrite TN; exact ON].
        unfold th_step. rewrite TN, GR, EE, EXG. unfold x. rewrite (proj_part n op i r _ (m :: l)) by (auto; apply part_map). rewrite (proj_part n op i r' _ (ms' ++ l)) by (auto; apply part_map). reflexivity.
      + unfold running. cbn [dt_now]. now rewrite begun_plain.
      + unfold waits. cbn [dt_now dt_ops]. now rewrite begun_plain.
    - assert (FR : frame n g (set_obj g i (fst (obj g i), c))) by (apply set_ok; auto).
      apply FIN.
      + reflexivity.
      + discriminate.
      + intro m'. destruct (oterm_eq_dec m' n) as [->|NE].
        * right. split; [|rewrite TN; exact ON]. unfold th_step. rewrite TN, GR, EE, EXG. unfold x. rewrite (proj_part n op i r _ (m :: l)) by (auto; apply part_map). unfold proj_th. cbn [dt_now dt_ops dt_out th_ops th_out]. now rewrite only_out_app, only_out_one.
        * apply OTHER; auto. rewrite only_out_app, (only_out_one_other m' n) by auto. apply app_nil_r.
      + unfold running. cbn [dt_now]. rewrite map_app, app_nil_r. reflexivity.
      + reflexivity.
  Qed.
  (** a step before that *)
  Lemma prelude : forall s k n op i r ms ops out g' i' r' ms', let x := mkDT (Some (op, i, r, ms)) ops out in let x' := mkDT (Some (op, i', r', ms')) ops out in
    dinv s -> nth_error (ds_threads s) k = Some x -> gname op = Some n -> part ms = None -> starts (dt_now x) = [] ->
    ginv names0 g' -> frame n (ds_state s) g' -> at_pos g' n op i' r' ms' -> graph_of g' n = graph_of (ds_state s) n ->
    (part ms' = None \/ ms' = map NG (script (with_t op)) /\ r' = 0) ->
    (forall m j rest, ms' = NPut m j :: rest -> j = length (d_objs (ds_state s))) ->
    (forall j, j < length (d_objs (ds_state s)) -> (forall m, nget (d_names (ds_state s)) m <> Some j) -> (exists m rest, ms = NPut m j :: rest) \/ forall m, nget (d_names g') m <> Some j) ->
    after s k x g' x'.
  Proof.
    intros s k n op i r ms ops out g' i' r' ms' x x' D EX GN PN ST G' F' P' GR HP HF HU.
    assert (OK : In op (all k)) by (destruct (d_pos _ D _ _ _ _ _ _ EX eq_refl) as [A _]; exact A).
    assert (BN : begun ms = false) by (unfold begun; now rewrite PN).
    assert (BN' : begun ms' = false).
    { destruct HP as [A|[-> _]]; [unfold begun; now rewrite A|]. destruct (script_first (with_t op)) as (m & l & E & FM & _). rewrite E, begun_map, FM. reflexivity. }
    split; [|split; [|split; [|split; [|split]]]].
    - apply (conclude s k x _ _ n); auto.
      + now exists op.
      + intros op' j' r'' ms'' E. injection E as <- <- <- <-. auto.
      + intros op' j' r'' m j rest E. injection E as _ _ _ E. exact (HF _ _ _ E).
      + intros j L U. destruct (HU j L U) as [(m & rest & ->)|A]; [left|now right]. now exists op, i, r, m, rest.
    - intro m. destruct (oterm_eq_dec m n) as [->|NE].
      + destruct HP as [A|[-> ->]].
        * left. split; [|split; [exact GR|now rewrite ST]]. unfold x, x'. now rewrite !(proj_nopart n) by auto.
        * right. rewrite ST. unfold x, x'. rewrite (proj_nopart n) by auto. rewrite (proj_part n _ _ _ _ (script (with_t op))) by (auto; apply part_map). split; [|reflexivity]. unfold th_step. cbn [th_now th_ops th_out]. now rewrite GR.
      + left. split; [|split; [exact (graph_frame _ _ _ _ F' NE)|now rewrite ST]]. unfold x, x'. now rewrite !(proj_busy_other m n) by auto.
    - rewrite ST. unfold waits, x, x'. cbn [dt_now dt_ops]. now rewrite BN, BN'.
    - rewrite ST. unfold running, x, x'. cbn [dt_now dt_out]. now rewrite BN, BN'.
    - rewrite ST. contradiction.
    - exact (frame_names _ _ _ F').
  Qed.
  Lemma graph_alloc : forall g n, graph_of (mkD (d_names g) (d_objs g ++ [o_new])) n = graph_of g n.
  Proof. intros g n. unfold graph_of. cbn [d_names]. destruct (nget (d_names g) n); [now rewrite obj_alloc|reflexivity]. Qed.
  Lemma step_after : forall s k x, dinv s -> nth_error (ds_threads s) k = Some x -> let '(g', x') := dt_step (ds_state s) x in after s k x g' x'.
  Proof.
    intros s k [v ops out] D EX. pose proof (d_g _ D) as G. destruct v as [[[[op i] r] ms]|].
    - destruct (d_pos _ D _ _ _ _ _ _ EX eq_refl) as (OK & n & GN & P). destruct (gname_cases op n GN) as (rest & ES & PS & SS & RC).
      assert (ENTER : forall g' i', nget (d_names g') n = Some i' -> at_pos g' n op i' 0 rest).
      { intros g' i' N. destruct RC as [[-> (q & EQ)]|[-> (q & EQ)]]; [now apply (P_uri _ _ _ _ _ q)|]. apply P_enter; auto. intros q' E. congruence. }
      assert (PR : part rest = None \/ rest = map NG (script (with_t op)) /\ 0 = 0) by (destruct RC as [[-> _]|[-> _]]; [now left|right; auto]).
      assert (NP : forall m j l, rest = NPut m j :: l -> j = length (d_objs (ds_state s))) by (intros m j l E; exfalso; destruct RC as [[-> _]|[-> (q & ->)]]; discriminate).
      destruct P as [|j rest' ED N L U|q EQ N|q EQ N FU|ER N FU|l PL N].
      + rewrite ES in *. unfold dt_step. cbn [dt_now dexec]. destruct (nget (d_names (ds_state s)) n) as [i'|] eqn:N.
        * cbn [app]. apply (prelude s k n); auto. apply frame_refl.
        * destruct (alloc_ok n (ds_state s) G) as [G' F']. apply (prelude s k n); auto; cbn [app].
          -- apply P_put; auto; cbn [d_objs d_names]; [rewrite app_length; cbn; lia|]. intros m E. pose proof (g_range _ _ G _ _ E). lia.
          -- apply graph_alloc.
          -- intros m j l [= <- <- <-]. reflexivity.
      + rewrite ED in ES. injection ES as ->. unfold dt_step. cbn [dt_now dexec app]. destruct (put_ok n j (ds_state s) G N L U) as [G' F']. apply (prelude s k n); auto.
        * apply ENTER. cbn [d_names]. rewrite nget_set. destruct (oterm_eq_dec n n); congruence.
        * unfold graph_of. cbn [d_names]. rewrite N, nget_set. destruct (oterm_eq_dec n n); [|congruence]. change (snd (obj (ds_state s) j) = c_new). destruct (g_rest _ _ G j) as [(m & E)|E]; [exfalso; exact (U _ E)|exact E].
        * intros j' L' U'. destruct (Nat.eq_dec j' j) as [->|NE]; [left; now exists n, rest|right]. intro m. cbn [d_names]. rewrite nget_set. destruct (oterm_eq_dec m n); [congruence|apply U'].
      + unfold dt_step. cbn [dt_now dexec app]. destruct (set_ok n i (ds_state s) n (snd (obj (ds_state s) i)) G N (or_introl eq_refl) (or_intror eq_refl)) as [G' F']. apply (prelude s k n); auto.
        * apply (P_get _ _ _ _ _ q); auto. rewrite obj_set by exact (g_range _ _ G _ _ N). destruct (Nat.eq_dec i i); [reflexivity|congruence].
        * unfold graph_of. change (d_names (set_obj (ds_state s) i (n, snd (obj (ds_state s) i)))) with (d_names (ds_state s)). rewrite N, obj_set by exact (g_range _ _ G _ _ N). destruct (Nat.eq_dec i i); [reflexivity|congruence].
        * intros m j l E. discriminate.
      + unfold dt_step. cbn [dt_now dexec app]. rewrite N. cbn [app]. apply (prelude s k n); auto.
        * apply frame_refl.
        * apply P_enter; auto.
        * intros m j l E. subst op. discriminate.
      + destruct (script_first (with_t op)) as (m & l & E & FM & PL & AD). rewrite E in *. apply (graph_step s k n); auto. intros (t & EM). apply AD in EM. destruct EM as (u & EU). destruct op as [q|q]; [|discriminate]. now apply (FU q).
      + destruct l as [|m l].
        * unfold dt_step. cbn [dt_now map dt_ops dt_out]. split; [|split; [|split; [|split; [|split]]]].
          -- apply (conclude s k _ _ _ n D EX G (frame_refl n _)); cbn [dt_now dt_ops]; try discriminate; auto. now exists op.
          -- intro m. destruct (oterm_eq_dec m n) as [->|NE].
             ++ right. rewrite (proj_part n op i r [] []) by auto. split; [|reflexivity]. unfold th_step, proj_th. cbn [th_now th_ops th_out dt_now dt_ops dt_out]. now rewrite only_out_app, only_out_one.
             ++ left. rewrite (proj_busy_other m n) by auto. split; [|split; reflexivity]. unfold proj_th. cbn [dt_now dt_ops dt_out]. now rewrite only_out_app, (only_out_one_other m n), app_nil_r by auto.
          -- reflexivity.
          -- unfold running. cbn. rewrite map_app, app_nil_r. reflexivity.
          -- contradiction.
          -- auto.
        * apply (graph_step s k n); auto.
          -- intros b J. apply PL. now right.
          -- intros (t & ->). specialize (PL _ (or_introl eq_refl)). discriminate.
    - unfold dt_step. cbn [dt_now dt_ops dt_out]. destruct ops as [|op rest].
      + split; [rewrite (set_nth_same _ _ _ _ EX); now destruct s|]. split; [intro m; left; auto|]. split; [reflexivity|]. split; [reflexivity|]. split; [contradiction|auto].
      + assert (OK : In op (all k)) by (apply (d_ops _ D _ _ _ EX); now left). destruct (gname op) as [n|] eqn:GN; [|exfalso; exact (HQ _ _ OK GN)]. destruct (gname_cases op n GN) as (rs & ES & PS & SS & RC).
        split; [|split; [|split; [|split; [|split]]]].
        * apply (conclude s k _ _ _ n D EX G (frame_refl n _)); cbn [dt_now dt_ops]; auto.
          -- now exists op.
          -- intros o J. now right.
          -- intros op' i r ms [= <- <- <- <-]. split; [exact OK|]. split; [exact GN|]. constructor.
          -- intros op' i r m j l [= <- <- <- E]. rewrite ES in E. discriminate.
        * intro m. left. split; [|split; reflexivity]. destruct (oterm_eq_dec m n) as [->|NE].
          -- rewrite (proj_nopart n) by auto. unfold proj_th. cbn [dt_now dt_ops dt_out]. now rewrite (only_cons n).
          -- rewrite (proj_busy_other m n) by auto. unfold proj_th. cbn [dt_now dt_ops dt_out]. now rewrite (only_cons_other m n).
        * unfold waits. cbn [dt_now dt_ops starts app]. unfold begun. now rewrite PS.
        * unfold running. cbn [dt_now dt_out starts app]. unfold begun. now rewrite PS.
        * contradiction.
        * auto.
  Qed.
End Inv.
