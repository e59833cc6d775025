(** Objects and paths in the heap of GraphThreads.v; the same machine with named positions. *)
From Verif Require Import Model.Py Model.Terms Model.Graph Model.GraphThreads Spec.GraphSpec Proofs.DictLemmas Proofs.GraphInv.
From Coq Require Import Lia PeanoNat.

(** ** Heap *)
Lemma length_put : forall h n d, length (put h n d) = length h.
Proof. induction h as [|x h IH]; intros [|n] d; cbn; auto. Qed.
Lemma deref_put_eq : forall h n d, n < length h -> deref (put h n d) n = d.
Proof. induction h as [|x h IH]; intros [|n] d L; cbn in *; try lia; [reflexivity|]. apply (IH n d). lia. Qed.
Lemma deref_put_neq : forall h n d m, n <> m -> deref (put h n d) m = deref h m.
Proof. induction h as [|x h IH]; intros [|n] d [|m] NE; cbn; auto; try lia. apply (IH n d m). lia. Qed.
Lemma deref_alloc : forall h m, deref (h ++ [[]]) m = deref h m.
Proof.
  intros h m. unfold deref. destruct (Nat.lt_ge_cases m (length h)) as [L|L]; [now rewrite app_nth1|]. rewrite app_nth2 by exact L. rewrite (nth_overflow h _ L).
  destruct (m - length h) as [|[|k]]; reflexivity.
Qed.
Lemma deref_out : forall h n, length h <= n -> deref h n = [].
Proof. intros. now apply nth_overflow. Qed.

Fixpoint walk (h : heap) (n : nat) (ks : list term) : option nat :=
  match ks with
  | [] => Some n
  | k :: r => match tget (deref h n) k with Some (CRef m) => walk h m r | _ => None end
  end.
Definition stored (h : heap) (w : which) (t : stmt) : Prop :=
  exists n, walk h (root w) [key1 w t; key2 w t] = Some n /\ tget (deref h n) (key3 w t) = Some (CVal t).
Lemma walk_app : forall h ks ks' n, walk h n (ks ++ ks') = match walk h n ks with Some m => walk h m ks' | None => None end.
Proof. induction ks as [|k ks IH]; intros ks' n; [reflexivity|]. cbn [app walk]. destruct (tget (deref h n) k) as [[m|t]|]; auto. Qed.
Lemma walk_alloc : forall h ks n, walk (h ++ [[]]) n ks = walk h n ks.
Proof. induction ks as [|k ks IH]; intro n; [reflexivity|]. cbn [walk]. rewrite deref_alloc. destruct (tget (deref h n) k) as [[m|t]|]; auto. Qed.

Definition label := (which * list term)%type.
Record heap_ok (h : heap) (L : nat -> label) : Prop := {
  ho_len : 3 <= length h;
  ho_root : forall w, L (root w) = (w, []);
  ho_nodup : forall n, NoDup (dkeys (deref h n));
  ho_cell : forall n k v, tget (deref h n) k = Some v ->
    match v with
    | CRef m => m < length h /\ length (snd (L n)) < 2 /\ L m = (fst (L n), snd (L n) ++ [k])
    | CVal t => is_triple t /\ exists w, L n = (w, [key1 w t; key2 w t]) /\ k = key3 w t
    end
}.
Lemma root_lt : forall h L w, heap_ok h L -> root w < length h.
Proof. intros h L w H. pose proof (ho_len _ _ H). destruct w; cbn; lia. Qed.
Lemma walk_label : forall h L, heap_ok h L -> forall ks n m, walk h n ks = Some m -> L m = (fst (L n), snd (L n) ++ ks) /\ (m < length h \/ m = n).
Proof.
  intros h L H. induction ks as [|k ks IH]; intros n m E; cbn [walk] in E.
  - injection E as <-. split; [rewrite app_nil_r; now destruct (L n)|now right].
  - destruct (tget (deref h n) k) as [[m'|t]|] eqn:G; try discriminate. pose proof (ho_cell _ _ H _ _ _ G) as (B & _ & EL). destruct (IH _ _ E) as [E' D]. rewrite EL in E'. cbn [fst snd] in E'.
    rewrite <- app_assoc in E'. split; [exact E'|]. left. destruct D as [D|D]; [exact D|now subst].
Qed.
Lemma walk_root : forall h L, heap_ok h L -> forall w ks m, walk h (root w) ks = Some m -> L m = (w, ks) /\ m < length h.
Proof.
  intros h L H w ks m E. destruct (walk_label _ _ H _ _ _ E) as [E' D]. rewrite (ho_root _ _ H) in E'. split; [exact E'|]. destruct D as [D|D]; [exact D|]. subst. apply (root_lt _ _ w H).
Qed.

(** a new dictionary is stored under a key that is missing *)
Section PutRef.
  Variables (h : heap) (L : nat -> label) (r m : nat) (k : term).
  Hypothesis OK : heap_ok h L.
  Hypothesis RL : r < length h.
  Hypothesis ML : m < length h.
  Hypothesis SL : length (snd (L r)) < 2.
  Hypothesis LL : L m = (fst (L r), snd (L r) ++ [k]).
  Let h' := put h r (tset (deref h r) k (CRef m)).
  Lemma put_ref_mr : m <> r.
  Proof. intro E. rewrite E in LL. assert (X : length (snd (L r)) = length (snd (fst (L r), snd (L r) ++ [k]))) by (now rewrite <- LL). cbn in X. rewrite app_length in X. cbn in X. lia. Qed.
  Lemma put_ref_ok : heap_ok h' L.
  Proof.
    split.
    - unfold h'. rewrite length_put. apply OK.
    - apply OK.
    - intro n. unfold h'. destruct (Nat.eq_dec r n) as [<-|NE]; [rewrite deref_put_eq by exact RL; apply NoDup_dset, OK|rewrite deref_put_neq by exact NE; apply OK].
    - intros n k' v E. unfold h' in *. rewrite length_put. destruct (Nat.eq_dec r n) as [<-|NE].
      + rewrite deref_put_eq, dget_dset in E by exact RL. destruct (term_eq_dec k k') as [<-|NK]; [|now apply (ho_cell _ _ OK r k')]. injection E as <-. auto.
      + rewrite deref_put_neq in E by exact NE. now apply (ho_cell _ _ OK n k').
  Qed.
  Hypothesis MISS : tget (deref h r) k = None.
  Lemma put_ref_walk : forall ks n x, walk h n ks = Some x -> walk h' n ks = Some x.
  Proof.
    induction ks as [|k' ks IH]; intros n x E; [exact E|]. cbn [walk] in *. unfold h' at 1. destruct (Nat.eq_dec r n) as [<-|NE].
    - rewrite deref_put_eq, dget_dset by exact RL. destruct (term_eq_dec k k') as [<-|NK]; [rewrite MISS in E; discriminate|]. destruct (tget (deref h r) k') as [[y|t]|]; auto.
    - rewrite deref_put_neq by exact NE. destruct (tget (deref h n) k') as [[y|t]|]; auto.
  Qed.
  Hypothesis EMPTY : deref h m = [].
  Lemma put_ref_new : forall ks n x, walk h' n ks = Some x -> walk h n ks = Some x \/ x = m.
  Proof.
    pose proof put_ref_mr as MR. induction ks as [|k' ks IH]; intros n x E; [now left|]. cbn [walk] in E. unfold h' in E at 1. destruct (Nat.eq_dec r n) as [<-|NE].
    - rewrite deref_put_eq, dget_dset in E by exact RL. destruct (term_eq_dec k k') as [<-|NK].
      + right. destruct ks as [|k2 ks]; [now injection E|]. cbn [walk] in E. unfold h' in E. rewrite deref_put_neq, EMPTY in E by congruence. discriminate.
      + cbn [walk]. destruct (tget (deref h r) k') as [[y|t]|]; try discriminate. apply IH, E.
    - rewrite deref_put_neq in E by exact NE. cbn [walk]. destruct (tget (deref h n) k') as [[y|t]|]; try discriminate. apply IH, E.
  Qed.
  Lemma put_ref_stored : forall w t, stored h' w t <-> stored h w t.
  Proof.
    pose proof put_ref_mr as MR. intros w t. split; intros (n & W & G).
    - destruct (put_ref_new _ _ _ W) as [W0| ->].
      + exists n. split; [exact W0|]. destruct (walk_root _ _ OK _ _ _ W0) as [EL _]. unfold h' in G. rewrite deref_put_neq in G; [exact G|]. intros <-. rewrite EL in SL. cbn in SL. lia.
      + unfold h' in G. rewrite deref_put_neq, EMPTY in G by congruence. discriminate.
    - exists n. split; [now apply put_ref_walk|]. destruct (walk_root _ _ OK _ _ _ W) as [EL _]. unfold h'. rewrite deref_put_neq; [exact G|]. intros <-. rewrite EL in SL. cbn in SL. lia.
  Qed.
End PutRef.

(** a leaf changes *)
Section PutLeaf.
  Variables (h : heap) (L : nat -> label) (r : nat) (w : which) (t : stmt).
  Hypothesis OK : heap_ok h L.
  Hypothesis RL : r < length h.
  Hypothesis LL : L r = (w, [key1 w t; key2 w t]).
  Lemma leaf_no_ref : forall d k n, (forall k v, tget d k = Some v -> tget (deref h r) k = Some v \/ v = CVal t) -> tget d k <> Some (CRef n).
  Proof.
    intros d k n H E. destruct (H _ _ E) as [G|G]; [|discriminate]. pose proof (ho_cell _ _ OK _ _ _ G) as (_ & SL & _). rewrite LL in SL. cbn in SL. lia.
  Qed.
  Lemma leaf_walk : forall d, (forall k v, tget d k = Some v -> tget (deref h r) k = Some v \/ v = CVal t) -> forall ks n, walk (put h r d) n ks = walk h n ks.
  Proof.
    intros d H. induction ks as [|k ks IH]; intro n; [reflexivity|]. cbn [walk]. destruct (Nat.eq_dec r n) as [<-|NE].
    - rewrite deref_put_eq by exact RL. pose proof (leaf_no_ref d k) as N1. pose proof (leaf_no_ref (deref h r) k) as N2.
      destruct (tget d k) as [[x|y]|] eqn:E1; [exfalso; now apply (N1 x H)| |]; destruct (tget (deref h r) k) as [[x|y']|] eqn:E2; try reflexivity; exfalso; apply (N2 x); auto.
    - rewrite deref_put_neq by exact NE. destruct (tget (deref h n) k) as [[x|y]|]; auto.
  Qed.
  Lemma leaf_ok : forall d, NoDup (dkeys d) -> is_triple t -> (forall k v, tget d k = Some v -> tget (deref h r) k = Some v \/ v = CVal t /\ k = key3 w t) -> heap_ok (put h r d) L.
  Proof.
    intros d ND IT H. split.
    - rewrite length_put. apply OK.
    - apply OK.
    - intro n. destruct (Nat.eq_dec r n) as [<-|NE]; [now rewrite deref_put_eq|rewrite deref_put_neq by exact NE; apply OK].
    - intros n k' v E. rewrite length_put. destruct (Nat.eq_dec r n) as [<-|NE].
      + rewrite deref_put_eq in E by exact RL. destruct (H _ _ E) as [G|[-> ->]]; [now apply (ho_cell _ _ OK r k')|]. split; [exact IT|]. exists w. auto.
      + rewrite deref_put_neq in E by exact NE. now apply (ho_cell _ _ OK n k').
  Qed.
  Definition stored_d := tset (deref h r) (key3 w t) (CVal t).
  Lemma store_cells : forall k v, tget stored_d k = Some v -> tget (deref h r) k = Some v \/ v = CVal t /\ k = key3 w t.
  Proof. intros k v E. unfold stored_d in E. rewrite dget_dset in E. destruct (term_eq_dec (key3 w t) k) as [<-|]; [right; split; congruence|now left]. Qed.
  Definition deleted_d := tdel (deref h r) (key3 w t).
  Lemma del_cells : forall k v, tget deleted_d k = Some v -> tget (deref h r) k = Some v.
  Proof.
    intros k v E. unfold deleted_d in E. destruct (term_eq_dec (key3 w t) k) as [<-|NE]; [rewrite dget_ddel_eq in E by apply OK; discriminate|]. now rewrite dget_ddel_neq in E.
  Qed.
  Hypothesis WR : walk h (root w) [key1 w t; key2 w t] = Some r.
  Hypothesis IT : is_triple t.
  Lemma same_keys : forall w' u, key1 w' u = key1 w' t -> key2 w' u = key2 w' t -> key3 w' u = key3 w' t -> is_triple u -> u = t.
  Proof. intros [] [] A B C IU; destruct t; cbn in *; unfold is_triple in *; cbn in *; subst; reflexivity. Qed.
  Lemma cell_at : forall w' u n, walk h (root w') [key1 w' u; key2 w' u] = Some n -> n = r -> w' = w /\ key1 w' u = key1 w' t /\ key2 w' u = key2 w' t.
  Proof. intros w' u n W ->. destruct (walk_root _ _ OK _ _ _ W) as [E _]. rewrite LL in E. injection E as <- E1 E2. auto. Qed.
  Lemma store_stored : forall w' u, stored (put h r stored_d) w' u <-> stored h w' u \/ w' = w /\ u = t.
  Proof.
    assert (HC : forall k v, tget stored_d k = Some v -> tget (deref h r) k = Some v \/ v = CVal t) by (intros k v E; destruct (store_cells k v E) as [|[]]; auto).
    intros w' u. unfold stored at 1. split.
    - intros (n & W & G). rewrite leaf_walk in W by exact HC. destruct (Nat.eq_dec r n) as [E|NE].
      + subst n. rewrite deref_put_eq in G by exact RL. destruct (store_cells _ _ G) as [G'|[G' K]]; [left; now exists r|]. injection G' as ->. destruct (cell_at _ _ _ W eq_refl) as (-> & _). auto.
      + rewrite deref_put_neq in G by exact NE. left. now exists n.
    - intros [(n & W & G)|[-> ->]].
      + exists n. rewrite leaf_walk by exact HC. split; [exact W|]. destruct (Nat.eq_dec r n) as [E|NE]; [|now rewrite deref_put_neq].
        subst n. rewrite deref_put_eq by exact RL. unfold stored_d. rewrite dget_dset. destruct (term_eq_dec (key3 w t) (key3 w' u)) as [K|]; [|exact G].
        destruct (cell_at _ _ _ W eq_refl) as (-> & A & B). pose proof (ho_cell _ _ OK _ _ _ G) as (IU & _). rewrite (same_keys w u A B (eq_sym K) IU). reflexivity.
      + exists r. rewrite leaf_walk by exact HC. split; [exact WR|]. rewrite deref_put_eq by exact RL. unfold stored_d. apply dget_dset_eq.
  Qed.
  Lemma del_stored : forall w' u, stored (put h r deleted_d) w' u <-> stored h w' u /\ ~ (w' = w /\ u = t).
  Proof.
    assert (HC : forall k v, tget deleted_d k = Some v -> tget (deref h r) k = Some v \/ v = CVal t) by (intros k v E; left; now apply del_cells).
    intros w' u. unfold stored at 1. split.
    - intros (n & W & G). rewrite leaf_walk in W by exact HC. destruct (Nat.eq_dec r n) as [E|NE].
      + subst n. rewrite deref_put_eq in G by exact RL. pose proof (del_cells _ _ G) as G'. split; [now exists r|]. intros [-> ->]. unfold deleted_d in G. rewrite dget_ddel_eq in G by apply OK. discriminate.
      + rewrite deref_put_neq in G by exact NE. split; [now exists n|]. intros [-> ->]. rewrite WR in W. congruence.
    - intros [(n & W & G) ND]. exists n. rewrite leaf_walk by exact HC. split; [exact W|]. destruct (Nat.eq_dec r n) as [E|NE]; [|now rewrite deref_put_neq].
      subst n. rewrite deref_put_eq by exact RL. unfold deleted_d. rewrite dget_ddel_neq; [exact G|]. intro K. apply ND. destruct (cell_at _ _ _ W eq_refl) as (-> & A & B). split; [reflexivity|].
      pose proof (ho_cell _ _ OK _ _ _ G) as (IU & _). exact (same_keys w u A B (eq_sym K) IU).
  Qed.
End PutLeaf.

(** ** Positions *)
Definition op_stmt (op : cop) : stmt := match op with CAdd t | CRemove t => t end.
Definition key12 (b : bool) (w : which) (t : stmt) : term := if b then key2 w t else key1 w t.
Definition pre (b : bool) (w : which) (t : stmt) : list term := if b then [key1 w t] else [].
Inductive pos :=
| Begin
| Idx (ws : list which)                             (* between two indexes *)
| Sub (w : which) (b : bool) (ws : list which)      (* before the first or second subscript *)
| Pend (w : which) (b : bool) (m : nat) (ws : list which)   (* in __missing__ *)
| Last (w : which) (ws : list which).
Definition last_step (op : cop) (w : which) : micro := match op with CAdd t => MStore (key3 w t) t | CRemove t => MDel (key3 w t) end.
Definition one (op : cop) (w : which) : list micro := [MRoot w; MGet (key1 w (op_stmt op)); MGet (key2 w (op_stmt op)); last_step op w].
Definition rest (op : cop) (ws : list which) : list micro := flat_map (one op) ws.
Definition code (op : cop) (p : pos) : list micro :=
  let t := op_stmt op in
  match p with
  | Begin => script op
  | Idx ws => rest op ws
  | Sub w false ws => MGet (key1 w t) :: MGet (key2 w t) :: last_step op w :: rest op ws
  | Sub w true ws => MGet (key2 w t) :: last_step op w :: rest op ws
  | Pend w false m ws => MPut (key1 w t) m :: MGet (key2 w t) :: last_step op w :: rest op ws
  | Pend w true m ws => MPut (key2 w t) m :: last_step op w :: rest op ws
  | Last w ws => last_step op w :: rest op ws
  end.
Definition next (b : bool) (w : which) (ws : list which) : pos := if b then Last w ws else Sub w true ws.
Record ath := mkA { a_now : option (cop * pos * nat); a_ops : list cop; a_out : list (cop * res unit) }.
Definition conc (x : ath) : thread := mkTh (match a_now x with Some (op, p, r) => Some (op, r, code op p) | None => None end) (a_ops x) (a_out x).
Definition goes (x : ath) (op : cop) (p : pos) (r : nat) : ath := mkA (Some (op, p, r)) (a_ops x) (a_out x).
Definition ends (x : ath) (op : cop) (y : res unit) : ath := mkA None (a_ops x) (a_out x ++ [(op, y)]).
Definition a_step (g : cgraph) (x : ath) : cgraph * ath :=
  let h := c_heap g in
  match a_now x with
  | None => match a_ops x with [] => (g, x) | op :: r => (g, mkA (Some (op, Begin, 0)) r (a_out x)) end
  | Some (op, p, r) =>
      let t := op_stmt op in
      match p with
      | Begin => match op with
                 | CAdd t => (mkC (set_add t (c_triples g)) h, goes x op (Idx [SPO; POS; OSP]) r)
                 | CRemove t => if in_dec stmt_eq_dec t (c_triples g) then (mkC (set_remove t (c_triples g)) h, goes x op (Idx [SPO; POS; OSP]) r)
                                else (g, ends x op (Err KeyError))
                 end
      | Idx [] => (g, ends x op (Ok tt))
      | Idx (w :: ws) => (g, goes x op (Sub w false ws) (root w))
      | Sub w b ws => match tget (deref h r) (key12 b w t) with
                      | Some (CRef n) => (g, goes x op (next b w ws) n)
                      | Some (CVal _) => (g, ends x op (Err TypeError))
                      | None => (mkC (c_triples g) (h ++ [[]]), goes x op (Pend w b (length h) ws) r)
                      end
      | Pend w b m ws => (mkC (c_triples g) (put h r (tset (deref h r) (key12 b w t) (CRef m))), goes x op (next b w ws) m)
      | Last w ws => match op with
                     | CAdd _ => (mkC (c_triples g) (put h r (tset (deref h r) (key3 w t) (CVal t))), goes x op (Idx ws) r)
                     | CRemove _ => match tget (deref h r) (key3 w t) with
                                    | Some _ => (mkC (c_triples g) (put h r (tdel (deref h r) (key3 w t))), goes x op (Idx ws) r)
                                    | None => (g, ends x op (Err KeyError))
                                    end
                     end
      end
  end.
Lemma a_step_conc : forall g x, th_step g (conc x) = (fst (a_step g x), conc (snd (a_step g x))).
Proof.
  intros g [[[[op p] r]|] ops out]; unfold th_step, a_step, conc, goes, ends; cbn [a_now a_ops a_out th_now th_ops th_out]; [|destruct ops; reflexivity].
  destruct p as [|[|w ws]|w b ws|w b m ws|w ws]; cbn [code].
  - destruct op as [t|t]; cbn [script exec]; [reflexivity|]. destruct (in_dec stmt_eq_dec t (c_triples g)); reflexivity.
  - reflexivity.
  - reflexivity.
  - destruct b; cbn [exec key12]; destruct (tget (deref (c_heap g) r) _) as [[n|u]|]; reflexivity.
  - destruct b; reflexivity.
  - destruct op as [t|t]; cbn [last_step exec op_stmt]; [reflexivity|]. destruct (tget (deref (c_heap g) r) (key3 w t)); reflexivity.
Qed.
Record astate := mkAS { as_graph : cgraph; as_threads : list ath }.
Definition as_step (s : astate) (i : nat) : astate :=
  match nth_error (as_threads s) i with
  | None => s
  | Some x => mkAS (fst (a_step (as_graph s) x)) (set_nth (as_threads s) i (snd (a_step (as_graph s) x)))
  end.
Definition conc_s (s : astate) : cstate := mkS (as_graph s) (map conc (as_threads s)).
Lemma set_nth_map : forall A B (f : A -> B) l n x, map f (set_nth l n x) = set_nth (map f l) n (f x).
Proof. induction l as [|y l IH]; intros [|n] x; cbn; auto. now rewrite IH. Qed.
Lemma as_step_conc : forall s i, s_step (conc_s s) i = conc_s (as_step s i).
Proof.
  intros [g l] i. unfold s_step, as_step, conc_s. cbn [s_graph s_threads as_graph as_threads]. rewrite nth_error_map. destruct (nth_error l i) as [x|]; [|reflexivity]. cbn [option_map].
  rewrite a_step_conc. cbn [as_graph as_threads]. now rewrite set_nth_map.
Qed.
Definition as_run (s : astate) (schedule : list nat) : astate := fold_left as_step schedule s.
Lemma as_run_conc : forall sch s, s_run (conc_s s) sch = conc_s (as_run s sch).
Proof. induction sch as [|i sch IH]; intro s; [reflexivity|]. cbn. unfold s_run in IH. now rewrite as_step_conc, IH. Qed.
