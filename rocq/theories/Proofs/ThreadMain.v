(** Threads in one Graph: what holds of a whole run. *)
From Verif Require Import Model.Py Model.Terms Model.Graph Model.GraphThreads Spec.GraphSpec Spec.ThreadGraphSpec Proofs.DictLemmas Proofs.GraphInv Proofs.GraphGen Proofs.GraphHist Proofs.ThreadHeap Proofs.ThreadInv Proofs.ThreadView Proofs.ThreadRun.
From Coq Require Import Lia PeanoNat.

Definition astart (opss : list (list cop)) : list ath := map (fun ops => mkA None ops []) opss.
Definition ops_of (opss : list (list cop)) (i : nat) : list cop := match nth_error opss i with Some ops => ops | None => [] end.
Lemma start_conc : forall g opss, conc_s (mkAS g (astart opss)) = mkS g (map th_new opss).
Proof. intros. unfold conc_s, astart. cbn. now rewrite map_map. Qed.
Lemma now_start : forall opss i, now_of (astart opss) i = None.
Proof. intros opss i. unfold now_of, astart. rewrite nth_error_map. now destruct (nth_error opss i). Qed.
Lemma nth_start : forall opss i x, nth_error (astart opss) i = Some x -> exists ops, nth_error opss i = Some ops /\ x = mkA None ops [].
Proof. intros opss i x. unfold astart. rewrite nth_error_map. destruct (nth_error opss i) as [ops|]; [|discriminate]. intros [= <-]. now exists ops. Qed.
Lemma finished_conc : forall s, finished (conc_s s) -> forall i x, nth_error (as_threads s) i = Some x -> a_now x = None /\ a_ops x = [].
Proof.
  intros s F i x E. apply nth_error_In in E. destruct (F (conc x)) as [A B]; [unfold conc_s; cbn; now apply in_map|]. unfold conc in *. cbn in A, B. split; [|exact B]. destruct (a_now x) as [[[op p] r]|]; [discriminate|reflexivity].
Qed.
Lemma length_step : forall s i, length (as_threads (as_step s i)) = length (as_threads s).
Proof. intros s i. unfold as_step. destruct (nth_error (as_threads s) i); [|reflexivity]. cbn. apply length_set. Qed.
Lemma length_run : forall sch s, length (as_threads (as_run s sch)) = length (as_threads s).
Proof. induction sch as [|i sch IH]; intro s; [reflexivity|]. cbn. unfold as_run in IH. now rewrite IH, length_step. Qed.
Lemma no_cval : forall s, ok_state s -> forall i x op w b ws r u, nth_error (as_threads s) i = Some x -> a_now x = Some (op, Sub w b ws, r) -> tget (deref (c_heap (as_graph s)) r) (key12 b w (op_stmt op)) <> Some (CVal u).
Proof.
  intros s [(L & OK & W) _] i x op w b ws r u E EN G. assert (NX : now_of (as_threads s) i = Some (op, Sub w b ws, r)) by (unfold now_of; now rewrite E). destruct (W _ _ _ _ NX) as [_ [_ EL]].
  pose proof (ho_cell _ _ OK _ _ _ G) as (_ & w2 & X & _). rewrite EL in X. destruct b; discriminate.
Qed.
Lemma ordered_start : forall R ts opss g, (forall t, In t (c_triples g) <-> In t ts) -> ordered R ts (ops_of opss) (mkAS g (astart opss)) [].
Proof.
  intros R ts opss g T. split; [|split; [exact T|contradiction]]. intros i x E. cbn [as_threads] in E. apply nth_start in E. destruct E as (ops & E & ->). cbn. unfold ops_of. rewrite E. split; [reflexivity|]. now exists [].
Qed.
Lemma ordered_end : forall R ts opss s o, length (as_threads s) = length opss -> ordered R ts (ops_of opss) s o -> finished (conc_s s) ->
  interleaves opss o /\ (forall t, In t (c_triples (as_graph s)) <-> In t (fst (answers ts o))) /\
  forall i x, nth_error (s_threads (conc_s s)) i = Some x -> Forall2 R (th_out x) (mine i (snd (answers ts o))).
Proof.
  intros R ts opss s o LN (TH & TR & IX) F. split; [split|split].
  - intros i ops E. assert (IL : i < length (as_threads s)) by (rewrite LN; apply nth_error_Some; congruence). destruct (nth_error (as_threads s) i) as [x|] eqn:EX; [|apply nth_error_None in EX; lia].
    destruct (TH _ _ EX) as [A _]. destruct (finished_conc s F _ _ EX) as [B C]. unfold waiting in A. rewrite B, C, app_nil_r in A. unfold ops_of in A. now rewrite E in A.
  - intros i op J. rewrite <- LN. now apply (IX i op).
  - exact TR.
  - intros i x E. unfold conc_s in E. cbn [s_threads] in E. rewrite nth_error_map in E. destruct (nth_error (as_threads s) i) as [y|] eqn:EY; [|discriminate]. injection E as <-.
    destruct (TH _ _ EY) as [_ (ys & A & FR)]. destruct (finished_conc s F _ _ EY) as [B _]. unfold going in A. rewrite B, app_nil_r in A. rewrite A. exact FR.
Qed.

(** ** Any threads *)
(** a stored triple was added by some call *)
Definition made (s : astate) (o : list (nat * cop)) : Prop :=
  (forall n k t, tget (deref (c_heap (as_graph s)) n) k = Some (CVal t) -> In (CAdd t) (map snd o)) /\
  forall i t p r, now_of (as_threads s) i = Some (CAdd t, p, r) -> p <> Begin -> In (CAdd t) (map snd o).
Lemma made_step : forall s i o, ok_state s -> made s o -> made (as_step s i) (o ++ began s i).
Proof.
  intros [g l] i o OS [C M]. pose proof OS as [(L & OK & W) _]. unfold as_step, began. cbn [as_graph as_threads] in *. destruct (nth_error l i) as [x|] eqn:E; [|rewrite app_nil_r; now split].
  assert (NX : now_of l i = a_now x) by (unfold now_of; now rewrite E).
  assert (STEP : forall g' x' o', (forall n k t, tget (deref (c_heap g') n) k = Some (CVal t) -> In (CAdd t) (map snd (o ++ o'))) ->
    (forall t p r, a_now x' = Some (CAdd t, p, r) -> p <> Begin -> In (CAdd t) (map snd (o ++ o'))) -> made (mkAS g' (set_nth l i x')) (o ++ o')).
  { intros g' x' o' A B. split; cbn [as_graph as_threads]; [exact A|]. intros j t p r EJ NB. rewrite (now_set _ _ _ _ E) in EJ. apply upd_cases in EJ. destruct EJ as [[-> EJ]|[NE EJ]]; [exact (B _ _ _ EJ NB)|].
    rewrite map_app, in_app_iff. left. exact (M _ _ _ _ EJ NB). }
  assert (KEEP : forall o' n k t, tget (deref (c_heap g) n) k = Some (CVal t) -> In (CAdd t) (map snd (o ++ o'))) by (intros o' n k t G; rewrite map_app, in_app_iff; left; exact (C _ _ _ G)).
  unfold a_step, goes, ends in *. destruct (a_now x) as [[[op p] r]|] eqn:EN.
  - assert (OLD : forall o' t, p <> Begin -> op = CAdd t -> In (CAdd t) (map snd (o ++ o'))) by (intros o' t NB ->; rewrite map_app, in_app_iff; left; exact (M _ _ _ _ NX NB)).
    destruct (W _ _ _ _ NX) as [_ PL]. destruct p as [|[|w ws]|w b ws|w b m ws|w ws].
    + destruct op as [t|t]; [|destruct (in_dec stmt_eq_dec t (c_triples g))]; cbn [fst snd]; apply STEP; cbn [a_now c_heap]; try exact (KEEP _); try discriminate.
      intros u p r' [= <- <- <-] _. rewrite map_app, in_app_iff. right. now left.
    + cbn [fst snd]. apply STEP; cbn [a_now c_heap]; try exact (KEEP _); discriminate.
    + cbn [fst snd]. apply STEP; cbn [a_now c_heap]; try exact (KEEP _). intros u p r' [= -> <- <-] _. apply OLD; [discriminate|reflexivity].
    + destruct (tget (deref (c_heap g) r) (key12 b w (op_stmt op))) as [[n|u]|] eqn:G; cbn [fst snd]; apply STEP; cbn [a_now c_heap]; try exact (KEEP _); try discriminate.
      * intros u p r' [= -> <- <-] _. apply OLD; [discriminate|reflexivity].
      * intros n k t. rewrite deref_alloc. apply KEEP.
      * intros u p r' [= -> <- <-] _. apply OLD; [discriminate|reflexivity].
    + cbn [fst snd]. apply STEP; cbn [a_now c_heap].
      * destruct PL as (RL & _). intros n k t. destruct (Nat.eq_dec r n) as [<-|NE]; [|rewrite deref_put_neq by exact NE; apply KEEP]. rewrite deref_put_eq, dget_dset by exact RL. destruct (term_eq_dec _ k); [discriminate|apply KEEP].
      * intros u p r' [= -> <- <-] _. apply OLD; [discriminate|reflexivity].
    + destruct PL as (RL & _). destruct op as [t|t]; cbn [op_stmt fst snd] in *; [|destruct (tget (deref (c_heap g) r) (key3 w t)) as [c|] eqn:G; cbn [fst snd]]; apply STEP; cbn [a_now c_heap]; try exact (KEEP _); try discriminate.
      * intros n k u. destruct (Nat.eq_dec r n) as [<-|NE]; [|rewrite deref_put_neq by exact NE; apply KEEP]. rewrite deref_put_eq, dget_dset by exact RL. destruct (term_eq_dec _ k); [|apply KEEP]. intros [= <-]. apply OLD; [discriminate|reflexivity].
      * intros u p r' [= <- <- <-] _. apply OLD; [discriminate|reflexivity].
      * intros n k u. destruct (Nat.eq_dec r n) as [<-|NE]; [|rewrite deref_put_neq by exact NE; apply KEEP]. rewrite deref_put_eq by exact RL. intro G'. apply (KEEP _ r k). destruct (term_eq_dec (key3 w t) k) as [EK|NK]; [|now rewrite dget_ddel_neq in G'].
        subst k. rewrite dget_ddel_eq in G' by apply OK. discriminate.
  - destruct (a_ops x) as [|op rest]; cbn [fst snd]; apply STEP; cbn [a_now]; try exact (KEEP _); [rewrite EN; discriminate|]. intros t p r [= <- <- <-] NB. congruence.
Qed.
Lemma any_run : forall ts ops sch s o, ok_state s -> ordered at_worst ts ops s o -> made s o ->
  ok_state (as_run s sch) /\ ordered at_worst ts ops (as_run s sch) (o ++ order_of s sch) /\ made (as_run s sch) (o ++ order_of s sch).
Proof.
  intros ts ops. induction sch as [|i sch IH]; intros s o OS OD MD; cbn [order_of]; [rewrite app_nil_r; auto|]. rewrite app_assoc. cbn. apply IH.
  - now apply ok_step.
  - apply ordered_step; auto.
    + now left.
    + intros x op w b ws r u E. now apply (no_cval s OS i x).
    + intros x t w ws r _ _ _. right. now exists t.
  - now apply made_step.
Qed.

(** ** The empty graph *)
Lemma new_ok : exists L, heap_ok (c_heap c_new) L.
Proof.
  exists (fun n => match n with 0 => (SPO, []) | 1 => (POS, []) | _ => (OSP, []) end). split.
  - cbn. lia.
  - intros []; reflexivity.
  - intro n. unfold deref, c_new. cbn [c_heap]. destruct n as [|[|[|[|n]]]]; constructor.
  - intros n k v E. unfold deref, c_new in E. cbn [c_heap] in E. destruct n as [|[|[|[|n]]]]; discriminate.
Qed.
Lemma new_cell : forall n k v, tget (deref (c_heap c_new) n) k <> Some v.
Proof. intros n k v E. unfold deref, c_new in E. cbn [c_heap] in E. destruct n as [|[|[|[|n]]]]; discriminate. Qed.
Lemma ok_start : forall g opss, (exists L, heap_ok (c_heap g) L) -> (forall ops, In ops opss -> of_triples ops) -> ok_state (mkAS g (astart opss)).
Proof.
  intros g opss (L & OK) T. split; cbn [as_graph as_threads].
  - exists L. split; [exact OK|]. intros i op p r. rewrite now_start. discriminate.
  - intros i x op E J. apply nth_start in E. destruct E as (ops & E & ->). cbn [a_ops] in J. apply nth_error_In in E. destruct op as [t|t]; apply (T ops E); auto.
Qed.
Lemma lookup_sound : forall h L w a b c t, heap_ok h L -> lookup3 (view h (root w)) a b c = Some t -> key1 w t = a /\ key2 w t = b /\ key3 w t = c /\ exists n k, tget (deref h n) k = Some (CVal t).
Proof. intros h L w a b c t OK E. apply (view_stored h L OK) in E. destruct E as ((n & _ & G) & A & B & C). repeat split; auto. now exists n, (key3 w t). Qed.

(** ** Quiet graphs *)
Record quiet (g : cgraph) : Prop := {
  q_lab : exists L, heap_ok (c_heap g) L;
  q_trip : NoDup (c_triples g) /\ forall t, In t (c_triples g) -> is_triple t;
  q_st : forall w t, stored (c_heap g) w t <-> In t (c_triples g) }.
Lemma quiet_new : quiet c_new.
Proof.
  split; [exact new_ok|split; [constructor|contradiction]|]. intros w t. split; [|contradiction]. intros (n & _ & G). exfalso. exact (new_cell _ _ _ G).
Qed.
Lemma quiet_inv : forall g all now, quiet g -> (forall i, now i = None) -> inv (c_heap g) all g now.
Proof.
  intros g all now [(L & OK) TR ST] N. split; auto.
  - exists L. split; [exact OK|]. intros i op p r. rewrite N. discriminate.
  - intros i op p r. rewrite N. discriminate.
  - intros i op p r. rewrite N. discriminate.
  - intros i op w b m ws r. rewrite N. discriminate.
  - intros i j op w b m ws r op' w' b' m' ws' r' _. rewrite N. discriminate.
  - intros t w J. left. now apply ST.
  - intros t w J. left. now apply (ST w).
  - intros i t p r. rewrite N. discriminate.
  - intros i t p r. rewrite N. discriminate.
  - intros i j t p r p' r'. rewrite N. discriminate.
Qed.
Lemma inv_quiets : forall h0 all g now, inv h0 all g now -> (forall i, now i = None) -> quiet g.
Proof.
  intros h0 all g now [LAB TRIP PATHS OPS WALK PEND DIST ADD DEL INN REM ONE] N. split; auto.
  - destruct LAB as (L & OK & _). now exists L.
  - intros w t. split; intro J.
    + destruct (DEL t w J) as [A|(i & p & r & E & _)]; [exact A|]. rewrite N in E. discriminate.
    + destruct (ADD t w J) as [A|(i & p & r & E & _)]; [exact A|]. rewrite N in E. discriminate.
Qed.
Lemma quiet_wf : forall g, quiet g -> wf (seen g).
Proof. intros [ts h] [(L & OK) [ND T] ST]. now apply (seen_wf h L). Qed.

(** ** Without races *)
Section Safe.
  Variable g0 : cgraph.
  Variable opss : list (list cop).
  Hypothesis Q : quiet g0.
  Hypothesis T : forall ops, In ops opss -> of_triples ops.
  Hypothesis H1 : no_clash opss.
  Hypothesis H2 : forall i j a c t u w b, i <> j -> nth_error opss i = Some a -> nth_error opss j = Some c -> In (CAdd t) a -> In (CAdd u) c ->
    pre b w t ++ [key12 b w t] = pre b w u ++ [key12 b w u] -> walk (c_heap g0) (root w) (pre b w t ++ [key12 b w t]) <> None.
  Let all := ops_of opss.
  Lemma H1' : forall i j t, i <> j -> In (CAdd t) (all i) -> ~ In (CRemove t) (all j).
  Proof. intros i j t NE. unfold all, ops_of. destruct (nth_error opss i) as [a|] eqn:E; [|contradiction]. destruct (nth_error opss j) as [b|] eqn:E'; [|tauto]. intro J. exact (H1 i j a b t NE E E' J). Qed.
  Lemma H2' : forall i j t u w b, i <> j -> In (CAdd t) (all i) -> In (CAdd u) (all j) ->
    pre b w t ++ [key12 b w t] = pre b w u ++ [key12 b w u] -> walk (c_heap g0) (root w) (pre b w t ++ [key12 b w t]) <> None.
  Proof. intros i j t u w b NE. unfold all, ops_of. destruct (nth_error opss i) as [a|] eqn:E; [|contradiction]. destruct (nth_error opss j) as [c|] eqn:E'; [|contradiction]. intros J J'. exact (H2 i j a c t u w b NE E E' J J'). Qed.
  Definition pathed (s : astate) (o : list (nat * cop)) : Prop :=
    forall t w, In (CAdd t) (map snd o) -> walk (c_heap (as_graph s)) (root w) [key1 w t; key2 w t] <> None \/ exists i p r, now_of (as_threads s) i = Some (CAdd t, p, r) /\ In w (todo p).
  Lemma pathed_step : forall s i o, ok_state s -> safe (c_heap g0) all s -> pathed s o -> pathed (as_step s i) (o ++ began s i).
  Proof.
    intros s i o OS SF P t w J. rewrite map_app, in_app_iff in J.
    assert (KEEP : walk (c_heap (as_graph s)) (root w) [key1 w t; key2 w t] <> None -> walk (c_heap (as_graph (as_step s i))) (root w) [key1 w t; key2 w t] <> None).
    { destruct (walk (c_heap (as_graph s)) (root w) [key1 w t; key2 w t]) as [n|] eqn:E; [|congruence]. intros _. rewrite (walk_step _ _ H1' H2' s i w _ n SF E). discriminate. }
    pose proof (no_cval s OS i) as NV. destruct SF as [IV _].
    destruct s as [g l]. unfold began, as_step in *. cbn [as_graph as_threads] in *. destruct (nth_error l i) as [x|] eqn:E.
    2: { destruct J as [J|[]]. exact (P t w J). }
    cbn [as_graph as_threads] in *. assert (NX : now_of l i = a_now x) by (unfold now_of; now rewrite E). specialize (NV x).
    assert (OTHER : forall j p r, j <> i -> now_of l j = Some (CAdd t, p, r) -> In w (todo p) -> exists i0 p0 r0, now_of (set_nth l i (snd (a_step g x))) i0 = Some (CAdd t, p0, r0) /\ In w (todo p0)).
    { intros j p r NE EJ K. exists j, p, r. rewrite (now_set _ _ _ _ E), upd_neq by exact NE. auto. }
    destruct J as [J|J].
    - destruct (P t w J) as [A|(j & p & r & EJ & K)]; [left; now apply KEEP|]. destruct (Nat.eq_dec j i) as [->|NE]; [|right; now apply (OTHER j p r)].
      cbn [as_threads] in EJ. rewrite NX in EJ. assert (SELF : forall p' r', a_now (snd (a_step g x)) = Some (CAdd t, p', r') -> In w (todo p') -> exists i0 p0 r0, now_of (set_nth l i (snd (a_step g x))) i0 = Some (CAdd t, p0, r0) /\ In w (todo p0)).
      { intros p' r' A B. exists i, p', r'. rewrite (now_set _ _ _ _ E), upd_eq. auto. }
      unfold a_step in *. rewrite EJ in *. destruct p as [|[|w' ws]|w' b ws|w' b m ws|w' ws]; cbn [todo] in K; try contradiction; cbn [op_stmt] in *.
      + right. eapply SELF; [reflexivity|exact K].
      + destruct (tget (deref (c_heap g) r) (key12 b w' t)) as [[n|u]|] eqn:G.
        * right. eapply SELF; [reflexivity|]. destruct b; exact K.
        * exfalso. exact (NV _ _ _ _ _ u eq_refl eq_refl G).
        * right. eapply SELF; [reflexivity|]. exact K.
      + right. eapply SELF; [reflexivity|]. destruct b; exact K.
      + destruct K as [->|K]; [|right; eapply SELF; [reflexivity|exact K]]. left. apply KEEP. pose proof (i_walk _ _ _ _ IV i (CAdd t) (Last w ws) r) as X. specialize (X NX). cbn [pos_walk op_stmt] in X. rewrite X. discriminate.
    - destruct (a_now x) as [[[op p] r]|] eqn:EN; [|contradiction]. destruct p; try contradiction. destruct J as [J|[]]. cbn in J. subst op. right. exists i, (Idx [SPO; POS; OSP]), r. rewrite (now_set _ _ _ _ E), upd_eq. unfold a_step. rewrite EN. split; [reflexivity|apply in_three].
  Qed.
  Lemma safe_run : forall sch s o, ok_state s -> safe (c_heap g0) all s -> pathed s o -> ordered eq (c_triples g0) all s o ->
    ok_state (as_run s sch) /\ safe (c_heap g0) all (as_run s sch) /\ pathed (as_run s sch) (o ++ order_of s sch) /\ ordered eq (c_triples g0) all (as_run s sch) (o ++ order_of s sch).
  Proof.
    induction sch as [|i sch IH]; intros s o OS SF P OD; cbn [order_of]; [rewrite app_nil_r; auto|]. rewrite app_assoc. cbn. apply IH.
    - now apply ok_step.
    - apply safe_step; [exact H1'|exact H2'|exact SF].
    - now apply pathed_step.
    - apply ordered_step; auto.
      + intros x op w b ws r u E. now apply (no_cval s OS i x).
      + intros x t w ws r E EN G. exfalso. destruct SF as [IV _]. assert (NX : now_of (as_threads s) i = Some (CRemove t, Last w ws, r)) by (unfold now_of; now rewrite E).
        destruct (i_rem _ _ _ _ IV _ _ _ _ NX ltac:(discriminate)) as [_ ST]. destruct (ST w (or_introl eq_refl)) as (n & A & B). pose proof (i_walk _ _ _ _ IV _ _ _ _ NX) as X. cbn [pos_walk op_stmt] in X. rewrite A in X. injection X as ->. rewrite G in B. discriminate.
  Qed.
  Lemma safe_main_o : forall sch s, s = s_run (mkS g0 (map th_new opss)) sch -> finished s ->
    quiet (s_graph s) /\ (forall w ks n, walk (c_heap g0) (root w) ks = Some n -> walk (c_heap (s_graph s)) (root w) ks = Some n) /\
    (forall ops t w, In ops opss -> In (CAdd t) ops -> walk (c_heap (s_graph s)) (root w) [key1 w t; key2 w t] <> None) /\
    let o := order_of (mkAS g0 (astart opss)) sch in interleaves opss o /\ (forall t, In t (c_triples (s_graph s)) <-> In t (fst (answers (c_triples g0) o))) /\
      forall i x, nth_error (s_threads s) i = Some x -> th_out x = mine i (snd (answers (c_triples g0) o)).
  Proof.
    intros sch s ES F. rewrite <- start_conc, as_run_conc in ES. set (a := mkAS g0 (astart opss)) in *.
    assert (OS : ok_state a) by (apply ok_start; [apply Q|exact T]).
    assert (SF : safe (c_heap g0) all a).
    { split; [apply quiet_inv; [exact Q|apply now_start]|]. intros i x op E J. split; [|now apply (proj2 OS i x op)]. cbn [as_threads a] in E. apply nth_start in E. destruct E as (ops & E & ->). unfold all, ops_of. now rewrite E. }
    assert (OD : ordered eq (c_triples g0) all a []) by (apply ordered_start; tauto).
    destruct (safe_run sch a [] OS SF ltac:(intros t w []) OD) as (OS' & [IV _] & P & OD'). cbn [app] in *. set (z := as_run a sch) in *.
    assert (FI : forall i, now_of (as_threads z) i = None).
    { intro i. unfold now_of. destruct (nth_error (as_threads z) i) as [x|] eqn:E; [|reflexivity]. subst s. now apply (finished_conc z F i x E). }
    assert (LN : length (as_threads z) = length opss) by (unfold z; rewrite length_run; unfold a, astart; cbn; apply map_length).
    rewrite ES in *. destruct (ordered_end _ _ _ _ _ LN OD' F) as ([IL1 IL2] & TR & OU). cbn [conc_s s_graph].
    split; [exact (inv_quiets _ _ _ _ IV FI)|]. split; [exact (i_paths _ _ _ _ IV)|]. split.
    - intros ops t w JO JA. apply In_nth_error in JO. destruct JO as (i & E). destruct (P t w) as [A|(j & p & r & E' & _)]; [|exact A|rewrite FI in E'; discriminate].
      rewrite <- (IL1 _ _ E) in JA. unfold mine in JA. apply in_map_iff in JA. destruct JA as ([i' op] & EQ & JA). apply filter_In in JA. apply in_map_iff. exists (i', op). split; [exact EQ|apply JA].
    - split; [now split|]. split; [exact TR|]. intros i x E. specialize (OU i x E). clear - OU. induction OU; congruence.
  Qed.
  Lemma safe_main : forall sch s, s = s_run (mkS g0 (map th_new opss)) sch -> finished s ->
    quiet (s_graph s) /\ (forall w ks n, walk (c_heap g0) (root w) ks = Some n -> walk (c_heap (s_graph s)) (root w) ks = Some n) /\
    (forall ops t w, In ops opss -> In (CAdd t) ops -> walk (c_heap (s_graph s)) (root w) [key1 w t; key2 w t] <> None) /\
    exists o, interleaves opss o /\ (forall t, In t (c_triples (s_graph s)) <-> In t (fst (answers (c_triples g0) o))) /\
      forall i x, nth_error (s_threads s) i = Some x -> th_out x = mine i (snd (answers (c_triples g0) o)).
  Proof. intros sch s ES F. destruct (safe_main_o sch s ES F) as (A & B & C & D). split; [exact A|]. split; [exact B|]. split; [exact C|]. eexists. exact D. Qed.
End Safe.
