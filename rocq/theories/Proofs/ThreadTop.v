(** Threads in one Graph: the statements of Properties/GraphThreadProps.v. *)
From Verif Require Import Model.Py Model.Terms Model.Graph Model.GraphThreads Spec.GraphSpec Spec.ThreadGraphSpec Proofs.DictLemmas Proofs.GraphInv Proofs.GraphGen Proofs.GraphHist Proofs.GraphSound Proofs.ThreadHeap Proofs.ThreadInv Proofs.ThreadView Proofs.ThreadRun Proofs.ThreadMain.
From Coq Require Import Lia PeanoNat.

(** ** Any threads *)
Lemma in_order : forall opss order t, interleaves opss order -> In (CAdd t) (map snd order) -> exists ops, In ops opss /\ In (CAdd t) ops.
Proof.
  intros opss order t [M B] J. apply in_map_iff in J. destruct J as ([i op] & E & J). cbn in E. subst op. pose proof (B _ _ J) as L. destruct (nth_error opss i) as [ops|] eqn:EO; [|apply nth_error_None in EO; lia].
  exists ops. split; [now apply nth_error_In in EO|]. rewrite <- (M _ _ EO). unfold mine. apply in_map_iff. exists (i, CAdd t). split; [reflexivity|]. apply filter_In. split; [exact J|]. apply Nat.eqb_refl.
Qed.
Lemma nodup_step : forall s i, NoDup (c_triples (as_graph s)) -> NoDup (c_triples (as_graph (as_step s i))).
Proof.
  intros [g l] i N. unfold as_step. cbn [as_graph as_threads] in *. destruct (nth_error l i) as [x|]; [|exact N]. cbn [as_graph]. unfold a_step, goes, ends. destruct (a_now x) as [[[op p] r]|]; [|destruct (a_ops x); exact N].
  destruct p as [|[|w ws]|w b ws|w b m ws|w ws]; cbn [fst c_triples]; try exact N.
  - destruct op as [t|t]; [now apply nodup_add|]. destruct (in_dec stmt_eq_dec t (c_triples g)); [now apply nodup_rem|exact N].
  - destruct (tget (deref (c_heap g) r) (key12 b w (op_stmt op))) as [[]|]; exact N.
  - destruct op as [t|t]; [exact N|]. destruct (tget _ _) as [[]|]; exact N.
Qed.
Lemma nodup_run : forall sch s, NoDup (c_triples (as_graph s)) -> NoDup (c_triples (as_graph (as_run s sch))).
Proof. induction sch as [|i sch IH]; intros s N; [exact N|]. cbn. apply IH. now apply nodup_step. Qed.
Lemma any_threads : forall opss sch s, (forall ops, In ops opss -> of_triples ops) -> s = s_run (mkS c_new (map th_new opss)) sch -> finished s ->
  exists order, interleaves opss order /\
    lists (c_triples (s_graph s)) (fun t => In t (fst (answers [] order))) /\
    (forall i x, nth_error (s_threads s) i = Some x -> Forall2 at_worst (th_out x) (mine i (snd (answers [] order)))) /\
    forall s' p o n l, honoured s' -> honoured p -> honoured o -> snd (drain n (seen (s_graph s)) (GStart s' p o)) = Ok l ->
      forall t, In t l -> fits s' p o t /\ exists ops, In ops opss /\ In (CAdd t) ops.
Proof.
  intros opss sch s T ES F. rewrite <- start_conc, as_run_conc in ES. set (a := mkAS c_new (astart opss)) in *.
  assert (OS : ok_state a) by (apply ok_start; [exact new_ok|exact T]).
  assert (OD : ordered at_worst [] (ops_of opss) a []) by (apply ordered_start; tauto).
  assert (MD : made a []). { split; [intros n k t G; exfalso; exact (new_cell _ _ _ G)|]. intros i t p r E. unfold a in E. cbn [as_threads] in E. rewrite now_start in E. discriminate. }
  destruct (any_run [] (ops_of opss) sch a [] OS OD MD) as (OS' & OD' & MD'). cbn [app] in *. pose proof (nodup_run sch a ltac:(constructor)) as ND. set (z := as_run a sch) in *.
  assert (LN : length (as_threads z) = length opss) by (unfold z; rewrite length_run; unfold a, astart; cbn; apply map_length).
  rewrite ES in *. destruct (ordered_end _ _ _ _ _ LN OD' F) as (IL & TR & OU). exists (order_of a sch). split; [exact IL|]. split; [now split|]. split; [exact OU|].
  intros s' p o n l HS HP HO ED t J. destruct OS' as [(L & OK & _) _]. destruct MD' as [MC _].
  assert (X : exists ops, In ops opss /\ In (CAdd t) ops).
  2: { split; [|exact X]. refine (proj2 (match_sound (fun _ => True) _ s' p o n l _ HS HP HO ED t J)). split; [|auto]. intros w a0 b t0 J0.
       pose proof (view_nodup _ _ OK (root w)) as (_ & _ & N3). assert (G : exists c, lookup3 (view (c_heap (as_graph z)) (root w)) a0 b c = Some t0).
       { assert (J1 : In t0 (dvals (gd (gd (view (c_heap (as_graph z)) (root w)) a0) b))) by (destruct w; exact J0). apply in_map_iff in J1. destruct J1 as ([c y] & EY & J1). cbn in EY. subst y. exists c. unfold lookup3. apply In_dget; [apply N3|exact J1]. }
       destruct G as (c & G). apply (lookup_sound _ _ w a0 b c t0 OK) in G. destruct G as (K1 & K2 & _). destruct w; cbn in *; auto. }
  refine (proj1 (match_sound (fun t => exists ops, In ops opss /\ In (CAdd t) ops) _ s' p o n l _ HS HP HO ED t J)). split.
  - intros w a0 b t0 J0.
       pose proof (view_nodup _ _ OK (root w)) as (_ & _ & N3). assert (G : exists c, lookup3 (view (c_heap (as_graph z)) (root w)) a0 b c = Some t0).
       { assert (J1 : In t0 (dvals (gd (gd (view (c_heap (as_graph z)) (root w)) a0) b))) by (destruct w; exact J0). apply in_map_iff in J1. destruct J1 as ([c y] & EY & J1). cbn in EY. subst y. exists c. unfold lookup3. apply In_dget; [apply N3|exact J1]. }
       destruct G as (c & G). apply (lookup_sound _ _ w a0 b c t0 OK) in G. destruct G as (K1 & K2 & _ & n' & k' & G). apply MC in G. apply (in_order opss) in G; [|exact IL]. destruct w; cbn in *; auto.
  - intros t0 J0. change (In t0 (c_triples (as_graph z))) in J0. apply TR in J0. apply (in_order opss (order_of a sch)); [exact IL|]. clear - J0. revert J0. generalize (order_of a sch). 
    assert (Y : forall o ts, In t0 (fst (answers ts o)) -> In t0 ts \/ In (CAdd t0) (map snd o)).
    { induction o as [|[i [t|t]] o IH]; intros ts J; cbn [answers] in J; [now left| |].
      - specialize (IH (t :: ts)). destruct (answers (t :: ts) o) as [f q]. cbn [fst map snd] in *. destruct (IH J) as [[->|K]|K]; [right; now left|now left|right; now right].
      - destruct (in_dec stmt_eq_dec t ts).
        + specialize (IH (remove stmt_eq_dec t ts)). destruct (answers (remove stmt_eq_dec t ts) o) as [f q]. cbn [fst map snd] in *. destruct (IH J) as [K|K]; [left; apply in_remove in K; tauto|right; now right].
        + specialize (IH ts). destruct (answers ts o) as [f q]. cbn [fst map snd] in *. destruct (IH J) as [K|K]; [now left|right; now right]. }
    intros o0 J0. destruct (Y o0 [] J0) as [[]|K]. exact K.
Qed.
Lemma only_adds : forall opss sch s, (forall ops, In ops opss -> of_triples ops) -> (forall ops t, In ops opss -> ~ In (CRemove t) ops) ->
  s = s_run (mkS c_new (map th_new opss)) sch -> finished s ->
  lists (c_triples (s_graph s)) (fun t => exists ops, In ops opss /\ In (CAdd t) ops) /\
  (forall i x ops, nth_error (s_threads s) i = Some x -> nth_error opss i = Some ops -> th_out x = map (fun op => (op, Ok tt)) ops) /\
  forall s' p o n l, honoured s' -> honoured p -> honoured o -> snd (drain n (seen (s_graph s)) (GStart s' p o)) = Ok l ->
    forall t, In t l -> In t (c_triples (s_graph s)) /\ fits s' p o t.
Proof.
  intros opss sch s T NR ES F. destruct (any_threads opss sch s T ES F) as (order & IL & [ND TR] & OU & MS).
  assert (NO : forall i t, ~ In (i, CRemove t) order).
  { intros i t J. pose proof (proj2 IL _ _ J) as L. destruct (nth_error opss i) as [ops|] eqn:EO; [|apply nth_error_None in EO; lia]. apply (NR ops t (nth_error_In _ _ EO)). rewrite <- (proj1 IL _ _ EO). unfold mine. apply in_map_iff. exists (i, CRemove t). split; [reflexivity|].
    apply filter_In. split; [exact J|apply Nat.eqb_refl]. }
  assert (Y : forall o, (forall i t, ~ In (i, CRemove t) o) -> forall ts, (forall t, In t (fst (answers ts o)) <-> In t ts \/ In (CAdd t) (map snd o)) /\ forall i, mine i (snd (answers ts o)) = map (fun op => (op, Ok tt)) (mine i o)).
  { induction o as [|[i [t|t]] o IH]; intros N ts; cbn [answers].
    - cbn. split; [tauto|reflexivity].
    - destruct (IH (fun j u J => N j u (or_intror J)) (t :: ts)) as [A B]. destruct (answers (t :: ts) o) as [f q]. cbn [fst snd map] in *. split.
      + intro u. rewrite A. cbn. intuition congruence.
      + intro j. specialize (B j). unfold mine in *. cbn [filter fst]. destruct (i =? j); cbn [map snd]; now rewrite B.
    - exfalso. apply (N i t). now left. }
  destruct (Y order NO []) as [YT YO].
  assert (ALL : forall t, In t (c_triples (s_graph s)) <-> exists ops, In ops opss /\ In (CAdd t) ops).
  { intro t. rewrite TR, YT. split; [intros [[]|J]; now apply (in_order opss order)|]. intros (ops & JO & JA). right. apply In_nth_error in JO. destruct JO as (i & EO). rewrite <- (proj1 IL _ _ EO) in JA. unfold mine in JA. apply in_map_iff in JA. destruct JA as (y & EY & JA). apply filter_In in JA. apply in_map_iff. exists y. tauto. }
  split; [split; [exact ND|exact ALL]|]. split.
  - intros i x ops EX EO. specialize (OU i x EX). rewrite YO, (proj1 IL _ _ EO) in OU. assert (NO' : forall t, ~ In (CRemove t) ops) by (intro t; apply NR; now apply nth_error_In in EO). clear - OU NO'. revert OU. generalize (th_out x). induction ops as [|op ops IH]; intros l H; inversion H as [|y ? l' ? AW H']; [reflexivity|].
    cbn [map]. rewrite (IH (fun t J => NO' t (or_intror J)) l' H'). destruct AW as [->|(t & E & _)]; [reflexivity|]. injection E as ->. exfalso. apply (NO' t). now left.
  - intros s' p o n l HS HP HO ED t J. destruct (MS s' p o n l HS HP HO ED t J) as [A B]. split; [now apply ALL|exact A].
Qed.

(** ** Threads that do not meet *)
Lemma alone_clash : forall ops, no_clash [ops].
Proof. intros ops i j a b t NE E E'. assert (i < 1) by (apply (proj1 (nth_error_Some [ops] i)); congruence). assert (j < 1) by (apply (proj1 (nth_error_Some [ops] j)); congruence). lia. Qed.
Lemma one_thread : forall ops0 sch0 s0, of_triples ops0 -> s0 = s_run (mkS c_new [th_new ops0]) sch0 -> finished s0 ->
  quiet (s_graph s0) /\ (forall t w, In (CAdd t) ops0 -> walk (c_heap (s_graph s0)) (root w) [key1 w t; key2 w t] <> None) /\
  exists order, interleaves [ops0] order /\ (forall t, In t (c_triples (s_graph s0)) <-> In t (fst (answers [] order))) /\
    forall i x, nth_error (s_threads s0) i = Some x -> th_out x = mine i (snd (answers [] order)).
Proof.
  intros ops0 sch0 s0 T ES F. change [th_new ops0] with (map th_new [ops0]) in ES.
  destruct (safe_main c_new [ops0] quiet_new ltac:(intros ops [<-|[]]; exact T) (alone_clash ops0)) with (sch := sch0) (s := s0) as (Q & _ & P & order & IL & TR & OU); auto.
  - intros i j a c t u w b NE E E'. assert (i < 1) by (apply (proj1 (nth_error_Some [ops0] i)); congruence). assert (j < 1) by (apply (proj1 (nth_error_Some [ops0] j)); congruence). lia.
  - split; [exact Q|]. split; [intros t w J; apply (P ops0 t w); [now left|exact J]|]. exists order. auto.
Qed.
Lemma quiet_match : forall g s p o n, quiet g -> honoured s -> honoured p -> honoured o -> length (c_triples g) < n ->
  exists l, snd (drain n (seen g) (GStart s p o)) = Ok l /\ lists l (fun t => In t (c_triples g) /\ fits s p o t).
Proof.
  intros g s p o n Q HS HP HO L. pose proof (quiet_wf g Q) as W. pose proof (g_match_length (seen g) s p o W) as LE. change (length (g_triples (seen g))) with (length (c_triples g)) in LE.
  rewrite drain_match by (auto; lia). exists (g_match (seen g) s p o). split; [reflexivity|]. pose proof (g_match_lists (seen g) s p o W) as M. rewrite !as_wildcard_honoured in M by auto. exact M.
Qed.
Lemma apart : forall ops0 sch0 s0 opss sch s, of_triples ops0 -> (forall ops, In ops opss -> of_triples ops) ->
  s0 = s_run (mkS c_new [th_new ops0]) sch0 -> finished s0 ->
  s = s_run (mkS (s_graph s0) (map th_new opss)) sch -> finished s ->
  no_clash opss -> prepared ops0 opss ->
  exists order, interleaves opss order /\
    lists (c_triples (s_graph s)) (fun t => In t (fst (answers (c_triples (s_graph s0)) order))) /\
    (forall i x, nth_error (s_threads s) i = Some x -> th_out x = mine i (snd (answers (c_triples (s_graph s0)) order))) /\
    forall s' p o n, honoured s' -> honoured p -> honoured o -> length (c_triples (s_graph s)) < n ->
      exists l, snd (drain n (seen (s_graph s)) (GStart s' p o)) = Ok l /\ lists l (fun t => In t (c_triples (s_graph s)) /\ fits s' p o t).
Proof.
  intros ops0 sch0 s0 opss sch s T0 T E0 F0 ES F NC PR. destruct (one_thread ops0 sch0 s0 T0 E0 F0) as (Q0 & P0 & _).
  destruct (safe_main (s_graph s0) opss Q0 T NC) with (sch := sch) (s := s) as (Q & _ & _ & order & IL & TR & OU); auto.
  - intros i j a c t u w b NE E E' J J' EQ. assert (K1 : key1 w t = key1 w u) by (destruct b; cbn in EQ; congruence).
    assert (IR : In (key1 w, key2 w) roads) by (destruct w; cbn; auto).
    destruct (PR i j a c t u (key1 w) (key2 w) NE E E' J J' IR K1) as [(v & V1 & V2) A2]. destruct b; cbn [pre key12 app] in *.
    + destruct A2 as (v' & W1 & W2 & W3); [congruence|]. rewrite <- W2, <- W3. now apply P0.
    + rewrite <- V2. pose proof (P0 v w V1) as X. cbn [walk] in *. destruct (tget (deref (c_heap (s_graph s0)) (root w)) (key1 w v)) as [[]|]; congruence.
  - exists order. split; [exact IL|]. split; [split; [apply Q|exact TR]|]. split; [exact OU|]. intros. now apply quiet_match.
Qed.

(** ** Every thread ends *)
Definition cost (m : micro) : nat := match m with MGet _ => 2 | _ => 1 end.
Fixpoint costs (ms : list micro) : nat := match ms with [] => 0 | m :: r => cost m + costs r end.
Definition left (x : thread) : nat := match th_now x with Some (_, _, ms) => 1 + costs ms | None => 0 end + 21 * length (th_ops x).
Lemma costs_script : forall op, costs (script op) = 19.
Proof. intros []; reflexivity. Qed.
Lemma costs_app : forall a b, costs (a ++ b) = costs a + costs b.
Proof. induction a as [|m a IH]; intro b; cbn; [reflexivity|]. rewrite IH. lia. Qed.
Lemma left_step : forall g x n, left x <= Datatypes.S n -> left (snd (th_step g x)) <= n.
Proof.
  intros g [v ops out] n L. unfold th_step, left in *. cbn [th_now th_ops th_out] in *. destruct v as [[[op r] ms]|].
  - destruct ms as [|m ms]; cbn [snd th_now th_ops costs] in *; [lia|]. assert (X : match exec g r m with (_, Ok (_, ms')) => costs ms' < cost m | _ => True end).
    { destruct m; cbn; try lia.
      - destruct (in_dec stmt_eq_dec t (c_triples g)); cbn; auto.
      - destruct (tget (deref (c_heap g) r) k) as [[]|]; cbn; auto.
      - destruct (tget (deref (c_heap g) r) k) as [[]|]; cbn; auto. }
    destruct (exec g r m) as [g' [[r' ms']|e]]; cbn [snd th_now th_ops]; [rewrite costs_app; lia|]. assert (0 < cost m) by (destruct m; cbn; lia). lia.
  - destruct ops as [|op ops]; cbn [snd th_now th_ops length] in *; [lia|]. rewrite costs_script. lia.
Qed.
Lemma all_end : forall sch s, (forall i x, nth_error (s_threads s) i = Some x -> left x <= count_occ Nat.eq_dec sch i) -> finished (s_run s sch).
Proof.
  induction sch as [|i sch IH]; intros s H.
  - intros x J. apply In_nth_error in J. destruct J as (i & E). cbn in E. pose proof (H i x E) as L. cbn in L. unfold left in L. unfold done. destruct (th_now x) as [[[op r] ms]|], (th_ops x); cbn in L; try lia. auto.
  - cbn. apply IH. intros j y E. unfold s_step in E. destruct (nth_error (s_threads s) i) as [x|] eqn:EX.
    + destruct (th_step (s_graph s) x) as [g' x'] eqn:ET. cbn [s_threads] in E. rewrite (nth_set _ _ _ _ _ EX) in E. destruct (Nat.eq_dec j i) as [->|NE].
      * injection E as <-. pose proof (H i x EX) as L. cbn [count_occ] in L. destruct (Nat.eq_dec i i); [|congruence]. pose proof (left_step (s_graph s) x _ L) as X. now rewrite ET in X.
      * pose proof (H j y E) as L. cbn [count_occ] in L. destruct (Nat.eq_dec i j); [congruence|exact L].
    + assert (NE : j <> i) by (intros ->; congruence). pose proof (H j y E) as L. cbn [count_occ] in L. destruct (Nat.eq_dec i j); [congruence|exact L].
Qed.
Lemma threads_end : forall g opss sch, (forall i ops, nth_error opss i = Some ops -> 21 * length ops <= count_occ Nat.eq_dec sch i) -> finished (s_run (mkS g (map th_new opss)) sch).
Proof. intros g opss sch H. apply all_end. cbn [s_threads]. intros i x E. rewrite nth_error_map in E. destruct (nth_error opss i) as [ops|] eqn:EO; [|discriminate]. injection E as <-. unfold left. cbn [th_new th_now th_ops]. now apply H. Qed.

(** ** One thread *)
Lemma interleaves_one : forall ops order, interleaves [ops] order -> order = map (fun op => (0, op)) ops.
Proof.
  intros ops order [M B]. rewrite <- (M 0 ops eq_refl). assert (Z : forall i op, In (i, op) order -> i = 0) by (intros i op J; apply B in J; cbn in J; lia). clear M B. induction order as [|[i op] order IH]; [reflexivity|].
  unfold mine in *. cbn [filter fst]. rewrite (Z i op (or_introl eq_refl)). cbn [Nat.eqb map snd]. f_equal. apply IH. intros j o J. apply (Z j o). now right.
Qed.
Lemma mine_zero : forall ops ts, mine 0 (snd (answers ts (map (fun op => (0, op)) ops))) = map snd (snd (answers ts (map (fun op => (0, op)) ops))).
Proof.
  induction ops as [|[t|t] ops IH]; intro ts; cbn [map answers]; [reflexivity| |].
  - specialize (IH (t :: ts)). destruct (answers (t :: ts) _) as [f q]. cbn [snd] in *. unfold mine in *. cbn. now rewrite IH.
  - destruct (in_dec stmt_eq_dec t ts); [specialize (IH (remove stmt_eq_dec t ts)); destruct (answers (remove stmt_eq_dec t ts) _) as [f q]|specialize (IH ts); destruct (answers ts _) as [f q]]; cbn [snd] in *; unfold mine in *; cbn; now rewrite IH.
Qed.
Lemma alone : forall ops sch s, of_triples ops -> s = s_run (mkS c_new [th_new ops]) sch -> finished s ->
  let calls := answers [] (map (fun op => (0, op)) ops) in
  lists (c_triples (s_graph s)) (fun t => In t (fst calls)) /\
  (forall x, In x (s_threads s) -> th_out x = map snd (snd calls)) /\
  forall s' p o n, honoured s' -> honoured p -> honoured o -> length (c_triples (s_graph s)) < n ->
    exists l, snd (drain n (seen (s_graph s)) (GStart s' p o)) = Ok l /\ lists l (fun t => In t (c_triples (s_graph s)) /\ fits s' p o t).
Proof.
  intros ops sch s T ES F calls. destruct (one_thread ops sch s T ES F) as (Q & _ & order & IL & TR & OU). apply interleaves_one in IL. subst order. split; [split; [apply Q|exact TR]|]. split; [|intros; now apply quiet_match].
  intros x J. apply In_nth_error in J. destruct J as (i & E). rewrite (OU _ _ E). assert (LT : length (s_threads s) = 1).
  { rewrite ES. change [th_new ops] with (map th_new [ops]). rewrite <- start_conc, as_run_conc. unfold conc_s. cbn [s_threads]. now rewrite map_length, length_run. }
  assert (i < 1) by (rewrite <- LT; apply nth_error_Some; congruence). replace i with 0 by lia. apply mine_zero.
Qed.
