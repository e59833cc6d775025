(** Proofs for C115. *)
From Verif Require Import Model.Py Model.Terms Model.Graph Model.GraphThreads Model.GraphReaders Spec.GraphSpec Spec.ThreadGraphSpec Spec.ReaderSpec
  Proofs.DictLemmas Proofs.GraphInv Proofs.ThreadHeap Proofs.ThreadInv Proofs.ThreadRun Proofs.ThreadMain Proofs.ThreadTop.

(** ** A step of a thread, reads apart, is a step of Model/GraphThreads.v *)
Definition wr (y : cop * res unit) : call * answer := (Wr (fst y), ADone (snd y)).
Definition rest_calls (x : rthread) : list call := match r_now x with None => tl (r_calls x) | Some _ => r_calls x end.
Definition reading (x : rthread) : Prop := r_now x = None /\ exists q r, r_calls x = Rd q :: r.
Lemma reading_dec : forall x, reading x \/ ~ reading x.
Proof.
  intros [[n|] [|[op|q] r] o]; unfold reading; cbn; try (right; intros [A (q' & r' & B)]; discriminate).
  left. eauto.
Qed.
Lemma r_th : forall g x t, th_now t = r_now x -> th_ops t = writes (r_calls x) -> ~ reading x ->
  exists new, th_out (snd (th_step g t)) = th_out t ++ new /\
    r_step g x = (fst (th_step g t), mkR (th_now (snd (th_step g t))) (rest_calls x) (r_out x ++ map wr new)) /\
    th_ops (snd (th_step g t)) = writes (rest_calls x).
Proof.
  intros g [n calls out] [n' ops out'] EN EO NR. cbn [th_now th_ops th_out r_now r_calls r_out] in *. subst n' ops. unfold r_step, th_step, rest_calls. cbn [th_now th_ops th_out r_now r_calls r_out].
  destruct n as [[[op r] [|m ms]]|].
  - exists [(op, Ok tt)]. cbn. exact (conj eq_refl (conj eq_refl eq_refl)).
  - destruct (exec g r m) as [g' [[r' ms']|e]]; cbn; [exists []; cbn; rewrite !app_nil_r; auto|exists [(op, Err e)]; auto].
  - destruct calls as [|[op|q] r]; cbn.
    + exists []. cbn. rewrite !app_nil_r. auto.
    + exists []. cbn. rewrite !app_nil_r. auto.
    + exfalso. apply NR. split; [reflexivity|]. exists q, r. reflexivity.
Qed.
Definition link (y : ath) (x : rthread) : Prop := th_now (conc y) = r_now x /\ a_ops y = writes (r_calls x).
Lemma r_a : forall g y x, link y x -> ~ reading x ->
  exists new, a_out (snd (a_step g y)) = a_out y ++ new /\
    r_step g x = (fst (a_step g y), mkR (th_now (conc (snd (a_step g y)))) (rest_calls x) (r_out x ++ map wr new)) /\
    a_ops (snd (a_step g y)) = writes (rest_calls x).
Proof.
  intros g y x [A B] NR. destruct (r_th g x (conc y) A B NR) as (new & C & D & E). rewrite a_step_conc in C, D, E. cbn [fst snd] in *. exists new. auto.
Qed.

(** ** The kinds of steps *)
Inductive a_kind (g : cgraph) (y : ath) (g' : cgraph) (y' : ath) : Prop :=
| AkDone : a_now y = None -> a_ops y = [] -> g' = g -> y' = y -> a_kind g y g' y'
| AkStart op r : a_now y = None -> a_ops y = op :: r -> g' = g -> a_now y' = Some (op, Begin, 0) -> a_out y' = a_out y -> a_kind g y g' y'
| AkBegin op r p r' : a_now y = Some (op, Begin, r) -> p <> Begin -> a_now y' = Some (op, p, r') -> a_out y' = a_out y ->
    (forall t, In t (c_triples g') <-> In t (effect (c_triples g) (Wr op))) -> (forall t, op = CRemove t -> In t (c_triples g)) ->
    (NoDup (c_triples g) -> NoDup (c_triples g')) -> a_kind g y g' y'
| AkAbsent t r : a_now y = Some (CRemove t, Begin, r) -> ~ In t (c_triples g) -> g' = g -> a_now y' = None -> a_out y' = a_out y ++ [(CRemove t, Err KeyError)] -> a_kind g y g' y'
| AkGo op p r p' r' : a_now y = Some (op, p, r) -> p <> Begin -> p' <> Begin -> c_triples g' = c_triples g -> a_now y' = Some (op, p', r') -> a_out y' = a_out y -> a_kind g y g' y'
| AkEnd op p r z : a_now y = Some (op, p, r) -> p <> Begin -> c_triples g' = c_triples g -> a_now y' = None -> a_out y' = a_out y ++ [(op, z)] ->
    (z = Ok tt \/ z = Err KeyError /\ exists t w ws, op = CRemove t /\ p = Last w ws /\ tget (deref (c_heap g) r) (key3 w t) = None) -> a_kind g y g' y'.
Lemma a_class : forall g y, (forall op w b ws r u, a_now y = Some (op, Sub w b ws, r) -> tget (deref (c_heap g) r) (key12 b w (op_stmt op)) <> Some (CVal u)) ->
  a_kind g y (fst (a_step g y)) (snd (a_step g y)).
Proof.
  intros g y NV. unfold a_step, goes, ends. destruct (a_now y) as [[[op p] r]|] eqn:EN.
  - destruct p as [|[|w ws]|w b ws|w b m ws|w ws].
    + destruct op as [t|t].
      * eapply AkBegin; cbn; try reflexivity; [exact EN|discriminate|intro u; rewrite in_add; split; [intros [->|J]; [left; reflexivity|right; exact J]|intros [<-|J]; [left; reflexivity|right; exact J]]|discriminate|apply nodup_add].
      * destruct (in_dec stmt_eq_dec t (c_triples g)) as [J|J].
        -- eapply AkBegin; cbn; try reflexivity; [exact EN|discriminate|intros u [= <-]; exact J|apply nodup_rem].
        -- eapply AkAbsent; cbn; try reflexivity; [exact EN|exact J].
    + eapply AkEnd; cbn; try reflexivity; [exact EN|discriminate|now left].
    + eapply AkGo; cbn; try reflexivity; [exact EN|discriminate|discriminate].
    + destruct (tget (deref (c_heap g) r) (key12 b w (op_stmt op))) as [[n|u]|] eqn:G; cbn [fst snd].
      * eapply AkGo; cbn; try reflexivity; [exact EN|discriminate|destruct b; discriminate].
      * exfalso. exact (NV op w b ws r u eq_refl G).
      * eapply AkGo; cbn; try reflexivity; [exact EN|discriminate|discriminate].
    + eapply AkGo; cbn; try reflexivity; [exact EN|discriminate|destruct b; discriminate].
    + destruct op as [t|t]; cbn [op_stmt] in *; [eapply AkGo; cbn; try reflexivity; [exact EN|discriminate|discriminate]|].
      destruct (tget (deref (c_heap g) r) (key3 w t)) as [c|] eqn:G; cbn [fst snd].
      * eapply AkGo; cbn; try reflexivity; [exact EN|discriminate|discriminate].
      * eapply AkEnd; cbn; try reflexivity; [exact EN|discriminate|]. right. split; [reflexivity|]. eauto 7.
  - destruct (a_ops y) as [|op rest] eqn:EA; [apply AkDone; auto|]. eapply AkStart; cbn; try reflexivity; auto. exact EA.
Qed.

(** ** The order of the calls: each at its step on the set *)
Section Linear.
  Variable P : astate -> Prop.
  Variable strict : bool.
  Hypothesis P_step : forall a i, P a -> P (as_step a i).
  Hypothesis P_ok : forall a, P a -> ok_state a.
  Hypothesis P_last : strict = true -> forall a i y t w ws r, P a -> nth_error (as_threads a) i = Some y -> a_now y = Some (CRemove t, Last w ws, r) ->
    tget (deref (c_heap (as_graph a)) r) (key3 w t) <> None.
  Variable ts0 : list stmt.
  Variable calls : nat -> list call.
  Definition waits (y : ath) (x : rthread) : list call := match a_now y with Some (op, Begin, _) => Wr op :: r_calls x | _ => r_calls x end.
  Definition inside (y : ath) (gs : list (call * list stmt)) : Prop :=
    match a_now y with
    | None => gs = []
    | Some (_, Begin, _) => gs = []
    | Some (op, _, _) => exists ts, gs = [(Wr op, ts)] /\ forall t, op = CRemove t -> In t ts
    end.
  Definition line (i : nat) (y : ath) (x : rthread) (mo : list (nat * call)) : Prop :=
    link y x /\ mine i mo ++ waits y x = calls i /\
    exists ys gs, mine i (history ts0 mo) = ys ++ gs /\ Forall2 (fair strict) (r_out x) ys /\ inside y gs.
  Definition linear (s : rstate) (a : astate) (mo : list (nat * call)) : Prop :=
    P a /\ rs_graph s = as_graph a /\ length (rs_threads s) = length (as_threads a) /\
    (forall i x y, nth_error (rs_threads s) i = Some x -> nth_error (as_threads a) i = Some y -> line i y x mo) /\
    NoDup (c_triples (rs_graph s)) /\ (forall t, In t (c_triples (rs_graph s)) <-> In t (after ts0 mo)) /\
    (forall i c, In (i, c) mo -> i < length (rs_threads s)).
  Lemma history_app : forall l ts l', history ts (l ++ l') = history ts l ++ history (after ts l) l'.
  Proof. induction l as [|[i c] l IH]; intros ts l'; [reflexivity|]. cbn [app history]. rewrite IH. reflexivity. Qed.
  Lemma after_app : forall l ts l', after ts (l ++ l') = after (after ts l) l'.
  Proof. intros l ts l'. unfold after. now rewrite map_app, fold_left_app. Qed.
  Lemma other : forall i j y x mo c, i <> j -> line i y x mo -> line i y x (mo ++ [(j, c)]).
  Proof.
    intros i j y x mo c NE (A & B & ys & gs & C & D & E). split; [exact A|]. rewrite history_app. cbn [history]. rewrite !mine_app, !mine_one. destruct (Nat.eq_dec i j); [contradiction|].
    rewrite !app_nil_r. split; [exact B|]. now exists ys, gs.
  Qed.
  Lemma here : forall i y x mo c, line i y x mo -> mine i (mo ++ [(i, c)]) = mine i mo ++ [c] /\ mine i (history ts0 (mo ++ [(i, c)])) = mine i (history ts0 mo) ++ [(c, after ts0 mo)].
  Proof.
    intros i y x mo c _. rewrite history_app. cbn [history]. rewrite !mine_app, !mine_one. destruct (Nat.eq_dec i i); [auto|contradiction].
  Qed.
  (** what a step adds to the order *)
  Definition adds (a : astate) (s : rstate) (i : nat) : list (nat * call) :=
    match nth_error (rs_threads s) i, nth_error (as_threads a) i with
    | Some x, Some y =>
        match a_now y with
        | Some (op, Begin, _) => [(i, Wr op)]
        | Some _ => []
        | None => match r_calls x with Rd q :: _ => [(i, Rd q)] | _ => [] end
        end
    | _, _ => []
    end.
  Definition a_next (a : astate) (s : rstate) (i : nat) : astate :=
    match nth_error (rs_threads s) i with
    | Some x => match r_now x, r_calls x with None, Rd _ :: _ => a | _, _ => as_step a i end
    | None => a
    end.
  Lemma linear_step : forall s a mo i, linear s a mo -> linear (rs_step s i) (a_next a s i) (mo ++ adds a s i).
  Proof.
    intros s a mo i (PA & EG & LN & TH & ND & TR & IX). unfold rs_step, a_next, adds. destruct (nth_error (rs_threads s) i) as [x|] eqn:EX.
    2: { rewrite app_nil_r. exact (conj PA (conj EG (conj LN (conj TH (conj ND (conj TR IX)))))). }
    assert (IL : i < length (rs_threads s)) by (apply nth_error_Some; congruence).
    destruct (nth_error (as_threads a) i) as [y|] eqn:EY; [|apply nth_error_None in EY; lia]. pose proof (TH i x y EX EY) as LI. pose proof LI as ((LK1 & LK2) & WT & ys & gs & HY & FR & IN).
    destruct (reading_dec x) as [[NX (q & r & CX)]|NR].
    - (* a read *)
      assert (NY : a_now y = None). { unfold conc in LK1. cbn in LK1. rewrite NX in LK1. destruct (a_now y) as [[[? ?] ?]|]; [discriminate LK1|reflexivity]. }
      unfold r_step. rewrite NX, CX, NY. split; [exact PA|]. cbn [rs_graph rs_threads]. split; [exact EG|]. split; [now rewrite length_set|]. split; [|split; [exact ND|split]].
      + intros j z w EJ EW. rewrite (nth_set _ _ _ _ _ EX) in EJ. destruct (Nat.eq_dec j i) as [->|NE]; [|now apply other; [|apply TH]]. injection EJ as <-. rewrite EY in EW. injection EW as <-.
        split; [split; [exact (eq_trans LK1 NX)|rewrite LK2, CX; reflexivity]|]. destruct (here i y x mo (Rd q) LI) as [H1 H2]. rewrite H1, H2. unfold waits, inside in *. rewrite NY in *. cbn [r_calls r_out].
        split; [rewrite <- app_assoc; rewrite CX in WT; exact WT|]. subst gs. rewrite app_nil_r in HY. exists (ys ++ [(Rd q, after ts0 mo)]), []. rewrite app_nil_r, HY. split; [reflexivity|]. split; [|reflexivity].
        apply Forall2_app; [exact FR|]. constructor; [|constructor]. split; [reflexivity|]. destruct q as [t| |]; cbn [ask snd].
        * rewrite <- (TR t). destruct (in_dec stmt_eq_dec t (c_triples (rs_graph s))); split; intros; auto; try discriminate; contradiction.
        * exists (c_triples (rs_graph s)). split; [|reflexivity]. split; [exact ND|exact TR].
        * split; [exact ND|exact TR].
      + intro t. rewrite after_app. cbn. apply TR.
      + intros j c J. rewrite length_set. apply in_app_iff in J. destruct J as [J|[J|[]]]; [now apply (IX j c)|]. injection J as <- <-. exact IL.
    - assert (EA : match r_now x, r_calls x with None, Rd _ :: _ => a | _, _ => as_step a i end = as_step a i).
      { destruct (r_now x) eqn:NX; [reflexivity|]. destruct (r_calls x) as [|[|q] r] eqn:CX; try reflexivity. exfalso. apply NR. split; [exact NX|]. eauto. }
      rewrite EA. rewrite EG. destruct (r_a (as_graph a) y x (conj LK1 LK2) NR) as (new & A1 & A2 & A3). rewrite A2.
      pose proof (a_class (as_graph a) y (fun op w b ws r u => no_cval a (P_ok a PA) i y op w b ws r u EY)) as K.
      set (g' := fst (a_step (as_graph a) y)) in *. set (y' := snd (a_step (as_graph a) y)) in *.
      assert (ES : as_step a i = mkAS g' (set_nth (as_threads a) i y')) by (unfold as_step; rewrite EY; reflexivity).
      assert (NN : a_now y = None <-> r_now x = None).
      { unfold conc in LK1. cbn in LK1. destruct (a_now y) as [[[? ?] ?]|]; rewrite <- LK1; split; intro H; auto; discriminate H. }
      assert (GO : forall o', (forall t, In t (c_triples g') <-> In t (after ts0 (mo ++ o'))) -> NoDup (c_triples g') -> (o' = [] \/ exists c, o' = [(i, c)]) ->
        line i y' (mkR (th_now (conc y')) (rest_calls x) (r_out x ++ map wr new)) (mo ++ o') ->
        linear (mkRS g' (set_nth (rs_threads s) i (mkR (th_now (conc y')) (rest_calls x) (r_out x ++ map wr new)))) (as_step a i) (mo ++ o')).
      { intros o' B1 B2 B3 B4. split; [now apply P_step|]. rewrite ES. cbn [rs_graph rs_threads as_graph as_threads]. split; [reflexivity|]. split; [now rewrite !length_set|].
        split; [|split; [exact B2|split; [exact B1|]]].
        - intros j z w EJ EW. rewrite (nth_set _ _ _ _ _ EX) in EJ. rewrite (nth_set _ _ _ _ _ EY) in EW. destruct (Nat.eq_dec j i) as [->|NE]; [injection EJ as <-; injection EW as <-; exact B4|].
          destruct B3 as [->|(c & ->)]; [rewrite app_nil_r; now apply TH|]. apply other; [exact NE|now apply TH].
        - intros j c J. rewrite length_set. apply in_app_iff in J. destruct J as [J|J]; [now apply (IX j c)|]. destruct B3 as [->|(c' & ->)]; [destruct J|]. destruct J as [J|[]]. injection J as <- <-. exact IL. }
      assert (LK' : link y' (mkR (th_now (conc y')) (rest_calls x) (r_out x ++ map wr new))) by (split; [reflexivity|exact A3]).
      destruct K as [K1 K2 K3 K4|op r K1 K2 K3 K4 K5|op r p r' K1 K2 K3 K4 K5 K6 K7|t r K1 K2 K3 K4 K5|op p r p' r' K1 K2 K3 K4 K5 K6|op p r z K1 K2 K3 K4 K5 K6].
      + (* all done *)
        rewrite K1. assert (CX : r_calls x = []).
        { destruct (r_calls x) as [|[|q] r] eqn:CX; [reflexivity|rewrite LK2 in K2; discriminate K2|]. exfalso. apply NR. split; [now apply NN|eauto]. }
        rewrite CX. rewrite K4 in A1. assert (new = []) by (destruct new; [reflexivity|apply (f_equal (@length _)) in A1; rewrite app_length in A1; cbn in A1; lia]). subst new.
        apply GO; [rewrite app_nil_r, K3, <- EG; exact TR|rewrite K3, <- EG; exact ND|now left|]. rewrite app_nil_r. split; [exact LK'|]. cbn [map]. rewrite app_nil_r. unfold waits, inside in *. cbn [r_calls r_out]. rewrite K4, K1 in *.
        unfold rest_calls. rewrite CX. destruct (r_now x); cbn [tl]; rewrite CX in WT; (split; [exact WT|now exists ys, gs]).
      + (* a call starts *)
        rewrite K1. assert (CX : exists rc, r_calls x = Wr op :: rc).
        { destruct (r_calls x) as [|[op'|q] rc] eqn:CX; [rewrite LK2 in K2; discriminate K2|rewrite LK2 in K2; injection K2 as -> _; eauto|]. exfalso. apply NR. split; [now apply NN|eauto]. }
        destruct CX as (rc & CX). rewrite CX. assert (new = []) by (destruct new; [reflexivity|rewrite K5 in A1; apply (f_equal (@length _)) in A1; rewrite app_length in A1; cbn in A1; lia]). subst new.
        apply GO; [rewrite app_nil_r, K3, <- EG; exact TR|rewrite K3, <- EG; exact ND|now left|]. rewrite app_nil_r. split; [exact LK'|]. cbn [map]. rewrite app_nil_r. unfold waits, inside in *. cbn [r_calls r_out]. rewrite K4. rewrite K1 in WT, IN.
        unfold rest_calls. rewrite (proj1 NN K1), CX. cbn [tl]. rewrite CX in WT. split; [exact WT|]. now exists ys, gs.
      + (* its step on the set *)
        rewrite K1. assert (new = []) by (destruct new; [reflexivity|rewrite K4 in A1; apply (f_equal (@length _)) in A1; rewrite app_length in A1; cbn in A1; lia]). subst new.
        assert (RC : rest_calls x = r_calls x) by (unfold rest_calls; destruct (r_now x) eqn:Q; [reflexivity|rewrite (proj2 NN eq_refl) in K1; discriminate K1]).
        unfold waits, inside in WT, IN. rewrite K1 in WT, IN. subst gs. rewrite app_nil_r in HY. destruct (here i y x mo (Wr op) LI) as [H1 H2].
        apply GO; [|rewrite EG in ND; auto|right; eauto|].
        * intro t. rewrite after_app, K5. cbn [after map snd fold_left]. rewrite EG in TR. destruct op as [u|u]; cbn [effect].
          -- cbn. rewrite (TR t). tauto.
          -- split; intro J; apply in_remove in J; apply in_in_remove; try tauto; apply TR; tauto.
        * split; [exact LK'|]. rewrite H1, H2. unfold waits, inside. cbn [r_calls r_out]. rewrite K3, RC. cbn [map]. rewrite app_nil_r.
          split; [rewrite <- app_assoc; destruct p; try exact WT; contradiction|]. exists ys, [(Wr op, after ts0 mo)]. rewrite HY. split; [reflexivity|]. split; [exact FR|].
          assert (X : exists ts, [(Wr op, after ts0 mo)] = [(Wr op, ts)] /\ forall t, op = CRemove t -> In t ts).
          { exists (after ts0 mo). split; [reflexivity|]. intros t E. apply TR. rewrite EG. now apply K6. }
          destruct p; [contradiction|exact X..].
      + (* remove of a triple that is not there *)
        rewrite K1. rewrite K5 in A1. apply app_inv_head in A1. subst new.
        assert (RC : rest_calls x = r_calls x) by (unfold rest_calls; destruct (r_now x) eqn:Q; [reflexivity|rewrite (proj2 NN eq_refl) in K1; discriminate K1]).
        unfold waits, inside in WT, IN. rewrite K1 in WT, IN. subst gs. rewrite app_nil_r in HY. destruct (here i y x mo (Wr (CRemove t)) LI) as [H1 H2].
        apply GO; [|rewrite K3, <- EG; exact ND|right; eauto|].
        * intro u. rewrite after_app, K3, <- EG. cbn [after map snd fold_left effect]. split.
          -- intro J. apply in_in_remove; [intros ->; apply K2; rewrite <- EG; exact J|]. now apply TR.
          -- intro J. apply in_remove in J. now apply TR.
        * split; [exact LK'|]. rewrite H1, H2. unfold waits, inside. cbn [r_calls r_out]. rewrite K4, RC.
          split; [rewrite <- app_assoc; exact WT|]. exists (ys ++ [(Wr (CRemove t), after ts0 mo)]), []. rewrite HY, app_nil_r. split; [reflexivity|]. split; [|reflexivity].
          apply Forall2_app; [exact FR|]. constructor; [|constructor]. split; [reflexivity|]. cbn. right. split; [reflexivity|]. intros _ J. apply K2. rewrite <- EG. now apply TR.
      + (* further steps *)
        assert (AD : match a_now y with Some (op, Begin, _) => [(i, Wr op)] | Some _ => [] | None => match r_calls x with Rd q :: _ => [(i, Rd q)] | _ => [] end end = []) by (rewrite K1; destruct p; [contradiction|reflexivity..]).
        rewrite AD. assert (new = []) by (destruct new; [reflexivity|rewrite K6 in A1; apply (f_equal (@length _)) in A1; rewrite app_length in A1; cbn in A1; lia]). subst new.
        assert (RC : rest_calls x = r_calls x) by (unfold rest_calls; destruct (r_now x) eqn:Q; [reflexivity|rewrite (proj2 NN eq_refl) in K1; discriminate K1]).
        apply GO; [rewrite app_nil_r, K4, <- EG; exact TR|rewrite K4, <- EG; exact ND|now left|]. rewrite app_nil_r. split; [exact LK'|]. cbn [map]. rewrite app_nil_r. unfold waits, inside in *. cbn [r_calls r_out]. rewrite K5, RC. rewrite K1 in WT, IN.
        split; [destruct p; [contradiction| | | |]; (destruct p'; [contradiction|exact WT..])|]. exists ys, gs. split; [exact HY|]. split; [exact FR|]. destruct p; [contradiction| | | |]; (destruct p'; [contradiction|exact IN..]).
      + (* the call ends *)
        assert (AD : match a_now y with Some (op, Begin, _) => [(i, Wr op)] | Some _ => [] | None => match r_calls x with Rd q :: _ => [(i, Rd q)] | _ => [] end end = []) by (rewrite K1; destruct p; [contradiction|reflexivity..]).
        rewrite AD. rewrite K5 in A1. apply app_inv_head in A1. subst new.
        assert (RC : rest_calls x = r_calls x) by (unfold rest_calls; destruct (r_now x) eqn:Q; [reflexivity|rewrite (proj2 NN eq_refl) in K1; discriminate K1]).
        apply GO; [rewrite app_nil_r, K3, <- EG; exact TR|rewrite K3, <- EG; exact ND|now left|]. rewrite app_nil_r. split; [exact LK'|]. unfold waits, inside in *. cbn [r_calls r_out]. rewrite K4, RC. rewrite K1 in WT, IN.
        assert (IN' : exists ts, gs = [(Wr op, ts)] /\ forall t, op = CRemove t -> In t ts) by (destruct p; [contradiction|exact IN..]). destruct IN' as (ts & -> & IT).
        split; [destruct p; [contradiction|exact WT..]|]. exists (ys ++ [(Wr op, ts)]), []. rewrite app_nil_r. split; [exact HY|]. split; [|reflexivity].
        apply Forall2_app; [exact FR|]. constructor; [|constructor]. split; [reflexivity|]. cbn [snd wr fst]. destruct K6 as [->|[-> (t & w & ws & -> & -> & G)]].
        * destruct op as [t|t]; [reflexivity|]. left. split; [reflexivity|]. now apply IT.
        * right. split; [reflexivity|]. intro ST. exfalso. exact (P_last ST a i y t w ws r PA EY K1 G).
  Qed.
  Fixpoint morder (s : rstate) (a : astate) (sch : list nat) : list (nat * call) :=
    match sch with [] => [] | i :: r => adds a s i ++ morder (rs_step s i) (a_next a s i) r end.
  Fixpoint a_last (s : rstate) (a : astate) (sch : list nat) : astate :=
    match sch with [] => a | i :: r => a_last (rs_step s i) (a_next a s i) r end.
  Lemma linear_run : forall sch s a mo, linear s a mo -> linear (rs_run s sch) (a_last s a sch) (mo ++ morder s a sch).
  Proof.
    induction sch as [|i sch IH]; intros s a mo H; cbn [morder a_last]; [now rewrite app_nil_r|]. rewrite app_assoc. cbn. apply IH. now apply linear_step.
  Qed.
  Lemma morder_app : forall sch1 sch2 s a, morder s a (sch1 ++ sch2) = morder s a sch1 ++ morder (rs_run s sch1) (a_last s a sch1) sch2.
  Proof. induction sch1 as [|i r IH]; intros sch2 s a; cbn [app morder a_last]; [reflexivity|]. rewrite IH, app_assoc. reflexivity. Qed.
End Linear.

(** ** The theorems *)
Lemma mine_history : forall i o ts, length (mine i (history ts o)) = length (mine i o).
Proof. induction o as [|[j c] o IH]; intro ts; [reflexivity|]. unfold mine in *. cbn [history filter fst]. destruct (j =? i); cbn [map length]; now rewrite IH. Qed.
Lemma Forall2_len : forall (A B : Type) (R : A -> B -> Prop) l l', Forall2 R l l' -> length l = length l'.
Proof. induction 1; cbn; congruence. Qed.
Lemma line_counted : forall b ts0 calls i y x mo, line b ts0 calls i y x mo -> length (r_out x) <= length (mine i mo) <= length (calls i) - length (r_calls x).
Proof.
  intros b ts0 calls i y x mo (_ & B & ys & gs & C & D & _). apply Forall2_len in D. apply (f_equal (@length _)) in C. rewrite mine_history, app_length in C.
  apply (f_equal (@length _)) in B. rewrite app_length in B. unfold waits in B. destruct (a_now y) as [[[op []] r]|]; cbn [length] in B; lia.
Qed.
Definition calls_of (callss : list (list call)) (i : nat) : list call := match nth_error callss i with Some c => c | None => [] end.
Section Main.
  Variable P : astate -> Prop.
  Variable strict : bool.
  Hypothesis P_step : forall a i, P a -> P (as_step a i).
  Hypothesis P_ok : forall a, P a -> ok_state a.
  Hypothesis P_last : strict = true -> forall a i y t w ws r, P a -> nth_error (as_threads a) i = Some y -> a_now y = Some (CRemove t, Last w ws, r) ->
    tget (deref (c_heap (as_graph a)) r) (key3 w t) <> None.
  Variable g0 : cgraph.
  Variable callss : list (list call).
  Hypothesis ND : NoDup (c_triples g0).
  Let s0 := mkRS g0 (map r_new callss).
  Let a0 := mkAS g0 (astart (map writes callss)).
  Hypothesis PA : P a0.
  Lemma linear_start : linear P strict (c_triples g0) (calls_of callss) s0 a0 [].
  Proof.
    split; [exact PA|]. split; [reflexivity|]. unfold s0, a0, astart. cbn [rs_threads as_threads rs_graph]. split; [now rewrite !map_length|]. split; [|split; [exact ND|split; [tauto|intros i c []]]].
    intros i x y EX EY. rewrite !nth_error_map in EY. rewrite nth_error_map in EX. destruct (nth_error callss i) as [calls|] eqn:EC; [|discriminate]. injection EX as <-. injection EY as <-.
    split; [split; reflexivity|]. unfold waits, calls_of. rewrite EC. split; [reflexivity|]. exists [], []. split; [reflexivity|]. split; [constructor|reflexivity].
  Qed.
  Lemma main : forall sch s, s = rs_run s0 sch -> r_finished s ->
    exists order, merges callss order /\
      lists (c_triples (rs_graph s)) (fun t => In t (after (c_triples g0) order)) /\
      (forall i x, nth_error (rs_threads s) i = Some x -> Forall2 (fair strict) (r_out x) (mine i (history (c_triples g0) order))) /\
      forall sch1 sch2, sch = sch1 ++ sch2 -> exists o1 o2, order = o1 ++ o2 /\ counted callss (rs_threads (rs_run s0 sch1)) o1.
  Proof.
    intros sch s ES F. exists (morder s0 a0 sch). pose proof (linear_run P strict P_step P_ok P_last _ _ sch s0 a0 [] linear_start) as (_ & EG & LN & TH & ND' & TR & IX). cbn [app] in *. rewrite <- ES in *.
    assert (LR : forall l x, length (rs_threads (rs_run x l)) = length (rs_threads x)).
    { induction l as [|i l IH]; intro x; [reflexivity|]. change (rs_run x (i :: l)) with (rs_run (rs_step x i) l). rewrite IH. unfold rs_step. destruct (nth_error (rs_threads x) i); [|reflexivity]. destruct (r_step (rs_graph x) r) as [g' x']. cbn. apply length_set. }
    assert (LC : length (rs_threads s) = length callss) by (subst s; rewrite LR; unfold s0; cbn; apply map_length).
    assert (TH' : forall i x, nth_error (rs_threads s) i = Some x -> exists y, nth_error (as_threads (a_last s0 a0 sch)) i = Some y /\ a_now y = None /\ r_calls x = []).
    { intros i x EX. destruct (nth_error (as_threads (a_last s0 a0 sch)) i) as [y|] eqn:EY; [|apply nth_error_None in EY; assert (i < length (rs_threads s)) by (apply nth_error_Some; congruence); lia].
      exists y. split; [reflexivity|]. destruct (TH i x y EX EY) as ((L & _) & _). destruct (F x (nth_error_In _ _ EX)) as [A B]. split; [|exact B]. rewrite A in L. unfold conc in L. cbn in L. destruct (a_now y) as [[[? ?] ?]|]; [discriminate L|reflexivity]. }
    split; [split|split; [now split|split]].
    - intros i calls EC. assert (I : i < length (rs_threads s)) by (rewrite LC; apply nth_error_Some; congruence). destruct (nth_error (rs_threads s) i) as [x|] eqn:EX; [|apply nth_error_None in EX; lia].
      destruct (TH' i x EX) as (y & EY & NY & CX). destruct (TH i x y EX EY) as (_ & B & _). unfold waits, calls_of in B. rewrite NY, CX, EC, app_nil_r in B. exact B.
    - intros i c J. rewrite <- LC. now apply (IX i c).
    - intros i x EX. destruct (TH' i x EX) as (y & EY & NY & CX). destruct (TH i x y EX EY) as (_ & _ & ys & gs & C & D & E). unfold inside in E. rewrite NY in E. subst gs. rewrite app_nil_r in C. now rewrite C.
    - intros sch1 sch2 ->. rewrite morder_app. exists (morder s0 a0 sch1), (morder (rs_run s0 sch1) (a_last s0 a0 sch1) sch2). split; [reflexivity|].
      pose proof (linear_run P strict P_step P_ok P_last _ _ sch1 s0 a0 [] linear_start) as (_ & _ & LN1 & TH1 & _). cbn [app] in *. intros i x calls EX EC.
      destruct (nth_error (as_threads (a_last s0 a0 sch1)) i) as [y|] eqn:EY; [|apply nth_error_None in EY; assert (i < length (rs_threads (rs_run s0 sch1))) by (apply nth_error_Some; congruence); lia].
      pose proof (line_counted _ _ _ _ _ _ _ (TH1 i x y EX EY)) as X. unfold calls_of in X. now rewrite EC in X.
  Qed.
End Main.

Lemma of_writes : forall callss, (forall calls, In calls callss -> of_triples (writes calls)) -> forall ops, In ops (map writes callss) -> of_triples ops.
Proof. intros callss T ops J. apply in_map_iff in J. destruct J as (calls & <- & J). now apply T. Qed.
Lemma linear_any : forall ops0 sch0 s0 callss sch s, of_triples ops0 -> (forall calls, In calls callss -> of_triples (writes calls)) ->
  s0 = s_run (mkS c_new [th_new ops0]) sch0 -> finished s0 -> s = rs_run (mkRS (s_graph s0) (map r_new callss)) sch -> r_finished s ->
  exists order, merges callss order /\
    lists (c_triples (rs_graph s)) (fun t => In t (after (c_triples (s_graph s0)) order)) /\
    (forall i x, nth_error (rs_threads s) i = Some x -> Forall2 (fair false) (r_out x) (mine i (history (c_triples (s_graph s0)) order))) /\
    forall sch1 sch2, sch = sch1 ++ sch2 -> exists o1 o2, order = o1 ++ o2 /\ counted callss (rs_threads (rs_run (mkRS (s_graph s0) (map r_new callss)) sch1)) o1.
Proof.
  intros ops0 sch0 s0 callss sch s T0 T E0 F0 ES F. destruct (one_thread ops0 sch0 s0 T0 E0 F0) as (Q0 & _ & _). eapply (main ok_state); eauto.
  - apply ok_step.
  - discriminate.
  - apply Q0.
  - apply ok_start; [apply Q0|now apply of_writes].
Qed.
Lemma linear_apart : forall ops0 sch0 s0 callss sch s, of_triples ops0 -> (forall calls, In calls callss -> of_triples (writes calls)) ->
  s0 = s_run (mkS c_new [th_new ops0]) sch0 -> finished s0 -> s = rs_run (mkRS (s_graph s0) (map r_new callss)) sch -> r_finished s ->
  no_clash (map writes callss) -> prepared ops0 (map writes callss) ->
  exists order, merges callss order /\
    lists (c_triples (rs_graph s)) (fun t => In t (after (c_triples (s_graph s0)) order)) /\
    (forall i x, nth_error (rs_threads s) i = Some x -> Forall2 (fair true) (r_out x) (mine i (history (c_triples (s_graph s0)) order))) /\
    forall sch1 sch2, sch = sch1 ++ sch2 -> exists o1 o2, order = o1 ++ o2 /\ counted callss (rs_threads (rs_run (mkRS (s_graph s0) (map r_new callss)) sch1)) o1.
Proof.
  intros ops0 sch0 s0 callss sch s T0 T E0 F0 ES F NC PR. destruct (one_thread ops0 sch0 s0 T0 E0 F0) as (Q0 & P0 & _). set (opss := map writes callss) in *.
  assert (H2 : forall i j a c t u w b, i <> j -> nth_error opss i = Some a -> nth_error opss j = Some c -> In (CAdd t) a -> In (CAdd u) c ->
    pre b w t ++ [key12 b w t] = pre b w u ++ [key12 b w u] -> ThreadHeap.walk (c_heap (s_graph s0)) (root w) (pre b w t ++ [key12 b w t]) <> None).
  { intros i j a c t u w b NE E E' J J' EQ. assert (K1 : key1 w t = key1 w u) by (destruct b; cbn in EQ; congruence).
    assert (IR : In (key1 w, key2 w) roads) by (destruct w; cbn; auto).
    destruct (PR i j a c t u (key1 w) (key2 w) NE E E' J J' IR K1) as [(v & V1 & V2) A2]. destruct b; cbn [pre key12 app] in *.
    - destruct A2 as (v' & W1 & W2 & W3); [congruence|]. rewrite <- W2, <- W3. now apply P0.
    - rewrite <- V2. pose proof (P0 v w V1) as X. cbn [ThreadHeap.walk] in *. destruct (tget (deref (c_heap (s_graph s0)) (root w)) (key1 w v)) as [[]|]; congruence. }
  assert (OS : ok_state (mkAS (s_graph s0) (astart opss))) by (apply ok_start; [apply Q0|now apply of_writes]).
  eapply (main (fun a => ok_state a /\ safe (c_heap (s_graph s0)) (ops_of opss) a)); eauto.
  - intros a i [A B]. split; [now apply ok_step|]. apply safe_step; [|  |exact B].
    + now apply (H1' opss).
    + now apply (H2' (s_graph s0) opss).
  - tauto.
  - intros _ a i y t w ws r [_ [IV _]] E EN G. assert (NX : now_of (as_threads a) i = Some (CRemove t, Last w ws, r)) by (unfold now_of; now rewrite E).
    destruct (i_rem _ _ _ _ IV _ _ _ _ NX ltac:(discriminate)) as [_ ST]. destruct (ST w (or_introl eq_refl)) as (n & A & B). pose proof (i_walk _ _ _ _ IV _ _ _ _ NX) as X. cbn [pos_walk op_stmt] in X. rewrite A in X. injection X as ->. rewrite G in B. discriminate.
  - apply Q0.
  - split; [exact OS|]. split; [apply quiet_inv; [exact Q0|apply now_start]|]. intros i x op E J. split; [|now apply (proj2 OS i x op)]. cbn [as_threads] in E. apply nth_start in E. destruct E as (ops & E & ->). unfold ops_of. change (nth_error opss i = Some ops) in E. now rewrite E.
Qed.

(** ** Every thread ends *)
Definition r_left (x : rthread) : nat := match r_now x with Some (_, _, ms) => 1 + costs ms | None => 0 end + 21 * length (r_calls x).
Lemma r_left_step : forall g x n, r_left x <= Datatypes.S n -> r_left (snd (r_step g x)) <= n.
Proof.
  intros g [v calls out] n L. unfold r_step, r_left in *. cbn [r_now r_calls r_out] in *. destruct v as [[[op r] ms]|].
  - destruct ms as [|m ms]; cbn [snd r_now r_calls costs] in *; [lia|]. assert (X : match exec g r m with (_, Ok (_, ms')) => costs ms' < cost m | _ => True end).
    { destruct m; cbn; try lia.
      - destruct (in_dec stmt_eq_dec t (c_triples g)); cbn; auto.
      - destruct (tget (deref (c_heap g) r) k) as [[]|]; cbn; auto.
      - destruct (tget (deref (c_heap g) r) k) as [[]|]; cbn; auto. }
    destruct (exec g r m) as [g' [[r' ms']|e]]; cbn [snd r_now r_calls]; [rewrite costs_app; lia|]. assert (0 < cost m) by (destruct m; cbn; lia). lia.
  - destruct calls as [|[op|q] calls]; cbn [snd r_now r_calls length] in *; [lia| |lia]. rewrite costs_script. lia.
Qed.
Lemma readers_all_end : forall sch s, (forall i x, nth_error (rs_threads s) i = Some x -> r_left x <= count_occ Nat.eq_dec sch i) -> r_finished (rs_run s sch).
Proof.
  induction sch as [|i sch IH]; intros s H.
  - intros x J. apply In_nth_error in J. destruct J as (i & E). cbn in E. pose proof (H i x E) as L. cbn in L. unfold r_left in L. destruct (r_now x) as [[[op r] ms]|], (r_calls x); cbn in L; try lia. auto.
  - cbn. apply IH. intros j y E. unfold rs_step in E. destruct (nth_error (rs_threads s) i) as [x|] eqn:EX.
    + destruct (r_step (rs_graph s) x) as [g' x'] eqn:ET. cbn [rs_threads] in E. rewrite (nth_set _ _ _ _ _ EX) in E. destruct (Nat.eq_dec j i) as [->|NE].
      * injection E as <-. pose proof (H i x EX) as L. cbn [count_occ] in L. destruct (Nat.eq_dec i i); [|congruence]. pose proof (r_left_step (rs_graph s) x _ L) as X. now rewrite ET in X.
      * pose proof (H j y E) as L. cbn [count_occ] in L. destruct (Nat.eq_dec i j); [congruence|exact L].
    + assert (NE : j <> i) by (intros ->; congruence). pose proof (H j y E) as L. cbn [count_occ] in L. destruct (Nat.eq_dec i j); [congruence|exact L].
Qed.
Lemma readers_end : forall g callss sch, (forall i calls, nth_error callss i = Some calls -> 21 * length calls <= count_occ Nat.eq_dec sch i) -> r_finished (rs_run (mkRS g (map r_new callss)) sch).
Proof.
  intros g callss sch H. apply readers_all_end. intros i x E. cbn [rs_threads] in E. rewrite nth_error_map in E. destruct (nth_error callss i) as [calls|] eqn:EC; [|discriminate]. injection E as <-. exact (H i calls EC).
Qed.
