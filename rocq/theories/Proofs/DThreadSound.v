(** Threads in one Dataset: what holds whatever the threads do. *)
From Verif Require Import Model.Py Model.Terms Model.Graph Model.GraphThreads Model.Dataset Model.DatasetThreads Spec.GraphSpec Spec.DatasetSpec Spec.ThreadGraphSpec Spec.ThreadDatasetSpec
  Proofs.DictLemmas Proofs.GraphHist Proofs.ThreadHeap Proofs.ThreadInv Proofs.ThreadRun Proofs.ThreadMain Proofs.DatasetInv Proofs.DThreadInv Proofs.DThreadTop.
From Coq Require Import Lia PeanoNat.

Section Sound.
  Variable all : nat -> list cop.
  Hypothesis HQ : forall k op, In op (all k) -> gname op <> None.
  Definition held (own : nat -> oterm) (g : dstate) (n : oterm) (i : nat) : Prop := own i = n /\ i < length (d_objs g).
  Inductive spos (own : nat -> oterm) (g : dstate) (n : oterm) (op : cop) (i : nat) : list dmicro -> Prop :=
  | S_start : spos own g n op i (dscript op)
  | S_put : forall j rest, held own g n j -> dscript op = NGet n :: rest \/ rest = map NG (script (with_t op)) -> spos own g n op i (NPut n j :: rest)
  | S_uri : held own g n i -> spos own g n op i (NUri n :: NGet n :: map NG (script (with_t op)))
  | S_get : spos own g n op i (NGet n :: map NG (script (with_t op)))
  | S_in : forall l, held own g n i -> (forall t, In (MAdd t) l -> exists q, op = CAdd q /\ t = q_as_t q) -> spos own g n op i (map NG l).
  Record sinv (own : nat -> oterm) (s : dsystem) : Prop := {
    s_names : forall n i, nget (d_names (ds_state s)) n = Some i -> held own (ds_state s) n i;
    s_trip : forall i t, In t (c_triples (snd (obj (ds_state s) i))) -> exists k, In (CAdd (t_as_q (own i) t)) (all k);
    s_ops : forall k x op, nth_error (ds_threads s) k = Some x -> In op (dt_ops x) -> In op (all k);
    s_pos : forall k x op i r ms, nth_error (ds_threads s) k = Some x -> dt_now x = Some (op, i, r, ms) -> In op (all k) /\ exists n, gname op = Some n /\ spos own (ds_state s) n op i ms }.
  Lemma spos_mono : forall own own' g g' n op i ms, (forall m j, held own g m j -> held own' g' m j) -> spos own g n op i ms -> spos own' g' n op i ms.
  Proof. intros own own' g g' n op i ms H P. destruct P as [|j rest A B|A| |l A B]; [apply S_start|apply S_put; auto|apply S_uri; auto|apply S_get|apply S_in; auto]. Qed.
  Lemma sconclude : forall own own' s k x g' x', sinv own s -> nth_error (ds_threads s) k = Some x -> (forall m j, held own (ds_state s) m j -> held own' g' m j) ->
    (forall n i, nget (d_names g') n = Some i -> held own' g' n i) ->
    (forall i t, In t (c_triples (snd (obj g' i))) -> exists k', In (CAdd (t_as_q (own' i) t)) (all k')) ->
    (forall op, In op (dt_ops x') -> In op (dt_ops x)) ->
    (forall op i r ms, dt_now x' = Some (op, i, r, ms) -> In op (all k) /\ exists n, gname op = Some n /\ spos own' g' n op i ms) ->
    sinv own' (mkDS g' (set_nth (ds_threads s) k x')).
  Proof.
    intros own own' s k x g' x' [SN ST SO SP] EX MO HN HT HO HP. split; cbn [ds_state ds_threads]; auto.
    - intros k' y op E J. rewrite (nth_set _ _ _ _ _ EX) in E. destruct (Nat.eq_dec k' k) as [->|NE]; [injection E as <-; apply (SO k x); auto|exact (SO _ _ _ E J)].
    - intros k' y op i r ms E EN. rewrite (nth_set _ _ _ _ _ EX) in E. destruct (Nat.eq_dec k' k) as [->|NE]; [injection E as <-; exact (HP _ _ _ _ EN)|].
      destruct (SP _ _ _ _ _ _ E EN) as (A & n & B & C). split; [exact A|]. exists n. split; [exact B|]. now apply (spos_mono own own' (ds_state s)).
  Qed.
  Lemma exec_trip : forall c r m t, In t (c_triples (fst (exec c r m))) -> In t (c_triples c) \/ m = MAdd t.
  Proof.
    intros c r m t. destruct m as [u|u|w|k|k n|k u|k]; cbn; repeat match goal with |- context [match ?x with _ => _ end] => destruct x end; cbn; auto.
    - intro J. apply (in_add u (c_triples c) t) in J. destruct J as [->|J]; auto.
    - intro J. apply in_rem in J. tauto.
  Qed.
  Lemma sound_step : forall own s k, sinv own s -> exists own', sinv own' (d_step s k).
  Proof.
    intros own s k D. unfold d_step. destruct (nth_error (ds_threads s) k) as [[v ops out]|] eqn:EX; [|now exists own]. pose proof D as [SN ST SO SP]. unfold dt_step. cbn [dt_now dt_ops dt_out]. destruct v as [[[[op i] r] ms]|].
    - destruct (SP _ _ _ _ _ _ EX eq_refl) as (OK & n & GN & P). destruct (gname_cases op n GN) as (rest & ES & _ & _ & RC).
      assert (SCR : forall i', held own (ds_state s) n i' -> spos own (ds_state s) n op i' (map NG (script (with_t op)))).
      { intros i' H. apply S_in; [exact H|]. intros t J. destruct op as [q|q]; cbn [with_t script] in J; repeat (destruct J as [J|J]; [try discriminate|]); [injection J as <-; now exists q| |]; destruct J. }
      assert (REST : forall i', held own (ds_state s) n i' -> spos own (ds_state s) n op i' rest) by (intros i' H; destruct RC as [[-> _]|[-> _]]; [now apply S_uri|now apply SCR]).
      assert (MISS : forall rs, dscript op = NGet n :: rs \/ rs = map NG (script (with_t op)) -> nget (d_names (ds_state s)) n = None ->
        exists own', sinv own' (mkDS (mkD (d_names (ds_state s)) (d_objs (ds_state s) ++ [o_new])) (set_nth (ds_threads s) k (mkDT (Some (op, i, r, NPut n (length (d_objs (ds_state s))) :: rs)) ops out)))).
      { intros rs HR N. set (L := length (d_objs (ds_state s))). exists (fun j => if Nat.eq_dec j L then n else own j).
        assert (MO : forall m j, held own (ds_state s) m j -> held (fun j => if Nat.eq_dec j L then n else own j) (mkD (d_names (ds_state s)) (d_objs (ds_state s) ++ [o_new])) m j).
        { intros m j [A B]. split; cbn [d_objs]; [destruct (Nat.eq_dec j L); [unfold L in *; lia|exact A]|rewrite app_length; lia]. }
        apply (sconclude own _ s k _ _ _ D EX); auto.
        - intros i' t J. rewrite obj_alloc in J. destruct (Nat.eq_dec i' L) as [->|NE]; [|now apply ST]. exfalso. unfold obj in J. rewrite nth_overflow in J by (unfold L; lia). exact J.
        - intros op' j r' ms' [= <- <- <- <-]. split; [exact OK|]. exists n. split; [exact GN|]. cbn [app]. apply S_put; [|exact HR]. split; [destruct (Nat.eq_dec L L); congruence|cbn [d_objs]; rewrite app_length; cbn; unfold L; lia]. }
      destruct ms as [|m ms].
      + exists own. apply (sconclude own own s k _ _ _ D EX); auto. discriminate.
      + inversion P as [Q|j rest' H Q E1|H E1|E1|l H AD E1].
        * rewrite ES in Q. injection Q as <- <-. cbn [dexec]. destruct (nget (d_names (ds_state s)) n) as [i'|] eqn:N.
          -- exists own. apply (sconclude own own s k _ _ _ D EX); auto. intros op' j r' ms' [= <- <- <- <-]. split; [exact OK|]. exists n. split; [exact GN|]. apply REST. now apply SN.
          -- apply MISS; auto.
        * subst m rest'. assert (R2 : forall i', held own (ds_state s) n i' -> spos own (ds_state s) n op i' ms) by (intros i' H'; destruct Q as [Q| ->]; [rewrite ES in Q; injection Q as <-; now apply REST|now apply SCR]). cbn [dexec]. exists own. apply (sconclude own own s k _ _ _ D EX); auto.
          -- cbn [d_names]. intros m i'. rewrite nget_set. destruct (oterm_eq_dec m n) as [->|NE]; [intros [= <-]; exact H|apply SN].
          -- intros op' i' r' ms' [= <- <- <- <-]. split; [exact OK|]. exists n. split; [exact GN|]. cbn [app]. apply (spos_mono own own (ds_state s)); [intros a b X; exact X|]. now apply R2.
        * subst m ms. cbn [dexec]. exists own. assert (MO : forall m j, held own (ds_state s) m j -> held own (set_obj (ds_state s) i (n, snd (obj (ds_state s) i))) m j) by (intros m j [A B]; split; [exact A|cbn [set_obj d_objs]; now rewrite length_set]).
          apply (sconclude own own s k _ _ _ D EX); auto.
          -- intros j t J. rewrite obj_set in J by apply H. destruct (Nat.eq_dec j i) as [->|NE]; now apply ST.
          -- intros op' i' r' ms' [= <- <- <- <-]. split; [exact OK|]. exists n. split; [exact GN|]. apply S_get.
        * subst m ms. cbn [dexec]. destruct (nget (d_names (ds_state s)) n) as [i'|] eqn:N.
          -- exists own. apply (sconclude own own s k _ _ _ D EX); auto. intros op' j r' ms' [= <- <- <- <-]. split; [exact OK|]. exists n. split; [exact GN|]. apply SCR. now apply SN.
          -- apply MISS; auto.
        * destruct l as [|m' l]; [discriminate|]. cbn [map] in E1. injection E1 as <- <-. cbn [dexec]. exists own.
          assert (MO : forall c m j, held own (ds_state s) m j -> held own (set_obj (ds_state s) i (fst (obj (ds_state s) i), c)) m j) by (intros c m j [A B]; split; [exact A|cbn [set_obj d_objs]; now rewrite length_set]).
          assert (TR : forall c, fst (exec (snd (obj (ds_state s) i)) r m') = c -> forall j t, In t (c_triples (snd (obj (set_obj (ds_state s) i (fst (obj (ds_state s) i), c)) j))) -> exists k', In (CAdd (t_as_q (own j) t)) (all k')).
          { intros c EC j t J. rewrite obj_set in J by apply H. destruct (Nat.eq_dec j i) as [->|NE]; [|now apply ST]. cbn [snd] in J. rewrite <- EC in J. apply exec_trip in J. destruct J as [J| ->]; [now apply ST|].
            destruct (AD t (or_introl eq_refl)) as (q & -> & ->). exists k. destruct H as [-> _]. unfold gname in GN. cbn [op_stmt] in GN. rewrite <- quad_eta by exact GN. exact OK. }
          destruct (exec (snd (obj (ds_state s) i)) r m') as [c [[r' ms']|e]] eqn:EE; (apply (sconclude own own s k _ _ _ D EX); [apply MO|intros a b N; apply MO, SN; exact N|apply TR; reflexivity|auto|]); [|discriminate].
          intros op' i' r'' ms'' [= <- <- <- <-]. split; [exact OK|]. exists n. split; [exact GN|]. rewrite <- map_app. apply S_in; [now apply MO|]. intros t J. apply in_app_iff in J. destruct J as [J|J]; [|apply AD; now right]. apply (exec_plain _ _ _ _ _ _ EE) in J. discriminate.
    - destruct ops as [|op rest].
      + exists own. rewrite (set_nth_same _ _ _ _ EX). now destruct s.
      + exists own. apply (sconclude own own s k _ _ _ D EX); auto; [intros o J; now right|]. intros op' i r ms [= <- <- <- <-]. assert (OK : In op (all k)) by (apply (SO _ _ _ EX); now left). split; [exact OK|]. destruct (gname op) as [n|] eqn:GN; [|exfalso; exact (HQ _ _ OK GN)]. exists n. split; [reflexivity|apply S_start].
  Qed.
End Sound.
Lemma d_sound : forall opss sch s, (forall ops, In ops opss -> of_quads ops) -> s = d_run (mkDS d_new (map dt_new opss)) sch ->
  forall q, is_quad q -> ds_contains (seen_d (ds_state s)) q = true -> exists ops, In ops opss /\ In (CAdd q) ops.
Proof.
  intros opss sch s T ES q HQ C. apply ds_contains_quad in C; [|exact HQ]. apply holds_seen in C.
  assert (AQ : forall k op, In op (ops_of opss k) -> gname op <> None).
  { intros k op J. unfold ops_of in J. destruct (nth_error opss k) as [ops|] eqn:E; [|contradiction]. apply (quads_named ops); [|exact J]. apply T. now apply nth_error_In in E. }
  assert (X : forall sch s own, sinv (ops_of opss) own s -> exists own', sinv (ops_of opss) own' (d_run s sch)).
  { clear - AQ. induction sch as [|k sch IH]; intros s own H; [now exists own|]. destruct (sound_step (ops_of opss) AQ own s k H) as (own' & H'). exact (IH _ _ H'). }
  destruct (X sch (mkDS d_new (map dt_new opss)) (fun _ => None)) as (own & SI).
  { split; cbn [ds_state ds_threads].
    - discriminate.
    - intros i t J. unfold obj in J. cbn in J. destruct i; contradiction.
    - intros k x op E J. rewrite nth_error_map in E. unfold ops_of. destruct (nth_error opss k); [injection E as <-; exact J|discriminate].
    - intros k x op i r ms E N. rewrite nth_error_map in E. destruct (nth_error opss k); [injection E as <-|]; discriminate. }
  rewrite <- ES in SI. unfold dholds in C. destruct (st_graph q) as [n|] eqn:GN; [|contradiction]. unfold graph_of in C. destruct (nget (d_names (ds_state s)) n) as [i|] eqn:N; [|contradiction].
  destruct (s_names _ _ _ SI _ _ N) as [OW _]. destruct (s_trip _ _ _ SI _ _ C) as (k & J). rewrite OW, <- quad_eta in J by exact GN. unfold ops_of in J. destruct (nth_error opss k) as [ops|] eqn:E; [|contradiction]. exists ops. split; [now apply nth_error_In in E|exact J].
Qed.
