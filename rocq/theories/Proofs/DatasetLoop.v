(** Proofs for C119. *)
From Verif Require Import Model.Py Model.Terms Model.Graph Model.GraphRun Model.Dataset Model.DatasetRun Spec.GraphSpec Spec.DatasetSpec Spec.IterSpec Spec.DIterSpec
  Model.DatasetFeed Spec.FeedSpec Spec.DFeedSpec Model.DatasetLoop Spec.LoopSpec
  Proofs.DictLemmas Proofs.GraphInv Proofs.GraphGen Proofs.GraphHist Proofs.GraphIter Proofs.DatasetInv Proofs.DatasetGen Proofs.DatasetHist Proofs.DatasetIter Proofs.DatasetFeed.

(** *** __iter__ and match() *)
Definition sim (w : world) (x : igen) (y : dgen) : Prop :=
  match x, y with
  | IDone, DDone => True
  | IIn used rem i su srem, DMany None None None used' rem' n i' (GSet su' srem') =>
      used = used' /\ rem = map snd rem' /\ i = i' /\ su = su' /\ srem = srem' /\ 0 < su /\ In (n, i) (w_graphs w) /\ (forall ni, In ni rem' -> In ni (w_graphs w))
  | _, _ => False
  end.
Definition rsim (w : world) (a : res (option (stmt * igen))) (b : res (option (stmt * dgen))) : Prop :=
  match a, b with
  | Err e, Err e' => e = e'
  | Ok None, Ok None => True
  | Ok (Some (q, x)), Ok (Some (q', y)) => q = q' /\ sim w x y
  | _, _ => False
  end.
Lemma label_of : forall w n i, dwf w -> In (n, i) (w_graphs w) -> g_triples (heap_get w i) <> [] -> g_uri (heap_get w i) = n.
Proof. intros w n i W J NE. destruct (dwf_label w W n i J) as [E|E]; [contradiction|exact E]. Qed.
Lemma outer_sim : forall w u, dwf w -> forall rem', (forall ni, In ni rem' -> In ni (w_graphs w)) ->
  exists r, many_outer w None None None u rem' = (w, r) /\ rsim w (iter_outer w u (map snd rem')) r.
Proof.
  intros w u W. induction rem' as [|[n i] rem' IH]; intros A; cbn [many_outer iter_outer map snd].
  - destruct (length (w_graphs w) =? u); eexists; (split; [reflexivity|]); cbn; auto.
  - destruct (length (w_graphs w) =? u); [|eexists; split; [reflexivity|reflexivity]]. unfold inner_next. cbn [gen_next andb]. unfold g_iter.
    destruct (g_triples (heap_get w i)) as [|t r] eqn:T.
    + cbn. rewrite heap_set_same. apply IH. intros ni J. apply A. now right.
    + cbn. rewrite heap_set_same. eexists. split; [reflexivity|]. cbn [rsim]. split.
      * f_equal. apply label_of; [exact W|apply A; now left|rewrite T; discriminate].
      * cbn. repeat (split; [reflexivity|]). split; [lia|]. split; [apply A; now left|intros ni J; apply A; now right].
Qed.
Lemma next_sim : forall w x y, dwf w -> sim w x y -> exists r, dgen_next w y = (w, r) /\ rsim w (iter_next w x) r.
Proof.
  intros w [| |used rem i su srem] y W S; cbn [sim] in S; [contradiction|destruct y; try contradiction; exists (Ok None); split; [reflexivity|exact Logic.I]|].
  destruct y as [| | |[?|] [?|] [?|] used' rem' n i' [| | | |su' srem']]; try contradiction. destruct S as (-> & -> & <- & <- & <- & P & J & A).
  cbn [dgen_next iter_next]. unfold inner_next. cbn [gen_next]. unfold g_iter. destruct (length (g_triples (heap_get w i)) =? su) eqn:L.
  - destruct srem as [|t r].
    + rewrite heap_set_same. exact (outer_sim w used' W rem' A).
    + rewrite heap_set_same. eexists. split; [reflexivity|]. cbn [rsim]. split.
      * f_equal. apply label_of; [exact W|exact J|]. intro E. rewrite E in L. apply Nat.eqb_eq in L. cbn in L. lia.
      * cbn. repeat (split; [reflexivity|]). auto.
  - rewrite heap_set_same. eexists. split; [reflexivity|reflexivity].
Qed.
Lemma start_sim : forall w, dwf w -> exists r, dgen_next w (DStart None None None None) = (w, r) /\ rsim w (iter_next w IStart) r.
Proof. intros w W. cbn [dgen_next oterm_truthy iter_next]. apply (outer_sim w _ W (w_graphs w)). auto. Qed.
Lemma body_change : forall ops w, dwf w -> (forall op, In op ops -> dev_quads (DvOp op)) -> wchange (fun _ => False) w (ds_run w ops).
Proof.
  induction ops as [|op ops IH]; intros w W A; [now apply wc_refl|]. change (ds_run w (op :: ops)) with (ds_run (ds_step w op) ops).
  assert (C : wchange (fun _ => False) w (ds_step w op)).
  { apply wc_op; [exact W|apply A; now left|]. destruct op; cbn [safe]; try tauto. }
  eapply wc_trans; [exact C|]. apply IH; [exact (wc_dwf _ _ _ C)|intros o J; apply A; now right].
Qed.
Lemma sim_change : forall w w' x y, wchange (fun _ => False) w w' -> sim w x y -> sim w' x y.
Proof.
  intros w w' x y C S. destruct (wc_names _ _ _ C) as [ex E]. destruct x as [| |used rem i su srem]; cbn [sim] in *; [contradiction|exact S|].
  destruct y as [| | |[?|] [?|] [?|] used' rem' n i' [| | | |su' srem']]; try contradiction. destruct S as (A1 & A2 & A3 & A4 & A5 & P & J & A).
  repeat (split; [assumption|]). rewrite E. split; [apply in_app_iff; now left|intros ni N; apply in_app_iff; left; auto].
Qed.
Section Loop.
  Variable body : stmt -> list dop.
  Hypothesis B : body_quads body.
  Lemma loop_sim : forall n w x y, dwf w -> sim w x y \/ x = IStart /\ y = DStart None None None None -> iter_loop body n w x = match_loop body n w y.
  Proof.
    induction n as [|n IH]; intros w x y W S; [reflexivity|]. cbn [iter_loop match_loop].
    assert (N : exists r, dgen_next w y = (w, r) /\ rsim w (iter_next w x) r) by (destruct S as [S|[-> ->]]; [now apply next_sim|now apply start_sim]).
    destruct N as (r & E & R). rewrite E. destruct (iter_next w x) as [[[q x']|]|e], r as [[[q' y']|]|e']; cbn [rsim] in R; try contradiction; try (subst; reflexivity).
    destruct R as [<- R]. pose proof (body_change (body q) w W (B q)) as C. unfold body_run. rewrite (IH (ds_run w (body q)) x' y' (wc_dwf _ _ _ C) (or_introl (sim_change _ _ _ _ C R))). reflexivity.
  Qed.
End Loop.

(** *** what is left to give when nothing changes *)
Definition quads_of (w : world) (i : gid) : list stmt := map (t_as_q (g_uri (heap_get w i))) (g_iter (heap_get w i)).
Definition left_of (w : world) (x : igen) : list stmt :=
  match x with
  | IStart => ds_iter w
  | IDone => []
  | IIn _ rem i _ srem => map (t_as_q (g_uri (heap_get w i))) srem ++ concat (map (quads_of w) rem)
  end.
Definition fresh (w : world) (x : igen) : Prop :=
  match x with
  | IIn used rem i su srem => used = length (w_graphs w) /\ su = length (g_iter (heap_get w i)) /\ In i (ds_graphs w) /\ (forall j, In j rem -> In j (ds_graphs w)) /\ forall t, In t srem -> In t (g_iter (heap_get w i))
  | _ => True
  end.
(** the generator has just given [q] *)
Definition after (w : world) (q : stmt) (x : igen) : Prop :=
  exists used rem i su srem t, x = IIn used rem i su srem /\ In t (g_iter (heap_get w i)) /\ q = t_as_q (g_uri (heap_get w i)) t.
Lemma outer_left : forall w rem, (forall j, In j rem -> In j (ds_graphs w)) ->
  match concat (map (quads_of w) rem) with
  | [] => iter_outer w (length (w_graphs w)) rem = Ok None
  | q :: l => exists x', iter_outer w (length (w_graphs w)) rem = Ok (Some (q, x')) /\ left_of w x' = l /\ fresh w x' /\ after w q x'
  end.
Proof.
  intros w. induction rem as [|i rem IH]; intro A; cbn [map concat iter_outer]; rewrite Nat.eqb_refl; [reflexivity|].
  unfold quads_of at 1. destruct (g_iter (heap_get w i)) as [|t r] eqn:T; cbn [map app].
  - apply IH. intros j J. apply A. now right.
  - eexists. split; [reflexivity|]. split; [reflexivity|]. split.
    + cbn [fresh]. rewrite T. repeat (split; [reflexivity|]). split; [apply A; now left|]. split; [intros j J; apply A; now right|intros u U; now right].
    + do 6 eexists. split; [reflexivity|]. split; [rewrite T; now left|reflexivity].
Qed.
Lemma next_left : forall w x, fresh w x ->
  match left_of w x with
  | [] => iter_next w x = Ok None
  | q :: l => exists x', iter_next w x = Ok (Some (q, x')) /\ left_of w x' = l /\ fresh w x' /\ after w q x'
  end.
Proof.
  intros w [| |used rem i su srem] FR; cbn [left_of iter_next].
  - apply (outer_left w (ds_graphs w)). auto.
  - reflexivity.
  - destruct FR as (-> & -> & I & A & H). rewrite Nat.eqb_refl. destruct srem as [|t r]; cbn [map app].
    + now apply outer_left.
    + eexists. split; [reflexivity|]. split; [reflexivity|]. split; [cbn [fresh]; repeat (split; [auto|]); intros u U; apply H; now right|]. do 6 eexists. split; [reflexivity|]. split; [apply H; now left|reflexivity].
Qed.

Lemma loop_left : forall body n w x, fresh w x -> (forall q, In q (left_of w x) -> ds_run w (body q) = w) -> length (left_of w x) < n ->
  iter_loop body n w x = (w, left_of w x, Ok tt).
Proof.
  intros body. induction n as [|n IH]; intros w x FR A L; [lia|]. cbn [iter_loop]. pose proof (next_left w x FR) as N. destruct (left_of w x) as [|q l].
  - now rewrite N.
  - destruct N as (x' & E & <- & FR' & _). rewrite E. unfold body_run. rewrite (A q (or_introl eq_refl)). rewrite (IH w x' FR'); [reflexivity|intros y J; apply A; now right|cbn in L; lia].
Qed.
(** removing the quad that was just given *)
Lemma remove_after : forall w q x, dwf w -> fresh w x -> after w q x -> iter_next (fst (ds_remove w q)) x = Err RuntimeError.
Proof.
  intros w q x W FR (used & rem & i & su & srem & t & -> & J & ->). destruct FR as (_ & -> & I & _). cbn [iter_next].
  unfold ds_graphs, dvals in I. apply in_map_iff in I. destruct I as ([n i'] & E & I). cbn in E. subst i'.
  assert (NE : g_triples (heap_get w i) <> []) by (intro E; unfold g_iter in J; rewrite E in J; exact J). rewrite (label_of w n i W I NE).
  assert (NG : nget (w_graphs w) n = Some i) by (apply (In_dget oterm_eq_dec); [exact (dwf_names w W)|exact I]).
  pose proof (wf_triples _ _ (dwf_graphs w W i) J) as TT. assert (QT : q_as_t (t_as_q n t) = t) by (destruct t; unfold is_triple in TT; cbn in *; now subst).
  unfold ds_remove, quad_graph, ds_touch. change (st_graph (t_as_q n t)) with (Some n). cbv iota beta. rewrite NG, QT.
  destruct (g_remove_present _ _ (dwf_graphs w W i) J) as (g' & R & _). rewrite R. cbn [fst].
  destruct (remove_index _ _ _ (dwf_graphs w W i) J R) as (_ & T & _). rewrite heap_get_set. destruct (Nat.eq_dec i i) as [_|X]; [|congruence].
  destruct (lt_dec i (length (w_heap w))) as [_|X]; [|exfalso; apply X; exact (pair_range w n i W NG)].
  unfold g_iter in *. rewrite T. assert (L : length (set_remove t (g_triples (heap_get w i))) <> length (g_triples (heap_get w i))).
  { pose proof (set_remove_length t _ (proj1 (dwf_graphs w W i)) J). lia. }
  apply Nat.eqb_neq in L. now rewrite L.
Qed.
Lemma loop_remove : forall test a n w x q b, dwf w -> fresh w x -> left_of w x = a ++ q :: b -> (forall y, In y a -> test y = false) -> test q = true -> length a + 1 < n ->
  iter_loop (body_remove test) n w x = (fst (ds_remove w q), a ++ [q], Err RuntimeError).
Proof.
  intros test a. induction a as [|y a IH]; intros n w x q b W FR E A T L; (destruct n as [|n]; [lia|]); cbn [iter_loop]; pose proof (next_left w x FR) as N; rewrite E in N; cbn [app] in N;
    destruct N as (x' & E1 & LF & FR' & AF); rewrite E1; unfold body_run, body_remove at 2.
  - rewrite T. change (ds_run w [DRemove q]) with (fst (ds_remove w q)). destruct n as [|n]; [cbn in L; lia|]. cbn [iter_loop]. rewrite (remove_after w q x' W FR' AF). reflexivity.
  - rewrite (A y (or_introl eq_refl)). change (ds_run w []) with w. rewrite (IH n w x' q b W FR' LF); [reflexivity|intros z Z; apply A; now right|exact T|cbn in L; lia].
Qed.
Lemma add_again : forall w q, dwf w -> holds w q -> fst (ds_add w q) = w.
Proof.
  intros w q W H. destruct (holds_name w q H) as (n & i & SG & NG & J). unfold ds_add, quad_graph, ds_touch. rewrite SG, NG.
  assert (I : In (n, i) (w_graphs w)) by (apply dget_Some_In in NG; exact NG).
  assert (U : set_uri (heap_get w i) n = heap_get w i).
  { assert (X : g_uri (heap_get w i) = n) by (apply (label_of w n i W I); intro E; rewrite E in J; exact J). rewrite <- X. destruct (heap_get w i). reflexivity. }
  rewrite U, heap_set_same, NG. cbn [fst]. rewrite (GraphIter.add_present _ _ (dwf_graphs w W i) J). apply heap_set_same.
Qed.
Lemma loop_feed : forall f, gives_quads f -> forall n w x, dwf w -> d_keys w x ->
  dfeed_loop f n w x = (fst (fst (match_loop (body_add f) n w x)), snd (match_loop (body_add f) n w x)).
Proof.
  intros f F. induction n as [|n IH]; intros w x W K; [reflexivity|]. cbn [dfeed_loop match_loop]. destruct (dgen_next w x) as [w1 r] eqn:E.
  destruct (wc_next (fun _ => False) w x w1 r W K E) as [C K1]. destruct r as [[[q x']|]|e]; [|reflexivity|reflexivity]. cbn [dsucc] in K1.
  pose proof (wc_dwf _ _ _ C) as W1. pose proof (wc_addAll (fun _ => False) (f q) w1 W1 (F q) (fun u _ N => match N with end)) as C2.
  destruct (ds_addAll_spec (f q) w1 W1 (F q)) as (w2 & A & D & _). unfold body_run.
  change (ds_run w1 (body_add f q)) with (fst (ds_addAll w1 (f q))). rewrite A in *. cbn [fst] in *.
  rewrite (IH w2 x' D (wc_keys _ _ _ _ C2 K1)). destruct (match_loop (body_add f) n w2 x') as [[w3 qs] r]. reflexivity.
Qed.
Lemma remove_each : forall l w, dwf w -> (forall q, In q l -> is_quad q) -> dwf (ds_run w (map DRemove l)) /\ forall q, holds (ds_run w (map DRemove l)) q <-> holds w q /\ ~ In q l.
Proof.
  induction l as [|x l IH]; intros w W A; [split; [exact W|intro q; cbn; tauto]|]. cbn [map].
  change (ds_run w (DRemove x :: map DRemove l)) with (ds_run (fst (ds_remove w x)) (map DRemove l)). destruct (A x (or_introl eq_refl)) as [n Hn].
  destruct (ds_remove_spec w x n W Hn) as (w' & r & E & D & H & _). rewrite E. cbn [fst]. destruct (IH w' D (fun q J => A q (or_intror J))) as [D2 H2].
  split; [exact D2|]. intro q. rewrite H2, H. cbn [In]. split; [intros [[X Y] Z]; split; [exact X|intros [K|K]; [symmetry in K|]; contradiction]|intros [X Y]; split; [split; [exact X|intro K; apply Y; left; now symmetry]|tauto]].
Qed.
