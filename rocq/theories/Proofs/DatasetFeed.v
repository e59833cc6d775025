(** Proofs for C118. *)
From Coq Require Import Wellfounded.Lexicographic_Product Wellfounded.Inverse_Image Relations.Relation_Operators.
From Verif Require Import Model.Py Model.Terms Model.Graph Model.GraphRun Model.Dataset Model.DatasetRun Spec.GraphSpec Spec.DatasetSpec Spec.IterSpec Spec.DIterSpec
  Model.DatasetFeed Spec.FeedSpec Spec.DFeedSpec
  Proofs.DictLemmas Proofs.GraphInv Proofs.GraphGen Proofs.GraphHist Proofs.GraphIter Proofs.GraphFeed Proofs.DatasetInv Proofs.DatasetGen Proofs.DatasetHist Proofs.DatasetIter.

(** *** A dataset that grows *)
Inductive ggrow : graph -> graph -> Prop :=
| gg_refl g : ggrow g g
| gg_trans a b c : ggrow a b -> ggrow b c -> ggrow a c
| gg_uri g u : ggrow g (set_uri g u)
| gg_add g t : is_triple t -> ggrow g (g_add g t).
Lemma ggrow_wf : forall a b, ggrow a b -> wf a -> wf b.
Proof. intros a b C. induction C; intro W; [exact W|auto|now apply set_uri_wf|now apply g_add_wf]. Qed.
Lemma ggrow_in : forall a b t, ggrow a b -> In t (g_triples a) -> In t (g_triples b).
Proof. intros a b t C. induction C; intro J; [exact J|auto|exact J|apply g_add_In; now right]. Qed.
Lemma ggrow_inv : forall s p o D a b x outs, ggrow a b -> wf a -> grow_inv s p o D a x outs -> grow_inv s p o D b x outs.
Proof.
  intros s p o D a b x outs C. induction C as [g|a b c C1 I1 C2 I2|g u|g t T]; intros W H; [exact H| | |].
  - apply I2; [exact (ggrow_wf _ _ C1 W)|now apply I1].
  - destruct x as [| |[] ? ? ? ?|[] ? ? ? ? ? ?|]; exact H.
  - now apply grow_add.
Qed.
Record wgrow (w w' : world) : Prop := {
  wg_dwf : dwf w';
  wg_names : exists ex, w_graphs w' = w_graphs w ++ ex;
  wg_heap : length (w_heap w) <= length (w_heap w');
  wg_graphs : forall i, i < length (w_heap w) -> ggrow (heap_get w i) (heap_get w' i)
}.
Lemma wg_refl : forall w, dwf w -> wgrow w w.
Proof. intros w W. split; [exact W|exists []; now rewrite app_nil_r|lia|intros; apply gg_refl]. Qed.
Lemma wg_trans : forall a b c, wgrow a b -> wgrow b c -> wgrow a c.
Proof.
  intros a b c [A1 [e1 A2] A3 A4] [B1 [e2 B2] B3 B4]. split; [exact B1|exists (e1 ++ e2); now rewrite B2, A2, app_assoc|lia|].
  intros i L. eapply gg_trans; [exact (A4 i L)|apply B4; lia].
Qed.
Lemma wg_touch : forall w n, dwf w -> wgrow w (fst (ds_touch w n)).
Proof.
  intros w n W. pose proof (ds_touch_spec w n W) as T. destruct (touch_graphs w n W) as [G|(_ & i & G)]; destruct (ds_touch w n) as [w1 j]; cbn [fst] in *;
    destruct T as (D & _ & H & _ & _ & K & L); (split; [exact D| |exact L|intros k Lk; rewrite (K k Lk); apply gg_refl]).
  - exists []. now rewrite app_nil_r.
  - eauto.
Qed.
Lemma wg_add : forall w q, dwf w -> is_quad q -> wgrow w (fst (ds_add w q)).
Proof.
  intros w q W [n Hn]. destruct (ds_add_spec w q n W Hn) as (w' & E & D & _). rewrite E. cbn [fst].
  unfold ds_add, quad_graph in E. rewrite Hn in E. pose proof (wg_touch w n W) as C1. pose proof (ds_touch_spec w n W) as T.
  destruct (ds_touch w n) as [w1 i]. cbn [fst] in C1. destruct T as (D1 & N1 & _).
  set (w2 := heap_set w1 i (set_uri (heap_get w1 i) n)) in *.
  assert (T2 : ds_touch w2 n = (w2, i)) by (unfold ds_touch, w2; now rewrite heap_set_graphs, N1). rewrite T2 in E.
  assert (E' : w' = heap_set w2 i (g_add (heap_get w2 i) (q_as_t q))) by congruence. clear E.
  pose proof (pair_range w1 n i D1 N1) as Li.
  assert (G2 : heap_get w2 i = set_uri (heap_get w1 i) n) by (unfold w2; rewrite heap_get_set; destruct (Nat.eq_dec i i); [destruct (lt_dec i (length (w_heap w1))); [reflexivity|lia]|congruence]).
  eapply wg_trans; [exact C1|]. split; [exact D| | |].
  - exists []. rewrite app_nil_r, E'. unfold w2. now rewrite !heap_set_graphs.
  - rewrite E'. unfold w2. rewrite !heap_set_len. lia.
  - intros j Lj. rewrite E', heap_get_set. destruct (Nat.eq_dec i j) as [<-|Ne].
    + destruct (lt_dec i (length (w_heap w2))) as [_|X]; [|unfold w2 in X; rewrite heap_set_len in X; lia]. rewrite G2.
      eapply gg_trans; [apply gg_uri|]. apply gg_add. apply q_as_t_triple.
    + unfold w2. rewrite heap_get_set. destruct (Nat.eq_dec i j); [contradiction|apply gg_refl].
Qed.
Lemma wg_addAll : forall qs w, dwf w -> (forall q, In q qs -> is_quad q) -> wgrow w (fst (ds_addAll w qs)).
Proof.
  induction qs as [|q qs IH]; intros w W A; cbn [ds_addAll fst]; [now apply wg_refl|].
  pose proof (wg_add w q W (A q (or_introl eq_refl))) as C. destruct (A q (or_introl eq_refl)) as [n Hn].
  destruct (ds_add_spec w q n W Hn) as (w' & E & D & _). rewrite E in *. cbn [fst] in C. eapply wg_trans; [exact C|]. apply IH; [exact D|intros; apply A; now right].
Qed.
Lemma wg_nget : forall w w' n i, wgrow w w' -> dwf w -> nget (w_graphs w) n = Some i -> nget (w_graphs w') n = Some i.
Proof.
  intros w w' n i C W N. pose proof (dwf_names _ (wg_dwf _ _ C)) as ND. destruct (wg_names _ _ C) as [ex E]. rewrite E in *.
  apply In_dget; [exact ND|]. apply dget_Some_In in N. apply in_or_app. now left.
Qed.
Lemma wg_holds : forall w w' q, wgrow w w' -> dwf w -> holds w q -> holds w' q.
Proof.
  intros w w' q C W H. unfold holds in *. destruct (st_graph q) as [n|]; [|exact H]. destruct (nget (w_graphs w) n) as [i|] eqn:N; [|contradiction].
  rewrite (wg_nget _ _ _ _ C W N). apply (ggrow_in _ _ _ (wg_graphs _ _ C i (pair_range w n i W N)) H).
Qed.
Lemma touch_named : forall w n m, dwf w -> In m (map fst (w_graphs (fst (ds_touch w n)))) -> In m (map fst (w_graphs w)) \/ m = n.
Proof.
  intros w n m W. destruct (touch_graphs w n W) as [G|(_ & i & G)]; rewrite G; [auto|]. rewrite map_app, in_app_iff. cbn. intros [J|[J|[]]]; auto.
Qed.
Lemma add_named : forall w q m, dwf w -> is_quad q -> In m (map fst (w_graphs (fst (ds_add w q)))) -> In m (map fst (w_graphs w)) \/ st_graph q = Some m.
Proof.
  intros w q m W [n Hn] J. unfold ds_add, quad_graph in J. rewrite Hn in J. pose proof (touch_named w n m W) as T. pose proof (ds_touch_spec w n W) as S.
  destruct (ds_touch w n) as [w1 i]. destruct S as (D1 & N1 & _).
  assert (T2 : ds_touch (heap_set w1 i (set_uri (heap_get w1 i) n)) n = (heap_set w1 i (set_uri (heap_get w1 i) n), i)) by (unfold ds_touch; now rewrite heap_set_graphs, N1).
  rewrite T2 in J. cbn [fst] in *. rewrite !heap_set_graphs in J. destruct (T J) as [X| ->]; auto.
Qed.
Lemma addAll_named : forall qs w m, dwf w -> (forall q, In q qs -> is_quad q) -> In m (map fst (w_graphs (fst (ds_addAll w qs)))) ->
  In m (map fst (w_graphs w)) \/ exists q, In q qs /\ st_graph q = Some m.
Proof.
  induction qs as [|q qs IH]; intros w m W A J; cbn [ds_addAll fst] in J; [auto|]. pose proof (add_named w q m W (A q (or_introl eq_refl))) as N. destruct (A q (or_introl eq_refl)) as [n Hn].
  destruct (ds_add_spec w q n W Hn) as (w' & E & D & _). rewrite E in *. cbn [fst] in N. destruct (IH w' m D (fun x X => A x (or_intror X)) J) as [X|(x & X1 & X2)]; [|right; exists x; split; [now right|exact X2]].
  destruct (N X) as [Y|Y]; [auto|right; exists q; split; [now left|exact Y]].
Qed.
Lemma holds_t : forall w n i t, nget (w_graphs w) n = Some i -> is_triple t -> holds w (t_as_q n t) <-> In t (g_triples (heap_get w i)).
Proof.
  intros w n i t N T. unfold holds. change (st_graph (t_as_q n t)) with (Some n). cbv iota. rewrite N. destruct t; unfold is_triple in T; cbn in *; subst. reflexivity.
Qed.
Lemma holds_name : forall w q, holds w q -> exists n i, st_graph q = Some n /\ nget (w_graphs w) n = Some i /\ In (q_as_t q) (g_triples (heap_get w i)).
Proof. intros w q H. unfold holds in H. destruct (st_graph q) as [n|]; [|contradiction]. destruct (nget (w_graphs w) n) as [i|] eqn:N; [|contradiction]. exists n, i. auto. Qed.

Lemma dfeed_more : forall f n m w x w' r, dfeed_loop f n w x = (w', r) -> r <> Err OutOfFuel -> n <= m -> dfeed_loop f m w x = (w', r).
Proof.
  induction n as [|n IH]; intros m w x w' r E N L; [injection E as _ <-; contradiction|]. destruct m as [|m]; [lia|]. cbn [dfeed_loop] in *.
  destruct (dgen_next w x) as [w1 [[[q x']|]|e]]; try exact E. destruct (ds_addAll w1 (f q)) as [w2 [u|e]]; [|exact E]. apply (IH m); [exact E|exact N|lia].
Qed.
Lemma dfeeds_det : forall f w s p o gr w1 r1 w2 r2, dfeeds f w s p o gr w1 r1 -> dfeeds f w s p o gr w2 r2 -> w1 = w2 /\ r1 = r2.
Proof.
  intros f w s p o gr w1 r1 w2 r2 (n & E & N) (m & E' & N'). pose proof (dfeed_more f n (Nat.max n m) _ _ _ _ E N ltac:(lia)) as A.
  pose proof (dfeed_more f m (Nat.max n m) _ _ _ _ E' N' ltac:(lia)) as B. rewrite A in B. injection B as <- <-. auto.
Qed.

(** *** ranks *)
Definition drank (x : dgen) : nat * (nat * nat) :=
  match x with
  | DStart _ _ _ _ | DDone => (0, (0, 0))%nat
  | DOne _ _ y => (0%nat, rank y)
  | DMany _ _ _ _ rem _ _ y => (length rem, rank y)
  end.
Definition dlt (x x' : dgen) : Prop := slexprod nat (nat * nat) lt (slexprod nat nat lt lt) (drank x) (drank x').
Lemma dlt_wf : well_founded dlt.
Proof.
  apply (wf_inverse_image dgen (nat * (nat * nat)) (slexprod nat (nat * nat) lt (slexprod nat nat lt lt)) drank).
  apply wf_slexprod; [exact lt_wf|]. apply wf_slexprod; exact lt_wf.
Qed.
Lemma douter_rank : forall rem w s p o u w' q x, many_outer w s p o u rem = (w', Ok (Some (q, x))) -> fst (drank x) < length rem.
Proof.
  induction rem as [|[n i] rem IH]; intros w s p o u w' q x E; cbn [many_outer] in E; destruct (length (w_graphs w) =? u); try discriminate E.
  destruct (inner_next w i (GStart s p o)) as [w1 [[[t y]|]|e]]; [|apply IH in E; cbn; lia|discriminate E]. injection E as _ _ <-. cbn. lia.
Qed.
Lemma inner_rank : forall w i y w' t y', running y -> inner_next w i y = (w', Ok (Some (t, y'))) -> slexprod nat nat lt lt (rank y') (rank y).
Proof.
  intros w i y w' t y' RU E. unfold inner_next in E. destruct (gen_next (heap_get w i) y) as [g r] eqn:G. injection E as _ ->.
  pose proof (next_rank _ _ _ _ _ G RU) as R. destruct (rank y') as [a b], (rank y) as [c d]. cbn [fst snd] in R. destruct R as [R|[-> R]]; [now apply left_slex|now apply right_slex].
Qed.
Definition drunning (x : dgen) : Prop := match x with DStart _ _ _ _ => False | DOne _ _ y | DMany _ _ _ _ _ _ _ y => running y | DDone => True end.
Lemma dnext_rank : forall w x w' q x', drunning x -> dgen_next w x = (w', Ok (Some (q, x'))) -> dlt x' x.
Proof.
  intros w [s p o gr| |n i y|s p o u rem n i y] w' q x' RU E; cbn [drunning dgen_next] in *; try contradiction; try discriminate E.
  - unfold one_next in E. destruct (inner_next w i y) as [w1 [[[t y']|]|e]] eqn:I; try discriminate E. injection E as _ _ <-. apply right_slex. exact (inner_rank _ _ _ _ _ _ RU I).
  - destruct (inner_next w i y) as [w1 [[[t y']|]|e]] eqn:I; try discriminate E.
    + injection E as _ _ <-. apply right_slex. exact (inner_rank _ _ _ _ _ _ RU I).
    + apply douter_rank in E. unfold dlt. cbn [drank]. destruct (drank x') as [c d]. cbn [fst] in E. now apply left_slex.
Qed.

(** *** What the call does *)
Section Feed.
  Variables (f : stmt -> list stmt) (s p o gr : oterm) (w0 : world).
  Hypothesis F : gives_quads f.
  Hypothesis W0 : dwf w0.
  Let Hq := qhits s p o gr.
  (** every quad given was there at the start or drawn from one given before *)
  Definition dtraced (ys : list stmt) : Prop := forall a y b, ys = a ++ y :: b -> holds w0 y \/ derived f a y.
  Definition contents (w : world) (ys : list stmt) : Prop := forall q, holds w q <-> holds w0 q \/ derived f ys q.
  (** a new graph has a quad *)
  Definition named (w : world) : Prop := forall n, In n (map fst (w_graphs w)) -> In n (map fst (w_graphs w0)) \/ exists q, holds w q /\ st_graph q = Some n.
  (** the graphs [done] have been read *)
  Definition visited (w : world) (done : list (oterm * gid)) (ys : list stmt) : Prop :=
    NoDup ys /\ (forall q, In q ys -> Hq q /\ holds w q /\ exists n, In n (map fst done) /\ st_graph q = Some n) /\
    forall q n, holds w0 q -> Hq q -> st_graph q = Some n -> In n (map fst done) -> In q ys.
  Definition giving (w : world) (x : dgen) (ys : list stmt) : Prop :=
    exists n i y ts ys1 D done, nget (w_graphs w0) n = Some i /\ (bound gr -> gr = n) /\ ys = ys1 ++ map (t_as_q n) ts /\
      grow_inv s p o D (heap_get w i) y (map (fun t => Ok (Some t)) ts) /\ (forall t, In t (g_triples (heap_get w0 i)) -> In t D) /\
      visited w done ys1 /\ ~ In n (map fst done) /\
      ((x = DOne n i y /\ bound gr) \/ exists rem, x = DMany s p o (length (w_graphs w0)) rem n i y /\ ~ bound gr /\ w_graphs w0 = done ++ (n, i) :: rem).
  (** why a call of next() raises *)
  Definition disturbed (w : world) : Prop :=
    (exists q, Hq q /\ holds w q /\ ~ holds w0 q) \/ ~ bound gr /\ length (w_graphs w0) < length (w_graphs w).
  Definition complete (w : world) (ys : list stmt) : Prop :=
    (forall q, holds w0 q -> Hq q -> In q ys) /\ (~ bound gr -> w_graphs w = w_graphs w0).
  Definition outcome (w : world) (ys : list stmt) (r : res (option (stmt * dgen))) : Prop :=
    match r with
    | Err e => e = RuntimeError /\ disturbed w
    | Ok None => complete w ys
    | Ok (Some (q, x')) => giving w x' (ys ++ [q])
    end.
  Lemma visited_grow : forall w w' done ys, dwf w -> wgrow w w' -> visited w done ys -> visited w' done ys.
  Proof.
    intros w w' done ys W C (A & B & D). split; [exact A|]. split; [|exact D]. intros q J. destruct (B q J) as (B1 & B2 & B3). split; [exact B1|]. split; [exact (wg_holds _ _ _ C W B2)|exact B3].
  Qed.
  Lemma giving_grow : forall w w' x ys, dwf w -> wgrow w0 w -> wgrow w w' -> giving w x ys -> giving w' x ys.
  Proof.
    intros w w' x ys W C0 C (n & i & y & ts & ys1 & D & done & N & B & E & I & DD & V & ND & K). exists n, i, y, ts, ys1, D, done.
    split; [exact N|]. split; [exact B|]. split; [exact E|]. split; [|split; [exact DD|split; [exact (visited_grow _ _ _ _ W C V)|auto]]].
    pose proof (pair_range _ _ _ W (wg_nget _ _ _ _ C0 W0 N)) as R. exact (ggrow_inv _ _ _ _ _ _ _ _ (wg_graphs _ _ C i R) (dwf_graphs _ W i) I).
  Qed.
  (** what a graph has given joins what the graphs before it have given *)
  Lemma visited_join : forall w n i y ts ys1 D done, dwf w -> wgrow w0 w -> nget (w_graphs w0) n = Some i -> (bound gr -> gr = n) ->
    grow_inv s p o D (heap_get w i) y (map (fun t => Ok (Some t)) ts) -> visited w done ys1 -> ~ In n (map fst done) ->
    NoDup (ys1 ++ map (t_as_q n) ts) /\ forall q, In q (ys1 ++ map (t_as_q n) ts) -> Hq q /\ holds w q /\ exists m, In m (map fst (done ++ [(n, i)])) /\ st_graph q = Some m.
  Proof.
    intros w n i y ts ys1 D done W C N B (_ & _ & ND & _ & M & _) (V1 & V2 & V3) NI. rewrite yields_map in ND, M. pose proof (wg_nget _ _ _ _ C W0 N) as N'.
    assert (TT : forall t, In t ts -> is_triple t) by (intros t J; exact (wf_triples _ _ (dwf_graphs w W i) (proj1 (M t (or_introl J))))).
    split.
    - apply NoDup_app_disj; [exact V1| |].
      + clear - ND TT. induction ts as [|a l IH]; cbn [map]; [constructor|]. apply NoDup_cons_iff in ND. destruct ND as [N1 N2].
        constructor; [|apply IH; [exact N2|intros u U; apply TT; now right]]. intro X. apply in_map_iff in X. destruct X as (u & X & U). apply t_as_q_inj in X; [subst; contradiction|apply TT; now right|apply TT; now left].
      + intros q Q1 Q2. destruct (V2 q Q1) as (_ & _ & m & J & SG). apply in_map_iff in Q2. destruct Q2 as (t & <- & _). cbn in SG. injection SG as <-. contradiction.
    - intros q J. apply in_app_iff in J. destruct J as [J|J].
      + destruct (V2 q J) as (A & A' & m & K & SG). split; [exact A|]. split; [exact A'|]. exists m. split; [rewrite map_app; apply in_app_iff; now left|exact SG].
      + apply in_map_iff in J. destruct J as (t & <- & J). destruct (M t (or_introl J)) as [M1 M2]. split; [now apply hits_q|].
        split; [apply (holds_t w n i t N' (TT t J)); exact M1|]. exists n. split; [rewrite map_app; apply in_app_iff; right; now left|reflexivity].
  Qed.
  Lemma visited_done : forall w n i ts ys1 D done, dwf w -> wgrow w0 w -> nget (w_graphs w0) n = Some i -> (bound gr -> gr = n) ->
    grow_inv s p o D (heap_get w i) GDone (map (fun t => Ok (Some t)) ts ++ [Ok None]) -> (forall t, In t (g_triples (heap_get w0 i)) -> In t D) ->
    visited w done ys1 -> forall q m, holds w0 q -> Hq q -> st_graph q = Some m -> In m (map fst (done ++ [(n, i)])) -> In q (ys1 ++ map (t_as_q n) ts).
  Proof.
    intros w n i ts ys1 D done W C N B (_ & _ & _ & _ & _ & _ & CC & _) DD (V1 & V2 & V3) q m A1 A2 SG J. rewrite yields_app, yields_map in CC. cbn [yields gen_rest] in CC. rewrite app_nil_r in CC.
    rewrite map_app, in_app_iff in J. apply in_app_iff. destruct J as [J|[J|[]]]; [left; exact (V3 q m A1 A2 SG J)|right]. cbn [fst] in J. subst m.
    rewrite (quad_eta q n SG). apply in_map. destruct CC as [CC|(e & X)].
    - unfold holds in A1. rewrite SG, N in A1. destruct (CC (q_as_t q)) as [X|[]]; [exact (q_hits s p o gr q A2)|apply DD; exact A1|exact X].
    - apply in_app_iff in X. destruct X as [X|[X|[]]]; [now apply no_err in X|discriminate X].
  Qed.
  Lemma outer_out : forall w, dwf w -> wgrow w0 w -> ~ bound gr -> forall rem done ys, w_graphs w0 = done ++ rem -> visited w done ys ->
    exists r, many_outer w s p o (length (w_graphs w0)) rem = (w, r) /\ outcome w ys r.
  Proof.
    intros w W C NB. destruct (wg_names _ _ C) as [ex EX]. destruct (Nat.eq_dec (length (w_graphs w)) (length (w_graphs w0))) as [L|L].
    - assert (EQ : w_graphs w = w_graphs w0) by (rewrite EX, app_length in L; destruct ex; [now rewrite EX, app_nil_r|cbn in L; lia]). clear EX ex.
      pose proof (proj2 (Nat.eqb_eq _ _) L) as LB. induction rem as [|[n i] rem IH]; intros done ys E V; cbn [many_outer]; rewrite LB.
      + exists (Ok None). split; [reflexivity|]. split; [|auto]. intros q H1 H2. destruct (holds_name _ _ H1) as (n & i & SG & NG & _). apply (proj2 (proj2 V) q n H1 H2 SG).
        apply dget_Some_In in NG. rewrite E, app_nil_r in NG. exact (in_map fst _ _ NG).
      + assert (N : nget (w_graphs w0) n = Some i) by (apply (In_dget oterm_eq_dec); [exact (dwf_names w0 W0)|rewrite E; apply in_app_iff; right; now left]).
        assert (NI : ~ In n (map fst done)).
        { intro J. pose proof (dwf_names w0 W0) as NN. rewrite E in NN. unfold dkeys in NN. rewrite map_app in NN. apply (nodup_apart _ _ n NN J). now left. }
        destruct (begin_cases s p o (heap_get w i) (dwf_graphs w W i)) as (r & GN & D). unfold inner_next. rewrite GN, heap_set_same. pose proof (grow_init s p o _ r (dwf_graphs w W i) GN) as I.
        assert (DD : forall t, In t (g_triples (heap_get w0 i)) -> In t (g_triples (heap_get w i))) by (intros t J; exact (ggrow_in _ _ t (wg_graphs _ _ C i (pair_range w0 n i W0 N)) J)).
        destruct D as [(M & ->)|(t & rest & y & M & -> & GR & K & S & Z)]; cbn [succ_gen out1 bind option_map fst] in I.
        * destruct (IH (done ++ [(n, i)]) ys) as (r & R & O); [now rewrite <- app_assoc| |eauto].
          split; [exact (proj1 V)|]. split.
          -- intros q J. destruct (proj1 (proj2 V) q J) as (A & A' & m & X & SG). split; [exact A|]. split; [exact A'|]. exists m. split; [rewrite map_app; apply in_app_iff; now left|exact SG].
          -- intros q m H1 H2 SG J. pose proof (visited_done w n i [] ys _ done W C N ltac:(intro; contradiction) I DD V q m H1 H2 SG J) as X. cbn [map] in X. now rewrite app_nil_r in X.
        * eexists. split; [reflexivity|]. cbn [outcome]. exists n, i, y, [t], ys, (g_triples (heap_get w i)), done. split; [exact N|]. split; [intro; contradiction|]. split; [reflexivity|].
          split; [exact I|]. split; [exact DD|]. split; [exact V|]. split; [exact NI|]. right. exists rem. auto.
    - intros rem done ys E V. exists (Err RuntimeError). split.
      + pose proof (proj2 (Nat.eqb_neq _ _) L) as X. destruct rem as [|[n i] rem]; cbn [many_outer]; now rewrite X.
      + split; [reflexivity|]. right. split; [exact NB|]. rewrite EX, app_length in *. lia.
  Qed.
  Lemma next_out : forall w x ys, dwf w -> wgrow w0 w -> giving w x ys -> exists r, dgen_next w x = (w, r) /\ outcome w ys r.
  Proof.
    intros w x ys W C (n & i & y & ts & ys1 & D & done & N & B & -> & I & DD & V & NI & K).
    destruct (grow_next s p o D _ y _ (dwf_graphs w W i) I) as (r & E & I').
    assert (EE : inner_next w i y = (w, r)) by (unfold inner_next; now rewrite E, heap_set_same).
    destruct r as [[[t y']|]|e]; cbn [succ_gen out1 bind option_map fst] in I'.
    - change [Ok (Some t)] with (map (fun t : stmt => Ok (Some t)) [t]) in I'. rewrite <- map_app in I'.
      assert (G : forall x', (x' = DOne n i y' /\ bound gr) \/ (exists rem, x' = DMany s p o (length (w_graphs w0)) rem n i y' /\ ~ bound gr /\ w_graphs w0 = done ++ (n, i) :: rem) ->
        giving w x' ((ys1 ++ map (t_as_q n) ts) ++ [t_as_q n t])).
      { intros x' X. exists n, i, y', (ts ++ [t]), ys1, D, done. split; [exact N|]. split; [exact B|]. split; [now rewrite map_app, <- app_assoc|]. auto. }
      destruct K as [(-> & BG)|(rem & -> & NB & E0)]; cbn [dgen_next]; unfold one_next; rewrite EE; eexists; (split; [reflexivity|]); cbn [outcome]; apply G; [now left|right; eauto].
    - destruct K as [(-> & BG)|(rem & -> & NB & E0)]; cbn [dgen_next].
      + unfold one_next. rewrite EE. exists (Ok None). split; [reflexivity|]. split; [|contradiction]. intros q H1 H2.
        apply (visited_done w n i ts ys1 D done W C N B I' DD V q n H1 H2); [|rewrite map_app; apply in_app_iff; right; now left].
        destruct H2 as [_ H2]. destruct (wild_cases gr) as [(_ & _ & X)|(_ & X & _)]; [|contradiction]. rewrite X in H2. pose proof (B BG) as GN. destruct BG as [BG _], H2 as [H2|H2]; congruence.
      + rewrite EE. apply (outer_out w W C NB rem (done ++ [(n, i)])); [now rewrite E0, <- app_assoc|].
        destruct (visited_join w n i y ts ys1 D done W C N B I V NI) as [J1 J2]. split; [exact J1|]. split; [exact J2|].
        intros q m. exact (visited_done w n i ts ys1 D done W C N B I' DD V q m).
    - destruct I' as (_ & _ & _ & _ & _ & _ & _ & _ & EEE & _). destruct (EEE e) as [-> (t & T1 & T2 & T3)]; [apply in_app_iff; right; now left|].
      assert (DS : disturbed w).
      { left. exists (t_as_q n t). split; [now apply hits_q|]. pose proof (wf_triples _ _ (dwf_graphs w W i) T2) as TT.
        split; [apply (holds_t w n i t (wg_nget _ _ _ _ C W0 N) TT); exact T2|]. intro H. apply T3, DD. apply (holds_t w0 n i t N TT). exact H. }
      destruct K as [(-> & BG)|(rem & -> & NB & E0)]; cbn [dgen_next]; unfold one_next; rewrite EE; exists (Err RuntimeError); (split; [reflexivity|]); split; auto.
  Qed.
  Lemma giving_running : forall w x ys, giving w x ys -> drunning x.
  Proof.
    intros w x ys (n & i & y & ts & ys1 & D & done & _ & _ & _ & I & _ & _ & _ & K). pose proof (shape_running _ _ _ _ (proj1 (proj2 I))) as R.
    destruct K as [(-> & _)|(rem & -> & _)]; exact R.
  Qed.
  Lemma giving_ys : forall w x ys, dwf w -> wgrow w0 w -> giving w x ys -> NoDup ys /\ forall q, In q ys -> Hq q /\ holds w q.
  Proof.
    intros w x ys W C (n & i & y & ts & ys1 & D & done & N & B & -> & I & DD & V & NI & K). destruct (visited_join w n i y ts ys1 D done W C N B I V NI) as [J1 J2].
    split; [exact J1|]. intros q J. destruct (J2 q J) as (A & A' & _). auto.
  Qed.
  (** between two calls of next() *)
  Definition dfeed_inv (w : world) (x : dgen) (ys : list stmt) : Prop := wgrow w0 w /\ contents w ys /\ dtraced ys /\ named w /\ giving w x ys.
  Definition feed_end (w' : world) (r : res unit) (ys : list stmt) : Prop :=
    NoDup ys /\ (forall q, In q ys -> Hq q /\ holds w' q) /\ contents w' ys /\ dtraced ys /\ named w' /\ wgrow w0 w' /\
    (r = Ok tt /\ complete w' ys \/ r = Err RuntimeError /\ disturbed w').
  Lemma adds : forall w x ys q, wgrow w0 w -> contents w ys -> dtraced ys -> named w -> giving w x (ys ++ [q]) ->
    exists w', ds_addAll w (f q) = (w', Ok tt) /\ dfeed_inv w' x (ys ++ [q]).
  Proof.
    intros w x ys q C CT TR NM G. pose proof (wg_dwf _ _ C) as W. pose proof (wg_addAll (f q) w W (F q)) as C1. destruct (ds_addAll_spec (f q) w W (F q)) as (w' & E & D & H).
    rewrite E in C1. cbn [fst] in C1. exists w'. split; [exact E|]. split; [exact (wg_trans _ _ _ C C1)|]. split; [intro u; pose proof (CT u); rewrite H, derived_snoc; tauto|]. split.
    - intros a y b X. destruct b as [|z b] using rev_ind.
      + apply app_inj_tail in X. destruct X as [<- <-]. apply CT. apply (proj2 (giving_ys _ _ _ W C G)). apply in_app_iff. right. now left.
      + clear IHb. rewrite app_comm_cons, app_assoc in X. apply app_inj_tail in X. destruct X as [X _]. exact (TR a y b X).
    - split; [|exact (giving_grow _ _ _ _ W C C1 G)]. intros n J. pose proof (addAll_named (f q) w n W (F q)) as A. rewrite E in A. cbn [fst] in A.
      destruct (A J) as [X|(u & U1 & U2)]; [|right; exists u; split; [apply H; now left|exact U2]].
      destruct (NM n X) as [Y|(u & U1 & U2)]; [now left|right; exists u; split; [exact (wg_holds _ _ _ C1 W U1)|exact U2]].
  Qed.
  Lemma loop_out : forall x w ys, dfeed_inv w x ys -> exists n w' r zs, dfeed_loop f n w x = (w', r) /\ r <> Err OutOfFuel /\ feed_end w' r zs.
  Proof.
    induction x as [x IH] using (well_founded_induction dlt_wf). intros w ys (C & CT & TR & NM & G). pose proof (wg_dwf _ _ C) as W. destruct (giving_ys _ _ _ W C G) as [Y1 Y2].
    destruct (next_out w x ys W C G) as (r & E & O). destruct r as [[[q x']|]|e]; cbn [outcome] in O.
    - destruct (adds w x' ys q C CT TR NM O) as (w1 & A & I). destruct (IH x' (dnext_rank _ _ _ _ _ (giving_running _ _ _ G) E) w1 _ I) as (n & w' & r & zs & L & NF & FE).
      exists (Datatypes.S n), w', r, zs. cbn [dfeed_loop]. rewrite E, A. auto.
    - exists 1%nat, w, (Ok tt), ys. cbn [dfeed_loop]. rewrite E. split; [reflexivity|]. split; [discriminate|]. repeat (split; [assumption|]). left. auto.
    - destruct O as [-> O]. exists 1%nat, w, (Err RuntimeError), ys. cbn [dfeed_loop]. rewrite E. split; [reflexivity|]. split; [discriminate|]. repeat (split; [assumption|]). right. auto.
  Qed.
  Lemma first_out : forall w x, dgen_next w x = dgen_next w0 x -> forall r, dgen_next w0 x = (w0, r) -> outcome w0 [] r ->
    exists n w' r zs, dfeed_loop f n w x = (w', r) /\ r <> Err OutOfFuel /\ feed_end w' r zs.
  Proof.
    intros w x EW r E O. rewrite E in EW. pose proof (wg_refl w0 W0) as C.
    assert (CT : contents w0 []) by (intro q; unfold derived; split; [auto|intros [H|(z & [] & _)]; exact H]).
    assert (TR : dtraced []) by (intros a y b X; destruct a; discriminate X).
    assert (NM : named w0) by (intros n J; now left).
    assert (FE : forall r', (r' = Ok tt /\ complete w0 [] \/ r' = Err RuntimeError /\ disturbed w0) -> feed_end w0 r' []).
    { intros r' X. split; [constructor|]. split; [intros q []|]. repeat (split; [assumption|]). exact X. }
    destruct r as [[[q x']|]|e]; cbn [outcome] in O.
    - destruct (adds w0 x' [] q C CT TR NM O) as (w1 & A & I). destruct (loop_out x' w1 _ I) as (n & w' & r & zs & L & NF & X).
      exists (Datatypes.S n), w', r, zs. cbn [dfeed_loop]. rewrite EW, A. auto.
    - exists 1%nat, w0, (Ok tt), []. cbn [dfeed_loop]. rewrite EW. split; [reflexivity|]. split; [discriminate|]. apply FE. left. auto.
    - destruct O as [-> O]. exists 1%nat, w0, (Err RuntimeError), []. cbn [dfeed_loop]. rewrite EW. split; [reflexivity|]. split; [discriminate|]. apply FE. right. auto.
  Qed.
End Feed.
Lemma start_out : forall s p o gr w, dwf w -> exists r, dgen_next w (DStart s p o gr) = (q_world w gr, r) /\
  dgen_next (q_world w gr) (DStart s p o gr) = (q_world w gr, r) /\ outcome s p o gr (q_world w gr) (q_world w gr) [] r.
Proof.
  intros s p o gr w W. cbn [dgen_next]. unfold q_world. destruct (wild_cases gr) as [(T & B & WC)|(T & B & WC)]; rewrite T.
  - pose proof (ds_touch_spec w gr W) as X. destruct (ds_touch w gr) as [w1 i]. cbn [fst]. destruct X as (D1 & N1 & H1 & _).
    assert (TT : ds_touch w1 gr = (w1, i)) by (unfold ds_touch; now rewrite N1). rewrite TT.
    destruct (begin_cases s p o (heap_get w1 i) (dwf_graphs w1 D1 i)) as (r & E & D). pose proof (grow_init s p o _ r (dwf_graphs w1 D1 i) E) as I.
    assert (V : visited s p o gr w1 w1 [] []) by (split; [constructor|]; split; [intros q []|intros q n _ _ _ []]).
    destruct D as [(M & ->)|(t & rest & y & M & -> & _)]; unfold one_next, inner_next; rewrite E, heap_set_same; cbn [succ_gen out1 bind option_map fst] in I; eexists; (split; [reflexivity|]; split; [reflexivity|]); cbn [outcome].
    + split; [|contradiction]. intros q H2 H3. apply (visited_done s p o gr w1 w1 gr i [] [] _ [] D1 (wg_refl _ D1) N1 (fun _ => eq_refl) I (fun t J => J) V q gr H2 H3); [|now left].
      destruct H3 as [_ H3]. rewrite WC in H3. destruct H3 as [H3|H3]; [destruct B; contradiction|exact H3].
    + exists gr, i, y, [t], [], (g_triples (heap_get w1 i)), []. split; [exact N1|]. split; [auto|]. split; [reflexivity|]. split; [exact I|]. split; [auto|]. split; [exact V|]. split; [intros []|]. left. auto.
  - destruct (outer_out s p o gr w W w W (wg_refl w W) B (w_graphs w) [] [] eq_refl) as (r & E & O); [split; [constructor|]; split; [intros q []|intros q n _ _ _ []]|].
    exists r. auto.
Qed.
Lemma dfeed_total : forall f w s p o gr, dwf w -> gives_quads f ->
  exists w' r ys, dfeeds f w s p o gr w' r /\ feed_end f s p o gr (q_world w gr) w' r ys.
Proof.
  intros f w s p o gr W F. destruct (start_out s p o gr w W) as (r0 & E & E2 & O).
  destruct (first_out f s p o gr (q_world w gr) F (q_world_dwf w gr W) w (DStart s p o gr) ltac:(congruence) r0 E2 O) as (n & w' & r & zs & L & NF & FE).
  exists w', r, zs. split; [exists n; auto|exact FE].
Qed.
Lemma dfeed_main : forall f w s p o gr w' r, dwf w -> gives_quads f -> dfeeds f w s p o gr w' r -> exists ys, feed_end f s p o gr (q_world w gr) w' r ys.
Proof.
  intros f w s p o gr w' r W F H. destruct (dfeed_total f w s p o gr W F) as (w2 & r2 & ys & H2 & FE). destruct (dfeeds_det _ _ _ _ _ _ _ _ _ _ H H2) as [-> ->]. eauto.
Qed.

Lemma traced_incl : forall (f : stmt -> list stmt) (A : stmt -> Prop) ys, (forall a y b, ys = a ++ y :: b -> (forall z, In z a -> A z) -> A y) -> forall y, In y ys -> A y.
Proof.
  intros f A ys. induction ys as [|y ys IH] using rev_ind; intros H z J; [destruct J|].
  assert (P : forall x, In x ys -> A x) by (apply IH; intros a x b E; apply (H a x (b ++ [y])); rewrite E, <- app_assoc; reflexivity).
  apply in_app_iff in J. destruct J as [J|[<-|[]]]; [auto|]. exact (H ys y [] eq_refl P).
Qed.
Lemma q_world_holds : forall w gr q, dwf w -> holds (q_world w gr) q <-> holds w q.
Proof.
  intros w gr q W. unfold q_world. destruct (oterm_truthy gr); [|reflexivity]. pose proof (ds_touch_spec w gr W) as X. destruct (ds_touch w gr) as [w1 i]. destruct X as (_ & _ & H & _). exact (H q).
Qed.
Lemma q_world_free : forall w gr, ~ bound gr -> q_world w gr = w.
Proof. intros w gr B. unfold q_world. destruct (wild_cases gr) as [(T & X & _)|(T & _ & _)]; [contradiction|now rewrite T]. Qed.
Lemma dfeed_outcome : forall f w s p o gr w' r, dwf w -> gives_quads f -> dfeeds f w s p o gr w' r ->
  exists ys, NoDup ys /\ (forall y, In y ys -> qhits s p o gr y /\ In y (ds_iter w')) /\
    (forall q, In q (ds_iter w') <-> In q (ds_iter w) \/ derived f ys q) /\
    (r = Ok tt /\ (forall q, qhits s p o gr q -> In q (ds_iter w) -> In q ys) /\ (~ bound gr -> graph_names w' = graph_names w) \/
     r = Err RuntimeError /\ ((exists q, qhits s p o gr q /\ In q (ds_iter w') /\ ~ In q (ds_iter w)) \/ ~ bound gr /\ exists n, In n (graph_names w') /\ ~ In n (graph_names w))).
Proof.
  intros f w s p o gr w' r W F H. destruct (dfeed_main f w s p o gr w' r W F H) as (ys & A & B & C & _ & _ & G & D). pose proof (wg_dwf _ _ G) as W'.
  assert (IH : forall q, In q (ds_iter w) <-> holds (q_world w gr) q) by (intro q; rewrite (q_world_holds w gr q W); now apply iter_holds).
  exists ys. split; [exact A|]. split; [intros y Y; destruct (B y Y); split; [assumption|now apply iter_holds]|]. split; [intro q; rewrite (iter_holds w' q W'), IH; apply C|].
  destruct D as [(-> & D1 & D2)|(-> & [(q & Q1 & Q2 & Q3)|(NB & L)])]; [left|right|right]; (split; [reflexivity|]).
  - split; [intros q Q1 Q2; apply D1; [now apply IH|exact Q1]|]. intro NB. unfold graph_names. now rewrite (D2 NB), (q_world_free w gr NB).
  - left. exists q. split; [exact Q1|]. split; [now apply iter_holds|]. now rewrite IH.
  - right. split; [exact NB|]. rewrite (q_world_free w gr NB) in G, L. destruct (wg_names _ _ G) as [[|[n i] ex] E]; rewrite E in L; [rewrite app_nil_r in L; lia|].
    exists n. unfold graph_names. pose proof (dwf_names w' W') as ND. unfold dkeys in ND. rewrite E in *. rewrite map_app in *. split; [apply in_app_iff; right; now left|].
    intro J. apply (nodup_apart _ _ n ND J). now left.
Qed.
Lemma dfeed_harmless : forall f w s p o gr w' r, dwf w -> gives_quads f -> dfeeds f w s p o gr w' r ->
  (forall y, qhits s p o gr y -> In y (ds_iter w) -> qharmless f s p o gr (ds_iter w) y) ->
  (~ bound gr -> forall y q n, qhits s p o gr y -> In y (ds_iter w) -> In q (f y) -> st_graph q = Some n -> In n (graph_names w)) ->
  r = Ok tt /\ forall q, In q (ds_iter w') <-> In q (ds_iter w) \/ exists y, In y (ds_iter w) /\ qhits s p o gr y /\ In q (f y).
Proof.
  intros f w s p o gr w' r W F H HA HN. destruct (dfeed_main f w s p o gr w' r W F H) as (ys & A & B & C & TR & NM & G & D). pose proof (wg_dwf _ _ G) as W'.
  assert (IH : forall q, In q (ds_iter w) <-> holds (q_world w gr) q) by (intro q; rewrite (q_world_holds w gr q W); now apply iter_holds).
  assert (YS : forall y, In y ys -> In y (ds_iter w)).
  { apply (traced_incl f). intros a y b E P. destruct (TR a y b E) as [X|(z & Z1 & Z2)]; [now apply IH|].
    assert (QY : forall x, In x ys -> qhits s p o gr x) by (intros x X; exact (proj1 (B x X))).
    apply (HA z); [apply QY; rewrite E; apply in_app_iff; now left|now apply P|exact Z2|apply QY; rewrite E; apply in_app_iff; right; now left]. }
  assert (OLD : forall q, qhits s p o gr q -> holds w' q -> holds (q_world w gr) q).
  { intros q Q1 Q2. apply C in Q2. destruct Q2 as [Q2|(y & Y1 & Y2)]; [exact Q2|]. apply IH. exact (HA y (proj1 (B y Y1)) (YS y Y1) q Y2 Q1). }
  destruct D as [(-> & D1 & D2)|(-> & [(q & Q1 & Q2 & Q3)|(NB & L)])]; [|exfalso; apply Q3; auto|exfalso].
  - split; [reflexivity|]. intro q. rewrite (iter_holds w' q W'), IH. rewrite (C q). split; (intros [X|X]; [now left|right]).
    + destruct X as (y & Y1 & Y2). exists y. split; [auto|]. split; [exact (proj1 (B y Y1))|exact Y2].
    + destruct X as (y & Y1 & Y2 & Y3). exists y. split; [|exact Y3]. apply D1; [now apply IH|exact Y2].
  - rewrite (q_world_free w gr NB) in *. destruct (wg_names _ _ G) as [[|[n i] ex] E]; rewrite E in L; [rewrite app_nil_r in L; lia|].
    assert (OUT : ~ In n (map fst (w_graphs w))).
    { pose proof (dwf_names w' W') as ND. unfold dkeys in ND. rewrite E, map_app in ND. intro J. apply (nodup_apart _ _ n ND J). now left. }
    destruct (NM n) as [X|(q & Q1 & Q2)]; [rewrite E, map_app; apply in_app_iff; right; now left|exact (OUT X)|]. apply OUT. apply C in Q1. destruct Q1 as [Q1|(y & Y1 & Y2)].
    + destruct (holds_name _ _ Q1) as (m & j & M1 & M2 & _). rewrite Q2 in M1. injection M1 as <-. apply dget_Some_In in M2. exact (in_map fst _ _ M2).
    + exact (HN NB y q n (proj1 (B y Y1)) (YS y Y1) Y2 Q2).
Qed.
