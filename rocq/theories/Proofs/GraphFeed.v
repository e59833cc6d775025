(** Proofs for C114. *)
From Verif Require Import Model.Py Model.Terms Model.Graph Model.GraphRun Spec.GraphSpec Spec.IterSpec Model.GraphFeed Spec.FeedSpec
  Proofs.DictLemmas Proofs.GraphInv Proofs.GraphGen Proofs.GraphHist Proofs.GraphIter.

(** *** The call ends *)
Lemma feed_more : forall f n m g x g' r, feed_loop f n g x = (g', r) -> r <> Err OutOfFuel -> n <= m -> feed_loop f m g x = (g', r).
Proof.
  induction n as [|n IH]; intros m g x g' r E N L; [injection E as _ <-; contradiction|]. destruct m as [|m]; [lia|]. cbn [feed_loop] in *.
  destruct (gen_next g x) as [g1 [[[t x']|]|e]]; try exact E. apply (IH m); [exact E|exact N|lia].
Qed.
Lemma feeds_det : forall f g s p o g1 r1 g2 r2, feeds f g s p o g1 r1 -> feeds f g s p o g2 r2 -> g1 = g2 /\ r1 = r2.
Proof.
  intros f g s p o g1 r1 g2 r2 (n & E & N) (m & E' & N'). pose proof (feed_more f n (Nat.max n m) _ _ _ _ E N ltac:(lia)) as A.
  pose proof (feed_more f m (Nat.max n m) _ _ _ _ E' N' ltac:(lia)) as B. rewrite A in B. injection B as <- <-. auto.
Qed.
Definition rank (x : gen) : nat * nat :=
  match x with
  | GStart _ _ _ => (0, 0)%nat
  | GDone => (0, 0)%nat
  | GVals _ _ _ _ rem | GSet _ rem => (0, length rem)%nat
  | GNest _ _ _ orem _ _ rem => (length orem, length rem)%nat
  end.
Lemma outer_rank : forall w a ou orem g g' t x, nest_outer g w a ou orem = (g', Ok (Some (t, x))) -> fst (rank x) < length orem.
Proof.
  induction orem as [|b orem IH]; intros g g' t x E; cbn [nest_outer] in E; destruct (touch (g_index g w) a) as [ix1 d1]; destruct (length d1 =? ou); try discriminate E.
  destruct (touch2 _ a b) as [ix2 d2]. destruct (dvals d2) as [|y r].
  - apply IH in E. cbn. lia.
  - injection E as _ _ <-. cbn. lia.
Qed.
Lemma next_rank : forall g x g' t x', gen_next g x = (g', Ok (Some (t, x'))) -> match x with GStart _ _ _ => False | _ => True end ->
  fst (rank x') < fst (rank x) \/ fst (rank x') = fst (rank x) /\ snd (rank x') < snd (rank x).
Proof.
  intros g [s p o| |w a b u rem|w a ou orem b u rem|u rem] g' t x' E S; try contradiction; cbn [gen_next] in E.
  - discriminate E.
  - right. unfold vals_next in E. destruct (tget (g_index g w) a) as [d|]; [|discriminate E]. destruct (tget d b) as [d2|]; [|discriminate E].
    destruct (length d2 =? u); [|discriminate E]. destruct rem as [|y r]; [discriminate E|]. injection E as _ _ <-. cbn. lia.
  - unfold vals_next in E. destruct (tget (g_index g w) a) as [d|]; [|discriminate E]. destruct (tget d b) as [d2|]; [|discriminate E].
    destruct (length d2 =? u); [|discriminate E]. destruct rem as [|y r].
    + left. exact (outer_rank _ _ _ _ _ _ _ _ E).
    + injection E as _ _ <-. cbn. lia.
  - right. destruct (length (g_triples g) =? u); [|discriminate E]. destruct rem as [|y r]; [discriminate E|]. injection E as _ _ <-. cbn. lia.
Qed.
Definition running (x : gen) : Prop := match x with GStart _ _ _ => False | _ => True end.
Lemma next_ok : forall s p o g x, wf g -> keys g x -> shape s p o x ->
  gen_next g x = (g, Err RuntimeError) \/ gen_next g x = (g, Ok None) \/ exists t x', gen_next g x = (g, Ok (Some (t, x'))) /\ keys g x' /\ shape s p o x'.
Proof.
  intros s p o g x W K S. destruct (next_any s p o g x W K S) as [[E2 _]|[_ A]]; [now left|]. destruct (gen_rest g x); cbn [advances] in A; [now right; left|].
  destruct A as (x' & A & _ & K' & S' & _). right. right. eauto 6.
Qed.
Lemma addAll_keeps : forall (Q : graph -> Prop), (forall g t, wf g -> is_triple t -> Q g -> Q (g_add g t)) ->
  forall ts g, wf g -> Forall is_triple ts -> Q g -> wf (g_addAll g ts) /\ Q (g_addAll g ts).
Proof.
  intros Q H. unfold g_addAll. induction ts as [|t ts IH]; intros g W T A; cbn [fold_left]; [auto|]. inversion T; subst. apply IH; auto. now apply g_add_wf.
Qed.
Lemma shape_running : forall s p o x, shape s p o x -> running x.
Proof. intros s p o [| | | |] H; [contradiction|exact Logic.I..]. Qed.
Lemma feed_running : forall f s p o, gives_triples f -> forall a b x g, wf g -> keys g x -> shape s p o x -> fst (rank x) <= a -> (fst (rank x) = a -> snd (rank x) <= b) ->
  exists n g' r, feed_loop f n g x = (g', r) /\ r <> Err OutOfFuel.
Proof.
  intros f s p o F. induction a as [a IHa] using (well_founded_induction lt_wf). induction b as [b IHb] using (well_founded_induction lt_wf).
  intros x g W K S A B. destruct (next_ok s p o g x W K S) as [E|[E|(t & x' & E & K' & S')]].
  - exists 1%nat, g, (Err RuntimeError). cbn [feed_loop]. rewrite E. split; [reflexivity|discriminate].
  - exists 1%nat, g, (Ok tt). cbn [feed_loop]. rewrite E. split; [reflexivity|discriminate].
  - destruct (addAll_keeps (fun h => keys h x') (fun h u _ _ H => keys_add h u x' H) (f t) g W (F t) K') as [W1 K1].
    assert (X : exists n g' r, feed_loop f n (g_addAll g (f t)) x' = (g', r) /\ r <> Err OutOfFuel).
    { pose proof (next_rank g x g t x' E (shape_running _ _ _ _ S)) as R. destruct (Nat.eq_dec (fst (rank x')) a) as [Q|Q].
      - assert (fst (rank x) = a) by lia. specialize (B H). apply (IHb (snd (rank x'))); try assumption; lia.
      - destruct (Nat.eq_dec (fst (rank x)) a) as [Q2|Q2].
        + apply (IHa (fst (rank x')) ltac:(lia) (snd (rank x'))); auto.
        + apply (IHa (fst (rank x')) ltac:(lia) (snd (rank x'))); auto. }
    destruct X as (n & g' & r & X & N). exists (Datatypes.S n), g', r. cbn [feed_loop]. rewrite E. auto.
Qed.
Lemma feed_ends : forall f g s p o, wf g -> gives_triples f -> exists g' r, feeds f g s p o g' r.
Proof.
  intros f g s p o W F. destruct (begin_cases s p o g W) as (r & E & [(_ & ->)|(t & rest & x & _ & -> & _ & K & S & _)]).
  - exists g, (Ok tt), 1%nat. cbn [feed_loop]. rewrite E. split; [reflexivity|discriminate].
  - destruct (addAll_keeps (fun h => keys h x) (fun h u _ _ H => keys_add h u x H) (f t) g W (F t) K) as [W1 K1].
    destruct (feed_running f s p o F (fst (rank x)) (snd (rank x)) x (g_addAll g (f t)) W1 K1 S) as (n & g' & r & X & N); auto.
    exists g', r, (Datatypes.S n). cbn [feed_loop]. rewrite E. auto.
Qed.

(** *** What it does *)
Section Feed.
  Variables (f : stmt -> list stmt) (s p o : oterm) (G : graph).
  Hypothesis F : gives_triples f.
  Hypothesis WG : wf G.
  Let flat := ~ one_bound s p o /\ ~ (bound s /\ bound p /\ bound o).
  Let n0 := length (g_match G s p o).
  Let calm_y := harmless f s p o (g_triples G).
  (** every triple given was there at the start or drawn from one given before *)
  Definition traced (ys : list stmt) : Prop := forall a y b, ys = a ++ y :: b -> In y (g_triples G) \/ derived f a y.
  (** between two calls of next() *)
  Definition feed_inv (g : graph) (x : gen) (ys : list stmt) : Prop :=
    wf g /\ grow_inv s p o (g_triples G) g x (map (fun t => Ok (Some t)) ys) /\
    (forall t, In t (g_triples g) <-> In t (g_triples G) \/ derived f ys t) /\
    (flat -> match x with GVals _ _ _ u _ | GSet u _ => u = n0 | _ => False end) /\
    (flat -> Forall calm_y ys \/ exists ys' y, ys = ys' ++ [y] /\ Forall calm_y ys' /\ ~ calm_y y) /\
    traced ys.
  Lemma yields_map : forall ys, yields (map (fun t => Ok (Some t)) ys) = ys.
  Proof. induction ys as [|y ys IH]; cbn; [reflexivity|now rewrite IH]. Qed.
  Lemma no_err : forall ys e, ~ In (Err e) (map (fun t : stmt => Ok (Some t)) ys).
  Proof. intros ys e J. apply in_map_iff in J. destruct J as (? & J & _). discriminate J. Qed.
  Lemma calm_dec : forall y, calm_y y \/ ~ calm_y y.
  Proof.
    intro y. unfold calm_y, harmless. induction (f y) as [|u us IH]; [left; intros t []|]. destruct IH as [IH|IH].
    - destruct (classic_hits s p o u) as [H|H].
      + destruct (in_dec stmt_eq_dec u (g_triples G)) as [J|J].
        * left. intros t [<-|K] L; auto.
        * right. intro A. apply J, A; [now left|exact H].
      + left. intros t [<-|K] L; [contradiction|auto].
    - right. intro A. apply IH. intros t K L. apply A; [now right|exact L].
  Qed.
  Lemma derived_snoc : forall ys y t, derived f (ys ++ [y]) t <-> derived f ys t \/ In t (f y).
  Proof.
    intros ys y t. unfold derived. split.
    - intros (z & A & B). apply in_app_iff in A. destruct A as [A|[->|[]]]; eauto.
    - intros [(z & A & B)|B]; [exists z; split; [apply in_app_iff; now left|exact B]|exists y; split; [apply in_app_iff; right; now left|exact B]].
  Qed.
  (** adding what the rule draws from [y] *)
  Lemma feed_adds : forall g x ys y, wf g -> grow_inv s p o (g_triples G) g x (map (fun t => Ok (Some t)) (ys ++ [y])) ->
    (forall t, In t (g_triples g) <-> In t (g_triples G) \/ derived f ys t) ->
    wf (g_addAll g (f y)) /\ grow_inv s p o (g_triples G) (g_addAll g (f y)) x (map (fun t => Ok (Some t)) (ys ++ [y])) /\
    (forall t, In t (g_triples (g_addAll g (f y))) <-> In t (g_triples G) \/ derived f (ys ++ [y]) t).
  Proof.
    intros g x ys y W I C. destruct (addAll_keeps (fun h => grow_inv s p o (g_triples G) h x (map (fun t => Ok (Some t)) (ys ++ [y])))
      (fun h u Wh Tu H => grow_add s p o (g_triples G) h x _ u Wh Tu Logic.I H) (f y) g W (F y) I) as [W1 I1].
    split; [exact W1|]. split; [exact I1|]. intro t. rewrite g_addAll_In, derived_snoc, C. tauto.
  Qed.
  Lemma feed_start : forall t x, gen_next G (GStart s p o) = (G, Ok (Some (t, x))) -> feed_inv (g_addAll G (f t)) x [t].
  Proof.
    intros t x E. pose proof (grow_init s p o G _ WG E) as I. cbn [succ_gen out1 bind option_map fst] in I.
    destruct (feed_adds G x [] t WG I) as (W1 & I1 & C1); [intro u; unfold derived; split; [auto|intros [H|(z & [] & _)]; exact H]|].
    split; [exact W1|]. split; [exact I1|]. split; [exact C1|]. split.
    - intros [F1 F2]. pose proof (start_kind s p o G t x WG F1 E) as SK.
      destruct (begin_cases s p o G WG) as (r' & E' & [(_ & ->)|(t' & rest & x' & _ & -> & _ & _ & S & [Z _])]); rewrite E in E'; [discriminate E'|].
      injection E' as <- <-. destruct x as [| |w a b v rem|w a ou orem b v rem|v rem]; try contradiction.
      + symmetry. apply (size_count s p o G _ v WG S eq_refl). exact Z.
      + symmetry. apply (size_count s p o G _ v WG S eq_refl). exact Z.
    - split.
      + intros _. destruct (calm_dec t) as [H|H]; [left; auto|right]. exists [], t. auto.
      + intros a y b H. destruct a as [|? [|]]; [|discriminate H|discriminate H]. injection H as <- <-. left. destruct I as (_ & _ & _ & _ & M & _). apply M. now left; left.
  Qed.
  (** a further call of next() *)
  Lemma feed_step : forall g x ys, feed_inv g x ys ->
    (gen_next g x = (g, Err RuntimeError) /\ exists t, hits s p o t /\ In t (g_triples g) /\ ~ In t (g_triples G)) \/
    (gen_next g x = (g, Ok None) /\ (forall t, hits s p o t -> In t (g_triples G) -> In t ys) /\ (flat -> Forall calm_y ys)) \/
    exists t x', gen_next g x = (g, Ok (Some (t, x'))) /\ feed_inv (g_addAll g (f t)) x' (ys ++ [t]).
  Proof.
    intros g x ys (W & I & C & KD & NT & TR). pose proof (grow_next s p o (g_triples G) g x _ W I) as (r & E & I').
    pose proof I as (K & S & _).
    assert (FC : flat -> size1 g x -> Forall calm_y ys).
    { intros FL Z. destruct (NT FL) as [H|(ys' & y & -> & _ & NC)]; [exact H|]. exfalso. apply NC. intros t T1 T2.
      apply (size_count s p o g x n0 W S (KD FL)) in Z. unfold n0 in Z.
      pose proof (proj1 (g_match_lists _ s p o WG)) as ND.
      assert (IN : incl (g_match G s p o) (g_match g s p o)).
      { intros u U. apply (match_hits s p o _ u WG) in U. apply (match_hits s p o _ u W). destruct U as [U1 U2]. split; [apply C; now left|exact U2]. }
      assert (J : In t (g_match G s p o)).
      { apply (NoDup_length_incl (l':=g_match g s p o) ND); [lia|exact IN|]. apply (match_hits s p o _ t W). split; [|exact T2]. apply C. right. apply derived_snoc. now right. }
      exact (proj1 (proj1 (match_hits s p o _ t WG) J)). }
    destruct r as [[[t x']|]|e]; cbn [succ_gen out1 bind option_map fst] in I'.
    - right. right. exists t, x'. split; [exact E|]. change [Ok (Some t)] with (map (fun t : stmt => Ok (Some t)) [t]) in I'. rewrite <- map_app in I'.
      destruct (feed_adds g x' ys t W I' C) as (W1 & I1 & C1). split; [exact W1|]. split; [exact I1|]. split; [exact C1|].
      destruct (next_any s p o g x W K S) as [[E2 _]|[Z A]]; [rewrite E in E2; discriminate E2|].
      split.
      + intro FL. specialize (KD FL). destruct (gen_rest g x) as [|y rest]; cbn [advances] in A; [rewrite E in A; discriminate A|].
        destruct A as (x2 & E2 & _ & _ & _ & _ & SM). rewrite E in E2. injection E2 as <- <-.
        destruct x as [| |w a b v rem|w a ou orem b v rem|v rem], x' as [| |w' a' b' v' rem'|w' a' ou' orem' b' v' rem'|v' rem']; cbn [same] in SM; try contradiction; congruence.
      + split; [intro FL; specialize (FC FL Z); destruct (calm_dec t) as [H|H]; [left; apply Forall_app; auto|right; eauto]|].
        assert (IT : In t (g_triples g)).
        { destruct I' as (_ & _ & _ & _ & M & _). rewrite yields_map in M. apply M. left. apply in_app_iff. right. now left. }
        intros a y b H. destruct b as [|z b] using rev_ind.
        * apply app_inj_tail in H. destruct H as [<- <-]. now apply C.
        * clear IHb. rewrite app_comm_cons, app_assoc in H. apply app_inj_tail in H. destruct H as [H _]. exact (TR a y b H).
    - right. left. split; [exact E|]. destruct I' as (_ & _ & _ & _ & _ & _ & CC & _). rewrite yields_app, yields_map in CC. cbn [yields gen_rest] in CC. rewrite app_nil_r in CC.
      split.
      + destruct CC as [CC|(e & J)].
        * intros t T1 T2. destruct (CC t T1 T2) as [J|[]]. exact J.
        * apply in_app_iff in J. destruct J as [J|[J|[]]]; [now apply no_err in J|discriminate J].
      + intro FL. apply (FC FL). destruct (next_any s p o g x W K S) as [[E2 _]|[Z A]]; [rewrite E in E2; discriminate E2|exact Z].
    - left. destruct I' as (_ & _ & _ & _ & _ & _ & _ & _ & EE & _). destruct (EE e) as [-> X]; [apply in_app_iff; right; now left|]. auto.
  Qed.
  (** the calls of next() gave the triples [ys] *)
  Definition feed_out (g' : graph) (r : res unit) (ys : list stmt) : Prop :=
    NoDup ys /\ (forall y, In y ys -> hits s p o y /\ In y (g_triples g')) /\
    (forall t, In t (g_triples g') <-> In t (g_triples G) \/ derived f ys t) /\
    (flat -> Forall calm_y ys \/ exists ys' y, ys = ys' ++ [y] /\ Forall calm_y ys' /\ ~ calm_y y) /\ traced ys /\
    (r = Ok tt /\ (forall t, hits s p o t -> In t (g_triples G) -> In t ys) /\ (flat -> Forall calm_y ys) \/
     r = Err RuntimeError /\ exists t, hits s p o t /\ In t (g_triples g') /\ ~ In t (g_triples G)).
  Lemma feed_run : forall n g x ys g' r, feed_inv g x ys -> feed_loop f n g x = (g', r) -> r <> Err OutOfFuel -> exists ys', feed_out g' r ys'.
  Proof.
    induction n as [|n IH]; intros g x ys g' r H E N; [injection E as _ <-; contradiction|]. cbn [feed_loop] in E.
    pose proof H as (W & I & C & _ & NT & TR). destruct I as (_ & _ & ND & _ & M & _). rewrite yields_map in ND, M.
    assert (M' : forall y, In y ys -> hits s p o y /\ In y (g_triples g)) by (intros y Y; destruct (M y (or_introl Y)); auto).
    destruct (feed_step g x ys H) as [(E2 & X)|[(E2 & X)|(t & x' & E2 & H')]]; rewrite E2 in E.
    - injection E as <- <-. exists ys. split; [exact ND|]. split; [exact M'|]. split; [exact C|]. split; [exact NT|]. split; [exact TR|]. right. auto.
    - injection E as <- <-. exists ys. split; [exact ND|]. split; [exact M'|]. split; [exact C|]. split; [exact NT|]. split; [exact TR|]. left. auto.
    - exact (IH _ _ _ _ _ H' E N).
  Qed.
  Lemma feed_main : forall g' r, feeds f G s p o g' r -> exists ys, feed_out g' r ys.
  Proof.
    intros g' r (n & E & N). destruct n as [|n]; [injection E as _ <-; contradiction|]. cbn [feed_loop] in E.
    destruct (begin_cases s p o G WG) as (r' & E' & [(M & ->)|(t' & rest & x' & M & -> & _)]).
    - rewrite E' in E. injection E as <- <-. exists []. split; [constructor|]. split; [intros y []|]. split; [intro t; unfold derived; split; [auto|intros [H|(z & [] & _)]; exact H]|].
      split; [intros _; left; constructor|]. split; [intros [|? ?] y b H; discriminate H|]. left. split; [reflexivity|]. split; [|intros _; constructor]. intros t T1 T2. pose proof (proj2 (match_hits s p o G t WG) (conj T2 T1)) as J. now rewrite M in J.
    - rewrite E' in E. exact (feed_run n _ _ _ _ _ (feed_start t' x' E') E N).
  Qed.
  Lemma traced_in : forall ys, traced ys -> (forall y, In y ys -> hits s p o y) -> forall a b, ys = a ++ b -> Forall calm_y a -> (forall y, In y a -> In y (g_triples G)) /\ (forall y c, b = y :: c -> In y (g_triples G)).
  Proof.
    intros ys T H a. induction a as [|z a IH] using rev_ind; intros b E A.
    - split; [intros y []|]. intros y c ->. destruct (T [] y c E) as [J|(u & [] & _)]. exact J.
    - apply Forall_app in A. destruct A as [A Az]. inversion Az as [|? ? Cz _]; subst. rewrite <- app_assoc in *. destruct (IH (z :: b) eq_refl A) as [I1 I2].
      assert (I3 : forall y, In y (a ++ [z]) -> In y (g_triples G)).
      { intros y J. apply in_app_iff in J. destruct J as [J|[<-|[]]]; [now apply I1|exact (I2 z b eq_refl)]. }
      split; [exact I3|]. intros y c ->. destruct (T (a ++ [z]) y c) as [J|(u & U1 & U2)]; [now rewrite <- app_assoc|exact J|].
      assert (Cu : calm_y u). { apply in_app_iff in U1. destruct U1 as [U1|[<-|[]]]; [|exact Cz]. rewrite Forall_forall in A. now apply A. }
      apply (Cu y U2), H. apply in_app_iff. right. now right; left.
  Qed.
  Lemma feed_harmless : forall g' r, feeds f G s p o g' r -> (forall y, hits s p o y -> In y (g_triples G) -> calm_y y) ->
    r = Ok tt /\ (forall t, In t (g_triples g') <-> In t (g_triples G) \/ exists y, In y (g_triples G) /\ hits s p o y /\ In t (f y)).
  Proof.
    intros g' r H A. destruct (feed_main g' r H) as (ys & ND & M & C & NT & TR & D).
    assert (Y : (forall y, In y ys -> In y (g_triples G)) /\ Forall calm_y ys).
    { assert (P : forall a b, ys = a ++ b -> Forall calm_y a).
      { induction a as [|z a IH] using rev_ind; intros b E; [constructor|]. rewrite <- app_assoc in E. cbn in E. specialize (IH _ E). apply Forall_app. split; [exact IH|].
        constructor; [|constructor]. apply A; [apply M; rewrite E; apply in_app_iff; right; now left|].
        exact (proj2 (traced_in ys TR (fun y J => proj1 (M y J)) a (z :: b) E IH) z b eq_refl). }
      pose proof (P ys [] ltac:(now rewrite app_nil_r)) as PC. split; [|exact PC].
      exact (proj1 (traced_in ys TR (fun y J => proj1 (M y J)) ys [] ltac:(now rewrite app_nil_r) PC)). }
    destruct Y as [Y YC]. assert (R : r = Ok tt /\ forall t, hits s p o t -> In t (g_triples G) -> In t ys).
    { destruct D as [(-> & D & _)|(_ & t & T1 & T2 & T3)]; [auto|]. exfalso. apply C in T2. destruct T2 as [T2|(z & Z1 & Z2)]; [contradiction|].
      rewrite Forall_forall in YC. exact (T3 (YC z Z1 t Z2 T1)). }
    destruct R as [-> R]. split; [reflexivity|]. intro t. rewrite C. unfold derived. split.
    - intros [J|(z & Z1 & Z2)]; [now left|right]. exists z. split; [now apply Y|]. split; [exact (proj1 (M z Z1))|exact Z2].
    - intros [J|(z & Z1 & Z2 & Z3)]; [now left|right]. exists z. split; [now apply R|exact Z3].
  Qed.
  Lemma feed_noticed : flat -> forall g' r, feeds f G s p o g' r -> (exists y, hits s p o y /\ In y (g_triples G) /\ ~ calm_y y) ->
    r = Err RuntimeError /\ exists ys y, NoDup (ys ++ [y]) /\ (forall z, In z (ys ++ [y]) -> hits s p o z /\ In z (g_triples G)) /\
      Forall calm_y ys /\ ~ calm_y y /\ forall t, In t (g_triples g') <-> In t (g_triples G) \/ derived f (ys ++ [y]) t.
  Proof.
    intros FL g' r H (z & Z1 & Z2 & Z3). destruct (feed_main g' r H) as (ys & ND & M & C & NT & TR & D).
    destruct D as [(_ & D & DC)|(-> & t & T1 & T2 & T3)].
    - exfalso. apply Z3. specialize (DC FL). rewrite Forall_forall in DC. auto.
    - split; [reflexivity|]. destruct (NT FL) as [A|(ys' & y & -> & A & NC)].
      + exfalso. apply C in T2. destruct T2 as [T2|(u & U1 & U2)]; [contradiction|]. rewrite Forall_forall in A. exact (T3 (A u U1 t U2 T1)).
      + exists ys', y. split; [exact ND|]. split; [|auto]. intros u U. split; [exact (proj1 (M u U))|].
        destruct (traced_in (ys' ++ [y]) TR (fun y J => proj1 (M y J)) ys' [y] eq_refl A) as [I1 I2].
        apply in_app_iff in U. destruct U as [U|[<-|[]]]; [now apply I1|exact (I2 y [] eq_refl)].
  Qed.
  Lemma feed_three : bound s -> bound p -> bound o -> forall g' r, feeds f G s p o g' r -> r = Ok tt.
  Proof.
    intros B1 B2 B3 g' r (n & E & N). rewrite <- !oterm_truthy_true in *.
    assert (X : exists y, gen_next G (GStart s p o) = (G, Ok y) /\ forall t x, y = Some (t, x) -> x = GDone).
    { destruct s as [s'|]; [|discriminate B1]. destruct p as [p'|]; [|discriminate B2]. destruct o as [o'|]; [|discriminate B3]. cbn [gen_next]. rewrite B1, B2, B3.
      eexists. split; [reflexivity|]. intros t x H. destruct (g_contains G (Tr s' p' o')); [|discriminate H]. now injection H as _ <-. }
    destruct X as (y & X & Y). destruct n as [|n]; [injection E as _ <-; contradiction|]. cbn [feed_loop] in E. rewrite X in E. destruct y as [[t x]|]; [|now injection E as _ <-].
    rewrite (Y t x eq_refl) in E. destruct n as [|n]; [injection E as _ <-; contradiction|]. cbn [feed_loop gen_next] in E. now injection E as _ <-.
  Qed.
End Feed.
