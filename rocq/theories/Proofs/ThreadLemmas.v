(** Scope of blank node labels over schedules. *)
From Verif Require Import Model.Py Model.Terms Model.Codec Model.NTriples Model.Threads Spec.ThreadSpec Proofs.DictLemmas.
Open Scope N_scope.

Notation lget := (dget Nat.eq_dec).
Notation sget := (dget str_eq_dec).

(** label [l] of thread [th] is bound to [a] *)
Definition bound_to (st : tstate) (th : nat) (l : str) (a : N) : Prop :=
  exists d, lget (ts_local st) th = Some d /\ sget d l = Some a.

Record tinv (st : tstate) : Prop := {
  ti_keys : NoDup (dkeys (ts_local st));
  ti_below : forall th l a, bound_to st th l a -> a < ts_next st
}.

Lemma make_bnode_cases : forall b l,
  (exists a, sget (bs_map b) l = Some a /\ make_bnode b l = (b, BNode a)) \/
  (sget (bs_map b) l = None /\
   make_bnode b l = (mkB (bs_next b + 1) (dset str_eq_dec (bs_map b) l (bs_next b)), BNode (bs_next b))).
Proof. intros b l. unfold make_bnode. destruct (sget (bs_map b) l) as [a|] eqn:E; [left|right]; eauto. Qed.

(** one step: what stays bound and what becomes bound *)
Lemma mention_step : forall st th l d, lget (ts_local st) th = Some d ->
  exists st' a, t_step st (PMention th l) = (st', Ok (Some a)) /\
    ((sget d l = Some a /\ st' = mkT (ts_next st) (ts_local st)) \/
     (sget d l = None /\ a = ts_next st /\
      st' = mkT (ts_next st + 1) (dset Nat.eq_dec (ts_local st) th (dset str_eq_dec d l a)))).
Proof.
  intros st th l d H. cbn [t_step]. rewrite H.
  destruct (make_bnode_cases (mkB (ts_next st) d) l) as [(a & E & ->)|(E & ->)]; cbn [bs_next bs_map] in *.
  - eexists _, a. split; [reflexivity|]. left. split; [assumption|]. now rewrite dset_same.
  - eexists _, _. split; [reflexivity|]. right. auto.
Qed.
Lemma mkT_eta : forall st, mkT (ts_next st) (ts_local st) = st.
Proof. destruct st; reflexivity. Qed.

Lemma step_inv : forall st e, tinv st -> tinv (fst (t_step st e)) /\ ts_next st <= ts_next (fst (t_step st e)).
Proof.
  intros st e [K B]. destruct e as [th|th l|th].
  - cbn [t_step fst ts_next ts_local]. split; [|lia]. split; cbn [ts_local ts_next]; [now apply NoDup_dset|].
    intros th' l a (d & H1 & H2). cbn [ts_local] in H1. rewrite dget_dset in H1.
    destruct (Nat.eq_dec th th'); [inversion H1; subst; discriminate|]. apply (B th' l). now exists d.
  - destruct (lget (ts_local st) th) as [d|] eqn:E.
    + destruct (mention_step st th l d E) as (st' & a & -> & [[H ->]|(H & -> & ->)]); cbn [fst].
      * rewrite mkT_eta. split; [split; assumption|lia].
      * cbn [ts_next]. split; [|lia]. split; cbn [ts_local ts_next]; [now apply NoDup_dset|].
        intros th' l' x (d' & H1 & H2). cbn [ts_local] in H1. rewrite dget_dset in H1.
        destruct (Nat.eq_dec th th') as [<-|n].
        -- inversion H1; subst d'. rewrite dget_dset in H2. destruct (str_eq_dec l l') as [<-|n].
           ++ inversion H2. lia.
           ++ assert (x < ts_next st) by (apply (B th l'); now exists d). lia.
        -- assert (x < ts_next st) by (apply (B th' l'); now exists d'). lia.
    + cbn [t_step]. rewrite E. cbn [fst]. split; [split; assumption|lia].
  - cbn [t_step]. destruct (lget (ts_local st) th) as [d|] eqn:E; cbn [fst ts_next]; [|split; [split; assumption|lia]].
    split; [|lia]. split; cbn [ts_local ts_next]; [now apply NoDup_ddel|].
    intros th' l a (d' & H1 & H2). cbn [ts_local] in H1. destruct (Nat.eq_dec th th') as [<-|n].
    + rewrite dget_ddel_eq in H1 by assumption. discriminate.
    + rewrite dget_ddel_neq in H1 by assumption. apply (B th' l). now exists d'.
Qed.

Definition nowhere (st : tstate) (a : N) : Prop := a < ts_next st /\ forall th l, ~ bound_to st th l a.
Definition only_at (st : tstate) (th : nat) (l : str) (a : N) : Prop :=
  a < ts_next st /\ bound_to st th l a /\ forall th' l', bound_to st th' l' a -> th' = th /\ l' = l.

(** what a step binds *)
Lemma step_bound : forall st e th l a, tinv st -> bound_to (fst (t_step st e)) th l a ->
  (bound_to st th l a /\ ~ touches th e) \/ (a = ts_next st /\ e = PMention th l).
Proof.
  intros st e th l a [K B] (d & H1 & H2). destruct e as [th0|th0 l0|th0].
  - cbn [t_step fst ts_local] in H1. rewrite dget_dset in H1. destruct (Nat.eq_dec th0 th) as [<-|n].
    + inversion H1; subst; discriminate.
    + left. split; [now exists d|]. intros [X|X]; congruence.
  - destruct (lget (ts_local st) th0) as [d0|] eqn:E.
    + destruct (mention_step st th0 l0 d0 E) as (st' & x & Es & [[H ->]|(H & -> & ->)]); rewrite Es in H1; cbn [fst ts_local] in H1.
      * left. split; [now exists d|]. intros [X|X]; discriminate.
      * rewrite dget_dset in H1. destruct (Nat.eq_dec th0 th) as [<-|n].
        -- inversion H1; subst d. rewrite dget_dset in H2. destruct (str_eq_dec l0 l) as [<-|n].
           ++ right. inversion H2. auto.
           ++ left. split; [now exists d0|]. intros [X|X]; discriminate.
        -- left. split; [now exists d|]. intros [X|X]; discriminate.
    + cbn [t_step] in H1. rewrite E in H1. left. split; [now exists d|]. intros [X|X]; discriminate.
  - cbn [t_step] in H1. destruct (lget (ts_local st) th0) as [d0|] eqn:E; cbn [fst ts_local] in H1.
    + destruct (Nat.eq_dec th0 th) as [<-|n].
      * rewrite dget_ddel_eq in H1 by assumption. discriminate.
      * rewrite dget_ddel_neq in H1 by assumption. left. split; [now exists d|]. intros [X|X]; congruence.
    + left. split; [now exists d|]. intros [X|X]; [congruence|]. inversion X; subst. congruence.
Qed.
Lemma step_keeps : forall st e th l a, tinv st -> bound_to st th l a -> ~ touches th e ->
  bound_to (fst (t_step st e)) th l a.
Proof.
  intros st e th l a [K B] (d & H1 & H2) Ht. destruct e as [th0|th0 l0|th0].
  - exists d. split; [|assumption]. cbn [t_step fst ts_local]. rewrite dget_dset_neq; [assumption|].
    intros ->. apply Ht. now left.
  - destruct (lget (ts_local st) th0) as [d0|] eqn:E.
    + destruct (mention_step st th0 l0 d0 E) as (st' & x & -> & [[H ->]|(H & -> & ->)]); cbn [fst].
      * now exists d.
      * unfold bound_to. cbn [ts_local]. destruct (Nat.eq_dec th0 th) as [<-|n].
        -- rewrite E in H1. inversion H1; subst d0. rewrite dget_dset_eq. eexists. split; [reflexivity|].
           rewrite dget_dset_neq; [assumption|]. intros ->. congruence.
        -- rewrite dget_dset_neq by assumption. eauto.
    + cbn [t_step]. rewrite E. now exists d.
  - cbn [t_step]. assert (th0 <> th) by (intros ->; apply Ht; now right).
    destruct (lget (ts_local st) th0); cbn [fst]; [|now exists d]. exists d. cbn [ts_local].
    rewrite dget_ddel_neq by assumption. auto.
Qed.

Lemma step_nowhere : forall st e a, tinv st -> nowhere st a -> nowhere (fst (t_step st e)) a.
Proof.
  intros st e a I [L N]. destruct (step_inv st e I) as [_ Hle]. split; [lia|]. intros th l H.
  apply step_bound in H; [|assumption]. destruct H as [[H _]|[-> _]]; [exact (N th l H)|lia].
Qed.
Lemma step_only : forall st e th l a, tinv st -> only_at st th l a ->
  (~ touches th e -> only_at (fst (t_step st e)) th l a) /\
  (touches th e -> nowhere (fst (t_step st e)) a).
Proof.
  intros st e th l a I (L & Hb & U). destruct (step_inv st e I) as [_ Hle]. split; intro Ht.
  - split; [lia|]. split; [now apply step_keeps|]. intros th' l' H. apply step_bound in H; [|assumption].
    destruct H as [[H _]|[-> _]]; [now apply U|lia].
  - split; [lia|]. intros th' l' H. apply step_bound in H; [|assumption].
    destruct H as [[H Hn]|[-> _]]; [|lia]. destruct (U _ _ H) as [-> _]. contradiction.
Qed.

(** after a mention its node is bound there and nowhere else, provided nodes are unshared before *)
Definition unshared (st : tstate) : Prop :=
  forall th l th' l' a, bound_to st th l a -> bound_to st th' l' a -> th = th' /\ l = l'.
Lemma step_unshared : forall st e, tinv st -> unshared st -> unshared (fst (t_step st e)).
Proof.
  intros st e I U th l th' l' a H H'. destruct I as [K B]. assert (I : tinv st) by (split; assumption).
  apply step_bound in H; [|assumption]. apply step_bound in H'; [|assumption].
  destruct H as [[H _]|[-> E]]; destruct H' as [[H' _]|[X E']].
  - exact (U _ _ _ _ _ H H').
  - subst a. apply B in H. lia.
  - apply B in H'. lia.
  - rewrite E in E'. inversion E'. auto.
Qed.
Lemma mention_binds : forall st th l st' a, t_step st (PMention th l) = (st', Ok (Some a)) -> bound_to st' th l a.
Proof.
  intros st th l st' a H. destruct (lget (ts_local st) th) as [d|] eqn:E.
  - destruct (mention_step st th l d E) as (st2 & x & E2 & [[H2 ->]|(H2 & -> & ->)]); rewrite E2 in H; inversion H; subst.
    + exists d. auto.
    + eexists. cbn [ts_local]. rewrite dget_dset_eq. split; [reflexivity|]. now rewrite dget_dset_eq.
  - cbn [t_step] in H. rewrite E in H. discriminate.
Qed.
Lemma mention_value : forall st th l st' b a, t_step st (PMention th l) = (st', Ok (Some b)) -> a < ts_next st ->
  (a = b <-> bound_to st th l a).
Proof.
  intros st th l st' b a H L. destruct (lget (ts_local st) th) as [d|] eqn:E.
  - destruct (mention_step st th l d E) as (st2 & x & E2 & [[H2 ->]|(H2 & -> & ->)]); rewrite E2 in H; inversion H; subst.
    + split; [intros <-; exists d; auto|]. intros (d' & D & S). congruence.
    + split; [lia|]. intros (d' & D & S). congruence.
  - cbn [t_step] in H. rewrite E in H. discriminate.
Qed.

(** ** Runs *)
Lemma t_run_nth : forall es st j e x, nth_error es j = Some e -> nth_error (snd (t_run st es)) j = Some x ->
  x = snd (t_step (fst (t_run st (firstn j es))) e).
Proof.
  induction es as [|e0 es IH]; intros st j e x He Hx; [destruct j; discriminate|].
  cbn [t_run] in Hx. destruct (t_step st e0) as [st1 x0] eqn:S. destruct (t_run st1 es) as [st2 xs] eqn:R. cbn [snd] in Hx.
  destruct j as [|j]; cbn [nth_error] in *.
  - inversion He; inversion Hx; subst. cbn [firstn t_run fst]. now rewrite S.
  - cbn [firstn t_run]. rewrite S. replace xs with (snd (t_run st1 es)) in Hx by (now rewrite R).
    rewrite (IH st1 j e x He Hx). destruct (t_run st1 (firstn j es)). reflexivity.
Qed.
Lemma t_run_app : forall a b st, fst (t_run st (a ++ b)) = fst (t_run (fst (t_run st a)) b).
Proof.
  induction a as [|e a IH]; intros b st; [reflexivity|]. cbn [app t_run]. destruct (t_step st e) as [st1 x].
  specialize (IH b st1). destruct (t_run st1 (a ++ b)), (t_run st1 a). exact IH.
Qed.
Lemma t_run_one : forall st e, fst (t_run st [e]) = fst (t_step st e).
Proof. intros st e. cbn [t_run]. destruct (t_step st e). reflexivity. Qed.

Lemma run_inv : forall es st, tinv st -> unshared st -> tinv (fst (t_run st es)) /\ unshared (fst (t_run st es)).
Proof.
  induction es as [|e es IH]; intros st I U; [auto|]. cbn [t_run]. destruct (t_step st e) as [st1 x] eqn:S.
  assert (I1 : tinv st1) by (replace st1 with (fst (t_step st e)) by (now rewrite S); now apply step_inv).
  assert (U1 : unshared st1) by (replace st1 with (fst (t_step st e)) by (now rewrite S); now apply step_unshared).
  destruct (IH st1 I1 U1). destruct (t_run st1 es). auto.
Qed.
Lemma init_inv : forall n, tinv (t_init n) /\ unshared (t_init n).
Proof.
  intro n. split; [split; cbn|].
  - constructor.
  - intros th l a (d & H & _). discriminate.
  - intros th l th' l' a (d & H & _). discriminate.
Qed.

Lemma run_nowhere : forall es st a, tinv st -> nowhere st a -> nowhere (fst (t_run st es)) a.
Proof.
  induction es as [|e es IH]; intros st a I N; [assumption|]. cbn [t_run]. destruct (t_step st e) as [st1 x] eqn:S.
  assert (I1 : tinv st1) by (replace st1 with (fst (t_step st e)) by (now rewrite S); now apply step_inv).
  assert (N1 : nowhere st1 a) by (replace st1 with (fst (t_step st e)) by (now rewrite S); now apply step_nowhere).
  specialize (IH st1 a I1 N1). destruct (t_run st1 es). exact IH.
Qed.
Lemma touches_dec : forall th e, touches th e \/ ~ touches th e.
Proof.
  intros th [x|x l|x]; unfold touches.
  - destruct (Nat.eq_dec x th) as [->|n]; [left; now left|]. right. intros [H|H]; congruence.
  - right. intros [H|H]; congruence.
  - destruct (Nat.eq_dec x th) as [->|n]; [left; now right|]. right. intros [H|H]; congruence.
Qed.
Lemma run_only : forall es st th l a, tinv st -> only_at st th l a ->
  (Forall (fun e => ~ touches th e) es -> only_at (fst (t_run st es)) th l a) /\
  (~ Forall (fun e => ~ touches th e) es -> nowhere (fst (t_run st es)) a).
Proof.
  induction es as [|e es IH]; intros st th l a I O; [split; [auto|intro H; destruct H; constructor]|].
  cbn [t_run]. destruct (t_step st e) as [st1 x] eqn:S.
  assert (I1 : tinv st1) by (replace st1 with (fst (t_step st e)) by (now rewrite S); now apply step_inv).
  destruct (step_only st e th l a I O) as [A B]. rewrite S in A, B. cbn [fst] in A, B.
  destruct (touches_dec th e) as [T|T].
  - split; [intro H; inversion H; contradiction|]. intros _. specialize (run_nowhere es st1 a I1 (B T)).
    destruct (t_run st1 es). auto.
  - destruct (IH st1 th l a I1 (A T)) as [C D]. destruct (t_run st1 es) as [st2 xs]. cbn [fst] in *. split; intro H.
    + inversion H; auto.
    + apply D. intro F. apply H. constructor; auto.
Qed.

Lemma nth_split_mid : forall {A} (l : list A) i j x, (i < j)%nat -> nth_error l i = Some x ->
  firstn j l = firstn i l ++ x :: firstn (j - S i) (skipn (S i) l).
Proof.
  induction l as [|y l IH]; intros i j x Hij Hx; [destruct i; discriminate|].
  destruct j as [|j]; [lia|]. destruct i as [|i]; cbn [nth_error] in Hx.
  - inversion Hx; subst. cbn [firstn skipn app]. replace (S j - 1)%nat with j by lia. reflexivity.
  - cbn [firstn skipn app]. f_equal. rewrite (IH i j x) by (first [lia|assumption]). replace (S j - S (S i))%nat with (j - S i)%nat by lia.
    reflexivity.
Qed.
Lemma nth_skipn : forall {A} (l : list A) i k, nth_error (skipn i l) k = nth_error l (i + k).
Proof. induction l as [|y l IH]; intros [|i] k; cbn [skipn nth_error Nat.add]; try (destruct k; reflexivity); try apply IH; reflexivity. Qed.
Lemma nth_firstn : forall {A} (l : list A) n k, (k < n)%nat -> nth_error (firstn n l) k = nth_error l k.
Proof. induction l as [|y l IH]; intros [|n] [|k] H; try lia; try reflexivity. cbn. apply IH. lia. Qed.
Lemma between_Forall : forall (es : list pev) th i j, (i < j)%nat ->
  (Forall (fun e => ~ touches th e) (firstn (j - S i) (skipn (S i) es)) <-> same_call es th i j).
Proof.
  intros es th i j Hij. unfold same_call. rewrite Forall_forall. split.
  - intros H k e Hk Hn. apply H. apply nth_error_In with (k - S i)%nat. rewrite nth_firstn by lia. rewrite nth_skipn.
    replace (S i + (k - S i))%nat with k by lia. assumption.
  - intros H e Hin. apply In_nth_error in Hin. destruct Hin as [k Hk].
    assert (Hl : (k < j - S i)%nat).
    { assert (k < length (firstn (j - S i) (skipn (S i) es)))%nat by (apply nth_error_Some; congruence).
      rewrite firstn_length in H0. lia. }
    rewrite nth_firstn in Hk by assumption. rewrite nth_skipn in Hk. apply (H (S i + k)%nat e); [lia|assumption].
Qed.

(** C29 *)
Lemma label_scope : forall n es i j th l th' l' a b, (i < j)%nat ->
  nth_error es i = Some (PMention th l) -> nth_error es j = Some (PMention th' l') ->
  nth_error (snd (t_run (t_init n) es)) i = Some (Ok (Some a)) ->
  nth_error (snd (t_run (t_init n) es)) j = Some (Ok (Some b)) ->
  (a = b <-> th = th' /\ l = l' /\ same_call es th i j).
Proof.
  intros n es i j th l th' l' a b Hij Ei Ej Ri Rj.
  pose proof (t_run_nth es (t_init n) i _ _ Ei Ri) as Vi. pose proof (t_run_nth es (t_init n) j _ _ Ej Rj) as Vj.
  set (si := fst (t_run (t_init n) (firstn i es))) in *.
  destruct (init_inv n) as [I0 U0]. destruct (run_inv (firstn i es) (t_init n) I0 U0) as [I U]. fold si in I, U.
  destruct (t_step si (PMention th l)) as [s1 x1] eqn:S1. cbn [snd] in Vi. subst x1.
  assert (I1 : tinv s1) by (replace s1 with (fst (t_step si (PMention th l))) by (now rewrite S1); now apply step_inv).
  assert (U1 : unshared s1) by (replace s1 with (fst (t_step si (PMention th l))) by (now rewrite S1); now apply step_unshared).
  pose proof (mention_binds _ _ _ _ _ S1) as Hb.
  assert (O1 : only_at s1 th l a).
  { split; [eapply ti_below; eassumption|]. split; [assumption|]. intros x y H. destruct (U1 _ _ _ _ _ Hb H). auto. }
  set (mid := firstn (j - S i) (skipn (S i) es)) in *.
  assert (Hst : fst (t_run (t_init n) (firstn j es)) = fst (t_run s1 mid)).
  { rewrite (nth_split_mid es i j _ Hij Ei). fold mid. rewrite t_run_app. fold si.
    change (PMention th l :: mid) with ([PMention th l] ++ mid). rewrite t_run_app, t_run_one, S1. reflexivity. }
  rewrite Hst in Vj. set (sj := fst (t_run s1 mid)) in *.
  destruct (t_step sj (PMention th' l')) as [s2 x2] eqn:S2. cbn [snd] in Vj. subst x2.
  destruct (run_only mid s1 th l a I1 O1) as [A B]. fold sj in A, B.
  pose proof (between_Forall es th i j Hij) as BF. fold mid in BF.
  assert (D : Forall (fun e => ~ touches th e) mid \/ ~ Forall (fun e => ~ touches th e) mid).
  { clear. induction mid as [|e m IH]; [left; constructor|]. destruct (touches_dec th e) as [T|T].
    - right. intro H. inversion H. contradiction.
    - destruct IH as [IH|IH]; [left; now constructor|right; intro H; inversion H; contradiction]. }
  destruct D as [F|F].
  - destruct (A F) as (L & Hbj & Uj). rewrite (mention_value _ _ _ _ _ a S2 L). split.
    + intro H. destruct (Uj _ _ H). split; [auto|]. split; [auto|]. now apply BF.
    + intros (-> & -> & _). assumption.
  - destruct (B F) as [L N]. rewrite (mention_value _ _ _ _ _ a S2 L). split.
    + intro H. destruct (N _ _ H).
    + intros (_ & _ & H). exfalso. apply F. now apply BF.
Qed.

(** no exception in schedules of calls that follow one another in each thread *)
Lemma sequential_ok : forall es st active, NoDup (dkeys (ts_local st)) ->
  (forall th, active th = true <-> In th (dkeys (ts_local st))) ->
  sequential active es -> Forall (fun x => exists y, x = Ok y) (snd (t_run st es)).
Proof.
  induction es as [|e es IH]; intros st active K A H; [constructor|]. cbn [t_run].
  destruct e as [th|th l|th]; cbn [sequential] in H; destruct H as [Ha H].
  - cbn [t_step]. specialize (IH (mkT (ts_next st) (dset Nat.eq_dec (ts_local st) th [])) (fun x => if (x =? th)%nat then true else active x) (NoDup_dset Nat.eq_dec _ th [] K)).
    destruct (t_run (mkT (ts_next st) (dset Nat.eq_dec (ts_local st) th [])) es) as [s2 xs]. cbn [snd] in *.
    constructor; [eauto|]. apply IH; [|exact H]. intro x. cbn [ts_local]. rewrite In_dkeys_dset, <- A.
    destruct (Nat.eqb x th) eqn:E; [apply Nat.eqb_eq in E; tauto|]. apply Nat.eqb_neq in E. tauto.
  - apply A in Ha. apply In_key_dget with (eqd := Nat.eq_dec) in Ha. destruct Ha as [d Hd].
    destruct (mention_step st th l d Hd) as (st1 & a & -> & C).
    assert (K1 : NoDup (dkeys (ts_local st1)) /\ dkeys (ts_local st1) = dkeys (ts_local st)).
    { destruct C as [[_ ->]|(_ & _ & ->)]; cbn [ts_local]; [auto|]. split; [now apply NoDup_dset|].
      apply dkeys_dset_in. eapply dget_Some_key; eassumption. }
    destruct K1 as [K1 K2]. specialize (IH st1 active K1).
    destruct (t_run st1 es) as [s2 xs]. cbn [snd] in *. constructor; [eauto|]. apply IH; [|assumption]. now rewrite K2.
  - apply A in Ha. apply In_key_dget with (eqd := Nat.eq_dec) in Ha. destruct Ha as [d Hd].
    cbn [t_step]. rewrite Hd.
    specialize (IH (mkT (ts_next st) (ddel Nat.eq_dec (ts_local st) th)) (fun x => if (x =? th)%nat then false else active x) (NoDup_ddel Nat.eq_dec _ th K)).
    destruct (t_run (mkT (ts_next st) (ddel Nat.eq_dec (ts_local st) th)) es) as [s2 xs]. cbn [snd] in *.
    constructor; [eauto|]. apply IH; [|exact H]. intro x. cbn [ts_local].
    destruct (Nat.eqb x th) eqn:E.
    + apply Nat.eqb_eq in E. subst x. split; [discriminate|]. intro X. apply dget_None_iff with (eqd := Nat.eq_dec) in X; [destruct X|].
      now apply dget_ddel_eq.
    + apply Nat.eqb_neq in E. rewrite A. split; intro X.
      * apply In_key_dget with (eqd := Nat.eq_dec) in X. destruct X as [v X]. apply dget_Some_key with (eqd := Nat.eq_dec) (v := v).
        rewrite dget_ddel_neq; auto.
      * eapply dkeys_ddel_incl; eassumption.
Qed.
Lemma schedule_never_fails : forall n es, sequential (fun _ => false) es ->
  Forall (fun x => exists y, x = Ok y) (snd (t_run (t_init n) es)).
Proof.
  intros n es H. eapply sequential_ok; [| |exact H]; cbn; [constructor|]. intro th. split; [discriminate|tauto].
Qed.

(** re-entrancy: a complete inner call in the same thread destroys the state of the outer one *)
Lemma reentrant_mention : forall n pre th inner l,
  snd (t_step (fst (t_run (t_init n) (pre ++ PStart th :: inner ++ [PEnd th]))) (PMention th l)) = Err AttributeError /\
  snd (t_step (fst (t_run (t_init n) (pre ++ PStart th :: inner ++ [PEnd th]))) (PEnd th)) = Err AttributeError.
Proof.
  intros n pre th inner l. destruct (init_inv n) as [I0 U0].
  set (s := fst (t_run (t_init n) (pre ++ PStart th :: inner))).
  assert (E : fst (t_run (t_init n) (pre ++ PStart th :: inner ++ [PEnd th])) = fst (t_step s (PEnd th))).
  { unfold s. replace (pre ++ PStart th :: inner ++ [PEnd th]) with ((pre ++ PStart th :: inner) ++ [PEnd th])
      by (rewrite <- app_assoc; reflexivity). rewrite t_run_app, t_run_one. reflexivity. }
  rewrite E. destruct (run_inv (pre ++ PStart th :: inner) (t_init n) I0 U0) as [[K _] _]. fold s in K.
  assert (G : lget (ts_local (fst (t_step s (PEnd th)))) th = None).
  { cbn [t_step]. destruct (lget (ts_local s) th) eqn:X; cbn [fst ts_local]; [now apply dget_ddel_eq|assumption]. }
  split; cbn [t_step]; cbn [t_step] in G; rewrite G; reflexivity.
Qed.
