(** The two passes of the Turtle transformer against the meaning of documents. *)
From Coq Require Import Permutation.
From Verif Require Import Model.Py Model.Terms Model.Graph Model.Codec Model.NTriples Model.Curie Model.TurtleTree
  Model.Turtle Spec.CodecSpec Spec.CurieSpec Spec.TurtleSpec Proofs.DictLemmas Proofs.CodecLemmas Proofs.CurieLemmas Proofs.TurtleLemmas.
Open Scope N_scope.

(** what the first pass produces for a tree, in an environment, with the labels
    given by [L] and the nodes [A] made for ANON *)
Section Ev.
  Variables (R : str -> str -> str -> Prop) (e : tenv) (L : str -> N).
  Fixpoint ev (o : tobj) (v : tval) (A : list N) : Prop :=
    match o, v with
    | TIri i, VTerm t => A = [] /\ exists s, iri_means R e i s /\ t = Iri s
    | TLabel l, VTerm t => A = [] /\ t = BNode (L l)
    | TAnon, VTerm t => exists b, A = [b] /\ t = BNode b
    | TLit x, VTerm t => A = [] /\ lit_means R e x t
    | TColl l, VColl vs => evs l vs A
    | TProps p, VProps q => evp p q A
    | _, _ => False
    end
  with evs (l : tobjs) (vs : tvals) (A : list N) : Prop :=
    match l, vs with
    | ONil, VNil => A = []
    | OCons o r, VCons v vs' => exists A1 A2, A = A1 ++ A2 /\ ev o v A1 /\ evs r vs' A2
    | _, _ => False
    end
  with evp (p : tpol) (q : vpol) (A : list N) : Prop :=
    match p, q with
    | PNil, VPNil => A = []
    | PCons v os r, VPCons t vs q' =>
        exists A1 A2, A = A1 ++ A2 /\ verb_means R e v t /\ evs os vs A1 /\ evp r q' A2
    | _, _ => False
    end.
End Ev.

(** unfolding equations *)
Section Eqs.
  Variables (uj : urljoin_fn) (pm : dict str str) (base : str) (b : bstate).
  Lemma eq_coll : forall l, e_obj uj pm base b (TColl l) =
    let '(b', r) := e_objs uj pm base b l in (b', do vs <- r ; Ok (VColl vs)).
  Proof. reflexivity. Qed.
  Lemma eq_props : forall p, e_obj uj pm base b (TProps p) =
    let '(b', r) := e_pol uj pm base b p in (b', do v <- r ; Ok (VProps v)).
  Proof. reflexivity. Qed.
  Lemma eq_ocons : forall o r, e_objs uj pm base b (OCons o r) =
    match e_obj uj pm base b o with
    | (b1, Err e) => (b1, Err e)
    | (b1, Ok v) => let '(b2, x) := e_objs uj pm base b1 r in (b2, do vs <- x ; Ok (VCons v vs))
    end.
  Proof. reflexivity. Qed.
  Lemma eq_pcons : forall v os r, e_pol uj pm base b (PCons v os r) =
    match e_verb uj pm base v with
    | Err e => (b, Err e)
    | Ok t =>
        match e_objs uj pm base b os with
        | (b1, Err e) => (b1, Err e)
        | (b1, Ok vs) => let '(b2, x) := e_pol uj pm base b1 r in (b2, do q <- x ; Ok (VPCons t vs q))
        end
    end.
  Proof. reflexivity. Qed.
End Eqs.

(** permutations of appended lists, by counting *)
Lemma count_cons : forall {A} (d : forall x y : A, {x = y} + {x <> y}) x l a,
  count_occ d (x :: l) a = (count_occ d [x] a + count_occ d l a)%nat.
Proof. intros. cbn [count_occ]. destruct (d x a); reflexivity. Qed.
Ltac count_norm d :=
  repeat match goal with
  | |- context [count_occ d (?x ++ ?y) ?a] => rewrite (count_occ_app d x y a)
  | |- context [count_occ d (?x :: ?y) ?a] => lazymatch y with [] => fail | _ => rewrite (count_cons d x y a) end
  | |- context [count_occ d [] ?a] => change (count_occ d [] a) with 0%nat
  end.
Ltac perm d :=
  apply (Permutation_count_occ d); let a := fresh "a" in intro a;
  repeat match goal with H : Permutation _ _ |- _ => generalize (proj1 (Permutation_count_occ d _ _) H a); clear H end;
  count_norm d; lia.

(** ** First pass *)
Definition binv (n : N) (b : bstate) (A : list N) : Prop :=
  NoDup (A ++ dvals (bs_map b)) /\ Forall (fun a => n <= a < bs_next b) (A ++ dvals (bs_map b)) /\
  NoDup (dkeys (bs_map b)) /\ n <= bs_next b.
Definition bext (b b' : bstate) : Prop :=
  (forall l a, dget str_eq_dec (bs_map b) l = Some a -> dget str_eq_dec (bs_map b') l = Some a) /\ bs_next b <= bs_next b'.
Definition agrees (L : str -> N) (b : bstate) : Prop := forall l a, dget str_eq_dec (bs_map b) l = Some a -> L l = a.
Definition labelled (ls : list str) (b : bstate) : Prop := forall l, In l ls -> exists a, dget str_eq_dec (bs_map b) l = Some a.

Lemma bext_refl : forall b, bext b b.
Proof. intro b. split; [auto|lia]. Qed.
Lemma bext_trans : forall a b c, bext a b -> bext b c -> bext a c.
Proof. intros a b c [H1 H2] [H3 H4]. split; [auto|lia]. Qed.
Lemma agrees_ext : forall L b b', bext b b' -> agrees L b' -> agrees L b.
Proof. intros L b b' [H _] G l a E. apply G. auto. Qed.
Lemma labelled_ext : forall ls b b', bext b b' -> labelled ls b -> labelled ls b'.
Proof. intros ls b b' [H _] G l I. destruct (G l I) as [a E]. eauto. Qed.
Lemma labelled_app : forall l1 l2 b, labelled l1 b -> labelled l2 b -> labelled (l1 ++ l2) b.
Proof. intros l1 l2 b H1 H2 l I. apply in_app_or in I. destruct I; auto. Qed.
Lemma labelled_nil : forall b, labelled [] b.
Proof. intros b l []. Qed.

Lemma make_bnode_ok : forall n b A l b' t, binv n b A -> make_bnode b l = (b', t) ->
  binv n b' A /\ bext b b' /\ exists a, dget str_eq_dec (bs_map b') l = Some a /\ t = BNode a.
Proof.
  intros n b A l b' t (ND & F & K & LE) H. unfold make_bnode in H. destruct (dget str_eq_dec (bs_map b) l) as [a|] eqn:E.
  - inversion H; subst. split; [repeat split; auto|]. split; [apply bext_refl|]. eauto.
  - inversion H; subst. clear H. cbn [bs_map bs_next].
    assert (NI : ~ In l (dkeys (bs_map b))) by (apply (dget_None_iff str_eq_dec); auto).
    rewrite (dkeys_dset_notin str_eq_dec _ _ _ NI). unfold binv, bext. cbn [bs_map bs_next].
    assert (VS : forall d : dict str N, dvals (d ++ [(l, bs_next b)]) = dvals d ++ [bs_next b]) by (intro d; unfold dvals; apply map_app).
    rewrite VS. split; [split; [|split; [|split]]|split; [split|]].
    + rewrite app_assoc. apply NoDup_snoc; auto. intro I. rewrite Forall_forall in F. specialize (F _ I). lia.
    + rewrite app_assoc. apply Forall_app. split; [eapply Forall_impl; [|exact F]; cbn; intros; lia|constructor; [lia|constructor]].
    + unfold dkeys. rewrite map_app. apply NoDup_snoc; auto.
    + lia.
    + intros l' a' X. rewrite <- (dkeys_dset_notin str_eq_dec _ _ _ NI). rewrite dget_dset_neq; auto. intros ->. congruence.
    + lia.
    + exists (bs_next b). split; auto. rewrite <- (dkeys_dset_notin str_eq_dec _ _ _ NI). apply dget_dset_eq.
Qed.
Lemma anon_ok : forall n b A, binv n b A ->
  binv n (mkB (bs_next b + 1) (bs_map b)) (A ++ [bs_next b]) /\ bext b (mkB (bs_next b + 1) (bs_map b)).
Proof.
  intros n b A (ND & F & K & LE). unfold binv, bext. cbn [bs_map bs_next]. rewrite Forall_app in F. destruct F as [F1 F2].
  split; [split; [|split; [|split]]|split].
  - rewrite <- app_assoc. cbn [app]. apply NoDup_Add with (a := bs_next b) (l := A ++ dvals (bs_map b)).
    + apply Add_app.
    + split; auto. intro I. apply in_app_or in I. rewrite Forall_forall in F1, F2.
      destruct I as [I|I]; [specialize (F1 _ I)|specialize (F2 _ I)]; lia.
  - rewrite !Forall_app. repeat split; [eapply Forall_impl; [|exact F1]|constructor; [lia|constructor]|eapply Forall_impl; [|exact F2]];
      cbn; intros; lia.
  - auto.
  - lia.
  - auto.
  - lia.
Qed.

Section Eager.
  Variables (uj : urljoin_fn) (e : tenv) (pm : dict str str) (base : str) (n : N).
  Hypotheses (HE : env_is e pm base) (HN : env_no_lt e).
  Let R := resolves_by uj.
  Lemma eager_all :
    (forall o b b' v A, obj_tokens o -> binv n b A -> e_obj uj pm base b o = (b', Ok v) ->
       exists B, binv n b' (A ++ B) /\ bext b b' /\ labelled (obj_labels o) b' /\
         forall L, agrees L b' -> ev R e L o v B) /\
    (forall l b b' vs A, objs_tokens l -> binv n b A -> e_objs uj pm base b l = (b', Ok vs) ->
       exists B, binv n b' (A ++ B) /\ bext b b' /\ labelled (objs_labels l) b' /\
         forall L, agrees L b' -> evs R e L l vs B) /\
    (forall p b b' q A, pol_tokens p -> binv n b A -> e_pol uj pm base b p = (b', Ok q) ->
       exists B, binv n b' (A ++ B) /\ bext b b' /\ labelled (pol_labels p) b' /\
         forall L, agrees L b' -> evp R e L p q B).
  Proof.
    apply tree_ind3.
    - intros i b b' v A T I H. cbn [e_obj] in H. injection H as H1 H2; subst. apply bind_ok in H2. destruct H2 as (s & H2 & H3).
      inversion H3; subst. exists []. rewrite app_nil_r. split; auto. split; [apply bext_refl|]. split; [apply labelled_nil|].
      intros L G. cbn [ev]. split; auto. exists s. split; auto. eapply iri_sound; eauto.
    - intros l b b' v A T I H. cbn [e_obj] in H. destruct (make_bnode b l) as [b1 t] eqn:E. inversion H; subst.
      destruct (make_bnode_ok n b A l b' t I E) as (I' & X & a & D & ->). exists []. rewrite app_nil_r. split; auto. split; auto.
      split; [intros l' [<-|[]]; eauto|]. intros L G. cbn [ev]. split; auto. rewrite (G _ _ D). auto.
    - intros b b' v A T I H. cbn [e_obj] in H. inversion H; subst. destruct (anon_ok n b A I) as [I' X].
      exists [bs_next b]. split; auto. split; auto. split; [apply labelled_nil|]. intros L G. cbn [ev]. exists (bs_next b). auto.
    - intros l IH b b' v A T I H. rewrite eq_coll in H. destruct (e_objs uj pm base b l) as [b1 r] eqn:E. injection H as H1 H2; subst.
      apply bind_ok in H2. destruct H2 as (vs & -> & H3). inversion H3; subst. destruct (IH b b' vs A T I E) as (B & I' & X & Lb & G).
      exists B. split; auto.
    - intros p IH b b' v A T I H. rewrite eq_props in H. destruct (e_pol uj pm base b p) as [b1 r] eqn:E. injection H as H1 H2; subst.
      apply bind_ok in H2. destruct H2 as (q & -> & H3). inversion H3; subst. destruct (IH b b' q A T I E) as (B & I' & X & Lb & G).
      exists B. split; auto.
    - intros x b b' v A T I H. cbn [e_obj] in H. injection H as H1 H2; subst. apply bind_ok in H2. destruct H2 as (t & H2 & H3).
      inversion H3; subst. exists []. rewrite app_nil_r. split; auto. split; [apply bext_refl|]. split; [apply labelled_nil|].
      intros L G. cbn [ev]. split; auto. eapply lit_sound; eauto.
    - intros b b' vs A T I H. cbn [e_objs] in H. inversion H; subst. exists []. rewrite app_nil_r. split; auto.
      split; [apply bext_refl|]. split; [apply labelled_nil|]. intros; reflexivity.
    - intros o IHo r IHr b b' vs A [T1 T2] I H. rewrite eq_ocons in H. destruct (e_obj uj pm base b o) as [b1 [v|x]] eqn:E1; [|discriminate].
      destruct (e_objs uj pm base b1 r) as [b2 y] eqn:E2. injection H as H1 H2; subst. apply bind_ok in H2. destruct H2 as (vr & -> & H3).
      inversion H3; subst. destruct (IHo b b1 v A T1 I E1) as (B1 & I1 & X1 & L1 & G1).
      destruct (IHr b1 b' vr (A ++ B1) T2 I1 E2) as (B2 & I2 & X2 & L2 & G2).
      exists (B1 ++ B2). rewrite app_assoc. split; auto. split; [eapply bext_trans; eauto|].
      split; [cbn [objs_labels]; apply labelled_app; [eapply labelled_ext; eauto|auto]|].
      intros L G. cbn [evs]. exists B1, B2. split; auto. split; auto. apply G1. eapply agrees_ext; eauto.
    - intros b b' q A T I H. cbn [e_pol] in H. inversion H; subst. exists []. rewrite app_nil_r. split; auto.
      split; [apply bext_refl|]. split; [apply labelled_nil|]. intros; reflexivity.
    - intros v os IHo r IHr b b' q A (T0 & _ & T1 & T2) I H. rewrite eq_pcons in H.
      destruct (e_verb uj pm base v) as [t|x] eqn:E0; [|discriminate].
      destruct (e_objs uj pm base b os) as [b1 [vs|x]] eqn:E1; [|discriminate].
      destruct (e_pol uj pm base b1 r) as [b2 y] eqn:E2. injection H as H1 H2; subst. apply bind_ok in H2. destruct H2 as (vr & -> & H3).
      inversion H3; subst. destruct (IHo b b1 vs A T1 I E1) as (B1 & I1 & X1 & L1 & G1).
      destruct (IHr b1 b' vr (A ++ B1) T2 I1 E2) as (B2 & I2 & X2 & L2 & G2).
      exists (B1 ++ B2). rewrite app_assoc. split; auto. split; [eapply bext_trans; eauto|].
      split; [cbn [pol_labels]; apply labelled_app; [eapply labelled_ext; eauto|auto]|].
      intros L G. cbn [evp]. exists B1, B2. split; auto. split; [eapply verb_sound; eauto|]. split; auto. apply G1. eapply agrees_ext; eauto.
  Qed.
End Eager.

(** ** Second pass *)
Lemma plain_app : forall a b, plain (a ++ b) = match plain a, plain b with Some x, Some y => Some (x ++ y) | _, _ => None end.
Proof.
  induction a as [|[s p [o|]] a IH]; intro b; cbn [plain app].
  - destruct (plain b); auto.
  - rewrite IH. destruct (plain a), (plain b); auto.
  - auto.
Qed.
Definition fresh (k k' : N) (bs : list N) : Prop := NoDup bs /\ Forall (fun a => k <= a < k') bs /\ k <= k'.
Lemma fresh_app : forall k1 k2 k3 a b, fresh k1 k2 a -> fresh k2 k3 b -> fresh k1 k3 (a ++ b).
Proof.
  intros k1 k2 k3 a b (N1 & F1 & L1) (N2 & F2 & L2). rewrite Forall_forall in F1, F2. split; [|split; [|lia]].
  - revert N1 F1. clear -N2 F2 L2. induction a as [|x a IH]; intros N1 F1; cbn [app]; auto.
    inversion N1; subst. constructor.
    + intro I. apply in_app_or in I. destruct I as [I|I]; auto. specialize (F2 _ I). specialize (F1 x (or_introl eq_refl)). lia.
    + apply IH; auto. intros y I. apply F1. now right.
  - apply Forall_forall. intros x I. apply in_app_or in I. destruct I as [I|I]; [specialize (F1 _ I)|specialize (F2 _ I)]; lia.
Qed.
Lemma fresh_nil : forall k, fresh k k [].
Proof. intro k. split; [constructor|]. split; [constructor|lia]. Qed.
Lemma fresh_one : forall k, fresh k (k + 1) [k].
Proof. intro k. split; [constructor; [auto|constructor]|]. split; [constructor; [lia|constructor]|lia]. Qed.
Lemma fresh_perm : forall k k' a b, Permutation a b -> fresh k k' a -> fresh k k' b.
Proof.
  intros k k' a b P (ND & F & LE). split; [eapply Permutation_NoDup; eauto|]. split; auto. rewrite Forall_forall in *.
  intros x I. apply F. eapply Permutation_in; [apply Permutation_sym; exact P|auto].
Qed.

Section Gen.
  Variables (R : str -> str -> str -> Prop) (e : tenv) (L : str -> N).
  Definition gen_objs (k : N) (s p : term) (os : tvals) : N * list gtriple :=
    match os with
    | VCons v VNil => let '(n', tv, node) := gen_val k v in (n', tv ++ [GT s p (GTerm node)])
    | _ => (k, gen_many s p os)
    end.
  Lemma objs_many : forall l v p s vs A, verb_means R e v p -> evs R e L l vs A -> some_nested l = false ->
    exists l' ts', plain (gen_many s p vs) = Some l' /\ Permutation l' ts' /\
      forall r ts'' bs'', pol_means R e L s r ts'' bs'' -> pol_means R e L s (PCons v l r) (ts' ++ ts'') (A ++ bs'').
  Proof.
    induction l as [|o r IH]; intros v p s vs A V H NN.
    - destruct vs; cbn [evs] in H; [|destruct H]. subst. exists [], []. split; auto. split; auto. intros. cbn [app]. constructor. auto.
    - destruct vs as [|w vs]; cbn [evs] in H; [destruct H|]. destruct H as (A1 & A2 & -> & H1 & H2).
      cbn [some_nested] in NN. apply orb_false_iff in NN. destruct NN as [N1 N2].
      destruct (IH v p s vs A2 V H2 N2) as (l' & ts' & P1 & P2 & P3).
      assert (exists t, w = VTerm t /\ obj_means R e L o t [] A1) as (t & -> & OM).
      { destruct o; try discriminate N1; destruct w as [t| |]; cbn [ev] in H1; try destruct H1 as [H1 H3]; try contradiction.
        - destruct H3 as (i' & H3 & ->). subst. eexists. split; [reflexivity|]. constructor. auto.
        - subst. eexists. split; [reflexivity|]. constructor.
        - destruct H3 as [-> ->]. eexists. split; [reflexivity|]. constructor.
        - subst. eexists. split; [reflexivity|]. constructor. auto. }
      exists (Tr s p t :: l'), (tr3 s p t :: ts'). cbn [gen_many plain]. rewrite P1. split; auto. split; [apply perm_skip; auto|].
      intros r' ts'' bs'' PM. rewrite <- app_assoc. cbn [app]. change (tr3 s p t :: ts' ++ ts'') with (tr3 s p t :: [] ++ (ts' ++ ts'')).
      eapply pm_cons; eauto.
  Qed.
  Lemma gen_all :
    (forall o v A k k' ts node, ev R e L o v A -> obj_tokens o -> obj_flat o = true -> gen_val k v = (k', ts, node) ->
       exists l ts' B bs, plain ts = Some l /\ obj_means R e L o node ts' bs /\ Permutation l ts' /\
         Permutation bs (A ++ B) /\ fresh k k' B) /\
    (forall l, (forall vs A k k' ts node, evs R e L l vs A -> objs_tokens l -> objs_flat l = true -> gen_coll k vs = (k', ts, node) ->
       exists l' ts' B bs, plain ts = Some l' /\ obj_means R e L (TColl l) node ts' bs /\ Permutation l' ts' /\
         Permutation bs (A ++ B) /\ fresh k k' B) /\
      (forall v p s vs A k k' ts, verb_means R e v p -> l <> ONil -> evs R e L l vs A -> objs_tokens l -> objs_flat l = true ->
         several l && some_nested l = false -> gen_objs k s p vs = (k', ts) ->
       exists l' ts' B bs, plain ts = Some l' /\ Permutation l' ts' /\ Permutation bs (A ++ B) /\ fresh k k' B /\
         forall r ts'' bs'', pol_means R e L s r ts'' bs'' -> pol_means R e L s (PCons v l r) (ts' ++ ts'') (bs ++ bs''))) /\
    (forall p q A s k k' ts, evp R e L p q A -> pol_tokens p -> pol_flat p = true -> gen_pol k s q = (k', ts) ->
       exists l ts' B bs, plain ts = Some l /\ pol_means R e L s p ts' bs /\ Permutation l ts' /\
         Permutation bs (A ++ B) /\ fresh k k' B).
  Proof.
    apply tree_ind3.
    - intros i v A k k' ts node H T F G. destruct v; cbn [ev] in H; try contradiction. destruct H as (-> & s & H & ->).
      cbn [gen_val] in G. injection G as <- <- <-. exists [], [], [], []. split; auto. split; [constructor; auto|]. auto using fresh_nil.
    - intros i v A k k' ts node H T F G. destruct v; cbn [ev] in H; try contradiction. destruct H as (-> & ->).
      cbn [gen_val] in G. injection G as <- <- <-. exists [], [], [], []. split; auto. split; [constructor; auto|]. auto using fresh_nil.
    - intros v A k k' ts node H T F G. destruct v; cbn [ev] in H; try contradiction. destruct H as (b & -> & ->).
      cbn [gen_val] in G. injection G as <- <- <-. exists [], [], [], [b]. split; auto. split; [constructor; auto|]. auto using fresh_nil.
    - intros l [IH _] v A k k' ts node H T F G. destruct v; cbn [ev] in H; try contradiction. cbn [gen_val] in G. eapply IH; eauto.
    - intros p IH v A k k' ts node H T F G. destruct v as [| |q]; cbn [ev] in H; try contradiction. cbn [gen_val] in G.
      destruct (gen_pol (k + 1) (BNode k) q) as [n' ts1] eqn:E. injection G as <- <- <-.
      destruct (IH q A (BNode k) (k + 1) n' ts1 H T F E) as (l & ts' & B & bs & P1 & P2 & P3 & P4 & P5).
      exists l, ts', (k :: B), (k :: bs). split; auto. split; [constructor; auto|]. split; auto.
      split; [|apply (fresh_app k (k + 1) n' [k] B); auto using fresh_one].
      eapply perm_trans; [apply perm_skip; exact P4|]. apply Permutation_middle.
    - intros x v A k k' ts node H T F G. destruct v; cbn [ev] in H; try contradiction. destruct H as (-> & H).
      cbn [gen_val] in G. injection G as <- <- <-. exists [], [], [], []. split; auto. split; [constructor; auto|]. auto using fresh_nil.
    - split.
      + intros vs A k k' ts node H T F G. destruct vs; cbn [evs] in H; [|contradiction]. subst. cbn [gen_coll] in G.
        injection G as <- <- <-. exists [], [], [], []. split; auto. split; [constructor|]. auto using fresh_nil.
      + intros; congruence.
    - intros o IHo r [IHr _]. split.
      + intros vs A k k' ts node H T F G. destruct vs as [|v vs]; cbn [evs] in H; [contradiction|].
        destruct H as (A1 & A2 & -> & H1 & H2). destruct T as [T1 T2]. cbn [objs_flat] in F. apply andb_true_iff in F. destruct F as [F1 F2].
        cbn [gen_coll] in G. destruct (gen_coll k vs) as [[n1 ts1] prev] eqn:E1.
        destruct (gen_val (n1 + 1) v) as [[n2 tv] nd] eqn:E2. injection G as <- <- <-.
        destruct (IHr vs A2 k n1 ts1 prev H2 T2 F2 E1) as (l2 & ts2 & B2 & bs2 & P1 & P2 & P3 & P4 & P5).
        destruct (IHo v A1 (n1 + 1) n2 tv nd H1 T1 F1 E2) as (l1 & ts1' & B1 & bs1 & Q1 & Q2 & Q3 & Q4 & Q5).
        exists (l2 ++ l1 ++ [Tr (BNode n1) (rdf "first") nd; Tr (BNode n1) (rdf "rest") prev]),
          (tr3 (BNode n1) (rdf_iri "first") nd :: tr3 (BNode n1) (rdf_iri "rest") prev :: ts1' ++ ts2),
          (B2 ++ [n1] ++ B1), (n1 :: bs1 ++ bs2).
        rewrite !plain_app, P1, Q1. cbn [plain]. split; auto. split; [constructor; auto|]. split; [|split].
        * change (tr3 (BNode n1) (rdf_iri "first") nd :: tr3 (BNode n1) (rdf_iri "rest") prev :: ts1' ++ ts2)
            with ([Tr (BNode n1) (rdf "first") nd; Tr (BNode n1) (rdf "rest") prev] ++ ts1' ++ ts2).
          rewrite app_assoc. eapply perm_trans; [apply Permutation_app_comm|]. apply Permutation_app; auto.
          eapply perm_trans; [|apply Permutation_app_comm]. apply Permutation_app; auto.
        * clear -Q4 P4. perm N.eq_dec.
        * apply (fresh_app k n1 n2); auto. apply (fresh_app n1 (n1 + 1) n2); auto using fresh_one.
      + intros v p s vs A k k' ts V NE H T F NN G. destruct vs as [|w vs]; [destruct H|].
        destruct r as [|o2 r].
        * cbn [evs] in H. destruct H as (A1 & A2 & -> & H1 & H2). destruct vs; [|contradiction]. subst. cbn [gen_objs] in G.
          destruct T as [T1 T2]. cbn [objs_flat] in F. rewrite andb_true_r in F.
          destruct (gen_val k w) as [[n1 tv] nd] eqn:E. injection G as <- <-.
          destruct (IHo w A1 k n1 tv nd H1 T1 F E) as (l1 & ts1' & B1 & bs1 & Q1 & Q2 & Q3 & Q4 & Q5).
          exists (l1 ++ [Tr s p nd]), (tr3 s p nd :: ts1'), B1, bs1. rewrite plain_app, Q1. cbn [plain]. split; auto.
          split; [|split; [|split]]; auto.
          -- eapply perm_trans; [apply Permutation_app_comm|]. cbn [app]. apply perm_skip. auto.
          -- rewrite app_nil_r. auto.
          -- intros r ts'' bs'' PM. cbn [app]. eapply pm_cons; eauto. constructor. auto.
        * assert (vs <> VNil) by (intros ->; cbn [evs] in H; destruct H as (? & ? & _ & _ & H); exact H).
          assert (G' : gen_objs k s p (VCons w vs) = (k, gen_many s p (VCons w vs))) by (destruct vs; [congruence|reflexivity]).
          rewrite G' in G. injection G as <- <-. cbn [several andb] in NN.
          destruct (objs_many _ v p s _ A V H NN) as (l' & ts' & P1 & P2 & P3).
          exists l', ts', [], A. rewrite app_nil_r. auto using fresh_nil.
    - intros q A s k k' ts H T F G. destruct q; cbn [evp] in H; [|contradiction]. subst. cbn [gen_pol] in G. injection G as <- <-.
      exists [], [], [], []. split; auto. split; [constructor|]. auto using fresh_nil.
    - intros v os [_ IHo] r IHr q A s k k' ts H T F G. destruct q as [|t vs q]; cbn [evp] in H; [contradiction|].
      destruct H as (A1 & A2 & -> & V & H1 & H2). destruct T as (_ & NE & T1 & T2). cbn [pol_flat] in F. rewrite !andb_true_iff in F.
      destruct F as ((F0 & F1) & F2). apply negb_true_iff in F0. cbn [gen_pol] in G. fold (gen_objs k s t vs) in G.
      destruct (gen_objs k s t vs) as [n1 ts1] eqn:E1. destruct (gen_pol n1 s q) as [n2 ts2] eqn:E2. injection G as <- <-.
      destruct (IHo v t s vs A1 k n1 ts1 V NE H1 T1 F1 F0 E1) as (l1 & ts1' & B1 & bs1 & Q1 & Q2 & Q3 & Q4 & Q5).
      destruct (IHr q A2 s n1 n2 ts2 H2 T2 F2 E2) as (l2 & ts2' & B2 & bs2 & P1 & P2 & P3 & P4 & P5).
      exists (l1 ++ l2), (ts1' ++ ts2'), (B1 ++ B2), (bs1 ++ bs2). rewrite plain_app, Q1, P1. split; auto. split; [auto|].
      split; [apply Permutation_app; auto|]. split; [|eapply fresh_app; eauto].
      eapply perm_trans; [apply Permutation_app; [exact Q3|exact P4]|]. rewrite <- !app_assoc. apply Permutation_app_head.
      rewrite !app_assoc. apply Permutation_app_tail. apply Permutation_app_comm.
  Qed.
End Gen.
