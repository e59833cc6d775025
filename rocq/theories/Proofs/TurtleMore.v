(** Collections, nested structures in object lists, prefixes; C70, C71. *)
From Coq Require Import Permutation.
From Verif Require Import Model.Py Model.Terms Model.Graph Model.Codec Model.NTriples Model.Curie Model.TurtleTree
  Model.Turtle Spec.CodecSpec Spec.CurieSpec Spec.TurtleSpec Spec.TurtleRunSpec Proofs.DictLemmas Proofs.CodecLemmas Proofs.CurieLemmas
  Proofs.TurtleLemmas Proofs.TurtleSem Proofs.TurtleDoc.
Open Scope N_scope.

Scheme tval_mind := Induction for tval Sort Prop
  with tvals_mind := Induction for tvals Sort Prop
  with vpol_mind := Induction for vpol Sort Prop.
Combined Scheme val_ind3 from tval_mind, tvals_mind, vpol_mind.

(** ** grouper, one_or_none *)
Lemma take_fill_spec : forall {A} n (fill : A) l c r, take_fill n fill l = (c, r) ->
  length c = n /\ exists k, c ++ r = l ++ repeat fill k /\ (l <> [] -> (k < n)%nat \/ n = O) /\ (r <> [] -> k = O).
Proof.
  induction n as [|n IH]; intros fill l c r H; cbn [take_fill] in H.
  - injection H as <- <-. split; auto. exists O. cbn. rewrite app_nil_r. auto.
  - destruct l as [|x l].
    + destruct (take_fill n fill []) as [c' r'] eqn:E. injection H as <- <-. destruct (IH _ _ _ _ E) as (L & k & C & _ & R).
      split; [cbn; lia|]. exists (S k). cbn. rewrite C. cbn. split; auto. split; [congruence|]. intro Q. specialize (R Q).
      subst k. rewrite app_nil_r in C. destruct c'; [|discriminate]. cbn in C. congruence.
    + destruct (take_fill n fill l) as [c' r'] eqn:E. injection H as <- <-. destruct (IH _ _ _ _ E) as (L & k & C & B & R).
      split; [cbn; lia|]. exists k. cbn. rewrite C. split; auto. split; auto. intros _. left.
      destruct l as [|y l].
      * destruct n as [|n]; [cbn in E; injection E as <- <-; cbn in C; destruct k; [lia|discriminate]|].
        assert (length (c' ++ r') = k) by (rewrite C, app_nil_l, repeat_length; auto). rewrite app_length in H.
        destruct r'; [cbn in H; lia|]. rewrite (R ltac:(discriminate)) in *. lia.
      * destruct (B ltac:(discriminate)) as [| ->]; [lia|]. cbn in E. injection E as <- <-. rewrite (R ltac:(discriminate)). lia.
Qed.
Lemma grouper_go_spec : forall {A} n (fill : A), (n > 0)%nat -> forall fuel l, (length l <= fuel)%nat ->
  groups_of n fill l (grouper_go fuel n fill l).
Proof.
  intros A n fill Hn. induction fuel as [|f IH]; intros l Hl.
  - destruct l; [|cbn in Hl; lia]. cbn. split; [constructor|]. exists O. cbn. auto.
  - cbn [grouper_go]. destruct l as [|x l]; [split; [constructor|]; exists O; cbn; auto|].
    destruct (take_fill n fill (x :: l)) as [c r] eqn:E. destruct (take_fill_spec _ _ _ _ _ E) as (L & k & C & B & R).
    assert (LL : length (c ++ r) = (length (x :: l) + k)%nat) by (rewrite C, app_length, repeat_length; auto).
    destruct r as [|y r].
    + assert (grouper_go f n fill [] = []) as -> by (destruct f; reflexivity).
      split; [constructor; [auto|constructor]|]. exists k. destruct (B ltac:(discriminate)) as [|]; [|lia]. split; auto.
    + rewrite (R ltac:(discriminate)) in *. rewrite app_length in LL. cbn [length] in LL, Hl.
      destruct (IH (y :: r)) as [F (k' & K & Q)]; [cbn [length]; lia|]. split; [constructor; auto|].
      exists k'. split; auto. cbn [concat]. rewrite Q. cbn [repeat] in C. rewrite app_nil_r in C. rewrite app_assoc, C. reflexivity.
Qed.
Lemma grouper_spec : forall {A} n (fill : A) l, (n > 0)%nat -> groups_of n fill l (grouper n fill l).
Proof. intros A [|n] fill l H; [lia|]. apply grouper_go_spec; auto. Qed.

(** ** Collections *)

Lemma gen_le :
  (forall v k k' ts nd, gen_val k v = (k', ts, nd) -> k <= k') /\
  (forall l, (forall k k' ts nd, gen_coll k l = (k', ts, nd) -> k <= k') /\
     (forall k s p k' ts, gen_objs k s p l = (k', ts) -> k <= k')) /\
  (forall p k s k' ts, gen_pol k s p = (k', ts) -> k <= k').
Proof.
  apply val_ind3.
  - intros t k k' ts nd H. cbn [gen_val] in H. injection H as <- _ _. lia.
  - intros l [IH _] k k' ts nd H. cbn [gen_val] in H. eauto.
  - intros p IH k k' ts nd H. cbn [gen_val] in H. destruct (gen_pol (k + 1) (BNode k) p) as [n' ts'] eqn:E. injection H as <- _ _.
    apply IH in E. lia.
  - split; intros; [cbn [gen_coll] in H; injection H as <- _ _; lia|cbn [gen_objs] in H; injection H as <- _; lia].
  - intros v IHv r [IHr _]. split.
    + intros k k' ts nd H. cbn [gen_coll] in H. destruct (gen_coll k r) as [[n1 ts1] pr] eqn:E1. destruct (gen_val (n1 + 1) v) as [[n2 tv] nn] eqn:E2.
      injection H as <- _ _. apply IHr in E1. apply IHv in E2. lia.
    + intros k s p k' ts H. unfold gen_objs in H. destruct r; [|injection H as <- _; lia].
      destruct (gen_val k v) as [[n2 tv] nn] eqn:E2. injection H as <- _. eauto.
  - intros k s k' ts H. cbn [gen_pol] in H. injection H as <- _. lia.
  - intros t os [_ IHo] r IHr k s k' ts H. cbn [gen_pol] in H. fold (gen_objs k s t os) in H.
    destruct (gen_objs k s t os) as [n1 ts1] eqn:E1. destruct (gen_pol n1 s r) as [n2 ts2] eqn:E2. injection H as <- _.
    apply IHo in E1. apply IHr in E2. lia.
Qed.

Definition gtriple_eq_dec : forall a b : gtriple, {a = b} + {a <> b}.
Proof. repeat decide equality. Defined.

Lemma gen_coll_chain : forall l k k' ts head, gen_coll k l = (k', ts, head) ->
  exists bs nodes inner, length bs = length (vals_list l) /\ length nodes = length (vals_list l) /\
    NoDup bs /\ Forall (fun b => k <= b < k') bs /\ head = list_head bs /\
    Permutation ts (map as_g (chain bs nodes) ++ inner) /\
    (forall i t, nth_error (vals_list l) i = Some (VTerm t) -> nth_error nodes i = Some t) /\
    ((forall v, In v (vals_list l) -> exists t, v = VTerm t) -> inner = []).
Proof.
  induction l as [|v r IH]; intros k k' ts head H; cbn [gen_coll vals_list] in *.
  - injection H as <- <- <-. exists [], [], []. repeat split; auto using NoDup_nil. intros [|i] t E; discriminate.
  - destruct (gen_coll k r) as [[n1 ts1] pr] eqn:E1. destruct (gen_val (n1 + 1) v) as [[n2 tv] nn] eqn:E2. injection H as <- <- <-.
    destruct (IH _ _ _ _ E1) as (bs & nodes & inner & L1 & L2 & ND & F & HD & P & NT & IN).
    assert (LE := proj1 gen_le _ _ _ _ _ E2). assert (LE1 := proj1 (proj1 (proj2 gen_le) _) _ _ _ _ E1).
    exists (n1 :: bs), (nn :: nodes), (inner ++ tv). repeat split; try (cbn [length]; lia).
    + constructor; auto. intro I. rewrite Forall_forall in F. specialize (F _ I). lia.
    + constructor; [lia|]. eapply Forall_impl; [|exact F]. cbn. intros; lia.
    + cbn [chain map]. rewrite <- HD. change (as_g (tr3 (BNode n1) (rdf_iri "first") nn)) with (GT (BNode n1) (rdf "first") (GTerm nn)).
      change (as_g (tr3 (BNode n1) (rdf_iri "rest") pr)) with (GT (BNode n1) (rdf "rest") (GTerm pr)).
      clear -P. perm gtriple_eq_dec.
    + intros [|i] t E; cbn [nth_error] in *; auto. injection E as ->. cbn [gen_val] in E2. injection E2 as _ _ <-. auto.
    + intro A. rewrite IN by (intros w I; apply A; now right). destruct (A v (or_introl eq_refl)) as [t ->].
      cbn [gen_val] in E2. injection E2 as _ <- _. auto.
Qed.

(** ** Nested structures in object lists with several members *)
Definition vnested (v : tval) : bool := match v with VTerm _ => false | _ => true end.
Fixpoint vsome_nested (l : tvals) : bool := match l with VNil => false | VCons o r => vnested o || vsome_nested r end.
Definition vseveral (l : tvals) : bool := match l with VCons _ (VCons _ _) => true | _ => false end.
Fixpoint v_flat (o : tval) : bool :=
  match o with VColl l => vs_flat l | VProps p => vp_flat p | _ => true end
with vs_flat (l : tvals) : bool := match l with VNil => true | VCons o r => v_flat o && vs_flat r end
with vp_flat (p : vpol) : bool :=
  match p with VPNil => true | VPCons _ os r => negb (vseveral os && vsome_nested os) && vs_flat os && vp_flat r end.

Lemma flat_all : forall uj pm base,
  (forall o b b' v, e_obj uj pm base b o = (b', Ok v) -> v_flat v = obj_flat o /\ vnested v = nested o) /\
  (forall l b b' vs, e_objs uj pm base b l = (b', Ok vs) -> vs_flat vs = objs_flat l /\ vseveral vs = several l /\ vsome_nested vs = some_nested l) /\
  (forall p b b' q, e_pol uj pm base b p = (b', Ok q) -> vp_flat q = pol_flat p).
Proof.
  intros uj pm base. apply tree_ind3.
  - intros i b b' v H. cbn [e_obj] in H. injection H as _ H. apply bind_ok in H. destruct H as (s & _ & H). injection H as <-. auto.
  - intros l b b' v H. cbn [e_obj] in H. destruct (make_bnode b l). injection H as _ <-. auto.
  - intros b b' v H. cbn [e_obj] in H. injection H as _ <-. auto.
  - intros l IH b b' v H. rewrite eq_coll in H. destruct (e_objs uj pm base b l) as [b1 r] eqn:E. injection H as _ H. apply bind_ok in H.
    destruct H as (vs & -> & H). injection H as <-. split; auto. apply IH in E. apply E.
  - intros p IH b b' v H. rewrite eq_props in H. destruct (e_pol uj pm base b p) as [b1 r] eqn:E. injection H as _ H. apply bind_ok in H.
    destruct H as (vs & -> & H). injection H as <-. split; auto. apply IH in E. apply E.
  - intros x b b' v H. cbn [e_obj] in H. injection H as _ H. apply bind_ok in H. destruct H as (s & _ & H). injection H as <-. auto.
  - intros b b' vs H. cbn [e_objs] in H. injection H as _ <-. auto.
  - intros o IHo r IHr b b' vs H. rewrite eq_ocons in H. destruct (e_obj uj pm base b o) as [b1 [v|x]] eqn:E1; [|discriminate].
    destruct (e_objs uj pm base b1 r) as [b2 y] eqn:E2. injection H as _ H. apply bind_ok in H. destruct H as (vr & -> & H). injection H as <-.
    destruct (IHo _ _ _ E1) as [A B]. destruct (IHr _ _ _ E2) as (C & D & F). cbn [vs_flat objs_flat vseveral several vsome_nested some_nested].
    rewrite A, B, C, F. split; auto. split; auto. destruct r, vr; try reflexivity; exfalso; clear -E2.
    + cbn in E2. discriminate.
    + rewrite eq_ocons in E2. destruct (e_obj uj pm base b1 _) as [? [|]]; [|discriminate]. destruct (e_objs uj pm base _ _) as [? [|]]; discriminate.
  - intros b b' q H. cbn [e_pol] in H. injection H as _ <-. auto.
  - intros v os IHo r IHr b b' q H. rewrite eq_pcons in H. destruct (e_verb uj pm base v); [|discriminate].
    destruct (e_objs uj pm base b os) as [b1 [vs|x]] eqn:E1; [|discriminate]. destruct (e_pol uj pm base b1 r) as [b2 y] eqn:E2.
    injection H as _ H. apply bind_ok in H. destruct H as (q' & -> & H). injection H as <-.
    destruct (IHo _ _ _ E1) as (A & B & C). cbn [vp_flat pol_flat]. rewrite A, B, C, (IHr _ _ _ E2). auto.
Qed.
Lemma plain_none_app : forall a b, plain (a ++ b) = None <-> plain a = None \/ plain b = None.
Proof. intros a b. rewrite plain_app. destruct (plain a), (plain b); split; intro H; auto; try discriminate; destruct H; discriminate. Qed.
Lemma gen_many_plain : forall s p l, plain (gen_many s p l) = None <-> vsome_nested l = true.
Proof.
  induction l as [|v r IH]; cbn [gen_many plain vsome_nested]; [split; discriminate|].
  destruct v; cbn [vnested orb]; [|tauto|tauto]. rewrite <- IH. destruct (plain (gen_many s p r)); split; congruence.
Qed.
Lemma gen_plain :
  (forall v k k' ts nd, gen_val k v = (k', ts, nd) -> plain ts = None <-> v_flat v = false) /\
  (forall l, (forall k k' ts nd, gen_coll k l = (k', ts, nd) -> plain ts = None <-> vs_flat l = false) /\
     (forall k s p k' ts, gen_objs k s p l = (k', ts) -> plain ts = None <-> negb (vseveral l && vsome_nested l) && vs_flat l = false)) /\
  (forall p k s k' ts, gen_pol k s p = (k', ts) -> plain ts = None <-> vp_flat p = false).
Proof.
  assert (NN : forall l, vsome_nested l = false -> vs_flat l = true).
  { induction l as [|v r IH]; auto. cbn [vsome_nested vs_flat]. intro H. apply orb_false_iff in H. destruct H as [H1 H2].
    rewrite IH by auto. destruct v; try discriminate. auto. }
  apply val_ind3.
  - intros t k k' ts nd H. cbn [gen_val] in H. injection H as _ <- _. cbn. split; discriminate.
  - intros l [IH _] k k' ts nd H. cbn [gen_val] in H. eauto.
  - intros p IH k k' ts nd H. cbn [gen_val] in H. destruct (gen_pol (k + 1) (BNode k) p) as [n' ts'] eqn:E. injection H as _ <- _. eauto.
  - split; intros; [cbn [gen_coll] in H; injection H as _ <- _|cbn [gen_objs] in H; injection H as _ <-]; cbn; split; discriminate.
  - intros v IHv r [IHr _]. split.
    + intros k k' ts nd H. cbn [gen_coll] in H. destruct (gen_coll k r) as [[n1 ts1] pr] eqn:E1. destruct (gen_val (n1 + 1) v) as [[n2 tv] nn] eqn:E2.
      injection H as _ <- _. rewrite !plain_none_app. rewrite (IHr _ _ _ _ E1), (IHv _ _ _ _ E2). cbn [vs_flat plain]. rewrite andb_false_iff.
      intuition discriminate.
    + intros k s p k' ts H. unfold gen_objs in H. destruct r as [|w r].
      * destruct (gen_val k v) as [[n2 tv] nn] eqn:E2. injection H as _ <-. rewrite plain_none_app, (IHv _ _ _ _ E2). cbn [plain vseveral vs_flat andb negb].
        rewrite andb_true_r. intuition discriminate.
      * injection H as _ <-. rewrite (gen_many_plain s p (VCons v (VCons w r))). cbn [vseveral andb]. set (l := VCons v (VCons w r)). specialize (NN l).
        destruct (vsome_nested l); cbn [negb andb]; [tauto|]. rewrite NN by auto. split; discriminate.
  - intros k s k' ts H. cbn [gen_pol] in H. injection H as _ <-. cbn. split; discriminate.
  - intros t os [_ IHo] r IHr k s k' ts H. cbn [gen_pol] in H. fold (gen_objs k s t os) in H.
    destruct (gen_objs k s t os) as [n1 ts1] eqn:E1. destruct (gen_pol n1 s r) as [n2 ts2] eqn:E2. injection H as _ <-.
    rewrite plain_none_app, (IHo _ _ _ _ _ E1), (IHr _ _ _ _ E2). cbn [vp_flat]. rewrite !andb_false_iff. tauto.
Qed.
Lemma doc_plain : forall uj n base doc n' ts, turtle_run uj n base doc = (n', Ok ts) ->
  (plain ts = None <-> forallb stmt_flat doc = false).
Proof.
  intros uj n base doc n' ts H. unfold turtle_run in H. destruct (e_doc uj (ts_new n base) doc) as [st [l|err]] eqn:E; [|discriminate].
  assert (FL : forallb (fun x => v_flat (fst x) && vp_flat (snd x)) l = forallb stmt_flat doc).
  { clear H. revert E. generalize (ts_new n base). revert l. induction doc as [|x r IH]; intros l s0 E; cbn [e_doc] in E.
    - injection E as _ <-. auto.
    - destruct (e_stmt uj s0 x) as [s1 [y|]] eqn:E1; [|discriminate]. destruct (e_doc uj s1 r) as [s2 ys] eqn:E2. injection E as -> E.
      apply bind_ok in E. destruct E as (zs & -> & E). injection E as <-. specialize (IH _ _ E2).
      destruct x as [ns body|body|s p]; cbn [e_stmt] in E1.
      + destruct (bind (decode_iriref body) (fun s => smart_urljoin uj (ts_base s0) s)); [|discriminate]. injection E1 as _ <-. auto.
      + destruct (bind (decode_iriref body) (fun s => smart_urljoin uj (ts_base s0) s)); [|discriminate]. injection E1 as _ <-. auto.
      + destruct (e_obj uj (ts_pm s0) (ts_base s0) (ts_bn s0) s) as [b1 [v|]] eqn:Q1; [|discriminate].
        destruct (e_pol uj (ts_pm s0) (ts_base s0) b1 p) as [b2 [q|]] eqn:Q2; cbn [bind] in E1; [|discriminate]. injection E1 as _ <-.
        cbn [forallb stmt_flat fst snd]. rewrite IH. destruct (flat_all uj (ts_pm s0) (ts_base s0)) as (A & _ & B).
        rewrite (proj1 (A _ _ _ _ Q1)), (B _ _ _ _ Q2). auto. }
  rewrite <- FL. destruct (gen_doc (bs_next (ts_bn st)) l) as [k' ts1] eqn:G. injection H as _ <-. clear -G.
  revert G. generalize (bs_next (ts_bn st)). revert k' ts1. induction l as [|[v q] l IH]; intros k' ts k G; cbn [gen_doc] in G.
  - injection G as _ <-. cbn. split; discriminate.
  - unfold gen_stmt in G. cbn [fst snd] in G. destruct (gen_val k v) as [[n1 ts1] nd] eqn:E1. destruct (gen_pol n1 nd q) as [n2 ts2] eqn:E2.
    destruct (gen_doc n2 l) as [n3 ts3] eqn:E3. injection G as _ <-. rewrite !plain_none_app.
    rewrite (proj1 gen_plain _ _ _ _ _ E1), (proj2 (proj2 gen_plain) _ _ _ _ _ E2), (IH _ _ _ E3). cbn [forallb fst snd]. rewrite !andb_false_iff. tauto.
Qed.
Lemma many_flags : forall s p l, map is_gen (gen_many s p l) =
    map vnested (vals_list l) /\ Forall (fun t => gt_s t = s /\ gt_p t = p) (gen_many s p l).
Proof.
  induction l as [|v r [IH1 IH2]]; cbn [gen_many map vals_list]; [split; constructor|]. split; [|constructor; auto].
  rewrite IH1. destruct v; reflexivity.
Qed.
Lemma objs_flags : forall uj pm base l b b' vs, e_objs uj pm base b l = (b', Ok vs) -> map vnested (vals_list vs) = nested_flags l.
Proof.
  intros uj pm base. induction l as [|o r IH]; intros b b' vs H.
  - cbn [e_objs] in H. injection H as _ <-. auto.
  - rewrite eq_ocons in H. destruct (e_obj uj pm base b o) as [b1 [v|x]] eqn:E1; [|discriminate].
    destruct (e_objs uj pm base b1 r) as [b2 y] eqn:E2. injection H as _ H. apply bind_ok in H. destruct H as (vr & -> & H). injection H as <-.
    cbn [vals_list map nested_flags]. rewrite (IH _ _ _ E2). f_equal. apply (proj1 (flat_all uj pm base)) in E1. apply E1.
Qed.
Lemma several_lost : forall uj n base s v os n' ts, nested s = false -> several os = true ->
  turtle_run uj n base [STriples s (PCons v os PNil)] = (n', Ok ts) ->
  map is_gen ts = nested_flags os /\
  exists x p, Forall (fun t => gt_s t = x /\ gt_p t = p) ts.
Proof.
  intros uj n base s v os n' ts NS SV H. unfold turtle_run in H. cbn [e_doc e_stmt] in H. remember (ts_new n base) as s0.
  destruct (e_obj uj (ts_pm s0) (ts_base s0) (ts_bn s0) s) as [b1 [w|]] eqn:Q1; [|discriminate].
  rewrite eq_pcons in H. destruct (e_verb uj (ts_pm s0) (ts_base s0) v) as [p|]; [|discriminate].
  destruct (e_objs uj (ts_pm s0) (ts_base s0) b1 os) as [b2 [vs|]] eqn:Q2; [|discriminate]. cbn [e_pol bind ts_bn gen_doc] in H.
  destruct (flat_all uj (ts_pm s0) (ts_base s0)) as (A & B & _). destruct (A _ _ _ _ Q1) as [_ NV]. rewrite NS in NV.
  destruct w as [t| |]; try discriminate. unfold gen_stmt in H. cbn [fst snd gen_val gen_pol] in H.
  destruct (B _ _ _ _ Q2) as (_ & SV' & _). rewrite SV in SV'. destruct vs as [|v1 [|v2 vs]]; try discriminate.
  injection H as _ <-. rewrite !app_nil_r. cbn [app]. destruct (many_flags t p (VCons v1 (VCons v2 vs))) as [F1 F2].
  split; [|exists t, p; exact F2]. change (GT t p _ :: _ :: _) with (gen_many t p (VCons v1 (VCons v2 vs))). rewrite F1. eapply objs_flags; eauto.
Qed.

Lemma eager_le : forall uj pm base,
  (forall o b b' v, e_obj uj pm base b o = (b', v) -> bs_next b <= bs_next b') /\
  (forall l b b' v, e_objs uj pm base b l = (b', v) -> bs_next b <= bs_next b') /\
  (forall p b b' v, e_pol uj pm base b p = (b', v) -> bs_next b <= bs_next b').
Proof.
  intros uj pm base. apply tree_ind3.
  - intros i b b' v H. cbn [e_obj] in H. injection H as <- _. lia.
  - intros l b b' v H. cbn [e_obj] in H. destruct (make_bnode b l) as [b1 t] eqn:E. injection H as <- _.
    unfold make_bnode in E. destruct (dget str_eq_dec (bs_map b) l); injection E as <- _; cbn; lia.
  - intros b b' v H. cbn [e_obj] in H. injection H as <- _. cbn. lia.
  - intros l IH b b' v H. rewrite eq_coll in H. destruct (e_objs uj pm base b l) as [b1 r] eqn:E. injection H as <- _. eauto.
  - intros l IH b b' v H. rewrite eq_props in H. destruct (e_pol uj pm base b l) as [b1 r] eqn:E. injection H as <- _. eauto.
  - intros i b b' v H. cbn [e_obj] in H. injection H as <- _. lia.
  - intros b b' v H. cbn [e_objs] in H. injection H as <- _. lia.
  - intros o IHo r IHr b b' vs H. rewrite eq_ocons in H. destruct (e_obj uj pm base b o) as [b1 [v|x]] eqn:E1.
    + destruct (e_objs uj pm base b1 r) as [b2 y] eqn:E2. injection H as <- _. apply IHo in E1. apply IHr in E2. lia.
    + injection H as <- _. eauto.
  - intros b b' v H. cbn [e_pol] in H. injection H as <- _. lia.
  - intros v os IHo r IHr b b' q H. rewrite eq_pcons in H. destruct (e_verb uj pm base v); [|injection H as <- _; lia].
    destruct (e_objs uj pm base b os) as [b1 [vs|x]] eqn:E1; [|injection H as <- _; eauto]. destruct (e_pol uj pm base b1 r) as [b2 y] eqn:E2.
    injection H as <- _. apply IHo in E1. apply IHr in E2. lia.
Qed.
(** a whole document with one collection of nodes that are not nested *)
Lemma objs_terms : forall uj pm base l b b' vs, e_objs uj pm base b l = (b', Ok vs) -> some_nested l = false ->
  length (vals_list vs) = length (nested_flags l) /\ forall v, In v (vals_list vs) -> exists t, v = VTerm t.
Proof.
  intros uj pm base l b b' vs H F. assert (Q := objs_flags _ _ _ _ _ _ _ H). split; [rewrite <- Q; symmetry; apply map_length|].
  intros v I. assert (X : In (vnested v) (nested_flags l)) by (rewrite <- Q; now apply in_map).
  assert (Y : vnested v = false).
  { clear -X F. induction l as [|o r IH]; cbn in *; [contradiction|]. apply orb_false_iff in F. destruct F. destruct X as [<-|X]; auto. }
  destruct v; try discriminate. eauto.
Qed.
Lemma collection_doc : forall uj n base i v items n' ts, some_nested items = false ->
  turtle_run uj n base [STriples (TIri i) (PCons v (OCons (TColl items) ONil) PNil)] = (n', Ok ts) ->
  exists s p bs nodes, length bs = length (nested_flags items) /\ length nodes = length bs /\ NoDup bs /\ Forall (fun b => n <= b < n') bs /\
    Permutation ts (map as_g (chain bs nodes) ++ [GT (Iri s) p (GTerm (list_head bs))]) /\
    e_iri uj (ts_pm (ts_new n base)) base i = Ok s /\ e_verb uj (ts_pm (ts_new n base)) base v = Ok p /\
    exists b', e_objs uj (ts_pm (ts_new n base)) base (prepare n) items = (b', Ok (fold_right (fun t r => VCons (VTerm t) r) VNil nodes)).
Proof.
  intros uj n base i v items n' ts NN H. unfold turtle_run in H. cbn [e_doc e_stmt] in H. cbn [ts_bn ts_base ts_new] in H.
  set (pm := ts_pm (ts_new n base)) in *. cbn [e_obj] in H. destruct (e_iri uj pm base i) as [s|]; [|discriminate]. cbn [bind] in H.
  rewrite eq_pcons in H. destruct (e_verb uj pm base v) as [p|]; [|discriminate]. rewrite eq_ocons, eq_coll in H.
  destruct (e_objs uj pm base (prepare n) items) as [b1 [vs|]] eqn:Q; [|discriminate]. cbn [bind e_objs e_pol gen_doc] in H.
  destruct (objs_terms _ _ _ _ _ _ _ Q NN) as [LV TV]. unfold gen_stmt in H. cbn [fst snd gen_val gen_pol ts_bn] in H.
  destruct (gen_coll (bs_next b1) vs) as [[k' tc] head] eqn:G. injection H as <- <-.
  destruct (gen_coll_chain _ _ _ _ _ G) as (bs & nodes & inner & L1 & L2 & ND & FA & HD & P & NT & IN). rewrite (IN TV), app_nil_r in P.
  exists s, p, bs, nodes. assert (MO : n <= bs_next b1).
  { apply (proj1 (proj2 (eager_le uj pm base))) in Q. exact Q. }
  repeat split; auto; try congruence.
  - eapply Forall_impl; [|exact FA]. cbn. intros a ?. lia.
  - rewrite !app_nil_r. cbn [app]. rewrite <- HD. now apply Permutation_app_tail.
  - exists b1. do 3 f_equal. clear -TV NT L2. revert nodes NT L2. induction vs as [|v r IH]; intros [|x nodes] NT L2; cbn in L2; try discriminate; auto.
    cbn [fold_right]. destruct (TV v (or_introl eq_refl)) as [t ->]. assert (X := NT O t eq_refl). cbn in X. injection X as ->. f_equal. apply IH; auto.
    + intros w I. apply TV. now right.
    + intros j t' E. exact (NT (S j) t' E).
Qed.
