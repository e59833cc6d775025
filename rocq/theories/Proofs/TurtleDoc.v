(** Documents: what Turtle parsing adds to the graph, against the meaning of the document. *)
From Coq Require Import Permutation.
From Verif Require Import Model.Py Model.Terms Model.Graph Model.Codec Model.NTriples Model.Curie Model.TurtleTree
  Model.Turtle Spec.CodecSpec Spec.CurieSpec Spec.TurtleSpec Proofs.DictLemmas Proofs.CodecLemmas Proofs.CurieLemmas Proofs.TurtleLemmas Proofs.TurtleSem.
Open Scope N_scope.

Inductive evd (R : str -> str -> str -> Prop) (L : str -> N) : tenv -> list tstmt -> list (tval * vpol) -> list N -> Prop :=
| evd_nil : forall e, evd R L e [] [] []
| evd_prefix : forall e ns body iri r l A, ref_means R e body iri -> evd R L (bind_prefix e ns iri) r l A ->
    evd R L e (SPrefix ns body :: r) l A
| evd_base : forall e body iri r l A, ref_means R e body iri -> evd R L (set_base e iri) r l A ->
    evd R L e (SBase body :: r) l A
| evd_triples : forall e s p v q r l A1 A2 A3, ev R e L s v A1 -> evp R e L p q A2 -> evd R L e r l A3 ->
    evd R L e (STriples s p :: r) ((v, q) :: l) (A1 ++ A2 ++ A3).

Lemma env_bind : forall e pm base ns iri, env_is e pm base -> env_is (bind_prefix e ns iri) (dset str_eq_dec pm ns iri) base.
Proof.
  intros e pm base ns iri [H1 H2]. split; auto. intro x. cbn [bind_prefix e_pfx]. destruct (str_eq_dec x ns) as [->|NE].
  - symmetry. apply dget_dset_eq.
  - rewrite H1. symmetry. apply dget_dset_neq. auto.
Qed.
Lemma no_lt_bind : forall e ns iri, env_no_lt e -> ~ In 60 iri -> env_no_lt (bind_prefix e ns iri).
Proof.
  intros e ns iri [H1 H2] H. split; auto. cbn [bind_prefix e_pfx]. intros x p. destruct (str_eq_dec x ns); [intro X; injection X as <-; auto|apply H2].
Qed.
Lemma no_lt_base : forall e iri, env_no_lt e -> ~ In 60 iri -> env_no_lt (set_base e iri).
Proof. intros e iri [H1 H2] H. split; auto. Qed.

Lemma not_in_b : forall c s, existsb (N.eqb c) s = false -> ~ In c s.
Proof. intros c s H I. rewrite <- not_true_iff_false, existsb_exists in H. apply H. exists c. split; auto. apply N.eqb_refl. Qed.

Section Doc.
  Variables (uj : urljoin_fn) (n : N).
  Hypothesis (HC : uj_clean uj).
  Let R := resolves_by uj.

  Lemma eager_doc : forall doc st st' l A e, env_is e (ts_pm st) (ts_base st) -> env_no_lt e -> Forall stmt_tokens doc ->
    binv n (ts_bn st) A -> e_doc uj st doc = (st', Ok l) ->
    exists B, binv n (ts_bn st') (A ++ B) /\ bext (ts_bn st) (ts_bn st') /\ labelled (doc_labels doc) (ts_bn st') /\
      forall L, agrees L (ts_bn st') -> evd R L e doc l B.
  Proof.
    induction doc as [|x r IH]; intros st st' l A e E N T I H.
    - cbn [e_doc] in H. injection H as <- <-. exists []. rewrite app_nil_r. split; auto. split; [apply bext_refl|].
      split; [apply labelled_nil|]. intros. constructor.
    - cbn [e_doc] in H. destruct (e_stmt uj st x) as [st1 [y|err]] eqn:ES; [|discriminate].
      destruct (e_doc uj st1 r) as [st2 ys] eqn:ED. injection H as -> H. apply bind_ok in H. destruct H as (zs & -> & H).
      inversion T as [|? ? T1 T2]; subst. destruct x as [ns body|body|s p]; cbn [e_stmt stmt_tokens doc_labels] in *.
      + destruct (bind (decode_iriref body) (fun s => smart_urljoin uj (ts_base st) s)) as [iri|err] eqn:ER; [|discriminate].
        injection ES as <- <-. cbn in H. injection H as <-. rewrite <- (proj2 E) in ER. apply ref_sound in ER; auto.
        assert (E' := env_bind e (ts_pm st) (ts_base st) ns iri E).
        destruct (IH (mkTS (dset str_eq_dec (ts_pm st) ns iri) (ts_base st) (ts_bn st)) st' zs A (bind_prefix e ns iri) E'
          (no_lt_bind _ _ _ N (ref_means_no_lt _ _ _ _ HC (proj1 N) ER)) T2 I ED) as (B & I' & X & Lb & G).
        exists B. split; auto. split; auto. split; auto. intros L GL. econstructor; eauto.
      + destruct (bind (decode_iriref body) (fun s => smart_urljoin uj (ts_base st) s)) as [iri|err] eqn:ER; [|discriminate].
        injection ES as <- <-. cbn in H. injection H as <-. rewrite <- (proj2 E) in ER. apply ref_sound in ER; auto.
        assert (E' : env_is (set_base e iri) (ts_pm (mkTS (ts_pm st) iri (ts_bn st))) (ts_base (mkTS (ts_pm st) iri (ts_bn st))))
          by (split; [apply E|reflexivity]).
        destruct (IH _ st' zs A (set_base e iri) E'
          (no_lt_base _ _ N (ref_means_no_lt _ _ _ _ HC (proj1 N) ER)) T2 I ED) as (B & I' & X & Lb & G).
        exists B. split; auto. split; auto. split; auto. intros L GL. econstructor; eauto.
      + destruct T1 as [Ts Tp]. destruct (e_obj uj (ts_pm st) (ts_base st) (ts_bn st) s) as [b1 [v|err]] eqn:E1; [|discriminate].
        destruct (e_pol uj (ts_pm st) (ts_base st) b1 p) as [b2 [q|err]] eqn:E2; cbn [bind] in ES; [|discriminate].
        injection ES as <- <-. cbn in H. injection H as <-.
        destruct (eager_all uj e _ _ n E N) as (P1 & _ & P3).
        destruct (P1 _ _ _ _ A Ts I E1) as (B1 & I1 & X1 & L1 & G1).
        destruct (P3 _ _ _ _ _ Tp I1 E2) as (B2 & I2 & X2 & L2 & G2).
        destruct (IH (mkTS (ts_pm st) (ts_base st) b2) st' zs _ e E N T2 I2 ED) as (B3 & I3 & X3 & L3 & G3). cbn [ts_bn] in X3.
        exists (B1 ++ B2 ++ B3). rewrite !app_assoc in *. split; auto. split; [eapply bext_trans; [exact X1|eapply bext_trans; eauto]|].
        split.
        * rewrite <- app_assoc. apply labelled_app; [eapply labelled_ext; [|exact L1]; eapply bext_trans; eauto|].
          apply labelled_app; [eapply labelled_ext; eauto|auto].
        * intros L GL. rewrite <- app_assoc. constructor; auto.
          -- apply G1. eapply agrees_ext; [|exact GL]. eapply bext_trans; eauto.
          -- apply G2. eapply agrees_ext; eauto.
  Qed.

  Lemma gen_doc_ok : forall L e doc l A, evd R L e doc l A -> Forall stmt_tokens doc -> forallb stmt_flat doc = true ->
    forall k k' ts, gen_doc k l = (k', ts) ->
    exists l' ts' B bs, plain ts = Some l' /\ doc_means R L e doc ts' bs /\ Permutation l' ts' /\ Permutation bs (A ++ B) /\ fresh k k' B.
  Proof.
    induction 1 as [e|e ns body iri r l A H H0 IH|e body iri r l A H H0 IH|e s p v q r l A1 A2 A3 H1 H2 H3 IH]; intros T F k k' ts G.
    - cbn [gen_doc] in G. injection G as <- <-. exists [], [], [], []. split; auto. split; [constructor|]. auto using fresh_nil.
    - cbn [forallb stmt_flat andb] in F. inversion T; subst. destruct (IH ltac:(auto) F k k' ts G) as (l' & ts' & B & bs & P1 & P2 & P3).
      exists l', ts', B, bs. split; auto. split; auto. econstructor; eauto.
    - cbn [forallb stmt_flat andb] in F. inversion T; subst. destruct (IH ltac:(auto) F k k' ts G) as (l' & ts' & B & bs & P1 & P2 & P3).
      exists l', ts', B, bs. split; auto. split; auto. econstructor; eauto.
    - cbn [forallb stmt_flat] in F. rewrite !andb_true_iff in F. destruct F as ((F1 & F2) & F3). inversion T as [|? ? Tx T3]; subst. destruct Tx as [T1 T2].
      cbn [gen_doc gen_stmt fst snd] in G.
      unfold gen_stmt in G. cbn [fst snd] in G. destruct (gen_val k v) as [[n1 ts1] nd] eqn:E1.
      destruct (gen_pol n1 nd q) as [n2 ts2] eqn:E2. destruct (gen_doc n2 l) as [n3 ts3] eqn:E3. injection G as <- <-.
      destruct (gen_all R e L) as (Q1 & _ & Q3).
      destruct (Q1 _ _ _ _ _ _ _ H1 T1 F1 E1) as (l1 & ts1' & B1 & bs1 & P1 & P2 & P3 & P4 & P5).
      destruct (Q3 _ _ _ _ _ _ _ H2 T2 F2 E2) as (l2 & ts2' & B2 & bs2 & P6 & P7 & P8 & P9 & P10).
      destruct (IH T3 F3 _ _ _ E3) as (l3 & ts3' & B3 & bs3 & P11 & P12 & P13 & P14 & P15).
      exists ((l1 ++ l2) ++ l3), (ts1' ++ ts2' ++ ts3'), (B1 ++ B2 ++ B3), (bs1 ++ bs2 ++ bs3).
      rewrite !plain_app, P1, P6, P11. split; auto. split; [econstructor; eauto|]. split; [|split].
      + rewrite <- app_assoc. repeat apply Permutation_app; auto.
      + clear -P4 P9 P14. perm N.eq_dec.
      + eapply fresh_app; eauto. eapply fresh_app; eauto.
  Qed.

  Lemma env0_is : forall base, env_is (env0 base) (ts_pm (ts_new n base)) (ts_base (ts_new n base)).
  Proof.
    intro base. split; reflexivity.
  Qed.
  Lemma env0_no_lt : forall base, ~ In 60 base -> env_no_lt (env0 base).
  Proof.
    intros base H. split; auto. cbn [env0 e_pfx]. intros x p E.
    destruct (str_eq_dec x (s2l "rdf")); [injection E as <-; apply not_in_b; vm_compute; reflexivity|].
    destruct (str_eq_dec x (s2l "xsd")); [injection E as <-; apply not_in_b; vm_compute; reflexivity|discriminate].
  Qed.

  Theorem turtle_sound : forall base doc n' ts, ~ In 60 base -> Forall stmt_tokens doc -> forallb stmt_flat doc = true ->
    turtle_run uj n base doc = (n', Ok ts) ->
    exists L l ts' bs, plain ts = Some l /\ Permutation l ts' /\ doc_means R L (env0 base) doc ts' bs /\
      NoDup bs /\ (forall a, In a bs -> n <= a < n') /\
      (forall x, In x (doc_labels doc) -> n <= L x < n' /\ ~ In (L x) bs) /\
      (forall x y, In x (doc_labels doc) -> In y (doc_labels doc) -> L x = L y -> x = y).
  Proof.
    intros base doc n' ts NB T F H. unfold turtle_run in H.
    destruct (e_doc uj (ts_new n base) doc) as [st [l|err]] eqn:E; [|discriminate].
    destruct (gen_doc (bs_next (ts_bn st)) l) as [k' ts1] eqn:G. injection H as <- <-.
    assert (I0 : binv n (ts_bn (ts_new n base)) []).
    { unfold binv. cbn. repeat split; try constructor. lia. }
    destruct (eager_doc doc _ st l [] (env0 base) (env0_is base) (env0_no_lt base NB) T I0 E) as (B & I & X & Lb & EV).
    cbn [app] in I. set (L := fun x => match dget str_eq_dec (bs_map (ts_bn st)) x with Some a => a | None => 0 end).
    assert (AG : agrees L (ts_bn st)) by (intros x a D; unfold L; rewrite D; reflexivity).
    destruct (gen_doc_ok L _ _ _ _ (EV L AG) T F _ _ _ G) as (l' & ts' & B' & bs & P1 & P2 & P3 & P4 & P5).
    exists L, l', ts', bs. split; auto. split; auto. split; auto.
    destruct I as (ND & FA & K & LE). destruct P5 as (ND' & FA' & LE'). rewrite Forall_forall in FA, FA'.
    assert (ND0 : NoDup (B ++ B')).
    { clear -ND ND' FA FA'. induction B as [|x B IH]; cbn [app]; auto.
      cbn [app] in ND. inversion ND; subst. constructor.
      - intro J. apply in_app_or in J. destruct J as [J|J]; [apply H1; apply in_or_app; auto|].
        specialize (FA' _ J). specialize (FA x (or_introl eq_refl)). lia.
      - apply IH; auto. intros y J. apply FA. now right. }
    assert (IN : forall a, In a bs <-> In a (B ++ B')).
    { intro a. split; intro J; [apply (Permutation_in a P4 J)|apply (Permutation_in a (Permutation_sym P4) J)]. }
    assert (LV : forall x, In x (doc_labels doc) -> exists a, dget str_eq_dec (bs_map (ts_bn st)) x = Some a /\ L x = a /\ In a (dvals (bs_map (ts_bn st)))).
    { intros x J. destruct (Lb x J) as [a D]. exists a. split; auto. split; [apply AG; auto|]. apply (In_dvals str_eq_dec); eauto. }
    split; [eapply Permutation_NoDup; [apply Permutation_sym; exact P4|auto]|]. split; [|split].
    - intros a J. apply IN in J. apply in_app_or in J. destruct J as [J|J].
      + specialize (FA a (in_or_app _ _ _ (or_introl J))). lia.
      + specialize (FA' a J). lia.
    - intros x J. destruct (LV x J) as (a & D & -> & V). specialize (FA a (in_or_app _ _ _ (or_intror V))) as FA1. split; [lia|].
      intro Q. apply IN in Q. apply in_app_or in Q. destruct Q as [Q|Q].
      + apply in_split in Q. destruct Q as (b1 & b2 & ->). rewrite <- app_assoc in ND. cbn [app] in ND. apply NoDup_remove_2 in ND.
        apply ND. apply in_or_app. right. apply in_or_app. auto.
      + specialize (FA' _ Q). lia.
    - intros x y J1 J2 Q. destruct (LV x J1) as (a & D1 & E1 & V1). destruct (LV y J2) as (b & D2 & E2 & V2). rewrite E1, E2 in Q. subst b.
      assert (NV : NoDup (dvals (bs_map (ts_bn st)))).
      { clear -ND. induction B as [|z B IH]; auto. apply IH. inversion ND; auto. }
      apply (dget_Some_In str_eq_dec) in D1, D2. clear -NV D1 D2.
      induction (bs_map (ts_bn st)) as [|[k v] d IH]; [destruct D1|]. cbn [dvals map snd] in NV. inversion NV; subst.
      assert (VI : forall z, In (z, a) d -> In a (map snd d)) by (intros z J; apply (in_map snd) in J; auto).
      destruct D1 as [D1|D1], D2 as [D2|D2].
      + congruence.
      + injection D1 as -> ->. exfalso. eauto.
      + injection D2 as -> ->. exfalso. eauto.
      + apply IH; auto.
  Qed.

  (** *** completeness: a document with a meaning is accepted *)
  Section Total.
    Variables (e : tenv) (pm : dict str str) (base : str).
    Hypotheses (HE : env_is e pm base) (HN : env_no_lt e).
    Variable L : str -> N.
    Lemma eager_total :
      (forall o x ts bs b, obj_tokens o -> obj_means R e L o x ts bs -> exists b' v, e_obj uj pm base b o = (b', Ok v)) /\
      (forall l, (forall x ts bs b, objs_tokens l -> obj_means R e L (TColl l) x ts bs -> exists b' v, e_objs uj pm base b l = (b', Ok v)) /\
         (forall v s r ts bs b, objs_tokens l -> pol_means R e L s (PCons v l r) ts bs ->
            (l <> ONil -> exists p, verb_means R e v p) /\ (exists b' vs, e_objs uj pm base b l = (b', Ok vs)) /\
            exists ts' bs', pol_means R e L s r ts' bs')) /\
      (forall p s ts bs b, pol_tokens p -> pol_means R e L s p ts bs -> exists b' q, e_pol uj pm base b p = (b', Ok q)).
    Proof.
      apply tree_ind3.
      - intros i x ts bs b T H. inversion H; subst. exists b. cbn [e_obj]. rewrite (iri_complete uj e pm base _ _ HE HN H1). cbn [bind]. eauto.
      - intros l x ts bs b T H. cbn [e_obj]. destruct (make_bnode b l). eauto.
      - intros x ts bs b T H. cbn [e_obj]. eauto.
      - intros l [IH _] x ts bs b T H. destruct (IH x ts bs b T H) as (b' & v & E). rewrite eq_coll, E. cbn [bind]. eauto.
      - intros p IH x ts bs b T H. inversion H; subst. destruct (IH _ _ _ b T H1) as (b' & v & E). rewrite eq_props, E. cbn [bind]. eauto.
      - intros y x ts bs b T H. inversion H; subst. exists b. cbn [e_obj]. rewrite (lit_complete uj e pm base _ _ HE HN H1). cbn [bind]. eauto.
      - split; [cbn [e_objs]; eauto|]. intros v s r ts bs b T H. inversion H; subst. split; [congruence|]. split; [cbn [e_objs]; eauto|eauto].
      - intros o IHo r [IH1 IH2]. split.
        + intros x ts bs b [T1 T2] H. inversion H; subst.
          match goal with M1 : obj_means _ _ _ o _ _ _, M2 : obj_means _ _ _ (TColl r) _ _ _ |- _ =>
            destruct (IHo _ _ _ b T1 M1) as (b1 & v1 & E1); destruct (IH1 _ _ _ b1 T2 M2) as (b2 & v2 & E2) end. rewrite eq_ocons, E1, E2. cbn [bind]. eauto.
        + intros v s r' ts bs b [T1 T2] H. inversion H; subst. split; [eauto|].
          match goal with M1 : obj_means _ _ _ o _ _ _, M2 : pol_means _ _ _ _ (PCons _ r _) _ _ |- _ =>
            destruct (IHo _ _ _ b T1 M1) as (b1 & v1 & E1); destruct (IH2 _ _ _ _ _ b1 T2 M2) as (_ & (b2 & v2 & E2) & M) end.
          split; auto. rewrite eq_ocons, E1, E2. cbn [bind]. eauto.
      - intros s ts bs b T H. cbn [e_pol]. eauto.
      - intros v os [_ IHo] r IHr s ts bs b (T0 & NE & T1 & T2) H.
        destruct (IHo v s r ts bs b T1 H) as (HV & (b1 & vs & E1) & ts' & bs' & HP). destruct (HV NE) as [p Hp].
        destruct (IHr s ts' bs' b1 T2 HP) as (b2 & q & E2). rewrite eq_pcons, (verb_complete uj e pm base _ _ HE HN Hp), E1, E2. cbn [bind]. eauto.
    Qed.
  End Total.

  Lemma doc_total : forall L e doc ts bs, doc_means R L e doc ts bs -> Forall stmt_tokens doc -> env_no_lt e ->
    forall st, env_is e (ts_pm st) (ts_base st) -> exists st' l, e_doc uj st doc = (st', Ok l).
  Proof.
    induction 1 as [e|e ns body iri r ts bs M H IH|e body iri r ts bs M H IH|e s p r x ts1 ts2 ts3 bs1 bs2 bs3 M1 M2 H IH];
      intros T N st E; cbn [e_doc e_stmt].
    - eauto.
    - inversion T; subst. rewrite <- (proj2 E). rewrite (ref_complete uj e body iri M). cbn [bind].
      destruct (IH ltac:(auto) (no_lt_bind _ ns _ N (ref_means_no_lt _ _ _ _ HC (proj1 N) M))
        (mkTS (dset str_eq_dec (ts_pm st) ns iri) (e_base e) (ts_bn st))) as (st' & l & X).
      { cbn [ts_pm ts_base]. apply env_bind. rewrite (proj2 E). auto. }
      rewrite X. cbn [bind]. eauto.
    - inversion T; subst. rewrite <- (proj2 E). rewrite (ref_complete uj e body iri M). cbn [bind].
      destruct (IH ltac:(auto) (no_lt_base _ _ N (ref_means_no_lt _ _ _ _ HC (proj1 N) M))
        (mkTS (ts_pm st) iri (ts_bn st))) as (st' & l & X).
      { split; [apply E|reflexivity]. }
      rewrite X. cbn [bind]. eauto.
    - inversion T as [|? ? Tx T3]; subst. destruct Tx as [T1 T2]. destruct (eager_total e _ _ E N L) as (P1 & _ & P3).
      destruct (P1 _ _ _ _ (ts_bn st) T1 M1) as (b1 & v & E1). rewrite E1.
      destruct (P3 _ _ _ _ b1 T2 M2) as (b2 & q & E2). rewrite E2. cbn [bind].
      destruct (IH T3 N (mkTS (ts_pm st) (ts_base st) b2) E) as (st' & l & X). rewrite X. cbn [bind]. eauto.
  Qed.
  Theorem turtle_complete : forall base doc L ts bs, ~ In 60 base -> Forall stmt_tokens doc ->
    doc_means R L (env0 base) doc ts bs -> exists n' out, turtle_run uj n base doc = (n', Ok out).
  Proof.
    intros base doc L ts bs NB T M. unfold turtle_run.
    destruct (doc_total L _ doc ts bs M T (env0_no_lt base NB) (ts_new n base) (env0_is base)) as (st & l & ->).
    destruct (gen_doc (bs_next (ts_bn st)) l). eauto.
  Qed.
  Lemma turtle_err : forall base doc n' err, turtle_run uj n base doc = (n', Err err) -> err = VisitError.
  Proof.
    intros base doc n' err H. unfold turtle_run in H. destruct (e_doc uj (ts_new n base) doc) as [st [l|x]]; [destruct (gen_doc (bs_next (ts_bn st)) l)|]; inversion H. auto.
  Qed.
End Doc.
