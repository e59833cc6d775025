(** What the parsers add are RDF triples (C99). *)
From Coq Require Import Permutation.
From Verif Require Import Model.Py Model.Terms Model.Graph Model.Codec Model.NTriples Model.Curie Model.TurtleTree
  Model.Turtle Model.TurtleParse Spec.CodecSpec Spec.NTSpec Spec.TurtleSpec Spec.TurtleTextSpec Spec.NTTextSpec Spec.RdfSpec
  Proofs.TurtleLemmas Proofs.TurtleSem Proofs.TurtleMore Proofs.GraphInv Proofs.TurtleReject.
Open Scope N_scope.

(** ** predicates on the tokens of a tree *)
Section All.
  Variables (Pi : tiri -> Prop) (Pl : tlit -> Prop).
  Definition verb_all (v : tverb) : Prop := match v with VA => True | VIri i => Pi i end.
  Fixpoint obj_all (o : tobj) : Prop :=
    match o with TIri i => Pi i | TLit x => Pl x | TColl l => objs_all l | TProps p => pol_all p | _ => True end
  with objs_all (l : tobjs) : Prop := match l with ONil => True | OCons o r => obj_all o /\ objs_all r end
  with pol_all (p : tpol) : Prop := match p with PNil => True | PCons v os r => verb_all v /\ objs_all os /\ pol_all r end.
  Definition stmt_all (x : tstmt) : Prop :=
    match x with SPrefix _ body | SBase body => Pi (TRef body) | STriples s p => subject_form s /\ obj_all s /\ pol_all p end.

  Variable Q : str -> Prop.
  Hypothesis QA : forall a b, Q (a ++ b) -> Q a /\ Q b.
  Hypothesis Hi : forall i s, iri_text i s -> Q s -> Pi i.
  Hypothesis Hl : forall x s, lit_text gap x s -> Q s -> Pl x.
  Ltac parts := repeat match goal with H : Q (_ ++ _) |- _ => apply QA in H; destruct H end.
  Lemma verb_all_text : forall v s, verb_text v s -> Q s -> verb_all v.
  Proof. intros v s [|i t I] C; cbn; auto. eapply Hi; eauto. Qed.
  Lemma all_text : forall b,
    (forall o s, obj_text b o s -> Q s -> obj_all o) /\ (forall l s, items_text b l s -> Q s -> objs_all l) /\
    (forall l s, objs_text b l s -> Q s -> objs_all l) /\ (forall p s, pol_text b p s -> Q s -> pol_all p).
  Proof.
    intro b. set (PO := fun o s => Q s -> obj_all o). set (PI := fun l s => Q s -> objs_all l). set (PP := fun p s => Q s -> pol_all p).
    assert (H1 : forall i s, iri_text i s -> PO (TIri i) s) by (intros i s I C; eapply Hi; eauto).
    assert (H2 : forall s, label s -> PO (TLabel s) s) by (intros s L C; exact Logic.I).
    assert (H3 : forall w, ws0 w -> PO TAnon ([91] ++ w ++ [93])) by (intros w W C; exact Logic.I).
    assert (H4 : forall l w s, gap w -> items_text b l s -> PI l s -> PO (TColl l) ([40] ++ w ++ s ++ [41])).
    { intros l w s _ _ IH C. parts. cbn. apply IH. auto. }
    assert (H5 : forall p w s w', gap w -> pol_text b p s -> PP p s -> gap w' -> PO (TProps p) ([91] ++ w ++ s ++ w' ++ [93])).
    { intros p w s w' _ _ IH _ C. parts. cbn. apply IH. auto. }
    assert (H6 : forall x s, lit_text gap x s -> PO (TLit x) s) by (intros x s L C; eapply Hl; eauto).
    assert (I1 : PI ONil []) by (intro C; exact Logic.I).
    assert (I2 : forall o s w, obj_text b o s -> PO o s -> gap w -> PI (OCons o ONil) (s ++ w)).
    { intros o s w _ IH _ C. parts. split; [apply IH; auto|exact Logic.I]. }
    assert (I3 : forall o s w r t, obj_text b o s -> PO o s -> apart b w t -> items_text b r t -> PI r t -> r <> ONil -> PI (OCons o r) (s ++ w ++ t)).
    { intros o s w r t _ IH _ _ IHI _ C. parts. split; auto. }
    assert (L1 : forall o s, obj_text b o s -> PO o s -> PI (OCons o ONil) s).
    { intros o s _ IH C. split; [apply IH; auto|exact Logic.I]. }
    assert (L2 : forall o s w w' r t, obj_text b o s -> PO o s -> gap w -> gap w' -> objs_text b r t -> PI r t -> PI (OCons o r) (s ++ w ++ [44] ++ w' ++ t)).
    { intros o s w w' r t _ IH _ _ _ IHL C. parts. split; auto. }
    assert (P1 : forall v s w os t, verb_text v s -> apart b w t -> objs_text b os t -> PI os t -> PP (PCons v os PNil) (s ++ w ++ t)).
    { intros v s w os t V _ _ IH C. parts. cbn. repeat split; auto. eapply verb_all_text; eauto. }
    assert (P2 : forall p s w, pol_text b p s -> PP p s -> gap w -> PP p (s ++ w ++ [59])).
    { intros p s w _ IH _ C. parts. auto. }
    assert (P3 : forall v s w os t m p t2, verb_text v s -> apart b w t -> objs_text b os t -> PI os t -> semis m -> pol_text b p t2 -> PP p t2 ->
      PP (PCons v os p) (s ++ w ++ t ++ m ++ t2)).
    { intros v s w os t m p t2 V _ _ IH _ _ IHP C. parts. cbn. split; [eapply verb_all_text; eauto|]. split; auto. }
    repeat split; intros.
    - eapply (obj_text_i b PO PI PI PP); eauto.
    - eapply (items_text_i b PO PI PI PP); eauto.
    - eapply (objs_text_i b PO PI PI PP); eauto.
    - eapply (pol_text_i b PO PI PI PP); eauto.
  Qed.
  Hypothesis Hr : forall body, units (fun c => ~ iri_illegal c) false body -> Q body -> Pi (TRef body).
  Lemma ref_all : forall body, iri_text (TRef body) ([60] ++ body ++ [62]) -> Q body -> Pi (TRef body).
  Proof. intros body I C. inversion I; subst. auto. Qed.
  Lemma stmt_all_text : forall b x tight s, stmt_text b x tight s -> Q s -> stmt_all x.
  Proof.
    intros b x tight s T C. destruct (all_text b) as (TO & _ & _ & TP).
    destruct T as [ns w1 w2 body w3 P G1 N1 G2 I G3|w1 body w3 G1 I G3|kw ns w1 w2 body KW P G1 N1 G2 I|kw w1 body KW G1 I|s t w p t2 w2 tight SF O A L G2 TI|q t w2 O G2];
      parts; cbn [stmt_all]; try (apply ref_all; assumption).
    - repeat split; eauto.
    - split; [exact I|]. split; [exact (TO _ _ O ltac:(assumption))|exact I].
  Qed.
  Lemma doc_all_text : forall b d s, doc_text b d s -> Q s -> Forall stmt_all d.
  Proof.
    induction 1 as [w G|x tight s r t T D IH ST|w d t G D IH]; intro C; parts; auto. constructor; auto. eapply stmt_all_text; eauto.
  Qed.
End All.

(** ** the tags of the literals are not empty *)
Definition tagged (x : tlit) : Prop := match x with TStr _ (SfLang []) => False | _ => True end.
Lemma doc_tagged : forall b d s, doc_text b d s -> Forall (stmt_all (fun _ => True) tagged) d.
Proof.
  intros b d s T. apply (doc_all_text _ _ (fun _ => True)) with (b := b) (s := s); auto.
  intros x t [body u S|body u w tag S G L|body u w w' i u' S G G' I|k u N|u B] _; cbn; auto.
  destruct tag; auto. destruct L as (a & r & E & _ & N & _). destruct a; [now apply N|discriminate].
Qed.

(** ** the first pass *)
Definition val_subject (v : tval) : Prop := match v with VTerm t => rdf_subject t | _ => True end.
Fixpoint val_ok (v : tval) : Prop := match v with VTerm t => rdf_object false t | VColl l => vals_ok l | VProps p => vpol_ok p end
with vals_ok (l : tvals) : Prop := match l with VNil => True | VCons v r => val_ok v /\ vals_ok r end
with vpol_ok (p : vpol) : Prop := match p with VPNil => True | VPCons t os r => rdf_predicate t /\ vals_ok os /\ vpol_ok r end.
Section Eager.
  Variables (uj : urljoin_fn) (pm : dict str str) (base : str).
  Let A := obj_all (fun _ => True) tagged.
  Lemma e_lit_ok : forall x t, tagged x -> e_lit uj pm base x = Ok t -> rdf_object false t.
  Proof.
    intros [body [|tag|i]|k tok|tok] t T E; cbn in E.
    - apply bind_ok in E. destruct E as (v & _ & E). injection E as <-. constructor.
    - apply bind_ok in E. destruct E as (v & _ & E). injection E as <-. destruct tag; [destruct T|]. cbn. constructor. discriminate.
    - apply bind_ok in E. destruct E as (v & _ & E). apply bind_ok in E. destruct E as (d & _ & E). injection E as <-. constructor.
    - injection E as <-. constructor.
    - injection E as <-. constructor.
  Qed.
  Lemma e_verb_ok : forall v t, e_verb uj pm base v = Ok t -> rdf_predicate t.
  Proof. intros [|i] t E; cbn in E; [injection E as <-; exact I|]. apply bind_ok in E. destruct E as (s & _ & E). injection E as <-. exact I. Qed.
  Lemma e_ok :
    (forall o, obj_all (fun _ => True) tagged o -> forall b b' v, e_obj uj pm base b o = (b', Ok v) -> val_ok v /\ (subject_form o -> val_subject v)) /\
    (forall l, objs_all (fun _ => True) tagged l -> forall b b' v, e_objs uj pm base b l = (b', Ok v) -> vals_ok v) /\
    (forall p, pol_all (fun _ => True) tagged p -> forall b b' v, e_pol uj pm base b p = (b', Ok v) -> vpol_ok v).
  Proof.
    apply tree_ind3.
    - intros i _ b b' v E. cbn [e_obj e_objs e_pol] in E. injection E as _ E. apply bind_ok in E. destruct E as (s & _ & E). injection E as <-. cbn. auto.
    - intros l _ b b' v E. cbn [e_obj e_objs e_pol] in E. destruct (make_bnode b l) as [b1 t] eqn:M. injection E as _ <-.
      assert (Q : exists k, t = BNode k).
      { unfold make_bnode in M. destruct (dget str_eq_dec (bs_map b) l); injection M as _ <-; eauto. }
      destruct Q as [k ->]. cbn. auto.
    - intros _ b b' v E. cbn [e_obj e_objs e_pol] in E. injection E as _ <-. cbn. auto.
    - intros l IH T b b' v E. rewrite eq_coll in E. destruct (e_objs uj pm base b l) as [b1 [vs|e]] eqn:M; [|cbn [bind] in E; discriminate E]. cbn [bind] in E. injection E as _ <-. cbn. split; eauto.
    - intros p IH T b b' v E. rewrite eq_props in E. destruct (e_pol uj pm base b p) as [b1 [vs|e]] eqn:M; [|cbn [bind] in E; discriminate E]. cbn [bind] in E. injection E as _ <-. cbn. split; eauto.
    - intros x T b b' v E. cbn [e_obj e_objs e_pol] in E. injection E as _ E. apply bind_ok in E. destruct E as (t & E & E2). injection E2 as <-. split; [eapply e_lit_ok; eauto|intros []].
    - intros _ b b' v E. cbn [e_obj e_objs e_pol] in E. injection E as _ <-. exact I.
    - intros o IHo r IHr [T1 T2] b b' v E. rewrite eq_ocons in E. destruct (e_obj uj pm base b o) as [b1 [x|e]] eqn:M; [|cbn [bind] in E; discriminate E].
      destruct (e_objs uj pm base b1 r) as [b2 [vs|e]] eqn:M2; [|cbn [bind] in E; discriminate E]. injection E as _ <-. split; [eapply IHo; eauto|eauto].
    - intros _ b b' v E. cbn [e_obj e_objs e_pol] in E. injection E as _ <-. exact I.
    - intros v os IHo r IHr (T1 & T2 & T3) b b' q E. rewrite eq_pcons in E. destruct (e_verb uj pm base v) as [t|e] eqn:V; [|cbn [bind] in E; discriminate E].
      destruct (e_objs uj pm base b os) as [b1 [x|e]] eqn:M; [|cbn [bind] in E; discriminate E].
      destruct (e_pol uj pm base b1 r) as [b2 [vs|e]] eqn:M2; [|cbn [bind] in E; discriminate E]. injection E as _ <-. split; [eapply e_verb_ok; eauto|split; eauto].
  Qed.
End Eager.
Definition pair_ok (x : tval * vpol) : Prop := val_ok (fst x) /\ val_subject (fst x) /\ vpol_ok (snd x).
Lemma e_doc_ok : forall uj d st st' l, Forall (stmt_all (fun _ => True) tagged) d -> e_doc uj st d = (st', Ok l) -> Forall pair_ok l.
Proof.
  induction d as [|x d IH]; intros st st' l T E; cbn in E; [injection E as _ <-; constructor|]. inversion_clear T as [|? ? T1 T2].
  destruct (e_stmt uj st x) as [st1 [y|e]] eqn:S; [|cbn [bind] in E; discriminate E]. destruct (e_doc uj st1 d) as [st2 [zs|e]] eqn:D; [|cbn [bind] in E; discriminate E].
  injection E as _ <-. specialize (IH _ _ _ T2 D). destruct y as [z|]; auto. constructor; auto.
  destruct x as [ns b|b|s p]; cbn [e_stmt] in S.
  - destruct (do s <- decode_iriref b ; smart_urljoin uj (ts_base st) s); discriminate S.
  - destruct (do s <- decode_iriref b ; smart_urljoin uj (ts_base st) s); discriminate S.
  - destruct T1 as (SF & TS & TP). destruct (e_obj uj (ts_pm st) (ts_base st) (ts_bn st) s) as [b1 [v|e]] eqn:EO; [|cbn [bind] in S; discriminate S].
    destruct (e_pol uj (ts_pm st) (ts_base st) b1 p) as [b2 [q|e]] eqn:EP; [|cbn [bind] in S; discriminate S]. injection S as _ <-.
    destruct (e_ok uj (ts_pm st) (ts_base st)) as (HO & _ & HP). destruct (HO s TS _ _ _ EO) as [V1 V2]. unfold pair_ok; cbn. eauto.
Qed.

(** ** the second pass *)
Definition gt_ok (t : gtriple) : Prop :=
  rdf_subject (gt_s t) /\ rdf_predicate (gt_p t) /\ match gt_o t with GTerm o => rdf_object false o | GGen => True end.
Lemma gen_many_ok : forall s p l, rdf_subject s -> rdf_predicate p -> vals_ok l -> Forall gt_ok (gen_many s p l).
Proof.
  induction l as [|v r IH]; intros S P V; cbn; [constructor|]. destruct V as [V1 V2]. constructor; auto. repeat split; auto. destruct v; cbn; auto.
Qed.
Lemma subject_object : forall t, rdf_subject t -> rdf_object false t.
Proof. intros [s|n|v l d] H; cbn; auto. destruct H. Qed.
Lemma gen_ok :
  (forall v, val_ok v -> forall n n' ts x, gen_val n v = (n', ts, x) -> Forall gt_ok ts /\ rdf_object false x /\ (val_subject v -> rdf_subject x)) /\
  (forall l, vals_ok l -> (forall n n' ts x, gen_coll n l = (n', ts, x) -> Forall gt_ok ts /\ rdf_subject x) /\
     (forall n s p n' ts, rdf_subject s -> rdf_predicate p -> gen_objs n s p l = (n', ts) -> Forall gt_ok ts)) /\
  (forall p, vpol_ok p -> forall n s n' ts, rdf_subject s -> gen_pol n s p = (n', ts) -> Forall gt_ok ts).
Proof.
  apply val_ind3.
  - intros t V n n' ts x E. cbn in E. injection E as _ <- <-. auto.
  - intros l IH V n n' ts x E. cbn in E, V. destruct (IH V) as [H _]. destruct (H _ _ _ _ E) as [A B]. split; auto. split; [now apply subject_object|auto].
  - intros p IH V n n' ts x E. cbn [gen_val] in E. destruct (gen_pol (n + 1) (BNode n) p) as [m us] eqn:G. injection E as _ <- <-.
    split; [eapply IH; eauto; exact I|]. cbn. auto.
  - intros _. split.
    + intros n n' ts x E. cbn in E. injection E as _ <- <-. split; [constructor|exact I].
    + intros n s p n' ts S P E. cbn in E. injection E as _ <-. constructor.
  - intros v IHv r IHr [V1 V2]. destruct (IHr V2) as [IHc _]. split.
    + intros n n' ts x E. cbn [gen_coll] in E. destruct (gen_coll n r) as [[n1 us] pr] eqn:G1. destruct (gen_val (n1 + 1) v) as [[n2 tv] nd] eqn:G2.
      injection E as _ <- <-. destruct (IHc _ _ _ _ G1) as [A B]. destruct (IHv V1 _ _ _ _ G2) as (C & D & _). split; [|exact I].
      rewrite !Forall_app. split; auto. split; auto. repeat constructor; auto. now apply subject_object.
    + intros n s p n' ts S P E. unfold gen_objs in E. destruct r as [|w r].
      * destruct (gen_val n v) as [[n2 tv] nd] eqn:G2. injection E as _ <-. destruct (IHv V1 _ _ _ _ G2) as (C & D & _). rewrite Forall_app. split; auto. repeat constructor; auto.
      * apply (f_equal snd) in E. cbn [snd] in E. rewrite <- E. apply gen_many_ok; auto. split; auto.
  - intros _ n s n' ts S E. cbn in E. injection E as _ <-. constructor.
  - intros t os IHo r IHr (V1 & V2 & V3) n s n' ts S E. cbn [gen_pol] in E. fold (gen_objs n s t os) in E.
    destruct (gen_objs n s t os) as [n1 us] eqn:G1. destruct (gen_pol n1 s r) as [n2 us2] eqn:G2. injection E as _ <-.
    rewrite Forall_app. destruct (IHo V2) as [_ H]. eauto.
Qed.
Lemma gen_doc_ok : forall l n n' ts, Forall pair_ok l -> gen_doc n l = (n', ts) -> Forall gt_ok ts.
Proof.
  destruct gen_ok as (GV & _ & GP).
  induction l as [|[v p] l IH]; intros n n' ts F E; cbn in E; [injection E as _ <-; constructor|]. inversion_clear F as [|? ? (A & B & C) F'].
  cbn in A, B, C. unfold gen_stmt in E. cbn [fst snd] in E. destruct (gen_val n v) as [[n1 us] z] eqn:G1. destruct (gen_pol n1 z p) as [n2 us2] eqn:G2.
  destruct (gen_doc n2 l) as [n3 us3] eqn:G3. injection E as _ <-. destruct (GV v A _ _ _ _ G1) as (H1 & H2 & H3).
  rewrite !Forall_app. split; [split; [exact H1|exact (GP p C _ _ _ _ (H3 B) G2)]|exact (IH _ _ _ F' G3)].
Qed.
Lemma plain_ok : forall l ts, Forall gt_ok l -> plain l = Some ts -> Forall (rdf_triple false) ts.
Proof.
  induction l as [|[s p [o|]] l IH]; intros ts F E; cbn in E; [injection E as <-; constructor| |discriminate]. inversion_clear F as [|? ? (A & B & C) F'].
  destruct (plain l) as [us|]; [|discriminate]. injection E as <-. constructor; auto. repeat split; auto.
Qed.
Lemma turtle_rdf : forall uj n base g x n' g', turtle_parse uj n base g x = Some (n', g', Ok tt) ->
  forall t, In t (g_iter g') -> In t (g_iter g) \/ rdf_triple false t.
Proof.
  intros uj n base g x n' g' E t J. unfold turtle_parse in E. destruct (tsource_text x) as [s|e]; cbn [bind] in E; [|discriminate].
  destruct (turtle_text s) as [d|e] eqn:T; [|discriminate]. assert (D := doc_tagged _ _ _ (turtle_text_sound d s T)).
  unfold turtle_add, turtle_run in E. destruct (e_doc uj (ts_new n base) d) as [st [l|e]] eqn:ED; [|discriminate].
  destruct (gen_doc (bs_next (ts_bn st)) l) as [m ts] eqn:G. destruct (plain ts) as [us|] eqn:P; [|discriminate]. injection E as _ <-.
  assert (K := plain_ok _ _ (gen_doc_ok _ _ _ _ (e_doc_ok _ _ _ _ _ D ED) G) P). rewrite Forall_forall in K.
  unfold g_iter in J. rewrite g_addAll_In in J. destruct J as [J|J]; auto.
Qed.
