(** C84, C86: Turtle output as a text of the grammar, and what it means. *)
From Coq Require Import Permutation Sorted.
From Verif Require Import Model.Py Model.Terms Model.Graph Model.GraphRun Model.Curie Model.TurtleTree Model.Resource Model.ResourceRun Model.TurtleOut
  Spec.GraphSpec Spec.CodecSpec Spec.CurieSpec Spec.TurtleSpec Spec.TurtleTextSpec Spec.ResourceSpec Spec.TurtleOutSpec
  Proofs.CodecLemmas Proofs.CurieLemmas Proofs.TurtleLemmas Proofs.TurtleScan.
Open Scope N_scope.

(** ** Texts *)
Lemma lit_gap : forall x s, lit_text ws0 x s -> lit_text gap x s.
Proof.
  intros x s T. inversion T as [b s' S|b s' w tag S W L|b s' w w' i t S W W' I|k s' K|s' B]; subst.
  - now apply lt_plain.
  - apply lt_lang; auto. now apply ws0_gap.
  - apply lt_type; auto; now apply ws0_gap.
  - now apply lt_num.
  - now apply lt_bool.
Qed.
Lemma gap_sp : gap [32].
Proof. constructor; [now left|constructor]. Qed.
Lemma gap_nl : gap [10].
Proof. constructor; [unfold ws; auto|constructor]. Qed.
Lemma gap_blanks : forall n, gap (blanks n).
Proof. induction n as [|n IH]; cbn; constructor; [now left|exact IH]. Qed.
Lemma legal_units : forall s, legal_text s -> units (fun c => ~ iri_illegal c) false s.
Proof.
  induction 1 as [|c s C F IH]; [constructor|]. apply (us_cons _ _ [c] s); auto. constructor; auto. intros ->. apply C. right. left. cbn. tauto.
Qed.
Lemma legal_ref : forall s, legal_text s -> iri_text (TRef s) ([60] ++ s ++ [62]).
Proof. intros s F. constructor. now apply legal_units. Qed.
Lemma legal_denotes : forall s, legal_text s -> denotes s s.
Proof. induction 1 as [|c s C F IH]; constructor; auto. intros ->. apply C. right. left. cbn. tauto. Qed.

(** ** The header *)
Lemma prefix_line : forall p ns d t, pn_prefix p -> legal_text ns -> doc_text true d t ->
  doc_text true (SPrefix p ns :: d) ((s2l "@prefix " ++ p ++ s2l ": <" ++ ns ++ s2l "> ." ++ nl) ++ t).
Proof.
  intros p ns d t P L T. replace ((s2l "@prefix " ++ p ++ s2l ": <" ++ ns ++ s2l "> ." ++ nl) ++ t) with
    ((s2l "@prefix" ++ [32] ++ p ++ [58] ++ [32] ++ [60] ++ ns ++ [62] ++ [32] ++ [46]) ++ [10] ++ t).
  2:{ rewrite <- !app_assoc. reflexivity. }
  apply (dx_first true _ false); [|apply dx_gap; auto using gap_nl|discriminate].
  apply sx_prefix; auto using gap_sp; [discriminate|now apply legal_ref].
Qed.
Lemma base_line : forall b d t, legal_text b -> doc_text true d t ->
  doc_text true (SBase b :: d) ((s2l "@base <" ++ b ++ s2l "> ." ++ nl) ++ t).
Proof.
  intros b d t L T. replace ((s2l "@base <" ++ b ++ s2l "> ." ++ nl) ++ t) with
    ((s2l "@base" ++ [32] ++ [60] ++ b ++ [62] ++ [32] ++ [46]) ++ [10] ++ t).
  2:{ rewrite <- !app_assoc. reflexivity. }
  apply (dx_first true _ false); [|apply dx_gap; auto using gap_nl|discriminate].
  apply sx_base; auto using gap_sp. now apply legal_ref.
Qed.
Lemma header_text : forall pm base d t, header_legal pm base -> doc_text true d t ->
  doc_text true (directives pm base ++ d) (header pm base ++ t).
Proof.
  intros pm base d t [HB HP] T. unfold header, directives. rewrite <- !app_assoc.
  assert (X : doc_text true (map (fun pn => SPrefix (fst pn) (snd pn)) (filter (fun pn => if str_eq_dec (fst pn) (s2l "rdf") then false else true) pm) ++ d)
    (concat (map (fun pi => if str_eqb (fst pi) (s2l "rdf") then [] else s2l "@prefix " ++ fst pi ++ s2l ": <" ++ snd pi ++ s2l "> ." ++ nl) pm) ++ t)).
  { clear HB. induction pm as [|[p ns] pm IH]; [exact T|]. assert (IH' := IH (fun p' ns' J => HP p' ns' (or_intror J))). clear IH.
    cbn [map concat filter fst snd]. unfold str_eqb. destruct (str_eq_dec p (s2l "rdf")) as [E|N]; [exact IH'|]. cbn [map app fst snd].
    destruct (HP p ns ltac:(now left) N) as [P L]. rewrite <- app_assoc. now apply prefix_line. }
  destruct base as [b|]; [|exact X]. cbn [app]. apply base_line; auto.
Qed.

(** ** One object, one predicate, one subject *)
Section Trip.
  Variable resolves : str -> str -> str -> Prop.
  Variables (pm : dict str str) (base : option str) (B : str) (G : list stmt).
  Hypothesis RD : readable_graph resolves pm base B G.
  Notation MO := (obj_means resolves).
  Notation MP := (pol_means resolves).

  Definition has_env (P : tenv -> (str -> N) -> Prop) : Prop := forall e L, env_with pm B e -> P e L.

  Lemma iri_reads : forall s t, readable resolves pm base B (Iri s) -> turtle_repr pm base (Iri s) = Ok t ->
    exists i, iri_text i t /\ forall e, env_with pm B e -> iri_means resolves e i s.
  Proof. intros s t R E. exact (R t E). Qed.
  Lemma node_reads : forall x t, readable resolves pm base B x -> turtle_repr pm base x = Ok t ->
    exists o, obj_text true o t /\ nested o = false /\ obj_flat o = true /\ forall e L, env_with pm B e -> MO e L o (read_back x) [] [].
  Proof.
    intros x t R E. destruct x as [s|b|v l d].
    - destruct (R t E) as (i & T & M). exists (TIri i). split; [now constructor|]. do 2 (split; [reflexivity|]). intros e L H. constructor. auto.
    - discriminate.
    - destruct (R t E) as (y & T & M). exists (TLit y). split; [constructor; now apply lit_gap|]. do 2 (split; [reflexivity|]). intros e L H. constructor. auto.
  Qed.
  Lemma elements_read : forall os names, Forall (readable resolves pm base B) os -> Forall2 (fun x n => turtle_repr pm base x = Ok n) os names ->
    exists l, items_text true l (spaced names) /\ objs_flat l = true /\ (os = [] <-> l = ONil) /\
      forall e L bs, env_with pm B e -> length bs = length os -> MO e L (TColl l) (list_head bs) (chain bs (map read_back os)) bs.
  Proof.
    intros os names F F2. revert F. induction F2 as [|x n os names E F2 IH]; intro F.
    - exists ONil. split; [constructor|]. split; [reflexivity|]. split; [tauto|]. intros e L [|] H X; [constructor|discriminate].
    - inversion F as [|? ? R F']; subst. destruct (IH F') as (l & T & FL & NI & M). destruct (node_reads x n R E) as (o & TO & NO & OF & MO1).
      exists (OCons o l). split; [|split; [|split]].
      + destruct F2 as [|y m os names]; cbn [spaced].
        * assert (l = ONil) by (now apply NI). subst l. assert (X := its_last true o n [] TO gap_nil). now rewrite app_nil_r in X.
        * apply its_cons; auto; [|intro X; apply NI in X; discriminate]. split; [exact gap_sp|]. intros _. left. discriminate.
      + cbn [objs_flat]. now rewrite OF, FL.
      + split; discriminate.
      + intros e L [|b bs] H X; [discriminate|]. cbn [map chain list_head]. injection X as X.
        assert (Y := om_cons resolves e L o l (read_back x) (list_head bs) [] (chain bs (map read_back os)) b [] bs (MO1 e L H) (M e L bs H X)). exact Y.
  Qed.

  (** [k] new blank nodes *)
  Definition obj_trip (o : term) (t : str) (ob : tobj) (k : nat) : Prop :=
    obj_text true ob t /\ obj_flat ob = true /\ (nested ob = true -> list_cell G o) /\
    forall e L bs, env_with pm B e -> length bs = k -> exists x ts, MO e L ob x ts bs /\ forall s p, reads_as G (Tr s p o) (tr3 s p x :: ts) bs.
  Lemma object_trip : forall s p o t, In (Tr s p o) G -> ~ list_cell G s -> object_text pm base G o t -> exists ob k, obj_trip o t ob k.
  Proof.
    intros s p o t J NC OT. destruct (RD _ J NC) as (_ & _ & RO & RL). cbn [st_o Tr] in RO, RL. destruct OT as [[NL E]|(LC & os & names & P & F2 & ->)].
    - destruct (node_reads o t (RO NL) E) as (ob & T & NE & FL & M). exists ob, 0%nat. split; [exact T|]. split; [exact FL|]. split; [congruence|].
      intros e L [|] H X; [|discriminate]. exists (read_back o), []. split; [auto|]. intros s' p'. now apply ra_plain.
    - assert (F : Forall (readable resolves pm base B) os) by (apply Forall_forall; intros x I; exact (RL os x P I)).
      destruct (elements_read os names F F2) as (l & T & FL & _ & M). exists (TColl l), (length os). split; [|split; [exact FL|split]].
      + change (s2l "(" ++ spaced names ++ s2l ")") with ([40] ++ [] ++ spaced names ++ [41]). now apply ot_coll; [constructor|].
      + auto.
      + intros e L bs H X. exists (list_head bs), (chain bs (map read_back os)). split; [auto|]. intros s' p'. now apply ra_list.
  Qed.

  Lemma all_app : forall l l' ts ts' bs bs', all_read_as G l ts bs -> all_read_as G l' ts' bs' -> all_read_as G (l ++ l') (ts ++ ts') (bs ++ bs').
  Proof.
    intros l l' ts ts' bs bs' A A'. induction A as [|t l ts1 bs1 ts2 bs2 R A IH]; [exact A'|]. cbn. rewrite <- !app_assoc. now constructor.
  Qed.
  Lemma split_len : forall (bs : list N) k k', length bs = (k + k')%nat -> exists b1 b2, bs = b1 ++ b2 /\ length b1 = k /\ length b2 = k'.
  Proof.
    intros bs k k' E. exists (firstn k bs), (skipn k bs). split; [now rewrite firstn_skipn|]. split; [apply firstn_length_le; lia|rewrite skipn_length; lia].
  Qed.

  (** the objects of one predicate *)
  Lemma objects_trip : forall ind s p ol, gap ind -> ~ list_cell G s -> Forall (fun to => In (Tr s p (snd to)) G) ol ->
    Forall (fun to => object_text pm base G (snd to) (fst to)) ol -> ol <> [] ->
    exists obs k, TurtleTextSpec.objs_text true obs (TurtleOutSpec.objs_text ind ol) /\ objs_flat obs = true /\ length ol = length (nested_flags obs) /\
      (some_nested obs = true -> exists o, In o (map snd ol) /\ list_cell G o) /\
      forall e L v r bs bs', env_with pm B e -> length bs = k -> verb_means resolves e v p -> forall tsr, MP e L s r tsr bs' ->
        exists ts, MP e L s (PCons v obs r) (ts ++ tsr) (bs ++ bs') /\ all_read_as G (map (fun to => Tr s p (snd to)) ol) ts bs.
  Proof.
    intros ind s p ol GI NC. induction ol as [|[t o] ol IH]; intros FI FT NE; [now destruct NE|].
    inversion FI as [|? ? I0 FI']; subst. inversion FT as [|? ? T0 FT']; subst. cbn [fst snd] in *.
    destruct (object_trip s p o t I0 NC T0) as (ob & k & TX & FL & NS & M). destruct ol as [|to ol].
    - exists (OCons ob ONil), k. split; [now apply os_one|]. split; [cbn; now rewrite FL|]. split; [reflexivity|]. split.
      { cbn. rewrite orb_false_r. intro X. exists o. auto. }
      intros e L v r bs bs' H X V tsr R. destruct (M e L bs H X) as (x & ts & MX & RA). exists (tr3 s p x :: ts). split.
      + change ((tr3 s p x :: ts) ++ tsr) with (tr3 s p x :: ts ++ tsr). apply pm_cons; auto. now constructor.
      + cbn [map snd]. rewrite <- (app_nil_r (tr3 s p x :: ts)), <- (app_nil_r bs). apply ara_cons; [apply RA|constructor].
    - destruct (IH FI' FT' ltac:(discriminate)) as (obs & k' & TX' & FL' & LN & NS' & M'). exists (OCons ob obs), (k + k')%nat. split; [|split; [|split; [|split]]].
      + destruct to as [t' o'].
        change (TurtleOutSpec.objs_text ind ((t, o) :: (t', o') :: ol)) with (t ++ [] ++ [44] ++ (newline ++ ind) ++ TurtleOutSpec.objs_text ind ((t', o') :: ol)).
        apply os_cons; auto; [constructor|]. apply gap_app; [exact gap_nl|exact GI].
      + cbn. now rewrite FL, FL'.
      + cbn [nested_flags length]. rewrite <- LN. reflexivity.
      + cbn [some_nested]. intro X. apply orb_prop in X. destruct X as [X|X]; [exists o; split; [now left|auto]|]. destruct (NS' X) as (y & J & C). exists y. split; [now right|exact C].
      + intros e L v r bs bs' H X V tsr R. destruct (split_len bs k k' X) as (b1 & b2 & -> & X1 & X2).
        destruct (M e L b1 H X1) as (x & ts & MX & RA). destruct (M' e L v r b2 bs' H X2 V tsr R) as (ts' & MR & AR).
        exists ((tr3 s p x :: ts) ++ ts'). split.
        * rewrite <- !app_assoc. change ((tr3 s p x :: ts) ++ ts' ++ tsr) with (tr3 s p x :: ts ++ (ts' ++ tsr)). now apply pm_cons.
        * cbn [map snd]. apply ara_cons; [apply RA|exact AR].
  Qed.

  (** the predicates of one subject *)
  Definition pred_stmts (s : term) (e : pred_part) : list stmt := map (fun to => Tr s (snd (fst e)) (snd to)) (snd e).
  Lemma predicates_trip : forall s n pl, ~ list_cell G s -> Forall (laid_pred pm base G s) pl ->
    Forall (fun e => exists o, In (Tr s (snd (fst e)) o) G) pl -> Forall (fun e => exists i, snd (fst e) = Iri i) pl -> pl <> [] ->
    exists pol k t, preds_text n pl = t ++ [10] /\ pol_text true pol t /\ (lists_alone G -> pol_flat pol = true) /\
      forall e L bs, env_with pm B e -> length bs = k -> exists ts, MP e L s pol ts bs /\ all_read_as G (concat (map (pred_stmts s) pl)) ts bs.
  Proof.
    intros s n pl NC. induction pl as [|[[pn p] ol] pl IH]; intros FL FO FI NE; [now destruct NE|].
    inversion FL as [|? ? H0 FL']; subst. inversion FO as [|? ? [o0 O0] FO']; subst. inversion FI as [|? ? [i Ei] FI']; subst. cbn [fst snd] in *. subst p.
    destruct H0 as (RP & [ND LI] & FT).
    assert (FG : Forall (fun to => In (Tr s (Iri i) (snd to)) G) ol) by (apply Forall_forall; intros to J; apply LI; now apply in_map).
    assert (NEo : ol <> []) by (intros ->; apply LI in O0; destruct O0).
    destruct (objects_trip (blanks (n + length pn + 1)) s (Iri i) ol (gap_blanks _) NC FG FT NEo) as (obs & k & TX & FLo & LN & NS & M).
    destruct (iri_reads i pn (proj1 (proj2 (RD _ O0 NC))) RP) as (ii & TI & MI).
    assert (FLAT : lists_alone G -> negb (several obs && some_nested obs) && objs_flat obs = true).
    { intro LA. rewrite FLo, andb_true_r. destruct (some_nested obs) eqn:SN; [|now rewrite andb_false_r]. destruct (NS eq_refl) as (o & J & C). rewrite andb_true_r.
      assert (AL : forall x, In x (map snd ol) -> x = o). { intros x X. apply LI in J, X. exact (LA s (Iri i) o x J X C). }
      destruct ol as [|a [|b ol]]; [now destruct NEo| |].
      - destruct obs as [|? [|? ?]]; try reflexivity. discriminate LN.
      - exfalso. cbn in AL. assert (X := AL (snd a) ltac:(auto)). assert (Y := AL (snd b) ltac:(auto)). cbn in ND. inversion ND as [|? ? NI _]. apply NI. left. congruence. }
    assert (AP : apart true [32] (TurtleOutSpec.objs_text (blanks (n + length pn + 1)) ol)) by (split; [exact gap_sp|left; discriminate]).
    destruct pl as [|e pl].
    - exists (PCons (VIri ii) obs PNil), k, ((pn ++ [32] ++ TurtleOutSpec.objs_text (blanks (n + length pn + 1)) ol) ++ [32] ++ [59]). split; [|split; [|split]].
      + cbn [preds_text pred_text]. rewrite <- !app_assoc. reflexivity.
      + apply pt_semi; [|exact gap_sp]. apply pt_one; auto. now constructor.
      + intro LA. cbn [pol_flat]. now rewrite (FLAT LA).
      + intros en L bs H X. destruct (M en L (VIri ii) PNil bs [] H X ltac:(constructor; auto) [] ltac:(constructor)) as (ts & MR & AR). rewrite !app_nil_r in MR.
        exists ts. split; [exact MR|]. cbn [map concat pred_stmts fst snd]. now rewrite app_nil_r.
    - destruct (IH FL' FO' FI' ltac:(discriminate)) as (pol & k' & t' & E' & T' & FL2 & M').
      exists (PCons (VIri ii) obs pol), (k + k')%nat, (pn ++ [32] ++ TurtleOutSpec.objs_text (blanks (n + length pn + 1)) ol ++ ([32] ++ [59] ++ ([10] ++ blanks n)) ++ t'). split; [|split; [|split]].
      + change (preds_text n ((pn, Iri i, ol) :: e :: pl)) with (pred_text n (pn, Iri i, ol) ++ blanks n ++ preds_text n (e :: pl)). rewrite E'.
        cbn [pred_text]. rewrite <- !app_assoc. reflexivity.
      + apply pt_cons; auto; [now constructor|]. apply sm_one; [exact gap_sp|]. apply gap_app; [exact gap_nl|apply gap_blanks].
      + intro LA. cbn [pol_flat]. now rewrite (FLAT LA), (FL2 LA).
      + intros en L bs H X. destruct (split_len bs k k' X) as (b1 & b2 & -> & X1 & X2). destruct (M' en L b2 H X2) as (ts2 & MR2 & AR2).
        destruct (M en L (VIri ii) pol b1 b2 H X1 ltac:(constructor; auto) ts2 MR2) as (ts & MR & AR). exists (ts ++ ts2). split; [exact MR|].
        change (concat (map (pred_stmts s) ((pn, Iri i, ol) :: e :: pl))) with (pred_stmts s (pn, Iri i, ol) ++ concat (map (pred_stmts s) (e :: pl))). apply all_app; auto.
  Qed.

  (** the blocks *)
  Definition block_stmts (b : subj_part) : list stmt := concat (map (pred_stmts (snd (fst b))) (snd b)).
  Lemma blocks_trip : forall bl, (forall t, In t G -> exists i, st_p t = Iri i) -> Forall (laid_block pm base G) bl ->
    Forall (fun b => ~ list_cell G (snd (fst b)) /\ (exists i, snd (fst b) = Iri i) /\ exists p o, In (Tr (snd (fst b)) p o) G) bl ->
    exists d k, doc_text true d (concat (map block_text bl)) /\ (lists_alone G -> forallb stmt_flat d = true) /\
      forall e L bs, env_with pm B e -> length bs = k -> exists ts, doc_means resolves L e d ts bs /\ all_read_as G (concat (map block_stmts bl)) ts bs.
  Proof.
    intros bl IP FB FC. induction FB as [|[[sn s] pl] bl H0 FB IH].
    - exists [], 0%nat. split; [constructor; left; constructor|]. split; [reflexivity|]. intros e L [|] H X; [|discriminate]. exists []. split; constructor.
    - inversion FC as [|? ? (NC & [i Ei] & p0 & o0 & J0) FC']; subst. cbn [fst snd] in *. subst s. destruct (IH FC') as (d & k & T & FL & M).
      destruct H0 as (RS & [ND LI] & _ & FP).
      assert (NEp : pl <> []). { intros ->. assert (X : In p0 []) by (apply (LI p0); eauto). destruct X. }
      assert (FO : Forall (fun e : pred_part => exists o, In (Tr (Iri i) (snd (fst e)) o) G) pl).
      { apply Forall_forall. intros e J. apply LI. exact (in_map (fun e => snd (fst e)) _ _ J). }
      assert (FI : Forall (fun e : pred_part => exists j, snd (fst e) = Iri j) pl).
      { rewrite Forall_forall in FO |- *. intros e J. destruct (FO e J) as [o X]. exact (IP _ X). }
      destruct (predicates_trip (Iri i) (S (length sn)) pl NC FP FO FI NEp) as (pol & k1 & t & E & TP & FL1 & M1).
      destruct (iri_reads i sn (proj1 (RD _ J0 NC)) RS) as (ii & TI & MI).
      exists (STriples (TIri ii) pol :: d), (k1 + k)%nat. split; [|split].
      + cbn [map concat]. unfold block_text at 1. rewrite E.
        replace ((sn ++ s2l " " ++ (t ++ [10]) ++ blanks (S (length sn)) ++ s2l "." ++ newline ++ newline) ++ concat (map block_text bl)) with
          ((sn ++ [32] ++ t ++ ([10] ++ blanks (S (length sn))) ++ [46]) ++ (newline ++ newline) ++ concat (map block_text bl)).
        2:{ rewrite <- !app_assoc. reflexivity. }
        apply (dx_first true _ false); [| |discriminate].
        * apply sx_triples; auto; [exact I|now constructor|split; [exact gap_sp|left; discriminate]|apply gap_app; [exact gap_nl|apply gap_blanks]|left; discriminate].
        * apply dx_gap; [|exact T]. apply gap_app; exact gap_nl.
      + intro LA. cbn [forallb stmt_flat obj_flat]. now rewrite (FL1 LA), (FL LA).
      + intros e L bs H X. destruct (split_len bs k1 k X) as (b1 & b2 & -> & X1 & X2). destruct (M1 e L b1 H X1) as (ts1 & A1 & R1). destruct (M e L b2 H X2) as (ts2 & A2 & R2).
        exists (ts1 ++ ts2). split.
        * exact (dm_triples resolves L e (TIri ii) pol d (Iri i) [] ts1 ts2 [] b1 b2 ltac:(constructor; auto) A1 A2).
        * change (concat (map block_stmts ((sn, Iri i, pl) :: bl))) with (block_stmts (sn, Iri i, pl) ++ concat (map block_stmts bl)). apply all_app; auto.
  Qed.
End Trip.

(** ** A document means one set of triples, given the new blank nodes *)
Section Det.
  Variable resolves : str -> str -> str -> Prop.
  Hypothesis FUN : forall b u x y, resolves b u x -> resolves b u y -> x = y.
  Lemma ref_det : forall e body x y, ref_means resolves e body x -> ref_means resolves e body y -> x = y.
  Proof.
    intros e body x y (u & D & _ & R) (u' & D' & _ & R'). apply denotes_decode in D, D'. assert (u = u') by congruence. subst. eauto.
  Qed.
  Lemma iri_det : forall e i x y, iri_means resolves e i x -> iri_means resolves e i y -> x = y.
  Proof.
    intros e i x y M M'. inversion M as [b s R|ns ln p l N P D]; subst; inversion M' as [b' s' R'|ns' ln' p' l' N' P' D' E]; subst.
    - eapply ref_det; eauto.
    - assert (X : ns' = ns /\ ln' = ln).
      { clear - N N' E. revert ns E N N'. induction ns' as [|a ns' IH]; intros [|b ns] E N N'; cbn in *.
        - injection E. auto.
        - injection E as <- _. tauto.
        - injection E as -> _. tauto.
        - injection E as -> E. destruct (IH ns E ltac:(tauto) ltac:(tauto)) as [-> ->]. auto. }
      destruct X as [-> ->]. apply local_decode in D, D'. congruence.
  Qed.
  Lemma lit_det : forall e x t t', lit_means resolves e x t -> lit_means resolves e x t' -> t = t'.
  Proof.
    intros e x t t' M M'. destruct M as [b v D|b v tag D T|b v i d D I| | | |]; inversion M' as [b' v' D'|b' v' tag' D' T'|b' v' i' d' D' I'| | | |]; subst; auto;
      apply denotes_decode in D, D'; assert (v = v') by congruence; subst; auto. f_equal. f_equal. eapply iri_det; eauto.
  Qed.
  Lemma verb_det : forall e v p p', verb_means resolves e v p -> verb_means resolves e v p' -> p = p'.
  Proof. intros e v p p' M M'. destruct M; inversion M'; subst; auto. f_equal. eapply iri_det; eauto. Qed.
  Section Trees.
    Variables (e : tenv) (L : str -> N).
    Definition det_o (o : tobj) : Prop := forall x ts bs x' ts' bs' r r', obj_means resolves e L o x ts bs -> obj_means resolves e L o x' ts' bs' ->
      bs ++ r = bs' ++ r' -> x = x' /\ ts = ts' /\ bs = bs'.
    Definition det_p (p : tpol) : Prop := forall s ts bs ts' bs' r r', pol_means resolves e L s p ts bs -> pol_means resolves e L s p ts' bs' ->
      bs ++ r = bs' ++ r' -> ts = ts' /\ bs = bs'.
    Definition det_l (l : tobjs) : Prop := det_o (TColl l) /\ forall v p, det_p p -> det_p (PCons v l p).
    Lemma trees_det : (forall o, det_o o) /\ (forall l, det_l l) /\ (forall p, det_p p).
    Proof.
      apply tree_ind3.
      - intros i x ts bs x' ts' bs' r r' M M' E. inversion M; inversion M'; subst. split; auto. f_equal. eapply iri_det; eauto.
      - intros l x ts bs x' ts' bs' r r' M M' E. inversion M; inversion M'; subst. auto.
      - intros x ts bs x' ts' bs' r r' M M' E. inversion M; inversion M'; subst. injection E as -> _. auto.
      - intros l [H _]. exact H.
      - intros p H x ts bs x' ts' bs' r r' M M' E. inversion M as [| | | | | |? b ? bs1 P]; inversion M' as [| | | | | |? b' ? bs1' P']; subst.
        injection E as -> E. destruct (H _ _ _ _ _ _ _ P P' E) as [-> ->]. auto.
      - intros y x ts bs x' ts' bs' r r' M M' E. inversion M; inversion M'; subst. split; auto. eapply lit_det; eauto.
      - split.
        + intros x ts bs x' ts' bs' r r' M M' E. inversion M; inversion M'; subst. auto.
        + intros v p H s ts bs ts' bs' r r' M M' E. inversion M; inversion M'; subst. eapply H; eauto.
      - intros o HO l [HC HP]. split.
        + intros x ts bs x' ts' bs' r r' M M' E. inversion M as [| | | | |? ? y tl t1 t2 b b1 b2 M1 M2|]; inversion M' as [| | | | |? ? y' tl' t1' t2' b' b1' b2' M1' M2'|]; subst.
          injection E as -> E. rewrite <- !app_assoc in E. destruct (HO _ _ _ _ _ _ _ _ M1 M1' E) as (-> & -> & ->). apply app_inv_head in E.
          destruct (HC _ _ _ _ _ _ _ _ M2 M2' E) as (-> & -> & ->). auto.
        + intros v p H s ts bs ts' bs' r r' M M' E. inversion M as [| |? ? q ? ? ? y t1 t2 b1 b2 V M1 M2]; inversion M' as [| |? ? q' ? ? ? y' t1' t2' b1' b2' V' M1' M2']; subst.
          rewrite <- !app_assoc in E. destruct (HO _ _ _ _ _ _ _ _ M1 M1' E) as (-> & -> & ->). apply app_inv_head in E.
          destruct (HP v p H _ _ _ _ _ _ _ M2 M2' E) as [-> ->]. rewrite (verb_det _ _ _ _ V V'). auto.
      - intros s ts bs ts' bs' r r' M M' E. inversion M; inversion M'; subst. auto.
      - intros v l [_ HP] p H. apply HP. exact H.
    Qed.
  End Trees.
  Lemma doc_det : forall L d e ts bs ts' bs' r r', doc_means resolves L e d ts bs -> doc_means resolves L e d ts' bs' -> bs ++ r = bs' ++ r' -> ts = ts' /\ bs = bs'.
  Proof.
    intros L d e ts bs ts' bs' r r' M. revert ts' bs' r r'.
    induction M as [e|e ns body iri d ts bs R M IH|e body iri d ts bs R M IH|e s p d x t1 t2 t3 b1 b2 b3 MO MP M IH]; intros ts' bs' r r' M' E.
    - inversion M'; subst. auto.
    - inversion M'; subst. match goal with H : ref_means _ _ _ ?i |- _ => assert (X : i = iri) by (eapply ref_det; eauto); subst end. eapply IH; eauto.
    - inversion M'; subst. match goal with H : ref_means _ _ _ ?i |- _ => assert (X : i = iri) by (eapply ref_det; eauto); subst end. eapply IH; eauto.
    - inversion M' as [| | |? ? ? ? x' t1' t2' t3' b1' b2' b3' MO' MP' M3']; subst. rewrite <- !app_assoc in E. destruct (trees_det e L) as (DO & _ & DP).
      destruct (DO s _ _ _ _ _ _ _ _ MO MO' E) as (-> & -> & ->). apply app_inv_head in E. destruct (DP p _ _ _ _ _ _ _ MP MP' E) as [-> ->]. apply app_inv_head in E.
      destruct (IH _ _ _ _ M3' E) as [-> ->]. auto.
  Qed.
End Det.

(** ** The header's environment *)
Definition is_rdf (p : str) : bool := if str_eq_dec p (s2l "rdf") then true else false.
Fixpoint bind_all (e : tenv) (pm : dict str str) : tenv :=
  match pm with [] => e | (p, ns) :: r => bind_all (if is_rdf p then e else bind_prefix e p ns) r end.
Lemma bind_all_base : forall pm e, e_base (bind_all e pm) = e_base e.
Proof. induction pm as [|[p ns] pm IH]; intro e; [reflexivity|]. cbn [bind_all]. rewrite IH. now destruct (is_rdf p). Qed.
Lemma bind_all_out : forall pm e p, ~ In p (map fst pm) -> e_pfx (bind_all e pm) p = e_pfx e p.
Proof.
  induction pm as [|[q ns] pm IH]; intros e p N; [reflexivity|]. cbn [bind_all]. cbn in N. rewrite IH by tauto. destruct (is_rdf q); [reflexivity|].
  cbn. destruct (str_eq_dec p q); [subst; tauto|reflexivity].
Qed.
Lemma bind_all_rdf : forall pm e, e_pfx (bind_all e pm) (s2l "rdf") = e_pfx e (s2l "rdf").
Proof.
  induction pm as [|[q ns] pm IH]; intros e; [reflexivity|]. cbn [bind_all]. rewrite IH. unfold is_rdf. destruct (str_eq_dec q (s2l "rdf")); [reflexivity|].
  cbn [bind_prefix e_pfx]. destruct (str_eq_dec (s2l "rdf") q); [congruence|reflexivity].
Qed.
Lemma bind_all_in : forall pm e p ns, NoDup (map fst pm) -> In (p, ns) pm -> p <> s2l "rdf" -> e_pfx (bind_all e pm) p = Some ns.
Proof.
  induction pm as [|[q m] pm IH]; intros e p ns D J N; [destruct J|]. cbn in D. inversion D as [|? ? N1 D1]; subst. cbn [bind_all]. destruct J as [J|J].
  - injection J as -> ->. rewrite bind_all_out by exact N1. unfold is_rdf. destruct (str_eq_dec p (s2l "rdf")); [contradiction|]. cbn [bind_prefix e_pfx].
    destruct (str_eq_dec p p); [reflexivity|contradiction].
  - now apply IH.
Qed.
Lemma lookup_In : forall (m : dict str str) k v, lookup m k v -> In (k, v) m.
Proof. intros m k v (a & b & -> & _). apply in_elt. Qed.

Section Header.
  Variable resolves : str -> str -> str -> Prop.
  Lemma header_doc_means : forall B0 base B pm, header_legal pm base -> header_means resolves B0 base B pm -> exists e, env_with pm B e /\
    forall L d ts bs, doc_means resolves L e d ts bs -> doc_means resolves L (env0 B0) (directives pm base ++ d) ts bs.
  Proof.
    intros B0 base B pm [HB HP] (MB & ND & MP & MR).
    assert (X : forall L d ts bs pm' e, (forall p ns, In (p, ns) pm' -> In (p, ns) pm) -> e_base e = B -> doc_means resolves L (bind_all e pm') d ts bs ->
      doc_means resolves L e (map (fun pn => SPrefix (fst pn) (snd pn)) (filter (fun pn => if str_eq_dec (fst pn) (s2l "rdf") then false else true) pm') ++ d) ts bs).
    { intros L d ts bs. induction pm' as [|[p ns] pm' IH]; intros e SUB EB K; [exact K|]. cbn [filter fst]. cbn [bind_all] in K. unfold is_rdf in K.
      destruct (str_eq_dec p (s2l "rdf")) as [E|N]; [apply IH; auto; intros; apply SUB; now right|]. cbn [map app fst snd].
      destruct (HP p ns (SUB _ _ (or_introl eq_refl)) N) as [_ LT]. apply dm_prefix with (iri := ns).
      - exists ns. split; [now apply legal_denotes|]. split; [exact LT|]. rewrite EB. apply (MP p); auto. apply SUB. now left.
      - apply IH; auto. intros; apply SUB; now right. }
    assert (Y : forall e, e_base e = B -> e_pfx e (s2l "rdf") = Some (rdf_name "") -> env_with pm B (bind_all e pm)).
    { intros e EB ER. split; [|now rewrite bind_all_base]. intros p ns LK. destruct (str_eq_dec p (s2l "rdf")) as [->|N].
      - rewrite bind_all_rdf, ER. f_equal. symmetry. apply MR. now apply lookup_In.
      - apply bind_all_in; auto. now apply lookup_In. }
    exists (bind_all (set_base (env0 B0) B) pm). split; [now apply Y|]. intros L d ts bs M.
    unfold directives. rewrite <- app_assoc. destruct base as [b|].
    - cbn [app]. apply dm_base with (iri := B).
      + exists b. split; [apply legal_denotes; now apply HB|]. split; [now apply HB|exact MB].
      + apply X; auto.
    - subst B. cbn [app]. apply X; auto.
  Qed.
End Header.

(** ** The whole document *)
Section Whole.
  Variable resolves : str -> str -> str -> Prop.
  Variables (pm : dict str str) (base : option str) (B0 B : str) (G : list stmt) (subjects : list term) (bl : list subj_part).
  Hypotheses (RD : readable_graph resolves pm base B G) (HL : header_legal pm base) (HM : header_means resolves B0 base B pm).
  Hypotheses (RT : forall t, In t G -> exists i, st_p t = Iri i) (NS : no_stale_subjects G subjects)
    (TR : forall t, In t G -> In (st_s t) subjects) (T4 : forall t, In t G -> st_graph t = None)
    (PS : forall s, In s subjects -> ~ list_cell G s -> exists i, s = Iri i)
    (LO : laid_out pm base G subjects bl).
  Lemma concat_NoDup : forall {A B} (f : A -> list B) l, NoDup l -> (forall a, In a l -> NoDup (f a)) ->
    (forall a a' b, In a l -> In a' l -> In b (f a) -> In b (f a') -> a = a') -> NoDup (concat (map f l)).
  Proof.
    intros A C f l ND. induction ND as [|a l NI ND IH]; intros F D; [constructor|]. cbn [map concat].
    assert (X : NoDup (concat (map f l))) by (apply IH; [intros; apply F; now right|intros a1 a2 b J1 J2; apply D; now right]).
    assert (Y : NoDup (f a)) by (apply F; now left). assert (Z : forall b, In b (f a) -> ~ In b (concat (map f l))).
    { intros b J K. apply in_concat in K. destruct K as (y & K & K2). apply in_map_iff in K. destruct K as (a' & <- & K). apply NI.
      rewrite (D a a' b); auto; [now left|now right]. }
    clear - X Y Z. induction Y as [|b m N Y IH]; [exact X|]. cbn. constructor.
    - intro J. apply in_app_or in J. destruct J as [J|J]; [contradiction|]. apply (Z b); [now left|exact J].
    - apply IH. intros b' J. apply Z. now right.
  Qed.
  Lemma blocks_NoDup : NoDup (concat (map block_stmts bl)) /\ forall t, In t (concat (map block_stmts bl)) <-> In t G /\ ~ list_cell G (st_s t).
  Proof.
    destruct LO as ([ND LI] & _ & FB). rewrite Forall_forall in FB.
    assert (IN : forall b p o, In b bl -> In p (snd b) -> In o (snd p) -> In (Tr (snd (fst b)) (snd (fst p)) (snd o)) G).
    { intros [[sn s] pl] [[pn p] ol] o J K O. apply FB in J. destruct J as (_ & _ & _ & FP). rewrite Forall_forall in FP. apply FP in K. destruct K as (_ & [_ L2] & _).
      cbn [fst snd] in *. apply L2. now apply in_map. }
    split.
    - apply concat_NoDup.
      + eapply NoDup_map_inv. exact ND.
      + intros [[sn s] pl] J. apply FB in J. destruct J as (_ & [N1 _] & _ & FP). unfold block_stmts. cbn [fst snd]. apply concat_NoDup.
        * eapply NoDup_map_inv. exact N1.
        * intros [[pn p] ol] K. rewrite Forall_forall in FP. apply FP in K. destruct K as (_ & [N2 _] & _). unfold pred_stmts. cbn [fst snd].
          rewrite <- (map_map snd (fun o => Tr s p o)). apply FinFun.Injective_map_NoDup; [|exact N2]. intros x y E. injection E. auto.
        * intros e e' t K K' T T'. unfold pred_stmts in T, T'. apply in_map_iff in T, T'. destruct T as (to & <- & _). destruct T' as (to' & E & _). injection E as E _.
          clear - N1 K K' E. induction pl as [|x pl IH]; [destruct K|]. cbn in N1. inversion N1 as [|? ? NI N2]; subst. destruct K as [->|K], K' as [->|K']; auto.
          -- exfalso. apply NI. rewrite <- E. exact (in_map (fun e => snd (fst e)) _ _ K').
          -- exfalso. apply NI. rewrite E. exact (in_map (fun e => snd (fst e)) _ _ K).
      + intros b b' t K K' T T'. unfold block_stmts in T, T'. apply in_concat in T, T'. destruct T as (x & X & T). destruct T' as (x' & X' & T'). apply in_map_iff in X, X'.
        destruct X as (e & <- & _). destruct X' as (e' & <- & _). unfold pred_stmts in T, T'. apply in_map_iff in T, T'. destruct T as (to & <- & _). destruct T' as (to' & E & _).
        injection E as E _ _. clear - ND K K' E. induction bl as [|y l IH]; [destruct K|]. cbn in ND. inversion ND as [|? ? NI N2]; subst. destruct K as [->|K], K' as [->|K']; auto.
        -- exfalso. apply NI. rewrite <- E. exact (in_map (fun e => snd (fst e)) _ _ K').
        -- exfalso. apply NI. rewrite E. exact (in_map (fun e => snd (fst e)) _ _ K).
    - intro t. split.
      + intro T. apply in_concat in T. destruct T as (x & X & T). apply in_map_iff in X. destruct X as (b & <- & K). unfold block_stmts in T. apply in_concat in T.
        destruct T as (x & X & T). apply in_map_iff in X. destruct X as (e & <- & K2). unfold pred_stmts in T. apply in_map_iff in T. destruct T as (to & <- & K3).
        split; [eapply IN; eauto|]. cbn [st_s Tr]. apply LI. exact (in_map (fun b => snd (fst b)) _ _ K).
      + intros [T C]. assert (S : In (st_s t) (map (fun b => snd (fst b)) bl)) by (apply LI; auto). apply in_map_iff in S. destruct S as ([[sn s] pl] & E & K). cbn [fst snd] in E. subst s.
        assert (K0 := K). apply FB in K. destruct K as (_ & [_ LP] & _ & FP). assert (Et : t = Tr (st_s t) (st_p t) (st_o t)) by (assert (X := T4 t T); destruct t; cbn in X; subst; reflexivity).
        assert (P : In (st_p t) (map (fun e => snd (fst e)) pl)) by (apply LP; exists (st_o t); now rewrite <- Et).
        apply in_map_iff in P. destruct P as ([[pn p] ol] & E & K). cbn [fst snd] in E. subst p. assert (K1 := K). rewrite Forall_forall in FP. apply FP in K. destruct K as (_ & [_ LL] & _).
        assert (O : In (st_o t) (map snd ol)) by (apply LL; now rewrite <- Et). apply in_map_iff in O. destruct O as (to & E & K2).
        apply in_concat. exists (block_stmts (sn, st_s t, pl)). split; [now apply in_map|]. unfold block_stmts. cbn [fst snd]. apply in_concat.
        exists (pred_stmts (st_s t) (pn, st_p t, ol)). split; [now apply in_map|]. unfold pred_stmts. cbn [fst snd]. apply in_map_iff. exists to. split; [|exact K2]. rewrite E. now symmetry.
  Qed.
  Lemma whole_trip : exists d k, doc_text true d (header pm base ++ concat (map block_text bl)) /\ (lists_alone G -> forallb stmt_flat d = true) /\
    forall L bs, length bs = k -> exists ts, doc_means resolves L (env0 B0) d ts bs /\ (NoDup bs -> graph_reads_as G ts bs).
  Proof.
    assert (LO' := LO). destruct LO' as ([_ LI] & _ & FB).
    destruct (blocks_trip resolves pm base B G RD bl RT FB) as (d & k & T & FL & M).
    { apply Forall_forall. intros b J. assert (X := proj1 (LI (snd (fst b))) (in_map (fun b => snd (fst b)) _ _ J)). destruct X as [X C]. split; [exact C|]. split; [now apply PS|now apply NS]. }
    exists (directives pm base ++ d), k. split; [now apply header_text|]. split.
    - intro LA. rewrite forallb_app, (FL LA), andb_true_r. unfold directives. rewrite forallb_app. apply andb_true_intro. split; [now destruct base|].
      apply forallb_forall. intros x J. apply in_map_iff in J. destruct J as (y & <- & _). reflexivity.
    - destruct (header_doc_means resolves B0 base B pm HL HM) as (e & EW & HD). intros L bs X. destruct (M e L bs EW X) as (ts & D & A).
      exists ts. split; [now apply HD|]. intro N. exists (concat (map block_stmts bl)). destruct blocks_NoDup. auto.
  Qed.
End Whole.
