(** Proofs for C95-C97: grammars compared, N-Triples documents as Turtle documents. *)
From Verif Require Import Model.Py Model.Terms Model.Graph Model.Codec Model.NTriples Model.TurtleTree
  Spec.CodecSpec Spec.GraphSpec Spec.NTSpec Spec.TurtleSpec Spec.TurtleTextSpec Spec.TurtleOutSpec Spec.NTTextSpec Proofs.CodecLemmas Proofs.NTLex
  Proofs.NTGrammar Proofs.NTMeans.
Open Scope N_scope.

(** ** from one set of tokens to another *)
Definition lacks (bad : list char) (s : str) : Prop := forall c, In c bad -> ~ In c s.
Lemma lacks_app : forall bad a b, lacks bad (a ++ b) <-> lacks bad a /\ lacks bad b.
Proof.
  intros bad a b. unfold lacks. split.
  - intros H. split; intros c C J; apply (H c C); apply in_or_app; auto.
  - intros [A B] c C J. apply in_app_or in J. destruct J; [now apply (A c)|now apply (B c)].
Qed.
Lemma lacks_cons : forall bad c s, lacks bad (c :: s) <-> lacks bad [c] /\ lacks bad s.
Proof. intros. change (c :: s) with ([c] ++ s). apply lacks_app. Qed.
Lemma lacks_none : forall s, lacks [] s.
Proof. intros s c []. Qed.
Section Mono.
  Variables k k' : tokens. Variable bad : list char.
  Hypothesis HI : forall i t, lacks bad t -> tk_iri k i t -> tk_iri k' i t.
  Hypothesis HL : forall t, lacks bad t -> tk_label k t -> tk_label k' t.
  Hypothesis HT : forall t, lacks bad (64 :: t) -> tk_lang k t -> tk_lang k' t.
  Hypothesis HS : forall x y t, lacks bad t -> object_at k x t -> tk_space k' x y -> tk_space k x y.
  Ltac pieces := repeat match goal with
    | H : lacks _ (_ ++ _) |- _ => apply lacks_app in H; let A := fresh in let B := fresh in destruct H as [A B]
    | H : lacks _ (_ :: ?s) |- _ => match s with [] => fail 1 | _ => apply lacks_cons in H; let A := fresh in let B := fresh in destruct H as [A B] end
    end.
  Lemma mono_iri : forall x t, lacks bad t -> iri_at k x t -> iri_at k' x t.
  Proof. intros x t Q H. destruct H. pieces. constructor. auto. Qed.
  Lemma mono_subject : forall x t, lacks bad t -> subject_at k x t -> subject_at k' x t.
  Proof. intros x t Q H. destruct H; [constructor; now apply mono_iri|]. now apply sa_label; apply HL. Qed.
  Lemma mono_object : forall x t, lacks bad t -> object_at k x t -> object_at k' x t.
  Proof.
    intros x t Q H. destruct H as [x t H|b H|b w l H W T|b w w' i t H W W' T].
    - apply oa_node. now apply mono_subject.
    - now apply oa_plain.
    - apply oa_lang; auto. apply HT; auto. apply lacks_cons in Q. destruct Q as [_ Q]. apply lacks_app in Q. destruct Q as [_ Q]. apply lacks_app in Q. destruct Q as [_ Q]. apply lacks_app in Q. tauto.
    - pieces. apply oa_type; auto.
  Qed.
  Lemma mono_apart : forall x y t w, lacks bad t -> object_at k x t -> apart2 k x y w -> apart2 k' x y w.
  Proof. intros x y t w Q H [B S]. split; auto. intro Z. apply S. eapply HS; eauto. Qed.
  Lemma mono_line : forall q x t, lacks bad t -> line_at k q x t -> line_at k' q x t.
  Proof.
    intros q x t Q H. destruct H as [w0 s a w1 p b w2 o c w3 E B0 S A1 P A2 O B3|w0 s a w1 p b w2 o c w3 g d w4 E B0 S A1 P A2 O A3 G B4]; pieces.
    - apply la_triple; auto using mono_subject, mono_iri, mono_object.
      + apply (mono_apart s p a); auto. now apply oa_node.
      + apply (mono_apart p o b); auto. now apply oa_node, sa_iri.
    - apply la_quad; auto using mono_subject, mono_iri, mono_object.
      + apply (mono_apart s p a); auto. now apply oa_node.
      + apply (mono_apart p o b); auto. now apply oa_node, sa_iri.
      + apply (mono_apart o g c); auto.
  Qed.
  Lemma mono_lines : forall q l s, lines_at k q l s -> lacks bad s -> lines_at k' q l s.
  Proof. induction 1; intros Q; pieces; [now apply ls_end|now apply ls_eol|]. apply ls_cons; auto using mono_line. Qed.
  Lemma mono_doc : forall q l s, nt_doc k q l s -> lacks bad s -> nt_doc k' q l s.
  Proof. intros q l s H Q. destruct H; [apply nd_none; now apply mono_lines|]. pieces. apply nd_first; auto using mono_line, mono_lines. Qed.
End Mono.

Lemma units_blank : forall t, units (fun c => ~ iri_illegal c) false t -> blank_units t t.
Proof. induction 1 as [|u s U _ IH]; [constructor|]. now apply bu_unit. Qed.
Lemma common_own : forall q l s, nt_doc common q l s -> nt_doc own q l s.
Proof.
  intros q l s H. apply (mono_doc common own []); auto using lacks_none; cbn.
  - intros i t _ [-> U]. now apply units_blank.
  - tauto.
  - tauto.
Qed.
Lemma common_w3c : forall q l s, nt_doc common q l s -> nt_doc w3c q l s.
Proof. intros q l s H. apply (mono_doc common w3c []); auto using lacks_none; cbn; tauto. Qed.
Lemma w3c_common : forall q l s, nt_doc w3c q l s -> ~ In 95 s -> ~ In 64 s -> nt_doc common q l s.
Proof.
  assert (N : forall t, lacks [95; 64] t -> w3c_label t -> False).
  { intros t Q (c & r & -> & _). apply (Q 95); [now left|]. now left. }
  intros q l s H A B. apply (mono_doc w3c common [95; 64]); auto; cbn.
  - intros t Q W. exfalso. eauto.
  - intros t Q _. exfalso. apply (Q 64); cbn; auto.
  - intros x y t Q O LT. destruct x; try contradiction. inversion O as [? ? S| | |]; subst. inversion S as [? ? I|? W]; subst; [inversion I|]. eapply N; eauto.
  - intros c [<-|[<-|[]]]; auto.
Qed.
Lemma turtle_own : forall q l s, nt_doc in_turtle q l s -> nt_doc own q l s.
Proof.
  intros q l s H. apply (mono_doc in_turtle own []); auto using lacks_none; cbn.
  - intros i t _ [-> U]. now apply units_blank.
  - tauto.
  - tauto.
  - tauto.
Qed.

(** ** as a Turtle document *)
Lemma blanks_gap : forall w, blanks w -> gap w.
Proof. induction 1 as [|c w [-> | ->] _ IH]; [constructor| |]; apply gap_ws; auto; [now left|right; now left]. Qed.
Lemma eols_gap : forall w, Forall (fun c => c = 10 \/ c = 13) w -> gap w.
Proof. induction 1 as [|c w C _ IH]; [constructor|]. apply gap_ws; auto. unfold ws. tauto. Qed.
Lemma gap_app : forall a b, gap a -> gap b -> gap (a ++ b).
Proof. induction 1 as [|c s W _ IH|x s N _ IH]; intros B; auto; cbn [app]; [constructor; auto|]. rewrite <- app_assoc. cbn [app]. apply gap_comment; auto. Qed.
Lemma t_iri : forall x t, iri_at in_turtle x t -> exists i, x = RIri i /\ t = [60] ++ i ++ [62] /\ iri_text (TRef i) t.
Proof. intros x t H. destruct H as [i t [-> U]]. exists i. split; auto. split; auto. now apply it_ref. Qed.
Lemma t_subject : forall x t, subject_at in_turtle x t -> obj_text true (turtle_node x) t /\ subject_form (turtle_node x).
Proof.
  intros x t H. destruct H as [x t H|s [W _]].
  - destruct (t_iri _ _ H) as (i & -> & _ & T). split; [now apply ot_iri|exact I].
  - split; [now apply ot_label|exact I].
Qed.
Lemma t_object : forall x t, object_at in_turtle x t -> obj_text true (turtle_node x) t.
Proof.
  intros x t H. destruct H as [x t H|b H|b w l H W [T _]|b w w' i t H W W' [-> U]].
  - now apply t_subject.
  - apply ot_lit. apply lt_plain. apply (st_short 34); auto.
  - apply ot_lit. change (34 :: b ++ [34] ++ w ++ 64 :: l) with (([34] ++ b ++ [34] ++ w ++ [64] ++ l)). replace ([34] ++ b ++ [34] ++ w ++ [64] ++ l) with (([34] ++ b ++ [34]) ++ w ++ [64] ++ l) by (lnorm; reflexivity).
    apply lt_lang; auto using blanks_gap. apply (st_short 34); auto.
  - apply ot_lit. replace (34 :: b ++ [34] ++ w ++ [94; 94] ++ w' ++ 60 :: i ++ [62]) with (([34] ++ b ++ [34]) ++ w ++ [94; 94] ++ w' ++ ([60] ++ i ++ [62])) by (lnorm; reflexivity).
    apply lt_type; auto using blanks_gap; [apply (st_short 34); auto|]. now apply it_ref.
Qed.
Lemma t_line : forall x t, line_at in_turtle false x t -> exists w t', gap w /\ t = w ++ t' /\ stmt_text true (turtle_line x) true t'.
Proof.
  intros x t H. inversion H as [w0 s a w1 p b w2 o c w3 E B0 S [B1 A1] P [B2 A2] O B3|w0 s a w1 p b w2 o c w3 g d w4 E]; subst; [|discriminate].
  exists w0, (a ++ w1 ++ (b ++ w2 ++ c) ++ w3 ++ [46]). split; [now apply blanks_gap|]. split; [now lnorm|].
  destruct (t_subject _ _ S) as [Ts Fs]. destruct (t_iri _ _ P) as (i & -> & Eb & Tp). unfold turtle_line. cbn [r_s r_p r_o turtle_verb].
  apply sx_triples; auto using blanks_gap.
  - split; [now apply blanks_gap|]. intros _. right. subst b. exists 60. eexists. split; [reflexivity|now left].
  - apply pt_one; [now apply vt_iri| |].
    + split; [now apply blanks_gap|]. intros _. destruct o as [j|l|v k].
      * right. inversion O as [? ? O'| | |]; subst. inversion O' as [? ? O''|]; subst. inversion O''; subst. exists 60. eexists. split; [reflexivity|now left].
      * left. apply A2. cbn. tauto.
      * left. apply A2. cbn. tauto.
    + apply os_one. now apply t_object.
Qed.
Lemma t_ends : forall q l r, lines_at in_turtle q l r -> stops r.
Proof.
  intros q l r H. assert (E : ends_line r).
  { apply (lines_head q l). apply (mono_lines in_turtle own []) with (q := q) (l := l); auto using lacks_none; cbn; try tauto. intros i t _ [-> U]. now apply units_blank. }
  destruct E as [->|(c & r' & -> & C)]; [now left|]. right. exists c, r'. split; auto. left. unfold ws. rewrite is_ws_spec, eol_spec in C. tauto.
Qed.
Lemma t_lines : forall q l s, lines_at in_turtle q l s -> q = false -> doc_text true (map turtle_line l) s.
Proof.
  induction 1 as [w B|w e w' B [N F] B'|w e x t l r B [N F] Lx Ls IH]; intros ->.
  - apply dx_nil. left. now apply blanks_gap.
  - apply dx_nil. left. apply gap_app; [now apply blanks_gap|]. apply gap_app; [now apply eols_gap|now apply blanks_gap].
  - destruct (t_line _ _ Lx) as (w0 & t' & G & -> & T). cbn [map]. rewrite app_assoc. apply dx_gap; [apply gap_app; [now apply blanks_gap|now apply eols_gap]|].
    rewrite <- app_assoc. apply dx_gap; auto. apply dx_first with true; auto. intros _ _. now apply t_ends in Ls.
Qed.
Lemma t_doc : forall l s, nt_doc in_turtle false l s -> doc_text true (map turtle_line l) s.
Proof.
  intros l s H. inversion H as [? ? Ls|x t l' r Lx Ls]; subst; [now apply t_lines with false|].
  destruct (t_line _ _ Lx) as (w0 & t' & G & -> & T). cbn [map]. rewrite <- app_assoc. apply dx_gap; auto. apply dx_first with true; auto; [now apply t_lines with false|].
  intros _ _. now apply t_ends in Ls.
Qed.
Lemma t_flat : forall l, forallb stmt_flat (map turtle_line l) = true.
Proof. induction l as [|[s p o g] l IH]; [reflexivity|]. cbn [map forallb]. rewrite IH. destruct s as [|?|? []], o as [|?|? []]; reflexivity. Qed.

(** ** and its meaning *)
Section Means.
  Variable res : str -> str -> str -> Prop.
  Variable e : tenv.
  Definition kept (i : str) : Prop := legal_text i /\ res (e_base e) i i.
  Lemma ref_kept : forall i v, denotes i v -> kept v -> ref_means res e i v.
  Proof. intros i v D [Lg R]. exists v. split; auto. Qed.
  Lemma node_turtle : forall L x t, node_means L x t -> (exists s, object_at in_turtle x s) -> (forall i, In i (term_iris t) -> kept i) ->
    obj_means res e L (turtle_node x) (plain_as_string t) [] [].
  Proof.
    intros L x t M (s & O) K. destruct M as [i v D|l|b v D|b v l D|b v i d D D']; cbn [turtle_node plain_as_string].
    - apply om_iri. constructor. apply ref_kept; auto. apply K. now left.
    - constructor.
    - apply om_lit. now constructor.
    - apply om_lit. constructor; auto. inversion O as [? ? S| |? ? ? ? ? [T LT]|]; subst; [inversion S as [? ? Z|]; inversion Z|].
      destruct LT as (t0 & ts & -> & [NE _] & _). destruct t0; [contradiction|discriminate].
    - apply om_lit. constructor; auto. constructor. apply ref_kept; auto. apply K. now left.
  Qed.
  Lemma line_turtle : forall L x t q s, line_means L x t -> line_at in_turtle q x s -> q = false -> (forall i, In i (stmt_iris t) -> kept i) ->
    forall r ts, doc_means res L e r ts [] -> doc_means res L e (turtle_line x :: r) (on_terms plain_as_string t :: ts) [].
  Proof.
    intros L x t q s M Lx Q K r ts D. subst q. inversion Lx as [w0 s0 a w1 p b w2 o c w3 E B0 S [B1 A1] P [B2 A2] O B3|w0 s0 a w1 p b w2 o c w3 g d w4 E]; subst; [|discriminate].
    inversion M as [? ? ? s' p' o' Ms Mp Mo|]; subst. unfold stmt_iris in K. cbn [st_s st_p st_o Tr] in K. unfold turtle_line. cbn [r_s r_p r_o].
    assert (Es : plain_as_string s' = s'). { inversion S as [? ? Z|]; subst; [inversion Z; subst|]; inversion Ms; reflexivity. }
    assert (Hs : obj_means res e L (turtle_node s0) s' [] []).
    { rewrite <- Es. apply node_turtle; auto. - exists a. now apply oa_node. - intros i J. apply K. rewrite !in_app_iff. auto. }
    assert (Ho : obj_means res e L (turtle_node o) (plain_as_string o') [] []).
    { apply node_turtle; eauto. intros i J. apply K. rewrite !in_app_iff. auto. }
    destruct (t_iri _ _ P) as (i & -> & _ & _). inversion Mp as [? v Dp| | | |]; subst.
    assert (Hp : verb_means res e (VIri (TRef i)) (Iri v)).
    { constructor. constructor. apply ref_kept; auto. apply K. rewrite !in_app_iff. right. left. now left. }
    pose proof (dm_triples res L e (turtle_node s0) (PCons (turtle_verb (RIri i)) (OCons (turtle_node o) ONil) PNil) r s' [] [tr3 s' (Iri v) (plain_as_string o')] ts [] [] []) as G.
    cbn [app] in G. unfold on_terms. cbn [st_s st_p st_o st_graph Tr plain_as_string]. rewrite Es. apply G; auto.
    change [tr3 s' (Iri v) (plain_as_string o')] with ([tr3 s' (Iri v) (plain_as_string o')] ++ []).
    apply (pm_cons res e L s' (VIri (TRef i)) (Iri v) (turtle_node o) ONil PNil (plain_as_string o') [] [] [] []); auto. apply pm_none. constructor.
  Qed.
  Lemma lines_turtle : forall q l s, lines_at in_turtle q l s -> q = false -> forall L ts, Forall2 (line_means L) l ts -> (forall t i, In t ts -> In i (stmt_iris t) -> kept i) ->
    doc_means res L e (map turtle_line l) (map (on_terms plain_as_string) ts) [].
  Proof.
    induction 1 as [w B|w e' w' B LE B'|w e' x t l r B LE Lx Ls IH]; intros Q L ts F K; inversion F; subst; cbn [map]; try constructor.
    eapply line_turtle; eauto; [|apply IH; auto]; intros; eapply K; eauto; [now left|now right].
  Qed.
  Lemma doc_turtle : forall l s, nt_doc in_turtle false l s -> forall L ts, Forall2 (line_means L) l ts -> (forall t i, In t ts -> In i (stmt_iris t) -> kept i) ->
    doc_means res L e (map turtle_line l) (map (on_terms plain_as_string) ts) [].
  Proof.
    intros l s H L ts F K. inversion H as [? ? Ls|x t l' r Lx Ls]; subst; [eapply lines_turtle; eauto|].
    inversion F; subst. cbn [map]. eapply line_turtle; eauto; [intros; eapply K; eauto; now left|]. eapply lines_turtle; eauto. intros; eapply K; eauto. now right.
  Qed.
End Means.
(** the IRI of a subject stands in the text as it is *)
Definition sub_iri (x : rstmt) (s : str) : Prop := forall i, r_s x = RIri i -> exists a b, s = a ++ 60 :: i ++ 62 :: b.
Lemma sub_app : forall x s a b, sub_iri x s -> sub_iri x (a ++ s ++ b).
Proof. intros x s a b H i E. destruct (H i E) as (c & d & ->). exists (a ++ c), (d ++ b). lnorm. reflexivity. Qed.
Lemma sub_line : forall q x t, line_at common q x t -> sub_iri x t.
Proof.
  intros q x t H i E. destruct H as [w0 s a w1 p b w2 o c w3 _ B0 S A1 P A2 O B3|w0 s a w1 p b w2 o c w3 g d w4 _ B0 S A1 P A2 O A3 G B4]; cbn [r_s] in E; subst s;
    inversion S as [? ? Z|]; subst; inversion Z as [? ? [-> _]]; subst; exists w0; eexists; cbn [app]; rewrite <- app_assoc; reflexivity.
Qed.
Lemma sub_doc : forall q l s, nt_doc common q l s -> forall x, In x l -> sub_iri x s.
Proof.
  assert (K : forall q l s, lines_at common q l s -> forall x, In x l -> sub_iri x s).
  { induction 1 as [| |w e y t l r B LE Ly Ls IH]; intros x J; [destruct J|destruct J|]. destruct J as [<-|J].
    - replace (w ++ e ++ t ++ r) with ((w ++ e) ++ t ++ r) by now rewrite <- app_assoc. apply sub_app. eapply sub_line; eauto.
    - replace (w ++ e ++ t ++ r) with ((w ++ e ++ t) ++ r ++ []) by (rewrite app_nil_r, <- !app_assoc; reflexivity). apply sub_app. auto. }
  intros q l s H. destruct H as [l s Ls|y t l r Ly Ls]; [now apply (K q)|]. intros x [<-|J].
  - apply (sub_app _ t [] r). eapply sub_line; eauto.
  - rewrite <- (app_nil_r r). apply (sub_app x r t []). eapply K; eauto.
Qed.
