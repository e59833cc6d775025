(** N-Triples documents hold RDF triples, and N-Triples can carry them (C99). *)
From Coq Require Import Permutation.
From Verif Require Import Model.Py Model.Terms Model.Graph Model.Codec Model.NTriples Model.Curie Model.TurtleTree Model.UrlJoin
  Model.Turtle Model.TurtleParse Spec.CodecSpec Spec.NTSpec Spec.TurtleSpec Spec.TurtleTextSpec Spec.NTTextSpec Spec.RdfSpec
  Proofs.CodecLemmas Proofs.IriLemmas Proofs.GraphInv Proofs.NTRun Proofs.NTFinal Proofs.NTMeans Proofs.TurtleTokens Proofs.TurtleReject Proofs.TurtleDoc Proofs.TurtleMore Proofs.RdfShape Proofs.RdfChars.
Open Scope N_scope.

Definition line_in (q : bool) (s : str) (x : rstmt) : Prop := exists a t b, s = a ++ t ++ b /\ line_at own q x t.
Lemma line_in_app : forall q a s b x, line_in q s x -> line_in q (a ++ s ++ b) x.
Proof. intros q a s b x (a' & t & b' & -> & H). exists (a ++ a'), t, (b' ++ b). split; auto. now rewrite <- !app_assoc. Qed.
Lemma lines_in : forall q l s, lines_at own q l s -> Forall (line_in q s) l.
Proof.
  induction 1 as [w W|w e w' W E W'|w e x t l r W E X R IH]; constructor.
  - exists (w ++ e), t, r. split; auto. now rewrite <- app_assoc.
  - eapply Forall_impl; [|exact IH]. intros y H. apply (line_in_app q (w ++ e ++ t) r []) in H. now rewrite app_nil_r, <- !app_assoc in H.
Qed.
Lemma doc_in : forall q l s, nt_doc own q l s -> Forall (line_in q s) l.
Proof.
  intros q l s [l' s' H|x t l' r X R]; [now apply lines_in|]. constructor.
  - exists [], t, r. auto.
  - eapply Forall_impl; [|exact (lines_in _ _ _ R)]. intros y H. apply (line_in_app q t r []) in H. now rewrite app_nil_r in H.
Qed.

(** ** kinds of terms *)
Section Kinds.
  Variable L : str -> N.
  Lemma iri_kind : forall x t y, iri_at own x t -> node_means L x y -> rdf_predicate y.
  Proof. intros x t y [i u B] M. inversion M; subst. exact I. Qed.
  Lemma subject_kind : forall x t y, subject_at own x t -> node_means L x y -> rdf_subject y.
  Proof. intros x t y [x' u [i u' B]|s B] M; inversion M; subst; exact I. Qed.
  Lemma object_kind : forall x t y, object_at own x t -> node_means L x y -> rdf_object true y.
  Proof.
    intros x t y [x' u S|b B|b w l B W T|b w w' i u B W W' U] M.
    - assert (K := subject_kind _ _ _ S M). destruct y; auto. destruct K.
    - inversion M; subst. now constructor.
    - inversion M; subst. constructor. intros ->. destruct T as (t0 & ts & E & (N & _) & _). destruct t0; [now apply N|discriminate].
    - inversion M; subst. constructor.
  Qed.
  Lemma line_kind : forall q x t y, line_at own q x t -> line_means L x y -> rdf_subject (st_s y) /\ rdf_predicate (st_p y) /\ rdf_object true (st_o y).
  Proof.
    intros q x t y T M.
    destruct T as [w0 s a w1 p b w2 o c w3 Q W0 S A1 P A2 O W3|w0 s a w1 p b w2 o c w3 g d w4 Q W0 S A1 P A2 O A3 G W4]; inversion M; subst; cbn;
      (split; [eapply subject_kind; [exact S|eassumption]|split; [eapply iri_kind; [exact P|eassumption]|eapply object_kind; [exact O|eassumption]]]).
  Qed.
End Kinds.

(** ** characters *)
Lemma blank_uni : forall i t, blank_units i t -> unicode t -> forall v, denotes i v -> Forall scalar v.
Proof.
  induction 1 as [|c i t B U IH|u i t B U IH]; intros C v D.
  - inversion D; subst. constructor.
  - apply IH; auto. now apply (unicode_app [c]) in C.
  - assert (C2 := C). apply unicode_app in C2. destruct C2 as [C1 C2]. specialize (IH C2). destruct C1 as [F E].
    destruct B as [c NI N|k c X EC|h LH FH|h LH FH]; [| discriminate X |..]; cbn [app] in D.
    + inversion D as [|c' s' v' C' DV|k' c' s' v' EC DV EQ|h' c' s' v' L' HN DV EQ|h' c' s' v' L' HN LE DV EQ]; subst; try congruence.
      constructor; auto. now inversion F.
    + inversion D as [|c' s' v' C' DV|k' c' s' v' EC DV EQ|h' c' s' v' L' HN DV EQ|h' c' s' v' L' HN LE DV EQ]; subst; try congruence; [inversion EC|].
      destruct (app_same_len h' h s' i ltac:(congruence) ltac:(congruence)) as [-> ->]. constructor; auto. split.
      * apply hexnum_bound in HN. rewrite L' in HN. change (16 ^ N.of_nat 4) with 65536 in HN. lia.
      * intro S. apply E. exists [], 117, h, [], c'. rewrite app_nil_r. split; [reflexivity|]. split; [exact HN|]. split; [exact S|]. left. auto.
    + inversion D as [|c' s' v' C' DV|k' c' s' v' EC DV EQ|h' c' s' v' L' HN DV EQ|h' c' s' v' L' HN LE DV EQ]; subst; try congruence; [inversion EC|].
      destruct (app_same_len h' h s' i ltac:(congruence) ltac:(congruence)) as [-> ->]. constructor; auto. split; auto.
      intro S. apply E. exists [], 85, h, [], c'. rewrite app_nil_r. split; [reflexivity|]. split; [exact HN|]. split; [exact S|]. right. auto.
Qed.
Section Chars.
  Variable L : str -> N.
  Lemma iri_chars : forall x t y, iri_at own x t -> unicode t -> node_means L x y -> nt_predicate y.
  Proof.
    intros x t y [i u B] U M. inversion M; subst. cbn. apply clean_scalar. apply (unicode_app [60]) in U. destruct U as [_ U]. apply unicode_app in U.
    eapply blank_uni; eauto. apply U.
  Qed.
  Lemma subject_chars : forall x t y, subject_at own x t -> unicode t -> node_means L x y -> nt_subject y.
  Proof.
    intros x t y [x' u B|s B] U M.
    - assert (K := iri_chars _ _ _ B U M). destruct y; auto; destruct K.
    - inversion M; subst. exact I.
  Qed.
  Lemma py_of : forall s, Forall scalar s -> py_str s.
  Proof. intros s H. apply clean_scalar in H. apply H. Qed.
  Lemma object_chars : forall x t y, object_at own x t -> unicode t -> node_means L x y -> nt_object y.
  Proof.
    intros x t y [x' u S|b B|b w l B W T|b w w' i u B W W' V] U M.
    - assert (K := subject_chars _ _ _ S U M). destruct y; auto. destruct K.
    - inversion M; subst. apply (unicode_app [34]) in U. destruct U as [_ U]. apply unicode_app in U. cbn. split; [|split; [discriminate|discriminate]].
      apply py_of. eapply denotes_scalar; eauto. apply U.
    - inversion M; subst. apply (unicode_app [34]) in U. destruct U as [_ U]. apply unicode_app in U. cbn. split; [|split; [|discriminate]].
      + apply py_of. eapply denotes_scalar; eauto. apply U.
      + intros z [= <-] _. exact T.
    - inversion M; subst. change (34 :: b ++ [34] ++ w ++ [94; 94] ++ w' ++ 60 :: u ++ [62]) with ([34] ++ b ++ [34] ++ w ++ [94; 94] ++ w' ++ [60] ++ u ++ [62]) in U.
      uparts. cbn. split; [|split; [discriminate|]].
      + apply py_of. eapply denotes_scalar; eauto.
      + intros z [= <-] _. apply clean_scalar. eapply blank_uni; eauto.
  Qed.
  Lemma line_chars : forall x t y, line_at own false x t -> unicode t -> line_means L x y -> nt_triple y.
  Proof.
    intros x t y T U M.
    destruct T as [w0 s a w1 p b w2 o c w3 Q W0 S A1 P A2 O W3|w0 s a w1 p b w2 o c w3 g d w4 Q W0 S A1 P A2 O A3 G W4]; [|discriminate]. inversion M; subst. uparts.
    split; [eapply subject_chars; [exact S|assumption|eassumption]|]. split; [eapply iri_chars; [exact P|assumption|eassumption]|]. split; [eapply object_chars; [exact O|assumption|eassumption]|reflexivity].
  Qed.
End Chars.
Lemma Forall2_in_r : forall {A B} (R : A -> B -> Prop) l r y, Forall2 R l r -> In y r -> exists x, In x l /\ R x y.
Proof. induction 1 as [|a b l r H F IH]; intros J; [destruct J|]. destruct J as [<-|J]; [exists a; split; auto; now left|]. destruct (IH J) as (x & J' & X). exists x. split; auto. now right. Qed.

(** ** whole texts *)
Lemma ntriples_rdf : forall q n g s n' g', parse_string q n g s = (n', g', Ok tt) ->
  forall t, In t (g_iter g') -> In t (g_iter g) \/ (rdf_subject (st_s t) /\ rdf_predicate (st_p t) /\ rdf_object true (st_o t)) /\ graph_kind q t.
Proof.
  intros q n g s n' g' E t J. destruct (parsed_graphs q n g s n' g' (Ok tt) E t J) as [H|GK]; auto.
  destruct (run_cases q n g s) as (m & _ & [(l & L & ts & D & E1 & M & FL)|[(l & e & D & E1 & _)|(e & E1 & _)]]); rewrite E1 in E; try discriminate.
  injection E as <- <-. unfold g_iter in J. rewrite g_addAll_In in J. destruct J as [J|J]; auto. right. split; auto.
  destruct (Forall2_in_r _ _ _ _ M J) as (x & JX & MX). assert (F := doc_in _ _ _ D). rewrite Forall_forall in F. destruct (F x JX) as (a & u & b & _ & LA). eapply line_kind; eauto.
Qed.
Lemma ntriples_nt : forall n s n' g', unicode s -> parse_string false n (graph_new None) s = (n', g', Ok tt) -> Forall nt_triple (g_iter g').
Proof.
  intros n s n' g' U E. apply Forall_forall. intros t J.
  destruct (run_cases false n (graph_new None) s) as (m & _ & [(l & L & ts & D & E1 & M & FL)|[(l & e & D & E1 & _)|(e & E1 & _)]]); rewrite E1 in E; try discriminate.
  injection E as <- <-. unfold g_iter in J. rewrite g_addAll_In in J. destruct J as [J|[]].
  destruct (Forall2_in_r _ _ _ _ M J) as (x & JX & MX). assert (F := doc_in _ _ _ D). rewrite Forall_forall in F. destruct (F x JX) as (a & u & b & -> & LA). uparts. eapply line_chars; eauto.
Qed.
Lemma turtle_nt : forall uj n base s n' g', uj_clean uj -> uj_scalar uj -> ~ In 60 base -> Forall scalar base -> unicode s -> ~ newline_escape s ->
  turtle_parse uj n base (graph_new None) (SrcStr s) = Some (n', g', Ok tt) -> Forall langs_accepted (g_iter g') -> Forall nt_triple (g_iter g').
Proof.
  intros uj n base s n' g' UC US B60 BS U NL E LA. apply Forall_forall. intros t J.
  destruct (turtle_rdf uj n base (graph_new None) (SrcStr s) n' g' E t J) as [[]|(R1 & R2 & R3 & R4)].
  unfold turtle_parse in E. cbn [tsource_text bind] in E. destruct (turtle_text s) as [d|e] eqn:T; [|discriminate].
  assert (D := turtle_text_sound d s T). assert (K := doc_tokens false d s D NL). unfold turtle_add in E.
  destruct (turtle_run uj n base d) as [m [ts|e]] eqn:R; [|discriminate].
  destruct (forallb stmt_flat d) eqn:F; [|apply (doc_plain uj n base d m ts R) in F; rewrite F in E; discriminate].
  destruct (turtle_sound uj n UC base d m ts B60 K F R) as (L & l & ts' & bs & P & PM & DM & _). rewrite P in E. injection E as <- <-.
  assert (SC := doc_scalar uj US L d _ _ _ (env0_scalar base BS) (doc_uni _ _ _ D U) DM). rewrite Forall_forall in SC, LA.
  assert (JS : In t ts'). { unfold g_iter in J. rewrite g_addAll_In in J. destruct J as [J|[]]. exact (Permutation_in t PM J). }
  destruct (SC t JS) as (S1 & S2 & S3). destruct (LA t J) as (_ & _ & L3). clear J JS. destruct t as [s0 p0 o0 g0]. cbn [st_s st_p st_o st_graph] in *.
  split; [|split; [|split; [|exact R4]]]; cbn [st_s st_p st_o].
  - destruct s0; cbn in *; auto. now apply clean_scalar.
  - destruct p0; cbn in *; try contradiction. now apply clean_scalar.
  - destruct o0 as [i|b|v lg dt]; cbn in *; [now apply clean_scalar|exact I|]. destruct S3 as [S3a S3b]. split; [exact (py_of v S3a)|]. split.
    + intros x -> _. exact L3.
    + intros x -> _. apply clean_scalar. now apply S3b.
Qed.

(** ** once more *)
Lemma quoted_nonempty : forall x y, quoted (x :: y) <> [].
Proof.
  intros x y E. unfold quoted in E. cbn [map concat] in E. apply app_eq_nil in E. destruct E as [E _]. destruct (uri_char x); [discriminate E|].
  assert (NE : utf8 x <> []) by (unfold utf8; destruct (x <? 128), (x <? 2048), (x <? 65536); discriminate).
  destruct (utf8 x); [congruence|]. discriminate E.
Qed.
Lemma image_stable : forall t, (forall s, t = Iri s -> py_str s) -> (forall v l d, t = Lit v l (Some d) -> ~ has_lang l -> py_str d) -> stable_term (nt_image t).
Proof.
  assert (UD : forall v, Forall (fun c => ~ dropped c) (undropped v)).
  { intro v. apply Forall_forall. intros c J. apply filter_In in J. destruct J as [_ J]. intros (A & B & C & D). unfold droppedb in J.
    assert (X : (c <? 32) = true) by (now apply N.ltb_lt). rewrite X in J. apply N.eqb_neq in B, C, D. rewrite B, C, D in J. discriminate. }
  intros [s|b|v l d] H1 H2; cbn [nt_image stable_term].
  - apply quoted_uri. now apply H1.
  - exact I.
  - destruct l as [[|c r]|]; cbn [nt_image stable_term].
    + destruct d as [[|x y]|]; cbn [nt_image stable_term]; split; auto. split; auto. right. assert (Q := quoted_uri (x :: y) (H2 v (Some []) (x :: y) eq_refl (fun z => z))).
      destruct (quoted (x :: y)) as [|a b] eqn:E; [now apply quoted_nonempty in E|eauto].
    + split; auto. split; eauto.
    + destruct d as [[|x y]|]; cbn [nt_image stable_term]; split; auto. split; auto. right. assert (Q := quoted_uri (x :: y) (H2 v None (x :: y) eq_refl (fun z => z))).
      destruct (quoted (x :: y)) as [|a b] eqn:E; [now apply quoted_nonempty in E|eauto].
Qed.
Lemma back_kept : forall f t, nt_triple t -> nt_triple (back f t) /\ stable (back f t).
Proof.
  intros f [s p o g] (A & B & C & D). cbn [st_s st_p st_o st_graph] in *. subst g.
  assert (QC : forall x, clean_iri x -> clean_iri (quoted x)).
  { intros x [P _]. apply clean_scalar, Forall_forall. intros c J. assert (Q := quoted_uri x P). rewrite Forall_forall in Q. specialize (Q c J).
    apply ascii_scalar. unfold uri_char in Q. apply existsb_exists in Q. destruct Q as (y & Y & E). apply N.eqb_eq in E. subst y.
    assert (K : forallb (fun c => c <? 128) (s2l "ABCDEFGHIJKLMNOPQRSTUVWXYZabcdefghijklmnopqrstuvwxyz0123456789-._~:/?#[]@!$&'()*+,;=%") = true) by reflexivity.
    rewrite forallb_forall in K. apply N.ltb_lt. exact (K c Y). }
  assert (UP : forall v, py_str v -> py_str (undropped v)).
  { intros v P. unfold py_str in *. rewrite Forall_forall in *. intros c J. apply filter_In in J. apply P, J. }
  assert (RS : forall x, stable_term x -> stable_term (rename f x)) by (intros [i|b|v l d] H; exact H).
  split.
  - unfold nt_triple, back, on_terms. cbn [st_s st_p st_o st_graph]. split; [|split; [|split; [|reflexivity]]].
    + destruct s; try (now destruct A); cbn [nt_image rename nt_subject] in *; auto.
    + destruct p; try (now destruct B); cbn [nt_image rename nt_predicate] in *; auto.
    + destruct o as [i|b|v l d]; cbn [nt_image rename nt_object] in *; auto. destruct C as (C1 & C2 & C3).
      destruct l as [[|x y]|]; [| |]; [destruct d as [[|a b]|]| |destruct d as [[|a b]|]]; cbn [nt_object rename]; (split; [now apply UP|]); (split; [|]); try discriminate;
        try (intros z [= <-] _; apply QC; apply (C3 _ eq_refl); intros []).
      intros z [= <-] _. apply C2; [reflexivity|discriminate].
  - unfold stable, back, on_terms. cbn [st_s st_p st_o]. split; [|split]; apply RS, image_stable; intros.
    + subst. apply A.
    + subst. destruct A.
    + subst. apply B.
    + subst. destruct B.
    + subst. apply C.
    + subst. destruct C as (_ & _ & C3). now apply C3.
Qed.
