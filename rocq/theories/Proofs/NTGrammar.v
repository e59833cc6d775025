(** Proofs for C95: the parser of N-Triples and its grammar. *)
From Verif Require Import Model.Py Model.Terms Model.Graph Model.Codec Model.NTriples Model.TurtleTree
  Spec.CodecSpec Spec.NTSpec Spec.TurtleSpec Spec.TurtleTextSpec Spec.NTTextSpec Proofs.CodecLemmas Proofs.NTLex.
Open Scope N_scope.

Lemma blank_ws : forall c, blank1 c <-> is_ws c = true.
Proof. intros c. rewrite is_ws_spec. reflexivity. Qed.
Lemma legal_iri_char : forall c, iri_char c = true <-> ~ iri_illegal c.
Proof.
  intros c. rewrite iri_char_spec. unfold iri_illegal. split.
  - intros H [L|[L|L]]; [lia| |lia]. cbn in L. lia.
  - intros H. assert (E : forall x, In x (s2l "<>{}|^`\") -> c <> x) by (intros x I E; subst; tauto).
    repeat split; try (apply E; vm_compute; tauto); lia.
Qed.
Lemma skip_ws_blanks : forall w s, blanks w -> skip_ws (w ++ s) = skip_ws s.
Proof. induction 1 as [|c w B _ IH]; [reflexivity|]. cbn [app skip_ws]. apply blank_ws in B. now rewrite B. Qed.
Lemma skip_ws_split : forall s, exists w, blanks w /\ s = w ++ skip_ws s /\ (skip_ws s = [] \/ exists c r, skip_ws s = c :: r /\ is_ws c = false).
Proof.
  induction s as [|c s IH]; [exists []; repeat split; auto; constructor|]. cbn [skip_ws]. destruct (is_ws c) eqn:W.
  - destruct IH as (w & B & E & H). exists (c :: w). split; [constructor; auto; now apply blank_ws|]. split; auto. cbn [app]. now rewrite <- E.
  - exists []. split; [constructor|]. split; auto. right. eauto.
Qed.
Lemma skip_idem : forall s, skip_ws (skip_ws s) = skip_ws s.
Proof. intros s. destruct (skip_ws_split s) as (w & B & E & [H|(c & r & H & W)]); rewrite H; [reflexivity|]. now apply skip_ws_cons. Qed.

(** ** IRIs *)
Lemma hex_iri : forall k h t, length h = S k -> Forall (fun c => hexdigit c = true) h ->
  lex_iri (LHex k) (h ++ t) = match lex_iri LNormal t with Some (i, r) => Some (h ++ i, r) | None => None end.
Proof.
  induction k; intros h r L F.
  - destruct h as [|a [|]]; try discriminate. inversion F as [|? ? H1 _]; subst. cbn [app lex_iri]. rewrite hexdigit_is_hex, H1. cbn [hex_next].
    destruct (lex_iri LNormal r) as [[]|]; reflexivity.
  - destruct h as [|a h]; try discriminate. inversion F as [|? ? H1 H2]; subst. cbn [app lex_iri]. rewrite hexdigit_is_hex, H1. cbn [hex_next].
    rewrite IHk by (auto; cbn in L; lia). destruct (lex_iri LNormal r) as [[]|]; reflexivity.
Qed.
Lemma unit_iri : forall u t, unit1 (fun c => ~ iri_illegal c) false u ->
  lex_iri LNormal (u ++ t) = match lex_iri LNormal t with Some (i, r) => Some (u ++ i, r) | None => None end.
Proof.
  intros u t U. inversion U as [c A B E|? ? E|h L F E|h L F E]; subst; [|discriminate| |].
  - apply legal_iri_char in A. pose proof (proj1 (iri_char_spec c) A) as S. cbn [app lex_iri]. rewrite A.
    replace (c =? 62) with false by (symmetry; apply N.eqb_neq; lia). replace (is_ws c) with false by (symmetry; apply is_ws_false; lia).
    replace (c =? 92) with false by (symmetry; apply N.eqb_neq; lia). destruct (lex_iri LNormal t) as [[]|]; reflexivity.
  - cbn [app]. change (lex_iri LNormal (92 :: 117 :: h ++ t)) with (cons_tok 92 (cons_tok 117 (lex_iri (LHex 3) (h ++ t)))).
    rewrite hex_iri by auto. destruct (lex_iri LNormal t) as [[]|]; reflexivity.
  - cbn [app]. change (lex_iri LNormal (92 :: 85 :: h ++ t)) with (cons_tok 92 (cons_tok 85 (lex_iri (LHex 7) (h ++ t)))).
    rewrite hex_iri by auto. destruct (lex_iri LNormal t) as [[]|]; reflexivity.
Qed.
Lemma lex_iri_complete : forall i t r, blank_units i t -> lex_iri LNormal (t ++ 62 :: r) = Some (i, r).
Proof.
  induction 1 as [|c i t B _ IH|u i t U _ IH]; [reflexivity| |].
  - cbn [app lex_iri]. apply blank_ws in B. rewrite B. apply is_ws_spec in B. replace (c =? 62) with false by (symmetry; apply N.eqb_neq; lia). exact IH.
  - rewrite <- app_assoc, unit_iri by auto. now rewrite IH.
Qed.
Lemma hex_iri_inv : forall k s i r, lex_iri (LHex k) s = Some (i, r) ->
  exists h t j, s = h ++ t /\ length h = S k /\ Forall (fun c => hexdigit c = true) h /\ lex_iri LNormal t = Some (j, r) /\ i = h ++ j.
Proof.
  induction k; intros s i r H; (destruct s as [|c s]; [discriminate|]); cbn [lex_iri] in H; rewrite hexdigit_is_hex in H; destruct (hexdigit c) eqn:X; try discriminate; cbn [hex_next] in H.
  - destruct (lex_iri LNormal s) as [[j t]|] eqn:E; [|discriminate]. cbn in H. injection H as <- <-. exists [c], s, j. repeat split; auto.
  - destruct (lex_iri (LHex k) s) as [[j t]|] eqn:E; [|discriminate]. cbn in H. injection H as <- <-.
    destruct (IHk _ _ _ E) as (h & t' & j' & -> & L & F & E' & ->). exists (c :: h), t', j'. repeat split; auto. now cbn; rewrite L.
Qed.
Lemma lex_iri_sound : forall n s i r, (length s <= n)%nat -> lex_iri LNormal s = Some (i, r) -> exists t, s = t ++ 62 :: r /\ blank_units i t.
Proof.
  induction n; intros s i r L H; [destruct s; [discriminate|cbn in L; lia]|]. destruct s as [|c s]; [discriminate|]. cbn [lex_iri] in H. cbn in L.
  destruct (c =? 62) eqn:C. { injection H as <- <-. apply N.eqb_eq in C. subst. exists []. split; auto. constructor. }
  destruct (is_ws c) eqn:W. { destruct (IHn s i r) as (t & -> & B); auto; [lia|]. exists (c :: t). split; auto. constructor; auto. now apply blank_ws. }
  destruct (c =? 92) eqn:B.
  - apply N.eqb_eq in B. subst. destruct s as [|d s]; [discriminate|]. cbn [lex_iri] in H.
    destruct (d =? 117) eqn:D; [|destruct (d =? 85) eqn:D2; [|discriminate]].
    + apply N.eqb_eq in D. subst. destruct (lex_iri (LHex 3) s) as [[j t]|] eqn:E; [|discriminate]. cbn in H. injection H as <- <-.
      destruct (hex_iri_inv _ _ _ _ E) as (h & t' & j' & -> & Lh & F & E' & ->). destruct (IHn t' j' t) as (y & -> & BU); auto.
      { cbn in L. rewrite app_length in L. lia. }
      exists ((92 :: 117 :: h) ++ y). split; [cbn; now rewrite <- app_assoc|]. change (92 :: 117 :: h ++ j') with ((92 :: 117 :: h) ++ j'). apply bu_unit; auto. now apply un_u.
    + apply N.eqb_eq in D2. subst. destruct (lex_iri (LHex 7) s) as [[j t]|] eqn:E; [|discriminate]. cbn in H. injection H as <- <-.
      destruct (hex_iri_inv _ _ _ _ E) as (h & t' & j' & -> & Lh & F & E' & ->). destruct (IHn t' j' t) as (y & -> & BU); auto.
      { cbn in L. rewrite app_length in L. lia. }
      exists ((92 :: 85 :: h) ++ y). split; [cbn; now rewrite <- app_assoc|]. change (92 :: 85 :: h ++ j') with ((92 :: 85 :: h) ++ j'). apply bu_unit; auto. now apply un_U.
  - destruct (iri_char c) eqn:I; [|discriminate]. destruct (lex_iri LNormal s) as [[j t]|] eqn:E; [|discriminate]. cbn in H. injection H as <- <-.
    destruct (IHn s j t) as (y & -> & BU); auto; [lia|]. exists ([c] ++ y). split; auto. change (c :: j) with ([c] ++ j). apply bu_unit; auto.
    constructor; [now apply legal_iri_char|now apply N.eqb_neq].
Qed.

(** ** quoted strings *)
Definition sok (c : char) : Prop := c <> 34 /\ c <> 10 /\ c <> 13.
Lemma hex_string : forall k h t, length h = S k -> Forall (fun c => hexdigit c = true) h ->
  lex_string (LHex k) (h ++ t) = match lex_string LNormal t with Some (i, r) => Some (h ++ i, r) | None => None end.
Proof. intros k h t L F. apply lex_string_hex; auto. eapply Forall_impl; [|exact F]. intros c. now rewrite hexdigit_is_hex. Qed.
Lemma echar_spec : forall k, (exists c, echar k c) <-> echar_char k = true.
Proof.
  intros k. split.
  - intros (c & E). inversion E; reflexivity.
  - unfold echar_char. cbn [existsb]. rewrite !orb_true_iff, !N.eqb_eq. intros H.
    decompose [or] H; try discriminate; subst; eexists; constructor.
Qed.
Lemma unit_string : forall u t, unit1 sok true u ->
  lex_string LNormal (u ++ t) = match lex_string LNormal t with Some (i, r) => Some (u ++ i, r) | None => None end.
Proof.
  intros u t U. inversion U as [c (A1 & A2 & A3) B E|k c E0 X E|h L F E|h L F E]; subst.
  - cbn [app lex_string]. replace (c =? 34) with false by (symmetry; now apply N.eqb_neq). replace (c =? 92) with false by (symmetry; now apply N.eqb_neq).
    replace (c =? 10) with false by (symmetry; now apply N.eqb_neq). replace (c =? 13) with false by (symmetry; now apply N.eqb_neq). cbn [orb].
    destruct (lex_string LNormal t) as [[]|]; reflexivity.
  - assert (Y : echar_char k = true) by (apply echar_spec; eauto). cbn [app]. cbn [lex_string]. change (92 =? 34) with false. change (92 =? 92) with true. cbv iota.
    replace (k =? 117) with false by (inversion X; reflexivity). replace (k =? 85) with false by (inversion X; reflexivity). rewrite Y.
    destruct (lex_string LNormal t) as [[]|]; reflexivity.
  - cbn [app]. change (lex_string LNormal (92 :: 117 :: h ++ t)) with (cons_tok 92 (cons_tok 117 (lex_string (LHex 3) (h ++ t)))).
    rewrite hex_string by auto. destruct (lex_string LNormal t) as [[]|]; reflexivity.
  - cbn [app]. change (lex_string LNormal (92 :: 85 :: h ++ t)) with (cons_tok 92 (cons_tok 85 (lex_string (LHex 7) (h ++ t)))).
    rewrite hex_string by auto. destruct (lex_string LNormal t) as [[]|]; reflexivity.
Qed.
Lemma lex_string_complete : forall b r, quoted_body b -> lex_string LNormal (b ++ 34 :: r) = Some (b, r).
Proof. unfold quoted_body. induction 1 as [|u s U _ IH]; [reflexivity|]. rewrite <- app_assoc, unit_string by exact U. now rewrite IH. Qed.
Lemma hex_string_inv : forall k s i r, lex_string (LHex k) s = Some (i, r) ->
  exists h t j, s = h ++ t /\ length h = S k /\ Forall (fun c => hexdigit c = true) h /\ lex_string LNormal t = Some (j, r) /\ i = h ++ j.
Proof.
  induction k; intros s i r H; (destruct s as [|c s]; [discriminate|]); cbn [lex_string] in H; rewrite hexdigit_is_hex in H; destruct (hexdigit c) eqn:X; try discriminate; cbn [hex_next] in H.
  - destruct (lex_string LNormal s) as [[j t]|] eqn:E; [|discriminate]. cbn in H. injection H as <- <-. exists [c], s, j. repeat split; auto.
  - destruct (lex_string (LHex k) s) as [[j t]|] eqn:E; [|discriminate]. cbn in H. injection H as <- <-.
    destruct (IHk _ _ _ E) as (h & t' & j' & -> & L & F & E' & ->). exists (c :: h), t', j'. repeat split; auto. now cbn; rewrite L.
Qed.
Lemma lex_string_sound : forall n s b r, (length s <= n)%nat -> lex_string LNormal s = Some (b, r) -> s = b ++ 34 :: r /\ quoted_body b.
Proof.
  unfold quoted_body. induction n; intros s b r L H; [destruct s; [discriminate|cbn in L; lia]|]. destruct s as [|c s]; [discriminate|]. cbn [lex_string] in H. cbn in L.
  destruct (c =? 34) eqn:C. { injection H as <- <-. apply N.eqb_eq in C. subst. split; auto. constructor. }
  destruct (c =? 92) eqn:B.
  - apply N.eqb_eq in B. subst. destruct s as [|d s]; [discriminate|]. cbn [lex_string] in H. cbn in L.
    destruct (d =? 117) eqn:D; [|destruct (d =? 85) eqn:D2; [|destruct (echar_char d) eqn:D3; [|discriminate]]].
    + apply N.eqb_eq in D. subst. destruct (lex_string (LHex 3) s) as [[j t]|] eqn:E; [|discriminate]. cbn in H. injection H as <- <-.
      destruct (hex_string_inv _ _ _ _ E) as (h & t' & j' & -> & Lh & F & E' & ->). rewrite app_length in L. destruct (IHn t' j' t) as (-> & BU); auto; [lia|].
      split; [cbn; now rewrite <- app_assoc|]. change (92 :: 117 :: h ++ j') with ((92 :: 117 :: h) ++ j'). constructor; auto. now apply un_u.
    + apply N.eqb_eq in D2. subst. destruct (lex_string (LHex 7) s) as [[j t]|] eqn:E; [|discriminate]. cbn in H. injection H as <- <-.
      destruct (hex_string_inv _ _ _ _ E) as (h & t' & j' & -> & Lh & F & E' & ->). rewrite app_length in L. destruct (IHn t' j' t) as (-> & BU); auto; [lia|].
      split; [cbn; now rewrite <- app_assoc|]. change (92 :: 85 :: h ++ j') with ((92 :: 85 :: h) ++ j'). constructor; auto. now apply un_U.
    + destruct (lex_string LNormal s) as [[j t]|] eqn:E; [|discriminate]. cbn in H. injection H as <- <-. destruct (IHn s j t) as (-> & BU); auto; [lia|].
      split; auto. change (92 :: d :: j) with ([92; d] ++ j). constructor; auto. apply echar_spec in D3. destruct D3 as (x & X). now apply un_echar with x.
  - destruct ((c =? 10) || (c =? 13)) eqn:I; [discriminate|]. apply orb_false_iff in I. destruct I as [I1 I2]. apply N.eqb_neq in C, B, I1, I2.
    destruct (lex_string LNormal s) as [[j t]|] eqn:E; [|discriminate]. cbn in H. injection H as <- <-.
    destruct (IHn s j t) as (-> & BU); auto; [lia|]. split; auto. change (c :: j) with ([c] ++ j). constructor; auto. now constructor.
Qed.

(** ** labels *)
Lemma wide_spec : forall c, wide_char c <-> pn_chars_u c = true.
Proof.
  intros c. unfold wide_char, between, pn_chars_u, pn_chars_base, in_range. rewrite !orb_true_iff, !andb_true_iff, !N.leb_le, !N.eqb_eq. lia.
Qed.
Lemma wide_tail_spec : forall c, wide_char c \/ c = 45 <-> pn_chars c = true.
Proof.
  intros c. unfold wide_char, between, pn_chars, pn_chars_u, pn_chars_base, in_range. rewrite !orb_true_iff, !andb_true_iff, !N.leb_le, !N.eqb_eq. lia.
Qed.
Lemma lex_label_spec : forall c, pn_chars_u c || in_range 48 57 c = pn_chars_u c.
Proof.
  intros c. destruct (pn_chars_u c) eqn:P; auto. cbn [orb]. destruct (in_range 48 57 c) eqn:R; auto. exfalso.
  assert (W : wide_char c) by (unfold wide_char, between; unfold in_range in R; apply andb_true_iff in R; rewrite !N.leb_le in R; lia).
  apply wide_spec in W. congruence.
Qed.
Lemma label_tail_complete : forall l r, Forall (fun x => wide_char x \/ x = 45 \/ x = 46) l -> ~ ends_in 46 l -> stop r -> label_tail (l ++ r) = (l, r).
Proof.
  induction l as [|c l IH]; intros r F E S; [now apply label_tail_stop|]. inversion F as [|? ? C F']; subst.
  cbn [app label_tail]. assert (P : pn_chars c || (c =? 46) = true).
  { apply orb_true_iff. rewrite N.eqb_eq, <- wide_tail_spec. tauto. }
  rewrite P. destruct l as [|d l].
  - cbn [app]. rewrite (label_tail_stop _ S). destruct (pn_chars c) eqn:Q; auto. rewrite ?Q in P. cbn [orb] in P. apply N.eqb_eq in P. subst. exfalso. apply E. now exists [].
  - rewrite IH; auto. intros (x & X). apply E. exists (c :: x). now rewrite X.
Qed.
Lemma ends_in_cons : forall k c d l, ends_in k (c :: d :: l) -> ends_in k (d :: l).
Proof. intros k c d l (x & X). destruct x as [|y x]; [discriminate|]. injection X as _ X. now exists x. Qed.
Lemma label_tail_sound : forall s l r, label_tail s = (l, r) ->
  s = l ++ r /\ Forall (fun x => wide_char x \/ x = 45 \/ x = 46) l /\ ~ ends_in 46 l.
Proof.
  induction s as [|c s IH]; intros l r H; cbn [label_tail] in H.
  - injection H as <- <-. repeat split; auto. intros ([|] & X); discriminate.
  - assert (Z : s = [] ++ s /\ Forall (fun x => wide_char x \/ x = 45 \/ x = 46) [] /\ ~ ends_in 46 []) by (repeat split; auto; intros ([|] & X); discriminate).
    destruct (pn_chars c || (c =? 46)) eqn:P.
    + destruct (label_tail s) as [l' t] eqn:E. destruct (IH _ _ eq_refl) as (-> & F & N). destruct l' as [|d l'].
      * destruct (pn_chars c) eqn:Q; injection H as <- <-; [|cbn; repeat split; auto; intros ([|] & X); discriminate].
        cbn. repeat split; auto. { constructor; auto. apply wide_tail_spec in Q. tauto. }
        intros ([|a [|]] & X); try discriminate. injection X as ->. discriminate.
      * injection H as <- <-. split; auto. split; [|intro X; apply ends_in_cons in X; auto]. constructor; auto.
        apply orb_true_iff in P. rewrite N.eqb_eq, <- wide_tail_spec in P. tauto.
    + injection H as <- <-. cbn. repeat split; auto. intros ([|] & X); discriminate.
Qed.
Lemma label_tail_stops : forall s l r, label_tail s = (l, r) -> stop r.
Proof.
  induction s as [|c s IH]; intros l r H; cbn [label_tail] in H.
  - injection H as <- <-. reflexivity.
  - unfold stop. destruct (pn_chars c || (c =? 46)) eqn:P.
    + destruct (label_tail s) as [l' t] eqn:E. pose proof (IH _ _ eq_refl) as S. destruct l' as [|d l'].
      * destruct (pn_chars c) eqn:Q; injection H as <- <-; [|cbn [label_tail]; rewrite Q, P, E; reflexivity].
        destruct (label_tail_sound _ _ _ E) as (Z & _). cbn in Z. subst. exact S.
      * injection H as <- <-. exact S.
    + injection H as <- <-. cbn [label_tail]. now rewrite P.
Qed.
(** ** terms *)
Ltac lnorm := repeat (progress cbn [app] || rewrite <- app_assoc).
Ltac skipb := rewrite skip_ws_blanks by assumption; rewrite skip_ws_cons by reflexivity.
Lemma iri_complete : forall x t w r, iri_at own x t -> blanks w -> p_iri (w ++ t ++ r) = Some (x, r).
Proof.
  intros x t w r H B. inversion H as [i u U]; subst. unfold p_iri. cbn [app]. skipb. change (60 =? 60) with true. cbv iota.
  rewrite <- app_assoc. cbn [app]. rewrite (lex_iri_complete i u r) by exact U. reflexivity.
Qed.
Lemma iri_sound : forall x s r, p_iri s = Some (x, r) -> exists w t, blanks w /\ s = w ++ t ++ r /\ iri_at own x t.
Proof.
  intros x s r H. unfold p_iri in H. destruct (skip_ws_split s) as (w & B & E & _). destruct (skip_ws s) as [|c s']; [discriminate|].
  destruct (c =? 60) eqn:C; [|discriminate]. apply N.eqb_eq in C. subst c. destruct (lex_iri LNormal s') as [[i t]|] eqn:L; [|discriminate].
  injection H as <- <-. destruct (lex_iri_sound _ _ _ _ (le_n _) L) as (u & -> & U). exists w, (60 :: u ++ [62]).
  split; auto. split; [rewrite E; cbn [app]; now rewrite <- app_assoc|]. now constructor.
Qed.
Lemma starts_blanks : forall c w s, blanks w -> starts c (w ++ s) = starts c s.
Proof. intros c w s B. unfold starts. now rewrite skip_ws_blanks. Qed.
Lemma label_complete : forall s w r, wide_label s -> blanks w -> stop r -> p_bnode (w ++ s ++ r) = Some (RBn s, r).
Proof.
  intros s w r (c & l & -> & C & F & E) B S. unfold p_bnode. cbn [app]. skipb. change ((95 =? 95) && (58 =? 58)) with true. cbv iota.
  unfold lex_label. rewrite lex_label_spec. apply wide_spec in C. rewrite C. rewrite (label_tail_complete l r) by auto. reflexivity.
Qed.
Lemma label_sound : forall s x r, p_bnode s = Some (x, r) -> exists w t, blanks w /\ s = w ++ t ++ r /\ x = RBn t /\ wide_label t /\ stop r.
Proof.
  intros s x r H. unfold p_bnode in H. destruct (skip_ws_split s) as (w & B & E & _). destruct (skip_ws s) as [|c [|d s']]; try discriminate.
  destruct ((c =? 95) && (d =? 58)) eqn:C; [|discriminate]. apply andb_true_iff in C. rewrite !N.eqb_eq in C. destruct C as [-> ->].
  destruct s' as [|a s']; [discriminate|]. unfold lex_label in H. rewrite lex_label_spec in H. destruct (pn_chars_u a) eqn:A; [|discriminate].
  destruct (label_tail s') as [l t] eqn:L. injection H as <- <-. destruct (label_tail_sound _ _ _ L) as (-> & F & N).
  exists w, ([95; 58] ++ a :: l). split; auto. split; [rewrite E; reflexivity|]. split; auto. split; [|now apply label_tail_stops in L].
  exists a, l. split; auto. split; auto. now apply wide_spec.
Qed.
Lemma label_head : forall s, wide_label s -> exists r, s = 95 :: r.
Proof. intros s (c & l & -> & _). eexists. reflexivity. Qed.
Lemma subject_complete : forall x t w r, subject_at own x t -> blanks w -> (label_term x -> stop r) -> p_subject (w ++ t ++ r) = Some (x, r).
Proof.
  intros x t w r H B S. unfold p_subject. rewrite starts_blanks by auto. inversion H as [x' t' I|s L]; subst.
  - inversion I; subst. change (starts 95 ((60 :: t0 ++ [62]) ++ r)) with false. cbv iota. now apply iri_complete.
  - destruct (label_head _ L) as (l & Hl). assert (Q : starts 95 (t ++ r) = true) by (rewrite Hl; reflexivity). rewrite Q. apply label_complete; auto. now apply S.
Qed.
Lemma subject_sound : forall x s r, p_subject s = Some (x, r) ->
  exists w t, blanks w /\ s = w ++ t ++ r /\ subject_at own x t /\ (label_term x -> stop r).
Proof.
  intros x s r H. unfold p_subject in H. destruct (starts 95 s).
  - destruct (label_sound _ _ _ H) as (w & t & B & E & -> & L & S). exists w, t. repeat split; auto. now constructor.
  - destruct (iri_sound _ _ _ H) as (w & t & B & E & I). exists w, t. repeat split; auto; [now constructor|]. inversion I; subst. intros [].
Qed.
(** what may come after an object *)
Definition tail_ok (x : rterm) (r : str) : Prop :=
  match x with RBn _ => stop r | RLit _ RPlain => starts 94 r = false /\ starts 64 r = false | RLit _ (RLang _) => lang_stop r | _ => True end.
Lemma object_complete : forall x t w r, object_at own x t -> blanks w -> tail_ok x r -> p_object (w ++ t ++ r) = Some (x, r).
Proof.
  intros x t w r H B S. unfold p_object. rewrite starts_blanks by auto. inversion H as [x' t' I|b Q|b v l Q V L|b v v' i u Q V V' U]; subst.
  - assert (N : starts 34 (t ++ r) = false).
    { inversion I as [? ? J|? L]; subst; [inversion J; reflexivity|]. destruct (label_head _ L) as (l & ->). reflexivity. }
    rewrite N. apply subject_complete; auto. destruct x; try contradiction. intros _. exact S.
  - cbn [app]. change (starts 34 (34 :: (b ++ [34]) ++ r)) with true. cbv iota. skipb. cbn [tl]. unfold p_literal.
    rewrite <- app_assoc. cbn [app]. rewrite lex_string_complete by auto. cbn in S. destruct S as [-> ->]. reflexivity.
  - cbn [app]. match goal with |- context [starts 34 (34 :: ?z)] => change (starts 34 (34 :: z)) with true end. cbv iota. skipb. cbn [tl]. unfold p_literal.
    rewrite <- app_assoc. cbn [app]. rewrite lex_string_complete by auto. rewrite <- app_assoc. rewrite (starts_blanks 94) by auto. rewrite (starts_blanks 64) by auto. cbn [app].
    change (starts 94 (64 :: l ++ r)) with false. change (starts 64 (64 :: l ++ r)) with true. cbv iota. skipb. cbn [tl].
    rewrite (lex_lang_tag l r) by auto. reflexivity.
  - cbn [app]. match goal with |- context [starts 34 (34 :: ?z)] => change (starts 34 (34 :: z)) with true end. cbv iota. skipb. cbn [tl]. unfold p_literal.
    rewrite <- app_assoc. cbn [app]. rewrite lex_string_complete by auto. rewrite <- app_assoc. rewrite starts_blanks by auto. cbn [app].
    match goal with |- context [starts 94 (94 :: ?z)] => change (starts 94 (94 :: z)) with true end. cbv iota. skipb. unfold p_datatype. change ((94 =? 94) && (94 =? 94)) with true. cbv iota.
    rewrite <- app_assoc. replace ((60 :: u ++ [62]) ++ r) with ((60 :: u ++ [62]) ++ r) by reflexivity.
    rewrite (iri_complete (RIri i) (60 :: u ++ [62]) v' r); auto. now constructor.
Qed.
Lemma lang_go_stops : forall s l r, lang_go s = (l, r) -> r = [] \/ (exists c t, r = c :: t /\ lang_class c = false).
Proof.
  induction s as [|c s IH]; intros l r H; cbn [lang_go] in H; [injection H as <- <-; auto|].
  destruct (lang_class c) eqn:C.
  - destruct (lang_go s) as [l' t] eqn:E. injection H as <- <-. now apply (IH l' t).
  - destruct (c =? 45) eqn:D; [|injection H as <- <-; right; eauto]. destruct s as [|d s]; [injection H as <- <-; right; eauto|].
    destruct (lang_class d) eqn:X; [|injection H as <- <-; right; eauto]. destruct (lang_go (d :: s)) as [l' t] eqn:E. injection H as <- <-. now apply (IH l' t).
Qed.
Lemma object_sound : forall x s r, p_object s = Some (x, r) ->
  exists w t, blanks w /\ s = w ++ t ++ r /\ object_at own x t /\ (label_term x -> stop r).
Proof.
  intros x s r H. unfold p_object in H. destruct (starts 34 s) eqn:Q.
  - destruct (skip_ws_split s) as (w & B & E & _). unfold starts in Q. destruct (skip_ws s) as [|c s']; [discriminate|]. apply N.eqb_eq in Q. subst c. cbn [tl] in H.
    unfold p_literal in H. destruct (lex_string LNormal s') as [[b t]|] eqn:L; [|discriminate]. destruct (lex_string_sound _ _ _ _ (le_n _) L) as (-> & QB).
    destruct (starts 94 t) eqn:T.
    + destruct (skip_ws_split t) as (v & V & F & _). destruct (skip_ws t) as [|c1 [|c2 t']]; try discriminate. unfold p_datatype in H.
      destruct ((c1 =? 94) && (c2 =? 94)) eqn:C; [|discriminate]. apply andb_true_iff in C. rewrite !N.eqb_eq in C. destruct C as [-> ->].
      destruct (p_iri t') as [[[i| |] u]|] eqn:P; try discriminate. injection H as <- <-. destruct (iri_sound _ _ _ P) as (v' & y & V' & -> & I). inversion I as [i' y' U]; subst i'.
      subst y. exists w, (34 :: b ++ [34] ++ v ++ [94; 94] ++ v' ++ 60 :: y' ++ [62]). split; auto. split; [|split; [now constructor|intros []]].
      rewrite E, F. lnorm. reflexivity.
    + destruct (starts 64 t) eqn:T6.
      * destruct (skip_ws_split t) as (v & V & F & _). unfold starts in T6. destruct (skip_ws t) as [|c1 t']; try discriminate. apply N.eqb_eq in T6. subst c1. cbn [tl] in H.
        destruct (lex_lang t') as [[l u]|] eqn:G; [|discriminate]. injection H as <- <-. destruct (lex_lang_sound _ _ _ G) as (-> & LT).
        exists w, (34 :: b ++ [34] ++ v ++ 64 :: l). split; auto. split; [|split; [now constructor|intros []]].
        rewrite E, F. cbn [app]. rewrite <- !app_assoc. cbn [app]. now rewrite <- !app_assoc.
      * injection H as <- <-. exists w, (34 :: b ++ [34]). split; auto. split; [|split; [now constructor|intros []]]. rewrite E. cbn [app]. now rewrite <- app_assoc.
  - destruct (subject_sound _ _ _ H) as (w & t & B & E & I & S). exists w, t. repeat split; auto. now constructor.
Qed.
(** ** statements *)
(** what follows a full stop *)
Definition ends_line (k : str) : Prop := k = [] \/ exists c r, k = c :: r /\ (is_ws c = true \/ is_eol c = true).
Lemma ws_not_label : forall c, is_ws c = true \/ is_eol c = true -> pn_chars c = false /\ c <> 46.
Proof.
  intros c H. assert (In c [32; 9; 10; 13]).
  { destruct H as [H|H]; [apply is_ws_spec in H; cbn; lia|]. unfold is_eol in H. rewrite orb_true_iff, !N.eqb_eq in H. cbn; lia. }
  cbn in H0. decompose [or] H0; try contradiction; subst; (split; [reflexivity|discriminate]).
Qed.
Lemma stop_head : forall c r, is_ws c = true \/ is_eol c = true -> stop (c :: r).
Proof.
  intros c r H. destruct (ws_not_label c H) as [P D]. unfold stop. cbn [label_tail]. rewrite P. replace (c =? 46) with false by (symmetry; now apply N.eqb_neq). reflexivity.
Qed.
Lemma stop_dot : forall k, ends_line k -> stop (46 :: k).
Proof.
  intros k [->|(c & r & -> & H)]; [reflexivity|]. unfold stop. cbn [label_tail]. change (pn_chars 46 || (46 =? 46)) with true. cbv iota.
  pose proof (stop_head c r H) as S. pose proof (label_tail_stop _ S) as E. cbn [label_tail] in E. rewrite E. reflexivity.
Qed.
Lemma stop_blanks : forall w s, blanks w -> w <> [] -> stop (w ++ s).
Proof. intros [|c w] s B N; [contradiction|]. inversion B; subst. apply stop_head. left. now apply blank_ws. Qed.
Lemma starts_dot : forall c w k, blanks w -> c <> 46 -> starts c (w ++ 46 :: k) = false.
Proof. intros c w k B N. rewrite starts_blanks by auto. unfold starts. rewrite skip_ws_cons by reflexivity. apply N.eqb_neq. congruence. Qed.
Lemma starts_lt : forall c w k, blanks w -> c <> 60 -> starts c (w ++ 60 :: k) = false.
Proof. intros c w k B N. rewrite starts_blanks by auto. unfold starts. rewrite skip_ws_cons by reflexivity. apply N.eqb_neq. congruence. Qed.
Lemma lang_stop_blanks : forall w c k, blanks w -> lang_class c = false -> c <> 45 -> lang_stop (w ++ c :: k).
Proof.
  intros [|a w] c k B L N; cbn; auto. inversion B as [|? ? [-> | ->] _]; subst; split; (reflexivity || discriminate).
Qed.
Lemma tail_ok_dot : forall x w k, blanks w -> ends_line k -> tail_ok x (w ++ 46 :: k).
Proof.
  intros [i|l|b [|l|i]] w k B E; cbn [tail_ok]; auto.
  - destruct w as [|c w]; [now apply stop_dot|]. apply stop_blanks; auto. discriminate.
  - split; apply starts_dot; auto; discriminate.
  - apply lang_stop_blanks; auto; discriminate.
Qed.
Lemma tail_ok_lt : forall x w k, blanks w -> (label_term x -> w <> []) -> tail_ok x (w ++ 60 :: k).
Proof.
  intros [i|l|b [|l|i]] w k B E; cbn [tail_ok]; auto.
  - apply stop_blanks; auto. now apply E.
  - split; apply starts_lt; auto; discriminate.
  - apply lang_stop_blanks; auto; discriminate.
Qed.
Lemma dot_complete : forall w k, blanks w -> p_dot (w ++ 46 :: k) = Some k.
Proof. intros w k B. unfold p_dot. now skipb. Qed.
Lemma dot_sound : forall s k, p_dot s = Some k -> exists w, blanks w /\ s = w ++ 46 :: k.
Proof.
  intros s k H. unfold p_dot in H. destruct (skip_ws_split s) as (w & B & E & _). destruct (skip_ws s) as [|c s']; [discriminate|].
  destruct (c =? 46) eqn:C; [|discriminate]. apply N.eqb_eq in C. injection H as <-. subst c. eauto.
Qed.
Lemma line_complete : forall q x t k, line_at own q x t -> ends_line k -> p_stmt q (t ++ k) = Some (x, k).
Proof.
  intros q x t k H E. unfold p_stmt.
  inversion H as [w0 s a w1 p b w2 o c w3 Q B0 Ss [B1 S1] P [B2 S2] O B3|w0 s a w1 p b w2 o c w3 g d w4 Q B0 Ss [B1 S1] P [B2 S2] O [B3 S3] G B4]; subst; lnorm.
  - rewrite (subject_complete s a w0); auto.
    2:{ intros L. apply stop_blanks; auto. }
    rewrite (iri_complete p b w1); auto. rewrite (object_complete o c w2); auto; [|now apply tail_ok_dot]. now rewrite dot_complete.
  - rewrite (subject_complete s a w0); auto.
    2:{ intros L. apply stop_blanks; auto. }
    rewrite (iri_complete p b w1); auto. rewrite (object_complete o c w2); auto.
    2:{ inversion G; subst. lnorm. now apply tail_ok_lt. }
    rewrite (iri_complete g d w3); auto. now rewrite dot_complete.
Qed.
Lemma stop_lt : forall s, ~ stop (60 :: s).
Proof. intros s H. unfold stop in H. cbn [label_tail] in H. change (pn_chars 60 || (60 =? 46)) with true in H. change (pn_chars 60) with true in H. destruct (label_tail s) as [[|] ?]; discriminate. Qed.
Lemma spaced : forall x w i t r, blanks w -> (label_term x -> stop (w ++ t ++ r)) -> iri_at own i t -> label_term x -> w <> [].
Proof. intros x w i t r B S I L ->. specialize (S L). inversion I; subst. now apply stop_lt in S. Qed.
Lemma line_sound : forall q x s r, p_stmt q s = Some (x, r) -> exists t, s = t ++ r /\ line_at own q x t.
Proof.
  intros q x s r H. unfold p_stmt in H. destruct (p_subject s) as [[a s1]|] eqn:A; [|discriminate]. destruct (p_iri s1) as [[b s2]|] eqn:B; [|discriminate].
  destruct (p_object s2) as [[c s3]|] eqn:C; [|discriminate].
  destruct (subject_sound _ _ _ A) as (w0 & ta & B0 & -> & SA & TA). destruct (iri_sound _ _ _ B) as (w1 & tb & B1 & -> & IB).
  destruct (object_sound _ _ _ C) as (w2 & tc & B2 & -> & OC & TC). destruct q.
  - destruct (p_iri s3) as [[g s4]|] eqn:G; [|discriminate]. destruct (p_dot s4) as [k|] eqn:D; [|discriminate]. injection H as <- <-.
    destruct (iri_sound _ _ _ G) as (w3 & tg & B3 & -> & IG). destruct (dot_sound _ _ D) as (w4 & B4 & ->).
    exists (w0 ++ ta ++ w1 ++ tb ++ w2 ++ tc ++ w3 ++ tg ++ w4 ++ [46]). split; [now lnorm|].
    apply la_quad; auto; (split; [assumption|]); intros LT; cbn in LT.
    + eapply spaced; eauto.
    + inversion IB; subst. destruct LT.
    + eapply spaced; eauto.
  - destruct (p_dot s3) as [k|] eqn:D; [|discriminate]. injection H as <- <-. destruct (dot_sound _ _ D) as (w3 & B3 & ->).
    exists (w0 ++ ta ++ w1 ++ tb ++ w2 ++ tc ++ w3 ++ [46]). split; [now lnorm|].
    apply la_triple; auto; (split; [assumption|]); intros LT; cbn in LT.
    + eapply spaced; eauto.
    + inversion IB; subst. destruct LT.
Qed.
(** ** documents *)
Lemma eol_spec : forall c, is_eol c = true <-> c = 10 \/ c = 13.
Proof. intros c. unfold is_eol. rewrite orb_true_iff, !N.eqb_eq. tauto. Qed.
Lemma skip_eol_split : forall s, exists e, Forall (fun c => c = 10 \/ c = 13) e /\ s = e ++ skip_eol s.
Proof.
  induction s as [|c s IH]; [exists []; split; auto|]. cbn [skip_eol]. destruct (is_eol c) eqn:W; [|exists []; split; auto].
  destruct IH as (e & F & E). exists (c :: e). split; [constructor; auto; now apply eol_spec|]. cbn [app]. now rewrite <- E.
Qed.
Lemma skip_eol_app : forall e s, Forall (fun c => c = 10 \/ c = 13) e -> (forall c r, s = c :: r -> is_eol c = false) -> skip_eol (e ++ s) = s.
Proof.
  induction 1 as [|c e C F IH]; intros H; cbn [app].
  - destruct s as [|c s]; [reflexivity|]. cbn [skip_eol]. now rewrite (H c s eq_refl).
  - cbn [skip_eol]. apply eol_spec in C. rewrite C. auto.
Qed.
Lemma line_head : forall q x t, line_at own q x t -> exists w c r, blanks w /\ t = w ++ c :: r /\ (c = 60 \/ c = 95).
Proof.
  assert (S : forall x t, subject_at own x t -> exists c r, t = c :: r /\ (c = 60 \/ c = 95)).
  { intros x t H. inversion H as [? ? I|s L]; subst; [inversion I; subst; eauto|]. destruct (label_head _ L) as (r & ->). eauto. }
  intros q x t H. destruct H as [w0 s a w1 p b w2 o c w3 Q B0 Ss H1 H2 H3 H4 H5|w0 s a w1 p b w2 o c w3 g d w4 Q B0 Ss H1 H2 H3 H4 H5 H6 H7];
    destruct (S _ _ Ss) as (y & r & -> & Y); exists w0, y; eexists; (split; [auto|]); (split; [cbn [app]; reflexivity|auto]).
Qed.
Lemma head_not_eol : forall q x t r, line_at own q x t -> forall c k, t ++ r = c :: k -> is_eol c = false.
Proof.
  intros q x t r H c k E. destruct (line_head _ _ _ H) as (w & d & u & B & -> & D). destruct w as [|a w]; injection E as -> _.
  - destruct D as [-> | ->]; reflexivity.
  - inversion B as [|? ? [-> | ->] _]; reflexivity.
Qed.
Lemma lines_head : forall q l r, lines_at own q l r -> ends_line r.
Proof.
  intros q l r H. inversion H as [w B|w e w' B [N F] B'|w e x t l' r' B [N F] L Ls]; subst; unfold ends_line.
  - destruct r as [|c r]; auto. inversion B as [|? ? C _]; subst. right. exists c, r. split; auto. left. now apply blank_ws.
  - right. destruct w as [|c w].
    + destruct e as [|c e]; [contradiction|]. inversion F; subst. exists c. eexists. split; [reflexivity|]. right. now apply eol_spec.
    + inversion B; subst. exists c. eexists. split; [reflexivity|]. left. now apply blank_ws.
  - right. destruct w as [|c w].
    + destruct e as [|c e]; [contradiction|]. inversion F; subst. exists c. eexists. split; [reflexivity|]. right. now apply eol_spec.
    + inversion B; subst. exists c. eexists. split; [reflexivity|]. left. now apply blank_ws.
Qed.
Definition means_at (q : bool) (st : docst) (l : list rstmt) (s : str) : Prop :=
  match st with
  | AtStart => nt_doc own q l s
  | AfterStmt => lines_at own q l s
  | AfterEol => (l = [] /\ blanks s) \/ exists x t l' r, l = x :: l' /\ s = t ++ r /\ line_at own q x t /\ lines_at own q l' r
  end.
Lemma doc_sound : forall q n st s l, p_doc q n st s = Ok l -> means_at q st l s.
Proof.
  induction n; intros st s l H; [discriminate|]. cbn [p_doc] in H. destruct (skip_ws_split s) as (w & B & E & _). destruct (skip_ws s) as [|c s'] eqn:K.
  - injection H as <-. rewrite app_nil_r in E. subst s. assert (LA : lines_at own q [] w) by now constructor. destruct st; cbn [means_at]; auto. now apply nd_none.
  - destruct (is_eol c) eqn:C.
    + assert (G : st <> AfterEol -> means_at q AfterStmt l s).
      { intros NE. assert (M : means_at q AfterEol l (skip_eol s')) by (destruct st; try contradiction; auto). destruct (skip_eol_split s') as (e & F & Es).
        assert (LE : line_ends (c :: e)) by (split; [discriminate|constructor; auto; now apply eol_spec]).
        cbn [means_at]. rewrite E, Es. cbn [means_at] in M. destruct M as [(-> & BB)|(x & t & l' & r & -> & -> & L1 & L2)].
        - change (w ++ c :: e ++ skip_eol s') with (w ++ (c :: e) ++ skip_eol s'). now constructor.
        - change (w ++ c :: e ++ t ++ r) with (w ++ (c :: e) ++ t ++ r). now constructor. }
      destruct st; try discriminate; cbn [means_at] in *; [apply nd_none|]; apply G; discriminate.
    + assert (G : st <> AfterStmt -> means_at q AfterEol l s).
      { intros NE. assert (M : exists x t l', p_stmt q s = Some (x, t) /\ p_doc q n AfterStmt t = Ok l' /\ l = x :: l').
        { destruct st; try contradiction; (destruct (p_stmt q s) as [[x t]|]; [|discriminate]); destruct (p_doc q n AfterStmt t) as [l'|] eqn:D; try discriminate; injection H as <-; eauto 6. }
        destruct M as (x & t & l' & P & D & ->). apply line_sound in P. destruct P as (u & -> & L). right. exists x, u, l', t. repeat split; auto. now apply IHn in D. }
      destruct st; try discriminate; cbn [means_at] in *.
      * destruct G as [(-> & BB)|(x & t & l' & r & -> & -> & L1 & L2)]; [discriminate| |]; [apply nd_none; now constructor|now apply nd_first].
      * apply G. discriminate.
Qed.
Lemma skip_ws_head : forall w c r, blanks w -> is_ws c = false -> skip_ws (w ++ c :: r) = c :: r.
Proof. intros w c r B C. rewrite skip_ws_blanks by auto. now apply skip_ws_cons. Qed.
Lemma line_step : forall q n st x t r, line_at own q x t -> ends_line r -> st <> AfterStmt ->
  p_doc q (S n) st (t ++ r) = do l <- p_doc q n AfterStmt r ; Ok (x :: l).
Proof.
  intros q n st x t r L E NE. pose proof (line_complete _ _ _ _ L E) as P. destruct (line_head _ _ _ L) as (w & c & u & B & Et & C). cbn [p_doc]. rewrite P.
  assert (K : skip_ws (t ++ r) = c :: u ++ r). { rewrite Et. lnorm. apply skip_ws_head; auto. destruct C as [-> | ->]; reflexivity. }
  rewrite K. assert (EC : is_eol c = false) by (destruct C as [-> | ->]; reflexivity). rewrite EC. destruct st; try contradiction; reflexivity.
Qed.
Lemma eol_step : forall q n st w e s, blanks w -> line_ends e -> (forall c r, s = c :: r -> is_eol c = false) -> st <> AfterEol ->
  p_doc q (S n) st (w ++ e ++ s) = p_doc q n AfterEol s.
Proof.
  intros q n st w e s B [N F] H NE. destruct e as [|c e]; [contradiction|]. inversion F as [|? ? C F']; subst. cbn [p_doc app]. rewrite skip_ws_head; auto.
  2:{ destruct C as [-> | ->]; reflexivity. }
  apply eol_spec in C. rewrite C, skip_eol_app by auto. destruct st; try contradiction; reflexivity.
Qed.
Lemma blank_step : forall q n st w, blanks w -> p_doc q (S n) st w = Ok [].
Proof. intros q n st w B. cbn [p_doc]. rewrite <- (app_nil_r w). rewrite skip_ws_blanks by auto. reflexivity. Qed.
Lemma line_length : forall q x t, line_at own q x t -> (1 <= length t)%nat.
Proof. intros q x t L. destruct (line_head _ _ _ L) as (w & c & u & B & -> & C). rewrite app_length. cbn. lia. Qed.
Lemma lines_complete : forall q l s, lines_at own q l s -> forall n st, st <> AfterEol -> (length s < n)%nat -> p_doc q n st s = Ok l.
Proof.
  induction 1 as [w B|w e w' B LE B'|w e x t l r B LE L Ls IH]; intros n st NE Ln; (destruct n as [|n]; [lia|]).
  - now apply blank_step.
  - rewrite eol_step; auto.
    + destruct n as [|n]; [|now apply blank_step]. destruct LE as [NN _]. destruct e; [contradiction|]. rewrite !app_length in Ln. cbn in Ln. lia.
    + intros c r ->. inversion B' as [|? ? [-> | ->] _]; reflexivity.
  - rewrite eol_step; auto; [|intros c k; now apply (head_not_eol q x t r L)].
    pose proof (line_length _ _ _ L). destruct LE as [NN _]. destruct e as [|? e]; [contradiction|]. rewrite !app_length in Ln. cbn in Ln. destruct n as [|n]; [lia|].
    rewrite (line_step q n AfterEol x t r); [|auto|now apply lines_head in Ls|discriminate]. rewrite (IH n AfterStmt); [reflexivity|discriminate|lia].
Qed.
Lemma doc_complete : forall q l s, nt_doc own q l s -> lark_parse q s = Ok l.
Proof.
  intros q l s H. unfold lark_parse. inversion H as [? ? L|x t l' r L Ls]; subst.
  - eapply lines_complete; eauto. discriminate.
  - pose proof (line_length _ _ _ L) as LL. rewrite (line_step q _ AtStart x t r); [|auto|now apply lines_head in Ls|discriminate].
    rewrite (lines_complete q l' r Ls); [reflexivity|discriminate|]. rewrite app_length. lia.
Qed.
Theorem parse_iff : forall q l s, lark_parse q s = Ok l <-> nt_doc own q l s.
Proof. intros q l s. split; [apply (doc_sound q _ AtStart)|apply doc_complete]. Qed.
