(** Whole documents: the parser never crosses a line end inside a statement, the
    fuel of [p_doc] always suffices, and the parse of a text of lines is the
    sequence of the parses of its lines. *)
From Verif Require Import Model.Py Model.Terms Model.Graph Model.Codec Model.NTriples Spec.CodecSpec Spec.NTSpec
  Proofs.CodecLemmas Proofs.NTLex.
Open Scope N_scope.

Definition no_eol (s : str) : Prop := Forall (fun c => is_eol c = false) s.

(** [t] is what is left of [s] after a non-empty prefix without line ends *)
Definition sfx (s t : str) : Prop := exists p, s = p ++ t /\ p <> [] /\ no_eol p.
(** the same with a possibly empty prefix *)
Definition sfx0 (s t : str) : Prop := exists p, s = p ++ t /\ no_eol p.

Lemma sfx_sfx0 : forall s t, sfx s t -> sfx0 s t.
Proof. intros s t (p & E & _ & H). exists p; auto. Qed.
Lemma sfx0_refl : forall s, sfx0 s s.
Proof. intro s. exists []. split; [reflexivity|constructor]. Qed.
Lemma sfx0_trans : forall a b c, sfx0 a b -> sfx0 b c -> sfx0 a c.
Proof.
  intros a b c (p & -> & H) (q & -> & H'). exists (p ++ q). split; [now rewrite app_assoc|]. apply Forall_app; auto.
Qed.
Lemma sfx_trans0 : forall a b c, sfx a b -> sfx0 b c -> sfx a c.
Proof.
  intros a b c (p & -> & N & H) (q & -> & H'). exists (p ++ q). split; [now rewrite app_assoc|].
  split; [destruct p; [contradiction|discriminate]|]. apply Forall_app; auto.
Qed.
Lemma sfx0_trans1 : forall a b c, sfx0 a b -> sfx b c -> sfx a c.
Proof.
  intros a b c (p & -> & H) (q & -> & N & H'). exists (p ++ q). split; [now rewrite app_assoc|].
  split; [destruct p; [assumption|discriminate]|]. apply Forall_app; auto.
Qed.
Lemma sfx_one : forall c r, is_eol c = false -> sfx (c :: r) r.
Proof. intros c r H. exists [c]. split; [reflexivity|]. split; [discriminate|]. repeat constructor. assumption. Qed.
Lemma sfx_cons : forall c r t, is_eol c = false -> sfx0 r t -> sfx (c :: r) t.
Proof. intros. eapply sfx_trans0; [apply sfx_one; assumption|assumption]. Qed.
Lemma sfx_length : forall s t, sfx s t -> (length t < length s)%nat.
Proof. intros s t (p & -> & N & _). rewrite app_length. destruct p; [contradiction|simpl; lia]. Qed.
Lemma sfx_no_eol : forall s t, sfx0 s t -> no_eol s -> no_eol t.
Proof. intros s t (p & -> & _) H. apply Forall_app in H. tauto. Qed.

Lemma ws_not_eol : forall c, is_ws c = true -> is_eol c = false.
Proof. intros c H. apply is_ws_spec in H. destruct H; subst; reflexivity. Qed.
Lemma is_eol_spec : forall c, is_eol c = true <-> c = 10 \/ c = 13.
Proof. intro c. unfold is_eol. rewrite orb_true_iff, !N.eqb_eq. tauto. Qed.
Lemma not_eol : forall c, c <> 10 -> c <> 13 -> is_eol c = false.
Proof. intros c A B. destruct (is_eol c) eqn:E; [|reflexivity]. apply is_eol_spec in E. tauto. Qed.

Lemma skip_ws_sfx : forall s, sfx0 s (skip_ws s).
Proof.
  induction s as [|c r IH]; cbn [skip_ws]; [apply sfx0_refl|].
  destruct (is_ws c) eqn:E; [|apply sfx0_refl]. apply sfx_sfx0. apply sfx_cons; [now apply ws_not_eol|assumption].
Qed.

Definition ok_lex (L : str -> option (str * str)) : Prop :=
  forall s l t, L s = Some (l, t) -> sfx s t.

Lemma cons_tok_some : forall c x l t, cons_tok c x = Some (l, t) -> exists l', x = Some (l', t) /\ l = c :: l'.
Proof. intros c [[l' t']|] l t H; cbn in H; inversion H; subst. eauto. Qed.

Lemma lex_iri_sfx : forall s st l t, lex_iri st s = Some (l, t) -> sfx s t.
Proof.
  induction s as [|c r IH]; intros st l t H; [discriminate|]. cbn [lex_iri] in H.
  destruct st as [| |k].
  - destruct (c =? 62) eqn:E; [apply N.eqb_eq in E; subst; inversion H; subst; apply sfx_one; reflexivity|].
    destruct (is_ws c) eqn:W; [apply sfx_cons; [now apply ws_not_eol|apply sfx_sfx0; eauto]|].
    destruct (c =? 92) eqn:B.
    + apply cons_tok_some in H. destruct H as (l' & H & _). apply N.eqb_eq in B; subst.
      apply sfx_cons; [reflexivity|apply sfx_sfx0; eauto].
    + destruct (iri_char c) eqn:I; [|discriminate]. apply cons_tok_some in H. destruct H as (l' & H & _).
      apply sfx_cons; [|apply sfx_sfx0; eauto]. apply iri_char_spec in I. apply not_eol; lia.
  - destruct (c =? 117) eqn:E; [|destruct (c =? 85) eqn:E2; [|discriminate]]; apply cons_tok_some in H; destruct H as (l' & H & _);
      (apply sfx_cons; [|apply sfx_sfx0; eauto]).
    + apply N.eqb_eq in E; subst; reflexivity.
    + apply N.eqb_eq in E2; subst; reflexivity.
  - destruct (is_hex c) eqn:E; [|discriminate]. apply cons_tok_some in H. destruct H as (l' & H & _).
    apply sfx_cons; [|apply sfx_sfx0; eauto].
    apply not_eol; intros ->; discriminate E.
Qed.

Lemma lex_string_sfx : forall s st l t, lex_string st s = Some (l, t) -> sfx s t.
Proof.
  induction s as [|c r IH]; intros st l t H; [discriminate|]. cbn [lex_string] in H.
  destruct st as [| |k].
  - destruct (c =? 34) eqn:E; [apply N.eqb_eq in E; subst; inversion H; subst; apply sfx_one; reflexivity|].
    destruct (c =? 92) eqn:B.
    + apply cons_tok_some in H. destruct H as (l' & H & _). apply N.eqb_eq in B; subst.
      apply sfx_cons; [reflexivity|apply sfx_sfx0; eauto].
    + destruct ((c =? 10) || (c =? 13)) eqn:I; [discriminate|]. apply cons_tok_some in H. destruct H as (l' & H & _).
      apply sfx_cons; [|apply sfx_sfx0; eauto]. exact I.
  - destruct (c =? 117) eqn:E; [|destruct (c =? 85) eqn:E2; [|destruct (echar_char c) eqn:E3; [|discriminate]]];
      apply cons_tok_some in H; destruct H as (l' & H & _); (apply sfx_cons; [|apply sfx_sfx0; eauto]).
    + apply N.eqb_eq in E; subst; reflexivity.
    + apply N.eqb_eq in E2; subst; reflexivity.
    + apply not_eol; intros ->; discriminate E3.
  - destruct (is_hex c) eqn:E; [|discriminate]. apply cons_tok_some in H. destruct H as (l' & H & _).
    apply sfx_cons; [|apply sfx_sfx0; eauto].
    apply not_eol; intros ->; discriminate E.
Qed.

Lemma label_tail_sfx : forall s l t, label_tail s = (l, t) -> sfx0 s t.
Proof.
  induction s as [|c r IH]; intros l t H; cbn [label_tail] in H; [inversion H; apply sfx0_refl|].
  destruct (pn_chars c || (c =? 46)) eqn:E; [|inversion H; apply sfx0_refl].
  assert (N : is_eol c = false) by (apply not_eol; intros ->; discriminate E).
  destruct (label_tail r) as [l' t'] eqn:L. destruct l' as [|d l'].
  - destruct (pn_chars c); inversion H; subst; [apply sfx_sfx0; now apply sfx_one|apply sfx0_refl].
  - inversion H; subst. apply sfx_sfx0. apply sfx_cons; eauto.
Qed.
Lemma lex_label_sfx : ok_lex lex_label.
Proof.
  intros s l t H. destruct s as [|c r]; [discriminate|]. cbn [lex_label] in H.
  destruct (pn_chars_u c || in_range 48 57 c) eqn:E; [|discriminate].
  destruct (label_tail r) as [l' t'] eqn:L. inversion H; subst.
  apply sfx_cons; [apply not_eol; intros ->; discriminate E|eapply label_tail_sfx; eassumption].
Qed.

Lemma lang_go_sfx : forall s l t, lang_go s = (l, t) -> sfx0 s t.
Proof.
  induction s as [|c r IH]; intros l t H; cbn [lang_go] in H; [inversion H; apply sfx0_refl|].
  destruct (lang_class c) eqn:E.
  - destruct (lang_go r) as [l' t'] eqn:L. inversion H; subst. apply sfx_sfx0. apply sfx_cons; [|eauto].
    apply not_eol; intros ->; discriminate E.
  - destruct (c =? 45) eqn:D; [|inversion H; apply sfx0_refl]. apply N.eqb_eq in D; subst.
    destruct r as [|d r]; [inversion H; apply sfx0_refl|]. destruct (lang_class d); [|inversion H; apply sfx0_refl].
    destruct (lang_go (d :: r)) as [l' t'] eqn:L. inversion H; subst. apply sfx_sfx0. apply sfx_cons; [reflexivity|eauto].
Qed.
Lemma lang_first_sfx : forall s l t, lang_first s = (l, t) -> sfx0 s t.
Proof.
  induction s as [|c r IH]; intros l t H; cbn [lang_first] in H; [inversion H; apply sfx0_refl|].
  destruct (letter c) eqn:E.
  - destruct (lang_first r) as [l' t'] eqn:L. inversion H; subst. apply sfx_sfx0. apply sfx_cons; [|eauto].
    apply not_eol; intros ->; discriminate E.
  - destruct (c =? 45); [eapply lang_go_sfx; eassumption|inversion H; apply sfx0_refl].
Qed.
Lemma lex_lang_sfx : forall s l t, lex_lang s = Some (l, t) -> sfx0 s t.
Proof.
  intros s l t H. destruct s as [|c r]; [discriminate|]. unfold lex_lang in H. destruct (letter c); [|discriminate].
  eapply lang_first_sfx. injection H. intro E. exact E.
Qed.

Lemma p_iri_sfx : forall s x t, p_iri s = Some (x, t) -> sfx s t.
Proof.
  intros s x t H. unfold p_iri in H. eapply sfx0_trans1; [apply skip_ws_sfx|].
  destruct (skip_ws s) as [|c r]; [discriminate|]. destruct (c =? 60) eqn:E; [|discriminate].
  destruct (lex_iri LNormal r) as [[i t']|] eqn:L; [|discriminate]. inversion H; subst.
  apply N.eqb_eq in E; subst. apply sfx_cons; [reflexivity|]. apply sfx_sfx0. eapply lex_iri_sfx; eassumption.
Qed.
Lemma p_bnode_sfx : forall s x t, p_bnode s = Some (x, t) -> sfx s t.
Proof.
  intros s x t H. unfold p_bnode in H. eapply sfx0_trans1; [apply skip_ws_sfx|].
  destruct (skip_ws s) as [|c [|d r]]; try discriminate. destruct ((c =? 95) && (d =? 58)) eqn:E; [|discriminate].
  destruct (lex_label r) as [[i t']|] eqn:L; [|discriminate]. inversion H; subst.
  apply andb_true_iff in E. destruct E as [E1 E2]. apply N.eqb_eq in E1; apply N.eqb_eq in E2; subst.
  apply sfx_cons; [reflexivity|]. apply sfx_sfx0. apply sfx_cons; [reflexivity|]. apply sfx_sfx0. eapply lex_label_sfx; eassumption.
Qed.
Lemma p_subject_sfx : forall s x t, p_subject s = Some (x, t) -> sfx s t.
Proof. intros s x t H. unfold p_subject in H. destruct (starts 95 s); [eapply p_bnode_sfx|eapply p_iri_sfx]; eassumption. Qed.
Lemma p_datatype_sfx : forall s x t, p_datatype s = Some (x, t) -> sfx s t.
Proof.
  intros s x t H. destruct s as [|c [|d r]]; try discriminate. unfold p_datatype in H.
  destruct ((c =? 94) && (d =? 94)) eqn:E; [|discriminate].
  destruct (p_iri r) as [[i t']|] eqn:L; [|discriminate]. destruct i; try discriminate. inversion H; subst.
  apply andb_true_iff in E. destruct E as [E1 E2]. apply N.eqb_eq in E1; apply N.eqb_eq in E2; subst.
  apply sfx_cons; [reflexivity|]. apply sfx_sfx0. apply sfx_cons; [reflexivity|]. apply sfx_sfx0. eapply p_iri_sfx; eassumption.
Qed.
Lemma starts_spec : forall c s, starts c s = true -> skip_ws s = c :: tl (skip_ws s).
Proof.
  intros c s H. unfold starts in H. destruct (skip_ws s) as [|d r]; [discriminate|]. apply N.eqb_eq in H. now subst.
Qed.
Lemma p_literal_sfx : forall s x t, p_literal s = Some (x, t) -> sfx s t.
Proof.
  intros s x t H. unfold p_literal in H. destruct (lex_string LNormal s) as [[b t1]|] eqn:L; [|discriminate].
  eapply sfx_trans0; [eapply lex_string_sfx; eassumption|].
  destruct (starts 94 t1).
  - destruct (p_datatype (skip_ws t1)) as [[i t2]|] eqn:D; [|discriminate]. inversion H; subst.
    eapply sfx0_trans; [apply skip_ws_sfx|]. apply sfx_sfx0. eapply p_datatype_sfx; eassumption.
  - destruct (starts 64 t1) eqn:S.
    + destruct (lex_lang (tl (skip_ws t1))) as [[i t2]|] eqn:D; [|discriminate]. inversion H; subst.
      eapply sfx0_trans; [apply skip_ws_sfx|]. rewrite (starts_spec _ _ S).
      apply sfx_sfx0. apply sfx_cons; [reflexivity|]. eapply lex_lang_sfx; eassumption.
    + inversion H; subst. apply sfx0_refl.
Qed.
Lemma p_object_sfx : forall s x t, p_object s = Some (x, t) -> sfx s t.
Proof.
  intros s x t H. unfold p_object in H. destruct (starts 34 s) eqn:S; [|eapply p_subject_sfx; eassumption].
  eapply sfx0_trans1; [apply skip_ws_sfx|]. rewrite (starts_spec _ _ S). apply sfx_cons; [reflexivity|].
  apply sfx_sfx0. eapply p_literal_sfx; eassumption.
Qed.
Lemma p_dot_sfx : forall s t, p_dot s = Some t -> sfx s t.
Proof.
  intros s t H. unfold p_dot in H. eapply sfx0_trans1; [apply skip_ws_sfx|].
  destruct (skip_ws s) as [|c r]; [discriminate|]. destruct (c =? 46) eqn:E; [|discriminate]. inversion H; subst.
  apply N.eqb_eq in E; subst. apply sfx_one. reflexivity.
Qed.
Lemma p_stmt_sfx : forall q s x t, p_stmt q s = Some (x, t) -> sfx s t.
Proof.
  intros q s x t H. unfold p_stmt in H.
  destruct (p_subject s) as [[a s1]|] eqn:E1; [|discriminate].
  destruct (p_iri s1) as [[b s2]|] eqn:E2; [|discriminate].
  destruct (p_object s2) as [[c s3]|] eqn:E3; [|discriminate].
  apply p_subject_sfx in E1. apply p_iri_sfx, sfx_sfx0 in E2. apply p_object_sfx, sfx_sfx0 in E3.
  eapply sfx_trans0; [exact E1|]. eapply sfx0_trans; [exact E2|]. eapply sfx0_trans; [exact E3|].
  destruct q.
  - destruct (p_iri s3) as [[g s4]|] eqn:E4; [|discriminate]. destruct (p_dot s4) as [r|] eqn:E5; [|discriminate].
    inversion H; subst. apply p_iri_sfx, sfx_sfx0 in E4. apply p_dot_sfx, sfx_sfx0 in E5. eapply sfx0_trans; eassumption.
  - destruct (p_dot s3) as [r|] eqn:E5; [|discriminate]. inversion H; subst. apply p_dot_sfx, sfx_sfx0 in E5. assumption.
Qed.

(** ** Fuel *)
Lemma skip_eol_length : forall s, (length (skip_eol s) <= length s)%nat.
Proof. induction s as [|c r IH]; cbn [skip_eol]; [lia|]. destruct (is_eol c); simpl; lia. Qed.
Lemma skip_ws_length : forall s, (length (skip_ws s) <= length s)%nat.
Proof. induction s as [|c r IH]; cbn [skip_ws]; [lia|]. destruct (is_ws c); simpl; lia. Qed.

Lemma p_doc_fuel : forall q n m st s, (length s < n)%nat -> (length s < m)%nat -> p_doc q n st s = p_doc q m st s.
Proof.
  intros q n. induction n as [|n IH]; intros m st s Hn Hm; [lia|]. destruct m as [|m]; [lia|]. cbn [p_doc].
  pose proof (skip_ws_length s) as HL. destruct (skip_ws s) as [|c r] eqn:E; [reflexivity|]. simpl in HL.
  pose proof (skip_eol_length r) as HE.
  destruct (is_eol c).
  - destruct st; try reflexivity; apply IH; lia.
  - destruct st; try reflexivity; destruct (p_stmt q s) as [[x t]|] eqn:P; try reflexivity;
      apply p_stmt_sfx, sfx_length in P; rewrite (IH m AfterStmt t); try reflexivity; lia.
Qed.

Definition doc (q : bool) (st : docst) (s : str) : res (list rstmt) := p_doc q (S (length s)) st s.
Lemma doc_eq : forall q st s, doc q st s =
  match skip_ws s with
  | [] => Ok []
  | c :: r =>
      if is_eol c then match st with AfterEol => Err LarkError | _ => doc q AfterEol (skip_eol r) end
      else match st with
           | AfterStmt => Err LarkError
           | _ => match p_stmt q s with
                  | Some (x, t) => do l <- doc q AfterStmt t ; Ok (x :: l)
                  | None => Err LarkError
                  end
           end
  end.
Proof.
  intros q st s. unfold doc at 1. cbn [p_doc]. pose proof (skip_ws_length s) as HL.
  destruct (skip_ws s) as [|c r] eqn:E; [reflexivity|]. simpl in HL. pose proof (skip_eol_length r) as HE.
  destruct (is_eol c).
  - destruct st; try reflexivity; apply p_doc_fuel; lia.
  - destruct st; try reflexivity; destruct (p_stmt q s) as [[x t]|] eqn:P; try reflexivity;
      apply p_stmt_sfx, sfx_length in P; unfold doc; rewrite (p_doc_fuel q (length s) (S (length t)) AfterStmt t); try reflexivity; lia.
Qed.

Lemma doc_err : forall q s st e, doc q st s = Err e -> e = LarkError.
Proof.
  intros q s. induction s as [s IH] using strong_list_ind. intros st e H. rewrite doc_eq in H.
  pose proof (skip_ws_length s) as HL.
  destruct (skip_ws s) as [|c r]; [discriminate|]. simpl in HL. pose proof (skip_eol_length r) as HE.
  destruct (is_eol c).
  - destruct st; try (inversion H; reflexivity); (apply (IH (skip_eol r)) in H; [exact H|lia]).
  - destruct st; try (inversion H; reflexivity); destruct (p_stmt q s) as [[x t]|] eqn:P; try (inversion H; reflexivity);
      apply p_stmt_sfx, sfx_length in P; apply bind_err in H; destruct H as [H|[l [_ H]]]; try discriminate;
      (apply (IH t) in H; [exact H|assumption]).
Qed.
Lemma lark_parse_err : forall q s e, lark_parse q s = Err e -> e = LarkError.
Proof. intros q s e H. eapply (doc_err q s AtStart). exact H. Qed.

(** ** Locality: what follows a line end does not matter *)
Definition ext (e : char) (rest : str) {A} (x : option (A * str)) : option (A * str) :=
  match x with Some (a, t) => Some (a, t ++ e :: rest) | None => None end.
Section Local.
Variable e : char.
Variable rest : str.
Hypothesis He : is_eol e = true.

Lemma e_ws : is_ws e = false.
Proof. apply is_eol_spec in He. destruct He; subst; reflexivity. Qed.

Lemma skip_ws_ext : forall s, skip_ws (s ++ e :: rest) = skip_ws s ++ e :: rest.
Proof.
  induction s as [|c r IH]; cbn [skip_ws app]; [now rewrite e_ws|]. destruct (is_ws c); [exact IH|reflexivity].
Qed.
Lemma cons_tok_ext : forall c x, cons_tok c (ext e rest x) = ext e rest (cons_tok c x).
Proof. intros c [[l t]|]; reflexivity. Qed.

Lemma lex_iri_ext : forall s st, lex_iri st (s ++ e :: rest) = ext e rest (lex_iri st s).
Proof.
  induction s as [|c r IH]; intro st.
  - apply is_eol_spec in He. cbn [app lex_iri]. destruct He; subst e; destruct st; reflexivity.
  - cbn [app lex_iri]. rewrite !IH. destruct st as [| |k]; rewrite ?IH, ?cons_tok_ext.
    + destruct (c =? 62); [reflexivity|]. destruct (is_ws c); [reflexivity|]. destruct (c =? 92); [reflexivity|].
      destruct (iri_char c); reflexivity.
    + destruct (c =? 117); [reflexivity|]. destruct (c =? 85); reflexivity.
    + destruct (is_hex c); reflexivity.
Qed.
Lemma lex_string_ext : forall s st, lex_string st (s ++ e :: rest) = ext e rest (lex_string st s).
Proof.
  induction s as [|c r IH]; intro st.
  - apply is_eol_spec in He. cbn [app lex_string]. destruct He; subst e; destruct st; reflexivity.
  - cbn [app lex_string]. destruct st as [| |k]; rewrite ?IH, ?cons_tok_ext.
    + destruct (c =? 34); [reflexivity|]. destruct (c =? 92); [reflexivity|].
      destruct ((c =? 10) || (c =? 13)); reflexivity.
    + destruct (c =? 117); [reflexivity|]. destruct (c =? 85); [reflexivity|]. destruct (echar_char c); reflexivity.
    + destruct (is_hex c); reflexivity.
Qed.
Lemma label_tail_ext : forall s, label_tail (s ++ e :: rest) = (fst (label_tail s), snd (label_tail s) ++ e :: rest).
Proof.
  induction s as [|c r IH].
  - apply is_eol_spec in He. cbn [app]. destruct He; subst e; reflexivity.
  - cbn [app label_tail]. rewrite IH. destruct (pn_chars c || (c =? 46)); [|reflexivity].
    destruct (label_tail r) as [[|d l] t]; cbn [fst snd]; [destruct (pn_chars c)|]; reflexivity.
Qed.
Lemma lex_label_ext : forall s, lex_label (s ++ e :: rest) = ext e rest (lex_label s).
Proof.
  intros [|c r].
  - apply is_eol_spec in He. cbn [app]. destruct He; subst e; reflexivity.
  - cbn [app lex_label]. rewrite label_tail_ext. destruct (pn_chars_u c || in_range 48 57 c); [|reflexivity].
    destruct (label_tail r) as [l t]. reflexivity.
Qed.
Lemma e_lang : lang_class e = false /\ letter e = false /\ (e =? 45) = false.
Proof. apply is_eol_spec in He. destruct He; subst e; repeat split; reflexivity. Qed.
Lemma lang_go_ext : forall s, lang_go (s ++ e :: rest) = (fst (lang_go s), snd (lang_go s) ++ e :: rest).
Proof.
  destruct e_lang as (E1 & E2 & E3). induction s as [|c r IH].
  - cbn [app lang_go]. rewrite E1, E3. reflexivity.
  - cbn [app lang_go]. rewrite IH. destruct (lang_class c).
    + destruct (lang_go r); reflexivity.
    + destruct (c =? 45); [|reflexivity]. destruct r as [|d r].
      * cbn [app]. rewrite E1. reflexivity.
      * cbn [app]. destruct (lang_class d); [|reflexivity]. destruct (lang_go (d :: r)); reflexivity.
Qed.
Lemma lang_first_ext : forall s, lang_first (s ++ e :: rest) = (fst (lang_first s), snd (lang_first s) ++ e :: rest).
Proof.
  destruct e_lang as (E1 & E2 & E3). induction s as [|c r IH].
  - cbn [app lang_first]. rewrite E2, E3. reflexivity.
  - cbn [app lang_first]. rewrite IH. destruct (letter c).
    + destruct (lang_first r); reflexivity.
    + destruct (c =? 45); [|reflexivity]. exact (lang_go_ext (c :: r)).
Qed.
Lemma lex_lang_ext : forall s, lex_lang (s ++ e :: rest) = ext e rest (lex_lang s).
Proof.
  destruct e_lang as (E1 & E2 & E3). intros [|c r].
  - cbn [app lex_lang]. rewrite E2. reflexivity.
  - cbn [app]. unfold lex_lang. destruct (letter c); [|reflexivity].
    change (c :: r ++ e :: rest) with ((c :: r) ++ e :: rest). rewrite lang_first_ext.
    destruct (lang_first (c :: r)). reflexivity.
Qed.
Lemma starts_ext : forall c s, c <> e -> starts c (s ++ e :: rest) = starts c s.
Proof.
  intros c s H. unfold starts. rewrite skip_ws_ext. destruct (skip_ws s) as [|d r]; [|reflexivity].
  cbn [app]. apply N.eqb_neq. congruence.
Qed.
Lemma tl_ext : forall c s, c <> e -> starts c s = true -> tl (skip_ws (s ++ e :: rest)) = tl (skip_ws s) ++ e :: rest.
Proof. intros c s H S. rewrite skip_ws_ext. rewrite (starts_spec _ _ S). reflexivity. Qed.
Lemma e_neq : forall c, is_eol c = false -> c <> e.
Proof. intros c H ->. congruence. Qed.

Lemma p_iri_ext : forall s, p_iri (s ++ e :: rest) = ext e rest (p_iri s).
Proof.
  intro s. unfold p_iri. rewrite skip_ws_ext. destruct (skip_ws s) as [|c r]; cbn [app].
  - destruct (e =? 60) eqn:E; [|reflexivity]. apply N.eqb_eq in E. subst e. discriminate He.
  - destruct (c =? 60); [|reflexivity]. rewrite lex_iri_ext. destruct (lex_iri LNormal r) as [[? ?]|]; reflexivity.
Qed.
Lemma p_bnode_ext : forall s, p_bnode (s ++ e :: rest) = ext e rest (p_bnode s).
Proof.
  intro s. unfold p_bnode. rewrite skip_ws_ext. destruct (skip_ws s) as [|c [|d r]]; cbn [app].
  - destruct rest as [|d r]; [reflexivity|]. destruct ((e =? 95) && (d =? 58)) eqn:E; [|reflexivity].
    apply andb_true_iff in E. destruct E as [E _]. apply N.eqb_eq in E. subst e. discriminate He.
  - destruct ((c =? 95) && (e =? 58)) eqn:E; [|reflexivity].
    apply andb_true_iff in E. destruct E as [_ E]. apply N.eqb_eq in E. subst e. discriminate He.
  - destruct ((c =? 95) && (d =? 58)); [|reflexivity]. rewrite lex_label_ext.
    destruct (lex_label r) as [[? ?]|]; reflexivity.
Qed.
Lemma p_subject_ext : forall s, p_subject (s ++ e :: rest) = ext e rest (p_subject s).
Proof.
  intro s. unfold p_subject. rewrite starts_ext by (now apply e_neq).
  destruct (starts 95 s); [apply p_bnode_ext|apply p_iri_ext].
Qed.
Lemma p_datatype_ext : forall s, p_datatype (s ++ e :: rest) = ext e rest (p_datatype s).
Proof.
  intros [|c [|d r]]; cbn [app]; unfold p_datatype.
  - destruct rest as [|d r]; [reflexivity|]. destruct ((e =? 94) && (d =? 94)) eqn:E; [|reflexivity].
    apply andb_true_iff in E. destruct E as [E _]. apply N.eqb_eq in E. subst e. discriminate He.
  - destruct ((c =? 94) && (e =? 94)) eqn:E; [|reflexivity].
    apply andb_true_iff in E. destruct E as [_ E]. apply N.eqb_eq in E. subst e. discriminate He.
  - destruct ((c =? 94) && (d =? 94)); [|reflexivity]. rewrite p_iri_ext. destruct (p_iri r) as [[[i| |] ?]|]; reflexivity.
Qed.
Lemma p_literal_ext : forall s, p_literal (s ++ e :: rest) = ext e rest (p_literal s).
Proof.
  intro s. unfold p_literal. rewrite lex_string_ext. destruct (lex_string LNormal s) as [[b t]|]; [|reflexivity].
  cbn [ext]. rewrite !starts_ext by (now apply e_neq). destruct (starts 94 t).
  - rewrite skip_ws_ext, p_datatype_ext. destruct (p_datatype (skip_ws t)) as [[? ?]|]; reflexivity.
  - destruct (starts 64 t) eqn:S; [|reflexivity].
    rewrite (tl_ext 64 t) by (first [now apply e_neq|assumption]). rewrite lex_lang_ext.
    destruct (lex_lang (tl (skip_ws t))) as [[? ?]|]; reflexivity.
Qed.
Lemma p_object_ext : forall s, p_object (s ++ e :: rest) = ext e rest (p_object s).
Proof.
  intro s. unfold p_object. rewrite starts_ext by (now apply e_neq). destruct (starts 34 s) eqn:S; [|apply p_subject_ext].
  rewrite (tl_ext 34 s) by (first [now apply e_neq|assumption]). apply p_literal_ext.
Qed.
Lemma p_dot_ext : forall s, p_dot (s ++ e :: rest) = match p_dot s with Some t => Some (t ++ e :: rest) | None => None end.
Proof.
  intro s. unfold p_dot. rewrite skip_ws_ext. destruct (skip_ws s) as [|c r]; cbn [app].
  - destruct (e =? 46) eqn:E; [|reflexivity]. apply N.eqb_eq in E. subst e. discriminate He.
  - destruct (c =? 46); reflexivity.
Qed.
Lemma p_stmt_ext : forall q s, p_stmt q (s ++ e :: rest) = ext e rest (p_stmt q s).
Proof.
  intros q s. unfold p_stmt. rewrite p_subject_ext. destruct (p_subject s) as [[a s1]|]; [|reflexivity]. cbn [ext].
  rewrite p_iri_ext. destruct (p_iri s1) as [[b s2]|]; [|reflexivity]. cbn [ext].
  rewrite p_object_ext. destruct (p_object s2) as [[c s3]|]; [|reflexivity]. cbn [ext]. destruct q.
  - rewrite p_iri_ext. destruct (p_iri s3) as [[g s4]|]; [|reflexivity]. cbn [ext].
    rewrite p_dot_ext. destruct (p_dot s4); reflexivity.
  - rewrite p_dot_ext. destruct (p_dot s3); reflexivity.
Qed.
End Local.

(** ** Lines *)
Definition blank (s : str) : Prop := Forall (fun c => is_ws c = true) s.
Lemma skip_ws_blank : forall s, skip_ws s = [] <-> blank s.
Proof.
  induction s as [|c r IH]; cbn [skip_ws]; [split; [constructor|reflexivity]|].
  destruct (is_ws c) eqn:E.
  - rewrite IH. split; intro H; [constructor; assumption|inversion H; assumption].
  - split; [discriminate|]. intro H. inversion H. congruence.
Qed.
Lemma skip_ws_head : forall s c r, skip_ws s = c :: r -> is_ws c = false.
Proof.
  induction s as [|d t IH]; intros c r H; cbn [skip_ws] in H; [discriminate|].
  destruct (is_ws d) eqn:E; [eapply IH; eassumption|]. inversion H; subst; assumption.
Qed.
Lemma skip_ws_no_eol : forall s c r, no_eol s -> skip_ws s = c :: r -> is_eol c = false.
Proof.
  intros s c r H E. assert (no_eol (c :: r)) as H' by (rewrite <- E; eapply sfx_no_eol; [apply skip_ws_sfx|assumption]).
  inversion H'; assumption.
Qed.

(** what the parser makes of one line, without its line end *)
Definition line (q : bool) (s : str) : option rstmt :=
  match p_stmt q s with
  | Some (x, t) => match skip_ws t with [] => Some x | _ => None end
  | None => None
  end.

Definition clean_line (s : str) : Prop := no_eol s /\ ~ blank s.

Lemma doc_line : forall q st s e rest, clean_line s -> is_eol e = true -> st <> AfterStmt ->
  doc q st (s ++ e :: rest) =
  match line q s with
  | Some x => do l <- doc q AfterEol (skip_eol rest) ; Ok (x :: l)
  | None => Err LarkError
  end.
Proof.
  intros q st s e rest [Hn Hb] He Hst. rewrite doc_eq. rewrite skip_ws_ext by assumption.
  destruct (skip_ws s) as [|c r] eqn:E; [exfalso; apply Hb; now apply skip_ws_blank|]. cbn [app].
  rewrite (skip_ws_no_eol s c r Hn E). rewrite p_stmt_ext by assumption. unfold line.
  destruct st; try congruence; (destruct (p_stmt q s) as [[x t]|] eqn:P; [|reflexivity]); cbn [ext];
    (assert (Ht : no_eol t) by (eapply sfx_no_eol; [apply sfx_sfx0; eapply p_stmt_sfx; eassumption|assumption]));
    rewrite (doc_eq q AfterStmt), skip_ws_ext by assumption;
    (destruct (skip_ws t) as [|d u] eqn:W; cbn [app]; [now rewrite He|]);
    now rewrite (skip_ws_no_eol t d u Ht W).
Qed.
Lemma doc_last_line : forall q st s, clean_line s -> st <> AfterStmt ->
  doc q st s = match line q s with Some x => Ok [x] | None => Err LarkError end.
Proof.
  intros q st s [Hn Hb] Hst. rewrite doc_eq. destruct (skip_ws s) as [|c r] eqn:E; [exfalso; apply Hb; now apply skip_ws_blank|].
  rewrite (skip_ws_no_eol s c r Hn E). unfold line.
  destruct st; try congruence; (destruct (p_stmt q s) as [[x t]|] eqn:P; [|reflexivity]);
    (assert (Ht : no_eol t) by (eapply sfx_no_eol; [apply sfx_sfx0; eapply p_stmt_sfx; eassumption|assumption]));
    rewrite (doc_eq q AfterStmt); (destruct (skip_ws t) as [|d u] eqn:W; [reflexivity|]);
    now rewrite (skip_ws_no_eol t d u Ht W).
Qed.
Lemma doc_nil : forall q st, doc q st [] = Ok [].
Proof. reflexivity. Qed.
Lemma skip_eol_clean : forall s rest, clean_line s -> skip_eol (s ++ rest) = s ++ rest.
Proof.
  intros [|c r] rest [Hn Hb]; [exfalso; apply Hb; constructor|]. inversion Hn; subst. cbn [app skip_eol]. now rewrite H1.
Qed.

Fixpoint seq_lines (q : bool) (ss : list str) : res (list rstmt) :=
  match ss with
  | [] => Ok []
  | s :: r => match line q s with
              | Some x => do l <- seq_lines q r ; Ok (x :: l)
              | None => Err LarkError
              end
  end.
Lemma text_cons : forall s ss, text (s :: ss) = s ++ 10 :: text ss.
Proof. intros. unfold text. cbn [map concat]. unfold lf at 1. rewrite <- app_assoc. reflexivity. Qed.
Lemma skip_eol_text : forall ss, Forall clean_line ss -> skip_eol (text ss) = text ss.
Proof.
  intros ss H. destruct H as [|s ss Hs Hss]; [reflexivity|]. rewrite text_cons. now apply skip_eol_clean.
Qed.
Lemma doc_text : forall q ss st, Forall clean_line ss -> st <> AfterStmt -> doc q st (text ss) = seq_lines q ss.
Proof.
  intros q ss st H. revert st. induction H as [|s ss Hs Hss IH]; intros st Hst; [reflexivity|].
  rewrite text_cons, doc_line by (first [assumption|reflexivity]). cbn [seq_lines].
  destruct (line q s) as [x|]; [|reflexivity]. rewrite skip_eol_text by assumption. rewrite IH by discriminate. reflexivity.
Qed.
Lemma parse_text : forall q ss, Forall clean_line ss -> lark_parse q (text ss) = seq_lines q ss.
Proof. intros q ss H. apply (doc_text q ss AtStart H). discriminate. Qed.
Lemma parse_one : forall q s, clean_line s ->
  lark_parse q (lf s) = match line q s with Some x => Ok [x] | None => Err LarkError end.
Proof.
  intros q s H. change (doc q AtStart (s ++ [10]) = match line q s with Some x => Ok [x] | None => Err LarkError end).
  rewrite doc_line by (first [assumption|reflexivity|discriminate]). destruct (line q s); reflexivity.
Qed.
Lemma parse_blank : forall q s, blank s -> lark_parse q (lf s) = Ok [].
Proof.
  intros q s H. change (doc q AtStart (s ++ [10]) = Ok []). rewrite doc_eq, skip_ws_ext by reflexivity.
  rewrite (proj2 (skip_ws_blank s) H). reflexivity.
Qed.
