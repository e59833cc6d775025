(** Lexer/parser lemmas for N-Triples: what is written is read back (C17, C19, C25, C26, C31, C32). *)
From Verif Require Import Model.Py Model.Terms Model.Codec Model.NTriples Spec.CodecSpec Spec.NTSpec
  Proofs.CodecLemmas Proofs.Utf8 Proofs.IriLemmas.
Open Scope N_scope.

Lemma is_ws_spec : forall c, is_ws c = true <-> c = 32 \/ c = 9.
Proof. intros c. unfold is_ws. rewrite orb_true_iff, !N.eqb_eq. tauto. Qed.
Lemma is_ws_false : forall c, is_ws c = false <-> c <> 32 /\ c <> 9.
Proof. intros c. unfold is_ws. rewrite orb_false_iff, !N.eqb_neq. tauto. Qed.
Lemma skip_ws_cons : forall c r, is_ws c = false -> skip_ws (c :: r) = c :: r.
Proof. intros c r H. cbn [skip_ws]. rewrite H. reflexivity. Qed.
Lemma skip_ws_sp : forall r, skip_ws (32 :: r) = skip_ws r.
Proof. reflexivity. Qed.

(** ** IRIs *)
Lemma iri_char_spec : forall c, iri_char c = true <->
  32 < c /\ c <> 60 /\ c <> 62 /\ c <> 34 /\ c <> 123 /\ c <> 125 /\ c <> 124 /\ c <> 94 /\ c <> 96 /\ c <> 92.
Proof.
  intros c. unfold iri_char. rewrite andb_true_iff, !negb_true_iff, N.leb_gt.
  split; intros [A B]; split; auto.
  - cbn [existsb] in B. rewrite !orb_false_iff, !N.eqb_neq in B. tauto.
  - cbn [existsb]. rewrite !orb_false_iff, !N.eqb_neq. tauto.
Qed.
Lemma uri_iri_char : forall c, uri_char c = true -> iri_char c = true /\ is_ws c = false /\ c <> 62 /\ c <> 92 /\ c <> 34.
Proof.
  intros c H. pose proof (uri_char_ascii c H) as R.
  assert (G : uri_char c = true -> iri_char c && negb (is_ws c) && negb (c =? 62) && negb (c =? 92) && negb (c =? 34) = true).
  { assert (L : c < 128) by lia. clear H R. revert c L.
    assert (X : forall c, c < 128 -> implb (uri_char c) (iri_char c && negb (is_ws c) && negb (c =? 62) && negb (c =? 92) && negb (c =? 34)) = true).
    { apply (below_cases 128 (fun c => implb (uri_char c) (iri_char c && negb (is_ws c) && negb (c =? 62) && negb (c =? 92) && negb (c =? 34)))).
      vm_compute. reflexivity. }
    intros c L U. specialize (X c L). rewrite U in X. exact X. }
  specialize (G H). rewrite !andb_true_iff, !negb_true_iff, !N.eqb_neq in G. tauto.
Qed.
(** plain IRI characters with blanks anywhere: the blanks are dropped *)
Lemma lex_iri_blanks : forall t r, Forall (fun c => iri_char c = true \/ is_ws c = true) t ->
  lex_iri LNormal (t ++ 62 :: r) = Some (filter (fun c => negb (is_ws c)) t, r).
Proof.
  induction 1 as [|c t Hc Ht IH]; [reflexivity|]. cbn [app lex_iri filter].
  destruct (is_ws c) eqn:W.
  - assert (c =? 62 = false) as -> by (apply is_ws_spec in W; apply N.eqb_neq; lia). exact IH.
  - destruct Hc as [Hc|Hc]; [|discriminate]. cbn [negb].
    pose proof Hc as Hc'. apply iri_char_spec in Hc'.
    replace (c =? 62) with false by (symmetry; apply N.eqb_neq; tauto).
    replace (c =? 92) with false by (symmetry; apply N.eqb_neq; tauto).
    rewrite Hc, IH. reflexivity.
Qed.
Lemma lex_iri_uri : forall q r, Forall (fun c => uri_char c = true) q -> lex_iri LNormal (q ++ 62 :: r) = Some (q, r).
Proof.
  intros q r H. rewrite lex_iri_blanks.
  - f_equal. f_equal. apply filter_id. eapply Forall_impl; [|exact H]. intros c U. destruct (uri_iri_char c U) as (_ & -> & _). reflexivity.
  - eapply Forall_impl; [|exact H]. intros c U. left. apply uri_iri_char; auto.
Qed.

(** ** escapes inside tokens *)
Lemma lex_string_hex : forall k h r, length h = S k -> Forall (fun c => is_hex c = true) h ->
  lex_string (LHex k) (h ++ r) = match lex_string LNormal r with Some (l, t) => Some (h ++ l, t) | None => None end.
Proof.
  induction k; intros h r L F.
  - destruct h as [|a [|]]; try discriminate. inversion F; subst. cbn [app lex_string]. rewrite H1. cbn [hex_next].
    destruct (lex_string LNormal r) as [[]|]; reflexivity.
  - destruct h as [|a h]; [discriminate|]. injection L as L. inversion F; subst. cbn [app lex_string]. rewrite H1. cbn [hex_next].
    rewrite IHk by auto. destruct (lex_string LNormal r) as [[]|]; reflexivity.
Qed.
Lemma lex_string_char : forall c r, lex_string LNormal (nt_escape_char c ++ r) =
  match lex_string LNormal r with Some (l, t) => Some (nt_escape_char c ++ l, t) | None => None end.
Proof.
  intros c r. destruct (nt_escape_char_case c); try (subst; cbn; destruct (lex_string LNormal r) as [[]|]; reflexivity).
  - cbn [app lex_string]. replace (c =? 34) with false by (symmetry; apply N.eqb_neq; auto).
    replace (c =? 92) with false by (symmetry; apply N.eqb_neq; auto).
    replace (c =? 10) with false by (symmetry; apply N.eqb_neq; lia).
    replace (c =? 13) with false by (symmetry; apply N.eqb_neq; lia). cbn [orb].
    destruct (lex_string LNormal r) as [[]|]; reflexivity.
  - rewrite <- app_assoc. cbn [app]. cbn [lex_string].
    change (92 =? 34) with false. change (92 =? 92) with true. change (117 =? 117) with true. cbv iota.
    rewrite (lex_string_hex 3) by (try apply fmtX_length; apply fmtX_hex).
    destruct (lex_string LNormal r) as [[]|]; reflexivity.
  - rewrite <- app_assoc. cbn [app]. cbn [lex_string].
    change (92 =? 34) with false. change (92 =? 92) with true. change (85 =? 117) with false. change (85 =? 85) with true. cbv iota.
    rewrite (lex_string_hex 7) by (try apply fmtX_length; apply fmtX_hex).
    destruct (lex_string LNormal r) as [[]|]; reflexivity.
Qed.
Lemma lex_string_escape : forall v r, lex_string LNormal (nt_escape v ++ 34 :: r) = Some (nt_escape v, r).
Proof.
  induction v as [|c v IH]; intros r; [reflexivity|]. cbn [nt_escape]. rewrite <- app_assoc, lex_string_char, IH. reflexivity.
Qed.

(** ** blank node labels *)
Lemma hexL_ok : forall d, d < 16 -> pn_chars_u (hexL d + 17) = true /\ ascii_letter (hexL d + 17) = true.
Proof. apply lt16_cases. repeat constructor. Qed.
Lemma hex_go_digits : forall f n acc (P : char -> Prop), (forall d, d < 16 -> P (hexL d)) -> Forall P acc -> Forall P (hex_go f n acc).
Proof.
  induction f; intros n acc P HP H; cbn [hex_go]; [auto|].
  destruct (N.ltb_spec n 16); [constructor; auto|]. apply IHf; auto. constructor; auto. apply HP. apply N.mod_lt. discriminate.
Qed.
Lemma hex_lower_digits : forall a (P : char -> Prop), (forall d, d < 16 -> P (hexL d)) -> Forall P (hex_lower a).
Proof. intros. apply hex_go_digits; auto. Qed.
Lemma hex_go_nonempty : forall f n acc, f <> O -> hex_go f n acc <> [].
Proof.
  induction f; intros n acc H; [contradiction|]. cbn [hex_go]. destruct (n <? 16); [discriminate|].
  destruct f; [cbn; discriminate|apply IHf; discriminate].
Qed.
Lemma size_nat_div : forall n, 16 <= n -> (N.size_nat (n / 16) < N.size_nat n)%nat.
Proof.
  intros n H. destruct n as [|p]; [lia|].
  change 16 with (2 ^ 4). rewrite <- N.shiftr_div_pow2.
  do 4 (destruct p as [p|p|]; [| |lia]); simpl; lia.
Qed.
Lemma int16_app : forall a b, int16 (a ++ b) = int16 a * 16 ^ N.of_nat (length b) + int16 b.
Proof.
  intros a b. induction b as [|d b IH] using rev_ind.
  - rewrite app_nil_r. simpl. change (int16 []) with 0. lia.
  - rewrite app_assoc, !int16_snoc, IH, app_length. simpl length.
    replace (N.of_nat (length b + 1)) with (N.succ (N.of_nat (length b))) by lia. rewrite N.pow_succ_r'. lia.
Qed.
Lemma hex_go_value : forall f n acc, (N.size_nat n < f)%nat -> Forall (fun c => is_hex c = true) acc ->
  int16 (hex_go f n acc) = n * 16 ^ N.of_nat (length acc) + int16 acc.
Proof.
  induction f; intros n acc L F; [lia|]. cbn [hex_go]. destruct (N.ltb_spec n 16).
  - change (hexL n :: acc) with ([hexL n] ++ acc). rewrite int16_app. unfold int16 at 1. cbn [fold_left]. rewrite hexL_val by auto. reflexivity.
  - rewrite IHf.
    + change (hexL (n mod 16) :: acc) with ([hexL (n mod 16)] ++ acc). rewrite int16_app, app_length. unfold int16 at 1.
      cbn [fold_left length]. rewrite hexL_val by (apply N.mod_lt; discriminate).
      replace (N.of_nat (1 + length acc)) with (N.succ (N.of_nat (length acc))) by lia. rewrite N.pow_succ_r'.
      pose proof (N.div_mod n 16 ltac:(discriminate)) as D. rewrite D at 3.
      generalize (16 ^ N.of_nat (length acc)) (int16 acc) (n / 16) (n mod 16). intros. nia.
    + pose proof (size_nat_div n H). lia.
    + constructor; auto. unfold is_hex. rewrite hexL_val; auto. apply N.mod_lt. discriminate.
Qed.
Lemma hex_lower_value : forall n, int16 (hex_lower n) = n.
Proof. intros n. unfold hex_lower. rewrite hex_go_value; [|lia|constructor]. simpl. change (int16 []) with 0. lia. Qed.
Lemma bnode_value_inj : forall a b, bnode_value a = bnode_value b -> a = b.
Proof.
  intros a b H. unfold bnode_value in H. rewrite <- (hex_lower_value a), <- (hex_lower_value b). f_equal.
  revert H. generalize (hex_lower a) (hex_lower b). induction l as [|x l IH]; intros [|y m] H; try discriminate; auto.
  cbn [map] in H. injection H as H1 H2. f_equal; [lia|auto].
Qed.
Lemma bnode_value_chars : forall a, Forall (fun c => pn_chars_u c = true /\ ascii_letter c = true) (bnode_value a) /\ bnode_value a <> [].
Proof.
  intros a. split.
  - unfold bnode_value. apply Forall_map. apply hex_lower_digits. apply hexL_ok.
  - unfold bnode_value, hex_lower. pose proof (hex_go_nonempty (S (N.size_nat a)) a []).
    destruct (hex_go (S (N.size_nat a)) a []); [exfalso; apply H; auto; discriminate|discriminate].
Qed.
Lemma pn_u_pn : forall c, pn_chars_u c = true -> pn_chars c = true.
Proof. intros c H. unfold pn_chars. rewrite H. reflexivity. Qed.
Lemma pn_dot : pn_chars 46 = false.
Proof. reflexivity. Qed.
(** [stop r]: no label continues into [r] *)
Definition stop (r : str) : Prop := fst (label_tail r) = [].
Lemma label_tail_stop : forall r, stop r -> label_tail r = ([], r).
Proof.
  intros [|c r] H; [reflexivity|]. unfold stop in H. cbn [label_tail] in *.
  destruct (pn_chars c || (c =? 46)); [|reflexivity].
  destruct (label_tail r) as [l t]. destruct l; [|discriminate]. destruct (pn_chars c); [discriminate|reflexivity].
Qed.
Lemma label_tail_run : forall l r, Forall (fun c => pn_chars c = true) l -> stop r -> label_tail (l ++ r) = (l, r).
Proof.
  induction 1 as [|c l Hc Hl IH]; intros S; [apply label_tail_stop; auto|].
  cbn [app label_tail]. rewrite Hc. cbn [orb]. rewrite (IH S). destruct l; reflexivity.
Qed.
Lemma stop_space : forall r, stop (32 :: r). Proof. reflexivity. Qed.
Lemma stop_dot_space : forall r, stop (46 :: 32 :: r). Proof. reflexivity. Qed.
Lemma stop_dot_eol : forall r, stop (46 :: 10 :: r). Proof. reflexivity. Qed.
Lemma lex_label_value : forall a r, stop r -> lex_label (bnode_value a ++ r) = Some (bnode_value a, r).
Proof.
  intros a r S. destruct (bnode_value_chars a) as [F NE]. destruct (bnode_value a) as [|c l]; [contradiction|].
  inversion F as [|? ? [H1 _] H2]; subst. cbn [app lex_label]. rewrite H1. cbn [orb].
  rewrite label_tail_run; auto. eapply Forall_impl; [|exact H2]. intros x [X _]. apply pn_u_pn; auto.
Qed.

(** ** language tags *)
Lemma letter_spec : forall c, letter c = ascii_letter c.
Proof. intros c. unfold letter, ascii_letter, in_range. apply orb_comm. Qed.
Lemma lang_class_spec : forall c, lang_class c = true <-> ascii_letter c = true \/ c = 48 \/ c = 57 \/ c = 95.
Proof. intros c. unfold lang_class. rewrite !orb_true_iff, !N.eqb_eq, letter_spec. tauto. Qed.
Lemma lang_class_dash : lang_class 45 = false. Proof. reflexivity. Qed.
Definition lang_stop (r : str) : Prop := match r with [] => True | c :: _ => lang_class c = false /\ c <> 45 end.
Lemma lang_go_stop : forall r, lang_stop r -> lang_go r = ([], r).
Proof.
  intros [|c r] H; [reflexivity|]. destruct H as [A B]. cbn [lang_go]. rewrite A.
  replace (c =? 45) with false by (symmetry; apply N.eqb_neq; auto). reflexivity.
Qed.
Lemma lang_go_class : forall t r, Forall (fun c => lang_class c = true) t ->
  lang_go (t ++ r) = let '(l, x) := lang_go r in (t ++ l, x).
Proof.
  induction 1 as [|c t Hc Ht IH]; cbn [app].
  - destruct (lang_go r); reflexivity.
  - cbn [lang_go]. rewrite Hc, IH. destruct (lang_go r); reflexivity.
Qed.
Lemma lang_go_tags : forall ts r, Forall tag_later ts -> lang_stop r ->
  lang_go (concat (map (cons 45) ts) ++ r) = (concat (map (cons 45) ts), r).
Proof.
  intros ts r H S. induction H as [|t ts [NE Ht] Hts IH]; [apply lang_go_stop; auto|].
  cbn [map concat]. rewrite <- app_assoc. cbn [app lang_go]. rewrite lang_class_dash.
  change (45 =? 45) with true. cbv iota.
  assert (F : Forall (fun c => lang_class c = true) t).
  { eapply Forall_impl; [|exact Ht]. intros c. apply lang_class_spec. }
  destruct t as [|d t]; [contradiction|]. cbn [app]. inversion F as [|? ? Hd F']; subst. rewrite Hd.
  change (d :: t ++ concat (map (cons 45) ts) ++ r) with ((d :: t) ++ (concat (map (cons 45) ts) ++ r)).
  rewrite lang_go_class by auto. rewrite IH. reflexivity.
Qed.
Lemma lang_first_letters : forall t r, Forall (fun c => letter c = true) t ->
  lang_first (t ++ r) = let '(l, x) := lang_first r in (t ++ l, x).
Proof.
  induction 1 as [|c t Hc Ht IH]; cbn [app].
  - destruct (lang_first r); reflexivity.
  - cbn [lang_first]. rewrite Hc, IH. destruct (lang_first r); reflexivity.
Qed.
Lemma letter_class : forall c, letter c = true -> lang_class c = true.
Proof. intros c H. unfold lang_class. rewrite H. reflexivity. Qed.
Lemma lang_first_nonletter : forall r, (match r with [] => True | c :: _ => letter c = false end) ->
  lang_first r = match r with c :: _ => if c =? 45 then lang_go r else ([], r) | [] => ([], []) end.
Proof. intros [|c r] H; [reflexivity|]. cbn [lang_first]. rewrite H. reflexivity. Qed.
Lemma lex_lang_tag : forall l r, langtag_ok l -> lang_stop r -> lex_lang (l ++ r) = Some (l, r).
Proof.
  intros l r (t0 & ts & -> & [NE F0] & Fs) S.
  assert (F : Forall (fun c => letter c = true) t0) by (eapply Forall_impl; [|exact F0]; intros c; rewrite letter_spec; auto).
  destruct t0 as [|c t]; [contradiction|]. rewrite <- app_assoc. unfold lex_lang. cbn [app].
  inversion F as [|? ? Hc _]; subst. rewrite Hc.
  change (c :: t ++ concat (map (cons 45) ts) ++ r) with ((c :: t) ++ (concat (map (cons 45) ts) ++ r)).
  rewrite lang_first_letters by auto. f_equal.
  destruct ts as [|t1 ts].
  - cbn [map concat app]. rewrite app_nil_r. destruct r as [|d r]; [cbn; rewrite ?app_nil_r; reflexivity|]. destruct S as [S1 S2].
    rewrite lang_first_nonletter.
    + replace (d =? 45) with false by (symmetry; apply N.eqb_neq; auto). rewrite app_nil_r. reflexivity.
    + destruct (letter d) eqn:E; [apply letter_class in E; congruence|reflexivity].
  - assert (Hd : exists x, concat (map (cons 45) (t1 :: ts)) ++ r = 45 :: x) by (cbn [map concat app]; eauto).
    destruct Hd as (x & E). rewrite lang_first_nonletter by (rewrite E; reflexivity).
    rewrite E. change (45 =? 45) with true. cbv iota. rewrite <- E. rewrite lang_go_tags by auto. reflexivity.
Qed.
(** conversely, what is lexed is a tag *)
Lemma lang_go_sound : forall s l r, lang_go s = (l, r) -> s = l ++ r /\
  exists t ts, l = t ++ concat (map (cons 45) ts) /\ Forall (fun c => lang_class c = true) t /\ Forall tag_later ts.
Proof.
  induction s as [|c s IH]; intros l r H; cbn [lang_go] in H.
  - injection H as <- <-. split; auto. exists [], []. repeat split; constructor.
  - destruct (lang_class c) eqn:C.
    + destruct (lang_go s) as [l' t'] eqn:E. injection H as <- <-. destruct (IH l' t' eq_refl) as (-> & t & ts & -> & A & B).
      split; auto. exists (c :: t), ts. repeat split; auto.
    + destruct (c =? 45) eqn:D.
      * destruct s as [|d s']; [injection H as <- <-; split; auto; exists [], []; repeat split; constructor|].
        destruct (lang_class d) eqn:DC; [|injection H as <- <-; split; auto; exists [], []; repeat split; constructor].
        destruct (lang_go (d :: s')) as [l' t'] eqn:E. injection H as <- <-.
        destruct (IH l' t' eq_refl) as (E' & t & ts & El & A & B).
        split; [rewrite E'; reflexivity|]. apply N.eqb_eq in D. subst c.
        exists [], (t :: ts). cbn [map concat app]. rewrite El. split; [reflexivity|]. split; [constructor|].
        constructor; auto. split.
        -- intros ->. destruct ts as [|t1 ts].
           ++ cbn in El. subst l'. cbn [app] in E'. cbn [lang_go] in E. rewrite DC in E. destruct (lang_go s'); discriminate.
           ++ cbn in El. subst l'. cbn [app] in E'. injection E' as -> _. discriminate.
        -- eapply Forall_impl; [|exact A]. intros x. apply lang_class_spec.
      * injection H as <- <-. split; auto. exists [], []. repeat split; constructor.
Qed.
Lemma lang_first_sound : forall s l r, lang_first s = (l, r) -> s = l ++ r /\
  exists t ts, l = t ++ concat (map (cons 45) ts) /\ Forall (fun c => letter c = true) t /\ Forall tag_later ts.
Proof.
  induction s as [|c s IH]; intros l r H; cbn [lang_first] in H.
  - injection H as <- <-. split; auto. exists [], []. repeat split; constructor.
  - destruct (letter c) eqn:C.
    + destruct (lang_first s) as [l' t'] eqn:E. injection H as <- <-. destruct (IH l' t' eq_refl) as (-> & t & ts & -> & A & B).
      split; auto. exists (c :: t), ts. repeat split; auto.
    + destruct (c =? 45) eqn:D; [|injection H as <- <-; split; auto; exists [], []; repeat split; constructor].
      apply N.eqb_eq in D. subst c. apply lang_go_sound in H. destruct H as (E & t & ts & -> & A & B). split; auto.
      destruct t as [|d t]; [exists [], ts; repeat split; auto|].
      exfalso. cbn [app] in E. injection E as <- _. inversion A; discriminate.
Qed.
Lemma lex_lang_sound : forall s l r, lex_lang s = Some (l, r) -> s = l ++ r /\ langtag_ok l.
Proof.
  intros s l r H. destruct s as [|c s]; [discriminate|]. unfold lex_lang in H. destruct (letter c) eqn:C; [|discriminate].
  assert (H' : lang_first (c :: s) = (l, r)) by congruence. clear H. rename H' into H.
  destruct (lang_first_sound _ _ _ H) as (E & t & ts & -> & A & B). split; auto.
  exists t, ts. split; auto. split; auto. split.
  - intros ->. cbn [lang_first] in H. rewrite C in H. destruct (lang_first s) as [l' r']. injection H as H _.
    destruct ts as [|t1 ts]; [discriminate|]. cbn in H. injection H as -> _. discriminate.
  - eapply Forall_impl; [|exact A]. intros x X. rewrite <- letter_spec. exact X.
Qed.
Lemma langtag_chars : forall l, langtag_ok l -> Forall (fun c => ascii_letter c = true \/ c = 48 \/ c = 57 \/ c = 95 \/ c = 45) l /\ l <> [].
Proof.
  intros l (t0 & ts & -> & [NE F] & Fs). split.
  - apply Forall_app. split; [eapply Forall_impl; [|exact F]; simpl; tauto|].
    induction Fs as [|t ts [_ Ht] Hts IH]; [constructor|]. cbn [map concat]. apply Forall_app. split; [|exact IH].
    constructor; [tauto|]. eapply Forall_impl; [|exact Ht]. simpl. tauto.
  - destruct t0; [contradiction|discriminate].
Qed.

(** ** terms *)
Definition raw_of (t : term) : rterm :=
  match t with
  | Iri s => RIri (quoted s)
  | BNode a => RBn (bnode_str a)
  | Lit v (Some (c :: r)) _ => RLit (nt_escape v) (RLang (c :: r))
  | Lit v _ (Some (c :: r)) => RLit (nt_escape v) (RType (quoted (c :: r)))
  | Lit v _ _ => RLit (nt_escape v) RPlain
  end.

Lemma escape_uri : forall q, Forall (fun c => uri_char c = true) q -> nt_escape q = q.
Proof.
  induction 1 as [|c q Hc Hq IH]; [reflexivity|]. cbn [nt_escape]. rewrite IH.
  pose proof (uri_char_ascii c Hc). destruct (uri_iri_char c Hc) as (A & B & C & D & E).
  destruct (nt_escape_char_case c); try lia; try reflexivity. unfold dropped in *. lia.
Qed.
Lemma iri_toNT_ok : forall s, clean_iri s -> iri_toNT s = Ok (60 :: quoted s ++ [62]).
Proof.
  intros s [V S]. unfold iri_toNT. rewrite (proj1 (quote_spec s V) S). cbn [bind].
  rewrite escape_uri by (apply quoted_uri; auto). reflexivity.
Qed.
Lemma p_iri_text : forall s r, clean_iri s -> p_iri (60 :: quoted s ++ 62 :: r) = Some (RIri (quoted s), r).
Proof.
  intros s r [V S]. unfold p_iri. rewrite skip_ws_cons by reflexivity. change (60 =? 60) with true. cbv iota.
  rewrite lex_iri_uri by (apply quoted_uri; auto). reflexivity.
Qed.
Lemma p_ws : forall r, p_iri (32 :: r) = p_iri r /\ p_bnode (32 :: r) = p_bnode r /\ p_subject (32 :: r) = p_subject r
  /\ p_object (32 :: r) = p_object r /\ p_dot (32 :: r) = p_dot r.
Proof. intros r. repeat split; reflexivity. Qed.

Lemma p_subject_text : forall t r, nt_subject t -> stop r ->
  exists x, term_toNT t = Ok x /\ p_subject (x ++ r) = Some (raw_of t, r) /\ (exists c y, x = c :: y /\ is_ws c = false /\ is_eol c = false /\ c <> 34).
Proof.
  intros [s|a|v l d] r H S; [| |destruct H].
  - simpl in H. exists (60 :: quoted s ++ [62]). split; [apply iri_toNT_ok; auto|]. split.
    + cbn [app]. unfold p_subject, starts. rewrite skip_ws_cons by reflexivity. change (60 =? 95) with false. cbv iota.
      rewrite <- app_assoc. apply p_iri_text; auto.
    + exists 60, (quoted s ++ [62]). repeat split. discriminate.
  - exists (bnode_str a). split; [reflexivity|]. split.
    + change (bnode_str a) with (95 :: 58 :: bnode_value a). unfold p_subject, starts. cbn [app].
      rewrite skip_ws_cons by reflexivity. change (95 =? 95) with true. cbv iota.
      unfold p_bnode. rewrite skip_ws_cons by reflexivity. change ((95 =? 95) && (58 =? 58)) with true. cbv iota.
      rewrite lex_label_value by auto. reflexivity.
    + change (bnode_str a) with (95 :: 58 :: bnode_value a). eexists; eexists; repeat split. discriminate.
Qed.
(** what may follow an object: a blank, then '.' or a graph name *)
Definition after_object (r : str) : Prop := exists c y, r = 32 :: c :: y /\ (c = 46 \/ c = 60).
Lemma after_object_stop : forall r, after_object r -> stop r /\ lang_stop r /\ starts 94 r = false /\ starts 64 r = false.
Proof.
  intros r (c & y & -> & H). split; [apply stop_space|]. split; [split; [reflexivity|discriminate]|].
  unfold starts. rewrite skip_ws_sp. destruct H as [-> | ->]; rewrite skip_ws_cons by reflexivity; auto.
Qed.
Lemma p_object_text : forall t r, nt_object t -> after_object r ->
  exists x, term_toNT t = Ok x /\ p_object (x ++ r) = Some (raw_of t, r).
Proof.
  intros t r H AO. destruct (after_object_stop r AO) as (S & LS & C94 & C64).
  destruct t as [s|a|v l d].
  - destruct (p_subject_text (Iri s) r H S) as (x & E & P & c & y & Ex & W & _ & Q). exists x. split; auto.
    unfold p_object, starts. rewrite Ex in *. cbn [app]. rewrite skip_ws_cons by auto.
    replace (c =? 34) with false by (symmetry; apply N.eqb_neq; auto). exact P.
  - destruct (p_subject_text (BNode a) r I S) as (x & E & P & c & y & Ex & W & _ & Q). exists x. split; auto.
    unfold p_object, starts. rewrite Ex in *. cbn [app]. rewrite skip_ws_cons by auto.
    replace (c =? 34) with false by (symmetry; apply N.eqb_neq; auto). exact P.
  - destruct H as (Hv & Hl & Hd).
    assert (Q : forall rest, p_object ((34 :: nt_escape v ++ 34 :: rest)) =
       if starts 94 rest then
        match p_datatype (skip_ws rest) with Some (i, t') => Some (RLit (nt_escape v) (RType i), t') | None => None end
       else if starts 64 rest then
        match lex_lang (tl (skip_ws rest)) with Some (l, t') => Some (RLit (nt_escape v) (RLang l), t') | None => None end
       else Some (RLit (nt_escape v) RPlain, rest)).
    { intros rest. unfold p_object. unfold starts at 1. rewrite skip_ws_cons by reflexivity. change (34 =? 34) with true. cbv iota.
      cbn [tl]. unfold p_literal. rewrite lex_string_escape. reflexivity. }
    assert (PL : forall rest, (34 :: nt_escape v ++ [34]) ++ rest = 34 :: nt_escape v ++ 34 :: rest).
    { intros. cbn [app]. rewrite <- app_assoc. reflexivity. }
    destruct l as [[|lc lr]|].
    + (* language = '' *)
      destruct d as [[|dc dr]|].
      * exists (34 :: nt_escape v ++ [34]). split; [reflexivity|]. rewrite PL, Q, C94, C64. reflexivity.
      * assert (CI : clean_iri (dc :: dr)) by (apply (Hd _ eq_refl); simpl; tauto).
        exists (34 :: nt_escape v ++ [34] ++ [94; 94] ++ 60 :: quoted (dc :: dr) ++ [62]).
        split.
        { cbn [term_toNT lit_toNT]. rewrite (iri_toNT_ok _ CI). cbn [bind]. f_equal. cbn [app]. rewrite <- app_assoc. reflexivity. }
        replace ((34 :: nt_escape v ++ [34] ++ [94; 94] ++ 60 :: quoted (dc :: dr) ++ [62]) ++ r)
          with (34 :: nt_escape v ++ 34 :: (94 :: 94 :: 60 :: quoted (dc :: dr) ++ 62 :: r)).
        2:{ cbn [app]. rewrite <- !app_assoc. cbn [app]. rewrite <- !app_assoc. reflexivity. }
        rewrite Q. unfold starts. rewrite skip_ws_cons by reflexivity. change (94 =? 94) with true. cbv iota.
        unfold p_datatype. change ((94 =? 94) && (94 =? 94)) with true. cbv iota. rewrite (p_iri_text _ _ CI). reflexivity.
      * exists (34 :: nt_escape v ++ [34]). split; [reflexivity|]. rewrite PL, Q, C94, C64. reflexivity.
    + assert (LT : langtag_ok (lc :: lr)) by (apply (Hl _ eq_refl); discriminate).
      exists (34 :: nt_escape v ++ [34] ++ 64 :: lc :: lr).
      split; [cbn [term_toNT lit_toNT]; f_equal; cbn [app]; rewrite <- app_assoc; reflexivity|].
      replace ((34 :: nt_escape v ++ [34] ++ 64 :: lc :: lr) ++ r) with (34 :: nt_escape v ++ 34 :: (64 :: (lc :: lr) ++ r)).
      2:{ cbn [app]. rewrite <- !app_assoc. reflexivity. }
      rewrite Q. unfold starts. rewrite skip_ws_cons by reflexivity. change (64 =? 94) with false. change (64 =? 64) with true. cbv iota.
      cbn [tl]. rewrite lex_lang_tag by auto. reflexivity.
    + destruct d as [[|dc dr]|].
      * exists (34 :: nt_escape v ++ [34]). split; [reflexivity|]. rewrite PL, Q, C94, C64. reflexivity.
      * assert (CI : clean_iri (dc :: dr)) by (apply (Hd _ eq_refl); simpl; tauto).
        exists (34 :: nt_escape v ++ [34] ++ [94; 94] ++ 60 :: quoted (dc :: dr) ++ [62]).
        split.
        { cbn [term_toNT lit_toNT]. rewrite (iri_toNT_ok _ CI). cbn [bind]. f_equal. cbn [app]. rewrite <- app_assoc. reflexivity. }
        replace ((34 :: nt_escape v ++ [34] ++ [94; 94] ++ 60 :: quoted (dc :: dr) ++ [62]) ++ r)
          with (34 :: nt_escape v ++ 34 :: (94 :: 94 :: 60 :: quoted (dc :: dr) ++ 62 :: r)).
        2:{ cbn [app]. rewrite <- !app_assoc. cbn [app]. rewrite <- !app_assoc. reflexivity. }
        rewrite Q. unfold starts. rewrite skip_ws_cons by reflexivity. change (94 =? 94) with true. cbv iota.
        unfold p_datatype. change ((94 =? 94) && (94 =? 94)) with true. cbv iota. rewrite (p_iri_text _ _ CI). reflexivity.
      * exists (34 :: nt_escape v ++ [34]). split; [reflexivity|]. rewrite PL, Q, C94, C64. reflexivity.
Qed.

(** ** one triple *)
Definition raw_stmt (t : stmt) : rstmt := RSt (raw_of (st_s t)) (raw_of (st_p t)) (raw_of (st_o t)) None.
Lemma triple_text : forall t r, nt_triple t ->
  exists body, triple_str t = Ok (body ++ [10]) /\ p_stmt false (body ++ 10 :: r) = Some (raw_stmt t, 10 :: r) /\ (exists c y, body = c :: y /\ is_ws c = false /\ is_eol c = false).
Proof.
  intros [s p o g] r (Hs & Hp & Ho & Hg). simpl in Hs, Hp, Ho, Hg.
  destruct p as [pi| |]; try destruct Hp as []. 
  assert (AO : after_object (32 :: 46 :: 10 :: r)) by (exists 46, (10 :: r); auto).
  destruct (p_object_text o _ Ho AO) as (xo & Eo & Po).
  pose proof (iri_toNT_ok pi (conj H H0)) as Ep.
  set (rest_p := 32 :: xo ++ 32 :: 46 :: 10 :: r).
  set (rest_s := 32 :: (60 :: quoted pi ++ [62]) ++ rest_p).
  destruct (p_subject_text s rest_s Hs (stop_space _)) as (xs & Es & Ps & c & y & Ex & W & EL & _).
  exists (xs ++ [32] ++ (60 :: quoted pi ++ [62]) ++ [32] ++ xo ++ [32; 46]).
  split; [|split].
  - unfold triple_str. cbn [st_s st_p st_o]. rewrite Es. cbn [bind]. change (term_toNT (Iri pi)) with (iri_toNT pi). rewrite Ep.
    cbn [bind]. rewrite Eo. cbn [bind]. f_equal. change (s2l " .") with [32; 46]. rewrite <- !app_assoc. cbn [app]. rewrite <- !app_assoc. reflexivity.
  - replace ((xs ++ [32] ++ (60 :: quoted pi ++ [62]) ++ [32] ++ xo ++ [32; 46]) ++ 10 :: r) with (xs ++ rest_s).
    2:{ unfold rest_s, rest_p. rewrite <- !app_assoc. cbn [app]. rewrite <- !app_assoc. cbn [app]. rewrite <- ?app_assoc. reflexivity. }
    unfold p_stmt. rewrite Ps. unfold rest_s. destruct (p_ws ((60 :: quoted pi ++ [62]) ++ rest_p)) as (-> & _).
    cbn [app]. rewrite <- app_assoc. cbn [app]. rewrite p_iri_text by (split; auto).
    unfold rest_p. destruct (p_ws (xo ++ 32 :: 46 :: 10 :: r)) as (_ & _ & _ & -> & _). rewrite Po.
    destruct (p_ws (46 :: 10 :: r)) as (_ & _ & _ & _ & ->). reflexivity.
  - rewrite Ex. eexists; eexists; split; [reflexivity|auto].
Qed.
