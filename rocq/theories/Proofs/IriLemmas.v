(** Percent coding of IRIs: lemmas for C20, C21, C23, C24. *)
From Verif Require Import Model.Py Model.Codec Spec.CodecSpec Proofs.CodecLemmas Proofs.Utf8.
Open Scope N_scope.

(** ** quoting *)
Lemma concat_res_app : forall a b, concat_res (a ++ b) = do x <- concat_res a ; do y <- concat_res b ; Ok (x ++ y).
Proof.
  induction a as [|x a IH]; intros b; simpl.
  - destruct (concat_res b); reflexivity.
  - destruct x; simpl; [|reflexivity]. rewrite IH. destruct (concat_res a); simpl; [|reflexivity].
    destruct (concat_res b); simpl; [|reflexivity]. rewrite app_assoc. reflexivity.
Qed.

Definition safe (c : char) : bool := always_safe c || existsb (N.eqb c) reserved_in_iri.
Lemma safe_ascii : forall c, safe c = true -> 33 <= c <= 126.
Proof.
  intros c H. unfold safe, always_safe in H. rewrite !orb_true_iff, !in_range_spec, !N.eqb_eq in H.
  destruct H as [H|H]; [lia|].
  apply existsb_exists in H. destruct H as (x & Hx & E). apply N.eqb_eq in E. subst x.
  repeat (destruct Hx as [<-|Hx]; [lia|]). destruct Hx.
Qed.
Lemma safe_uri_char : forall c, safe c = uri_char c.
Proof.
  intros c. destruct (N.ltb_spec c 128) as [L|L].
  - apply eqb_prop. revert c L. apply (below_cases 128 (fun c => eqb (safe c) (uri_char c))). vm_compute. reflexivity.
  - replace (safe c) with false.
    + symmetry. apply not_true_is_false. intros H. apply existsb_exists in H. destruct H as (x & Hx & E).
      apply N.eqb_eq in E. subst x.
      assert (F : forallb (fun x => x <? 128) (s2l "ABCDEFGHIJKLMNOPQRSTUVWXYZabcdefghijklmnopqrstuvwxyz0123456789-._~:/?#[]@!$&'()*+,;=%") = true) by (vm_compute; reflexivity).
      rewrite forallb_forall in F. apply F in Hx. apply N.ltb_lt in Hx. lia.
    + symmetry. apply not_true_is_false. intros H. apply safe_ascii in H. lia.
Qed.

Lemma hexU_safe : forall d, d < 16 -> safe (hexU d) = true.
Proof. apply lt16_cases. repeat constructor. Qed.
Lemma pct_safe : forall b, Forall (fun c => safe c = true) (pct b).
Proof.
  intros b. unfold pct. simpl. constructor; [reflexivity|].
  constructor; [apply hexU_safe; lia|]. constructor; [apply hexU_safe; lia|constructor].
Qed.
Lemma percent_encode_safe : forall c u, percent_encode c = Ok u -> Forall (fun c => safe c = true) u.
Proof.
  intros c u H. unfold percent_encode in H. apply bind_ok in H. destruct H as (bs & _ & H). apply Ok_inj in H. subst u.
  induction bs; cbn [map concat]; [constructor|]. apply Forall_app. split; auto using pct_safe.
Qed.
Lemma quote_safe_id : forall u, Forall (fun c => safe c = true) u -> quote u reserved_in_iri = Ok u.
Proof.
  unfold quote. induction 1 as [|c u Hc Hu IH]; [reflexivity|]. cbn [map concat_res].
  unfold quote_char at 1. unfold safe in Hc. rewrite Hc. cbn [bind]. rewrite IH. reflexivity.
Qed.
Lemma quote_app : forall a b safe, quote (a ++ b) safe = do x <- quote a safe ; do y <- quote b safe ; Ok (x ++ y).
Proof. intros. unfold quote. rewrite map_app. apply concat_res_app. Qed.

(** the quoted form of one character *)
Definition qchar (c : char) : res str := if safe c then Ok [c] else percent_encode c.
Lemma percent_encode_err : forall c e, percent_encode c = Err e -> e = UnicodeEncodeError.
Proof.
  intros c e H. unfold percent_encode in H. apply bind_err in H. destruct H as [H|(? & _ & H)]; [|discriminate].
  unfold utf8_char in H. repeat match type of H with (if ?x then _ else _) = _ => destruct x end; congruence.
Qed.
Lemma quote_norm_chars : forall s, quote_normalized_iri s = concat_res (map qchar s).
Proof.
  induction s as [|c s IH]; [reflexivity|].
  unfold quote_normalized_iri in *. cbn [map concat_res].
  destruct (127 <? c) eqn:L.
  - apply N.ltb_lt in L.
    assert (S : safe c = false) by (apply not_true_is_false; intros X; apply safe_ascii in X; lia).
    unfold qchar at 1. rewrite S.
    destruct (percent_encode c) as [u|e] eqn:E; cbn [bind]; [|reflexivity].
    destruct (concat_res (map (fun c0 => if 127 <? c0 then percent_encode c0 else Ok [c0]) s)) as [v|e] eqn:F; cbn [bind] in *.
    + rewrite quote_app, quote_safe_id by (eapply percent_encode_safe; eauto). cbn [bind]. rewrite IH. reflexivity.
    + rewrite <- IH. reflexivity.
  - cbn [bind]. destruct (concat_res (map (fun c0 => if 127 <? c0 then percent_encode c0 else Ok [c0]) s)) as [v|e] eqn:F; cbn [bind] in *.
    + change ([c] ++ v) with (c :: v). unfold quote in *. cbn [map concat_res]. rewrite IH. reflexivity.
    + rewrite <- IH. unfold qchar. destruct (safe c); [reflexivity|].
      destruct (percent_encode c) eqn:X; [reflexivity|].
      assert (e = UnicodeEncodeError).
      { clear -F. revert e F. induction s as [|d s IHs]; intros e F; [discriminate|]. cbn [map concat_res] in F.
        apply bind_err in F. destruct F as [F|(a & _ & F)].
        - destruct (127 <? d); [eapply percent_encode_err; eauto|discriminate].
        - apply bind_err in F. destruct F as [F|(? & _ & F)]; [|discriminate]. eauto. }
      apply percent_encode_err in X. subst. reflexivity.
Qed.

Lemma pct_pct_of : forall b, b < 256 -> pct b = pct_of b.
Proof. intros b H. unfold pct, pct_of, fmtX. cbn [app]. rewrite !hexU_upper by lia.
  f_equal. f_equal. f_equal. lia.
Qed.
Lemma percent_encode_spec : forall c, c <= 0x10FFFF ->
  percent_encode c = if is_surrogate c then Err UnicodeEncodeError else Ok (concat (map pct_of (utf8 c))).
Proof.
  intros c H. unfold percent_encode. rewrite utf8_char_spec by auto.
  destruct (is_surrogate c); cbn [bind]; [reflexivity|]. f_equal. f_equal.
  apply map_ext_in. intros b Hb. apply pct_pct_of.
  pose proof (utf8_bytes c H) as F. rewrite Forall_forall in F. auto.
Qed.
Lemma qchar_spec : forall c, c <= 0x10FFFF ->
  qchar c = if is_surrogate c then Err UnicodeEncodeError else Ok (if uri_char c then [c] else concat (map pct_of (utf8 c))).
Proof.
  intros c H. unfold qchar. rewrite percent_encode_spec, <- safe_uri_char by auto.
  destruct (safe c) eqn:S; [|reflexivity]. apply safe_ascii in S.
  replace (is_surrogate c) with false; [reflexivity|].
  symmetry. apply not_true_is_false. rewrite is_surrogate_spec. unfold surrogate. lia.
Qed.
Lemma quote_spec : forall s, py_str s ->
  (Forall (fun c => ~ surrogate c) s -> quote_normalized_iri s = Ok (quoted s)) /\
  (Exists surrogate s -> quote_normalized_iri s = Err UnicodeEncodeError).
Proof.
  intros s V. rewrite quote_norm_chars.
  induction V as [|c s Hc Hs [IH1 IH2]]; split; intros F.
  - reflexivity. - inversion F.
  - inversion F; subst. cbn [map concat_res]. rewrite qchar_spec by auto.
    replace (is_surrogate c) with false by (symmetry; apply not_true_is_false; rewrite is_surrogate_spec; auto).
    cbn [bind]. rewrite IH1 by auto. reflexivity.
  - cbn [map concat_res]. rewrite qchar_spec by auto. destruct (is_surrogate c) eqn:E; [reflexivity|].
    cbn [bind]. inversion F; subst.
    + apply is_surrogate_spec in H0. congruence.
    + rewrite IH2 by auto. reflexivity.
Qed.

Lemma pct_of_uri : forall v, v < 256 -> Forall (fun c => uri_char c = true) (pct_of v).
Proof.
  intros v H. rewrite <- pct_pct_of by auto. pose proof (pct_safe v) as F.
  eapply Forall_impl; [|exact F]. intros a X. rewrite <- safe_uri_char. exact X.
Qed.
Lemma quoted_uri : forall s, py_str s -> Forall (fun c => uri_char c = true) (quoted s).
Proof.
  induction 1 as [|c s Hc Hs IH]; [constructor|]. unfold quoted. cbn [map concat]. apply Forall_app. split; [|exact IH].
  destruct (uri_char c) eqn:E; [repeat constructor; auto|].
  pose proof (utf8_bytes c Hc) as F. induction F as [|b l Hb Hl IHl]; cbn [map concat]; [constructor|].
  apply Forall_app. split; [apply pct_of_uri; auto|auto].
Qed.
Lemma quoted_id : forall s, Forall (fun c => uri_char c = true) s -> quoted s = s.
Proof.
  induction 1 as [|c s Hc Hs IH]; [reflexivity|]. unfold quoted in *. cbn [map concat]. rewrite Hc, IH. reflexivity.
Qed.
Lemma quoted_id_iff : forall s, py_str s -> (quoted s = s <-> Forall (fun c => uri_char c = true) s).
Proof.
  intros s V. split; [|apply quoted_id]. intros E. rewrite <- E. apply quoted_uri. auto.
Qed.
Lemma uri_char_ascii : forall c, uri_char c = true -> 33 <= c <= 126.
Proof. intros c H. rewrite <- safe_uri_char in H. apply safe_ascii; auto. Qed.
Lemma uri_py : forall s, Forall (fun c => uri_char c = true) s -> py_str s /\ Forall (fun c => ~ surrogate c) s.
Proof.
  induction 1 as [|c s H Hs [A B]]; [split; constructor|]. apply uri_char_ascii in H.
  split; constructor; auto; unfold surrogate; lia.
Qed.
Lemma surr_dec : forall s, Forall (fun c => ~ surrogate c) s \/ Exists surrogate s.
Proof.
  induction s as [|c s [IH|IH]]; [left; constructor| |right; apply Exists_cons_tl; auto].
  destruct (is_surrogate c) eqn:S.
  - right. apply Exists_cons_hd. apply is_surrogate_spec; auto.
  - left. constructor; auto. rewrite <- is_surrogate_spec. congruence.
Qed.
Lemma quote_idempotent : forall s q, py_str s -> quote_normalized_iri s = Ok q -> quote_normalized_iri q = Ok q.
Proof.
  intros s q V H. destruct (quote_spec s V) as [A B]. destruct (surr_dec s) as [F|E].
  - rewrite A in H by auto. apply Ok_inj in H. subst q.
    pose proof (quoted_uri s V) as U. destruct (uri_py _ U) as [P Q].
    rewrite (proj1 (quote_spec _ P) Q). rewrite (quoted_id _ U). reflexivity.
  - rewrite B in H by auto. discriminate.
Qed.
Lemma quote_id_iff : forall s, py_str s ->
  (quote_normalized_iri s = Ok s <-> Forall (fun c => uri_char c = true) s).
Proof.
  intros s V. split.
  - intros H. rewrite quote_norm_chars in H. revert H.
    assert (G : forall s u, py_str s -> concat_res (map qchar s) = Ok u -> Forall (fun c => uri_char c = true) u).
    { clear. intros s u V. revert u. induction V as [|c s Hc Hs IH].
      - intros u E. injection E as <-. constructor.
      - intros u E. cbn [map concat_res] in E. apply bind_ok in E. destruct E as (a & Ea & E).
        apply bind_ok in E. destruct E as (b & Eb & E). apply Ok_inj in E. subst u. apply Forall_app. split; [|eauto].
        rewrite qchar_spec in Ea by auto. destruct (is_surrogate c) eqn:S; [discriminate|]. apply Ok_inj in Ea. subst a.
        destruct (uri_char c) eqn:E; [repeat constructor; auto|].
        pose proof (utf8_bytes c Hc) as F. clear -F. induction F as [|b l Hb Hl IHl]; cbn [map concat]; [constructor|].
        apply Forall_app. split; [apply pct_of_uri; auto|auto]. }
    intros H. eapply G; eauto.
  - intros U. destruct (uri_py _ U) as [P Q]. rewrite (proj1 (quote_spec _ P) Q). rewrite quoted_id; auto.
Qed.

(** ** octets *)
Lemma octets_esc : forall x y r, hexdigit x = true -> hexdigit y = true ->
  octets (37 :: x :: y :: r) = 16 * hexdigit_val x + hexdigit_val y :: octets r.
Proof. intros x y r A B. cbn [octets]. rewrite A, B. reflexivity. Qed.
Lemma octets_plain : forall c r, c <> 37 -> octets (c :: r) = utf8 c ++ octets r.
Proof.
  intros c r H. cbn [octets]. destruct r as [|a [|b r]]; auto.
  replace (c =? 37) with false by (symmetry; apply N.eqb_neq; auto). reflexivity.
Qed.
Lemma octets_stray : forall r, (forall x y t, r = x :: y :: t -> hexdigit x && hexdigit y = false) ->
  octets (37 :: r) = 37 :: octets r.
Proof.
  intros r H. cbn [octets]. destruct r as [|a [|b r]]; auto.
  specialize (H a b r eq_refl). change (37 =? 37) with true. cbn [andb]. rewrite H. reflexivity.
Qed.
Lemma upper_hex : forall d, d < 16 -> hexdigit (upper d) = true /\ hexdigit_val (upper d) = d.
Proof. apply lt16_cases. repeat constructor. Qed.
Lemma octets_pct_of : forall v r, v < 256 -> octets (pct_of v ++ r) = v :: octets r.
Proof.
  intros v r H. unfold pct_of. cbn [app].
  destruct (upper_hex (v / 16)) as [A A']; [lia|]. destruct (upper_hex (v mod 16)) as [B B']; [lia|].
  rewrite octets_esc by auto. rewrite A', B'. f_equal. lia.
Qed.
Lemma octets_pct_ofs : forall vs r, Forall (fun v => v < 256) vs -> octets (concat (map pct_of vs) ++ r) = vs ++ octets r.
Proof.
  induction 1 as [|v vs H Hs IH]; [reflexivity|]. cbn [map concat]. rewrite <- app_assoc, octets_pct_of, IH by auto. reflexivity.
Qed.
Lemma hexdigit_uri : forall c, hexdigit c = true -> uri_char c = true /\ c <> 37.
Proof.
  intros c H. rewrite <- safe_uri_char. unfold hexdigit in H. unfold safe, always_safe, in_range.
  rewrite !orb_true_iff, !andb_true_iff, !N.leb_le in *. lia.
Qed.
Lemma quoted_cons : forall c s, quoted (c :: s) = (if uri_char c then [c] else concat (map pct_of (utf8 c))) ++ quoted s.
Proof. reflexivity. Qed.
Lemma quoted_app : forall a b, quoted (a ++ b) = quoted a ++ quoted b.
Proof. intros. unfold quoted. rewrite map_app, concat_app. reflexivity. Qed.
Lemma utf8_nonempty : forall c, exists b l, utf8 c = b :: l.
Proof. intros c. unfold utf8. destruct (c <? 0x80), (c <? 0x800), (c <? 0x10000); eauto. Qed.
Lemma quoted_head : forall c s, exists x t, quoted (c :: s) = x :: t /\ (x = 37 \/ uri_char c = true /\ x = c /\ t = quoted s).
Proof.
  intros c s. rewrite quoted_cons. destruct (uri_char c) eqn:E; [eexists; eexists; split; [reflexivity|auto]|].
  destruct (utf8_nonempty c) as (b & l & ->). cbn [map concat]. unfold pct_of at 1. cbn [app]. eauto.
Qed.
Lemma quoted_octets : forall s, py_str s -> octets (quoted s) = octets s.
Proof.
  intros s. induction s as [s IH] using strong_list_ind. intros V.
  destruct s as [|c r]; [reflexivity|]. inversion V as [|? ? Hc Hr]; subst.
  destruct (N.eq_dec c 37) as [->|NE].
  - rewrite quoted_cons. change (uri_char 37) with true. cbn [app].
    assert (D : (exists x y t, r = x :: y :: t /\ hexdigit x = true /\ hexdigit y = true) \/
                (forall x y t, r = x :: y :: t -> hexdigit x && hexdigit y = false)).
    { destruct r as [|x [|y t]]; try (right; intros; discriminate).
      destruct (hexdigit x && hexdigit y) eqn:E.
      - left. apply andb_true_iff in E. exists x, y, t. tauto.
      - right. intros ? ? ? X. injection X as <- <- <-. exact E. }
    destruct D as [(x & y & t & -> & A & B)|D].
    + rewrite (octets_esc x y t) by auto. rewrite !quoted_cons.
      destruct (hexdigit_uri x A) as [-> _], (hexdigit_uri y B) as [-> _]. cbn [app]. rewrite octets_esc by auto.
      f_equal. apply IH; [simpl; lia|]. inversion Hr; subst. inversion H2; auto.
    + rewrite (octets_stray r D), octets_stray.
      * f_equal. apply IH; [simpl; lia|auto].
      * intros x y t E. destruct r as [|x0 r0]; [discriminate|].
        destruct (quoted_head x0 r0) as (x' & t' & E' & C). rewrite E' in E. injection E as <- E.
        destruct C as [->|(U & -> & ->)]; [reflexivity|].
        destruct r0 as [|y0 r1]; [discriminate|]. destruct (quoted_head y0 r1) as (y' & t' & E'' & C). rewrite E'' in E.
        injection E as <- E. destruct C as [->|(U' & -> & ->)]; [rewrite andb_false_r; reflexivity|]. apply (D x0 y0 r1 eq_refl).
  - rewrite (octets_plain c r NE), quoted_cons.
    destruct (uri_char c) eqn:U; cbn [app].
    + rewrite octets_plain by auto. f_equal. apply IH; [simpl; lia|auto].
    + rewrite octets_pct_ofs by (apply utf8_bytes; auto). f_equal. apply IH; [simpl; lia|auto].
Qed.

(** ** normalisation *)
Definition norm := normalize_iri.

Lemma pct_ok_spec : forall s, pct_ok s = true <-> exists x y r, s = 37 :: x :: y :: r /\ hexdigit x = true /\ hexdigit y = true
  /\ 0x20 < 16 * hexdigit_val x + hexdigit_val y.
Proof.
  intros s. split.
  - destruct s as [|p [|x [|y r]]]; try discriminate. cbn [pct_ok].
    rewrite !andb_true_iff, !negb_true_iff, N.eqb_eq, !hexdigit_is_hex.
    intros ((((-> & A) & B) & X) & Y). exists x, y, r. repeat split; auto.
    rewrite Y in A. rewrite andb_true_r, orb_false_iff, !N.eqb_neq in A. rewrite andb_false_iff, !N.eqb_neq in B.
    pose proof (hexval_val x X) as [_ Lx]. pose proof (hexval_val y Y) as [_ Ly].
    unfold hexdigit in X, Y. rewrite !orb_true_iff, !andb_true_iff, !N.leb_le in X, Y.
    unfold hexdigit_val. destruct (N.leb_spec x 57), (N.leb_spec y 57), (N.leb_spec x 70), (N.leb_spec y 70); lia.
  - intros (x & y & r & -> & X & Y & V). cbn [pct_ok]. rewrite !hexdigit_is_hex, X, Y. rewrite !andb_true_r.
    change (37 =? 37) with true. cbn [andb]. rewrite andb_true_iff, !negb_true_iff, orb_false_iff, andb_false_iff, !N.eqb_neq.
    unfold hexdigit in X, Y. rewrite !orb_true_iff, !andb_true_iff, !N.leb_le in X, Y.
    unfold hexdigit_val in V. destruct (N.leb_spec x 57), (N.leb_spec y 57), (N.leb_spec x 70), (N.leb_spec y 70); lia.
Qed.

Lemma int16_2 : forall x y, hexdigit x = true -> hexdigit y = true -> int16 [x; y] = 16 * hexdigit_val x + hexdigit_val y.
Proof.
  intros x y X Y. unfold int16. cbn [fold_left]. rewrite (proj1 (hexval_val x X)), (proj1 (hexval_val y Y)). lia.
Qed.
Lemma esc_ok : forall e v, esc e v -> 0x20 < v -> forall r, pct_ok (e ++ r) = true.
Proof.
  intros e v (x & y & -> & X & Y & ->) L r. apply pct_ok_spec. exists x, y, r. auto.
Qed.
Lemma pct_run_esc : forall m vs, esc_seq m vs -> forall r, pct_run (m ++ r) = (length m + pct_run r)%nat.
Proof.
  induction 1 as [|e v m vs E L M IH]; intros r; [reflexivity|].
  rewrite <- app_assoc. pose proof (esc_ok e v E L (m ++ r)) as K. destruct E as (x & y & -> & X & Y & ->).
  cbn [app] in *. cbn [pct_run]. rewrite K, IH. simpl. lia.
Qed.
Lemma pct_bytes_esc : forall m vs, esc_seq m vs -> pct_bytes m = vs.
Proof.
  induction 1 as [|e v m vs (x & y & -> & X & Y & ->) L M IH]; [reflexivity|]. cbn [app pct_bytes]. rewrite IH, int16_2 by auto. reflexivity.
Qed.
Lemma esc_seq_nil : forall m vs, esc_seq m vs -> m = [] -> vs = [].
Proof. intros m vs M E. destruct M as [|? ? ? ? (? & ? & -> & _)]; [auto|discriminate]. Qed.
Lemma esc_seq_app : forall a u b v, esc_seq a u -> esc_seq b v -> esc_seq (a ++ b) (u ++ v).
Proof. induction 1; intros; simpl; auto. rewrite <- app_assoc. constructor; auto. Qed.
(** the run at the start of any string *)
Lemma pct_run_split : forall s, exists m vs r, s = m ++ r /\ esc_seq m vs /\ pct_run s = length m /\ pct_ok r = false.
Proof.
  intros s. induction s as [s IH] using strong_list_ind.
  destruct (pct_ok s) eqn:K.
  - pose proof K as K0. apply pct_ok_spec in K. destruct K as (x & y & r & -> & X & Y & V).
    destruct (IH r) as (m & vs & t & -> & M & R & T); [simpl; lia|].
    exists ([37; x; y] ++ m), (16 * hexdigit_val x + hexdigit_val y :: vs), t.
    split; [rewrite <- app_assoc; reflexivity|]. split; [|split; [|auto]].
    + constructor; auto. exists x, y. auto.
    + cbn [pct_run]. rewrite K0, R. simpl. lia.
  - exists [], [], s. repeat split; auto; [constructor|].
    destruct s as [|p [|x [|y r]]]; auto. cbn [pct_run]. rewrite K. reflexivity.
Qed.
Lemma pct_run_0 : forall s, pct_ok s = false -> pct_run s = 0%nat.
Proof. intros s K. destruct s as [|p [|x [|y r]]]; auto. cbn [pct_run]. rewrite K. reflexivity. Qed.

Lemma norm_nomatch : forall c r, pct_ok (c :: r) = false -> norm (c :: r) = do y <- norm r ; Ok (c :: y).
Proof.
  intros c r K. unfold norm, normalize_iri. apply re_sub_no. unfold pct_match. rewrite pct_run_0; auto.
Qed.
Lemma norm_run : forall m vs r, esc_seq m vs -> m <> [] -> pct_ok r = false ->
  norm (m ++ r) = do x <- percent_decode m ; do y <- norm r ; Ok (x ++ y).
Proof.
  intros m vs r M NE K. unfold norm, normalize_iri.
  destruct m as [|c m']; [contradiction|].
  rewrite (re_sub_match _ _ _ (length m')).
  - change (S (length m')) with (length (c :: m')). rewrite firstn_app_exact, skipn_app_exact. reflexivity.
  - discriminate.
  - unfold pct_match. rewrite (pct_run_esc _ _ M), (pct_run_0 r K). simpl. f_equal. lia.
Qed.

(** the sequence of replacements of percent_decode is a character-wise map *)
Definition reserve (c : char) : str := if existsb (N.eqb c) reserved_in_iri then pct c else [c].
Lemma replace_one : forall c new s, replace s [c] new = concat (map (fun x => if x =? c then new else [x]) s).
Proof.
  intros c new s. unfold replace. induction s as [|x s IH]; [reflexivity|].
  cbn [replace_ne]. cbn [startswith]. cbn [map concat]. rewrite N.eqb_sym.
  destruct (x =? c) eqn:E.
  - cbn [andb length pred]. rewrite IH. destruct s; reflexivity.
  - cbn [andb]. rewrite IH. reflexivity.
Qed.
Definition repl1 (l : list char) (c : char) : str := fold_left (fun u r => replace u [r] (pct r)) l [c].
Lemma replace_app1 : forall c new a b, replace (a ++ b) [c] new = replace a [c] new ++ replace b [c] new.
Proof. intros. rewrite !replace_one, map_app, concat_app. reflexivity. Qed.
Lemma fold_replace_app : forall l a b, fold_left (fun u r => replace u [r] (pct r)) l (a ++ b) =
  fold_left (fun u r => replace u [r] (pct r)) l a ++ fold_left (fun u r => replace u [r] (pct r)) l b.
Proof. induction l as [|r l IH]; intros; cbn [fold_left]; [reflexivity|]. rewrite replace_app1, IH. reflexivity. Qed.
Lemma fold_replace_nil : forall l, fold_left (fun u r => replace u [r] (pct r)) l [] = [].
Proof. induction l; simpl; auto. Qed.
Lemma repl1_other : forall l c, ~ In c l -> repl1 l c = [c].
Proof.
  unfold repl1. induction l as [|r l IH]; intros c H; [reflexivity|]. cbn [fold_left].
  rewrite replace_one. cbn [map concat app]. replace (c =? r) with false.
  - apply IH. intro X; apply H; right; auto.
  - symmetry. apply N.eqb_neq. intros ->. apply H. left; auto.
Qed.
Lemma repl1_reserved : forall c, repl1 reserved_in_iri c = reserve c.
Proof.
  intros c. unfold reserve. destruct (existsb (N.eqb c) reserved_in_iri) eqn:E.
  - apply existsb_exists in E. destruct E as (x & Hx & E). apply N.eqb_eq in E. subst x.
    unfold reserved_in_iri in Hx. cbn [In] in Hx.
    repeat (destruct Hx as [<-|Hx]; [vm_compute; reflexivity|]). destruct Hx.
  - apply repl1_other. intros H. apply not_true_iff_false in E. apply E. apply existsb_exists. exists c. split; auto. apply N.eqb_refl.
Qed.
Definition reserve_all (s : str) : str := concat (map reserve s).
Lemma fold_reserve : forall s, fold_left (fun u r => replace u [r] (pct r)) reserved_in_iri s = reserve_all s.
Proof.
  induction s as [|c s IH]; [apply fold_replace_nil|].
  change (c :: s) with ([c] ++ s). rewrite fold_replace_app, IH. unfold reserve_all. cbn [map concat app].
  f_equal. apply (repl1_reserved c).
Qed.
Lemma percent_decode_spec : forall m vs, esc_seq m vs -> percent_decode m = do u <- utf8_decode vs ; Ok (reserve_all u).
Proof.
  intros m vs M. unfold percent_decode. rewrite (pct_bytes_esc m vs M).
  destruct (utf8_decode vs); cbn [bind]; [rewrite fold_reserve|]; reflexivity.
Qed.
Lemma reserve_all_app : forall a b, reserve_all (a ++ b) = reserve_all a ++ reserve_all b.
Proof. intros. unfold reserve_all. rewrite map_app, concat_app. reflexivity. Qed.

(** a group of escapes that decodes on its own can be taken off the front of any text *)
Lemma norm_group : forall m vs u s, esc_seq m vs -> utf8_decode vs = Ok u ->
  norm (m ++ s) = do y <- norm s ; Ok (reserve_all u ++ y).
Proof.
  intros m vs u s M U. destruct (pct_run_split s) as (n & ws & r & -> & N & R & K).
  destruct m as [|c m'].
  { pose proof (esc_seq_nil _ _ M eq_refl); subst vs. apply Ok_inj in U. subst u.
    simpl. destruct (norm (n ++ r)); reflexivity. }
  rewrite app_assoc. rewrite (norm_run _ _ r (esc_seq_app _ _ _ _ M N)); [|discriminate|auto].
  rewrite (percent_decode_spec _ _ (esc_seq_app _ _ _ _ M N)), (utf8_decode_app _ _ _ U).
  destruct n as [|d n'].
  - pose proof (esc_seq_nil _ _ N eq_refl); subst ws.
    cbn [bind utf8_decode app]. rewrite !app_nil_r. reflexivity.
  - rewrite (norm_run _ _ r N); [|discriminate|auto]. rewrite (percent_decode_spec _ _ N).
    destruct (utf8_decode ws) as [w|e]; cbn [bind]; [|reflexivity].
    destruct (norm r); cbn [bind]; [|reflexivity]. rewrite reserve_all_app, app_assoc. reflexivity.
Qed.

(** copying of text that is not decodable *)
Lemma norm_plain : forall c r, c <> 37 -> norm (c :: r) = do y <- norm r ; Ok (c :: y).
Proof.
  intros c r H. apply norm_nomatch. apply not_true_is_false. rewrite pct_ok_spec. intros (x & y & t & E & _). congruence.
Qed.
Lemma norm_esc_low : forall e v r, esc e v -> v <= 0x20 -> norm (e ++ r) = do y <- norm r ; Ok (e ++ y).
Proof.
  intros e v r (x & y & -> & X & Y & ->) L. cbn [app]. rewrite norm_nomatch.
  - rewrite norm_plain by (apply hexdigit_uri; auto). rewrite norm_plain by (apply hexdigit_uri; auto).
    destruct (norm r); reflexivity.
  - apply not_true_is_false. rewrite pct_ok_spec. intros (x' & y' & t & E & _ & _ & V). injection E as <- <- <-. lia.
Qed.

(** *** well-formed texts as sequences of units *)
Inductive unit_of : str -> Prop :=
| u_char : forall c, c <> 37 -> unit_of [c]
| u_esc : forall e v, esc e v -> unit_of e.
Inductive units : str -> Prop :=
| us_nil : units []
| us_cons : forall u s, unit_of u -> units s -> units (u ++ s).
Lemma wf_tail : forall a b, pct_wf (a ++ b) -> pct_wf b.
Proof. intros a b H x y E. apply (H (a ++ x) y). rewrite E, app_assoc. reflexivity. Qed.
Lemma wf_units : forall s, pct_wf s -> units s.
Proof.
  intros s. induction s as [s IH] using strong_list_ind. intros H.
  destruct s as [|c r]; [constructor|].
  destruct (N.eq_dec c 37) as [->|NE].
  - destruct (H [] r eq_refl) as (x & y & t & -> & X & Y).
    change (37 :: x :: y :: t) with ([37; x; y] ++ t). constructor.
    + eapply u_esc. exists x, y. repeat split; eauto.
    + apply IH; [simpl; lia|]. apply (wf_tail [37; x; y]). exact H.
  - change (c :: r) with ([c] ++ r). constructor; [constructor; auto|]. apply IH; [simpl; lia|]. apply (wf_tail [c]). exact H.
Qed.
Lemma units_wf : forall s, units s -> pct_wf s.
Proof.
  induction 1 as [|u s U Us IH]; intros a b E.
  - destruct a; discriminate.
  - destruct U as [c NE|e v (x & y & -> & X & Y & _)]; cbn [app] in E.
    + destruct a as [|c' a]; cbn [app] in E; injection E as E1 E2; [congruence|]. subst. apply (IH a b eq_refl).
    + destruct a as [|c1 a]; cbn [app] in E.
      { injection E as E. subst b. exists x, y, s. auto. }
      injection E as <- E. destruct a as [|c2 a]; cbn [app] in E.
      { injection E as E _. subst x. discriminate. }
      injection E as <- E. destruct a as [|c3 a]; cbn [app] in E.
      { injection E as E _. subst y. discriminate. }
      injection E as <- E. subst. apply (IH a b eq_refl).
Qed.
Lemma units_app : forall a b, units a -> units b -> units (a ++ b).
Proof. induction 1; intros; simpl; auto. rewrite <- app_assoc. constructor; auto. Qed.

(** *** normal forms *)
Definition reserved (c : char) : bool := existsb (N.eqb c) reserved_in_iri.
Inductive nf : str -> Prop :=
| nf_nil : nf []
| nf_char : forall c s, c <> 37 -> nf s -> nf (c :: s)
| nf_low : forall e v s, esc e v -> v <= 0x20 -> nf s -> nf (e ++ s)
| nf_res : forall c s, reserved c = true -> nf s -> nf (pct c ++ s).
Lemma nf_app : forall a b, nf a -> nf b -> nf (a ++ b).
Proof.
  induction 1; intros B; cbn [app]; rewrite <- ?app_assoc.
  - auto. - apply nf_char; auto. - eapply nf_low; eauto.
  - change (pct c ++ s ++ b) with (pct c ++ (s ++ b)). rewrite app_assoc, <- app_assoc. apply nf_res; auto.
Qed.
Lemma reserved_range : forall c, reserved c = true -> 33 <= c <= 126.
Proof. intros c H. apply safe_ascii. unfold safe. unfold reserved in H. rewrite H. apply orb_true_r. Qed.
Lemma pct_esc : forall c, c < 256 -> esc (pct c) c.
Proof.
  intros c H. rewrite pct_pct_of by auto. unfold pct_of.
  destruct (upper_hex (c / 16)) as [A A']; [lia|]. destruct (upper_hex (c mod 16)) as [B B']; [lia|].
  exists (upper (c / 16)), (upper (c mod 16)). repeat split; auto. rewrite A', B'. lia.
Qed.
Lemma nf_units : forall s, nf s -> units s.
Proof.
  induction 1.
  - constructor.
  - apply (us_cons [c]); [constructor|]; auto.
  - constructor; [eapply u_esc; eauto|auto].
  - constructor; [|auto]. apply (u_esc _ c). apply pct_esc. apply reserved_range in H. lia.
Qed.
Lemma reserve_all_nf : forall u, nf (reserve_all u).
Proof.
  induction u as [|c u IH]; [constructor|]. unfold reserve_all in *. cbn [map concat]. unfold reserve at 1.
  destruct (existsb (N.eqb c) reserved_in_iri) eqn:E; [apply nf_res; auto|].
  apply nf_char; auto. intros ->. discriminate.
Qed.

Lemma reserve_low : forall c, c < 128 -> utf8_decode [c] = Ok [c].
Proof. intros c H. cbn [utf8_decode]. rewrite (proj2 (N.ltb_lt _ _) H). reflexivity. Qed.
Lemma nf_norm : forall s, nf s -> norm s = Ok s.
Proof.
  induction 1.
  - reflexivity.
  - rewrite norm_plain, IHnf by auto. reflexivity.
  - rewrite (norm_esc_low e v), IHnf by auto. reflexivity.
  - pose proof (reserved_range c H) as R.
    rewrite (norm_group (pct c) [c] [c]).
    + rewrite IHnf. cbn [bind]. unfold reserve_all. cbn [map concat]. unfold reserve. unfold reserved in H. rewrite H.
      rewrite app_nil_r. reflexivity.
    + rewrite <- (app_nil_r (pct c)). constructor; [apply pct_esc; lia|lia|constructor].
    + apply reserve_low. lia.
Qed.
Lemma run_units : forall s, units s -> forall m vs r, esc_seq m vs -> s = m ++ r -> units r.
Proof. intros s U m vs r M ->. apply wf_units. eapply wf_tail. apply units_wf. eauto. Qed.
Lemma norm_nf : forall s n, units s -> norm s = Ok n -> nf n.
Proof.
  intros s. induction s as [s IH] using strong_list_ind. intros n U H.
  destruct (pct_run_split s) as (m & vs & r & E & M & R & K).
  destruct m as [|c m'].
  - simpl in E. subst r. destruct U as [|u s U Us].
    + apply Ok_inj in H. subst. constructor.
    + destruct U as [c NE|e v Ev].
      * cbn [app] in H. rewrite norm_plain in H by auto. apply bind_ok in H. destruct H as (y & Hy & H). apply Ok_inj in H. subst n.
        constructor; auto. apply (IH s); auto.
      * assert (L : v <= 0x20).
        { destruct (N.leb_spec v 0x20); auto. rewrite (esc_ok e v Ev) in K by auto. discriminate. }
        rewrite (norm_esc_low e v) in H by auto. apply bind_ok in H. destruct H as (y & Hy & H). apply Ok_inj in H. subst n.
        eapply nf_low; eauto. apply (IH s); auto. destruct Ev as (? & ? & -> & _). simpl. lia.
  - subst s. rewrite (norm_run _ _ r M) in H; [|discriminate|auto].
    rewrite (percent_decode_spec _ _ M) in H. apply bind_ok in H. destruct H as (x & Hx & H).
    apply bind_ok in Hx. destruct Hx as (u & Hu & Hx). apply Ok_inj in Hx. subst x.
    apply bind_ok in H. destruct H as (y & Hy & H). apply Ok_inj in H. subst n.
    apply nf_app; [apply reserve_all_nf|]. apply (IH r); auto.
    + rewrite app_length. simpl. lia.
    + eapply run_units; eauto.
Qed.
Lemma normalize_idempotent : forall s n, pct_wf s -> normalize_iri s = Ok n -> normalize_iri n = Ok n.
Proof. intros s n W H. apply nf_norm. eapply norm_nf; eauto. apply wf_units; auto. Qed.
Lemma normalize_wf : forall s n, pct_wf s -> normalize_iri s = Ok n -> pct_wf n.
Proof. intros s n W H. apply units_wf, nf_units. eapply norm_nf; eauto. apply wf_units; auto. Qed.

(** *** octets are preserved *)
Lemma octets_unit : forall u s, unit_of u -> octets (u ++ s) = octets u ++ octets s.
Proof.
  intros u s U. destruct U as [c NE|e v (x & y & -> & X & Y & ->)]; cbn [app].
  - rewrite !octets_plain by auto. cbn [octets]. rewrite app_nil_r. reflexivity.
  - rewrite !octets_esc by auto. reflexivity.
Qed.
Lemma octets_units : forall a b, units a -> octets (a ++ b) = octets a ++ octets b.
Proof.
  induction 1 as [|u s U Us IH]; [reflexivity|]. rewrite <- app_assoc, (octets_unit u (s ++ b)), (octets_unit u s) by auto. rewrite IH, app_assoc. reflexivity.
Qed.
Lemma octets_esc_seq : forall m vs, esc_seq m vs -> octets m = vs.
Proof.
  induction 1 as [|e v m vs E L M IH]; [reflexivity|]. rewrite octets_unit by (eapply u_esc; eauto).
  destruct E as (x & y & -> & X & Y & ->). rewrite octets_esc by auto. rewrite IH. reflexivity.
Qed.
Lemma utf8_ascii : forall c, c < 128 -> utf8 c = [c].
Proof. intros c H. unfold utf8. change 0x80 with 128. rewrite (proj2 (N.ltb_lt _ _) H). reflexivity. Qed.
Lemma octets_reserve_all : forall u, octets (reserve_all u) = utf8_text u.
Proof.
  induction u as [|c u IH]; [reflexivity|]. unfold reserve_all, utf8_text in *. cbn [map concat].
  unfold reserve at 1. destruct (existsb (N.eqb c) reserved_in_iri) eqn:E.
  - pose proof (reserved_range c E). rewrite pct_pct_of, octets_pct_of by lia. rewrite IH, utf8_ascii by lia. reflexivity.
  - cbn [app]. rewrite octets_plain by (intros ->; discriminate). rewrite IH. reflexivity.
Qed.
Lemma norm_octets : forall s n, units s -> norm s = Ok n -> octets n = octets s.
Proof.
  intros s. induction s as [s IH] using strong_list_ind. intros n U H.
  destruct (pct_run_split s) as (m & vs & r & E & M & R & K).
  destruct m as [|c m'].
  - simpl in E. subst r. destruct U as [|u s U Us].
    + apply Ok_inj in H. subst. reflexivity.
    + assert (G : exists y, norm s = Ok y /\ n = u ++ y).
      { destruct U as [c NE|e v Ev].
        * cbn [app] in H. rewrite norm_plain in H by auto. apply bind_ok in H. destruct H as (y & Hy & H). apply Ok_inj in H. eauto.
        * assert (L : v <= 0x20).
          { destruct (N.leb_spec v 0x20); auto. rewrite (esc_ok e v Ev) in K by auto. discriminate. }
          rewrite (norm_esc_low e v) in H by auto. apply bind_ok in H. destruct H as (y & Hy & H). apply Ok_inj in H. eauto. }
      destruct G as (y & Hy & ->). rewrite !octets_unit by auto. f_equal. apply IH; auto.
      destruct U as [|e v (? & ? & -> & _)]; simpl; lia.
  - subst s. rewrite (norm_run _ _ r M) in H; [|discriminate|auto].
    rewrite (percent_decode_spec _ _ M) in H. apply bind_ok in H. destruct H as (x & Hx & H).
    apply bind_ok in Hx. destruct Hx as (u & Hu & Hx). apply Ok_inj in Hx. subst x.
    apply bind_ok in H. destruct H as (y & Hy & H). apply Ok_inj in H. subst n.
    destruct (utf8_decode_sound _ _ Hu) as (Evs & _ & _).
    rewrite octets_units by (apply nf_units, reserve_all_nf). rewrite octets_reserve_all, <- Evs.
    rewrite (octets_units (c :: m')).
    + rewrite (octets_esc_seq _ _ M). f_equal. apply IH; [rewrite app_length; simpl; lia| |auto]. eapply run_units; eauto.
    + clear -M. induction M; [constructor|]. constructor; [eapply u_esc; eauto|auto].
Qed.
Lemma quoted_norm_octets : forall s n, pct_wf s -> py_str n -> normalize_iri s = Ok n -> octets (quoted n) = octets s.
Proof. intros s n W V H. rewrite quoted_octets by auto. apply norm_octets; auto. apply wf_units; auto. Qed.
Lemma norm_py : forall s n, py_str s -> norm s = Ok n -> py_str n.
Proof.
  intros s. induction s as [s IH] using strong_list_ind. intros n V H.
  destruct (pct_run_split s) as (m & vs & r & E & M & R & K).
  destruct m as [|c m'].
  - simpl in E. subst r. destruct s as [|c r].
    + apply Ok_inj in H. subst. constructor.
    + rewrite norm_nomatch in H by auto. apply bind_ok in H. destruct H as (y & Hy & H). apply Ok_inj in H. subst n.
      inversion V; subst. constructor; auto. apply (IH r); auto.
  - subst s. rewrite (norm_run _ _ r M) in H; [|discriminate|auto].
    rewrite (percent_decode_spec _ _ M) in H. apply bind_ok in H. destruct H as (x & Hx & H).
    apply bind_ok in Hx. destruct Hx as (u & Hu & Hx). apply Ok_inj in Hx. subst x.
    apply bind_ok in H. destruct H as (y & Hy & H). apply Ok_inj in H. subst n.
    destruct (utf8_decode_sound _ _ Hu) as (_ & P & _).
    apply Forall_app. split.
    + clear -P. induction P as [|c u Hc Hu IHu]; [constructor|]. unfold reserve_all in *. cbn [map concat].
      apply Forall_app. split; [|exact IHu]. unfold reserve. destruct (existsb _ _); [|repeat constructor; auto].
      pose proof (pct_safe c) as S. eapply Forall_impl; [|exact S]. simpl. intros a A. apply safe_ascii in A. lia.
    + apply (IH r); auto.
      * rewrite app_length. simpl. lia.
      * unfold py_str in V. apply Forall_app in V. tauto.
Qed.

(** *** normalising a quoted normal form *)
Definition printing (c : char) : Prop := 0x20 < c /\ ~ surrogate c.
Lemma norm_quoted : forall n, nf n -> py_str n -> Forall printing n -> norm (quoted n) = Ok n.
Proof.
  induction 1 as [|c s NE N IH|e v s E L N IH|c s R N IH]; intros V P.
  - reflexivity.
  - inversion V; inversion P; subst. specialize (IH H2 H6). destruct H5 as [H5 S5].
    rewrite quoted_cons. destruct (uri_char c) eqn:U.
    + cbn [app]. rewrite norm_plain, IH by auto. reflexivity.
    + rewrite (norm_group _ (utf8 c) [c]).
      * rewrite IH. cbn [bind]. unfold reserve_all. cbn [map concat]. unfold reserve.
        replace (existsb (N.eqb c) reserved_in_iri) with false; [reflexivity|].
        symmetry. apply not_true_is_false. intros X. rewrite <- safe_uri_char in U. unfold safe in U. rewrite X, orb_true_r in U. discriminate.
      * assert (B : Forall (fun b => b < 256 /\ 0x20 < b) (utf8 c)).
        { pose proof (utf8_bytes c H1) as B. destruct (N.ltb_spec c 128).
          - rewrite utf8_ascii in * by auto. repeat constructor; auto. lia.
          - pose proof (utf8_high c H H1) as B'. rewrite Forall_forall in *. intros b Hb. specialize (B b Hb). specialize (B' b Hb). simpl in *. lia. }
        clear -B. induction B as [|b l [B1 B2] Bl IHl]; simpl; [constructor|].
        apply (es_cons (pct_of b)); auto. rewrite <- pct_pct_of by auto. apply pct_esc. auto.
      * pose proof (utf8_round_trip [c]) as T. unfold utf8_text in T. cbn [map concat] in T. rewrite app_nil_r in T. apply T.
        -- repeat constructor; auto.
        -- repeat constructor; auto.
  - unfold py_str in V. apply Forall_app in V. apply Forall_app in P. destruct V as [_ V], P as [_ P]. specialize (IH V P).
    rewrite quoted_app. rewrite (quoted_id e).
    + rewrite (norm_esc_low e v), IH by auto. reflexivity.
    + destruct E as (x & y & -> & X & Y & _). repeat constructor; auto; apply hexdigit_uri; auto.
  - unfold py_str in V. apply Forall_app in V. apply Forall_app in P. destruct V as [_ V], P as [_ P]. specialize (IH V P).
    pose proof (reserved_range c R) as RR.
    rewrite quoted_app. rewrite (quoted_id (pct c)).
    + rewrite (norm_group (pct c) [c] [c]).
      * rewrite IH. cbn [bind]. unfold reserve_all. cbn [map concat]. unfold reserve. unfold reserved in R. rewrite R.
        rewrite app_nil_r. reflexivity.
      * rewrite <- (app_nil_r (pct c)). constructor; [apply pct_esc; lia|lia|constructor].
      * apply reserve_low. lia.
    + rewrite pct_pct_of by lia. apply pct_of_uri. lia.
Qed.
Lemma norm_quote_inverse : forall n q, pct_wf n -> py_str n -> normalize_iri n = Ok n ->
  Forall (fun c => 0x20 < c) n -> quote_normalized_iri n = Ok q -> normalize_iri q = Ok n.
Proof.
  intros n q W V N P Q.
  assert (S : Forall (fun c => ~ surrogate c) n).
  { destruct (quote_spec n V) as [A B]. rewrite Forall_forall. intros c Hc X.
    rewrite B in Q; [discriminate|]. apply Exists_exists. eauto. }
  rewrite (proj1 (quote_spec n V) S) in Q. apply Ok_inj in Q. subst q.
  apply norm_quoted; auto.
  - eapply norm_nf; eauto. apply wf_units; auto.
  - rewrite Forall_forall in *. intros c Hc. split; auto.
Qed.

(** *** when normalisation fails *)
Lemma esc_unique : forall e v e' v' b b', e ++ b = e' ++ b' -> esc e v -> esc e' v' -> e = e' /\ v = v' /\ b = b'.
Proof.
  intros e v e' v' b b' E (x & y & -> & X & Y & ->) (x' & y' & -> & X' & Y' & ->).
  cbn [app] in E. injection E as <- <- <-. auto.
Qed.
Lemma esc_seq_fun : forall m vs, esc_seq m vs -> forall vs', esc_seq m vs' -> vs = vs'.
Proof. intros m vs M vs' M'. rewrite <- (pct_bytes_esc _ _ M), <- (pct_bytes_esc _ _ M'). reflexivity. Qed.
Lemma norm_fails_only : forall s e, norm s = Err e -> e = UnicodeDecodeError.
Proof.
  intros s. induction s as [s IH] using strong_list_ind. intros e H.
  destruct (pct_run_split s) as (m & vs & r & E & M & R & K).
  destruct m as [|c m'].
  - simpl in E. subst r. destruct s as [|c r]; [discriminate|].
    rewrite norm_nomatch in H by auto. apply bind_err in H. destruct H as [H|(? & _ & H)]; [|discriminate]. apply (IH r); auto.
  - subst s. rewrite (norm_run _ _ r M) in H; [|discriminate|auto].
    rewrite (percent_decode_spec _ _ M) in H. apply bind_err in H. destruct H as [H|(? & _ & H)].
    + apply bind_err in H. destruct H as [H|(? & _ & H)]; [|discriminate]. eapply utf8_decode_fails; eauto.
    + apply bind_err in H. destruct H as [H|(? & _ & H)]; [|discriminate]. apply (IH r); auto. rewrite app_length. simpl. lia.
Qed.
(** [a] does not end in a decodable escape *)
Definition ends_clean (a : str) : Prop := forall a' e v, a = a' ++ e -> esc e v -> v <= 0x20.
Definition starts_clean (b : str) : Prop := forall b' e v, b = e ++ b' -> esc e v -> v <= 0x20.
Lemma starts_clean_ok : forall b, starts_clean b <-> pct_ok b = false.
Proof.
  intros b. split.
  - intros H. apply not_true_is_false. rewrite pct_ok_spec. intros (x & y & r & -> & X & Y & V).
    assert (L : 16 * hexdigit_val x + hexdigit_val y <= 0x20); [|lia].
    apply (H r [37; x; y]); [reflexivity|]. exists x, y. auto.
  - intros K b' e v -> E. destruct (N.leb_spec v 0x20); auto. rewrite (esc_ok e v E) in K by auto. discriminate.
Qed.
Lemma esc_seq_units : forall m vs, esc_seq m vs -> units m.
Proof. induction 1; [constructor|]. constructor; [eapply u_esc; eauto|auto]. Qed.
Lemma ends_clean_tail : forall c a, ends_clean (c :: a) -> ends_clean a.
Proof. intros c a H a' e v -> E. apply (H (c :: a') e v eq_refl E). Qed.
Lemma ends_clean_suffix : forall x a, ends_clean (x ++ a) -> ends_clean a.
Proof. induction x; intros a0 H; [exact H|]. apply IHx. eapply ends_clean_tail. exact H. Qed.
Lemma norm_fails_run_aux : forall s e, norm s = Err e ->
  exists a m b vs, s = a ++ m ++ b /\ m <> [] /\ esc_seq m vs /\ ends_clean a /\ starts_clean b /\
    utf8_decode vs = Err UnicodeDecodeError.
Proof.
  intros s. induction s as [s IH] using strong_list_ind. intros e H.
  destruct (pct_run_split s) as (n & ws & r & E & M & R & K).
  destruct n as [|c n'].
  - simpl in E. subst r. destruct s as [|c r]; [discriminate|].
    rewrite norm_nomatch in H by auto. apply bind_err in H. destruct H as [H|(? & _ & H)]; [|discriminate].
    destruct (IH r ltac:(simpl; lia) e H) as (a & m & b & vs & -> & NE & M' & A & B & D).
    exists (c :: a), m, b, vs. split; [reflexivity|]. repeat (split; auto).
    intros a' e' v' E' Ev'. destruct a' as [|c' a'].
    + cbn [app] in E'. subst e'. destruct (N.leb_spec v' 0x20); auto.
      pose proof (esc_ok _ _ Ev' ltac:(auto) (m ++ b)) as K'. cbn [app] in K'. congruence.
    + cbn [app] in E'. injection E' as <- E'. eapply A; eauto.
  - subst s. rewrite (norm_run _ _ r M) in H; [|discriminate|auto].
    rewrite (percent_decode_spec _ _ M) in H. apply bind_err in H. destruct H as [H|(dd & _ & H)].
    + apply bind_err in H. destruct H as [H|(? & _ & H)]; [|discriminate].
      pose proof (utf8_decode_fails _ _ H). subst e.
      exists [], (c :: n'), r, ws. split; [reflexivity|]. split; [discriminate|]. split; [auto|].
      split; [|split; [apply starts_clean_ok; auto|auto]].
      intros a' e' v' E' (x & y & -> & _). destruct a'; discriminate.
    + apply bind_err in H. destruct H as [H|(? & _ & H)]; [|discriminate].
      destruct (IH r ltac:(rewrite app_length; simpl; lia) e H) as (a & m & b & vs & -> & NE & M' & A & B & D).
      exists ((c :: n') ++ a), m, b, vs. split; [rewrite app_assoc; reflexivity|]. repeat (split; auto).
      intros a' e' v' E' Ev'.
      pose proof (units_wf _ (esc_seq_units _ _ M)) as W.
      remember (c :: n') as n eqn:En.
      apply app_eq_app in E'. destruct E' as (l & [[E1 E2]|[E1 E2]]).
      * (* the run is a' ++ l, e' = l ++ a *)
        destruct Ev' as (x & y & -> & X & Y & ->). destruct l as [|l0 l].
        { cbn [app] in E2. subst a. apply (A [] [37; x; y]); [reflexivity|]. exists x, y. auto. }
        cbn [app] in E2. injection E2 as <- E2.
        destruct (W a' l E1) as (x' & y' & t' & -> & _). cbn [app] in E2. injection E2 as _ _ E2.
        symmetry in E2. apply app_eq_nil in E2. destruct E2 as [_ ->].
        exfalso. cbn [app] in K. destruct M' as [|e1 v1 m1 vs1 Ee1 L1 M1]; [contradiction|].
        rewrite <- app_assoc in K. rewrite (esc_ok _ _ Ee1 L1) in K. discriminate.
      * (* e' ends inside a *)
        subst a. eapply A; eauto.
Qed.
Lemma esc_seq_split : forall m vs, esc_seq m vs -> forall a t, m = a ++ 37 :: t ->
  exists us ws, esc_seq a us /\ esc_seq (37 :: t) ws.
Proof.
  induction 1 as [|e v m vs E L M IH]; intros a t X.
  - destruct a; discriminate.
  - destruct a as [|c a].
    + exists [], (v :: vs). split; [constructor|]. cbn [app] in X. rewrite <- X. constructor; auto.
    + pose proof E as E0. destruct E as (x & y & -> & Hx & Hy & ->). cbn [app] in X. injection X as <- X.
      destruct a as [|c a]; cbn [app] in X; [injection X as -> _; discriminate|]. injection X as <- X.
      destruct a as [|c a]; cbn [app] in X; [injection X as -> _; discriminate|]. injection X as <- X.
      destruct (IH a t X) as (us & ws & A & B). exists (16 * hexdigit_val x + hexdigit_val y :: us), ws. split; auto.
      change (37 :: x :: y :: a) with ([37; x; y] ++ a). constructor; auto.
Qed.
Lemma esc_seq_not_clean : forall m vs, esc_seq m vs -> m <> [] -> ~ ends_clean m.
Proof.
  induction 1 as [|e v m vs E L M IH]; intros NE C; [contradiction|].
  destruct m as [|c m'].
  - rewrite app_nil_r in C. pose proof (C [] e v eq_refl E). lia.
  - apply IH; [discriminate|]. eapply ends_clean_suffix; eauto.
Qed.
Lemma norm_run_fails : forall a m b vs, m <> [] -> esc_seq m vs -> ends_clean a -> starts_clean b ->
  utf8_decode vs = Err UnicodeDecodeError -> norm (a ++ m ++ b) = Err UnicodeDecodeError.
Proof.
  intros a. induction a as [a IH] using strong_list_ind. intros m b vs NE M A B D.
  apply starts_clean_ok in B. pose proof B as B'. apply starts_clean_ok in B'.
  destruct a as [|c a0].
  - cbn [app]. rewrite (norm_run m vs b) by auto. rewrite (percent_decode_spec m vs M), D. reflexivity.
  - destruct (pct_run_split ((c :: a0) ++ m ++ b)) as (n & ws & r & E & N & R & K).
    destruct n as [|d n'].
    + cbn [app] in E. subst r. cbn [app]. rewrite norm_nomatch by exact K.
      rewrite (IH a0) with (vs := vs); auto. eapply ends_clean_tail; eauto.
    + rewrite E. rewrite (norm_run _ _ r N); [|discriminate|auto].
      assert (G : exists a2, c :: a0 = (d :: n') ++ a2 /\ a2 <> [] /\ r = a2 ++ m ++ b).
      { apply app_eq_app in E. destruct E as (l & [[E1 E2]|[E1 E2]]).
        - exists l. split; auto. split; auto. intros ->. rewrite app_nil_r in E1. rewrite E1 in A.
          apply (esc_seq_not_clean _ _ N); [discriminate|auto].
        - (* the run would swallow all of a *)
          exfalso. destruct l as [|l0 l].
          { rewrite app_nil_r in E1. rewrite <- E1 in A. apply (esc_seq_not_clean _ _ N); [discriminate|auto]. }
          assert (l0 = 37).
          { destruct M as [|e1 v1 m1 vs1 (x & y & -> & _) L1 M1]; [contradiction|]. cbn [app] in E2. injection E2 as E2 _. auto. }
          subst l0. destruct (esc_seq_split _ _ N _ _ E1) as (us & ws' & Ha & _).
          apply (esc_seq_not_clean _ _ Ha); [discriminate|auto]. }
      destruct G as (a2 & E1 & NE2 & ->).
      rewrite (IH a2) with (vs := vs); auto.
      * rewrite (percent_decode_spec _ _ N). destruct (utf8_decode ws) as [u|e] eqn:X; cbn [bind]; [reflexivity|].
        apply utf8_decode_fails in X. subst. reflexivity.
      * rewrite E1, app_length. simpl. lia.
      * rewrite E1 in A. eapply ends_clean_suffix; eauto.
Qed.
Lemma normalize_fails : forall s, normalize_iri s = Err UnicodeDecodeError <->
  exists vs, esc_run s vs /\ utf8_decode vs = Err UnicodeDecodeError.
Proof.
  intros s. split.
  - intros H. destruct (norm_fails_run_aux s _ H) as (a & m & b & vs & -> & NE & M & A & B & D).
    exists vs. split; auto. exists a, m, b. auto.
  - intros (vs & (a & m & b & -> & NE & M & A & B) & D). apply (norm_run_fails a m b vs); auto.
Qed.
Lemma utf8_decode_fails_iff : forall bs, utf8_decode bs = Err UnicodeDecodeError <->
  forall u, py_str u -> Forall (fun c => ~ surrogate c) u -> utf8_text u <> bs.
Proof.
  intros bs. split.
  - intros H u V S E. subst bs. rewrite utf8_round_trip in H by auto. discriminate.
  - intros H. destruct (utf8_decode bs) as [u|e] eqn:E.
    + apply utf8_decode_sound in E. destruct E as (-> & V & S). exfalso. eapply H; eauto.
    + apply utf8_decode_fails in E. subst. reflexivity.
Qed.
Lemma normalize_fails_spec : forall s,
  (forall e, normalize_iri s = Err e -> e = UnicodeDecodeError) /\
  (normalize_iri s = Err UnicodeDecodeError <->
   exists vs, esc_run s vs /\ forall u, py_str u -> Forall (fun c => ~ surrogate c) u -> utf8_text u <> vs).
Proof.
  intros s. split; [apply norm_fails_only|]. rewrite normalize_fails.
  split; intros (vs & A & B); exists vs; (split; [auto|]); apply utf8_decode_fails_iff; auto.
Qed.
