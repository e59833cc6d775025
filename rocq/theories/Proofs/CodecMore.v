(** The remaining lemmas for C16-C24. *)
From Verif Require Import Model.Py Model.Terms Model.Graph Model.Codec Model.NTriples Spec.CodecSpec Spec.NTSpec
  Proofs.CodecLemmas Proofs.Utf8 Proofs.IriLemmas Proofs.NTLex.
Open Scope N_scope.

Lemma escape_collision : exists a b, py_str a /\ py_str b /\ a <> b /\ nt_escape a = nt_escape b.
Proof.
  exists [7], []. split; [repeat constructor; vm_compute; discriminate|]. split; [constructor|].
  split; [discriminate|vm_compute; reflexivity].
Qed.

Lemma decode_app_denotes : forall a x, denotes a x -> forall r,
  decode_literal (a ++ r) = do y <- decode_literal r ; Ok (x ++ y).
Proof.
  induction 1; intro r; cbn [app].
  - destruct (decode_literal r); reflexivity.
  - rewrite decode_plain by assumption. rewrite IHdenotes. destruct (decode_literal r); reflexivity.
  - rewrite decode_short; [|inversion H; discriminate|inversion H; discriminate].
    rewrite IHdenotes. replace (escape_get k) with c by (inversion H; reflexivity).
    destruct (decode_literal r); reflexivity.
  - rewrite <- app_assoc. destruct (hexnum_int16 _ _ H0) as [Hh Hc].
    rewrite decode_u by assumption. rewrite IHdenotes, Hc.
    assert (Hb := int16_4 h H Hh). rewrite chr_ok by lia. cbn [bind].
    destruct (decode_literal r); reflexivity.
  - rewrite <- app_assoc. destruct (hexnum_int16 _ _ H0) as [Hh Hc].
    rewrite decode_U by assumption. rewrite IHdenotes, Hc. rewrite chr_ok by assumption. cbn [bind].
    destruct (decode_literal r); reflexivity.
Qed.

Lemma decode_which_exception : forall a h b x n, denotes a x -> length h = 8%nat -> hexnum h n ->
  (0x10FFFF < n <= 0x7FFFFFFF -> decode_literal (a ++ 92 :: 85 :: h ++ b) = Err ValueError) /\
  (0x7FFFFFFF < n -> decode_literal (a ++ 92 :: 85 :: h ++ b) = Err OverflowError).
Proof.
  intros a h b x n Ha Hl Hn. destruct (hexnum_int16 _ _ Hn) as [Hh Hc].
  split; intro Hr; rewrite (decode_app_denotes a x Ha), decode_U, Hc by assumption; unfold chr.
  - replace (n <=? 1114111) with false by (symmetry; apply N.leb_gt; lia).
    replace (n <=? 2147483647) with true by (symmetry; apply N.leb_le; lia). reflexivity.
  - replace (n <=? 1114111) with false by (symmetry; apply N.leb_gt; lia).
    replace (n <=? 2147483647) with false by (symmetry; apply N.leb_gt; lia). reflexivity.
Qed.

Lemma decode_example_denotes : denotes (s2l "a\n\u00e9\U0001F600") [97; 10; 233; 128512].
Proof.
  change (s2l "a\n\u00e9\U0001F600") with
    (97 :: 92 :: 110 :: 92 :: 117 :: [48;48;101;57] ++ 92 :: 85 :: [48;48;48;49;70;54;48;48] ++ []).
  apply den_char; [discriminate|]. apply den_echar; [constructor|].
  apply den_u; [reflexivity| |].
  - replace 233 with (int16 [48;48;101;57]) by reflexivity. apply int16_hexnum. repeat constructor.
  - apply den_U; [reflexivity| |vm_compute; discriminate|constructor].
    replace 128512 with (int16 [48;48;48;49;70;54;48;48]) by reflexivity. apply int16_hexnum. repeat constructor.
Qed.

Lemma bnode_toNT_inj : forall a b, term_toNT (BNode a) = term_toNT (BNode b) -> a = b.
Proof.
  intros a b H. cbn [term_toNT] in H. apply Ok_inj in H. unfold bnode_str in H.
  apply app_inv_head in H. now apply bnode_value_inj.
Qed.

Lemma ends_label_stop : forall r, ends_label r -> stop r.
Proof.
  intros r [[r' ->]|[->|[->|[c [r' [-> H]]]]]]; try reflexivity.
  destruct H as [<-|[<-|[<-|[<-|[]]]]]; reflexivity.
Qed.

Lemma bnode_label_legal : forall a, exists l, term_toNT (BNode a) = Ok (s2l "_:" ++ l) /\
  l <> [] /\ Forall (fun c => ascii_letter c = true) l /\
  forall rest, ends_label rest -> lex_label (l ++ rest) = Some (l, rest).
Proof.
  intro a. exists (bnode_value a). destruct (bnode_value_chars a) as [H1 H2].
  split; [reflexivity|]. split; [assumption|]. split.
  - eapply Forall_impl; [|exact H1]. intros c [_ ?]; assumption.
  - intros rest Hr. apply lex_label_value. now apply ends_label_stop.
Qed.

Lemma iri_toNT_outcome : forall s, py_str s ->
  (Exists surrogate s <-> term_toNT (Iri s) = Err UnicodeEncodeError) /\
  (Forall (fun c => ~ surrogate c) s -> term_toNT (Iri s) = Ok (60 :: quoted s ++ [62])).
Proof.
  intros s Hs. destruct (quote_spec s Hs) as [Hok Herr]. cbn [term_toNT].
  assert (Hok2 : Forall (fun c => ~ surrogate c) s -> iri_toNT s = Ok (60 :: quoted s ++ [62])).
  { intro H. apply iri_toNT_ok. now split. }
  split; [|assumption]. split; intro H.
  - unfold iri_toNT. now rewrite (Herr H).
  - destruct (surr_dec s) as [H1|H1]; [|assumption]. rewrite (Hok2 H1) in H. discriminate.
Qed.

Lemma quoted_legal : forall s, py_str s ->
  Forall (fun c => printable_ascii c /\ ~ In c (s2l " <>{}|^`\""")) (quoted s).
Proof.
  intros s Hs. eapply Forall_impl; [|apply quoted_uri; exact Hs].
  intros c Hc. cbn beta in Hc. pose proof (uri_char_ascii c Hc) as Hr.
  destruct (uri_iri_char c Hc) as [Hi _]. apply iri_char_spec in Hi.
  split; [unfold printable_ascii; lia|].
  intro Hin. repeat (destruct Hin as [<-|Hin]; [vm_compute in Hi, Hr; intuition congruence|]). destruct Hin.
Qed.

Lemma quote_same_octets : forall s, py_str s -> Forall (fun c => ~ surrogate c) s ->
  exists q, quote_normalized_iri s = Ok q /\ octets q = octets s.
Proof.
  intros s H1 H2. exists (quoted s). split; [now apply (quote_spec s H1)|now apply quoted_octets].
Qed.

Lemma percent_encode_lossless : forall c, c <= 0x10FFFF -> ~ surrogate c ->
  exists e, percent_encode c = Ok e /\ octets e = utf8 c /\ utf8_decode (octets e) = Ok [c].
Proof.
  intros c Hc Hs. exists (concat (map pct_of (utf8 c))).
  assert (is_surrogate c = false) as E.
  { destruct (is_surrogate c) eqn:E; [|reflexivity]. apply is_surrogate_spec in E. contradiction. }
  rewrite percent_encode_spec, E by assumption. split; [reflexivity|].
  assert (Ho : octets (concat (map pct_of (utf8 c))) = utf8 c).
  { rewrite <- (app_nil_r (concat _)), octets_pct_ofs by (now apply utf8_bytes). apply app_nil_r. }
  split; [assumption|]. rewrite Ho.
  replace (utf8 c) with (utf8_text [c]) by (unfold utf8_text; cbn [map concat]; apply app_nil_r).
  apply utf8_round_trip; repeat constructor; assumption.
Qed.

Lemma percent_encode_surrogate : forall c, surrogate c -> percent_encode c = Err UnicodeEncodeError.
Proof.
  intros c Hc. assert (c <= 0x10FFFF) by (unfold surrogate in Hc; lia).
  rewrite percent_encode_spec by assumption. apply is_surrogate_spec in Hc. now rewrite Hc.
Qed.

Lemma normalize_not_idempotent : exists s n, normalize_iri s = Ok n /\ normalize_iri n <> Ok n.
Proof.
  exists (s2l "%%34%31"), (s2l "%41"). split; [vm_compute; reflexivity|]. vm_compute. discriminate.
Qed.

Lemma units_example : units (s2l "%C3%A9%2f%20%41").
Proof.
  change (s2l "%C3%A9%2f%20%41") with
    ((s2l "%C3") ++ (s2l "%A9") ++ (s2l "%2f") ++ (s2l "%20") ++ (s2l "%41") ++ []).
  repeat (apply us_cons; [eapply u_esc; eexists _, _; split; [reflexivity|]; split; [reflexivity|]; split; reflexivity|]).
  constructor.
Qed.
Lemma wf_example : pct_wf (s2l "%C3%A9%2f%20%41").
Proof. apply units_wf, units_example. Qed.

Lemma norm_no_surrogate : forall s n, Forall (fun c => ~ surrogate c) s -> normalize_iri s = Ok n ->
  Forall (fun c => ~ surrogate c) n.
Proof.
  intro s. induction s as [s IH] using strong_list_ind. intros n Hs Hn.
  destruct s as [|c r].
  - cbn in Hn. apply Ok_inj in Hn. subst. constructor.
  - destruct (pct_ok (c :: r)) eqn:E.
    + destruct (pct_run_split (c :: r)) as (m & vs & t & Heq & Hseq & Hlen & Hclean).
      assert (Hm : m <> []).
      { intros ->. cbn in Heq. subst t. congruence. }
      rewrite Heq in Hn, Hs. change (norm (m ++ t) = Ok n) in Hn.
      rewrite (norm_run m vs t Hseq Hm Hclean) in Hn.
      apply bind_ok in Hn. destruct Hn as [x [Hx Hn]]. apply bind_ok in Hn. destruct Hn as [y [Hy Hn]].
      apply Ok_inj in Hn. subst n. rewrite (percent_decode_spec m vs Hseq) in Hx.
      apply bind_ok in Hx. destruct Hx as [u [Hu Hx]]. apply Ok_inj in Hx. subst x.
      destruct (utf8_decode_sound _ _ Hu) as (_ & _ & Hns).
      apply Forall_app in Hs. destruct Hs as [_ Hs].
      apply Forall_app. split.
      * unfold reserve_all. apply Forall_concat. apply Forall_map.
        eapply Forall_impl; [|exact Hns]. intros a Ha. unfold reserve.
        destruct (existsb (N.eqb a) reserved_in_iri) eqn:Er; [|repeat constructor; assumption].
        eapply Forall_impl; [|apply pct_safe]. intros b Hb. apply safe_ascii in Hb. unfold surrogate. lia.
      * apply (IH t); [|assumption|assumption].
        rewrite Heq, app_length. destruct m; [congruence|simpl; lia].
    + change (norm (c :: r) = Ok n) in Hn. rewrite norm_nomatch in Hn by assumption.
      apply bind_ok in Hn. destruct Hn as [y [Hy Hn]]. apply Ok_inj in Hn. subst n.
      inversion Hs; subst. constructor; [assumption|]. apply (IH r); [simpl; lia|assumption|assumption].
Qed.

Lemma quote_of_normalized : forall u n, py_str u -> pct_wf u -> normalize_iri u = Ok n ->
  Forall (fun c => ~ surrogate c) u ->
  exists q, quote_normalized_iri n = Ok q /\ octets q = octets u.
Proof.
  intros u n Hp Hw Hn Hs. exists (quoted n).
  assert (py_str n) by (eapply norm_py; [exact Hp|exact Hn]).
  split; [apply quote_spec; [assumption|eapply norm_no_surrogate; eassumption]|].
  now apply quoted_norm_octets.
Qed.

Lemma quote_stray_percent : exists u n q, normalize_iri u = Ok n /\ quote_normalized_iri n = Ok q /\ octets q <> octets u.
Proof.
  exists (s2l "%%34%31"), (s2l "%41"), (s2l "%41").
  split; [vm_compute; reflexivity|]. split; [vm_compute; reflexivity|]. vm_compute. discriminate.
Qed.
