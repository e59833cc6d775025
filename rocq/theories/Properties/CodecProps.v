(** Properties C16-C24: escaping, UTF-8, percent coding of IRIs. *)
From Verif Require Import Model.Py Model.Terms Model.Graph Model.Codec Model.NTriples Spec.CodecSpec Spec.NTSpec
  Proofs.CodecLemmas Proofs.Utf8 Proofs.IriLemmas Proofs.NTLex Proofs.CodecMore.
Open Scope N_scope.

(** TAB, a quote, a backslash, e acute, an emoji, and a dropped BEL *)
Definition ex_text : str := [97; 9; 34; 92; 233; 128512; 7; 98].
Example ex_text_py : py_str ex_text.
Proof. unfold ex_text, py_str. repeat constructor; vm_compute; discriminate. Qed.

(** C16 *)
Theorem C16_escape_round_trip : forall s, py_str s -> decode_literal (nt_escape s) = Ok (undropped s).
Proof. exact escape_round_trip. Qed.
Theorem C16_round_trip_exact_iff : forall s, py_str s ->
  (decode_literal (nt_escape s) = Ok s <-> Forall (fun c => ~ dropped c) s).
Proof. exact escape_round_trip_iff. Qed.
(** and the text means the same string under the N-Triples productions *)
Theorem C16_escape_denotes : forall s, py_str s -> denotes (nt_escape s) (undropped s).
Proof. exact escape_denotes. Qed.
Example C16_case : py_str ex_text /\ decode_literal (nt_escape ex_text) = Ok [97; 9; 34; 92; 233; 128512; 98] /\
  ~ Forall (fun c => ~ dropped c) ex_text.
Proof.
  split; [apply ex_text_py|]. split; [vm_compute; reflexivity|].
  intro H. assert (dropped 7) by (vm_compute; repeat split; discriminate).
  rewrite Forall_forall in H. apply (H 7); [vm_compute; tauto|assumption].
Qed.

(** C17 *)
Theorem C17_printable : forall s, Forall printable_ascii (nt_escape s).
Proof. exact escape_printable. Qed.
(** [lex_string LNormal] reads the rest of a STRING_LITERAL_QUOTE token after its opening quote *)
Theorem C17_token_ends_at_the_quote : forall s rest,
  lex_string LNormal (nt_escape s ++ 34 :: rest) = Some (nt_escape s, rest).
Proof. exact lex_string_escape. Qed.
Theorem C17_injective : forall a b, py_str a -> py_str b ->
  Forall (fun c => ~ dropped c) a -> Forall (fun c => ~ dropped c) b -> nt_escape a = nt_escape b -> a = b.
Proof. exact escape_injective. Qed.
(** the proviso is needed: distinct strings with dropped controls collide *)
Theorem C17_injective_without_proviso_refuted : exists a b, py_str a /\ py_str b /\ a <> b /\ nt_escape a = nt_escape b.
Proof. exact escape_collision. Qed.
Example C17_case : nt_escape [34; 10; 233] = s2l "\""\n\u00E9" /\
  lex_string LNormal (nt_escape [34; 10; 233] ++ 34 :: s2l " .") = Some (s2l "\""\n\u00E9", s2l " .").
Proof. split; vm_compute; reflexivity. Qed.

(** C18 *)
Theorem C18_identity_without_backslash : forall s, ~ In 92 s -> decode_literal s = Ok s.
Proof. exact decode_no_backslash. Qed.
(** every text that is a sequence of plain characters and escapes decodes to what it denotes *)
Theorem C18_decodes_what_is_denoted : forall s v, denotes s v -> decode_literal s = Ok v.
Proof. exact denotes_decode. Qed.
Theorem C18_raises_only_above_10FFFF : forall s e, decode_literal s = Err e ->
  (e = ValueError \/ e = OverflowError) /\
  exists a h b n, s = a ++ 92 :: 85 :: h ++ b /\ length h = 8%nat /\ hexnum h n /\ 0x10FFFF < n.
Proof. exact decode_raises. Qed.
(** which of the two is raised, when the escape is reached *)
Theorem C18_which_exception : forall a h b x n, denotes a x -> length h = 8%nat -> hexnum h n ->
  (0x10FFFF < n <= 0x7FFFFFFF -> decode_literal (a ++ 92 :: 85 :: h ++ b) = Err ValueError) /\
  (0x7FFFFFFF < n -> decode_literal (a ++ 92 :: 85 :: h ++ b) = Err OverflowError).
Proof. exact decode_which_exception. Qed.
Example C18_case : denotes (s2l "a\n\u00e9\U0001F600") [97; 10; 233; 128512] /\
  decode_literal (s2l "a\n\u00e9\U0001F600") = Ok [97; 10; 233; 128512] /\
  decode_literal (s2l "x\U00110000") = Err ValueError /\ decode_literal (s2l "x\U80000000") = Err OverflowError.
Proof.
  split; [|split; [vm_compute; reflexivity|split; vm_compute; reflexivity]].
  apply decode_example_denotes.
Qed.

(** C19.  [lex_label] reads the rest of a BLANK_NODE_LABEL token after its "_:". *)
Theorem C19_labels_injective : forall a b, term_toNT (BNode a) = term_toNT (BNode b) -> a = b.
Proof. exact bnode_toNT_inj. Qed.
Theorem C19_labels_legal : forall a, exists l, term_toNT (BNode a) = Ok (s2l "_:" ++ l) /\
  l <> [] /\ Forall (fun c => ascii_letter c = true) l /\
  forall rest, ends_label rest -> lex_label (l ++ rest) = Some (l, rest).
Proof. exact bnode_label_legal. Qed.
Example C19_case : term_toNT (BNode 0xAB12) = Ok (s2l "_:rsBC") /\ ends_label (s2l " .") /\
  lex_label (s2l "rsBC .") = Some (s2l "rsBC", s2l " .").
Proof. split; [vm_compute; reflexivity|]. split; [left; eexists; reflexivity|vm_compute; reflexivity]. Qed.

(** C20 *)
Theorem C20_toNT_raises_iff_surrogate : forall s, py_str s ->
  (Exists surrogate s <-> term_toNT (Iri s) = Err UnicodeEncodeError) /\
  (Forall (fun c => ~ surrogate c) s -> term_toNT (Iri s) = Ok (60 :: quoted s ++ [62])).
Proof. exact iri_toNT_outcome. Qed.
Theorem C20_legal_text : forall s, py_str s ->
  Forall (fun c => printable_ascii c /\ ~ In c (s2l " <>{}|^`\""")) (quoted s).
Proof. exact quoted_legal. Qed.
Example C20_case : term_toNT (Iri (s2l "http://e/" ++ [233; 32; 37; 92])) = Ok (s2l "<http://e/%C3%A9%20%%5C>") /\
  term_toNT (Iri [0xD800]) = Err UnicodeEncodeError.
Proof. split; vm_compute; reflexivity. Qed.

(** C21 *)
Theorem C21_idempotent : forall s q, py_str s -> quote_normalized_iri s = Ok q -> quote_normalized_iri q = Ok q.
Proof. exact quote_idempotent. Qed.
Theorem C21_identity_iff : forall s, py_str s ->
  (quote_normalized_iri s = Ok s <-> Forall (fun c => uri_char c = true) s).
Proof. exact quote_id_iff. Qed.
Theorem C21_same_octets : forall s, py_str s -> Forall (fun c => ~ surrogate c) s ->
  exists q, quote_normalized_iri s = Ok q /\ octets q = octets s.
Proof. exact quote_same_octets. Qed.
Example C21_case : quote_normalized_iri (s2l "a b/" ++ [233]) = Ok (s2l "a%20b/%C3%A9") /\
  octets (s2l "a%20b/%C3%A9") = octets (s2l "a b/" ++ [233]).
Proof. split; vm_compute; reflexivity. Qed.

(** C22 *)
Theorem C22_encode_char : forall c, c <= 0x10FFFF -> ~ surrogate c ->
  exists e, percent_encode c = Ok e /\ octets e = utf8 c /\ utf8_decode (octets e) = Ok [c].
Proof. exact percent_encode_lossless. Qed.
Theorem C22_surrogates_raise : forall c, surrogate c -> percent_encode c = Err UnicodeEncodeError.
Proof. exact percent_encode_surrogate. Qed.
Theorem C22_decode_text : forall s, py_str s -> Forall (fun c => ~ surrogate c) s -> utf8_decode (utf8_text s) = Ok s.
Proof. exact utf8_round_trip. Qed.
Theorem C22_decode_only_encodings : forall bs s, utf8_decode bs = Ok s ->
  bs = utf8_text s /\ py_str s /\ Forall (fun c => ~ surrogate c) s.
Proof. exact utf8_decode_sound. Qed.
Theorem C22_otherwise_raises : forall bs, utf8_decode bs = Err UnicodeDecodeError <->
  forall u, py_str u -> Forall (fun c => ~ surrogate c) u -> utf8_text u <> bs.
Proof. exact utf8_decode_fails_iff. Qed.
Example C22_case : percent_encode 0x20AC = Ok (s2l "%E2%82%AC") /\ utf8_decode [0xE2; 0x82; 0xAC] = Ok [0x20AC] /\
  utf8_decode [0xC0; 0x80] = Err UnicodeDecodeError /\ utf8_decode [0xED; 0xA0; 0x80] = Err UnicodeDecodeError.
Proof. repeat split; vm_compute; reflexivity. Qed.

(** C23 *)
Theorem C23_idempotent : forall s n, pct_wf s -> normalize_iri s = Ok n -> normalize_iri n = Ok n.
Proof. exact normalize_idempotent. Qed.
Theorem C23_stays_well_formed : forall s n, pct_wf s -> normalize_iri s = Ok n -> pct_wf n.
Proof. exact normalize_wf. Qed.
Theorem C23_without_proviso_refuted : exists s n, normalize_iri s = Ok n /\ normalize_iri n <> Ok n.
Proof. exact normalize_not_idempotent. Qed.
Example C23_case : normalize_iri (s2l "%C3%A9%2f%20%41") = Ok (233 :: s2l "%2F%20A") /\
  normalize_iri (233 :: s2l "%2F%20A") = Ok (233 :: s2l "%2F%20A") /\ pct_wf (s2l "%C3%A9%2f%20%41").
Proof. split; [vm_compute; reflexivity|]. split; [vm_compute; reflexivity|apply wf_example]. Qed.

(** C24 *)
Theorem C24_quote_of_normalized : forall u n, py_str u -> pct_wf u -> normalize_iri u = Ok n ->
  Forall (fun c => ~ surrogate c) u ->
  exists q, quote_normalized_iri n = Ok q /\ octets q = octets u.
Proof. exact quote_of_normalized. Qed.
Theorem C24_normalize_of_quoted : forall n q, pct_wf n -> py_str n -> normalize_iri n = Ok n ->
  Forall (fun c => 0x20 < c) n -> quote_normalized_iri n = Ok q -> normalize_iri q = Ok n.
Proof. exact norm_quote_inverse. Qed.
Theorem C24_normalize_raises_iff : forall s,
  (forall e, normalize_iri s = Err e -> e = UnicodeDecodeError) /\
  (normalize_iri s = Err UnicodeDecodeError <->
   exists vs, esc_run s vs /\ forall u, py_str u -> Forall (fun c => ~ surrogate c) u -> utf8_text u <> vs).
Proof. exact normalize_fails_spec. Qed.
Theorem C24_stray_percent_refuted : exists u n q, normalize_iri u = Ok n /\ quote_normalized_iri n = Ok q /\ octets q <> octets u.
Proof. exact quote_stray_percent. Qed.
Example C24_case : normalize_iri (s2l "http://e/%C3%A9%2F") = Ok (s2l "http://e/" ++ 233 :: s2l "%2F") /\
  quote_normalized_iri (s2l "http://e/" ++ 233 :: s2l "%2F") = Ok (s2l "http://e/%C3%A9%2F") /\
  normalize_iri (s2l "%FF") = Err UnicodeDecodeError.
Proof. repeat split; vm_compute; reflexivity. Qed.

Print Assumptions C16_escape_denotes.
Print Assumptions C17_injective.
Print Assumptions C18_raises_only_above_10FFFF.
Print Assumptions C19_labels_legal.
Print Assumptions C20_legal_text.
Print Assumptions C21_same_octets.
Print Assumptions C22_otherwise_raises.
Print Assumptions C23_idempotent.
Print Assumptions C24_normalize_of_quoted.
Print Assumptions C24_normalize_raises_iff.
Print Assumptions C16_escape_round_trip.
Print Assumptions C16_round_trip_exact_iff.
Print Assumptions C17_printable.
Print Assumptions C17_token_ends_at_the_quote.
Print Assumptions C17_injective_without_proviso_refuted.
Print Assumptions C18_identity_without_backslash.
Print Assumptions C18_decodes_what_is_denoted.
Print Assumptions C18_which_exception.
Print Assumptions C19_labels_injective.
Print Assumptions C20_toNT_raises_iff_surrogate.
Print Assumptions C21_idempotent.
Print Assumptions C21_identity_iff.
Print Assumptions C22_encode_char.
Print Assumptions C22_surrogates_raise.
Print Assumptions C22_decode_text.
Print Assumptions C22_decode_only_encodings.
Print Assumptions C23_stays_well_formed.
Print Assumptions C23_without_proviso_refuted.
Print Assumptions C24_quote_of_normalized.
Print Assumptions C24_stray_percent_refuted.
