(** Properties C25-C34 and C72-C74: N-Triples and N-Quads, round trip, streams,
    threads, grammar deviations. *)
From Verif Require Import Model.Py Model.Terms Model.Graph Model.GraphRun Model.Codec Model.NTriples Model.Threads
  Spec.CodecSpec Spec.NTSpec Spec.GraphSpec Spec.ThreadSpec
  Proofs.NTRun Proofs.NTMore Proofs.NTFinal Proofs.ThreadLemmas Proofs.GraphInv Proofs.GraphHist.
Open Scope N_scope.

Definition ex_s : term := Iri (s2l "http://ex/a%20b").
Definition ex_p : term := Iri (s2l "http://ex/p").
Definition ex_triples : list stmt :=
  [ Tr ex_s ex_p (Lit [34; 10; 233] (Some (s2l "en-GB")) None);
    Tr (BNode 5) ex_p (BNode 77);
    Tr (BNode 77) ex_p (Lit (s2l "1") None (Some (s2l "http://ex/int"))) ].
Lemma ex_py : forall s, forallb (fun c => c <=? 0x10FFFF) s = true -> py_str s.
Proof. intros s H. apply Forall_forall. intros c Hc. rewrite forallb_forall in H. apply H in Hc. now apply N.leb_le. Qed.
Lemma ex_clean : forall s, forallb (fun c => c <? 0xD800) s = true -> clean_iri s.
Proof.
  intros s H. rewrite forallb_forall in H. split; apply Forall_forall; intros c Hc; apply H, N.ltb_lt in Hc.
  - lia.
  - unfold surrogate. lia.
Qed.
Lemma ex_tag : langtag_ok (s2l "en-GB").
Proof.
  exists (s2l "en"), [s2l "GB"]. split; [reflexivity|]. split.
  - split; [discriminate|repeat constructor].
  - constructor; [|constructor]. split; [discriminate|]. apply Forall_forall. intros c Hc. left. revert c Hc.
    apply Forall_forall. repeat constructor.
Qed.
Lemma ex_nt : Forall nt_triple ex_triples.
Proof.
  unfold ex_triples, ex_s, ex_p. constructor; [|constructor; [|constructor; [|constructor]]].
  - split; [apply ex_clean; reflexivity|]. split; [apply ex_clean; reflexivity|]. split; [|reflexivity].
    split; [apply ex_py; reflexivity|]. split; [intros x [= <-] _; apply ex_tag|discriminate].
  - split; [exact I|]. split; [apply ex_clean; reflexivity|]. split; [exact I|reflexivity].
  - split; [exact I|]. split; [apply ex_clean; reflexivity|]. split; [|reflexivity].
    split; [apply ex_py; reflexivity|]. split; [discriminate|]. intros x [= <-] _. apply ex_clean; reflexivity.
Qed.
Lemma ex_uri : forall s, forallb uri_char s = true -> Forall (fun c => uri_char c = true) s.
Proof. intros s H. apply Forall_forall. now apply forallb_forall. Qed.
Lemma ex_undropped : forall s, forallb (fun c => negb (droppedb c)) s = true -> Forall (fun c => ~ dropped c) s.
Proof.
  intros s H. apply Forall_forall. intros c Hc D. rewrite forallb_forall in H. apply H in Hc.
  apply CodecLemmas.droppedb_spec in D. rewrite D in Hc. discriminate.
Qed.
Lemma ex_stable : Forall stable ex_triples.
Proof.
  unfold ex_triples, ex_s, ex_p. constructor; [|constructor; [|constructor; [|constructor]]].
  - split; [apply ex_uri; reflexivity|]. split; [apply ex_uri; reflexivity|].
    split; [apply ex_undropped; reflexivity|]. split; [right; eexists; eexists; split; reflexivity|left; reflexivity].
  - split; [exact I|]. split; [apply ex_uri; reflexivity|]. exact I.
  - split; [exact I|]. split; [apply ex_uri; reflexivity|].
    split; [apply ex_undropped; reflexivity|]. split; [left; reflexivity|].
    right. eexists. eexists. split; [reflexivity|]. apply ex_uri; reflexivity.
Qed.

(** C25 *)
Theorem C25_round_trip_general : forall ts n g, Forall nt_triple ts ->
  exists text n' f, serialize_ntriples ts = (text, Ok tt) /\
    injective_on f (concat (map bnodes_of ts)) /\ fresh_for n n' f (concat (map bnodes_of ts)) /\
    parse_string false n g text = (n', g_addAll g (map (back f) ts), Ok tt).
Proof. exact round_trip. Qed.
Theorem C25_round_trip_exact : forall ts n g, Forall nt_triple ts -> Forall stable ts ->
  exists text n' f, serialize_ntriples ts = (text, Ok tt) /\
    injective_on f (concat (map bnodes_of ts)) /\ fresh_for n n' f (concat (map bnodes_of ts)) /\
    parse_string false n g text = (n', g_addAll g (map (on_terms (rename f)) ts), Ok tt).
Proof. exact round_trip_stable. Qed.
(** a whole graph comes back with the same triples up to renaming, none lost or merged *)
Theorem C25_graph_round_trip : forall g n, wf g -> Forall nt_triple (g_iter g) -> Forall stable (g_iter g) ->
  exists text n' f g', serialize_ntriples (g_iter g) = (text, Ok tt) /\
    injective_on f (concat (map bnodes_of (g_iter g))) /\
    parse_string_new false n text = (n', g', Ok tt) /\ wf g' /\
    g_iter g' = map (on_terms (rename f)) (g_iter g) /\ g_len g' = g_len g.
Proof. exact round_trip_graph. Qed.
(** the text is ASCII: writing it as UTF-8 bytes and parsing the bytes is the same thing *)
Theorem C25_bytes : forall ts n g, Forall nt_triple ts ->
  let out := fst (serialize_ntriples ts) in
  utf8_text out = out /\ parse_bytes false n g out = parse_string false n g out.
Proof. exact serialize_bytes. Qed.
Example C25_case : Forall nt_triple ex_triples /\ Forall stable ex_triples /\
  parse_string_new false 100 (fst (serialize_ntriples ex_triples)) =
  (102, g_addAll (graph_new None) [ Tr ex_s ex_p (Lit [34; 10; 233] (Some (s2l "en-GB")) None);
    Tr (BNode 100) ex_p (BNode 101);
    Tr (BNode 101) ex_p (Lit (s2l "1") None (Some (s2l "http://ex/int"))) ], Ok tt).
Proof. split; [exact ex_nt|]. split; [exact ex_stable|]. vm_compute. reflexivity. Qed.

(** C26 *)
Theorem C26_one_line : forall t x, lang_one_line (st_s t) -> lang_one_line (st_p t) -> lang_one_line (st_o t) ->
  triple_str t = Ok x -> exists body, x = body ++ [10] /\ one_line body.
Proof. exact one_line_each. Qed.
Theorem C26_as_many_lines_as_triples : forall ts,
  Forall (fun t => lang_one_line (st_s t) /\ lang_one_line (st_p t) /\ lang_one_line (st_o t)) ts ->
  snd (serialize_ntriples ts) = Ok tt ->
  exists ls, fst (serialize_ntriples ts) = text ls /\ Forall one_line ls /\ length ls = length ts.
Proof. exact count_lines. Qed.
Example C26_case : triple_str (Tr (Iri [97; 10]) (BNode 3) (Lit [10; 13] None (Some [13]))) =
  Ok (s2l "<a%0A> _:D ""\n\r""^^<%0D> ." ++ [10]).
Proof. vm_compute. reflexivity. Qed.

(** C27 *)
Theorem C27_string_atomic : forall q n g s m g' e, parse_string q n g s = (m, g', Err e) -> g' = g.
Proof. exact string_atomic. Qed.
Theorem C27_stream_keeps_earlier_lines : forall q n g lines m g' e, parse_stream q n g lines = (m, g', Err e) ->
  exists before bad after ts m1, lines = before ++ bad :: after /\
    Forall2 (first_triple q) (filter nonempty before) ts /\ g' = g_addAll g ts /\
    parse_stream q n g before = (m1, g', Ok tt) /\ parse_stream q n g (before ++ [bad]) = (m, g', Err e).
Proof. exact stream_partial. Qed.
Definition ex_line1 : str := s2l "<http://a> <http://b> _:x .".
Definition ex_line2 : str := s2l "_:x <http://b> ""v""@en .".
Example C27_case :
  parse_stream false 9 (graph_new None) [lf ex_line1; s2l "oops"; lf ex_line2] =
    (10, g_add (graph_new None) (Tr (Iri (s2l "http://a")) (Iri (s2l "http://b")) (BNode 9)), Err LarkError) /\
  parse_string false 9 (graph_new None) (lf ex_line1 ++ s2l "oops" ++ lf ex_line2) = (9, graph_new None, Err LarkError).
Proof. split; vm_compute; reflexivity. Qed.

(** C28 *)
Theorem C28_agree_on_success : forall q n g ss m g', Forall proper_line ss ->
  parse_stream q n g (map lf ss) = (m, g', Ok tt) <-> parse_string q n g (text ss) = (m, g', Ok tt).
Proof. exact agree. Qed.
Theorem C28_agree_on_failure : forall q n g ss e, Forall proper_line ss ->
  (exists m g', parse_stream q n g (map lf ss) = (m, g', Err e)) <->
  (exists m g', parse_string q n g (text ss) = (m, g', Err e)).
Proof. exact agree_fail. Qed.
Theorem C28_blank_line_in_stream : forall q n g ss b rest m g', Forall proper_line ss -> all_blank b ->
  parse_string q n g (text ss) = (m, g', Ok tt) ->
  parse_stream q n g (map lf ss ++ lf b :: rest) = (m, g', Err RuntimeError).
Proof. exact blank_stream. Qed.
Theorem C28_empty_lines_in_string : forall q n g ss ss2 e, Forall proper_line ss -> Forall proper_line ss2 ->
  Forall (fun c => c = 10 \/ c = 13) e -> ss <> [] ->
  parse_string q n g (text ss ++ e ++ text ss2) = parse_string q n g (text (ss ++ ss2)).
Proof. exact extra_ends. Qed.
(** but a line of blanks is not the same as an empty line: if the lines before it raise nothing,
    it is a syntax error *)
Theorem C28_blank_line_in_string : forall q n g ss w rest, Forall proper_line ss -> ss <> [] -> all_blank w -> w <> [] ->
  snd (parse_string q n g (text ss ++ lf w ++ rest)) = match snd (parse_string q n g (text ss)) with Ok _ => Err LarkError | Err e => Err e end.
Proof. exact blank_line_refused. Qed.
Theorem C28_cr_line_loses_triples : forall q n g x y m g', proper_line x -> proper_line y ->
  parse_string q n g (x ++ 13 :: lf y) = (m, g', Ok tt) ->
  exists t1 t2, g' = g_addAll g [t1; t2] /\ parse_stream q n g [x ++ 13 :: lf y] = (m, g_addAll g [t1], Ok tt).
Proof. exact cr_line. Qed.
Lemma ex_proper : forall s c, forallb (fun c => negb ((c =? 10) || (c =? 13))) s = true -> In c s -> c <> 32 -> c <> 9 -> proper_line s.
Proof.
  intros s c H I A B. split.
  - apply Forall_forall. intros d Hd. rewrite forallb_forall in H. apply H in Hd. apply negb_true_iff, orb_false_iff in Hd.
    rewrite !N.eqb_neq in Hd. exact Hd.
  - intro X. unfold all_blank in X. rewrite Forall_forall in X. destruct (X c I); contradiction.
Qed.
Example C28_case : proper_line ex_line1 /\ proper_line ex_line2 /\
  (exists m g', parse_string false 9 (graph_new None) (text [ex_line1; ex_line2]) = (m, g', Ok tt) /\ g_len g' = 2%nat) /\
  (exists m g', parse_string false 9 (graph_new None) (ex_line1 ++ 13 :: lf ex_line2) = (m, g', Ok tt) /\ g_len g' = 2%nat).
Proof.
  split; [apply (ex_proper _ 60); [reflexivity|vm_compute; tauto|discriminate|discriminate]|].
  split; [apply (ex_proper _ 95); [reflexivity|vm_compute; tauto|discriminate|discriminate]|].
  split; eexists; eexists; (split; [vm_compute; reflexivity|reflexivity]).
Qed.

(** C29.  [t_run] runs any interleaving of the parse calls of any threads. *)
Theorem C29_label_scope : forall n es i j th l th' l' a b, (i < j)%nat ->
  nth_error es i = Some (PMention th l) -> nth_error es j = Some (PMention th' l') ->
  nth_error (snd (t_run (t_init n) es)) i = Some (Ok (Some a)) ->
  nth_error (snd (t_run (t_init n) es)) j = Some (Ok (Some b)) ->
  (a = b <-> th = th' /\ l = l' /\ same_call es th i j).
Proof. exact label_scope. Qed.
(** the hypotheses on the results are met in every schedule where each thread runs its calls in sequence *)
Theorem C29_no_schedule_fails : forall n es, sequential (fun _ => false) es ->
  Forall (fun x => exists y, x = Ok y) (snd (t_run (t_init n) es)).
Proof. exact schedule_never_fails. Qed.
Definition ex_schedule : list pev :=
  [PStart 0; PStart 1; PMention 0 (s2l "_:a"); PMention 1 (s2l "_:a"); PMention 0 (s2l "_:b"); PMention 0 (s2l "_:a");
   PEnd 0; PStart 0; PMention 0 (s2l "_:a"); PEnd 1; PEnd 0]%nat.
Example C29_case : sequential (fun _ => false) ex_schedule /\
  snd (t_run (t_init 7) ex_schedule) =
    [Ok None; Ok None; Ok (Some 7); Ok (Some 8); Ok (Some 9); Ok (Some 7); Ok None; Ok None; Ok (Some 10); Ok None; Ok None].
Proof. split; [unfold ex_schedule; cbn; tauto|vm_compute; reflexivity]. Qed.

(** C30 *)
Theorem C30_string_only_adds : forall q n g s m g' r m0 d r0,
  parse_string q n g s = (m, g', r) -> parse_string_new q n s = (m0, d, r0) ->
  r0 = r /\ m0 = m /\ forall t, g_contains g' t = g_contains g t || g_contains d t.
Proof. exact string_adds. Qed.
Theorem C30_stream_only_adds : forall q n g lines m g' r m0 d r0,
  parse_stream q n g lines = (m, g', r) -> parse_stream q n (graph_new None) lines = (m0, d, r0) ->
  r0 = r /\ m0 = m /\ forall t, g_contains g' t = g_contains g t || g_contains d t.
Proof. exact stream_adds. Qed.
Example C30_case : let t := Tr (Iri [97]) (Iri [98]) (Iri [99]) in
  exists m g', parse_string false 9 (g_add (graph_new None) t) (lf ex_line1) = (m, g', Ok tt) /\
    g_contains g' t = true /\ g_len g' = 2%nat.
Proof. cbv zeta. eexists. eexists. split; [vm_compute; reflexivity|]. split; reflexivity. Qed.

(** C31 *)
Theorem C31_blanks_dropped : forall n g a b c, Forall iri_blank a -> Forall iri_blank b -> Forall iri_blank c ->
  parse_string false n g (iri_doc a b c) =
  (n, g_add g (Tr (Iri (no_blanks a)) (Iri (no_blanks b)) (Iri (no_blanks c))), Ok tt).
Proof. exact blanks_dropped. Qed.
Lemma ex_iri_blank : forall s, forallb (fun c => (c =? 32) || (c =? 9) || (32 <? c) && negb (existsb (N.eqb c) (s2l "<>""{}|^`\"))) s = true ->
  Forall iri_blank s.
Proof.
  intros s H. apply Forall_forall. intros c Hc. rewrite forallb_forall in H. apply H in Hc. apply orb_true_iff in Hc. destruct Hc as [Hc|Hc].
  - apply orb_true_iff in Hc. rewrite !N.eqb_eq in Hc. unfold iri_blank. tauto.
  - apply andb_true_iff in Hc. destruct Hc as [A B]. apply N.ltb_lt in A. right. right. split; [exact A|]. intro X.
    apply negb_true_iff in B. assert (existsb (N.eqb c) (s2l "<>""{}|^`\") = true) by (apply existsb_exists; exists c; split; [exact X|apply N.eqb_refl]).
    congruence.
Qed.
Example C31_case : Forall iri_blank (s2l "ht tp://a b") /\
  iri_doc (s2l "ht tp://a b") (s2l "p") (s2l " o ") = lf (s2l "<ht tp://a b> <p> < o > .") /\
  no_blanks (s2l "ht tp://a b") = s2l "http://ab".
Proof. split; [apply ex_iri_blank; reflexivity|]. split; vm_compute; reflexivity. Qed.

(** C32 *)
Theorem C32_only_these_tags : forall q n s m g, parse_string_new q n s = (m, g, Ok tt) ->
  forall t, In t (g_iter g) -> langs_accepted t.
Proof. exact parsed_langs. Qed.
Theorem C32_round_trip_iff : forall n s p v l, clean_iri s -> clean_iri p -> py_str v -> l <> [] ->
  stable (Tr (Iri s) (Iri p) (Lit v (Some l) None)) ->
  exists x, triple_str (Tr (Iri s) (Iri p) (Lit v (Some l) None)) = Ok x /\
  (langtag_ok l <-> exists m g, parse_string_new false n x = (m, g, Ok tt) /\
                                g_iter g = [Tr (Iri s) (Iri p) (Lit v (Some l) None)]).
Proof. exact lang_round_trip_iff. Qed.
Theorem C32_other_tags_rejected : forall n g s p v l, clean_iri s -> clean_iri p -> py_str v -> l <> [] ->
  Forall tag_char l -> ~ langtag_ok l ->
  exists x, triple_str (Tr (Iri s) (Iri p) (Lit v (Some l) None)) = Ok x /\
            parse_string false n g x = (n, g, Err LarkError).
Proof. exact bad_tag_rejected. Qed.
Example C32_case : ~ langtag_ok (s2l "de-1996") /\ Forall tag_char (s2l "de-1996") /\
  triple_str (Tr ex_s ex_p (Lit [97] (Some (s2l "de-1996")) None)) = Ok (lf (s2l "<http://ex/a%20b> <http://ex/p> ""a""@de-1996 .")).
Proof.
  split; [|split; [|vm_compute; reflexivity]].
  - intro H. apply NTLex.langtag_chars in H. destruct H as [H _]. rewrite Forall_forall in H.
    destruct (H 49) as [X|[X|[X|[X|X]]]]; [vm_compute; tauto|discriminate..].
  - apply Forall_forall. intros c Hc. unfold tag_char. vm_compute in Hc.
    repeat (destruct Hc as [<-|Hc]; [first [left; reflexivity|right; left; split; discriminate|right; right; reflexivity]|]). destruct Hc.
Qed.

(** C33 *)
Theorem C33_unreadable : forall ts n g c r p o gr, Forall (fun t => st_graph t <> None) ts -> ascii_letter c = true ->
  In (St (Iri (c :: r)) p o gr) ts ->
  snd (serialize_nquads ts) = Ok tt /\
  exists e, parse_string true n g (fst (serialize_nquads ts)) = (n, g, Err e) /\ error_of (fst (serialize_nquads ts)) e.
Proof. exact nquads_unreadable. Qed.
Theorem C33_ambiguous : forall s p x l d g, quad_str s p (Iri x) g = quad_str s p (Lit x l d) g.
Proof. exact nquads_ambiguous. Qed.
(** the output is the bare text of the terms, separated by spaces *)
Theorem C33_terms_unquoted : forall ts lines, Forall2 raw_line ts lines -> serialize_nquads ts = (concat lines, Ok tt).
Proof.
  assert (R : forall t s, raw_text t s -> term_str t = s) by (intros t s []; reflexivity).
  induction 1 as [|t x ts lines H F IH]; [reflexivity|]. cbn [serialize_nquads concat]. rewrite IH.
  destruct H as [s p o g a b c d A B C D|s p o a b c A B C];
    unfold stmt_str, Qd; cbn [st_graph st_s st_p st_o]; unfold quad_str; cbn [oterm_str]; rewrite ?(R _ _ A), ?(R _ _ B), ?(R _ _ C), ?(R _ _ D); reflexivity.
Qed.
Example C33_case : serialize_nquads [Qd ex_s ex_p (Lit (s2l "v") None None) (Some (Iri (s2l "http://g")))] =
  (lf (s2l "http://ex/a%20b http://ex/p v http://g ."), Ok tt) /\
  raw_line (Qd ex_s ex_p (Lit (s2l "v") None None) (Some (Iri (s2l "http://g")))) (lf (s2l "http://ex/a%20b http://ex/p v http://g .")).
Proof.
  split; [vm_compute; reflexivity|]. exact (raw_quad _ _ _ _ _ _ _ _ (raw_iri _) (raw_iri _) (raw_lit (s2l "v") None None) (raw_iri (s2l "http://g"))).
Qed.

(** C34 *)
Theorem C34_match_reports_only_the_later : forall s p o g1 g2 a b c k, g1 <> g2 ->
  s <> empty_iri -> p <> empty_iri -> o <> empty_iri -> argof s a -> argof p b -> argof o c -> (3 <= k)%nat ->
  snd (drain k (g_addAll (graph_new None) [Qd s p o g1; Qd s p o g2]) (GStart a b c)) =
  Ok (match a, b, c with
      | None, None, None => [Qd s p o g1; Qd s p o g2]
      | Some _, Some _, Some _ => []
      | _, _, _ => [Qd s p o g2]
      end).
Proof. exact two_quads_match. Qed.
Theorem C34_removing_both_raises : forall s p o g1 g2 x y, g1 <> g2 -> (x = g1 /\ y = g2) \/ (x = g2 /\ y = g1) ->
  let g := g_addAll (graph_new None) [Qd s p o g1; Qd s p o g2] in
  snd (g_remove g (Qd s p o x)) = Ok tt /\ snd (g_remove (fst (g_remove g (Qd s p o x))) (Qd s p o y)) = Err KeyError.
Proof. exact two_quads_remove. Qed.
Example C34_case : parse_string_new true 1 (text [s2l "<a> <b> <c> <g1> ."; s2l "<a> <b> <c> <g2> ."]) =
  (1, g_addAll (graph_new None) [Qd (Iri [97]) (Iri [98]) (Iri [99]) (Some (Iri (s2l "g1")));
                                 Qd (Iri [97]) (Iri [98]) (Iri [99]) (Some (Iri (s2l "g2")))], Ok tt).
Proof. vm_compute. reflexivity. Qed.

(** C72: a parse started and finished by the same thread inside another parse of
    the same parser object takes the outer parse's blank nodes with it *)
Theorem C72_nested_parse_breaks_the_outer : forall n pre th inner l,
  snd (t_step (fst (t_run (t_init n) (pre ++ PStart th :: inner ++ [PEnd th]))) (PMention th l)) = Err AttributeError /\
  snd (t_step (fst (t_run (t_init n) (pre ++ PStart th :: inner ++ [PEnd th]))) (PEnd th)) = Err AttributeError.
Proof. exact reentrant_mention. Qed.
Example C72_case : snd (t_run (t_init 3) [PStart 0; PMention 0 (s2l "_:a"); PStart 0; PMention 0 (s2l "_:a"); PEnd 0;
    PMention 0 (s2l "_:a"); PEnd 0]%nat) =
  [Ok None; Ok (Some 3); Ok None; Ok (Some 4); Ok None; Err AttributeError; Err AttributeError].
Proof. vm_compute. reflexivity. Qed.

(** C73: the language is written unescaped, so it can smuggle in whole triples *)
Theorem C73_language_smuggles_triples : forall n s p v l t2,
  clean_iri s -> clean_iri p -> py_str v -> l <> [] -> langtag_ok l -> nt_triple t2 ->
  exists evil x m f, triple_str (Tr (Iri s) (Iri p) (Lit v (Some evil) None)) = Ok x /\
    parse_string_new false n x =
    (m, g_addAll (graph_new None) (map (back f) [Tr (Iri s) (Iri p) (Lit v (Some l) None); t2]), Ok tt).
Proof. exact smuggled_triples. Qed.
Example C73_case :
  (do x <- triple_str (Tr (Iri [97]) (Iri [98]) (Lit [118] (Some (s2l "en ." ++ [10] ++ s2l "<x> <y> <z>")) None)) ;
   Ok (parse_string_new false 1 x)) =
  Ok (1, g_addAll (graph_new None) [Tr (Iri [97]) (Iri [98]) (Lit [118] (Some (s2l "en")) None);
                                    Tr (Iri (s2l "x")) (Iri (s2l "y")) (Iri (s2l "z"))], Ok tt).
Proof. vm_compute. reflexivity. Qed.

(** C74 *)
Theorem C74_statement_kinds : forall q n g s m g' r, parse_string q n g s = (m, g', r) ->
  forall t, In t (g_iter g') -> In t (g_iter g) \/ graph_kind q t.
Proof. exact parsed_graphs. Qed.
Theorem C74_no_common_documents : forall n1 n2 s m1 g1 m2 g2,
  parse_string_new false n1 s = (m1, g1, Ok tt) -> parse_string_new true n2 s = (m2, g2, Ok tt) ->
  g_iter g1 = [] /\ g_iter g2 = [].
Proof. exact disjoint_languages. Qed.
Example C74_case : snd (parse_string_new true 1 (lf ex_line1)) = Err LarkError /\
  snd (parse_string_new true 1 (lf (s2l "<a> <b> <c> _:g ."))) = Err LarkError /\
  snd (parse_string_new true 1 (lf (s2l "<a> <b> <c> <g> ."))) = Ok tt /\
  snd (parse_string_new true 1 [10]) = Ok tt /\ snd (parse_string_new false 1 [10]) = Ok tt.
Proof. repeat split; vm_compute; reflexivity. Qed.

Print Assumptions C25_round_trip_general.
Print Assumptions C25_round_trip_exact.
Print Assumptions C25_graph_round_trip.
Print Assumptions C25_bytes.
Print Assumptions C26_one_line.
Print Assumptions C26_as_many_lines_as_triples.
Print Assumptions C27_string_atomic.
Print Assumptions C27_stream_keeps_earlier_lines.
Print Assumptions C28_agree_on_success.
Print Assumptions C28_agree_on_failure.
Print Assumptions C28_blank_line_in_stream.
Print Assumptions C28_empty_lines_in_string.
Print Assumptions C28_blank_line_in_string.
Print Assumptions C28_cr_line_loses_triples.
Print Assumptions C29_label_scope.
Print Assumptions C29_no_schedule_fails.
Print Assumptions C30_string_only_adds.
Print Assumptions C30_stream_only_adds.
Print Assumptions C31_blanks_dropped.
Print Assumptions C32_only_these_tags.
Print Assumptions C32_round_trip_iff.
Print Assumptions C32_other_tags_rejected.
Print Assumptions C33_unreadable.
Print Assumptions C33_ambiguous.
Print Assumptions C33_terms_unquoted.
Print Assumptions C34_match_reports_only_the_later.
Print Assumptions C34_removing_both_raises.
Print Assumptions C72_nested_parse_breaks_the_outer.
Print Assumptions C73_language_smuggles_triples.
Print Assumptions C74_statement_kinds.
Print Assumptions C74_no_common_documents.
