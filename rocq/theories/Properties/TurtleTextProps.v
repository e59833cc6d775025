(** Properties C82, C83: Turtle from the text on. *)
From Coq Require Import Permutation.
From Verif Require Import Model.Py Model.Terms Model.Graph Model.Codec Model.NTriples Model.Curie Model.TurtleTree Model.Turtle Model.TurtleParse
  Spec.CodecSpec Spec.TurtleSpec Spec.TurtleTextSpec Proofs.GraphInv Proofs.Utf8 Proofs.TurtleSem Proofs.TurtleDoc Proofs.TurtleMore Proofs.TurtleScan Proofs.TurtleTok
  Proofs.TurtleReject Proofs.TurtleTokens Properties.TurtleProps.
Open Scope N_scope.

(** ** C82: texts and parse trees *)
(** a text of a document, with white space where tokens could run together, is parsed into that document *)
Theorem C82_texts_are_parsed : forall d s, doc_text true d s -> turtle_text s = Ok d.
Proof. exact turtle_text_accepts. Qed.
(** and whatever is parsed is a text of the result, according to the grammar *)
Theorem C82_parsed_texts : forall d s, turtle_text s = Ok d -> doc_text false d s.
Proof. exact turtle_text_sound. Qed.
(** everything else is a syntax error *)
Theorem C82_other_texts_are_rejected : forall s, (forall d, ~ doc_text false d s) -> turtle_text s = Err LarkError.
Proof. intros s N. destruct (turtle_text_total s) as [(d & E)|E]; auto. exfalso. apply (N d). now apply turtle_text_sound. Qed.
Theorem C82_result_or_syntax_error : forall s, (exists d, turtle_text s = Ok d) \/ turtle_text s = Err LarkError.
Proof. exact turtle_text_total. Qed.
(** so a text is the text of one document only *)
Theorem C82_one_document_per_text : forall d d' s, doc_text true d s -> doc_text true d' s -> d = d'.
Proof. intros d d' s T T'. apply turtle_text_accepts in T, T'. congruence. Qed.
(** the keywords match other letters than they should: a long s is taken for an S *)
Theorem C82_keywords_refuted : exists s d, turtle_text s = Ok d /\ d = [SBase (s2l "http://x")] /\ ~ Forall2 (any_case true) (s2l "BASE") (firstn 4 s).
Proof.
  exists ([66; 65; 0x17F; 69] ++ s2l " <http://x>"), [SBase (s2l "http://x")]. split; [vm_compute; reflexivity|]. split; auto.
  intro F. inversion F as [|? ? ? ? _ F1]; subst. inversion F1 as [|? ? ? ? _ F2]; subst. inversion F2 as [|? ? ? ? A _]; subst.
  unfold any_case in A. destruct A as [A|[A|[A _]]]; discriminate A.
Qed.

(** an example with every construct *)
Lemma ex_letters : forall s, forallb NTriples.letter s = true -> Forall TurtleTextSpec.letter s.
Proof. intros s H. rewrite forallb_forall in H. apply Forall_forall. intros c J. now apply letter_iff, H. Qed.
Lemma ex_units : forall ok e s, Forall (fun c => ok c /\ c <> 92) s -> units ok e s.
Proof. induction 1 as [|c s [A B] _ IH]; [constructor|]. apply (us_cons _ _ [c]); auto. now constructor. Qed.
Lemma ex_ref_text : forall s, forallb (fun c => iri_char c && negb (c =? 92)) (s2l s) = true -> iri_text (TRef (s2l s)) ([60] ++ s2l s ++ [62]).
Proof.
  intros s H. constructor. apply ex_units. rewrite forallb_forall in H. apply Forall_forall. intros c J. apply H in J. rewrite andb_true_iff, negb_true_iff, N.eqb_neq in J.
  split; [now apply iri_char_iff|tauto].
Qed.
Lemma ex_rest : forall s, forallb (fun c => t_char c || (c =? 58)) s = true -> local_rest s.
Proof. induction s as [|c s IH]; intro H; [constructor|]. cbn in H. apply andb_true_iff in H. destruct H as [A B]. constructor; auto. rewrite orb_true_iff, t_char_iff, N.eqb_eq in A. auto. Qed.
Lemma ex_pn_text : forall a s, t_base a = true -> forallb t_u (firstn 1 s) = true -> forallb (fun c => t_char c || (c =? 58)) s = true ->
  iri_text (TPn ([a] ++ 58 :: s)) ([a] ++ 58 :: s).
Proof.
  intros a s A B H. constructor.
  - right. exists a, []. split; auto. split; [now apply t_base_iff|]. split; [constructor|apply ends_in_nil].
  - destruct s as [|c s]; [constructor|]. cbn in B, H. rewrite andb_true_r in B. apply andb_true_iff in H. apply pl_char; [left; now apply t_u_iff|now apply ex_rest].
Qed.
Definition ex_sp : str := [32].
Lemma ex_gap : gap ex_sp.
Proof. constructor; [left; auto|constructor]. Qed.
Lemma ex_apart : forall t, apart true ex_sp t.
Proof. intro t. split; [exact ex_gap|]. left. discriminate. Qed.
Definition ex_text : str := s2l "@prefix e: <http://e/> .
# a comment
<s> a e:T ; e:p (1 [ ]) , [e:q _:b1] , ""x""@en ;; .
".
Definition ex_tree : list tstmt :=
  [ SPrefix (s2l "e") (s2l "http://e/");
    STriples (ex_ref "s")
      (PCons VA (ex_list [TIri (ex_pn "e:T")])
      (PCons (VIri (ex_pn "e:p"))
        (ex_list [TColl (ex_list [TLit (TNum NInteger (s2l "1")); TAnon]);
                  TProps (PCons (VIri (ex_pn "e:q")) (ex_list [TLabel (s2l "_:b1")]) PNil);
                  TLit (TStr (s2l "x") (SfLang (s2l "en")))]) PNil)) ].
Lemma ex_text_ok : doc_text true ex_tree ex_text.
Proof.
  assert (G := ex_gap). assert (A := ex_apart).
  assert (NL : gap [10]) by (constructor; [right; right; right; auto|constructor]).
  replace ex_text with ((s2l "@prefix" ++ ex_sp ++ s2l "e" ++ [58] ++ ex_sp ++ [60] ++ s2l "http://e/" ++ [62] ++ ex_sp ++ [46]) ++
    (10 :: 35 :: s2l " a comment" ++ 10 :: []) ++
    (([60] ++ s2l "s" ++ [62]) ++ ex_sp ++
       ([97] ++ ex_sp ++ s2l "e:T" ++ (ex_sp ++ [59] ++ ex_sp) ++
        ((s2l "e:p" ++ ex_sp ++
          (([40] ++ [] ++ (s2l "1" ++ ex_sp ++ ([91] ++ ex_sp ++ [93]) ++ []) ++ [41]) ++ ex_sp ++ [44] ++ ex_sp ++
           ([91] ++ [] ++ (s2l "e:q" ++ ex_sp ++ s2l "_:b1") ++ [] ++ [93]) ++ ex_sp ++ [44] ++ ex_sp ++
           (([34] ++ s2l "x" ++ [34]) ++ [] ++ [64] ++ s2l "en"))) ++ ex_sp ++ [59]) ++ [] ++ [59]) ++
       ex_sp ++ [46]) ++ [10]) by (vm_compute; reflexivity).
  apply (dx_first true _ false).
  { apply sx_prefix; auto; [|discriminate|apply ex_ref_text; reflexivity].
    right. exists 101, []. split; auto. split; [apply t_base_iff; reflexivity|]. split; [constructor|apply ends_in_nil]. }
  2: discriminate.
  apply dx_gap. { constructor; [right; right; right; auto|]. apply gap_comment; [|constructor]. intro H. cbn in H. lia. }
  apply (dx_first true _ false). 3: discriminate.
  2: { constructor. left. exact NL. }
  apply sx_triples; auto; [exact Logic.I|constructor; apply ex_ref_text; reflexivity| |left; discriminate].
  assert (E1 : forall s, forallb t_u (firstn 1 (s2l s)) = true -> forallb (fun c => t_char c || (c =? 58)) (s2l s) = true ->
    iri_text (ex_pn (String "e" (String ":" s))) (s2l (String "e" (String ":" s)))).
  { intros s H1 H2. apply (ex_pn_text 101); auto. }
  match goal with |- pol_text _ _ ?X => replace X with
    (([97] ++ ex_sp ++ s2l "e:T" ++ (ex_sp ++ [59] ++ ex_sp) ++
        (((s2l "e:p" ++ ex_sp ++
          (([40] ++ [] ++ (s2l "1" ++ ex_sp ++ ([91] ++ ex_sp ++ [93]) ++ []) ++ [41]) ++ ex_sp ++ [44] ++ ex_sp ++
           ([91] ++ [] ++ (s2l "e:q" ++ ex_sp ++ s2l "_:b1") ++ [] ++ [93]) ++ ex_sp ++ [44] ++ ex_sp ++
           (([34] ++ s2l "x" ++ [34]) ++ [] ++ [64] ++ s2l "en"))) ++ ex_sp ++ [59]) ++ [] ++ [59]))) by (vm_compute; reflexivity) end.
  apply pt_cons; auto.
  - constructor.
  - constructor. constructor. apply E1; reflexivity.
  - now constructor.
  - apply pt_semi; [|constructor]. apply pt_semi; auto. apply pt_one; auto.
    + constructor. apply E1; reflexivity.
    + apply os_cons; auto.
      * constructor; [constructor|]. apply its_cons; [|auto|apply its_last; [now repeat constructor|constructor]|discriminate].
        constructor. constructor. exists [], (s2l "1"). split; [reflexivity|]. split; [now left|]. split; [constructor; [apply t_digit_iff; reflexivity|constructor]|discriminate].
      * apply os_cons; auto.
        -- constructor; [constructor| |constructor]. apply pt_one; [constructor; apply E1; reflexivity|auto|]. constructor. constructor.
           exists 98, (s2l "1"). split; [reflexivity|]. split; [left; apply t_u_iff; reflexivity|]. split; [|intros [[|x [|y z]] H]; discriminate H].
           constructor; [left; apply t_char_iff; reflexivity|constructor].
        -- constructor. constructor. apply lt_lang; [|constructor|].
           ++ apply st_short; [now left|]. apply ex_units. constructor; [|constructor]. repeat split; discriminate.
           ++ exists (s2l "en"), []. split; [reflexivity|]. split; [apply ex_letters; reflexivity|]. split; [discriminate|constructor].
Qed.
Example C82_example : doc_text true ex_tree ex_text /\ turtle_text ex_text = Ok ex_tree /\
  turtle_text (s2l "<a> <b> .") = Err LarkError /\ turtle_text (s2l "<a> <b> <c>") = Err LarkError /\ turtle_text (s2l """s"" <b> <c> .") = Err LarkError /\
  turtle_text (s2l "[ <b> <c> ] .") = Ok [STriples (TProps (PCons (VIri (TRef (s2l "b"))) (ex_list [ex_ref "c"]) PNil)) PNil].
Proof. split; [exact ex_text_ok|]. vm_compute. repeat split. Qed.

(** ** C83: parse *)
(** a text of a document with a meaning adds exactly the triples of the document,
    with blank nodes not used before *)
Theorem C83_adds_the_triples_of_the_text : forall uj n base g d s L0 ts0 bs0, uj_clean uj -> ~ In 60 base ->
  doc_text true d s -> forallb stmt_flat d = true -> doc_means (resolves_by uj) L0 (env0 base) d ts0 bs0 ->
  exists n' g' L ts bs, turtle_parse uj n base g (SrcStr s) = Some (n', g', Ok tt) /\
    doc_means (resolves_by uj) L (env0 base) d ts bs /\ NoDup bs /\ (forall a, In a bs -> n <= a < n') /\
    (forall x, In x (doc_labels d) -> n <= L x < n' /\ ~ In (L x) bs) /\
    (forall x y, In x (doc_labels d) -> In y (doc_labels d) -> L x = L y -> x = y) /\
    (forall t, In t (g_iter g') <-> In t (g_iter g) \/ In t ts).
Proof.
  intros uj n base g d s L0 ts0 bs0 U B T F M. unfold turtle_parse. cbn [tsource_text bind]. rewrite (turtle_text_accepts d s T).
  eapply C79_adds_the_triples_of_the_document; eauto. eapply doc_means_tokens; eauto.
Qed.
(** conversely, a text that is parsed is the text of a document, and its triples are what is added *)
Theorem C83_added_triples_are_of_the_text : forall uj n base g s n' g', uj_clean uj -> ~ In 60 base -> ~ newline_escape s ->
  turtle_parse uj n base g (SrcStr s) = Some (n', g', Ok tt) ->
  exists d L ts bs, doc_text false d s /\ doc_means (resolves_by uj) L (env0 base) d ts bs /\ NoDup bs /\ (forall a, In a bs -> n <= a < n') /\
    (forall x, In x (doc_labels d) -> n <= L x < n' /\ ~ In (L x) bs) /\
    (forall x y, In x (doc_labels d) -> In y (doc_labels d) -> L x = L y -> x = y) /\
    (forall t, In t (g_iter g') <-> In t (g_iter g) \/ In t ts).
Proof.
  intros uj n base g s n' g' U B C E. unfold turtle_parse in E. cbn [tsource_text bind] in E. destruct (turtle_text s) as [d|e] eqn:T; [|discriminate].
  assert (D := turtle_text_sound d s T). assert (K := doc_tokens false d s D C). unfold turtle_add in E.
  destruct (turtle_run uj n base d) as [m [ts|e]] eqn:R; [|discriminate].
  destruct (forallb stmt_flat d) eqn:F.
  - destruct (turtle_sound uj n U base d m ts B K F R) as (L & l & ts' & bs & P & PM & DM & ND & X & Y & Z). rewrite P in E. injection E as <- <-.
    exists d, L, ts', bs. do 6 (split; [auto|]). intro t. unfold g_iter. rewrite g_addAll_In.
    assert (X1 := Permutation_in t PM). assert (X2 := Permutation_in t (Permutation_sym PM)). tauto.
  - apply (doc_plain uj n base d m ts R) in F. rewrite F in E. discriminate.
Qed.
(** an error of any kind leaves the graph as it was *)
Theorem C83_all_or_nothing : forall uj n base g x n' g' r, turtle_parse uj n base g x = Some (n', g', r) ->
  r = Ok tt /\ (forall t, In t (g_iter g) -> In t (g_iter g')) \/ (exists e, r = Err e) /\ g' = g.
Proof.
  intros uj n base g x n' g' r E. unfold turtle_parse in E. destruct (do s <- tsource_text x ; turtle_text s) as [d|e].
  - apply C79_all_or_nothing in E. destruct E as [E|[-> ->]]; [left; auto|right; eauto].
  - injection E as <- <- <-. right. eauto.
Qed.
Theorem C83_syntax_errors : forall uj n base g s, (forall d, ~ doc_text false d s) -> turtle_parse uj n base g (SrcStr s) = Some (n, g, Err LarkError).
Proof. intros uj n base g s N. unfold turtle_parse. cbn [tsource_text bind]. now rewrite C82_other_texts_are_rejected. Qed.
(** bytes are read as UTF-8 *)
Theorem C83_bytes : forall uj n base g s, py_str s -> Forall (fun c => ~ surrogate c) s ->
  turtle_parse uj n base g (SrcBytes (utf8_text s)) = turtle_parse uj n base g (SrcStr s).
Proof. intros uj n base g s P S. unfold turtle_parse. cbn [tsource_text]. now rewrite utf8_round_trip. Qed.
(** streams cannot be parsed, whatever they hold *)
Theorem C83_streams_refuted : exists x, (exists d, turtle_text x = Ok d) /\
  forall uj n base g, turtle_parse uj n base g (SrcStream x) = Some (n, g, Err TypeError).
Proof. exists []. split; [now exists []|]. reflexivity. Qed.
Theorem C83_streams_fail : forall uj n base g x, turtle_parse uj n base g (SrcStream x) = Some (n, g, Err TypeError).
Proof. reflexivity. Qed.
(** an example *)
Definition ex_flat : str := s2l "<http://s> a _:b , [ ] .".
Definition ex_flat_tree : list tstmt := [STriples (ex_ref "http://s") (PCons VA (ex_list [TLabel (s2l "_:b"); TAnon]) PNil)].
Lemma ex_flat_ok : doc_text true ex_flat_tree ex_flat.
Proof.
  assert (G := ex_gap). assert (A := ex_apart).
  replace ex_flat with ((([60] ++ s2l "http://s" ++ [62]) ++ ex_sp ++ ([97] ++ ex_sp ++ (s2l "_:b" ++ ex_sp ++ [44] ++ ex_sp ++ ([91] ++ ex_sp ++ [93]))) ++ ex_sp ++ [46]) ++ [])
    by (vm_compute; reflexivity).
  apply (dx_first true _ false); [|do 2 constructor; constructor|discriminate].
  apply sx_triples; auto; [exact Logic.I|constructor; apply ex_ref_text; reflexivity| |left; discriminate].
  apply pt_one; [constructor|auto|]. apply os_cons; auto.
  - constructor. exists 98, []. split; [reflexivity|]. split; [left; apply t_u_iff; reflexivity|]. split; [constructor|apply ends_in_nil].
  - apply os_one. apply ot_anon. constructor; [left; auto|constructor].
Qed.
Lemma ex_flat_clean : ~ newline_escape ex_flat.
Proof.
  intros (a & k & h & b & E & _). assert (K : In 92 ex_flat) by (rewrite E; apply in_or_app; right; left; auto).
  assert (F : existsb (N.eqb 92) ex_flat = false) by (vm_compute; reflexivity).
  assert (X : existsb (N.eqb 92) ex_flat = true) by (apply existsb_exists; exists 92; split; [exact K|apply N.eqb_refl]). congruence.
Qed.
Example C83_example :
  let g0 := g_addAll (graph_new None) [Tr (Iri (s2l "a")) (Iri (s2l "b")) (BNode 0)] in
  uj_clean ex_uj /\ doc_text true ex_flat_tree ex_flat /\ ~ newline_escape ex_flat /\ forallb stmt_flat ex_flat_tree = true /\
  (exists L ts bs, doc_means (resolves_by ex_uj) L (env0 (s2l "http://b/")) ex_flat_tree ts bs) /\
  (exists g', turtle_parse ex_uj 5 (s2l "http://b/") g0 (SrcStr ex_flat) = Some (7, g', Ok tt) /\ length (g_iter g') = 3%nat) /\
  turtle_parse ex_uj 5 (s2l "http://b/") g0 (SrcBytes (utf8_text ex_flat)) = turtle_parse ex_uj 5 (s2l "http://b/") g0 (SrcStr ex_flat) /\
  (** a good statement before a syntax error or an undefined prefix is not kept *)
  turtle_parse ex_uj 5 (s2l "http://b/") g0 (SrcStr (ex_flat ++ s2l "<x>")) = Some (5, g0, Err LarkError) /\
  (exists n', turtle_parse ex_uj 5 (s2l "http://b/") g0 (SrcStr (ex_flat ++ s2l "no:x a <y> .")) = Some (n', g0, Err VisitError)) /\
  turtle_parse ex_uj 5 (s2l "http://b/") g0 (SrcStream ex_flat) = Some (5, g0, Err TypeError).
Proof.
  cbv zeta. split; [exact ex_uj_clean|]. split; [exact ex_flat_ok|]. split; [exact ex_flat_clean|]. split; [reflexivity|]. split.
  { assert (K : Forall stmt_tokens ex_flat_tree) by (eapply doc_tokens; [exact ex_flat_ok|exact ex_flat_clean]).
    destruct (turtle_run ex_uj 5 (s2l "http://b/") ex_flat_tree) as [m r] eqn:R. destruct r as [ts|e]; [|vm_compute in R; discriminate].
    assert (NB : ~ In 60 (s2l "http://b/")) by (vm_compute; intuition discriminate).
    destruct (turtle_sound ex_uj 5 ex_uj_clean _ _ _ _ NB K eq_refl R) as (L & l & ts' & bs & _ & _ & DM & _). eauto. }
  split; [eexists; split; vm_compute; reflexivity|]. split; [vm_compute; reflexivity|]. split; [vm_compute; reflexivity|].
  split; [eexists; vm_compute; reflexivity|]. reflexivity.
Qed.

Print Assumptions C82_texts_are_parsed.
Print Assumptions C82_parsed_texts.
Print Assumptions C82_other_texts_are_rejected.
Print Assumptions C82_keywords_refuted.
Print Assumptions C83_adds_the_triples_of_the_text.
Print Assumptions C83_added_triples_are_of_the_text.
Print Assumptions C83_all_or_nothing.
Print Assumptions C83_bytes.
Print Assumptions C82_result_or_syntax_error.
Print Assumptions C82_one_document_per_text.
Print Assumptions C83_syntax_errors.
Print Assumptions C83_streams_refuted.
Print Assumptions C83_streams_fail.
