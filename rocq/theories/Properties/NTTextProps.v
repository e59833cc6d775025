(** Properties C95-C98: N-Triples from the text on, and N-Triples read as Turtle. *)
From Verif Require Import Model.Py Model.Terms Model.Graph Model.Codec Model.NTriples Model.UrlJoin Model.Curie Model.TurtleTree Model.Turtle Model.TurtleParse
  Spec.CodecSpec Spec.NTSpec Spec.GraphSpec Spec.TurtleSpec Spec.TurtleTextSpec Spec.TurtleOutSpec Spec.UriSpec Spec.NTTextSpec
  Proofs.CodecLemmas Proofs.NTRun Proofs.GraphInv Proofs.NTLex Proofs.NTGrammar Proofs.NTMeans Proofs.NTTurtle Proofs.NTBoth Proofs.NTCallbacks Proofs.NTFinal Proofs.TurtleScan Proofs.UriDocs
  Properties.NTProps Properties.TurtleProps Properties.TurtleTextProps Properties.UriProps.
Open Scope N_scope.

(** ** C95: N-Triples and N-Quads, from the text on *)
(** the texts that are parsed, and what they are parsed into, are given by a grammar *)
Theorem C95_accepted_texts : forall q l s, lark_parse q s = Ok l <-> nt_doc own q l s.
Proof. exact parse_iff. Qed.
Theorem C95_one_document_per_text : forall q l l' s, nt_doc own q l s -> nt_doc own q l' s -> l = l'.
Proof. exact doc_unique. Qed.
(** a text of a document with a meaning adds exactly the triples of the document, with blank
    nodes not used before, one for each label *)
Theorem C95_adds_the_triples_of_the_text : forall q n g l s L0 ts0, nt_doc own q l s -> Forall2 (line_means L0) l ts0 ->
  exists n' g' L ts, parse_string q n g s = (n', g', Ok tt) /\ Forall2 (line_means L) l ts /\ fresh_labels n n' l L /\
    (forall t, In t (g_iter g') <-> In t (g_iter g) \/ In t ts).
Proof.
  intros q n g l s L0 ts0 D M0. destruct (run_cases q n g s) as (n' & _ & [(l1 & L & ts & D1 & E & M & FL)|[(l1 & e & D1 & E & _ & NM)|(e & E & _ & ND)]]).
  - assert (l1 = l) by (eapply doc_unique; eauto). subst l1. exists n', (g_addAll g ts), L, ts. do 3 (split; [assumption|]). intro t. unfold g_iter. rewrite g_addAll_In. tauto.
  - exfalso. rewrite (doc_unique q l1 l s D1 D) in NM. eapply NM; eauto.
  - exfalso. now apply (ND l).
Qed.
(** conversely, whatever is parsed is the text of a document, and its triples are what is added *)
Theorem C95_added_triples_are_of_the_text : forall q n g s n' g', parse_string q n g s = (n', g', Ok tt) ->
  exists l L ts, nt_doc own q l s /\ Forall2 (line_means L) l ts /\ fresh_labels n n' l L /\ (forall t, In t (g_iter g') <-> In t (g_iter g) \/ In t ts).
Proof.
  intros q n g s n' g' E0. destruct (run_cases q n g s) as (m & _ & [(l1 & L & ts & D1 & E & M & FL)|[(l1 & e & D1 & E & _ & NM)|(e & E & _ & ND)]]); rewrite E in E0; try discriminate.
  injection E0 as <- <-. exists l1, L, ts. do 3 (split; [assumption|]). intro t. unfold g_iter. rewrite g_addAll_In. tauto.
Qed.
(** an error leaves the graph as it was.  For the text of a document it is raised for an escape that
    stands for no character; any other text is an error, and a syntax error unless it has such an escape *)
Theorem C95_errors : forall q n g s n' g' e, parse_string q n g s = (n', g', Err e) ->
  g' = g /\ (((e = ValueError \/ e = OverflowError) /\ exists l, nt_doc own q l s /\ forall L ts, ~ Forall2 (line_means L) l ts) \/
             (forall l, ~ nt_doc own q l s) /\ error_of s e).
Proof.
  intros q n g s n' g' e E0. destruct (run_cases q n g s) as (m & _ & [(l1 & L & ts & D1 & E & M & FL)|[(l1 & e1 & D1 & E & BE & NM)|(e1 & E & EO & ND)]]); rewrite E in E0; try discriminate;
    injection E0 as <- <- <-; (split; [reflexivity|]).
  - left. split; [exact BE|]. eauto.
  - right. auto.
Qed.
Theorem C95_other_texts_are_errors : forall q n g s, (forall l, ~ nt_doc own q l s) -> exists n' e, parse_string q n g s = (n', g, Err e) /\ error_of s e.
Proof.
  intros q n g s N. destruct (run_cases q n g s) as (m & _ & [(l1 & L & ts & D1 & _)|[(l1 & e1 & D1 & _)|(e1 & E & EO & ND)]]); [exfalso; eapply N; eauto..|eauto].
Qed.
(** documents of the W3C grammar whose labels and tags are also labels and tags here are parsed *)
Theorem C95_w3c_documents : forall q l s, nt_doc common q l s -> nt_doc w3c q l s /\ lark_parse q s = Ok l.
Proof. intros q l s D. split; [now apply common_w3c|]. apply parse_iff. now apply common_own. Qed.
Theorem C95_w3c_documents_without_labels_and_tags : forall q l s, nt_doc w3c q l s -> ~ In 95 s -> ~ In 64 s -> lark_parse q s = Ok l.
Proof. intros q l s D A B. apply parse_iff. apply common_own. now apply w3c_common. Qed.

(** examples *)
Lemma ex_iri_tok : forall s, forallb (fun c => iri_char c && negb (c =? 92)) (s2l s) = true -> tk_iri w3c (s2l s) (s2l s).
Proof.
  intros s H. split; [reflexivity|]. apply ex_units. rewrite forallb_forall in H. apply Forall_forall. intros c J. apply H in J.
  rewrite andb_true_iff, negb_true_iff, N.eqb_neq in J. split; [now apply legal_iri_char|tauto].
Qed.
Lemma ex_iri_in : forall k s, (forall i t, tk_iri w3c i t -> tk_iri k i t) -> forallb (fun c => iri_char c && negb (c =? 92)) (s2l s) = true -> iri_at k (RIri (s2l s)) (60 :: s2l s ++ [62]).
Proof. intros k s K H. constructor. apply K. now apply ex_iri_tok. Qed.
Lemma ex_sp1 : blanks [32].
Proof. constructor; [now left|constructor]. Qed.
Lemma ex_end : forall k q, lines_at k q [] [10].
Proof. intros k q. apply (ls_eol k q [] [10] []); [constructor| |constructor]. split; [discriminate|]. constructor; [now left|constructor]. Qed.
Definition ex_nt_text : str := s2l "_:b1 <http://p> ""x""@en .
 <http://s><http://p> ""1""^^<http://t>.
".
Definition ex_nt_doc : list rstmt :=
  [RSt (RBn (s2l "_:b1")) (RIri (s2l "http://p")) (RLit (s2l "x") (RLang (s2l "en"))) None;
   RSt (RIri (s2l "http://s")) (RIri (s2l "http://p")) (RLit (s2l "1") (RType (s2l "http://t"))) None].
Lemma ex_b1 : label (s2l "_:b1") /\ w3c_label (s2l "_:b1") /\ wide_label (s2l "_:b1").
Proof.
  assert (E : ~ ends_in 46 (s2l "1")) by (intros [[|x [|y z]] H]; discriminate H).
  split; [|split]; exists 98, (s2l "1"); (split; [reflexivity|]); (split; [|split; [|exact E]]).
  - left. apply t_u_iff. reflexivity.
  - constructor; [left; apply t_char_iff; reflexivity|constructor].
  - left. apply t_u_iff. reflexivity.
  - constructor; [left; apply t_char_iff; reflexivity|constructor].
  - left. split; vm_compute; discriminate.
  - constructor; [|constructor]. left. left. split; vm_compute; discriminate.
Qed.
Lemma ex_en : lang_tag (s2l "en") /\ langtag_ok (s2l "en").
Proof.
  split.
  - exists (s2l "en"), []. split; [reflexivity|]. split; [apply ex_letters; reflexivity|]. split; [discriminate|constructor].
  - exists (s2l "en"), []. split; [reflexivity|]. split; [|constructor]. split; [discriminate|]. repeat constructor.
Qed.
Lemma ex_body : forall s, forallb (fun c => negb (existsb (N.eqb c) [34; 10; 13; 92])) (s2l s) = true -> quoted_body (s2l s).
Proof.
  intros s H. apply ex_units. rewrite forallb_forall in H. apply Forall_forall. intros c J. apply H in J. rewrite negb_true_iff in J. cbn [existsb] in J.
  rewrite !orb_false_iff, !N.eqb_neq in J. tauto.
Qed.
Lemma ex_nt_in : forall k, (forall i t, tk_iri w3c i t -> tk_iri k i t) -> tk_label k (s2l "_:b1") -> tk_lang k (s2l "en") ->
  (forall x y, tk_space k x y -> label_term x \/ ~ iri_term y) -> nt_doc k false ex_nt_doc ex_nt_text.
Proof.
  intros k KI KL KT KS. assert (SP := ex_sp1).
  replace ex_nt_text with (([] ++ s2l "_:b1" ++ [32] ++ (60 :: s2l "http://p" ++ [62]) ++ [32] ++ (34 :: s2l "x" ++ [34] ++ [] ++ 64 :: s2l "en") ++ [32] ++ [46]) ++
    ([] ++ [10] ++ ([32] ++ (60 :: s2l "http://s" ++ [62]) ++ [] ++ (60 :: s2l "http://p" ++ [62]) ++ [32] ++
      (34 :: s2l "1" ++ [34] ++ [] ++ [94; 94] ++ [] ++ 60 :: s2l "http://t" ++ [62]) ++ [] ++ [46]) ++ [10])) by (vm_compute; reflexivity).
  apply nd_first.
  - apply la_triple; auto; [constructor|now apply sa_label|split; [exact SP|discriminate]|apply ex_iri_in; auto|split; [exact SP|discriminate]|].
    apply oa_lang; auto; [apply ex_body; reflexivity|constructor].
  - apply ls_cons; [constructor|split; [discriminate|]; constructor; [now left|constructor]| |apply ex_end].
    apply la_triple; auto; [apply sa_iri, ex_iri_in; auto| |apply ex_iri_in; auto|split; [exact SP|discriminate]| |constructor].
    + split; [constructor|]. intros X. apply KS in X. cbn in X. tauto.
    + apply oa_type; auto; [apply ex_body; reflexivity|constructor|constructor|]. apply KI, ex_iri_tok; reflexivity.
Qed.
Lemma ex_nt_turtle : nt_doc in_turtle false ex_nt_doc ex_nt_text.
Proof. destruct ex_b1 as (A & B & C). destruct ex_en as (D & E). apply ex_nt_in; cbn; auto. Qed.
Lemma ex_nt_common : nt_doc common false ex_nt_doc ex_nt_text.
Proof. destruct ex_b1 as (A & B & C). destruct ex_en as (D & E). apply ex_nt_in; cbn; auto. Qed.
Definition ex_nt_triples (b : N) : list stmt :=
  [Tr (BNode b) (Iri (s2l "http://p")) (Lit (s2l "x") (Some (s2l "en")) None); Tr (Iri (s2l "http://s")) (Iri (s2l "http://p")) (Lit (s2l "1") None (Some (s2l "http://t")))].
Lemma ex_plain : forall s, forallb (fun c => negb (c =? 92)) (s2l s) = true -> denotes (s2l s) (s2l s).
Proof. intros s H. apply TurtleEsc.plain_denotes. intro J. rewrite forallb_forall in H. apply H in J. discriminate J. Qed.
Lemma ex_nt_means : forall b, Forall2 (line_means (fun _ => b)) ex_nt_doc (ex_nt_triples b).
Proof.
  intro b. constructor; [|constructor; [|constructor]]; constructor.
  - exact (nm_label (fun _ => b) _).
  - constructor. now apply ex_plain.
  - constructor. now apply ex_plain.
  - constructor. now apply ex_plain.
  - constructor. now apply ex_plain.
  - constructor; now apply ex_plain.
Qed.
Example C95_example :
  let g0 := g_addAll (graph_new None) [Tr (Iri (s2l "a")) (Iri (s2l "b")) (BNode 0)] in
  nt_doc own false ex_nt_doc ex_nt_text /\ nt_doc common false ex_nt_doc ex_nt_text /\ Forall2 (line_means (fun _ => 0)) ex_nt_doc (ex_nt_triples 0) /\
  (exists g', parse_string false 5 g0 ex_nt_text = (6, g', Ok tt) /\ g_iter g' = g_iter g0 ++ ex_nt_triples 5) /\
  (** errors: not a document; an escape that stands for no character *)
  parse_string false 5 g0 (ex_nt_text ++ s2l "<x>") = (5, g0, Err LarkError) /\
  (let bad := s2l "<http://s> <http://p> ""\U00110000"" ." in
   parse_string false 5 g0 (ex_nt_text ++ bad) = (6, g0, Err ValueError) /\ exists l, nt_doc own false l (ex_nt_text ++ bad)) /\
  (** N-Quads *)
  (let quad := s2l "<http://s> <http://p> _:a <http://g> ." in
   nt_doc own true [RSt (RIri (s2l "http://s")) (RIri (s2l "http://p")) (RBn (s2l "_:a")) (Some (RIri (s2l "http://g")))] quad /\
   exists g', parse_string true 5 (graph_new None) quad = (6, g', Ok tt) /\ g_iter g' = [Qd (Iri (s2l "http://s")) (Iri (s2l "http://p")) (BNode 5) (Some (Iri (s2l "http://g")))]) /\
  (let w := s2l "<http://s><http://p>""x"".
" in nt_doc w3c false [RSt (RIri (s2l "http://s")) (RIri (s2l "http://p")) (RLit (s2l "x") RPlain) None] w /\ ~ In 95 w /\ ~ In 64 w).
Proof.
  cbv zeta. split; [apply turtle_own; exact ex_nt_turtle|]. split; [exact ex_nt_common|]. split; [apply ex_nt_means|]. split; [eexists; split; vm_compute; reflexivity|].
  split; [vm_compute; reflexivity|]. split; [split; [vm_compute; reflexivity|]; eexists; apply parse_iff; vm_compute; reflexivity|].
  split; [split; [apply parse_iff; vm_compute; reflexivity|]; eexists; split; vm_compute; reflexivity|].
  split; [|split; vm_compute; intuition discriminate].
  match goal with |- nt_doc _ _ _ ?x => replace x with (([] ++ (60 :: s2l "http://s" ++ [62]) ++ [] ++ (60 :: s2l "http://p" ++ [62]) ++ [] ++ (34 :: s2l "x" ++ [34]) ++ [] ++ [46]) ++ [10]) by (vm_compute; reflexivity) end.
  apply nd_first; [|apply ex_end]. apply la_triple; auto; try (now constructor); try (now apply ex_iri_in); try (split; [constructor|intros []]).
  - apply sa_iri. now apply ex_iri_in.
  - apply oa_plain. now apply ex_body.
Qed.
(** documents of the W3C grammar that are rejected: no white space after a label; subtags
    with digits other than 0 and 9; labels with characters outside the BMP *)
Definition ex_line (s : rterm) (o : rterm) : list rstmt := [RSt s (RIri (s2l "p")) o None].
Lemma ex_w3c_line : forall s a w o c, subject_at w3c s a -> blanks w -> object_at w3c o c ->
  nt_doc w3c false (ex_line s o) (a ++ w ++ s2l "<p> " ++ c ++ s2l " .").
Proof.
  intros s a w o c S W O. replace (a ++ w ++ s2l "<p> " ++ c ++ s2l " .") with (([] ++ a ++ w ++ (60 :: s2l "p" ++ [62]) ++ [32] ++ c ++ [32] ++ [46]) ++ []).
  2:{ rewrite app_nil_r. reflexivity. }
  apply nd_first; [|apply ls_end; constructor]. assert (SP := ex_sp1). apply la_triple; auto; try (now constructor); try (split; [assumption|intros []]). now apply ex_iri_in.
Qed.
Lemma ex_w3c_iri : subject_at w3c (RIri (s2l "s")) (s2l "<s>").
Proof. apply sa_iri. now apply (ex_iri_in w3c "s"). Qed.
Theorem C95_w3c_white_space_refuted : exists l s, nt_doc w3c false l s /\ lark_parse false s = Err LarkError.
Proof.
  exists (ex_line (RBn (s2l "_:b1")) (RIri (s2l "s"))), (s2l "_:b1<p> <s> ."). split; [|vm_compute; reflexivity].
  apply (ex_w3c_line (RBn (s2l "_:b1")) (s2l "_:b1") [] (RIri (s2l "s")) (s2l "<s>")); [apply sa_label, ex_b1|constructor|apply oa_node, ex_w3c_iri].
Qed.
Theorem C95_w3c_tags_refuted : exists l s, nt_doc w3c false l s /\ lark_parse false s = Err LarkError.
Proof.
  exists (ex_line (RIri (s2l "s")) (RLit (s2l "x") (RLang (s2l "de-1996")))), (s2l "<s> <p> ""x""@de-1996 ."). split; [|vm_compute; reflexivity].
  apply (ex_w3c_line (RIri (s2l "s")) (s2l "<s>") [32] (RLit (s2l "x") (RLang (s2l "de-1996"))) (34 :: s2l "x" ++ [34] ++ [] ++ 64 :: s2l "de-1996")); [apply ex_w3c_iri|apply ex_sp1|].
  apply oa_lang; [apply ex_body; reflexivity|constructor|]. exists (s2l "de"), (s2l "-1996"). split; [reflexivity|]. split; [apply ex_letters; reflexivity|]. split; [discriminate|].
  apply (sub_cons (s2l "1996") []); [|discriminate|constructor]. repeat (constructor; [right; split; vm_compute; discriminate|]). constructor.
Qed.
Theorem C95_w3c_labels_refuted : exists l s, nt_doc w3c false l s /\ lark_parse false s = Err LarkError.
Proof.
  exists (ex_line (RBn [95; 58; 0x10000]) (RIri (s2l "s"))), ([95; 58; 0x10000] ++ s2l " <p> <s> ."). split; [|vm_compute; reflexivity].
  apply (ex_w3c_line (RBn [95; 58; 0x10000]) [95; 58; 0x10000] [32] (RIri (s2l "s")) (s2l "<s>")); [|apply ex_sp1|apply oa_node, ex_w3c_iri].
  apply sa_label. exists 0x10000, []. split; [reflexivity|]. split; [left; apply t_u_iff; reflexivity|]. split; [apply Forall_nil|]. intros [[|? ?] H]; discriminate H.
Qed.
(** and a text that is not a document of that grammar but is parsed: blanks in an IRI *)
Theorem C95_w3c_iris_refuted : exists l s, lark_parse false s = Ok l /\ forall l', ~ nt_doc w3c false l' s.
Proof.
  exists (ex_line (RIri (s2l "ab")) (RIri (s2l "c"))), (s2l "<a b> <p> <c> ."). split; [vm_compute; reflexivity|]. intros l' D.
  apply w3c_common in D; [|vm_compute; intuition discriminate|vm_compute; intuition discriminate].
  assert (E : lark_parse false (s2l "<a b> <p> <c> .") = Ok l') by (apply parse_iff; now apply common_own).
  vm_compute in E. injection E as <-. destruct (sub_doc _ _ _ D _ (or_introl eq_refl) _ eq_refl) as (a & b & X).
  cbn in X. do 16 (destruct a as [|? a]; [discriminate X|]; cbn in X; try (injection X as _ X)). discriminate X.
Qed.

(** ** C96: N-Triples documents are Turtle documents, with the same triples *)
(** the text of a document, as a text of the same document in Turtle *)
Theorem C96_turtle_texts : forall l s, nt_doc in_turtle false l s -> lark_parse false s = Ok l /\ doc_text true (map turtle_line l) s /\ turtle_text s = Ok (map turtle_line l).
Proof.
  intros l s D. split; [apply parse_iff; now apply turtle_own|]. split; [now apply t_doc|]. apply C82_texts_are_parsed. now apply t_doc.
Qed.
(** both parsers add the same triples, up to the choice of blank nodes, and but for plain
    literals, which Turtle makes xsd:strings; the IRIs must be such that the base has no effect *)
Theorem C96_same_triples : forall uj n m base g h l s L0 ts0, uj_clean uj -> ~ In 60 base -> nt_doc in_turtle false l s -> Forall2 (line_means L0) l ts0 ->
  (forall t i, In t ts0 -> In i (stmt_iris t) -> legal_text i /\ resolves_by uj base i i) ->
  exists n' g' ts m' h' f, parse_string false n g s = (n', g', Ok tt) /\ turtle_parse uj m base h (SrcStr s) = Some (m', h', Ok tt) /\
    fresh_for n n' (fun a => a) (concat (map bnodes_of ts)) /\ injective_on f (concat (map bnodes_of ts)) /\ fresh_for m m' f (concat (map bnodes_of ts)) /\
    (forall t, In t (g_iter g') <-> In t (g_iter g) \/ In t ts) /\
    forall t, In t (g_iter h') <-> In t (g_iter h) \/ exists u, In u ts /\ t = on_terms (fun x => rename f (plain_as_string x)) u.
Proof. exact both_parsers. Qed.
(** with urllib's urljoin, for IRIs that are their own targets (with an empty base all are) *)
Theorem C96_same_triples_urljoin : forall bo nk n m base g h l s L0 ts0, ~ In 60 base -> nt_doc in_turtle false l s -> Forall2 (line_means L0) l ts0 ->
  (forall t i, In t ts0 -> In i (stmt_iris t) -> legal_text i /\ rfc_resolves base i i) ->
  exists n' g' ts m' h' f, parse_string false n g s = (n', g', Ok tt) /\ turtle_parse (urljoin bo nk) m base h (SrcStr s) = Some (m', h', Ok tt) /\
    fresh_for n n' (fun a => a) (concat (map bnodes_of ts)) /\ injective_on f (concat (map bnodes_of ts)) /\ fresh_for m m' f (concat (map bnodes_of ts)) /\
    (forall t, In t (g_iter g') <-> In t (g_iter g) \/ In t ts) /\
    forall t, In t (g_iter h') <-> In t (g_iter h) \/ exists u, In u ts /\ t = on_terms (fun x => rename f (plain_as_string x)) u.
Proof.
  intros bo nk n m base g h l s L0 ts0 B D M K. apply (both_parsers (urljoin bo nk) n m base g h l s L0 ts0); auto; [apply C88_joins_are_clean|].
  intros t i J I. destruct (K t i J I) as [A R]. split; auto. now apply rfc_incl.
Qed.
Lemma ex_legal : forall s, forallb iri_char (s2l s) = true -> legal_text (s2l s).
Proof. intros s H. rewrite forallb_forall in H. apply Forall_forall. intros c J. apply H in J. now apply legal_iri_char. Qed.
Example C96_example :
  nt_doc in_turtle false ex_nt_doc ex_nt_text /\ Forall2 (line_means (fun _ => 0)) ex_nt_doc (ex_nt_triples 0) /\
  (forall t i, In t (ex_nt_triples 0) -> In i (stmt_iris t) -> legal_text i /\ rfc_resolves [] i i) /\
  (let s := ex_nt_text ++ s2l "<http://s> <http://p> ""v"" ." in
   exists g' h', parse_string_new false 5 s = (6, g', Ok tt) /\ turtle_parse (urljoin (fun _ => true) (fun _ => true)) 9 [] (graph_new None) (SrcStr s) = Some (10, h', Ok tt) /\
     g_iter g' = ex_nt_triples 5 ++ [Tr (Iri (s2l "http://s")) (Iri (s2l "http://p")) (Lit (s2l "v") None None)] /\
     g_iter h' = ex_nt_triples 9 ++ [Tr (Iri (s2l "http://s")) (Iri (s2l "http://p")) (Lit (s2l "v") None (Some (xsd_iri "string")))]).
Proof.
  cbv zeta. split; [exact ex_nt_turtle|]. split; [apply ex_nt_means|]. split.
  - intros t i J I. split; [|left; auto]. cbn [ex_nt_triples In] in J. destruct J as [<-|[<-|[]]]; cbn [stmt_iris term_iris st_s st_p st_o Tr app In] in I;
      repeat (destruct I as [<-|I]; [apply ex_legal; reflexivity|]); destruct I.
  - eexists. eexists. split; [vm_compute; reflexivity|]. split; [vm_compute; reflexivity|]. split; vm_compute; reflexivity.
Qed.
(** the results are not the same if there are plain literals *)
Theorem C96_plain_literals_refuted : exists s g h, parse_string_new false 0 s = (0, g, Ok tt) /\
  (forall bo nk, turtle_parse (urljoin bo nk) 0 [] (graph_new None) (SrcStr s) = Some (0, h, Ok tt)) /\ exists t, In t (g_iter g) /\ ~ In t (g_iter h).
Proof.
  exists (s2l "<s> <p> ""x"" ."). eexists. eexists. split; [vm_compute; reflexivity|]. split; [intros; vm_compute; reflexivity|].
  eexists. split; [now left|]. vm_compute. intuition discriminate.
Qed.
(** N-Triples, W3C's and this library's, has labels with colons, which are not Turtle's *)
Theorem C96_labels_refuted : exists l s, nt_doc w3c false l s /\ lark_parse false s = Ok l /\ turtle_text s = Err LarkError.
Proof.
  exists (ex_line (RBn (s2l "_:a:b")) (RIri (s2l "s"))), (s2l "_:a:b <p> <s> ."). split; [|split; vm_compute; reflexivity].
  apply (ex_w3c_line (RBn (s2l "_:a:b")) (s2l "_:a:b") [32] (RIri (s2l "s")) (s2l "<s>")); [|apply ex_sp1|apply oa_node, ex_w3c_iri].
  apply sa_label. exists 97, (s2l ":b"). split; [reflexivity|]. split; [left; apply t_u_iff; reflexivity|]. split.
  - constructor; [right; now left|]. constructor; [left; apply t_char_iff; reflexivity|constructor].
  - intros [[|x [|y [|z ?]]] H]; discriminate H.
Qed.

(** ** C97: what serialize_ntriples writes can be read as Turtle *)
Theorem C97_ntriples_output_as_turtle : forall uj m base h ts, uj_clean uj -> ~ In 60 base -> Forall nt_triple ts -> Forall turtle_tags ts ->
  (forall t i, In t ts -> In i (stmt_iris (on_terms nt_image t)) -> resolves_by uj base i i) ->
  exists s m' h' f, serialize_ntriples ts = (s, Ok tt) /\ turtle_parse uj m base h (SrcStr s) = Some (m', h', Ok tt) /\
    injective_on f (concat (map bnodes_of ts)) /\ fresh_for m m' f (concat (map bnodes_of ts)) /\
    forall t, In t (g_iter h') <-> In t (g_iter h) \/ exists u, In u ts /\ t = on_terms plain_as_string (back f u).
Proof. exact output_as_turtle. Qed.
(** with urllib's urljoin and no base, nothing is asked of the IRIs *)
Theorem C97_ntriples_output_as_turtle_no_base : forall bo nk m h ts, Forall nt_triple ts -> Forall turtle_tags ts ->
  exists s m' h' f, serialize_ntriples ts = (s, Ok tt) /\ turtle_parse (urljoin bo nk) m [] h (SrcStr s) = Some (m', h', Ok tt) /\
    injective_on f (concat (map bnodes_of ts)) /\ fresh_for m m' f (concat (map bnodes_of ts)) /\
    forall t, In t (g_iter h') <-> In t (g_iter h) \/ exists u, In u ts /\ t = on_terms plain_as_string (back f u).
Proof.
  intros bo nk m h ts F T. apply output_as_turtle; auto; [apply C88_joins_are_clean|]. intros t i _ _. apply rfc_incl. left. auto.
Qed.
(** triples that N-Triples keeps come back as they were *)
Theorem C97_stable_triples : forall bo nk m ts, Forall nt_triple ts -> Forall turtle_tags ts -> Forall stable ts ->
  exists s m' h' f, serialize_ntriples ts = (s, Ok tt) /\ turtle_parse (urljoin bo nk) m [] (graph_new None) (SrcStr s) = Some (m', h', Ok tt) /\
    injective_on f (concat (map bnodes_of ts)) /\ fresh_for m m' f (concat (map bnodes_of ts)) /\
    forall t, In t (g_iter h') <-> exists u, In u ts /\ t = on_terms (fun x => rename f (plain_as_string x)) u.
Proof.
  intros bo nk m ts F T S. destruct (C97_ntriples_output_as_turtle_no_base bo nk m (graph_new None) ts F T) as (s & m' & h' & f & A & B & C & D & E).
  exists s, m', h', f. do 4 (split; [assumption|]). intro t. rewrite E. rewrite Forall_forall in F, S.
  assert (Q : forall u, In u ts -> on_terms plain_as_string (back f u) = on_terms (fun x => rename f (plain_as_string x)) u).
  { intros u J. rewrite (stable_back f u (S u J)); [|apply F; auto]. rewrite on_terms_comp. apply on_terms_ext. apply plain_rename. }
  split.
  - intros [[]|(u & J & ->)]. exists u. split; auto.
  - intros (u & J & ->). right. exists u. split; auto. symmetry. auto.
Qed.
Lemma ex_turtle_tags : Forall turtle_tags ex_triples.
Proof.
  repeat constructor. exists (s2l "en"), (s2l "-GB"). split; [reflexivity|]. split; [apply ex_letters; reflexivity|]. split; [discriminate|].
  apply (sub_cons (s2l "GB") []); [|discriminate|constructor]. repeat (constructor; [left; left; split; vm_compute; discriminate|]). constructor.
Qed.
Example C97_example : Forall nt_triple ex_triples /\ Forall turtle_tags ex_triples /\ Forall stable ex_triples /\
  exists h', turtle_parse (urljoin (fun _ => true) (fun _ => true)) 100 [] (graph_new None) (SrcStr (fst (serialize_ntriples ex_triples))) = Some (102, h', Ok tt) /\
    g_iter h' = [Tr ex_s ex_p (Lit [34; 10; 233] (Some (s2l "en-GB")) None); Tr (BNode 100) ex_p (BNode 101); Tr (BNode 101) ex_p (Lit (s2l "1") None (Some (s2l "http://ex/int")))].
Proof. split; [exact ex_nt|]. split; [exact ex_turtle_tags|]. split; [exact ex_stable|]. eexists. split; vm_compute; reflexivity. Qed.
(** tags with an underscore are written, and read back as N-Triples, but not as Turtle *)
Theorem C97_tags_refuted : exists ts s, Forall nt_triple ts /\ serialize_ntriples ts = (s, Ok tt) /\ (exists g, parse_string_new false 0 s = (0, g, Ok tt)) /\
  forall uj m base h, turtle_parse uj m base h (SrcStr s) = Some (m, h, Err LarkError).
Proof.
  exists [Tr (Iri (s2l "s")) (Iri (s2l "p")) (Lit (s2l "x") (Some (s2l "en-_")) None)]. eexists. split; [|split; [vm_compute; reflexivity|split; [eexists; vm_compute; reflexivity|]]].
  - constructor; [|constructor]. split; [apply ex_clean; reflexivity|]. split; [apply ex_clean; reflexivity|]. split; [|reflexivity]. split; [apply ex_py; reflexivity|].
    split; [|discriminate]. intros x [= <-] _. exists (s2l "en"), [s2l "_"]. split; [reflexivity|]. split; [split; [discriminate|repeat constructor]|].
    constructor; [|constructor]. split; [discriminate|]. constructor; [|constructor]. right. right. right. reflexivity.
  - intros. unfold turtle_parse. cbn [tsource_text bind]. match goal with |- context [turtle_text ?x] => assert (E : turtle_text x = Err LarkError) by (vm_compute; reflexivity) end. now rewrite E.
Qed.

(** C98 *)
(** the first line with an error decides which exception is raised, whatever follows it *)
Theorem C98_first_line_with_an_error : forall q n g ss s r e m h n1 g1, Forall proper_line ss -> proper_line s ->
  parse_string q n g (text ss) = (m, h, Ok tt) -> snd (parse_string q n1 g1 (lf s)) = Err e -> snd (parse_string q n g (text ss ++ lf s ++ r)) = Err e.
Proof. exact decisive_line. Qed.
Theorem C98_what_follows_an_error : forall q n g ss r e, Forall proper_line ss ->
  snd (parse_string q n g (text ss)) = Err e -> snd (parse_string q n g (text ss ++ r)) = Err e.
Proof. exact first_error. Qed.
Theorem C98_only_these_exceptions : forall q n g s m g' e, parse_string q n g s = (m, g', Err e) -> error_of s e.
Proof.
  intros q n g s m g' e H. rewrite (string_error _ _ _ _ _ _ _ H). apply callbacks_raise.
Qed.
(** a syntax error and an escape that stands for no character: which of the two is reported *)
Example C98_example :
  let run (s : str) := snd (parse_string_new false 0 s) in
  run (s2l "<s> <p> ""\U00110000"" . oops") = Err ValueError /\ run (s2l "<s> <p> ""\U80000000"" . oops") = Err OverflowError /\
  run (s2l "<s> <p> ""\U00110000"" oops") = Err LarkError /\ run (s2l "<s> <\U00110000> oops") = Err LarkError /\ run (s2l "<s> <\U00110000> . oops") = Err ValueError /\
  run (s2l "<\U00110000> ""x"" .") = Err ValueError /\ run (s2l "<s> <p> ""\U00110000""^^<\U80000000> ""x"" ") = Err OverflowError /\
  big_escape (s2l "<\U00110000> ""x"" ." ) /\ forall l, ~ nt_doc own false l (s2l "<\U00110000> ""x"" .").
Proof.
  cbv zeta. do 7 (split; [vm_compute; reflexivity|]). split.
  - exists (s2l "<"), (s2l "00110000"), (s2l "> ""x"" ."), 0x110000. split; [reflexivity|]. split; [reflexivity|]. split; [|reflexivity]. apply (int16_hexnum (s2l "00110000")). repeat constructor.
  - intros l D. apply parse_iff in D. vm_compute in D. discriminate D.
Qed.
Example C98_lines : let good := s2l "<s> <p> <o> ." in let bad := s2l "<s> <p> ""\U00110000"" ." in
  Forall proper_line [good] /\ proper_line bad /\ snd (parse_string_new false 3 (text [good])) = Ok tt /\ snd (parse_string_new false 3 (lf bad)) = Err ValueError /\
  snd (parse_string_new false 3 (text [good] ++ lf bad ++ s2l "oops")) = Err ValueError.
Proof.
  cbv zeta. split; [constructor; [|constructor]|split; [|split; [|split]; vm_compute; reflexivity]]; (split; [apply Forall_forall; intros c J; vm_compute in J; repeat (destruct J as [<-|J]; [split; discriminate|]); destruct J|]);
    intro A; unfold all_blank in A; rewrite Forall_forall in A; destruct (A 60) as [X|X]; try discriminate X; now left.
Qed.

Print Assumptions C95_accepted_texts.
Print Assumptions C95_one_document_per_text.
Print Assumptions C95_adds_the_triples_of_the_text.
Print Assumptions C95_added_triples_are_of_the_text.
Print Assumptions C95_errors.
Print Assumptions C95_w3c_documents.
Print Assumptions C95_w3c_documents_without_labels_and_tags.
Print Assumptions C95_w3c_white_space_refuted.
Print Assumptions C95_w3c_tags_refuted.
Print Assumptions C95_w3c_labels_refuted.
Print Assumptions C95_w3c_iris_refuted.
Print Assumptions C96_turtle_texts.
Print Assumptions C96_same_triples.
Print Assumptions C96_same_triples_urljoin.
Print Assumptions C96_plain_literals_refuted.
Print Assumptions C96_labels_refuted.
Print Assumptions C97_ntriples_output_as_turtle.
Print Assumptions C97_ntriples_output_as_turtle_no_base.
Print Assumptions C97_stable_triples.
Print Assumptions C97_tags_refuted.
Print Assumptions C95_other_texts_are_errors.
Print Assumptions C98_first_line_with_an_error.
Print Assumptions C98_what_follows_an_error.
Print Assumptions C98_only_these_exceptions.
