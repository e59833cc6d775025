(** Properties C69 and C81: the RDF/XML parser. *)
From Verif Require Import Model.Py Model.Terms Model.Graph Model.GraphRun Model.Codec Model.NTriples Model.RdfXml Spec.GraphSpec Spec.CurieSpec Spec.RdfXmlSpec
  Proofs.RdfXmlLemmas.
Open Scope N_scope.

Definition ex (s : string) : str := s2l "http://ex/" ++ s2l s.
Definition exn (s : string) : str := s2l "{http://ex/}" ++ s2l s.
(** <rdf:RDF><rdf:Description rdf:about="http://ex/s"><ex:p rdf:resource="http://ex/o"/></rdf:Description></rdf:RDF> *)
Definition ex_prop : elem := mkElem (Some (exn "p")) None [(rdf "resource", ex "o")] [].
Definition ex_desc : elem := mkElem (Some (rdf "Description")) None [(rdf "about", ex "s")] [ex_prop].
Definition ex_doc : elem := mkElem (Some (rdf "RDF")) None [] [ex_desc].
Definition no_uj (a b : str) : res str := Ok b.

(** ** C69: no document is accepted and nothing reaches the sink *)
Theorem C69_parse_raises : forall uj n g root, exists b e, parse_rdfxml uj n g root = (b, g, Err e) /\
  (forall r, root = Ok r -> e = ValueError) /\ (forall x, root = Err x -> e = x).
Proof. intros uj n g [r|x]; eexists; eexists; (split; [reflexivity|]); split; intros y H; congruence. Qed.
Example C69_case : snd (parse_rdfxml no_uj 0 (graph_new None) (Ok ex_doc)) = Err ValueError.
Proof. reflexivity. Qed.

(** ** C81: what lies behind the check of the root element *)
(** an element name in a namespace is only accepted if it is rdf:Description (a resource) or rdf:li (a property) *)
Theorem C81_names_in_namespaces : forall uj b g e b' g' s, handle_resource uj b g e = (b', g', Ok s) ->
  (forall t, el_tag e = Some t -> namespaced t -> t = rdf "Description") /\
  (forall c t, In c (el_children e) -> el_tag c = Some t -> namespaced t -> t = rdf "li").
Proof.
  intros uj b g e b' g' s H. unfold handle_resource in H. destruct (determine_subject uj b e) as [b1 [subject|err]]; [|discriminate H].
  change (clark "Description") with (rdf "Description") in H.
  destruct (if tag_eq e (rdf "Description") then _ else _) as [g1|] eqn:G; [|discriminate H].
  destruct (properties uj g1 subject None (el_children e)) as [g2 [[]|]] eqn:P; [|discriminate H]. split.
  - intros t T N. destruct (tag_eq e (rdf "Description")) eqn:D; [apply tag_eq_true in D; congruence|]. unfold resolve_tag in G. rewrite T in G.
    destruct N as (ns & l & ->). discriminate G.
  - exact (properties_ok _ _ _ _ _ _ P).
Qed.
(** so a document with an ordinary property would raise even without the check *)
Theorem C81_documents_raise : forall uj l b g e c t, In e l -> In c (el_children e) -> el_tag c = Some t -> namespaced t -> t <> rdf "li" ->
  exists b' g' err, handle_all uj b g l = (b', g', Err err).
Proof.
  induction l as [|e' l IH]; intros b g e c t J C T N NL; [destruct J|]. cbn [handle_all].
  destruct (handle_resource uj b g e') as [[b1 g1] [s|err]] eqn:H; [|eauto]. destruct J as [->|J]; [|eauto].
  destruct (C81_names_in_namespaces _ _ _ _ _ _ _ H) as [_ X]. now destruct (NL (X c t C T N)).
Qed.
(** rdf:about without rdf:resource: KeyError *)
Theorem C81_about_raises : forall uj b g e u, attr e (rdf "about") = Some u -> attr e (rdf "nodeID") = None -> attr e (rdf "ID") = None -> attr e (rdf "resource") = None ->
  handle_resource uj b g e = (b, g, Err KeyError).
Proof.
  intros uj b g e u A I D R. unfold handle_resource, determine_subject. change (clark "nodeID") with (rdf "nodeID"). change (clark "ID") with (rdf "ID").
  change (clark "about") with (rdf "about"). change (clark "resource") with (rdf "resource"). now rewrite I, D, A, R.
Qed.
(** property elements without rdf:resource - literals, nested resources - leave no trace *)
Theorem C81_other_properties_are_dropped : forall uj b g e b' g' s, (forall c, In c (el_children e) -> attr c (rdf "resource") = None) ->
  handle_resource uj b g e = (b', g', Ok s) -> el_tag e = Some (rdf "Description") -> g' = g.
Proof.
  intros uj b g e b' g' s NR H T. unfold handle_resource in H. destruct (determine_subject uj b e) as [b1 [subject|err]]; [|discriminate H].
  assert (D : tag_eq e (clark "Description") = true) by (unfold tag_eq; rewrite T; reflexivity). rewrite D in H.
  assert (K : forall l p, (forall c, In c l -> attr c (rdf "resource") = None) -> fst (properties uj g subject p l) = g).
  { induction l as [|c l IH]; intros p N; [reflexivity|]. cbn [properties]. change (clark "resource") with (rdf "resource"). rewrite (N c (or_introl eq_refl)).
    destruct (if tag_eq c (clark "li") then Ok p else _); [apply IH; intros x J; apply N; now right|reflexivity]. }
  specialize (K (el_children e) None NR). destruct (properties uj g subject None (el_children e)) as [g2 [x|x]]; [|discriminate H]. cbn [fst] in K. congruence.
Qed.
(** rdf:li has no predicate of its own: the first one raises, a later one takes the predicate before it *)
Theorem C81_first_li_raises : forall uj g s c r u y, el_tag c = Some (rdf "li") -> attr c (rdf "resource") = Some u -> ref_of uj c u y ->
  properties uj g s None (c :: r) = (g, Err UnboundLocalError).
Proof.
  intros uj g s c r u y T A R. cbn [properties]. assert (D : tag_eq c (clark "li") = true) by (unfold tag_eq; rewrite T; reflexivity). rewrite D.
  change (clark "resource") with (rdf "resource"). apply ref_ok in R. now rewrite A, R.
Qed.
Theorem C81_later_li : forall uj g s c r u p y, el_tag c = Some (rdf "li") -> attr c (rdf "resource") = Some u -> ref_of uj c u y ->
  properties uj g s (Some p) (c :: r) = properties uj (g_add g (Tr s (Iri p) (Iri y))) s (Some p) r.
Proof.
  intros uj g s c r u p y T A R. cbn [properties]. assert (D : tag_eq c (clark "li") = true) by (unfold tag_eq; rewrite T; reflexivity). rewrite D.
  change (clark "resource") with (rdf "resource"). apply ref_ok in R. now rewrite A, R.
Qed.
(** all that is read from a resource element, exactly *)
Theorem C81_exactly : forall uj n m g e n' m' g' s, handle_resource uj (mkB n m) g e = (mkB n' m', g', Ok s) <->
  subject_of uj n m e n' m' s /\ exists t ts, type_of uj s e t /\ props_of uj s None (el_children e) ts /\ g' = g_addAll g (t ++ ts).
Proof. exact handle_exactly. Qed.
(** references are resolved unless they have a scheme: false, a letter at the start is enough *)
(** the exception, and the triples that stay in the graph *)
Theorem C81_foreign_resource : forall uj n m g e n' m' s t, subject_of uj n m e n' m' s -> el_tag e = Some t -> namespaced t -> t <> rdf "Description" ->
  handle_resource uj (mkB n m) g e = (mkB n' m', g, Err AttributeError).
Proof. exact foreign_resource. Qed.
Theorem C81_foreign_property : forall uj n m g e n' m' s ty pre c t r ts, subject_of uj n m e n' m' s -> type_of uj s e ty -> el_children e = pre ++ c :: r ->
  props_of uj s None pre ts -> el_tag c = Some t -> namespaced t -> t <> rdf "li" ->
  handle_resource uj (mkB n m) g e = (mkB n' m', g_addAll g (ty ++ ts), Err AttributeError).
Proof. exact foreign_child. Qed.
Example C81_foreign_case : let a := mkElem (Some (s2l "p")) None [(rdf "resource", ex "o")] [] in
  let e := mkElem (Some (s2l "thing")) None [] [a; ex_prop] in
  subject_of no_uj 0 [] e 1 [] (BNode 0) /\ type_of no_uj (BNode 0) e [Tr (BNode 0) (Iri (s2l "http://www.w3.org/1999/02/22-rdf-syntax-ns#type")) (Iri (s2l "thing"))] /\
  props_of no_uj (BNode 0) None [a] [Tr (BNode 0) (Iri (s2l "p")) (Iri (ex "o"))] /\ el_tag ex_prop = Some (exn "p") /\ namespaced (exn "p") /\ exn "p" <> rdf "li" /\
  subject_of no_uj 0 [] ex_prop 1 [] (BNode 0) /\ exn "p" <> rdf "Description".
Proof.
  cbv zeta. split; [apply sb_blank; vm_compute; intros []|]. split; [apply ty_name; exists 116, (s2l "hing"); split; [reflexivity|split; [discriminate|now apply jn_none; left]]|].
  split. { apply po_name_ref with (ex "o"); [exists 112, []; split; [reflexivity|split; [discriminate|now apply jn_none; left]]|exists [], []; split; [reflexivity|cbn; tauto]| |constructor].
    apply rf_letter. eexists. eexists. split; [vm_compute; reflexivity|vm_compute; right; split; discriminate]. }
  split; [reflexivity|]. split; [exists (s2l "http://ex/"), (s2l "p"); reflexivity|]. split; [discriminate|]. split; [|discriminate].
  apply sb_blank; vm_compute; intuition discriminate.
Qed.
Theorem C81_only_references_with_a_scheme_are_kept_refuted : exists e u, ~ has_scheme u /\ el_base e = Some (ex "doc") /\ forall uj, resolve_uri uj e u = Ok u.
Proof.
  exists (mkElem (Some (exn "p")) (Some (ex "doc")) [] []), (s2l "chapter/2"). split; [|split; reflexivity].
  intros (s & r & E & _). assert (J : In 58 (s2l "chapter/2")) by (rewrite E; apply in_or_app; right; now left).
  vm_compute in J. repeat (destruct J as [J|J]; [discriminate J|]). exact J.
Qed.
Theorem C81_references : forall uj e c u, (ascii_alpha c -> resolve_uri uj e (c :: u) = Ok (c :: u)) /\
  (~ ascii_alpha c -> forall b, el_base e = Some b -> b <> [] -> resolve_uri uj e (c :: u) = uj b (c :: u)) /\
  (el_base e = None -> resolve_uri uj e (c :: u) = Ok (c :: u)).
Proof.
  intros uj e c u. unfold resolve_uri, scheme_match, urljoin, ascii_alpha, in_range. repeat split.
  - intro A. replace ((65 <=? c) && (c <=? 90) || (97 <=? c) && (c <=? 122)) with true; [reflexivity|]. symmetry. rewrite orb_true_iff, !andb_true_iff, !N.leb_le. exact A.
  - intros A b -> B. destruct ((65 <=? c) && (c <=? 90) || (97 <=? c) && (c <=? 122)) eqn:E; [rewrite orb_true_iff, !andb_true_iff, !N.leb_le in E; contradiction|]. destruct b; [contradiction|reflexivity].
  - intros ->. now destruct (_ || _).
Qed.
Example C81_case : handle_resource no_uj (mkB 0 []) (graph_new None) ex_desc = (mkB 0 [], graph_new None, Err KeyError) /\
  snd (handle_resource no_uj (mkB 0 []) (graph_new None) (mkElem (Some (rdf "Description")) None [(rdf "nodeID", s2l "b")] [ex_prop])) = Err AttributeError /\
  In ex_desc (el_children ex_doc) /\ In ex_prop (el_children ex_desc) /\ namespaced (exn "p") /\
  g_iter (snd (fst (handle_resource no_uj (mkB 0 []) (graph_new None)
    (mkElem (Some (s2l "thing")) None [] [mkElem (Some (s2l "p")) None [(rdf "resource", ex "o")] []; mkElem (Some (rdf "li")) None [(rdf "resource", ex "o2")] []])))) =
  [Tr (BNode 0) (Iri (s2l "http://www.w3.org/1999/02/22-rdf-syntax-ns#type")) (Iri (s2l "thing")); Tr (BNode 0) (Iri (s2l "p")) (Iri (ex "o")); Tr (BNode 0) (Iri (s2l "p")) (Iri (ex "o2"))].
Proof.
  split; [vm_compute; reflexivity|]. split; [vm_compute; reflexivity|]. split; [now left|]. split; [now left|]. split; [exists (s2l "http://ex/"), (s2l "p"); reflexivity|]. vm_compute. reflexivity.
Qed.

Print Assumptions C69_parse_raises. Print Assumptions C81_names_in_namespaces. Print Assumptions C81_documents_raise. Print Assumptions C81_about_raises.
Print Assumptions C81_other_properties_are_dropped. Print Assumptions C81_first_li_raises. Print Assumptions C81_later_li.
Print Assumptions C81_only_references_with_a_scheme_are_kept_refuted. Print Assumptions C81_references. Print Assumptions C81_exactly.
Print Assumptions C81_foreign_resource. Print Assumptions C81_foreign_property.
