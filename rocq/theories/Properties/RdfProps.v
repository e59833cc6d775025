(** Property C99: what the parsers add are RDF triples, N-Triples carries them, and what
    N-Triples changes it changes once. *)
From Verif Require Import Model.Py Model.Terms Model.Graph Model.Codec Model.NTriples Model.Curie Model.TurtleTree Model.UrlJoin Model.Turtle Model.TurtleParse
  Spec.CodecSpec Spec.NTSpec Spec.GraphSpec Spec.TurtleSpec Spec.TurtleTextSpec Spec.RdfSpec
  Proofs.GraphInv Proofs.NTRun Proofs.UriAbs Proofs.RdfShape Proofs.RdfChars Proofs.RdfLines.
Open Scope N_scope.

(** ** C99 *)
(** from Turtle: whatever the source, the base and the way references are resolved, each triple
    that is added is an RDF 1.1 triple: every literal has a language tag or a datatype, never both *)
Theorem C99_turtle_adds_rdf_triples : forall uj n base g x n' g', turtle_parse uj n base g x = Some (n', g', Ok tt) ->
  forall t, In t (g_iter g') -> In t (g_iter g) \/ rdf_triple false t.
Proof. exact turtle_rdf. Qed.
(** from N-Triples and N-Quads: literals may also have neither *)
Theorem C99_ntriples_adds_rdf_triples : forall q n g s n' g', parse_string q n g s = (n', g', Ok tt) ->
  forall t, In t (g_iter g') -> In t (g_iter g) \/ (rdf_subject (st_s t) /\ rdf_predicate (st_p t) /\ rdf_object true (st_o t)) /\ graph_kind q t.
Proof. exact ntriples_rdf. Qed.

(** a graph that was read from Turtle can be written as N-Triples and read back, if the text has no surrogates,
    written or escaped, and the language tags are tags of this library's N-Triples *)
Theorem C99_turtle_to_ntriples : forall bo nk n base s m g k, ~ In 60 base -> Forall scalar base -> unicode s -> ~ newline_escape s ->
  turtle_parse (urljoin bo nk) n base (graph_new None) (SrcStr s) = Some (m, g, Ok tt) -> Forall langs_accepted (g_iter g) ->
  exists text k' f g', serialize_ntriples (g_iter g) = (text, Ok tt) /\ parse_string_new false k text = (k', g', Ok tt) /\
    injective_on f (concat (map bnodes_of (g_iter g))) /\ fresh_for k k' f (concat (map bnodes_of (g_iter g))) /\
    forall t, In t (g_iter g') <-> exists u, In u (g_iter g) /\ t = back f u.
Proof.
  intros bo nk n base s m g k B S U NL E LA. assert (F := turtle_nt (urljoin bo nk) n base s m g (urljoin_clean bo nk) (urljoin_scalar bo nk) B S U NL E LA).
  destruct (round_trip (g_iter g) k (graph_new None) F) as (tx & k' & f & A & I & FR & P). exists tx, k', f, (g_addAll (graph_new None) (map (back f) (g_iter g))).
  do 4 (split; [assumption|]). intro t. unfold g_iter at 1. rewrite g_addAll_In, in_map_iff. split.
  - intros [(u & <- & J)|[]]. eauto.
  - intros (u & J & ->). left. eauto.
Qed.
(** so can a graph that was read from N-Triples, with no condition on the tags *)
Theorem C99_ntriples_to_ntriples : forall n s m g k, unicode s -> parse_string_new false n s = (m, g, Ok tt) ->
  exists text k' f g', serialize_ntriples (g_iter g) = (text, Ok tt) /\ parse_string_new false k text = (k', g', Ok tt) /\
    injective_on f (concat (map bnodes_of (g_iter g))) /\ fresh_for k k' f (concat (map bnodes_of (g_iter g))) /\
    forall t, In t (g_iter g') <-> exists u, In u (g_iter g) /\ t = back f u.
Proof.
  intros n s m g k U E. assert (F := ntriples_nt n s m g U E).
  destruct (round_trip (g_iter g) k (graph_new None) F) as (tx & k' & f & A & I & FR & P). exists tx, k', f, (g_addAll (graph_new None) (map (back f) (g_iter g))).
  do 4 (split; [assumption|]). intro t. unfold g_iter at 1. rewrite g_addAll_In, in_map_iff. split.
  - intros [(u & <- & J)|[]]. eauto.
  - intros (u & J & ->). left. eauto.
Qed.
(** what comes back from N-Triples once comes back unchanged from then on *)
Theorem C99_changed_once : forall ts n text n1 g1 k, Forall nt_triple ts -> serialize_ntriples ts = (text, Ok tt) -> parse_string_new false n text = (n1, g1, Ok tt) ->
  exists text2 k' f g2, serialize_ntriples (g_iter g1) = (text2, Ok tt) /\ parse_string_new false k text2 = (k', g2, Ok tt) /\
    injective_on f (concat (map bnodes_of (g_iter g1))) /\ g_iter g2 = map (on_terms (rename f)) (g_iter g1) /\ g_len g2 = g_len g1.
Proof.
  intros ts n text n1 g1 k F E P. destruct (round_trip ts n (graph_new None) F) as (tx & k' & f & A & I & FR & P'). rewrite A in E. injection E as ->.
  unfold parse_string_new in P. rewrite P' in P. injection P as <- <-. set (g1 := g_addAll (graph_new None) (map (back f) ts)).
  assert (Q : forall t, In t (g_iter g1) -> nt_triple t /\ stable t).
  { intros t J. unfold g1, g_iter in J. rewrite g_addAll_In in J. destruct J as [J|[]]. apply in_map_iff in J. destruct J as (u & <- & J).
    rewrite Forall_forall in F. apply back_kept. auto. }
  destruct (round_trip_graph g1 k) as (t2 & k2 & f2 & g2 & X1 & X2 & X3 & _ & X5 & X6).
  - apply g_addAll_wf; [apply graph_new_wf|]. intros t J. apply in_map_iff in J. destruct J as (u & <- & J). rewrite Forall_forall in F.
    destruct (F u J) as (_ & _ & _ & G). unfold is_triple, back, on_terms. cbn [st_graph]. now rewrite G.
  - apply Forall_forall. intros t J. now apply Q.
  - apply Forall_forall. intros t J. now apply Q.
  - exists t2, k2, f2, g2. do 4 (split; [assumption|]). assumption.
Qed.

(** an escape can put a surrogate into an IRI, which cannot be written; a tag of Turtle need not be one of N-Triples *)
Definition ex_escape : str := s2l "<http://e/s> <http://e/p" ++ [92; 117] ++ s2l "D800> ""x"" .".
Definition ex_tag : str := s2l "<http://e/s> <http://e/p> ""x""@de-1996 .".
Definition joined : urljoin_fn := urljoin (fun _ => true) (fun _ => true).
Theorem C99_surrogates_refuted : exists s m g, turtle_parse joined 0 [] (graph_new None) (SrcStr s) = Some (m, g, Ok tt) /\
  Forall langs_accepted (g_iter g) /\ snd (serialize_ntriples (g_iter g)) = Err UnicodeEncodeError.
Proof.
  exists ex_escape. eexists. eexists. split; [vm_compute; reflexivity|]. split; [|vm_compute; reflexivity]. constructor; [|constructor]. repeat split.
Qed.
Theorem C99_tags_refuted : exists s m g text, turtle_parse joined 0 [] (graph_new None) (SrcStr s) = Some (m, g, Ok tt) /\ unicode s /\
  serialize_ntriples (g_iter g) = (text, Ok tt) /\ snd (parse_string_new false 0 text) = Err LarkError.
Proof.
  exists ex_tag. eexists. eexists. eexists. split; [vm_compute; reflexivity|]. split; [|split; [vm_compute; reflexivity|vm_compute; reflexivity]]. split.
  - apply ascii_text. reflexivity.
  - intros (a & k & h & b & c & E & _). assert (J : In 92 ex_tag) by (rewrite E; apply in_or_app; right; now left). revert J. vm_compute. intuition discriminate.
Qed.

(** examples *)
Definition ex_doc : str := s2l "@prefix e: <http://e/> . e:s e:p ""a""@en-GB, 5, ""b"" ; e:q [ e:r ( _:x <caf" ++ [233] ++ s2l "> ) ] .".
Lemma ex_unicode : forall s, forallb (fun c => c <? 256) s = true -> ~ In 92 s -> unicode s.
Proof.
  intros s H N. split.
  - apply Forall_forall. intros c J. rewrite forallb_forall in H. specialize (H c J). cbv beta in H. apply N.ltb_lt in H. unfold scalar, surrogate. lia.
  - intros (a & k & h & b & c & E & _). apply N. rewrite E. apply in_or_app. right. now left.
Qed.
Example C99_example : exists m g text m' g', turtle_parse joined 0 (s2l "http://b/") (graph_new None) (SrcStr ex_doc) = Some (m, g, Ok tt) /\ unicode ex_doc /\
  Forall langs_accepted (g_iter g) /\ g_len g = 9%nat /\ serialize_ntriples (g_iter g) = (text, Ok tt) /\ parse_string_new false 50 text = (m', g', Ok tt) /\
  g_len g' = 9%nat /\ In (Tr (Iri (s2l "http://e/s")) (Iri (s2l "http://e/p")) (Lit (s2l "a") (Some (s2l "en-GB")) None)) (g_iter g') /\
  exists b, In (Tr (BNode b) (Iri (s2l "http://www.w3.org/1999/02/22-rdf-syntax-ns#first")) (Iri (s2l "http://b/caf%C3%A9"))) (g_iter g').
Proof.
  do 5 eexists. split; [vm_compute; reflexivity|]. split; [apply ex_unicode; [reflexivity|vm_compute; intuition discriminate]|].
  split; [|split; [vm_compute; reflexivity|split; [vm_compute; reflexivity|split; [vm_compute; reflexivity|split; [vm_compute; reflexivity|]]]]].
  - cbn [g_iter g_triples]. repeat (constructor; [try (repeat split; exact I)|]); [|constructor].
    exists (s2l "en"), [s2l "GB"]. repeat split; try discriminate; repeat constructor; discriminate.
  - split; [vm_compute; tauto|]. eexists. vm_compute. tauto.
Qed.
Example C99_changed_example : exists text text2 g1, Forall nt_triple [Tr (Iri [233]) (Iri (s2l "p")) (Lit [1; 65] None None)] /\
  serialize_ntriples [Tr (Iri [233]) (Iri (s2l "p")) (Lit [1; 65] None None)] = (text, Ok tt) /\ parse_string_new false 0 text = (0, g1, Ok tt) /\
  g_iter g1 = [Tr (Iri (s2l "%C3%A9")) (Iri (s2l "p")) (Lit [65] None None)] /\ serialize_ntriples (g_iter g1) = (text2, Ok tt) /\ text2 = text.
Proof.
  do 3 eexists. split; [|split; [vm_compute; reflexivity|split; [vm_compute; reflexivity|split; [vm_compute; reflexivity|split; [vm_compute; reflexivity|vm_compute; reflexivity]]]]].
  constructor; [|constructor]. split; [apply clean_scalar; repeat constructor; unfold surrogate; lia|].
  split; [apply clean_scalar, ascii_text; reflexivity|]. split; [|reflexivity]. split; [repeat constructor; discriminate|]. split; discriminate.
Qed.

Print Assumptions C99_turtle_adds_rdf_triples.
Print Assumptions C99_ntriples_adds_rdf_triples.
Print Assumptions C99_turtle_to_ntriples.
Print Assumptions C99_ntriples_to_ntriples.
Print Assumptions C99_changed_once.
Print Assumptions C99_surrogates_refuted.
Print Assumptions C99_tags_refuted.
