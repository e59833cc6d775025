(** Properties C84-C86: Turtle output read back. *)
From Coq Require Import Permutation Sorted.
From Verif Require Import Model.Py Model.Terms Model.Graph Model.GraphRun Model.NTriples Model.Curie Model.TurtleTree Model.Turtle Model.TurtleParse Model.Resource Model.ResourceRun Model.TurtleOut
  Spec.GraphSpec Spec.CodecSpec Spec.CurieSpec Spec.TurtleSpec Spec.TurtleTextSpec Spec.ResourceSpec Spec.TurtleOutSpec
  Proofs.GraphHist Proofs.CurieLemmas Proofs.TurtleScan Proofs.TurtleReject Proofs.TurtleTokens Proofs.ResourceMore Proofs.TurtleTrip Proofs.TurtleNames Proofs.TurtleRound
  Properties.TurtleProps Properties.TurtleOutProps Properties.TurtleTextProps.
Open Scope N_scope.

Lemma ex_letters_prefix : forall s, forallb NTriples.letter s = true -> pn_prefix s.
Proof.
  intros s H. apply ex_letters in H. destruct s as [|c s]; [now left|]. right. exists c, s. inversion H as [|? ? C F]; subst. split; auto. split; [now left|].
  split; [apply Forall_impl with (2 := F); unfold pn_char, pn_u, pn_base; tauto|]. intros [r ->]. apply Forall_app in F. destruct F as [_ F]. inversion F as [|? ? X _]; subst.
  unfold TurtleTextSpec.letter, between in X. lia.
Qed.
Lemma ex_local : forall s, forallb t_u (firstn 1 s) = true -> forallb (fun c => t_char c || (c =? 58)) s = true -> pn_local s.
Proof.
  intros s B H. destruct s as [|c s]; [constructor|]. cbn in B, H. rewrite andb_true_r in B. apply andb_true_iff in H. apply pl_char; [left; now apply TurtleScan.t_u_iff|now apply ex_rest].
Qed.
(** ** C84: the header *)
(** the header is the text of the base and of all prefixes but rdf, whatever follows *)
Theorem C84_header_text : forall pm base d t, header_legal pm base -> doc_text true d t -> doc_text true (directives pm base ++ d) (header pm base ++ t).
Proof. exact header_text. Qed.
(** a reader has the base and all the prefixes in force after it *)
Theorem C84_header_meaning : forall resolves B0 base B pm, header_legal pm base -> header_means resolves B0 base B pm ->
  exists e, env_with pm B e /\ forall L d ts bs, doc_means resolves L e d ts bs -> doc_means resolves L (env0 B0) (directives pm base ++ d) ts bs.
Proof. exact header_doc_means. Qed.
(** for a reader that does not know rdf beforehand, the names with this prefix have no meaning *)
Theorem C84_all_prefixes_are_declared_refuted : exists pm base s t, turtle_repr pm base (Iri s) = Ok t /\
  (forall body, ~ In (SPrefix (s2l "rdf") body) (directives pm base)) /\ iri_text (TPn t) t /\
  forall resolves e x, e_pfx e (s2l "rdf") = None -> ~ iri_means resolves e (TPn t) x.
Proof.
  exists default_pm, None, (rdf_name "type"), (s2l "rdf:type"). split; [vm_compute; reflexivity|]. split.
  { intros body J. vm_compute in J. intuition discriminate. }
  assert (PP : pn_prefix (s2l "rdf")) by (apply ex_letters_prefix; reflexivity).
  split.
  { apply (it_pn (s2l "rdf") (s2l "type")); [exact PP|]. apply ex_local; vm_compute; reflexivity. }
  intros resolves e x N M. remember (TPn (s2l "rdf:type")) as i eqn:E. destruct M as [|ns ln p l A X D]; [discriminate|]. injection E as E.
  change (s2l "rdf:type") with (s2l "rdf" ++ 58 :: s2l "type") in E.
  destruct (split_unique 58 ns ln (s2l "rdf") (s2l "type") A (prefix_colon _ PP) E) as [-> _]. rewrite N in X. discriminate.
Qed.
(** and if the profile binds rdf to something else, this library itself reads other names back *)
Theorem C84_rdf_bound_elsewhere_refuted : exists pm g t h, reachable g /\ snd (serialize_turtle same_order 9 pm None g world0) = (t, Ok tt) /\
  turtle_parse ex_uj 5 (s2l "http://b/") (graph_new None) (SrcStr t) = Some (5, h, Ok tt) /\ g_iter g <> g_iter h /\ length (g_iter g) = 1%nat /\ length (g_iter h) = 1%nat.
Proof.
  exists [(s2l "rdf", s2l "http://e/")], (graph_of [Tr (Iri (eg "s")) (Iri (eg "p")) (Iri (eg "o"))]). eexists _, _.
  split; [apply graph_of_reachable; repeat (constructor; [reflexivity|]); constructor|]. split; [vm_compute; reflexivity|]. split; [vm_compute; reflexivity|].
  split; [intro E; vm_compute in E; discriminate E|]. split; vm_compute; reflexivity.
Qed.
Definition eg_pm : dict str str := [(s2l "rdf", rdf_ns); (s2l "xsd", xsd_ns); (s2l "e", s2l "http://e/")].
Lemma ex_legal_text : forall s, forallb (fun c => iri_char c && negb (c =? 92)) s = true -> legal_text s.
Proof.
  intros s H. rewrite forallb_forall in H. apply Forall_forall. intros c J. apply H in J. rewrite andb_true_iff, negb_true_iff, N.eqb_neq in J. now apply TurtleScan.iri_char_iff.
Qed.
Definition eg_base : str := s2l "http://b/".
Lemma eg_header : header_legal eg_pm (Some eg_base) /\ header_means (resolves_by ex_uj) [] (Some eg_base) eg_base eg_pm.
Proof.
  split; [split|split; [|split; [|split]]].
  - intros b E. injection E as <-. apply ex_legal_text. vm_compute. reflexivity.
  - intros p ns J N. cbn in J. destruct J as [J|[J|[J|[]]]]; injection J as <- <-; [now destruct N|..]; (split; [apply ex_letters_prefix; reflexivity|apply ex_legal_text; vm_compute; reflexivity]).
  - exists eg_base. split; [vm_compute; reflexivity|]. right. split; auto. left. intros [r X]. apply (f_equal (@rev _)) in X. rewrite rev_app_distr in X. discriminate X.
  - repeat constructor; cbn; intuition discriminate.
  - intros p ns J N. cbn in J. destruct J as [J|[J|[J|[]]]]; injection J as <- <-; [now destruct N|..].
    + exists xsd_ns. split; [vm_compute; reflexivity|]. right. split; auto. right. exists (removelast xsd_ns). vm_compute. reflexivity.
    + exists (s2l "http://e/"). split; [vm_compute; reflexivity|]. right. split; auto. left. intros [r X].
      apply (f_equal (@rev _)) in X. rewrite rev_app_distr in X. discriminate X.
  - intros ns J. cbn in J. destruct J as [J|[J|[J|[]]]]; try discriminate J. now injection J as <-.
Qed.
Example C84_example : header_legal eg_pm (Some eg_base) /\ header_means (resolves_by ex_uj) [] (Some eg_base) eg_base eg_pm /\
  header eg_pm (Some eg_base) = s2l "@base <http://b/> ." ++ [10] ++ s2l "@prefix xsd: <http://www.w3.org/2001/XMLSchema#> ." ++ [10] ++ s2l "@prefix e: <http://e/> ." ++ [10] /\
  turtle_text (header eg_pm (Some eg_base)) = Ok (directives eg_pm (Some eg_base)).
Proof. split; [apply eg_header|]. split; [apply eg_header|]. split; vm_compute; reflexivity. Qed.

(** ** C85: names *)
(** an IRI outside of all namespaces and the base *)
Theorem C85_full_names : forall resolves pm base B s, (forall p ns, In (p, ns) pm -> ~ prefix_of ns s) -> not_based base s ->
  turtle_repr pm base (Iri s) = Ok (s2l "<" ++ s ++ s2l ">") /\
  (~ In 92 s -> readable resolves pm base B (Iri s) <-> legal_text s /\ resolves B s s).
Proof.
  intros resolves pm base B s N NB. assert (E := full_text pm base s N NB). split; [exact E|]. intro N92. unfold readable. rewrite E.
  rewrite <- (ref_reads resolves pm B s s N92). split; [intro H; now apply H|intros H t X; now injection X as <-].
Qed.
(** an IRI in a namespace is abbreviated, and nothing of it is escaped: it can be read
    back exactly when the rest is a local name that needs no escape *)
Theorem C85_abbreviated_names : forall resolves pm base B p ns r, NoDup (map fst pm) -> chosen pm (ns ++ r) p ns -> ns <> [] -> ~ occurs_in ns r ->
  pn_prefix p -> p ++ 58 :: r <> ns ++ r -> not_based base (p ++ 58 :: r) ->
  turtle_repr pm base (Iri (ns ++ r)) = Ok (p ++ s2l ":" ++ r) /\ (readable resolves pm base B (Iri (ns ++ r)) <-> pn_local r /\ ~ In 92 r).
Proof.
  intros resolves pm base B p ns r ND C N O P D NB. assert (E := short_text pm base p ns r C N O D NB). split; [exact E|]. unfold readable. rewrite E.
  rewrite <- (pn_reads resolves pm B p ns r P (CurieMore.chosen_lookup _ _ _ _ ND C)). split; [intro H; now apply H|intros H t X; now injection X as <-].
Qed.
(** an IRI that starts with the base is cut off there, which a reader undoes only if the base resolves it so *)
Theorem C85_based_names : forall resolves pm b B r r', (forall p ns, In (p, ns) pm -> ~ prefix_of ns (b ++ r)) -> b <> [] -> ~ occurs_in b r -> legal_text b ->
  ends_in 35 b /\ r' = s2l "#" ++ r \/ ~ ends_in 35 b /\ r' = r ->
  turtle_repr pm (Some b) (Iri (b ++ r)) = Ok (s2l "<" ++ r' ++ s2l ">") /\
  (~ In 92 r -> readable resolves pm (Some b) B (Iri (b ++ r)) <-> legal_text r' /\ resolves B r' (b ++ r)).
Proof.
  intros resolves pm b B r r' N NE O LB X. destruct (based_text pm b r N NE O LB) as [T1 T2].
  assert (E : turtle_repr pm (Some b) (Iri (b ++ r)) = Ok ([60] ++ r' ++ [62])) by (destruct X as [[A ->]|[A ->]]; auto). split; [exact E|].
  intro N92. assert (N' : ~ In 92 r') by (destruct X as [[_ ->]|[_ ->]]; [intros [J|J]; [discriminate|contradiction]|assumption]).
  unfold readable. rewrite E. rewrite <- (ref_reads resolves pm B r' (b ++ r) N'). split; [intro H; now apply H|intros H t Y; now injection Y as <-].
Qed.
(** literals *)
Theorem C85_literals : forall resolves pm base B v l d, lookup pm (s2l "xsd") (xsd_iri "") -> (forall p ns, In (p, ns) pm -> pn_prefix p) -> (forall dt, d = Some dt -> legal_text dt) ->
  readable resolves pm base B (Lit v l d) <-> legal_literal v l d.
Proof. exact lit_readable. Qed.
(** abbreviated names are not always readable: a slash is not escaped *)
Theorem C85_names_are_readable_refuted : exists s, legal_text s /\ turtle_repr eg_pm None (Iri s) = Ok (s2l "e:a/b") /\ forall i, ~ iri_text i (s2l "e:a/b").
Proof.
  exists (s2l "http://e/a/b"). split; [apply ex_legal_text; vm_compute; reflexivity|]. split; [vm_compute; reflexivity|]. intros i T.
  change (s2l "e:a/b") with ([101] ++ 58 :: s2l "a/b") in T. apply pn_inv in T; [|exact (ex_letters_prefix [101] eq_refl)]. destruct T as [_ L].
  assert (NX : forall y, ~ local_rest (47 :: y)).
  { intros y H. inversion H as [|c r C R|r N R|x r X R E]; subst; [unfold pn_char, pn_u, pn_base, TurtleTextSpec.letter, digit10, between in C; lia|]. inversion X; subst; discriminate. }
  inversion L as [|c r C R|x r X R E]; subst; [exact (NX _ R)|]. inversion X; subst; discriminate.
Qed.
(** a namespace that occurs again in the rest is replaced there too, and another IRI is read back *)
Theorem C85_namespace_occurs_again_refuted : exists s s', s <> s' /\ turtle_repr eg_pm None (Iri s) = Ok (s2l "e:e:x") /\
  forall resolves B, text_is_iri resolves eg_pm B (s2l "e:e:x") s'.
Proof.
  exists (s2l "http://e/http://e/x"), (s2l "http://e/e:x"). split; [vm_compute; discriminate|]. split; [vm_compute; reflexivity|]. intros resolves B.
  assert (X := proj2 (pn_reads resolves eg_pm B (s2l "e") (s2l "http://e/") (s2l "e:x") (ex_letters_prefix [101] eq_refl) ltac:(apply lookup_sget; vm_compute; reflexivity))).
  apply X. split; [apply ex_local; vm_compute; reflexivity|cbn; intuition discriminate].
Qed.
(** relative to the base: http://b/c against the base http://b is written <c> with a prefix of a path segment *)
Example C85_example :
  turtle_repr eg_pm (Some eg_base) (Iri (s2l "http://x/y")) = Ok (s2l "<http://x/y>") /\ turtle_repr eg_pm (Some eg_base) (Iri (eg "a-b")) = Ok (s2l "e:a-b") /\
  turtle_repr eg_pm (Some eg_base) (Iri (s2l "http://b/c")) = Ok (s2l "<c>") /\ turtle_repr eg_pm (Some (s2l "http://b/#")) (Iri (s2l "http://b/#c")) = Ok (s2l "<#c>") /\
  readable (resolves_by ex_uj) eg_pm (Some eg_base) eg_base (Iri (eg "a-b")) /\ readable (resolves_by ex_uj) eg_pm (Some eg_base) eg_base (Iri (s2l "http://b/c")) /\
  legal_literal (s2l "7") None (Some (xsd_iri "integer")) /\ ~ legal_literal (s2l "x") None (Some (xsd_iri "integer")) /\ ~ legal_literal [34] (Some (s2l "en")) None.
Proof.
  do 4 (split; [vm_compute; reflexivity|]). split; [|split; [|split; [|split]]].
  - assert (CH : chosen eg_pm (s2l "http://e/" ++ s2l "a-b") (s2l "e") (s2l "http://e/")).
    { exists [(s2l "rdf", rdf_ns); (s2l "xsd", xsd_ns)], []. split; [reflexivity|]. split; [now exists (s2l "a-b")|]. split; [|intros p n []].
      intros p n J [r X]. cbn in J. destruct J as [J|[J|[]]]; injection J as <- <-; discriminate X. }
    refine (proj2 (proj2 (C85_abbreviated_names _ eg_pm (Some eg_base) eg_base (s2l "e") (s2l "http://e/") (s2l "a-b") _ CH _ _ _ _ _)) _).
    + repeat constructor; cbn; intuition discriminate.
    + discriminate.
    + intros (x & y & X). apply (f_equal (@length _)) in X. rewrite !app_length in X. cbn in X. lia.
    + exact (ex_letters_prefix [101] eq_refl).
    + discriminate.
    + intros b Eb _ [y X]. injection Eb as <-. discriminate X.
    + split; [apply ex_local; vm_compute; reflexivity|cbn; intuition discriminate].
  - refine (proj2 (proj2 (C85_based_names _ eg_pm eg_base eg_base (s2l "c") (s2l "c") _ _ _ _ _) _) _).
    + intros p n J [r X]. cbn in J. destruct J as [J|[J|[J|[]]]]; injection J as <- <-; discriminate X.
    + discriminate.
    + intros (x & y & X). apply (f_equal (@length _)) in X. rewrite !app_length in X. cbn in X. lia.
    + apply ex_legal_text. vm_compute. reflexivity.
    + right. split; auto. intros [r X]. apply (f_equal (@rev _)) in X. rewrite rev_app_distr in X. discriminate X.
    + cbn. intuition discriminate.
    + split; [apply ex_legal_text; vm_compute; reflexivity|]. exists (s2l "http://b/c"). split; [vm_compute; reflexivity|]. right. split; auto. left.
      intros [r X]. apply (f_equal (@rev _)) in X. rewrite rev_app_distr in X. discriminate X.
  - right. left. split; auto. exists [], (s2l "7"). split; auto. split; [now left|]. split; [|discriminate]. constructor; [vm_compute; split; discriminate|constructor].
  - intro H. assert (K : forall v, num_text NInteger v -> v <> s2l "x").
    { intros v (sg & d & -> & S & D & N) X. destruct S as [->|[->| ->]]; try discriminate X. cbn in X. subst d. inversion D as [|? ? [_ Y] _]. now apply Y. }
    destruct H as [[H _]|[[_ H]|[[H _]|[[H _]|[H _]]]]]; try discriminate H. now apply K in H.
  - intros [F _]. inversion F as [|? ? (X & _) _]. now apply X.
Qed.

(** ** C86: round trips *)
(** a graph that can be written, without subjects of removed triples, and all of whose
    names and literals are readable: the text is the text of a document, and the
    document means what is left of the graph *)
Theorem C86_output_is_turtle : forall ord fuel pm base g early w ns resolves B0 B, reachable g -> shuffle ord -> wreach_if early w -> lookup pm (s2l "xsd") ns ->
  usual w (g_iter g) (g_subjects g) fuel -> printable (g_iter g) (g_subjects g) -> no_stale_subjects (g_iter g) (g_subjects g) ->
  header_legal pm base -> header_means resolves B0 base B pm -> readable_graph resolves pm base B (g_iter g) ->
  exists t d k, serialize_turtle ord fuel pm base g w = (w, (t, Ok tt)) /\ doc_text true d t /\
    forall L bs, length bs = k -> NoDup bs -> exists ts, doc_means resolves L (env0 B0) d ts bs /\ graph_reads_as (g_iter g) ts bs.
Proof.
  intros ord fuel pm base g early w ns resolves B0 B RG SH WR LX US PR NS HL HM RD.
  destruct (round_trip ord fuel pm base g early w ns RG SH WR LX US PR NS resolves B0 B HL HM RD) as (t & d & k & E & T & _ & M).
  exists t, d, k. do 2 (split; [assumption|]). intros L bs X N. destruct (M L bs X) as (ts & D & R). eauto.
Qed.
(** this library's own parser adds just these triples, if lists are not among several objects *)
Theorem C86_own_output : forall ord fuel pm base g early w ns uj n h B0 B, reachable g -> shuffle ord -> wreach_if early w -> lookup pm (s2l "xsd") ns ->
  usual w (g_iter g) (g_subjects g) fuel -> printable (g_iter g) (g_subjects g) -> no_stale_subjects (g_iter g) (g_subjects g) ->
  uj_clean uj -> ~ In 60 B0 -> header_legal pm base -> header_means (resolves_by uj) B0 base B pm -> readable_graph (resolves_by uj) pm base B (g_iter g) ->
  lists_alone (g_iter g) ->
  exists t n' h' ts bs, serialize_turtle ord fuel pm base g w = (w, (t, Ok tt)) /\ turtle_parse uj n B0 h (SrcStr t) = Some (n', h', Ok tt) /\
    graph_reads_as (g_iter g) ts bs /\ (forall a, In a bs -> n <= a < n') /\ (forall x, In x (g_iter h') <-> In x (g_iter h) \/ In x ts).
Proof. intros ord fuel pm base g early w ns uj n h B0 B RG SH WR LX US PR NS. exact (own_round_trip ord fuel pm base g early w ns RG SH WR LX US PR NS uj n h B0 B). Qed.
(** without lists: the triples of the graph, except that a literal without a type becomes an xsd:string *)
Theorem C86_without_lists : forall ord fuel pm base g early w ns uj n h B0 B, reachable g -> shuffle ord -> wreach_if early w -> lookup pm (s2l "xsd") ns ->
  usual w (g_iter g) (g_subjects g) fuel -> (forall t, In t (g_iter g) -> (forall b, st_s t <> BNode b) /\ (forall b, st_o t <> BNode b)) ->
  no_stale_subjects (g_iter g) (g_subjects g) -> (forall o, ~ list_cell (g_iter g) o) ->
  uj_clean uj -> ~ In 60 B0 -> header_legal pm base -> header_means (resolves_by uj) B0 base B pm ->
  (forall t, In t (g_iter g) -> readable (resolves_by uj) pm base B (st_s t) /\ readable (resolves_by uj) pm base B (st_p t) /\ readable (resolves_by uj) pm base B (st_o t)) ->
  exists t n' h', serialize_turtle ord fuel pm base g w = (w, (t, Ok tt)) /\ turtle_parse uj n B0 h (SrcStr t) = Some (n', h', Ok tt) /\
    (forall x, In x (g_iter h') <-> In x (g_iter h) \/ exists s p o, In (Tr s p o) (g_iter g) /\ x = Tr s p (read_back o)).
Proof.
  intros ord fuel pm base g early w ns uj n h B0 B RG SH WR LX US NB NS NL U N60 HL HM RD.
  destruct (C86_own_output ord fuel pm base g early w ns uj n h B0 B) as (t & n' & h' & ts & bs & E & P & R & _ & X); auto.
  - split.
    + intros s J _. destruct (NS s J) as (p & o & K). exact (proj1 (NB _ K)).
    + intros x J _. left. split; [apply NL|exact (proj2 (NB _ J))].
  - intros x J _. destruct (RD x J) as (R1 & R2 & R3). do 3 (split; [auto|]). intros os y LO K. exfalso. inversion LO as [|? ? s' ? ? C _]; subst; [destruct K|].
    destruct C as (_ & _ & _ & C & _). destruct (NL (st_o x)). exists s'. now apply C.
  - intros s p o o' J J' C. now destruct (NL o).
  - destruct (no_lists_read _ _ _ R NL) as [-> Y]. exists t, n', h'. do 2 (split; [assumption|]). intro x. rewrite X, Y. split; (intros [J|J]; [auto|right]).
    + destruct J as (z & J & ->). assert (T4 := J). destruct (reachable_wf _ RG) as (_ & HT & _). apply HT in T4. exists (st_s z), (st_p z), (st_o z). split; [|reflexivity].
      destruct z as [a b c d]. cbn in T4. unfold is_triple in T4. cbn in T4. now subst d.
    + destruct J as (s & p & o & J & ->). exists (Tr s p o). auto.
Qed.

(** *** Examples and counterexamples *)
Lemma eg_unbased : forall s, not_based None s.
Proof. intros s b E. discriminate E. Qed.
Lemma eg_readable : forall n, forallb (fun c => iri_char c && negb (c =? 92)) (eg n) = true -> ends_in 35 (eg n) \/ ~ ends_in 35 (eg n) ->
  readable (resolves_by ex_uj) default_pm None eg_base (Iri (eg n)).
Proof.
  intros n H D. apply (C85_full_names (resolves_by ex_uj) default_pm None eg_base (eg n)).
  - intros p ns J [r X]. cbn in J. destruct J as [J|[J|[]]]; injection J as <- <-; discriminate X.
  - apply eg_unbased.
  - intro J. rewrite forallb_forall in H. apply H in J. rewrite andb_true_iff in J. now destruct J.
  - split; [now apply ex_legal_text|]. exists (eg n). split; [vm_compute; reflexivity|]. right. split; [|reflexivity]. tauto.
Qed.
Lemma eg_names : forall n, In n ["s"; "t"; "p"; "q"]%string -> readable (resolves_by ex_uj) default_pm None eg_base (Iri (eg n)).
Proof.
  intros n J. cbn in J. destruct J as [<-|[<-|[<-|[<-|[]]]]]; (apply eg_readable; [vm_compute; reflexivity|]); right; intros [r X]; apply (f_equal (@rev _)) in X; rewrite rev_app_distr in X; discriminate X.
Qed.
Lemma eg_default : header_legal default_pm None /\ header_means (resolves_by ex_uj) eg_base None eg_base default_pm /\ (forall p ns, In (p, ns) default_pm -> pn_prefix p).
Proof.
  split; [split; [discriminate|]|split; [split; [reflexivity|split; [|split]]|]].
  - intros p ns J N. cbn in J. destruct J as [J|[J|[]]]; injection J as <- <-; [now destruct N|]. split; [apply ex_letters_prefix; reflexivity|apply ex_legal_text; vm_compute; reflexivity].
  - repeat constructor; cbn; intuition discriminate.
  - intros p ns J N. cbn in J. destruct J as [J|[J|[]]]; injection J as <- <-; [now destruct N|].
    exists xsd_ns. split; [vm_compute; reflexivity|]. right. split; auto. right. exists (removelast xsd_ns). vm_compute. reflexivity.
  - intros ns J. cbn in J. destruct J as [J|[J|[]]]; try discriminate J. now injection J as <-.
  - intros p ns J. cbn in J. destruct J as [J|[J|[]]]; injection J as <- <-; apply ex_letters_prefix; reflexivity.
Qed.
Lemma eg_lits : forall v l d, legal_literal v l d -> (forall dt, d = Some dt -> legal_text dt) -> readable (resolves_by ex_uj) default_pm None eg_base (Lit v l d).
Proof. intros v l d H LD. apply C85_literals; auto; [exact eg_xsd|apply eg_default]. Qed.
Lemma eg_readable_graph : readable_graph (resolves_by ex_uj) default_pm None eg_base eg_ts.
Proof.
  assert (C1 : list_cell eg_ts (BNode 1)) by (exists (BNode 2); do 4 right; now left). assert (C2 : list_cell eg_ts (BNode 2)) by (exists (rdf1 "nil"); do 6 right; now left).
  assert (PL : Forall plain_char (s2l "x") /\ Forall plain_char (s2l "a")) by (split; (constructor; [unfold plain_char; do 3 (split; [discriminate|]); discriminate|constructor])).
  assert (R : forall n, In n ["s"; "t"; "p"; "q"]%string -> readable (resolves_by ex_uj) default_pm None eg_base (Iri (eg n))) by exact eg_names.
  assert (NL : forall o os x, ~ list_cell eg_ts o -> list_of eg_ts o os -> In x os -> False).
  { intros o os x N LO K. inversion LO as [|? ? s' ? ? C _]; subst; [destruct K|]. destruct C as (_ & _ & _ & C & _). apply N. exists s'. now apply C. }
  assert (NC : forall o, o <> BNode 1 -> o <> BNode 2 -> ~ list_cell eg_ts o) by (intros o A B L; apply eg_cells in L; tauto).
  intros t J N. cbn [eg_ts] in J. destruct J as [<-|[<-|[<-|[<-|[<-|[<-|[<-|[]]]]]]]]; try (now destruct N); cbn [st_s st_p st_o Tr]; do 2 (split; [apply R; cbn; tauto|]).
  - split; [intros _; apply R; cbn; tauto|]. intros os x LO K. exfalso. eapply NL; [|exact LO|exact K]. apply NC; discriminate.
  - split; [intros _; apply eg_lits; [split; [apply PL|discriminate]|discriminate]|]. intros os x LO K. exfalso. eapply NL; [|exact LO|exact K]. apply NC; discriminate.
  - split; [intros X; now destruct X|]. intros os x LO K.
    assert (P := TurtleWrite.path_end (graph_of eg_ts)). rewrite (proj1 eg_iter) in P.
    destruct (P _ _ _ LO _ _ eg_list ltac:(auto) ltac:(auto)) as [-> _]. destruct K as [<-|[<-|[]]]; apply eg_lits.
    + split; [apply PL|]. intros c u E. injection E as <- <-. exists (s2l "en"), []. split; [reflexivity|]. split; [apply ex_letters; reflexivity|]. split; [discriminate|constructor].
    + discriminate.
    + right. left. split; [reflexivity|]. exists [], (s2l "7"). split; [reflexivity|]. split; [now left|]. split; [constructor; [vm_compute; split; discriminate|constructor]|discriminate].
    + intros dt E. injection E as <-. apply ex_legal_text. vm_compute. reflexivity.
Qed.

(** the text of C48_example read back: the list gets new cells, the plain literal a type *)
Example C86_example : usual world0 (g_iter (graph_of eg_ts)) (g_subjects (graph_of eg_ts)) 9 /\ printable (g_iter (graph_of eg_ts)) (g_subjects (graph_of eg_ts)) /\
  no_stale_subjects (g_iter (graph_of eg_ts)) (g_subjects (graph_of eg_ts)) /\ lists_alone (g_iter (graph_of eg_ts)) /\
  readable_graph (resolves_by ex_uj) default_pm None eg_base (g_iter (graph_of eg_ts)) /\ header_means (resolves_by ex_uj) eg_base None eg_base default_pm /\
  exists h, turtle_parse ex_uj 5 eg_base (graph_new None) (SrcStr (fst (snd (serialize_turtle same_order 9 default_pm None (graph_of eg_ts) world0)))) = Some (7, h, Ok tt) /\
    same_elements (g_iter h) [Tr (Iri (eg "t")) (Iri (eg "p")) (Iri (eg "s")); Tr (Iri (eg "s")) (Iri (eg "q")) (Lit (s2l "x") None (Some (xsd "string"))); Tr (Iri (eg "s")) (Iri (eg "p")) (BNode 6);
      Tr (BNode 6) (rdf1 "first") (en "a"); Tr (BNode 6) (rdf1 "rest") (BNode 5); Tr (BNode 5) (rdf1 "first") (Lit (s2l "7") None (Some (xsd "integer"))); Tr (BNode 5) (rdf1 "rest") (rdf1 "nil")].
Proof.
  destruct eg_iter as [E1 E2]. rewrite E1, E2. split; [apply eg_usual; lia|]. split; [exact eg_printable|]. split.
  { intros s J. cbn in J. destruct J as [<-|[<-|[<-|[<-|[]]]]]; eexists _, _; [now left|right; now left|do 3 right; now left|do 5 right; now left]. }
  split.
  { intros s p o o' J J' C. apply eg_cells in C. cbn in J, J'.
    repeat (destruct J as [J|J]; [injection J as <- <- <-; repeat (destruct J' as [J'|J']; [first [discriminate J'|now injection J' as <-]|]); destruct J'|]). destruct J. }
  split; [exact eg_readable_graph|]. split; [apply eg_default|]. eexists. split; [vm_compute; reflexivity|].
  intro x. vm_compute. tauto.
Qed.
(** a subject whose triples were removed stays in the text, without predicates, which no reader accepts *)
Theorem C86_removed_triples_refuted : exists g t, reachable g /\ g_iter g = [] /\ snd (serialize_turtle same_order 9 default_pm None g world0) = (t, Ok tt) /\
  (forall d, ~ doc_text true d t) /\ turtle_parse ex_uj 5 eg_base (graph_new None) (SrcStr t) = Some (5, graph_new None, Err LarkError).
Proof.
  set (x := Tr (Iri (eg "s")) (Iri (eg "p")) (Iri (eg "o"))). exists (g_step (g_step (graph_new None) (OpAdd x)) (OpRemove x)). eexists.
  split; [apply reach_step; [apply reach_step; [apply reach_new|reflexivity]|reflexivity]|]. split; [vm_compute; reflexivity|]. split; [vm_compute; reflexivity|].
  split; [|vm_compute; reflexivity]. intros d T. apply turtle_text_accepts in T. vm_compute in T. discriminate T.
Qed.
(** a number sign in an abbreviated name starts a comment: the text is read, as another triple *)
Theorem C86_number_sign_refuted : exists g t h, reachable g /\ g_iter g = [Tr (Iri (eg "s")) (Iri (eg "p")) (Iri (eg "a#b"))] /\
  snd (serialize_turtle same_order 9 eg_pm None g world0) = (t, Ok tt) /\ turtle_parse ex_uj 5 eg_base (graph_new None) (SrcStr t) = Some (5, h, Ok tt) /\
  g_iter h = [Tr (Iri (eg "s")) (Iri (eg "p")) (Iri (eg "a"))].
Proof.
  exists (graph_of [Tr (Iri (eg "s")) (Iri (eg "p")) (Iri (eg "a#b"))]). eexists _, _. split; [apply graph_of_reachable; repeat (constructor; [reflexivity|]); constructor|].
  split; [vm_compute; reflexivity|]. split; [vm_compute; reflexivity|]. split; vm_compute; reflexivity.
Qed.
(** a list beside another object: the text is good Turtle, but this library does not read the
    triples back (the model stops at None: a generator is stored in the graph, see C50) *)
Definition eg_two : list stmt :=
  [Tr (Iri (eg "s")) (Iri (eg "p")) (Iri (eg "o")); Tr (Iri (eg "s")) (Iri (eg "p")) (BNode 1); Tr (BNode 1) (rdf1 "first") (en "a"); Tr (BNode 1) (rdf1 "rest") (rdf1 "nil")].
Theorem C86_lists_among_objects_refuted : exists g t, reachable g /\ snd (serialize_turtle same_order 9 default_pm None g world0) = (t, Ok tt) /\
  (exists d, turtle_text t = Ok d) /\ turtle_parse ex_uj 5 eg_base (graph_new None) (SrcStr t) = None.
Proof.
  exists (graph_of eg_two). eexists. split; [apply graph_of_reachable; repeat (constructor; [reflexivity|]); constructor|]. split; [vm_compute; reflexivity|].
  split; [eexists; vm_compute; reflexivity|vm_compute; reflexivity].
Qed.
(** other triples of a list cell, and lists that are nobody's object, are not written *)
Theorem C86_list_cells_are_lost_refuted : exists g t h, reachable g /\ In (Tr (BNode 1) (Iri (eg "p")) (Iri (eg "o"))) (g_iter g) /\
  snd (serialize_turtle same_order 9 default_pm None g world0) = (t, Ok tt) /\ turtle_parse ex_uj 5 eg_base (graph_new None) (SrcStr t) = Some (5, h, Ok tt) /\ g_iter h = [].
Proof.
  exists (graph_of [Tr (BNode 1) (Iri (eg "p")) (Iri (eg "o")); Tr (BNode 1) (rdf1 "first") (en "a"); Tr (BNode 1) (rdf1 "rest") (rdf1 "nil")]). eexists _, _.
  split; [apply graph_of_reachable; repeat (constructor; [reflexivity|]); constructor|]. split; [vm_compute; now left|]. split; [vm_compute; reflexivity|]. split; vm_compute; reflexivity.
Qed.

Print Assumptions C84_header_text.
Print Assumptions C84_header_meaning.
Print Assumptions C84_all_prefixes_are_declared_refuted.
Print Assumptions C84_rdf_bound_elsewhere_refuted.
Print Assumptions C85_full_names.
Print Assumptions C85_abbreviated_names.
Print Assumptions C85_based_names.
Print Assumptions C85_literals.
Print Assumptions C85_names_are_readable_refuted.
Print Assumptions C85_namespace_occurs_again_refuted.
Print Assumptions C86_output_is_turtle.
Print Assumptions C86_own_output.
Print Assumptions C86_without_lists.
Print Assumptions C86_removed_triples_refuted.
Print Assumptions C86_number_sign_refuted.
Print Assumptions C86_lists_among_objects_refuted.
Print Assumptions C86_list_cells_are_lost_refuted.
