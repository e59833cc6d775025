(** The repository's own tests (tests/test_util.py, test_primitives.py, test_parsers.py,
    test_serializers.py, test_RDF.py), run on the model.  Nothing here is about all
    inputs; these examples check that the model computes what the tests expect of the
    code.  Left out: tests with random data (test_primitives.py 154-183, 241-275) and tests
    of JSON-LD documents and of SPARQL servers, which go through other libraries. *)
From Verif Require Import Model.Py Model.Terms Model.Graph Model.GraphRun Model.Dataset Model.Codec Model.NTriples Model.Curie Model.UrlJoin Model.Turtle Model.TurtleParse
  Model.Resource Model.ResourceVal Model.TurtleOut Model.Tuples.
Open Scope N_scope.

(** ** test_util.py *)
(** what each of the four tests asserts: the normal form, that it is stable, and that
    quoting it gives the IRI back *)
Definition normalize_test (uri normalized : str) : Prop :=
  normalize_iri uri = Ok normalized /\ normalize_iri normalized = Ok normalized /\ quote_normalized_iri normalized = Ok uri.
Example test_normalize_iri_no_escapes :
  let u := s2l "http://example.com/foo/bar?garply=aap&maz=bies" in normalize_test u u.
Proof. vm_compute. auto. Qed.
Example test_normalize_iri_escaped_slash :
  let u := s2l "http://example.com/foo%2Fbar?garply=aap&maz=bies" in normalize_test u u.
Proof. vm_compute. auto. Qed.
Example test_normalize_iri_escaped_ampersand :
  let u := s2l "http://example.com/foo/bar?garply=aap%26yak&maz=bies" in normalize_test u u.
Proof. vm_compute. auto. Qed.
Example test_normalize_iri_escaped_international :
  normalize_test (s2l "http://example.com/foo/bar?garply=aap&maz=bi%C3%89s") (s2l "http://example.com/foo/bar?garply=aap&maz=bi" ++ [201] ++ s2l "s").
Proof. vm_compute. auto. Qed.

(** ** test_primitives.py *)
Definition I (s : string) : term := Iri (s2l s).
Definition L (s : string) : term := Lit (s2l s) None None.
Definition LL (s l : string) : term := Lit (s2l s) (Some (s2l l)) None.
Definition LD (s : string) (d : str) : term := Lit (s2l s) None (Some d).
Example test_to_curie_multi_match : to_curie (s2l "aaab") [(s2l "short", s2l "aa"); (s2l "long", s2l "aaa")] (s2l ":") false = s2l "long:b".
Proof. reflexivity. Qed.
Definition issued : stmt := Tr (I "http://example.com") (I "http://purl.org/dc/terms/issued") (LL "Never!" "en").
Example test_simple_add : g_contains (g_add (graph_new None) issued) issued = true.
Proof. reflexivity. Qed.
Example test_simple_remove :
  let x := g_remove (g_add (graph_new None) issued) issued in g_contains (fst x) issued = false /\ snd x = Ok tt.
Proof. vm_compute. auto. Qed.
(** 59-150: the eight patterns; the eighth, with nothing left open, is not among the tests *)
Example test_match_patterns :
  forallb (fun '(s, p, o) => existsb (fun t => if stmt_eq_dec t issued then true else false)
                               (g_match (g_add (graph_new None) issued) (if s : bool then Some (st_s issued) else None)
                                  (if p : bool then Some (st_p issued) else None) (if o : bool then Some (st_o issued) else None)))
    [(false, false, false); (true, false, false); (true, false, true); (true, true, false); (false, true, true); (false, false, true); (false, true, false)] = true.
Proof. reflexivity. Qed.
(** 189-212: the arguments are in an unusual order, so the graph name is a Literal *)
Definition never : stmt := Qd (I "http://example.com/graph") (I "http://example.com") (I "http://purl.org/dc/terms/issued") (Some (L "Never!")).
Example test_add_quad : ds_contains (fst (ds_add (ds_new []) never)) never = true.
Proof. reflexivity. Qed.
Example test_remove_quad : ds_contains (fst (ds_remove (fst (ds_add (ds_new []) never)) never)) never = false.
Proof. reflexivity. Qed.
Definition never' : stmt := Qd (I "http://example.com") (I "http://purl.org/dc/terms/issued") (L "Never!") (Some (I "http://example.com/graph")).
Definition ds_match (w : Dataset.world) (s p o : oterm) (gr : oterm) : res (list stmt) := snd (ds_drain 100 w (DStart s p o gr)).
Example test_match_ds_sVV_pattern : ds_match (fst (ds_add (ds_new []) never')) (Some (I "http://example.com")) None None None = Ok [never'].
Proof. reflexivity. Qed.
Example test_match_ds_quad_pattern : ds_match (fst (ds_add (ds_new []) never')) None None None (Some (I "http://example.com/graph")) = Ok [never'].
Proof. reflexivity. Qed.
Example test_add_graph :
  let t := Tr (I "http://example.com") (I "http://purl.org/dc/terms/issued") (L "Never!") in
  let w := ds_new [g_add (graph_new (Some (s2l "http://example.com/graph"))) t] in
  ds_contains (fst (ds_add_graph w 0%nat None)) t = true.
Proof. reflexivity. Qed.

(** ** test_parsers.py: N-Triples and N-Quads from a StringIO *)
(** the lines of a text file, each with its line end *)
Fixpoint lines_of (cur : str) (s : str) : list str :=
  match s with
  | [] => match cur with [] => [] | _ => [rev cur] end
  | c :: r => if c =? 10 then rev (c :: cur) :: lines_of [] r else lines_of (c :: cur) r
  end.
Definition doc (l : list string) : str := concat (map (fun x => s2l x ++ [10]) l).
Definition read (q : bool) (text : str) : res (list stmt) :=
  match parse_stream q 0 (graph_new None) (lines_of [] text) with (_, g, Ok _) => Ok (g_iter g) | (_, _, Err e) => Err e end.
Definition o_ (n : string) := I ("http://example.com/objects/" ++ n).
Definition p_ (n : string) := I ("http://example.com/predicates/" ++ n).
Example test_parse_ntriples_named_nodes :
  read false (doc ["<http://example.com/objects/1> <http://example.com/predicates/1> <http://example.com/objects/2> ."; "<http://example.com/objects/2> <http://example.com/predicates/2> <http://example.com/objects/1> ."]%string)
  = Ok [Tr (o_ "1") (p_ "1") (o_ "2"); Tr (o_ "2") (p_ "2") (o_ "1")].
Proof. vm_compute. reflexivity. Qed.
Example test_parse_ntriples_bare_literals :
  read false (doc ["<http://example.com/objects/1> <http://example.com/predicates/1> ""Foo"" ."; "<http://example.com/objects/2> <http://example.com/predicates/2> ""Bar"" ."]%string)
  = Ok [Tr (o_ "1") (p_ "1") (L "Foo"); Tr (o_ "2") (p_ "2") (L "Bar")].
Proof. vm_compute. reflexivity. Qed.
Example test_parse_ntriples_language_literals :
  read false (doc ["<http://example.com/objects/1> <http://example.com/predicates/1> ""Foo""@en-US ."; "<http://example.com/objects/2> <http://example.com/predicates/2> ""Bar""@fr ."]%string)
  = Ok [Tr (o_ "1") (p_ "1") (LL "Foo" "en-US"); Tr (o_ "2") (p_ "2") (LL "Bar" "fr")].
Proof. vm_compute. reflexivity. Qed.
Example test_parse_ntriples_datatyped_literals :
  read false (doc ["<http://example.com/objects/1> <http://example.com/predicates/1> ""Foo""^^<http://www.w3.org/2001/XMLSchema#string> ."; "<http://example.com/objects/2> <http://example.com/predicates/2> ""9.99""^^<http://www.w3.org/2001/XMLSchema#decimal> ."]%string)
  = Ok [Tr (o_ "1") (p_ "1") (LD "Foo" (xsd "string")); Tr (o_ "2") (p_ "2") (LD "9.99" (xsd "decimal"))].
Proof. vm_compute. reflexivity. Qed.
Example test_parse_ntriples_mixed_literals :
  read false (doc ["<http://example.com/objects/1> <http://example.com/predicates/1> ""Foo""@en-US ."; "<http://example.com/objects/2> <http://example.com/predicates/2> ""9.99""^^<http://www.w3.org/2001/XMLSchema#decimal> ."]%string)
  = Ok [Tr (o_ "1") (p_ "1") (LL "Foo" "en-US"); Tr (o_ "2") (p_ "2") (LD "9.99" (xsd "decimal"))].
Proof. vm_compute. reflexivity. Qed.
Example test_parse_ntriples_bnodes :
  read false (doc ["<http://example.com/objects/1> <http://example.com/predicates/1> _:A1 ."; "_:A1 <http://example.com/predicates/2> <http://example.com/objects/1> ."]%string)
  = Ok [Tr (o_ "1") (p_ "1") (BNode 0); Tr (BNode 0) (p_ "2") (o_ "1")].
Proof. vm_compute. reflexivity. Qed.
Example test_parse_nquads_named_nodes :
  read true (doc ["<http://example.com/objects/1> <http://example.com/predicates/1> <http://example.com/objects/2> <http://example.com/graphs/1> ."; "<http://example.com/objects/2> <http://example.com/predicates/2> <http://example.com/objects/1> <http://example.com/graphs/1> ."]%string)
  = Ok [Qd (o_ "1") (p_ "1") (o_ "2") (Some (I "http://example.com/graphs/1")); Qd (o_ "2") (p_ "2") (o_ "1") (Some (I "http://example.com/graphs/1"))].
Proof. vm_compute. reflexivity. Qed.
(** test_serializers.py 9-37: parsed, serialized, parsed again *)
Example test_ntriples_round_trip :
  let ts := [Tr (o_ "1") (p_ "1") (o_ "2"); Tr (o_ "2") (p_ "2") (o_ "1")] in
  snd (serialize_ntriples ts) = Ok tt /\ read false (fst (serialize_ntriples ts)) = Ok ts.
Proof. vm_compute. auto. Qed.

(** Turtle: turtle_parser.parse(text), whose base is the empty string (turtle.py 363-376) *)
Definition uj := urljoin (fun _ => true) (fun _ => true).
Definition turtle (text : str) : graph :=
  match turtle_parse uj 0 [] (graph_new None) (SrcStr text) with Some (_, g, Ok _) => g | _ => graph_new None end.
Example test_parse_turtle_example_1 :
  g_len (turtle (doc ["@prefix rdf: <http://www.w3.org/1999/02/22-rdf-syntax-ns#> ."; "@prefix dc: <http://purl.org/dc/elements/1.1/> ."; "@prefix ex: <http://example.org/stuff/1.0/> ."; "";
    "<http://www.w3.org/TR/rdf-syntax-grammar>"; "  dc:title ""RDF/XML Syntax Specification (Revised)"" ;"; "  ex:editor ["; "    ex:fullname ""Dave Beckett"";"; "    ex:homePage <http://purl.org/net/dajobe/>"; "  ] ."]%string)) = 4%nat.
Proof. vm_compute. reflexivity. Qed.

(** ** test_serializers.py *)
(** Profile() *)
Definition profile : dict str str := default_pm.
Definition with_ex := sset profile (s2l "ex") (s2l "http://example.com/").
Definition with_dc (pm : dict str str) := sset pm (s2l "dc") (s2l "http://purl.org/dc/terms/").
(** 53-161; the datatypes are written with profile.resolve, which finds xsd:... *)
Example test_turtle_repr :
  (forallb (fun n => if str_eq_dec (xsd n) (match pm_resolve profile (s2l "xsd:" ++ s2l n) with Ok x => x | Err _ => [] end) then true else false)
     ["integer"; "decimal"; "double"; "boolean"; "string"]%string = true) /\
  turtle_repr profile None (LD "42" (xsd "integer")) = Ok (s2l "42") /\ turtle_repr profile None (LD "4.2" (xsd "decimal")) = Ok (s2l "4.2") /\
  turtle_repr profile None (LD "4.2e1" (xsd "double")) = Ok (s2l "4.2e1") /\ turtle_repr profile None (LD "true" (xsd "boolean")) = Ok (s2l "true") /\
  turtle_repr profile None (LD "Foo" (xsd "string")) = Ok (s2l """Foo""") /\ turtle_repr profile None (LL "Foo" "en") = Ok (s2l """Foo""@en") /\
  turtle_repr profile None (LD "Foo" (s2l "http://example.com/garply")) = Ok (s2l """Foo""^<http://example.com/garply>") /\
  turtle_repr with_ex None (LD "Foo" (s2l "http://example.com/garply")) = Ok (s2l """Foo""^ex:garply") /\
  turtle_repr profile None (I "http://example.com/foo") = Ok (s2l "<http://example.com/foo>") /\ turtle_repr with_ex None (I "http://example.com/foo") = Ok (s2l "ex:foo") /\
  turtle_repr profile (Some (s2l "https://example.com/foo#")) (I "https://example.com/foo#bar") = Ok (s2l "<#bar>") /\
  turtle_repr profile (Some (s2l "https://example.com/")) (I "https://example.com/foo") = Ok (s2l "<foo>") /\
  turtle_repr profile (Some (s2l "https://example.com/")) (I "https://example.com/foo/bar") = Ok (s2l "<foo/bar>").
Proof. vm_compute. repeat split. Qed.

(** serialize_turtle: the text is compared after strip(), that is without the line ends
    at its end; it can be parsed again *)
Fixpoint rstrip (s : str) : str :=
  match s with [] => [] | c :: r => match rstrip r with [] => if (c =? 10) || (c =? 32) then [] else [c] | t => c :: t end end.
Definition out (pm : dict str str) (base : option str) (g : graph) : str * res unit := snd (TurtleOut.serialize_turtle (fun l => l) 50 pm base g world0).
Definition out_test (pm : dict str str) (base : option str) (g : graph) (expected : list string) : Prop :=
  let x := out pm base g in snd x = Ok tt /\ rstrip (fst x) = rstrip (doc expected) /\
  match turtle_parse uj 0 [] (graph_new None) (SrcStr (fst x)) with Some (_, _, Ok _) => True | _ => False end.
Definition basic : graph := turtle (doc ["@prefix dc: <http://purl.org/dc/terms/> ."; "    @prefix example: <http://example.com/> ."; ""; "    example:foo dc:title ""Foo"" ."; "    example:bar dc:title ""Bar"" ."; "    example:baz dc:subject example:foo ."]%string).
Example testSimpleSerialization : out_test (with_dc with_ex) None basic
  ["@prefix xsd: <http://www.w3.org/2001/XMLSchema#> ."; "@prefix ex: <http://example.com/> ."; "@prefix dc: <http://purl.org/dc/terms/> .";
   "ex:bar dc:title ""Bar"" ;"; "       ."; ""; "ex:baz dc:subject ex:foo ;"; "       ."; ""; "ex:foo dc:title ""Foo"" ;"; "       ."]%string.
Proof. vm_compute. auto. Qed.
Example testBaseSerialization : out_test (with_dc profile) (Some (s2l "http://example.com/")) basic
  ["@base <http://example.com/> ."; "@prefix xsd: <http://www.w3.org/2001/XMLSchema#> ."; "@prefix dc: <http://purl.org/dc/terms/> .";
   "<bar> dc:title ""Bar"" ;"; "      ."; ""; "<baz> dc:subject <foo> ;"; "      ."; ""; "<foo> dc:title ""Foo"" ;"; "      ."]%string.
Proof. vm_compute. auto. Qed.
Example testBaseAndPrefixSerialization : out_test (with_dc with_ex) (Some (s2l "http://example.com/")) basic
  ["@base <http://example.com/> ."; "@prefix xsd: <http://www.w3.org/2001/XMLSchema#> ."; "@prefix ex: <http://example.com/> ."; "@prefix dc: <http://purl.org/dc/terms/> .";
   "ex:bar dc:title ""Bar"" ;"; "       ."; ""; "ex:baz dc:subject ex:foo ;"; "       ."; ""; "ex:foo dc:title ""Foo"" ;"; "       ."]%string.
Proof. vm_compute. auto. Qed.
Example testMultiplePredicates : out_test (with_dc with_ex) None
  (turtle (doc ["@prefix dc: <http://purl.org/dc/terms/> ."; "    @prefix example: <http://example.com/> ."; ""; "    example:foo dc:title ""Foo"" ;"; "                dc:author ""Bar"" ;"; "                dc:subject example:yesfootoo ."; "";
     "    example:garply dc:title ""Garply"" ;"; "                dc:author ""Baz"" ;"; "                dc:subject example:thegarply ."]%string))
  ["@prefix xsd: <http://www.w3.org/2001/XMLSchema#> ."; "@prefix ex: <http://example.com/> ."; "@prefix dc: <http://purl.org/dc/terms/> .";
   "ex:foo dc:author ""Bar"" ;"; "       dc:subject ex:yesfootoo ;"; "       dc:title ""Foo"" ;"; "       ."; "";
   "ex:garply dc:author ""Baz"" ;"; "          dc:subject ex:thegarply ;"; "          dc:title ""Garply"" ;"; "          ."]%string.
Proof. vm_compute. auto. Qed.
Example testListSerialization : out_test (with_dc with_ex) None
  (turtle (doc ["@prefix dc: <http://purl.org/dc/terms/> ."; "    @prefix example: <http://example.com/> ."; ""; "    example:foo dc:author (""Foo"" ""Bar"" ""Baz"") ."]%string))
  ["@prefix xsd: <http://www.w3.org/2001/XMLSchema#> ."; "@prefix ex: <http://example.com/> ."; "@prefix dc: <http://purl.org/dc/terms/> .";
   "ex:foo dc:author (""Foo"" ""Bar"" ""Baz"") ;"; "       ."]%string.
Proof. vm_compute. auto. Qed.

(** ** test_RDF.py *)
Definition pfx (l : list (string * string)) : dict str str := map (fun x => (s2l (fst x), s2l (snd x))) l.
Definition curie (s : string) (ns : list (string * string)) := parse_curie (s2l s) (pfx ns).
Example testCurieURI : let ns := [("http", "WRONG!"); ("urn", "WRONG!")]%string in
  curie "http://example.com" ns = Ok (s2l "http://example.com") /\ curie "urn:isbn:1234567890123" ns = Ok (s2l "urn:isbn:1234567890123").
Proof. vm_compute. auto. Qed.
Example testCurieDefaultPrefix : let ns := [("", "foo/"); ("wrong", "WRONG!")]%string in
  curie "bar" ns = Ok (s2l "foo/bar") /\ curie "[bar]" ns = Ok (s2l "foo/bar") /\ curie "baz" ns = Ok (s2l "foo/baz") /\ curie "[aap]" ns = Ok (s2l "foo/aap").
Proof. vm_compute. auto. Qed.
Example testCurieprefixes : let ns := [("", "WRONG!"); ("foo", "foobly/"); ("bar", "bardle/"); ("http", "reallybadidea/")]%string in
  curie "foo:aap" ns = Ok (s2l "foobly/aap") /\ curie "[bar:aap]" ns = Ok (s2l "bardle/aap") /\ curie "[foo:baz]" ns = Ok (s2l "foobly/baz") /\
  curie "bar:baz" ns = Ok (s2l "bardle/baz") /\ curie "[http://example.com]" ns = Ok (s2l "reallybadidea///example.com").
Proof. vm_compute. auto. Qed.
Example testUnparsableCuries : let ns := [("foo", "WRONG!")]%string in
  curie "[bar]" ns = Err ValueError /\ curie "bar" ns = Err ValueError /\ curie "bar:baz" ns = Err ValueError /\ curie "[bar:baz]" ns = Err ValueError.
Proof. vm_compute. auto. Qed.

(** classes: 76-157.  The classes of the tests have metaclass MetaResource and no base; a
    class gets the next number, Resource is 0 and List is 1. *)
Definition cls_ (w : world) (name : string) (bases : list nat) (pre : list (string * string)) : world * nat :=
  match make_class w (s2l name) bases (pfx pre) [] None None with (w, Ok k) => (w, k) | (w, Err _) => (w, 99%nat) end.
Definition prefixes_at (w : world) (k : nat) := c_prefixes (class_at w k).
Example testMetaResourceprefixes :
  let pre := [("foo", "bar"); ("baz", "garply"); ("meme", "lolcatz!")]%string in
  let w := fst (cls_ world0 "Foo" [] pre) in prefixes_at w 2 = pfx pre.
Proof. vm_compute. reflexivity. Qed.
Definition ex_sub (own : list (string * string)) : world :=
  let w := fst (cls_ world0 "Foo" [] [("foo", "bar"); ("baz", "garply"); ("meme", "lolcatz!")]%string) in fst (cls_ w "Bar" [2%nat] own).
Example testMetaResourcePrefixInheritance : let w := ex_sub [("allyourbase", "arebelongtous!"); ("bunny", "pancake")]%string in
  prefixes_at w 2 = pfx [("foo", "bar"); ("baz", "garply"); ("meme", "lolcatz!")]%string /\
  prefixes_at w 3 = pfx [("foo", "bar"); ("baz", "garply"); ("meme", "lolcatz!"); ("allyourbase", "arebelongtous!"); ("bunny", "pancake")]%string.
Proof. vm_compute. auto. Qed.
Example testMetaResourcePrefixInheritanceReplacement :
  let w := ex_sub [("allyourbase", "arebelongtous!"); ("bunny", "pancake"); ("foo", "notbar"); ("baz", "notgarply")]%string in
  prefixes_at w 2 = pfx [("foo", "bar"); ("baz", "garply"); ("meme", "lolcatz!")]%string /\
  prefixes_at w 3 = pfx [("foo", "notbar"); ("baz", "notgarply"); ("meme", "lolcatz!"); ("allyourbase", "arebelongtous!"); ("bunny", "pancake")]%string.
Proof. vm_compute. auto. Qed.
(** 160-172; 42 is an object of another class *)
Example testResourceEquality : let r := PRes 0 1 (I "foo") in
  py_eq r (PRes 0 1 (I "foo")) = true /\ py_eq r (PTerm (I "foo")) = true /\ py_eq r (PStr (s2l "foo")) = true /\ py_ne r (PRes 0 1 (I "bar")) = true /\
  py_eq r (PRes 0 2 (I "foo")) = true /\ py_ne r (PTerm (I "bar")) = true /\ py_ne r (PStr (s2l "bar")) = true /\ py_ne r (PObj 42) = true.
Proof. vm_compute. repeat split. Qed.

(** a class registered for a type: @register_class(...) class ...(Resource) *)
Definition reg_ (w : world) (name rdf_type : string) (pre : list (string * string)) (scalars : list string) : world :=
  match make_class w (s2l name) [0%nat] (pfx pre) (map s2l scalars) None None with
  | (w, Ok k) => fst (register_class w (s2l rdf_type) k)
  | (w, Err _) => w
  end.
Definition gr := [("gr", "http://purl.org/goodrelations/")]%string.
Definition foaf := [("foaf", "http://xmlns.com/foaf/0.1/")]%string.
Definition G (n : string) : term := I ("http://purl.org/goodrelations/" ++ n).
Definition F (n : string) : term := I ("http://xmlns.com/foaf/0.1/" ++ n).
Definition E (n : string) : term := I ("http://example.com/" ++ n).
Definition rdftype : term := Iri (rdf_ns ++ s2l "type").
Definition graph (ts : list stmt) : graph := g_addAll (graph_new None) ts.
(** isinstance(Resource.classify(graph, s), class k), for two orders of iteration of sets *)
Definition is_instance (w : world) (g : Graph.graph) (s : term) (k : nat) (b : bool) : bool :=
  forallb (fun ord => match classify ord w 0 g s with (w', Ok (RRes c _)) => Bool.eqb (is_subclass w' c k) b | _ => false end) [fun l => l; @rev term].
Example testClassification :
  is_instance (reg_ world0 "Offering" "gr:Offering" gr []) (graph [Tr (E "athing") rdftype (G "Offering")]) (E "athing") 2 true = true.
Proof. vm_compute. reflexivity. Qed.
Example testMulticlassClassification :
  let w := reg_ (reg_ world0 "Organization" "foaf:Organization" foaf []) "Group" "foaf:Group" foaf [] in
  let g := graph [Tr (E "aorganization") rdftype (F "Organization"); Tr (E "agroup") rdftype (F "Group");
                  Tr (E "aorgandgroup") rdftype (F "Organization"); Tr (E "aorgandgroup") rdftype (F "Group")] in
  is_instance w g (E "aorganization") 2 true = true /\ is_instance w g (E "agroup") 2 false = true /\ is_instance w g (E "aorganization") 3 false = true /\
  is_instance w g (E "agroup") 3 true = true /\ is_instance w g (E "aorgandgroup") 2 true = true /\ is_instance w g (E "aorgandgroup") 3 true = true.
Proof. vm_compute. repeat split. Qed.
Example testUnboundClass :
  let w := reg_ world0 "Offering" "gr:Offering" gr [] in
  let g := fst (new w 2 (graph_new None) 0 (NewIri (s2l "http://example.com/offering1"))) in
  let g := g_addAll g [Tr (E "offering1") rdftype (E "AFunkyClass"); Tr (E "aFunkyResource") rdftype (E "AFunkyClass")] in
  is_instance w g (E "offering1") 2 true = true /\ is_instance w g (E "aFunkyResource") 0 true = true.
Proof. vm_compute. auto. Qed.
Example testStr :
  let g := graph [Tr (E "aorganization") (Iri (rdfs_ns ++ s2l "label")) (LL "Test Label" "en")] in
  snd (getitem (fun l => l) world0 0 g (E "aorganization") (KName (s2l "rdfs:label"))) = Ok (One (RLit (LL "Test Label" "en"))) /\
  snd (to_str (fun l => l) world0 0 g (E "aorganization")) = Ok (s2l "Test Label").
Proof. vm_compute. auto. Qed.
Example testGetAllResourcesInGraph :
  let w := reg_ world0 "Offering" "gr:Offering" gr [] in
  let ss := map (fun n => E n) ["0"; "1"; "2"; "3"; "4"; "5"; "6"; "7"; "8"; "9"]%string in
  in_graph (fun l => l) w 2 (graph (map (fun s => Tr s rdftype (G "Offering")) ss)) = Ok ss.
Proof. vm_compute. reflexivity. Qed.

(** a test as a sequence of assignments, deletions and assertions on one graph *)
Inductive act :=
| Set_ (c : nat) (s : term) (k : rkey) (v : sval)            (* r[k] = v *)
| Del (c : nat) (s : term) (k : rkey)                        (* del r[k] *)
| Values (c : nat) (s : term) (k : rkey) (l : list term)     (* set(r[k]) == set(l) *)
| Value (c : nat) (s : term) (k : rkey) (v : option term)    (* r[k] == v, or r[k] is None *)
| Contains (c : nat) (s : term) (k : rkey) (b : bool)        (* k in r *)
| Back (c : nat) (s : term) (p : string) (l : list term)     (* set(r.object_of(p)) == set(l) *)
| IsA (c : nat) (s : term) (b : bool)                        (* r.is_a() *)
| Erase (s : term)                                           (* r.erase() *)
| New (c : nat) (s : string).                                (* C.new(graph, s) *)
Definition same_terms (a b : list term) : bool := same_set a b && (length a =? length b)%nat.
Definition rterm_of (v : rval) : option term := rval_term v.
Fixpoint run (ord : list term -> list term) (w : world) (g : Graph.graph) (l : list act) : bool :=
  match l with
  | [] => true
  | Set_ c s k v :: r => match setitem ord w c g s k v with (w, g, Ok _) => run ord w g r | _ => false end
  | Del c s k :: r => match delitem ord w c g s k with (w, g, Ok _) => run ord w g r | _ => false end
  | Values c s k e :: r =>
      match getitem ord w c g s k with
      | (w, Ok (Many os)) => match classify_all ord w c g os with
                             | (w, (vs, Ok _)) => same_terms (lval_terms (LSet vs)) e && run ord w g r
                             | _ => false
                             end
      | _ => false
      end
  | Value c s k e :: r =>
      match getitem ord w c g s k with
      | (w, Ok (One v)) => (if oterm_eq_dec (rterm_of v) e then true else false) && run ord w g r
      | _ => false
      end
  | Contains c s k b :: r => match contains ord w c g s k with (w, Ok b') => Bool.eqb b b' && run ord w g r | _ => false end
  | Back c s p e :: r =>
      match object_of_all ord w c g s (Some (s2l p)) with
      | (w, (vs, Ok _)) => same_terms (lval_terms (LSet (map fst vs))) e && run ord w g r
      | _ => false
      end
  | IsA c s b :: r => match is_a w c g s with Ok b' => Bool.eqb b b' && run ord w g r | Err _ => false end
  | Erase s :: r => match erase g s with (g, Ok _) => run ord w g r | _ => false end
  | New c s :: r => match new w c g 0 (NewIri (s2l s)) with (g, Ok _) => run ord w g r | _ => false end
  end.
(** for two orders of iteration of sets *)
Definition passes (w : world) (l : list act) : Prop := forallb (fun ord => run ord w (graph_new None) l) [fun l => l; @rev term] = true.
Definition k_ (s : string) : rkey := KName (s2l s).
Definition kl_ (s l : string) : rkey := KPair (s2l s) (FLang (s2l l)).
Definition kt_ (s t : string) : rkey := KPair (s2l s) (FType (xsd t)).
Definition kc_ (s : string) (k : nat) : rkey := KPair (s2l s) (FClass k).
Definition kn_ (s : string) : rkey := KPair (s2l s) Resource.FNone.
Definition v_ (s : string) : aval := APy (VStr (s2l s)).
Definition t0 : term := I "http://example.com/".
Example testGetSetDelPredicate : passes world0
  [Set_ 0 t0 (k_ "rdfs:example") (SSet [v_ "foo"; v_ "bar"]); Values 0 t0 (k_ "rdfs:example") [L "foo"; L "bar"];
   Del 0 t0 (k_ "rdfs:example"); Values 0 t0 (k_ "rdfs:example") []].
Proof. vm_compute. reflexivity. Qed.
Example testGetSetDelScalarPredicate : passes world0
  [Set_ 0 t0 (k_ "rdfs:label") (SOne (v_ "foo")); Value 0 t0 (k_ "rdfs:label") (Some (LL "foo" "en")); Del 0 t0 (k_ "rdfs:label"); Value 0 t0 (k_ "rdfs:label") None].
Proof. vm_compute. reflexivity. Qed.
Example testGetSetDelPredicateLanguage : passes world0
  [Set_ 0 t0 (kl_ "rdfs:example" "en") (SSet [v_ "baz"]); Set_ 0 t0 (kl_ "rdfs:example" "fr") (SSet [v_ "foo"; v_ "bar"]);
   Values 0 t0 (kl_ "rdfs:example" "fr") [LL "foo" "fr"; LL "bar" "fr"]; Values 0 t0 (kl_ "rdfs:example" "en") [LL "baz" "en"];
   Del 0 t0 (kl_ "rdfs:example" "fr"); Values 0 t0 (kl_ "rdfs:example" "fr") []; Values 0 t0 (kl_ "rdfs:example" "en") [LL "baz" "en"]].
Proof. vm_compute. reflexivity. Qed.
Example testGetSetDelScalarPredicateLanguage : passes world0
  [Set_ 0 t0 (k_ "rdfs:label") (SOne (v_ "foo")); Set_ 0 t0 (kl_ "rdfs:label" "fr") (SOne (v_ "bar")); Value 0 t0 (k_ "rdfs:label") (Some (LL "foo" "en"));
   Value 0 t0 (kl_ "rdfs:label" "en") (Some (LL "foo" "en")); Value 0 t0 (kl_ "rdfs:label" "fr") (Some (LL "bar" "fr"));
   Del 0 t0 (k_ "rdfs:label"); Value 0 t0 (k_ "rdfs:label") None; Value 0 t0 (kl_ "rdfs:label" "en") None; Value 0 t0 (kl_ "rdfs:label" "fr") (Some (LL "bar" "fr"))].
Proof. vm_compute. reflexivity. Qed.
(** datetime.now() and the day before: two texts *)
Definition now_ : string := "2020-02-02T02:02:02.020202".
Definition then_ : string := "2020-02-01T02:02:02.020202".
Definition dt_ (s : string) : aval := APy (VDatetime (s2l s)).
Example testGetSetDelPredicateDatatype : passes world0
  [Set_ 0 t0 (kt_ "rdfs:example" "integer") (SSet [APy (VInt 42)]); Set_ 0 t0 (kt_ "rdfs:example" "dateTime") (SSet [dt_ now_; dt_ then_]);
   Values 0 t0 (kt_ "rdfs:example" "dateTime") [LD now_ (xsd "dateTime"); LD then_ (xsd "dateTime")]; Values 0 t0 (kt_ "rdfs:example" "integer") [LD "42" (xsd "integer")];
   Del 0 t0 (kt_ "rdfs:example" "dateTime"); Values 0 t0 (kt_ "rdfs:example" "dateTime") []; Values 0 t0 (kt_ "rdfs:example" "integer") [LD "42" (xsd "integer")]].
Proof. vm_compute. reflexivity. Qed.
Example testGetSetDelScalarPredicateDatatype :
  let n42 := LD "42" (xsd "integer") in let now := LD now_ (xsd "dateTime") in
  let lab := k_ "rdfs:label" in let int := kt_ "rdfs:label" "integer" in let dat := kt_ "rdfs:label" "dateTime" in
  passes world0
  [Set_ 0 t0 int (SOne (APy (VInt 42))); Value 0 t0 int (Some n42); Value 0 t0 dat None; Value 0 t0 lab (Some n42);
   Set_ 0 t0 dat (SOne (dt_ now_)); Value 0 t0 dat (Some now); Value 0 t0 int None; Value 0 t0 lab (Some now);
   Del 0 t0 int; Value 0 t0 dat (Some now); Value 0 t0 int None; Value 0 t0 lab (Some now); Del 0 t0 dat; Value 0 t0 lab None;
   Set_ 0 t0 int (SOne (APy (VInt 42))); Value 0 t0 int (Some n42); Value 0 t0 dat None; Value 0 t0 lab (Some n42); Del 0 t0 lab; Value 0 t0 lab None].
Proof. vm_compute. reflexivity. Qed.
(** Offering is 2, ActualProduct 3, PlaceholderProduct 4 *)
Definition shop (scalars : list string) : world :=
  reg_ (reg_ (reg_ world0 "Offering" "gr:Offering" gr scalars) "ActualProduct" "gr:ActualProductOrServiceInstance" gr [])
    "PlaceholderProduct" "gr:ProductOrServicesSomeInstancesPlaceholder" gr [].
Definition r_ (k : nat) (n : string) : aval := ARes k (E n).
Example testGetSetDelPredicateType :
  let o := E "offering" in let all := k_ "gr:includes" in let act := kc_ "gr:includes" 3 in let pla := kc_ "gr:includes" 4 in
  passes (shop [])
  [New 2 "http://example.com/offering"; New 3 "http://example.com/aposi1"; New 3 "http://example.com/aposi2"; New 4 "http://example.com/possip1";
   Set_ 2 o act (SSet [r_ 3 "aposi1"; r_ 3 "aposi2"]); Set_ 2 o pla (SSet [r_ 4 "possip1"]);
   Values 2 o act [E "aposi1"; E "aposi2"]; Values 2 o pla [E "possip1"]; Del 2 o act; Values 2 o act []; Values 2 o pla [E "possip1"]].
Proof. vm_compute. reflexivity. Qed.
Example testGetSetDelScalarPredicateType :
  let o := E "offering" in let inc := k_ "gr:includes" in let act := kc_ "gr:includes" 3 in let pla := kc_ "gr:includes" 4 in
  let a := Some (E "aposi") in let p := Some (E "possip") in
  passes (shop ["gr:includes"]%string)
  [New 2 "http://example.com/offering"; New 3 "http://example.com/aposi"; New 4 "http://example.com/possip";
   Set_ 2 o act (SOne (r_ 3 "aposi")); Value 2 o act a; Value 2 o pla None; Value 2 o inc a;
   Set_ 2 o pla (SOne (r_ 4 "possip")); Value 2 o act None; Value 2 o pla p; Value 2 o inc p;
   Del 2 o act; Value 2 o act None; Value 2 o pla p; Del 2 o pla; Value 2 o act None; Value 2 o pla None;
   Set_ 2 o act (SOne (r_ 3 "aposi")); Value 2 o act a; Value 2 o pla None; Value 2 o inc a; Del 2 o inc; Value 2 o act None; Value 2 o pla None; Value 2 o inc None].
Proof. vm_compute. reflexivity. Qed.
Example testSetMixedScalarPredicate :
  let o := E "offering" in let inc := k_ "gr:includes" in let act := kc_ "gr:includes" 3 in let int := kt_ "gr:includes" "integer" in
  let en := LL "foo" "en" in let fr := LL "le foo" "fr" in let dt := LD "42" (xsd "integer") in
  passes (shop ["gr:includes"]%string)
  [New 2 "http://example.com/offering"; New 3 "http://example.com/aposi";
   Set_ 2 o inc (SOne (r_ 3 "aposi")); Value 2 o inc (Some (E "aposi")); Set_ 2 o inc (SOne (ATerm dt)); Value 2 o inc (Some dt); Value 2 o act None;
   Set_ 2 o inc (SOne (ATerm en)); Value 2 o act None; Value 2 o int None; Value 2 o inc (Some en); Value 2 o (kl_ "gr:includes" "en") (Some en); Value 2 o (kl_ "gr:includes" "fr") None;
   Set_ 2 o inc (SOne (ATerm fr)); Value 2 o act None; Value 2 o int None; Value 2 o inc (Some en); Value 2 o (kl_ "gr:includes" "en") (Some en); Value 2 o (kl_ "gr:includes" "fr") (Some fr);
   Set_ 2 o inc (SOne (r_ 3 "aposi")); Value 2 o inc (Some (E "aposi")); Value 2 o int None; Value 2 o (kl_ "gr:includes" "en") None; Value 2 o (kl_ "gr:includes" "fr") None].
Proof. vm_compute. reflexivity. Qed.
(** Offering is 2, PriceSpecification 3 *)
Definition prices : world := reg_ (reg_ world0 "Offering" "gr:Offering" gr []) "PriceSpecification" "gr:PriceSpecification" gr [].
(** testResourcePredicate, 555-596, puts the triples into the graph; here assignments do *)
Example testResourcePredicateAssignment :
  let o := E "offering" in let k := k_ "gr:hasPriceSpecification" in
  passes prices [New 2 "http://example.com/offering"; New 3 "http://example.com/price"; Values 2 o k []; Set_ 2 o k (SOne (r_ 3 "price")); Values 2 o k [E "price"]].
Proof. vm_compute. reflexivity. Qed.
Example testContained : passes world0
  [Set_ 0 t0 (k_ "rdfs:example") (SSet [v_ "foo"; v_ "bar"]); Contains 0 t0 (k_ "rdfs:example") true; Contains 0 t0 (kl_ "rdfs:example" "en") false;
   Contains 0 t0 (k_ "rdfs:examplefoo") false; Del 0 t0 (k_ "rdfs:example"); Contains 0 t0 (k_ "rdfs:example") false; Contains 0 t0 (kl_ "rdfs:example" "en") false;
   Contains 0 t0 (kl_ "rdfs:example" "fr") false; Contains 0 t0 (k_ "rdfs:examplefoo") false; Set_ 0 t0 (kl_ "rdfs:example" "fr") (SOne (v_ "le foo"))].
Proof. vm_compute. reflexivity. Qed.
Example testBack :
  let k := k_ "gr:hasPriceSpecification" in let p := "gr:hasPriceSpecification"%string in
  passes prices
  [New 2 "http://example.com/offering1"; New 2 "http://example.com/offering2"; New 2 "http://example.com/offering3";
   New 3 "http://example.com/price1"; New 3 "http://example.com/price2"; New 3 "http://example.com/price3";
   Set_ 2 (E "offering1") k (SSet [r_ 3 "price1"; r_ 3 "price2"; r_ 3 "price3"]); Set_ 2 (E "offering2") k (SSet [r_ 3 "price2"; r_ 3 "price3"]);
   Back 3 (E "price1") p [E "offering1"]; Back 3 (E "price2") p [E "offering1"; E "offering2"]; Back 3 (E "price3") p [E "offering1"; E "offering2"]].
Proof. vm_compute. reflexivity. Qed.
Definition offers (scalars : list string) : world := reg_ world0 "Offering" "gr:Offering" gr scalars.
Example testGetAllValues :
  let o := E "offering" in let d := k_ "gr:description" in let dl l := kl_ "gr:description" l in let dt t := kt_ "gr:description" t in
  let en := LL "foo" "en" in let fr := LL "bar" "fr" in let es := LL "baz" "es" in let st := L "aap" in let de := LD "9.95" (xsd "decimal") in
  passes (offers [])
  [New 2 "http://example.com/offering";
   Set_ 2 o d (SSet [ATerm en; ATerm fr; ATerm es]); Values 2 o d [en; fr; es]; Values 2 o (dl "en"%string) [en]; Values 2 o (dl "fr"%string) [fr]; Values 2 o (dl "es"%string) [es];
   Values 2 o (kn_ "gr:description") [en; fr; es];
   Set_ 2 o d (SSet [ATerm st; ATerm de]); Values 2 o (dl ""%string) [st]; Values 2 o (dt "string"%string) [st]; Values 2 o (dt "decimal"%string) [de]; Values 2 o (kn_ "gr:description") [st; de];
   Set_ 2 o d (SSet [ATerm en; ATerm fr; ATerm es; ATerm st; ATerm de]); Values 2 o d [en; fr; es; st; de]; Values 2 o (dl "en"%string) [en]; Values 2 o (dl "fr"%string) [fr];
   Values 2 o (dl "es"%string) [es]; Values 2 o (dl ""%string) [st]; Values 2 o (dt "string"%string) [st]; Values 2 o (dt "decimal"%string) [de];
   Values 2 o (kn_ "gr:description") [en; fr; es; st; de]].
Proof. vm_compute. reflexivity. Qed.
Example testGetAllValuesScalar :
  let o := E "offering" in let d := k_ "gr:description" in let dl l := kl_ "gr:description" l in
  let en := LL "foo" "en" in let fr := LL "bar" "fr" in let es := LL "baz" "es" in
  passes (offers ["gr:description"]%string)
  [New 2 "http://example.com/offering"; Set_ 2 o d (SOne (ATerm en)); Set_ 2 o d (SOne (ATerm fr)); Set_ 2 o d (SOne (ATerm es));
   Value 2 o d (Some en); Value 2 o (dl "en"%string) (Some en); Value 2 o (dl "fr"%string) (Some fr); Value 2 o (dl "es"%string) (Some es); Values 2 o (kn_ "gr:description") [en; fr; es]].
Proof. vm_compute. reflexivity. Qed.
Example testErase :
  let a := E "offering1" in let b := E "offering2" in
  passes (offers ["gr:name"]%string)
  [New 2 "http://example.com/offering1"; New 2 "http://example.com/offering2"; Set_ 2 a (k_ "gr:name") (SOne (v_ "Foo")); Set_ 2 a (k_ "gr:description") (SSet [v_ "Baz"; v_ "Garply"]);
   Set_ 2 b (k_ "gr:name") (SOne (v_ "Bar")); Set_ 2 b (k_ "gr:description") (SSet [v_ "Aap"; v_ "Mies"]); IsA 2 a true; IsA 2 b true;
   Erase a; IsA 2 a false; IsA 2 b true; Value 2 a (k_ "gr:name") None; Values 2 a (k_ "gr:description") []; Value 2 b (k_ "gr:name") (Some (LL "Bar" "en"))].
Proof. vm_compute. reflexivity. Qed.
