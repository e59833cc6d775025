{"id": "C01", "title": "Graph behaves as a set of triples", "statement": "After any history of add, addAll and remove calls on a Graph, `in`, len(), iteration and toArray() report exactly the mathematical set of triples obtained by inserting on add and deleting on remove; add of a present triple changes nothing observable; remove of an absent triple raises KeyError and changes nothing; every listed triple is listed once.", "quantifier": "all finite histories of add/addAll/remove with arbitrary triples, including failing removes", "why_tests_cant": "the claim ranges over unbounded histories; four containers are updated by each call and only an inductive invariant shows they never drift apart", "anchors": ["src/pymantic/primitives.py:Graph.add", "src/pymantic/primitives.py:Graph.remove", "src/pymantic/primitives.py:Graph.addAll", "src/pymantic/primitives.py:Graph.__contains__", "src/pymantic/primitives.py:Graph.__len__", "src/pymantic/primitives.py:Graph.__iter__", "src/pymantic/primitives.py:Graph.toArray"]}
{"id": "C02", "title": "match answers every pattern exactly", "statement": "For every reachable Graph and every combination of bound and unbound arguments, match(subject, predicate, object) yields exactly the triples of the graph that agree with all bound arguments, each exactly once, provided no bound argument is the empty IRI.", "quantifier": "all reachable graphs x all eight binding patterns x all terms", "why_tests_cant": "eight code paths read three different indexes; agreement must hold after every possible history, including emptied index entries left by remove", "anchors": ["src/pymantic/primitives.py:Graph.match"]}
{"id": "C03", "title": "match treats an empty NamedNode as a wildcard", "statement": "A bound argument equal to NamedNode(\"\") is not honoured: match behaves as if the argument were None. Hence the documented contract of match (only triples matching all non-null arguments) fails for exactly that term and for no other.", "quantifier": "all reachable graphs and patterns", "why_tests_cant": "tests pick ordinary IRIs; that truthiness goes wrong for one term only, and for no other, is a statement over all terms", "anchors": ["src/pymantic/primitives.py:Graph.match"]}
{"id": "C04", "title": "Queries do not modify a Graph", "statement": "Draining match, `in`, len and iteration leave the graph (its triples and also subjects(), predicates(), objects()) unchanged although the indexes are auto-vivifying dictionaries.", "quantifier": "all reachable graphs, all patterns", "why_tests_cant": "a missing guard would only create index entries for terms that are absent; it must be excluded for every term", "anchors": ["src/pymantic/primitives.py:Graph.match", "src/pymantic/primitives.py:Index"]}
{"id": "C05", "title": "removeMatches on a Graph", "statement": "g.removeMatches(s,p,o) succeeds and removes exactly the matching triples when nothing matches or when all three arguments are bound; in every other case it raises RuntimeError after having removed exactly one of the matching triples.", "quantifier": "all reachable graphs, all patterns", "why_tests_cant": "the call mutates the containers its generator is iterating; which histories and patterns fail is a universal statement about generator/dictionary interleaving", "anchors": ["src/pymantic/primitives.py:Graph.removeMatches", "src/pymantic/primitives.py:Graph.match"]}
{"id": "C06", "title": "subjects/predicates/objects listings", "statement": "subjects(), predicates() and objects() never miss a term in use and list no term twice; they list exactly the terms in use as long as nothing was removed; after removals they list exactly the terms that were ever used (stale terms included).", "quantifier": "all histories of add/addAll/remove", "why_tests_cant": "depends on the complete history, not on the current content", "anchors": ["src/pymantic/primitives.py:Graph.subjects", "src/pymantic/primitives.py:Graph.predicates", "src/pymantic/primitives.py:Graph.objects"]}
{"id": "C07", "title": "merge is set union and leaves its operands alone", "statement": "g1.merge(g2) is a new graph whose triples are exactly the union of both; match on it is exact as in C02; neither operand is modified.", "quantifier": "all pairs of reachable graphs", "why_tests_cant": "all pairs of reachable graphs, including overlapping ones", "anchors": ["src/pymantic/primitives.py:Graph.merge"]}
{"id": "C08", "title": "Graph contents do not depend on insertion order", "statement": "Adding the same triples in any order, with any repetitions, yields graphs that are indistinguishable by in, len, and match up to the order of the listing.", "quantifier": "all permutations and multiplicities of all finite triple lists", "why_tests_cant": "factorially many orders", "anchors": ["src/pymantic/primitives.py:Graph.add", "src/pymantic/primitives.py:Graph.match"]}
{"id": "C09", "title": "Dataset behaves as a set of quads", "statement": "After any history of add, addAll and remove of quads (any graph name, including None) and of match/len/in queries, a Dataset's iteration, `in`, len and toArray report exactly the mathematical set of quads; remove of an absent quad raises KeyError and leaves the quads unchanged.", "quantifier": "all finite histories over all quads", "why_tests_cant": "unbounded histories across an unbounded number of auto-created graphs", "anchors": ["src/pymantic/primitives.py:Dataset.add", "src/pymantic/primitives.py:Dataset.remove", "src/pymantic/primitives.py:Dataset.__iter__", "src/pymantic/primitives.py:Dataset.__contains__", "src/pymantic/primitives.py:Dataset.__len__"]}
{"id": "C10", "title": "Dataset.match is exact and graph-restricted", "statement": "For every reachable Dataset, match(s,p,o,graph) yields exactly the quads agreeing with all arguments that are neither None nor empty IRIs, each once, labelled with their own graph; in particular graph=None can never select the default graph only.", "quantifier": "all reachable datasets, all patterns", "why_tests_cant": "all patterns in all graphs of all reachable datasets", "anchors": ["src/pymantic/primitives.py:Dataset.match"]}
{"id": "C11", "title": "Queries on unknown graph names create graphs", "statement": "Dataset.match with an unknown, truthy graph name and Dataset.remove of a quad in an unknown graph leave the set of quads unchanged but make ds.graphs one element longer; all other queries leave ds.graphs unchanged.", "quantifier": "all reachable datasets, all names", "why_tests_cant": "requires comparing before/after for every dataset and name", "anchors": ["src/pymantic/primitives.py:Dataset.match", "src/pymantic/primitives.py:Dataset.remove", "src/pymantic/primitives.py:Dataset.graphs"]}
{"id": "C12", "title": "add_graph replaces and shares", "statement": "ds.add_graph(g, named) makes the graph called named (or g.uri) hold exactly g's triples, replacing any previous content under that name and leaving other graphs unchanged; later changes made through g are visible in ds; a graph that was never named is accepted under the name \"None\"; ValueError is raised exactly when both names are empty.", "quantifier": "all datasets, graphs, names and later histories of the shared graph", "why_tests_cant": "sharing must hold for all later histories", "anchors": ["src/pymantic/primitives.py:Dataset.add_graph", "src/pymantic/primitives.py:Graph.__init__"]}
{"id": "C13", "title": "one Graph under two names is mislabelled", "statement": "If the same Graph object is added under two different names then iteration yields each of its triples twice under the last name and never under the first one, so iteration and match disagree; without such aliasing they agree.", "quantifier": "all graphs and name pairs; all alias-free histories", "why_tests_cant": "an aliasing property over all histories", "anchors": ["src/pymantic/primitives.py:Dataset.add_graph", "src/pymantic/primitives.py:Dataset.__iter__", "src/pymantic/primitives.py:Dataset.match"]}
{"id": "C14", "title": "Dataset.removeMatches", "statement": "ds.removeMatches removes exactly the matching quads when nothing matches or when subject, predicate and object are all bound; otherwise it raises RuntimeError after removing exactly one matching quad.", "quantifier": "all reachable datasets, all patterns", "why_tests_cant": "generator/dictionary interleaving in nested generators", "anchors": ["src/pymantic/primitives.py:Dataset.removeMatches"]}
{"id": "C15", "title": "remove_graph has no effect", "statement": "Dataset.remove_graph never changes the dataset, so a graph whose name is passed to it stays visible.", "quantifier": "all datasets and arguments", "why_tests_cant": "a universal no-op claim", "anchors": ["src/pymantic/primitives.py:Dataset.remove_graph"]}
{"id": "C16", "title": "N-Triples string escaping round-trips except for dropped control characters", "statement": "For every Python string s, decoding (decode_literal) of nt_escape(s) is s without the C0 control characters other than TAB, LF and CR; so it is s itself exactly when s contains none of them.", "quantifier": "all Python strings (all code points up to U+10FFFF incl. lone surrogates, all lengths)", "why_tests_cant": "1.1 million code points and unbounded contexts in which an escape could merge with its neighbours", "anchors": ["src/pymantic/serializers.py:nt_escape", "src/pymantic/util.py:decode_literal", "src/pymantic/util.py:process_escape"]}
{"id": "C17", "title": "Escaped strings are safe inside quotes", "statement": "nt_escape output consists of printable ASCII only, is accepted by the STRING_LITERAL_QUOTE token between quotes and ends where the serializer ended it; nt_escape is injective on strings free of dropped controls.", "quantifier": "all Python strings", "why_tests_cant": "injection safety is a universal claim", "anchors": ["src/pymantic/serializers.py:nt_escape", "src/pymantic/parsers/lark/ntriples.py:STRING_LITERAL_QUOTE"]}
{"id": "C18", "title": "decode_literal", "statement": "decode_literal is the identity on strings without backslash, never raises except for a \\U escape above 10FFFF (ValueError, or OverflowError above 7FFFFFFF), and decodes each of the eight short escapes, \\uXXXX and \\UXXXXXXXX to the character they denote, in any context.", "quantifier": "all strings", "why_tests_cant": "contexts are unbounded", "anchors": ["src/pymantic/util.py:decode_literal", "src/pymantic/util.py:process_escape"]}
{"id": "C19", "title": "Blank node labels are injective and always legal", "statement": "For any two live BlankNodes the labels written to N-Triples differ, and every label is a legal BLANK_NODE_LABEL token that no following ' ' or '.' can extend.", "quantifier": "all object identities (addresses)", "why_tests_cant": "ranges over all addresses", "anchors": ["src/pymantic/primitives.py:BlankNode.value", "src/pymantic/primitives.py:BlankNode.toNT", "src/pymantic/parsers/lark/ntriples.py:BLANK_NODE_LABEL"]}
{"id": "C20", "title": "NamedNode.toNT emits only legal ASCII IRI text", "statement": "For every IRI string, toNT either raises UnicodeEncodeError, exactly when the string has a lone surrogate, or returns '<' text '>' where text consists of ASCII characters allowed in an IRIREF and is the percent-quoted form of the IRI.", "quantifier": "all strings", "why_tests_cant": "all code points", "anchors": ["src/pymantic/primitives.py:NamedNode.toNT", "src/pymantic/util.py:quote_normalized_iri", "src/pymantic/util.py:percent_encode"]}
{"id": "C21", "title": "quote_normalized_iri", "statement": "Quoting is idempotent, is the identity exactly on strings made of unreserved/reserved ASCII (incl. %), and percent-decoding its output to octets gives the UTF-8 octets of the percent-decoded input.", "quantifier": "all surrogate-free strings", "why_tests_cant": "all strings", "anchors": ["src/pymantic/util.py:quote_normalized_iri"]}
{"id": "C22", "title": "UTF-8 percent coding is lossless", "statement": "Percent-encoding a non-surrogate character and decoding the octets as strict UTF-8 gives the character back, and an octet string decodes only if it is the encoding of the result (no overlong forms, surrogates or out-of-range values).", "quantifier": "all code points / all byte strings", "why_tests_cant": "1.1 million code points, all byte strings", "anchors": ["src/pymantic/util.py:percent_encode", "src/pymantic/util.py:percent_decode"]}
{"id": "C23", "title": "normalize_iri is idempotent on well-formed IRIs", "statement": "normalize_iri(normalize_iri(x)) = normalize_iri(x) for every x in which every % starts a two-digit hex escape and for which normalisation succeeds; without that proviso it fails (witness %%34%31).", "quantifier": "all well-formed IRI strings", "why_tests_cant": "all strings", "anchors": ["src/pymantic/util.py:normalize_iri", "src/pymantic/util.py:percent_decode"]}
{"id": "C24", "title": "normalize and quote are inverse", "statement": "For every IRI u in which every % starts an escape, quote_normalized_iri(normalize_iri(u)) percent-decodes to the same octets as u (without the proviso it may not: %%34%31), and normalize_iri(quote_normalized_iri(n)) = n for every normalised n without characters <= U+0020; normalize_iri raises UnicodeDecodeError exactly when some maximal run of decodable escapes is not valid UTF-8.", "quantifier": "all IRIs / all normalised IRIs", "why_tests_cant": "all strings", "anchors": ["src/pymantic/util.py:normalize_iri", "src/pymantic/util.py:quote_normalized_iri"]}
{"id": "C25", "title": "N-Triples round trip", "statement": "For every finite list of triples whose IRIs are already percent-quoted, whose literals have no dropped control characters, at most one of language and datatype and a language tag the grammar accepts, ntriples_parser.parse_string(serialize_ntriples(...)) yields the same triples up to an injective renaming of blank nodes; in general each IRI comes back percent-quoted and each literal without dropped controls.", "quantifier": "all graphs of all sizes", "why_tests_cant": "unbounded documents; all strings", "anchors": ["src/pymantic/serializers.py:serialize_ntriples", "src/pymantic/parsers/lark/ntriples.py:grammar", "src/pymantic/parsers/lark/ntriples.py:NTriplesTransformer", "src/pymantic/parsers/lark/base.py:LarkParser.parse_string"]}
{"id": "C26", "title": "One line per triple", "statement": "The N-Triples text of a triple contains exactly one newline, at its end, for any subject, predicate and object (with a grammar-conforming language tag), so line-wise processing never splits a triple.", "quantifier": "all serialisable triples", "why_tests_cant": "all strings in all positions", "anchors": ["src/pymantic/primitives.py:Triple.__str__", "src/pymantic/serializers.py:serialize_ntriples"]}
{"id": "C27", "title": "String parsing is atomic, stream parsing is not", "statement": "If ntriples_parser.parse of a string raises, the target graph is unchanged; if parse of a stream raises at line k, the target graph has gained exactly the first triples of the lines before k.", "quantifier": "all strings, all line sequences, all target graphs", "why_tests_cant": "crash points at every line", "anchors": ["src/pymantic/parsers/lark/base.py:LarkParser.parse", "src/pymantic/parsers/lark/base.py:LarkParser.line_by_line_parser"]}
{"id": "C28", "title": "Stream and string parsing agree on one-triple lines", "statement": "Parsing a stream of lines that are neither empty nor blank, contain no CR and end in LF, and parsing their concatenation either both succeed with the same graph or both raise, and then the same exception. A blank line makes the stream parser raise RuntimeError while the string parser skips empty lines (and refuses a whitespace-only line after another line end, with a syntax error unless a line before it raises); a stream line holding two triples separated by CR silently loses all but the first.", "quantifier": "all documents", "why_tests_cant": "all documents", "anchors": ["src/pymantic/parsers/lark/base.py:LarkParser.line_by_line_parser", "src/pymantic/parsers/lark/ntriples.py:triples_start"]}
{"id": "C29", "title": "Blank node labels are scoped to one parse call of one thread", "statement": "For every interleaving of parse calls in any number of threads, two label mentions denote the same BlankNode iff they have the same label, thread and parse call.", "quantifier": "all schedules of all threads' parse calls", "why_tests_cant": "schedules are unbounded", "anchors": ["src/pymantic/parsers/base.py:BaseParser.make_blank_node", "src/pymantic/parsers/base.py:BaseParser._prepare_parse", "src/pymantic/parsers/base.py:BaseParser._cleanup_parse"]}
{"id": "C30", "title": "Parsing only adds", "statement": "Parsing into an existing graph never removes a triple from it and adds only triples of the document.", "quantifier": "all graphs and documents", "why_tests_cant": "all documents", "anchors": ["src/pymantic/parsers/lark/base.py:LarkParser.parse"]}
{"id": "C31", "title": "Whitespace inside an N-Triples IRI is silently dropped", "statement": "The N-Triples parser accepts spaces and tabs anywhere inside <...> and returns the IRI without them; so an illegal document is accepted and two different texts denote the same IRI.", "quantifier": "all IRIs, all placements of blanks", "why_tests_cant": "all placements", "anchors": ["src/pymantic/parsers/lark/ntriples.py:iriref"]}
{"id": "C32", "title": "Language tags with digits other than 0 and 9", "statement": "The N-Triples parser accepts exactly the language tags whose first subtag is letters and whose later subtags consist of letters, '0', '9' and '_'; a literal tagged e.g. de-1996 is written by the serializer but rejected by the parser.", "quantifier": "all language strings", "why_tests_cant": "all strings", "anchors": ["src/pymantic/parsers/lark/ntriples.py:LANGTAG", "src/pymantic/primitives.py:Literal.toNT"]}
{"id": "C33", "title": "N-Quads serialisation cannot be read back", "statement": "str(quad) does not quote its terms: no output of serialize_nquads containing a quad whose subject IRI starts with a letter is accepted by nquads_parser, and quads with different object kinds can serialise identically.", "quantifier": "all quads", "why_tests_cant": "all quads", "anchors": ["src/pymantic/primitives.py:Quad.__str__", "src/pymantic/serializers.py:serialize_nquads", "src/pymantic/parsers/lark/nquads.py:nq_lark"]}
{"id": "C34", "title": "N-Quads parsed without a target go to a Graph that cannot hold them", "statement": "nquads_parser.parse without a graph argument returns a Graph; two quads differing only in graph name are both counted and iterated but match reports only the later one, and removing both raises KeyError.", "quantifier": "all pairs of such quads", "why_tests_cant": "index collisions for all quads", "anchors": ["src/pymantic/parsers/lark/nquads.py:NQuadsTransformer", "src/pymantic/parsers/base.py:BaseParser._make_graph", "src/pymantic/primitives.py:Graph.add"]}
{"id": "C35", "title": "Absolute IRIs are never rewritten by prefixes", "statement": "parse_curie(x, prefixes) returns x itself whenever the text before the first ':' is a registered scheme and x is not bracketed, whatever the prefix map.", "quantifier": "all strings and prefix maps", "why_tests_cant": "all maps", "anchors": ["src/pymantic/primitives.py:parse_curie", "src/pymantic/uri_schemes.py:schemes"]}
{"id": "C36", "title": "parse_curie decision procedure", "statement": "parse_curie returns namespace+reference for a known prefix, uses the default namespace for a missing reference when one exists, raises ValueError for unknown prefixes and IndexError for the empty string, and never anything else.", "quantifier": "all strings and prefix maps", "why_tests_cant": "all maps", "anchors": ["src/pymantic/primitives.py:parse_curie"]}
{"id": "C37", "title": "to_curie/parse_curie round trip", "statement": "If to_curie abbreviates uri by a prefix that is colon-free, not a registered scheme, whose namespace occurs once in uri, with non-empty remainder (or no default prefix) and the result is not bracketed, then parse_curie of the result is uri; each proviso is necessary.", "quantifier": "all URIs and prefix maps", "why_tests_cant": "all maps and URIs", "anchors": ["src/pymantic/primitives.py:to_curie", "src/pymantic/primitives.py:parse_curie", "src/pymantic/primitives.py:PrefixMap.shrink", "src/pymantic/primitives.py:PrefixMap.resolve"]}
{"id": "C38", "title": "to_curie picks the longest namespace", "statement": "to_curie uses the first-inserted among the longest namespaces that are prefixes of the URI, and returns the URI unchanged iff no namespace is a prefix of it (or the replacement is the identity).", "quantifier": "all URIs and maps", "why_tests_cant": "all maps", "anchors": ["src/pymantic/primitives.py:to_curie"]}
{"id": "C39", "title": "TermMap resolve/shrink", "statement": "For every term map: resolve(shrink(iri)) = iri for every iri that is the value of some term; shrink returns the first term that has the iri, and the iri itself when no term has it; resolve of an unknown term is default+term, or None without default.", "quantifier": "all term maps", "why_tests_cant": "all maps", "anchors": ["src/pymantic/primitives.py:TermMap.resolve", "src/pymantic/primitives.py:TermMap.shrink"]}
{"id": "C40", "title": "PrefixMap/TermMap.addAll", "statement": "addAll(other, override): with override every binding of other wins, without it every existing binding survives; unbound keys take other's value; keys of neither stay unbound; other is unchanged. importProfile does this for both maps.", "quantifier": "all maps", "why_tests_cant": "all maps", "anchors": ["src/pymantic/primitives.py:PrefixMap.addAll", "src/pymantic/primitives.py:TermMap.addAll", "src/pymantic/primitives.py:Profile.importProfile"]}
{"id": "C41", "title": "Profile defaults", "statement": "A new Profile always resolves rdf: and xsd:, keeps every binding it was given and binds nothing else; a supplied empty map is silently replaced by a private one.", "quantifier": "all supplied maps", "why_tests_cant": "all maps", "anchors": ["src/pymantic/primitives.py:Profile.__init__"]}
{"id": "C42", "title": "createProfile shares the environment's prefixes", "statement": "After env.createProfile(), setPrefix on either of env and the profile changes both, for every later history; createPrefixMap and createTermMap return independent copies.", "quantifier": "all environments and histories of setPrefix/setTerm", "why_tests_cant": "aliasing over histories", "anchors": ["src/pymantic/primitives.py:RDFEnvironment.createProfile", "src/pymantic/primitives.py:RDFEnvironment.createPrefixMap", "src/pymantic/primitives.py:RDFEnvironment.createTermMap"]}
{"id": "C43", "title": "lang_match", "statement": "lang_match is reflexive and symmetric, matches iff primary subtags are equal and one tag has no further subtags or the rests are equal, and is not transitive; None matches only None.", "quantifier": "all pairs of tags", "why_tests_cant": "all strings", "anchors": ["src/pymantic/primitives.py:lang_match"]}
{"id": "C44", "title": "Literal construction", "statement": "Literal(v) keeps strings as they are, stores ints as their decimal text with xsd:integer unless a datatype is given, and raises KeyError for any other type (bool included) except datetime; the decimal text determines the int.", "quantifier": "all values", "why_tests_cant": "all integers", "anchors": ["src/pymantic/primitives.py:Literal.__new__"]}
{"id": "C45", "title": "turtle_string_escape round trip", "statement": "Decoding turtle_string_escape(s) as a Turtle quoted string gives s back exactly when s has no '\"', backslash, LF or CR; in particular no character is ever escaped.", "quantifier": "all strings", "why_tests_cant": "all strings", "anchors": ["src/pymantic/serializers.py:turtle_string_escape", "src/pymantic/util.py:ECHAR_MAP"]}
{"id": "C46", "title": "serialize_turtle and blank nodes", "statement": "serialize_turtle raises AttributeError, having written only the header, for every graph with a triple whose subject is a blank node that is no list cell. With a blank node that is no list cell as an object (of a subject that is no list cell) it never succeeds. For RDF graphs without empty IRIs whose list objects end or break off, it succeeds exactly when there is no such blank node and every list object is a list of literals without language, in English, or with a datatype; otherwise it raises AttributeError.", "quantifier": "all graphs", "why_tests_cant": "all graphs", "anchors": ["src/pymantic/serializers.py:turtle_repr", "src/pymantic/serializers.py:serialize_turtle", "src/pymantic/serializers.py:default_bnode_name_generator"]}
{"id": "C47", "title": "Typed literals in Turtle output", "statement": "A literal with a datatype other than xsd:string/integer/decimal/double/boolean is written with a single '^', which no Turtle parser reads back; numeric and boolean literals are written verbatim without validation.", "quantifier": "all literals", "why_tests_cant": "all literals", "anchors": ["src/pymantic/serializers.py:turtle_repr"]}
{"id": "C48", "title": "Lists in Turtle output", "statement": "When serialize_turtle succeeds, the text is the header and one block for each subject without rdf:rest, with exactly its triples; a triple whose subject has an rdf:rest appears only as part of a list written inline where it is an object, with the elements in order. A list with an IRI or blank node element, or a literal in a language other than English, raises AttributeError.", "quantifier": "all graphs", "why_tests_cant": "all graphs", "anchors": ["src/pymantic/serializers.py:serialize_turtle", "src/pymantic/rdf.py:List"]}
{"id": "C49", "title": "Turtle collections become well-formed RDF lists", "statement": "A collection of n nodes yields 2n triples that form an rdf:first/rdf:rest chain of fresh blank nodes ending in rdf:nil, whose elements in order are the given nodes.", "quantifier": "all lengths and elements", "why_tests_cant": "unbounded lengths and nesting", "anchors": ["src/pymantic/parsers/lark/turtle.py:TurtleTransformer.collection"]}
{"id": "C50", "title": "Nested blank node property lists", "statement": "For every document without a multi-object list containing a nested structure, the triples produced are those of the Turtle semantics; with such a list a Python generator object is stored as the object and the nested triples are lost.", "quantifier": "all parse trees", "why_tests_cant": "unbounded nesting", "anchors": ["src/pymantic/parsers/lark/turtle.py:unpack_predicate_object_list", "src/pymantic/parsers/lark/turtle.py:TurtleTransformer.blank_node_property_list"]}
{"id": "C51", "title": "Prefix and base directives are scoped by position", "statement": "Every prefixed name is expanded with the latest binding of its prefix before it in document order and every relative IRI with the latest base; an unbound prefix makes the parse fail (the KeyError is wrapped by lark as VisitError); no binding survives into another parse call.", "quantifier": "all documents", "why_tests_cant": "all documents", "anchors": ["src/pymantic/parsers/lark/turtle.py:TurtleTransformer.prefix_id", "src/pymantic/parsers/lark/turtle.py:TurtleTransformer.base", "src/pymantic/parsers/lark/turtle.py:TurtleTransformer.prefixed_name"]}
{"id": "C52", "title": "validate_iri", "statement": "validate_iri accepts exactly the strings without illegal characters and, wrongly, also those followed by one newline.", "quantifier": "all strings", "why_tests_cant": "all strings", "anchors": ["src/pymantic/parsers/lark/turtle.py:validate_iri", "src/pymantic/parsers/lark/turtle.py:LEGAL_IRI"]}
{"id": "C53", "title": "Plain literals differ between formats", "statement": "For every string s, the Turtle parser yields Literal(s, datatype=xsd:string) and the N-Triples parser yields Literal(s): the same RDF literal is never equal across the two parsers.", "quantifier": "all strings", "why_tests_cant": "all strings", "anchors": ["src/pymantic/parsers/lark/turtle.py:TurtleTransformer.rdf_literal", "src/pymantic/parsers/lark/ntriples.py:NTriplesTransformer.literal"]}
{"id": "C54", "title": "Resource read access", "statement": "r[p], r[p, lang], r[p, datatype], r[p, class], r[p, None], get_scalar and `in` select exactly the objects described by the key for r's subject; `key in r` is true iff the selection is non-empty; a key that is no CURIE raises the same error everywhere and changes nothing. If no object of the predicate has two registered types, a key with a class never fails with TypeError and makes no class.", "quantifier": "all graphs, subjects, keys", "why_tests_cant": "all graphs and keys", "anchors": ["src/pymantic/rdf.py:Resource._objects_for_key", "src/pymantic/rdf.py:Resource.__getitem__", "src/pymantic/rdf.py:Resource.__contains__"]}
{"id": "C55", "title": "del r[key] removes what r[key] selects", "statement": "del r[key] removes exactly the triples whose objects r[key] selects and nothing else, for every graph and key (non-empty subject IRI). If no object of the predicate has two registered types, deleting by class succeeds and makes no class.", "quantifier": "all graphs and keys", "why_tests_cant": "all graphs and keys", "anchors": ["src/pymantic/rdf.py:Resource.__delitem__"]}
{"id": "C56", "title": "r[key] = value has a frame", "statement": "Setting never changes a triple with another subject or predicate; on ValueError the graph is unchanged; on success the predicate's objects are the unselected old ones plus the new ones. A fitting value is accepted; if no node involved has two registered types, setting it never fails with TypeError and makes no class.", "quantifier": "all graphs, keys, values", "why_tests_cant": "all graphs, keys and values", "anchors": ["src/pymantic/rdf.py:Resource.__setitem__", "src/pymantic/rdf.py:Resource._objects_for_implicit_set", "src/pymantic/rdf.py:Resource._objects_for_explicit_set"]}
{"id": "C57", "title": "Scalars stay scalar per language", "statement": "After r[p] = text on a scalar predicate of a class with a non-empty language, r[p] returns that text and no other literal in the language, typed or bare literal or node is left; r[p, lang] = text and r[p, datatype] = text read back likewise. With the empty string as class language r[p] = text is not read back.", "quantifier": "all graphs", "why_tests_cant": "all graphs", "anchors": ["src/pymantic/rdf.py:Resource.__setitem__", "src/pymantic/rdf.py:Resource.__getitem__"]}
{"id": "C58", "title": "erase", "statement": "erase removes exactly the triples of the resource's subject; for the empty-IRI subject it removes every triple of the graph.", "quantifier": "all graphs and subjects", "why_tests_cant": "all graphs", "anchors": ["src/pymantic/rdf.py:Resource.erase"]}
{"id": "C59", "title": "copy never copies", "statement": "Resource.copy raises AttributeError for every resource that has a triple, and leaves the graph with one phantom triple that `in` and len report but match by subject does not; the target gets no usable triple.", "quantifier": "all graphs and subjects with a triple", "why_tests_cant": "all graphs", "anchors": ["src/pymantic/rdf.py:Resource.copy", "src/pymantic/primitives.py:Graph.add"]}
{"id": "C60", "title": "new never creates a blank node", "statement": "Resource.new(graph) and Resource.new(graph, bnode) make the subject an IRI whose text is the blank node's label; the graph gains exactly one rdf:type triple per class, and is_a() then holds.", "quantifier": "all graphs and classes", "why_tests_cant": "all graphs", "anchors": ["src/pymantic/rdf.py:Resource.new"]}
{"id": "C61", "title": "in_graph", "statement": "For a class with one RDF type in_graph returns exactly the subjects with that type; with several types it is exact when some subject has them all, otherwise it may return subjects lacking some of them.", "quantifier": "all graphs and class sets", "why_tests_cant": "all graphs", "anchors": ["src/pymantic/rdf.py:Resource.in_graph"]}
{"id": "C62", "title": "List iteration", "statement": "Iterating a List whose chain is well-formed yields its elements in order (a literal in a language other than the class's as None; a node as an instance of the class registered for its type, or of Resource without one) and stops; on a cyclic chain it never stops; on a broken chain it yields one value more and raises AttributeError; only nodes with several registered types can make it raise TypeError instead.", "quantifier": "all lists of all lengths", "why_tests_cant": "unbounded lengths; non-termination", "anchors": ["src/pymantic/rdf.py:List.__iter__", "src/pymantic/rdf.py:List.is_list"]}
{"id": "C63", "title": "classify", "statement": "classify returns None/literals unchanged, a plain Resource when no type is registered, an instance of the registered class when exactly one is, and otherwise an instance of exactly the registered classes and their bases, or a TypeError that changes nothing; repeating it gives the same class. This needs the classes to be registered before the first combined class is made. The TypeError occurs only if the registered classes, in the order in which the types are iterated, are no possible bases of a class: never for classes below Resource only, always if one class is registered for two of the types.", "quantifier": "all graphs and registries", "why_tests_cant": "all registries", "anchors": ["src/pymantic/rdf.py:Resource.classify", "src/pymantic/rdf.py:register_class"]}
{"id": "C64", "title": "Class prefix inheritance", "statement": "A Resource subclass's own prefixes override inherited ones; among several bases the last base wins; its scalars are its bases' and its own; parents are unaffected.", "quantifier": "all class hierarchies", "why_tests_cant": "all hierarchies", "anchors": ["src/pymantic/rdf.py:MetaResource.__new__"]}
{"id": "C65", "title": "differences and changeset", "statement": "differences(a,b) returns disjoint lists without repetition such that removing the first from a and adding the second gives b (with exclude: the excluded predicates stay as in a); the changeset graph describes exactly these statements, one fresh node each, and a reader can recover both lists from it.", "quantifier": "all pairs of graphs", "why_tests_cant": "all graphs", "anchors": ["src/pymantic/sparql.py:differences", "src/pymantic/sparql.py:changeset", "src/pymantic/sparql.py:reify"]}
{"id": "C66", "title": "SPARQL request construction", "statement": "query/update issue exactly one request, to query_url and with the verify argument, which is one of the three forms the SPARQL 1.1 Protocol allows for the operation (the form determined by post_directly, post_queries and the kind; all graph arguments and the UTF-8 text included); a text that cannot be encoded raises UnicodeEncodeError and sends nothing. Status 204 gives True for updates and AttributeError for queries; any other status than 200 raises SPARQLQueryException; a query answered with RDF/XML, Turtle or XML results always raises TypeError, so only JSON results are ever returned.", "quantifier": "all servers, queries, graph arguments, responses", "why_tests_cant": "all combinations", "anchors": ["src/pymantic/sparql.py:_SelectOrUpdate.execute", "src/pymantic/sparql.py:_Select.execute", "src/pymantic/sparql.py:_Update"]}
{"id": "C67", "title": "Graph store operations never reach the network", "statement": "get, put, post, delete and patch of UpdateableGraphStore/PatchableGraphStore raise AttributeError before sending any request, for every argument (or the exception of serialize); if a program sets the missing attribute server, the only call that sends anything is post(None, graph).", "quantifier": "all stores and arguments", "why_tests_cant": "a universal failure", "anchors": ["src/pymantic/sparql.py:UpdateableGraphStore", "src/pymantic/sparql.py:PatchableGraphStore"]}
{"id": "C68", "title": "JSON-LD conversion", "statement": "parse_json adds to its sink, for every triple of every graph of the to_rdf result, exactly one quad with IRIs, literals (language and datatype both kept) and blank nodes mapped consistently and injectively to new nodes; the default graph becomes None; other sinks are untouched; blank graph names become IRIs (so RDF's meaning of them is lost) and language strings differ from those of the N-Triples parser. document.parse raises AttributeError as soon as there is a triple, except after a failed parse_json, when it writes to that call's sink.", "quantifier": "all to_rdf results", "why_tests_cant": "all datasets", "anchors": ["src/pymantic/parsers/jsonld.py:PyLDLoader.process_jobj", "src/pymantic/parsers/jsonld.py:PyLDLoader.process_triple_fragment"]}
{"id": "C69", "title": "RDF/XML parsing always fails", "statement": "RDFXMLParser.parse raises for every document: the root element never compares equal to a string.", "quantifier": "all documents", "why_tests_cant": "universal failure", "anchors": ["src/pymantic/parsers/rdfxml.py:RDFXMLParser.parse"]}
{"id": "C70", "title": "smart_urljoin keeps an empty fragment", "statement": "smart_urljoin(base, url) ends with '#' whenever url does, and is urljoin(base, url) otherwise, whatever urljoin returns.", "quantifier": "all base/url strings and any urljoin", "why_tests_cant": "all strings", "anchors": ["src/pymantic/util.py:smart_urljoin"]}
{"id": "C71", "title": "one_or_none and grouper", "statement": "one_or_none returns None / the only element / ValueError by length; grouper(xs, n) regroups xs without loss, padding only the last group.", "quantifier": "all sequences", "why_tests_cant": "all lengths", "anchors": ["src/pymantic/util.py:one_or_none", "src/pymantic/util.py:grouper"]}
{"id": "C72", "title": "A nested parse in the same thread breaks the outer parse", "statement": "If, inside a parse call, the same thread runs another complete parse call on the same parser object, every later blank node label of the outer call and its cleanup raise AttributeError.", "quantifier": "all schedules, all nestings", "why_tests_cant": "needs a parse re-entered at every point of another", "anchors": ["src/pymantic/parsers/base.py:BaseParser._cleanup_parse", "src/pymantic/parsers/lark/base.py:LarkParser.parse"]}
{"id": "C73", "title": "A language tag can smuggle triples into N-Triples output", "statement": "The language of a Literal is written unescaped: for every literal triple and every serialisable triple t2 there is a language string whose literal serialises to a text that parses as two triples, the second being t2.", "quantifier": "all literal triples, all smuggled triples", "why_tests_cant": "the set of injected triples is infinite", "anchors": ["src/pymantic/primitives.py:Literal.toNT", "src/pymantic/serializers.py:serialize_ntriples"]}
{"id": "C74", "title": "Statement kinds of the two line parsers", "statement": "nquads_parser yields only quads named by an IRI and ntriples_parser only triples; no text with a statement is accepted by both, so N-Quads documents using the default graph or blank graph names are rejected.", "quantifier": "all texts", "why_tests_cant": "all documents of a grammar", "anchors": ["src/pymantic/parsers/lark/nquads.py:grammar", "src/pymantic/parsers/lark/ntriples.py:grammar"]}
{"id": "C75", "title": "Copies of a term map lose the default vocabulary", "statement": "createTermMap() copies the terms but not the default vocabulary, so an unknown term that the environment resolves is None in the copy; createProfile() of an environment without terms gets a fresh term map, so the default vocabulary is lost there as well.", "quantifier": "all environments and terms", "why_tests_cant": "The tests never set a default vocabulary before copying.", "anchors": ["src/pymantic/primitives.py:723-729", "src/pymantic/primitives.py:821-827"]}
{"id": "C76", "title": "Profile.resolve and parse_curies", "statement": "Profile.resolve of a text with a colon is the meaning of the CURIE under the prefix map or ValueError (never None, against its docstring), and of any other text the term map's answer; parse_curies yields exactly the resolved prefix of its input up to the first CURIE that fails.", "quantifier": "all profiles, texts and lists", "why_tests_cant": "The tests resolve a few names; none covers the failing cases.", "anchors": ["src/pymantic/primitives.py:86-89", "src/pymantic/primitives.py:731-743"]}
{"id": "C77", "title": "An unknown name without a colon selects everything", "statement": "If a key has no colon and no meaning in the class or the global profile, r[key] returns the objects of every predicate of the subject, `key in r` is true iff the subject has any triple, and del r[key] raises KeyError and changes nothing.", "quantifier": "all graphs, subjects, keys", "why_tests_cant": "a misspelt key looks like data; tests only use keys that exist", "anchors": ["src/pymantic/rdf.py:154-160", "src/pymantic/rdf.py:461-489"]}
{"id": "C78", "title": "Profile setters", "statement": "setPrefix, setDefaultPrefix, setTerm and setDefaultVocabulary change exactly one binding of one map: names with the new prefix (or the empty one) and the new term resolve to the new IRI, all other bindings and all other maps stay.", "quantifier": "all reachable profile heaps, keys and values", "why_tests_cant": "every sharing structure of maps and profiles", "anchors": ["src/pymantic/primitives.py:Profile.setPrefix", "src/pymantic/primitives.py:Profile.setDefaultPrefix", "src/pymantic/primitives.py:Profile.setTerm", "src/pymantic/primitives.py:Profile.setDefaultVocabulary", "src/pymantic/primitives.py:PrefixMap.setDefault"]}
{"id": "C79", "title": "Adding a parsed Turtle document to a graph", "statement": "Parsing a Turtle document into an existing graph is all or nothing: an error in the document leaves the graph unchanged, and a document with a meaning adds exactly its triples (blank nodes being new ones).", "quantifier": "all documents and graphs", "why_tests_cant": "all documents", "anchors": ["src/pymantic/parsers/lark/turtle.py:parse"]}
{"id": "C80", "title": "Turtle output is ordered by name", "statement": "If every subject has at most one object per predicate, the text serialize_turtle writes depends only on the set of triples (and of subjects listed), not on the order in which they were added: subjects and predicates are written in strictly increasing order of their names, ties by IRI. With several objects per predicate the order of addition shows.", "quantifier": "all graphs, all orders of addition", "why_tests_cant": "all graphs and orders", "anchors": ["src/pymantic/serializers.py:turtle_sorted_names", "src/pymantic/serializers.py:serialize_turtle"]}
{"id": "C81", "title": "RDF/XML resources", "statement": "Past the root check, _handle_resource accepts no element name in a namespace except rdf:Description (resource) and rdf:li (property), raises KeyError for rdf:about without rdf:resource, drops property elements without rdf:resource, has no predicate for rdf:li but the one before it, and leaves every reference that starts with a letter unresolved. What it reads from an element when it does not raise - subject, type, one triple per property element - is exactly characterised. The exception for another name in a namespace is AttributeError, and the triples read before it stay in the graph.", "quantifier": "all elements, attributes, children and bases", "why_tests_cant": "universal failures and all references", "anchors": ["src/pymantic/parsers/rdfxml.py:RDFXMLParser._handle_resource", "src/pymantic/parsers/rdfxml.py:RDFXMLParser._resolve_tag", "src/pymantic/parsers/rdfxml.py:RDFXMLParser._determine_subject", "src/pymantic/parsers/rdfxml.py:RDFXMLParser._resolve_uri"]}
{"id": "C82", "title": "Turtle texts and parse trees", "statement": "The Turtle grammar, as lexed and parsed, is the W3C one: every text of a document (with white space where two tokens could run together) is parsed into that document, every parsed text is a text of its result, and every other text is a LarkError. The case-insensitive keywords BASE and PREFIX also match the long s and the dotted and dotless i.", "quantifier": "all texts and all documents", "why_tests_cant": "all texts of all documents, and all texts of none", "anchors": ["src/pymantic/parsers/lark/turtle.py:grammar", "src/pymantic/parsers/lark/turtle.py:parse"]}
{"id": "C83", "title": "Parsing Turtle texts, bytes and streams", "statement": "parse of a str adds exactly the triples the text means (fresh blank nodes, nothing else changed), or raises and leaves the graph as it was; bytes are read as UTF-8; a stream is never parsed, since the text read from it is replaced by the stream object.", "quantifier": "all texts, bytes, graphs and bases, any urljoin", "why_tests_cant": "all texts and graphs", "anchors": ["src/pymantic/parsers/lark/turtle.py:parse", "src/pymantic/parsers/lark/turtle.py:parse_string"]}
{"id": "C84", "title": "The header of Turtle output", "statement": "The header of serialize_turtle is the Turtle text of one @base directive (if a base is given) and one @prefix directive per prefix of the profile, in order, except rdf, which is never declared; a reader that binds rdf beforehand has the base and all the prefixes in force after it, any other reader cannot read names with the prefix rdf, and a profile that binds rdf to another namespace is read back wrongly.", "quantifier": "all prefix maps and bases", "why_tests_cant": "all prefix maps and bases", "anchors": ["src/pymantic/serializers.py:serialize_turtle"]}
{"id": "C85", "title": "Names and literals in Turtle output can be read back", "statement": "turtle_repr writes an IRI as <iri>, as prefix:rest for the longest namespace, or relative to the base; nothing is escaped. The text reads back as the IRI exactly when it is legal and resolves to itself, when the rest is a PN_LOCAL that needs no escape, or when the base resolves it so; a literal reads back exactly when it has no quote, backslash or line end, its language is a LANGTAG, and a number or truth value has the syntax of its type.", "quantifier": "all IRIs, literals, prefix maps and bases, any resolution", "why_tests_cant": "all strings and maps; the cases that go wrong are silent", "anchors": ["src/pymantic/serializers.py:turtle_repr", "src/pymantic/serializers.py:escape_prefix_local"]}
{"id": "C86", "title": "Turtle round trip", "statement": "A graph that can be written, whose names and literals are readable and that keeps no subject of removed triples, is written as Turtle text that means its triples (literals without a type as xsd:string, lists with new cells); the library's own parser adds exactly these triples if no list is among several objects. Otherwise the text may be no Turtle, be read as other triples, or lose triples of list cells.", "quantifier": "all graphs, prefix maps, bases, any urljoin, any set order", "why_tests_cant": "all graphs: the composition of the serializer and the parser", "anchors": ["src/pymantic/serializers.py:serialize_turtle", "src/pymantic/parsers/lark/turtle.py:parse"]}
{"id": "C87", "title": "References are resolved as RFC 3986 says", "statement": "smart_urljoin with CPython's urljoin gives, for a base with an authority and a listed hierarchical scheme and a reference without empty segments, empty query, trailing ';' or '..;' in its last segment, exactly the target of RFC 3986 section 5.2, which is unique; absolute references and network-path references without dot segments likewise; an IRIREF of a Turtle document accordingly. Outside of these conditions urllib deviates: the empty reference keeps the base's fragment, an empty query the base's query, dot segments of absolute references stay, empty segments vanish, references to urn: and similar bases stay relative, 'http:g' is relative, parameters are split off, a missing authority is added, upper case schemes are lowered.", "quantifier": "all bases and references of RFC 3986 (components of any length)", "why_tests_cant": "unbounded nesting of dot segments, all combinations of components", "anchors": ["src/pymantic/util.py:smart_urljoin", "src/pymantic/parsers/lark/turtle.py:iri"]}
{"id": "C88", "title": "Turtle documents and output with the real urljoin", "statement": "With CPython's urljoin a Turtle document whose references are among those of C87 adds exactly the triples that it means by RFC 3986; and Turtle output with or without a base is read back as in C86, given plain conditions on the prefixes, the base and the names (below a base that ends in '/' or '#', in a namespace, or outside). A name below any other base may be misread, and with a urn: base references stay relative.", "quantifier": "all documents, graphs, prefix maps and bases", "why_tests_cant": "composition of serializer, parser and reference resolution over all graphs", "anchors": ["src/pymantic/parsers/lark/turtle.py:parse", "src/pymantic/serializers.py:serialize_turtle", "src/pymantic/util.py:smart_urljoin"]}
{"id": "C89", "title": "Importing pymantic.vocab.skos", "statement": "vocab/skos.py declares its prefix and scalar under names (namespaces, scaler) the metaclass does not read. So importing it raises ValueError unless the global profile already binds skos; nothing is registered then. With the prefix bound, exactly skos:Concept and skos:ConceptScheme become registered, for the two new classes, whose only scalar is rdfs:label: skos:prefLabel returns every label.", "quantifier": "all worlds (class registries, global profiles) reachable by the operations, all graphs", "why_tests_cant": "the outcome depends on the state of the process-wide profile at import time", "anchors": ["src/pymantic/vocab/skos.py", "src/pymantic/rdf.py:register_class", "src/pymantic/rdf.py:MetaResource"]}
{"id": "C90", "title": "Resources as values", "statement": "Two Resources are equal exactly when their subjects are, whatever their class and graph; a Resource with an IRI as subject equals that IRI as str or NamedNode, in both directions; == is symmetric and != its negation; leaving aside Resources of blank nodes, == is an equivalence that hashing respects; a set keeps the first Resource of each subject; as_ gives an equal Resource. With blank nodes == is neither transitive nor consistent with hash.", "quantifier": "all values, all hash functions", "why_tests_cant": "equality laws quantify over all values and all interpreters' hash functions", "anchors": ["src/pymantic/rdf.py:Resource.__eq__", "src/pymantic/rdf.py:Resource.__ne__", "src/pymantic/rdf.py:Resource.__hash__", "src/pymantic/rdf.py:Resource.as_"]}
{"id": "C91", "title": "The text of a Resource", "statement": "str(r) is the only label selected for r['rdfs:label'], else the IRI or blank node label of the subject; it raises when several labels are selected, when the label is a node, and when the class gives the prefix rdfs another meaning under which the label is no scalar.", "quantifier": "all graphs, worlds, classes and subjects", "why_tests_cant": "all graphs; the error cases depend on class definitions", "anchors": ["src/pymantic/rdf.py:Resource.__str__"]}
{"id": "C92", "title": "object_of and iteration", "statement": "object_of yields, once each, the subjects (classified) and predicates of the triples whose object is the resource, for one predicate if one is given, until classification fails; the class of each instance has exactly the classes written for the registered types of that subject, and their bases, and without subjects of several registered types it never fails and the class is the registered one or Resource; a predicate that does not resolve raises ValueError, or, without a colon, is ignored; iterating over a resource lists the predicate-object pairs of its triples.", "quantifier": "all graphs, worlds, classes, subjects and keys", "why_tests_cant": "all graphs; generators interleaved with class creation", "anchors": ["src/pymantic/rdf.py:Resource.object_of", "src/pymantic/rdf.py:Resource.__iter__", "src/pymantic/rdf.py:Resource.classify"]}
{"id": "C93", "title": "Tuple classes as Python objects: _make, _asdict, _replace, copying", "statement": "Triple, Quad and Literal: _make takes exactly as many items as the class has fields and raises TypeError otherwise; the attributes and _asdict give the items by field name; _replace gives an instance of the same class in which exactly the named fields are changed, raises ValueError for a name that is no field and TypeError for the name _self; _replace with all fields of another instance gives that instance. copy.copy and pickle give back every Triple and Quad, every Literal made by its constructor, and every Literal whose value is a str; a Literal with an int or datetime value (possible through _make and _replace, which bypass the conversion of the constructor) comes back as a different Literal, and one with another value cannot be copied (KeyError). Equality of tuples ignores the class. The constructors take exactly three, exactly four, or one to three arguments (TypeError otherwise), and Literal's missing arguments are None.", "quantifier": "for all instances, items and keyword arguments", "why_tests_cant": "tests use single instances; which combinations of constructor, _make, _replace and copying agree is a statement about all values", "anchors": ["src/pymantic/primitives.py:116-164", "src/pymantic/primitives.py:166-214", "src/pymantic/primitives.py:225-286"]}
{"id": "C94", "title": "Environment create methods for graphs and datasets", "statement": "createGraph of a list of triples is a graph with exactly those triples, each listed once, and createGraph of toArray of a graph lists the same triples; createDataset of a list of quads lists exactly those quads, each once, fails with AttributeError if any item is a triple, and createDataset of toArray of a dataset lists the same quads.", "quantifier": "for all lists of triples and quads, all reachable graphs and datasets", "why_tests_cant": "tests build graphs from a few triples; the copy property is about all reachable graphs and datasets", "anchors": ["src/pymantic/primitives.py:802-809", "src/pymantic/primitives.py:837-840"]}
{"id": "C95", "title": "N-Triples and N-Quads from the text on: accepted texts, added triples, errors", "statement": "A text is parsed into a document if and only if it is a text of that document by a grammar stated as relations (W3C's N-Triples grammar of statements, white space and line ends, with this library's tokens), so each text has at most one document. Parsing a string whose document has a meaning adds exactly the triples (or quads) of the document to the sink, with one new blank node per label; conversely a successful parse means there is such a document. On an error the sink is unchanged; for the text of a document it is a ValueError or OverflowError for an escape that stands for no character; every other text raises, and what it raises is a syntax error unless the text has such an escape. Documents of the W3C grammar whose labels and tags are also in this library's token sets are accepted; W3C documents with labels not followed by white space, with digits in subtags or with astral characters in labels are rejected, and IRIs with blanks are accepted (blanks dropped).", "quantifier": "for all texts, documents, sinks and blank node counters", "why_tests_cant": "the accepted texts are an infinite language; tests exercise a few documents and cannot show that nothing else is accepted or rejected", "anchors": ["src/pymantic/parsers/lark/ntriples.py:21-49", "src/pymantic/parsers/lark/ntriples.py:52-97", "src/pymantic/parsers/lark/nquads.py", "src/pymantic/parsers/lark/base.py"]}
{"id": "C96", "title": "N-Triples documents read by the Turtle parser", "statement": "The text of an N-Triples document (W3C IRIs, labels and tags that both grammars have, white space before objects that are not IRIs) is a text of the same document in Turtle, and both parsers accept it and add the same triples up to an injective renaming of blank nodes, except that plain literals become xsd:string literals in Turtle; the IRIs must be legal and unaffected by the base (with the empty base and urllib's urljoin all are).", "quantifier": "for all documents, bases, sinks and urljoin functions that add no '<'", "why_tests_cant": "a comparison of two parsers over all documents of a grammar; tests compare them on a handful of files", "anchors": ["src/pymantic/parsers/lark/ntriples.py:21-97", "src/pymantic/parsers/lark/turtle.py"]}
{"id": "C97", "title": "What serialize_ntriples writes can be read as Turtle", "statement": "For triples that N-Triples can carry and whose language tags are Turtle tags, the text written by serialize_ntriples is parsed by the Turtle parser, which adds exactly what the N-Triples parser would (quoted IRIs, dropped controls), with plain literals as xsd:strings and blank nodes renamed injectively to new ones; triples that N-Triples keeps come back unchanged up to that. A tag with an underscore is written and read as N-Triples but rejected as Turtle.", "quantifier": "for all lists of triples, sinks and bases under which the written IRIs are kept", "why_tests_cant": "cross-format round trip over all graphs; no test feeds one format's output to the other's parser", "anchors": ["src/pymantic/serializers.py:34-37", "src/pymantic/primitives.py:116-164", "src/pymantic/parsers/lark/turtle.py"]}
{"id": "C98", "title": "The first line with an error decides which exception the N-Triples parser raises", "statement": "The transformer's callbacks run while lark parses, so a text can fail by a syntax error or by an exception of a callback (chr of an escape above 10FFFF). If the lines before raise nothing and a line on its own raises e, then the text made of these lines and anything after them raises e: later lines, whatever they are, do not change it. Nothing but lark's errors and, for texts with such an escape, ValueError or OverflowError is raised.", "quantifier": "for all sequences of lines, all continuations, all sinks, N-Triples and N-Quads", "why_tests_cant": "depends on the interleaving of LALR reductions and callbacks for every possible continuation of a text", "anchors": ["src/pymantic/parsers/lark/ntriples.py:nt_lark", "src/pymantic/parsers/lark/nquads.py:nq_lark", "src/pymantic/util.py:decode_literal"]}
{"id": "C99", "title": "What the parsers add are RDF triples, and N-Triples carries them", "statement": "Every triple that the Turtle, N-Triples and N-Quads parsers add to a graph is an RDF triple: the subject is no literal, the predicate is an IRI, a literal has a non-empty language tag or a datatype and never both (from Turtle always one of them). A graph read from a Turtle text without surrogates (written or escaped), with language tags that the library's N-Triples grammar accepts, can be written as N-Triples and read back: the triples are the same up to blank nodes and the changes of the N-Triples round trip (percent-encoding of IRIs, loss of control characters in literals). A graph read from N-Triples can be written and read back without a condition on tags. What a round trip changes, it changes once: the second round trip gives the same triples up to blank nodes. Without the condition on surrogates or on tags the claim fails.", "quantifier": "for all texts, bases, sinks, counters of blank nodes; all lists of triples N-Triples can carry", "why_tests_cant": "the set of what parsers can produce is infinite; tests serialize terms built by hand, not everything a parser can build", "anchors": ["src/pymantic/parsers/lark/turtle.py:TurtleTransformer", "src/pymantic/parsers/lark/ntriples.py:NTriplesTransformer", "src/pymantic/parsers/base.py:BaseParser", "src/pymantic/serializers.py:serialize_ntriples", "src/pymantic/primitives.py:NamedNode.toNT"]}
{"id": "C100", "title": "The local-name escaper makes names readable, except those with a second colon", "statement": "escape_prefix_local(prefix:local), if its result were used, would give a Turtle name that stands for the IRI namespace+local exactly when every character of local is a PN_CHARS character or one of PN_LOCAL_ESC (and the first one may begin a local name); it never stands for another IRI; a name that is readable without escapes and has no second colon stays readable. A second colon is escaped too, although Turtle has no such escape, so a readable name becomes unreadable. turtle_repr calls the function and discards its result.", "quantifier": "for all prefixes, namespaces, local parts, prefix maps, bases and ways to resolve references", "why_tests_cant": "the result of the function is discarded, so no test of the serializer can observe it", "anchors": ["src/pymantic/serializers.py:escape_prefix_local", "src/pymantic/serializers.py:turtle_repr"]}
{"id": "C101", "title": "When resolving a reference raises", "statement": "smart_urljoin raises nothing but ValueError. With a non-empty base and a non-empty reference it returns exactly when the host of the base and the host of the reference are ones urllib takes: both square brackets or neither, an accepted IP literal between them, and, if not ASCII, no trouble under normalisation. The host of the base is checked even for an absolute reference, which does not need it, so such references raise too; with an empty base or an empty reference nothing is checked. Texts in ASCII without square brackets never raise. The same holds for IRI references of Turtle documents.", "quantifier": "for all bases and references (components of RFC 3986, or any texts for the general parts), all outcomes of urllib's two host checks", "why_tests_cant": "the exception depends on characters in hosts of arbitrary texts", "anchors": ["src/pymantic/util.py:smart_urljoin", "src/pymantic/parsers/lark/turtle.py:TurtleTransformer.iri"]}
{"id": "C102", "title": "Selecting the objects of a predicate", "statement": "For every graph, subject, predicate (or None for any), language, datatype and class: Resource.objects(p) returns one object for each triple with that subject and predicate; bare_literals, objects_by_lang, objects_by_datatype and objects_by_type return, in the same order and with the same repetitions, exactly those of the wanted kind (a matching language, any language for None, no language and no datatype for \"\"; the given datatype, any datatype for None; nodes, or the instances of the class). objects_by_type with a class raises TypeError only if some object has several registered types. If no literal has both a language and a datatype, every object is in exactly one of the four lists nodes, bare, tagged, typed.", "quantifier": "all graphs, subjects, predicates, languages, datatypes, classes", "why_tests_cant": "tests look at a few objects of one predicate", "anchors": ["src/pymantic/rdf.py:Resource.objects", "src/pymantic/rdf.py:Resource.bare_literals", "src/pymantic/rdf.py:Resource.objects_by_lang", "src/pymantic/rdf.py:Resource.objects_by_datatype", "src/pymantic/rdf.py:Resource.objects_by_type"]}
{"id": "C103", "title": "Class statements", "statement": "A class statement with MetaResource succeeds iff its scalars are CURIEs and its bases and their bases can be put in one order that contradicts no base; otherwise it raises (IndexError or ValueError for a scalar, TypeError for the order) and changes nothing. The new class comes first in its own order, which holds exactly the bases and theirs, each once. With one base, lang and rdf_classes are the class's own or the base's.", "quantifier": "all worlds, bases, prefixes and scalars", "why_tests_cant": "Whether an order exists depends on the whole hierarchy of bases; tests declare one or two classes below Resource.", "anchors": ["src/pymantic/rdf.py:MetaResource.__new__"]}
{"id": "C104", "title": "Printed representations of terms and statements", "statement": "repr() of a text is a Python string literal for exactly that text, in apostrophes unless it contains an apostrophe and no double quote, and can always be encoded. repr() of a NamedNode, Literal, Triple or Quad raises UnicodeEncodeError exactly when one of its IRIs (not: of its texts) has a lone surrogate, and shows no control character. Two statements have the same representation exactly when their texts and languages are the same, their IRIs are the same after quoting, and blank nodes stand at the same places: blank nodes all look alike, and an IRI looks like its percent-encoded form. repr() of a Resource shows str() of its subject, so a blank node can look like an IRI.", "quantifier": "all terms, triples and quads over all Python strings, all tables of printable characters", "why_tests_cant": "Tests print a few terms; that a representation never confuses two statements that differ otherwise, for every text with quotes, commas and parentheses in it, is a claim about all pairs.", "anchors": ["src/pymantic/primitives.py:138-139", "src/pymantic/primitives.py:184-185", "src/pymantic/primitives.py:265-266", "src/pymantic/primitives.py:310-311", "src/pymantic/primitives.py:346-347", "src/pymantic/rdf.py:383-384"]}
{"id": "C105", "title": "A generator of Graph.match that stays open while the graph changes", "statement": "Let a program open g.match(s, p, o), call next() on it a first time, and go on adding and removing triples, opening and using other generators. If no triple the pattern matches is added or removed, next() gives exactly the matches at the moment of the first next(), each once, and then StopIteration. If matching triples are only added, or only removed, no triple is given twice and every triple given matches and is in the graph when it is given; a generator that ends without an exception has given every match that was there all the time; the only exception is RuntimeError, and only after a matching triple has really been added (removed). If two arguments or none are given, the first next() after such a change always raises RuntimeError.", "quantifier": "all event sequences, all patterns, any number of open generators", "why_tests_cant": "Tests iterate over a graph that stays as it is; which changes a loop over the matches may make is a claim about all interleavings.", "anchors": ["src/pymantic/primitives.py:383-399", "src/pymantic/primitives.py:401-456"]}
{"id": "C106", "title": "A generator of Dataset.match that stays open while the dataset changes", "statement": "Let a program open ds.match(s, p, o, graph), call next() on it a first time, and go on adding and removing quads, querying, and using other generators. If no quad the pattern matches is added or removed, the quads given are among the matches at the first next(), each once, until StopIteration, and then all of them have been given, or until RuntimeError. RuntimeError is raised only if no graph was named in the call and the dataset has got a new graph, be it by adding a quad or by asking for an unknown graph name. Once it has got one, a generator over all graphs gives at most the rest of the graph it is in and then raises RuntimeError, never StopIteration.", "quantifier": "all event sequences, all patterns, any number of open generators", "why_tests_cant": "Tests iterate over a dataset that stays as it is; that a mere query during the loop ends it with RuntimeError is a claim about all interleavings.", "anchors": ["src/pymantic/primitives.py:511-516", "src/pymantic/primitives.py:533-541"]}
{"id": "C107", "title": "bnf2html reads every EBNF expression of its notation as that expression", "statement": "Take the notation with names, quoted literals, character classes, #x escapes, postfix ?, * and +, difference of a postfix expression and a primary one, sequences, and alternatives of which the first may be empty, with parentheses. ebnf reads any text of an expression, with any white space between the tokens and around them, to its end and gives exactly the tree of that expression. The trees it can give are the writable ones: each has a text that is read as it.", "quantifier": "all expressions, all nestings, all spellings", "why_tests_cant": "The script has no tests; the grouping of operators depends on the nesting, which no finite set of texts covers.", "anchors": ["src/pymantic/scripts/bnf2html:152-299", "src/pymantic/scripts/bnf2html:302-334"]}
{"id": "C108", "title": "What bnf2html does with a text that is not in its notation", "statement": "For any text, ebnf ends, with one of five errors, or with a tree, or None, and a rest that is not longer than the text. If the text consists of tokens, the tree has the names, literals, classes and operators of a first part of the tokens in their order, and the rest is a text of the other tokens; the only errors are SyntaxError, IndexError if the tokens end in a minus, and UnboundLocalError if they end in an opening parenthesis. The texts read to the end are not only those of the notation: a missing or an extra closing parenthesis and an empty last alternative are accepted.", "quantifier": "all texts", "why_tests_cant": "No tests; termination and the loss of nothing but parentheses and bars are claims about all texts.", "anchors": ["src/pymantic/scripts/bnf2html:152-299", "src/pymantic/scripts/bnf2html:302-334"]}
{"id": "C109", "title": "bnf2html splits a grammar file into its rules and tabulates each once", "statement": "A file of rules, each starting in a line with [ or @ and going on in further lines, with comment lines anywhere, gives the rules put together from their stripped lines. A rule [num] sym ::= expression gives its number, symbol and tree. to_HTML gives one row per rule, in order, with the number, symbol and the HTML of the tree, marked as terminal from @terminals on; comments do not matter. The numbers of the rows are distinct unless a rule has a number starting in ERROR-: with such a rule two rows can have one number. The end of a line does not end a name, and text after the expression is dropped.", "quantifier": "all files", "why_tests_cant": "No tests; the claims are about any number of rules, lines and comments.", "anchors": ["src/pymantic/scripts/bnf2html:28-53", "src/pymantic/scripts/bnf2html:119-149"]}
{"id": "C110", "title": "The HTML of an expression shows its names, literals and operators, and reads back", "statement": "html_expr gives HTML if and only if all literals, classes and escapes are ASCII, and UnicodeDecodeError otherwise. The HTML is well-formed, with elements a and code closed before the next one; its text consists of tokens, with the names, literals, classes and operators of the expression in order. If sequences and choices are not right inside a sequence that is itself nested, operators apply to no operator and no difference, and a difference is between primary expressions, ebnf reads the text of the HTML as that same tree; without this, two different trees can have the same HTML.", "quantifier": "all expressions, all prefixes without < and >", "why_tests_cant": "No tests; parentheses are printed depending on two flags and the nesting, which no finite set of trees covers.", "anchors": ["src/pymantic/scripts/bnf2html:81-117", "src/pymantic/scripts/bnf2html:339-341"]}
{"id": "C111", "title": "Threads that add to and remove from one graph: its set of triples is never wrong", "statement": "Any number of threads call add and remove of one Graph that was empty, each any number of calls, and a switch is possible between any two operations on a set or dict, also while Index() makes a missing dictionary. When all have ended, the set of triples (iteration, len, in) is what it would be had the calls been made one after the other, in some order that keeps the order of each thread; add never raises; remove raises KeyError if in that order the triple is not there, and otherwise it raises nothing or KeyError. Whatever match gives fits the pattern and was added by one of the calls. If the threads only add, the graph has exactly the triples added, all calls succeed, and match gives only triples of the graph. Every thread ends after at most 21 steps of its own per call, whatever the others do.", "quantifier": "all numbers of threads and calls, all schedules", "why_tests_cant": "The outcome depends on where the interpreter switches between threads, which tests do not control; the schedules are too many.", "anchors": ["src/pymantic/primitives.py:356-357", "src/pymantic/primitives.py:383-399"]}
{"id": "C112", "title": "Threads that do not meet use one graph as if one after the other; those that meet may not", "statement": "A graph is built by one thread; then any number of threads add to it and remove from it. If no triple is added by one thread and removed by another, and if for triples of two threads with the same subject, or the same subject and predicate (likewise predicate, object; object, subject), one with that subject (and predicate) was added at first, then the final set of triples and the outcome of every call are those of calls made one after the other in some order that keeps the order of each thread, and match gives exactly the triples that fit, each once. Without the second condition a triple can be in the graph and match does not give it; without the first match can give a triple that is not in the graph, and remove can raise KeyError after it has removed the triple.", "quantifier": "all numbers of threads and calls, all schedules", "why_tests_cant": "The outcome depends on where the interpreter switches between threads, which tests do not control; the schedules are too many.", "anchors": ["src/pymantic/primitives.py:356-357", "src/pymantic/primitives.py:383-399"]}
{"id": "C113", "title": "Threads that add to and remove from one dataset: as if one after the other if they do not meet", "statement": "A dataset is built by one thread with add and remove; then any number of threads add quads to it and remove quads from it, and a switch is possible between any two operations on a set or dict, also while Graph() or Index() makes a missing value. If no quad is added by one thread and removed by another, if each graph name used by two threads was used at first, and if quads of two threads in one graph that share a subject, or subject and predicate (likewise predicate, object; object, subject), share it with one added to that graph at first, then the final set of quads (iteration) and the outcome of every call are those of calls made one after the other in some order that keeps the order of each thread, and match gives exactly the quads that fit, each once. Whatever the threads do, a quad that is in the dataset was added by some call, and every thread ends after at most 26 steps of its own per call. Without the second condition a quad can be missing altogether although its add returned and nobody removes, and iteration can give a quad with the graph NamedNode(None) that no call named.", "quantifier": "all numbers of threads and calls, all schedules", "why_tests_cant": "The outcome depends on where the interpreter switches between threads, which tests do not control; the schedules are too many.", "anchors": ["src/pymantic/primitives.py:356-372", "src/pymantic/primitives.py:383-399", "src/pymantic/primitives.py:507-516"]}
{"id": "C114", "title": "addAll of what a rule draws from the same graph", "statement": "g.addAll(u for t in g.match(s, p, o) for u in f(t)), for any rule f that gives triples, always ends, also when conclusions match the pattern again. The rule is applied to matching triples, each once, and all its conclusions from these are added. A call that returns has applied it to every match of the start; the only exception is RuntimeError, and only after a new matching triple was added. If no conclusion from a match of the start is a new matching triple, the call returns and adds exactly the conclusions from the matches of the start. With two arguments or none, if some match has a new matching conclusion, the call raises RuntimeError after the first such match, to which the rule is applied last. With three arguments it always returns. With one argument the order in which the triples were added can decide what is derived, and whether the call returns or raises; a call that returns can leave a graph that is not closed under the rule.", "quantifier": "all graphs, all rules, all patterns", "why_tests_cant": "The rule is an arbitrary function and the graph arbitrary; the outcome depends on the iteration order and on which dict a conclusion enters.", "anchors": ["src/pymantic/primitives.py:401-455", "src/pymantic/primitives.py:464-469", "src/pymantic/primitives.py:487-488"]}
{"id": "C115", "title": "Threads that read a Graph others change", "statement": "When threads call add, remove, in, len and toArray of one Graph, in any interleaving, there is one order of all the calls, in which every thread makes its calls in its order and a call that returned before another was made stands before it, such that every in, len and toArray answers for exactly the set that the calls before it leave, toArray with no repetition. Add never fails; remove fails only with KeyError. Under the conditions of C112 (which concern only the changes) remove fails exactly when the triple is not there. Without them, a thread that has just seen a triple with in, and is the only one to remove it, can get KeyError.", "quantifier": "all threads, all interleavings, all graphs built before", "why_tests_cant": "An order that explains all answers of all threads at once cannot be observed by a test; the interleavings are unbounded.", "anchors": ["src/pymantic/primitives.py:356-399", "src/pymantic/primitives.py:472-492"]}
{"id": "C116", "title": "Scans of a Graph to which other threads add", "statement": "When threads run list(g.match(s, p, o)) while others call g.add, in any interleaving, and the threads that add do not meet (as in C112; with one such thread this asks nothing), a scan gives different triples that fit the pattern and are in the graph. If it ends normally, no triple is missing that fits and whose add had returned when the scan began; otherwise it raises RuntimeError, and a triple that fits has been added since. If all triples added that fit were in the graph before, it always gives exactly the triples of the graph that fit. The scans change nothing for the threads that add, and every scan ends. When the threads that add meet, a scan can lose a triple that is added: its own subscript stores an empty dictionary over the one that holds it.", "quantifier": "all threads, all interleavings, all patterns, all graphs built before", "why_tests_cant": "The interleavings of the steps of the scans and the adds are unbounded; a test cannot force them.", "anchors": ["src/pymantic/primitives.py:383-390", "src/pymantic/primitives.py:401-455"]}
{"id": "C117", "title": "Turtle output with labels for blank nodes", "statement": "serialize_turtle with a bnode_name_generator whose result has a method next that gives valid blank node labels, all different: graphs with blank nodes are written (under the conditions of C86 on names, literals and lists), and the text is a Turtle document. Every blank node in it has one label of its own, taken from the generator in turn, and a reader gets the triples of the graph with other blank nodes in one-to-one correspondence, with the lists as in C86. This library reads its own output so, with blank nodes that are new and different from those of the lists. A generator without next, such as the default one, gives what serialize_turtle gives by default (AttributeError at the first blank node). If the generator repeats a label, blank nodes are merged, or TypeError is raised when both are subjects.", "quantifier": "all graphs, profiles, bases and generators of labels", "why_tests_cant": "The default generator has no next, so no test that writes a blank node passes; the correspondence concerns all graphs.", "anchors": ["src/pymantic/serializers.py:46-50", "src/pymantic/serializers.py:69-114", "src/pymantic/serializers.py:117-169"]}
{"id": "C118", "title": "A rule applied to a dataset while it grows", "statement": "ds.addAll(u for q in ds.match(s, p, o, gr) for u in f(q)) ends for every rule f that gives quads, in one way only. The rule is applied to quads that match the pattern, each once, and the dataset gets all its conclusions from these and nothing else. If the call returns, every match that was there at the start was used, and if no graph was named the dataset has no new graph. If it raises, it raises RuntimeError, and the rule has made a new match or, when no graph was named, a new graph. A rule that makes neither is applied to all matches and the call returns; without a named graph a conclusion in a new graph always raises. The result may depend on the order in which the graphs were made.", "quantifier": "all datasets, patterns and rules", "why_tests_cant": "The generator of match is suspended inside a graph of the dataset while quads are added to this graph, to others and to new ones; what happens depends on the rule and on the order of graphs.", "anchors": ["src/pymantic/primitives.py:511-513", "src/pymantic/primitives.py:533-541", "src/pymantic/primitives.py:550-555"]}
{"id": "C119", "title": "Loops over a dataset that change it", "statement": "for q in ds: body(q). Whatever the body does with the methods of the dataset (add, addAll, remove, match, remove_graph, making graphs), the loop gives the same quads in the same order, raises the same exception at the same time and leaves the same dataset as for q in ds.match(): body(q). A body that changes nothing is run for all quads in turn; ds.addAll(ds) changes nothing and returns. for q in ds: if test(q): ds.remove(q) removes the first such quad and nothing else and then raises RuntimeError, and returns only if there is none; over list(ds) it removes them all. A loop that adds the conclusions of a rule is the call of C118.", "quantifier": "all datasets made through the interface, bodies and tests", "why_tests_cant": "Dataset.__iter__ is a generator that stays open during the body, with the iterators of a dict and of a set inside; the tests only drain it.", "anchors": ["src/pymantic/primitives.py:487-488", "src/pymantic/primitives.py:511-516", "src/pymantic/primitives.py:570-573"]}
{"id": "C120", "title": "Loops over the subjects, predicates or objects of a graph that change it", "statement": "for s in g.subjects(): body(s), and the same with predicates() and objects(). What these methods return is not a copy: kept in a variable it also lists the terms of triples added later, even when they were removed again. A body that adds only triples whose term in this role is listed, and removes and queries whatever it wants, is run for all listed terms in turn and the loop returns; the first body that adds a triple with a term not yet listed is run to its end, and then the loop raises RuntimeError, also after the last term. So for s in g.subjects(): g.add(Triple(s, p, o)) always returns and adds exactly one triple for each listed subject, which includes subjects whose triples were all removed; loops that only remove return.", "quantifier": "all graphs made through the interface, all bodies made of add, addAll, remove and match", "why_tests_cant": "The docstrings promise an iterator and the tests only compare the listings of a graph that nobody changes.", "anchors": ["src/pymantic/primitives.py:494-504", "src/pymantic/primitives.py:360-376"]}
{"id": "C121", "title": "N-Triples and N-Quads from streams and files: accepted lines, added triples, errors", "statement": "A stream is parsed if and only if every line that is not the empty string is a text, by the grammar of C95, of a document with at least one statement, and these have a meaning; then the first triple of each line is added and nothing else, with one new blank node per label of all lines. Otherwise the first line with a fault decides the exception (RuntimeError for a line without a statement, ValueError or OverflowError for an escape that stands for no character, a syntax error for no text of the grammar), and the graph has the first triples of the lines before. A text file (CR LF, CR and LF end lines) is parsed if and only if its text is parsed as a string and has no blank line, with the same graph as result; the same holds for io.StringIO and texts without CR, while with CR it can read texts the string parser refuses, and fewer triples.", "quantifier": "all streams, texts, graphs; both parsers", "why_tests_cant": "The tests parse streams of good lines; which line ends a stream splits at and what the grammar does with them are two different things.", "anchors": ["src/pymantic/parsers/lark/base.py:9-36", "src/pymantic/parsers/lark/ntriples.py:1-60", "src/pymantic/parsers/lark/nquads.py:1-42"]}
{"id": "C122", "title": "N-Triples files, written and read", "statement": "What serialize_ntriples writes to a text file, with LF, CR LF or CR as line end of the platform, is read back from the file exactly as the text is parsed as a string: the triples of C25, with blank nodes renamed by one injective renaming. A file to which a second graph is appended, perhaps on a platform with other line ends, is read as the triples of both; a blank node of both comes back as one.", "quantifier": "all lists of triples that N-Triples can carry, all three line ends, all graphs to read into", "why_tests_cant": "The tests serialise to and parse from io.StringIO, which translates no line ends.", "anchors": ["src/pymantic/serializers.py:34-37", "src/pymantic/parsers/lark/base.py:9-36", "src/pymantic/parsers/lark/ntriples.py:1-11"]}
{"id": "C123", "title": "Loops over a graph that change it", "statement": "A loop over a graph, or over match() without arguments, whose body calls methods of the same graph visits every triple and leaves the set alone if the body only adds triples that are there and removes triples that are not; so g.addAll(g) returns and changes nothing. The first body that adds a new triple, or removes one, takes effect and is the last: the loop then raises RuntimeError, even if that was the last triple. So \"for t in g: if test(t): g.remove(t)\" removes one triple and raises, unless no triple passes the test; over list(g) or toArray() it removes all that pass. iter(g) looks at the graph when it is made: after such a change its next() raises RuntimeError, where a match() made at the same time but not yet started gives the triples as they are now.", "quantifier": "all reachable graphs, all bodies that are programs of Graph methods whose stirring run only adds or only removes, all tests, any position in the iteration", "why_tests_cant": "The tests never change a graph while iterating over it, except through removeMatches.", "anchors": ["src/pymantic/primitives.py:487-488", "src/pymantic/primitives.py:401-455", "src/pymantic/primitives.py:464-469"]}
{"id": "C124", "title": "Query objects executed more than once", "statement": "A query or update object executed again without changes does the same every time. If its text, graphs, server, the URL or post_queries of the server are assigned in between, each execution sends exactly what the SPARQL protocol says for the values of that moment, provided that graphs once named are not replaced by none and post_directly stays as it is. Otherwise it is false: a default graph set to None after an execution is still sent, an object switched to post_directly also sends its query in the URL, and one switched back sends a form as application/sparql-query. A text that cannot be encoded raises, sends nothing and leaves the object as it was.", "quantifier": "all programs of assignments and executions, all endpoints, texts, graph arguments and server settings", "why_tests_cant": "Every test makes a new object through query or update and executes it once.", "anchors": ["src/pymantic/sparql.py:31-102", "src/pymantic/sparql.py:105-178"]}
{"id": "C125", "title": "Threads that read a Dataset others add to", "statement": "When threads add quads to graphs that are in a dataset already, while others read it: q in ds (a quad or a triple) and len(ds) raise nothing, and their answers are right for some moment during the call. Iteration (list, toArray) gives no quad twice and only quads that are there, and either gives all that were there when it began or raises RuntimeError, the latter only if a quad was added meanwhile. Readers do not influence the writers, and every reader ends after a number of its own steps known beforehand. It is false when somebody removes too (len may be a number the dataset never had) and when somebody adds the first quad of a new graph (len and in raise RuntimeError).", "quantifier": "all datasets built by one thread, all numbers of writers and readers, all quads, all schedules", "why_tests_cant": "The tests use one thread; an interleaving that shows the difference needs a switch inside __len__ or __iter__.", "anchors": ["src/pymantic/primitives.py:507-516", "src/pymantic/primitives.py:557-576"]}
{"id": "C126", "title": "One JSON-LD parser used many times", "statement": "For any program of parse_json and document.parse calls on one parser, with given or new sinks and with calls that raise in json.loads or to_rdf, every dataset ends with what it held and exactly the data of the calls that store in it; labels of different parse_json calls mean different new blank nodes, the same label within one call the same. As long as no parse_json raises, document.parse stores nothing (and raises AttributeError if its document has a triple). It is false that document.parse never stores: after a parse_json that raised it stores in the sink of that call, and the documents parsed so share their blank nodes.", "quantifier": "all programs of calls, all to_rdf results, all sinks", "why_tests_cant": "The tests call parse_json once on a new document; they never use a parser after a call that raised.", "anchors": ["src/pymantic/parsers/jsonld.py:19-39", "src/pymantic/parsers/jsonld.py:63-81", "src/pymantic/parsers/base.py:44-50"]}
{"id": "C127", "title": "Threads that parse JSON-LD with one parser", "statement": "Threads that call parse_json of one parser, with any sinks, the same or different ones, and switch between any two triples do not disturb each other: no call raises, and when all are made every dataset holds what it held and exactly the data of the calls that had it as a sink, labels of different calls meaning different new blank nodes and the same label within a call the same one. At any time before, a dataset holds nothing else. Each thread ends after as many of its own steps as its documents have triples, plus one for each call. Dataset.add is one step here; what happens between its parts is C113.", "quantifier": "all numbers of threads, programs of calls, to_rdf results, datasets and schedules", "why_tests_cant": "The tests parse in one thread; that _call_state is thread-local is never exercised for JSON-LD.", "anchors": ["src/pymantic/parsers/jsonld.py:27-39", "src/pymantic/parsers/jsonld.py:63-81", "src/pymantic/parsers/base.py:14-18", "src/pymantic/parsers/base.py:44-50"]}
