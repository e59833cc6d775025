# Design: a Rocq model of pymantic and its semantic properties

(Written before the proofs; kept current as the model grows.)

## Shape

* `rocq/theories/Model/*.v` - executable Gallina model, function by function; every definition cites the
  file and lines of `/repo/src/pymantic` it models and says where it simplifies. No proofs.
* `rocq/theories/Spec/*.v` - small independent specifications (sets of triples, "matches a pattern", what an N-Triples
  term denotes, ...), which do not mention the model's helpers.
* `rocq/theories/Proofs/*.v` - lemmas.
* `rocq/theories/Properties/*.v` - only the property theorems (each closed by `exact lemma`), the non-vacuity
  examples and `Print Assumptions`.

Conventions: Python `str` = `list N` (code points); exceptions are values of `res A := Ok a | Err e`; a method that
mutates an object returns the new object together with its result, also when it raises (so partial effects
before an exception are visible); `dict`/`OrderedDict`/`defaultdict` = association list in insertion order;
`set` = duplicate-free list whose order is not observable by any theorem.

## How each property is modelled and proved

All properties are stated over the model definitions (the left column of the trusted base below) and a separate
specification; every one has at least one theorem `Cnn_...` in `theories/Properties`, an `Example` beside it and is
listed in `MANIFEST.json`. Where the English claim of a property is that the code is wrong, the theorem states the wrong behaviour
exactly; where a natural claim is false there is a `..._refuted` theorem with a witness and, beside it, the strongest true version.
No property is left `_partial`, and none is inexpressible.

| Property | Model | Specification | Proof |
|---|---|---|---|
| C01, C08 | `Graph.v`: triple set and three auto-vivifying nested-dictionary indexes | `GraphSpec.v`: histories as sets | representation invariant (`GraphInv`) by induction over histories |
| C02, C03, C04 | `g_match` by index, generators with CPython's "changed size during iteration" check | "agrees with all bound arguments" | invariant + drain lemmas (`GraphGen`) |
| C05, C06, C07 | `removeMatches` interleaves generator and removal; listings are the index keys; `merge` | sets, "ever used" | step lemma of the generator after a removal; histories (`GraphHist`) |
| C09-C15 | `Dataset.v`: names to heap positions of graphs shared by reference | `DatasetSpec.v`: sets of quads | invariant and refinement (`DatasetInv`, `DatasetHist`, `DatasetGen`); aliasing witnesses |
| C16-C19 | `Codec.v`: `re.sub` callbacks as explicit scanners, the letter encoding of blank node labels | `CodecSpec.v`: what an escape denotes, legal tokens | induction on strings, per-character lemmas |
| C20-C24 | percent coding, strict UTF-8 of CPython | octet strings, maximal runs of escapes | `Utf8`, `IriLemmas` |
| C25-C28, C30-C34, C74 | `NTriples.v`: lexer, line parser, transformer, string/stream drivers | `NTSpec.v`: relation between triples and texts | parser/printer inversion (`NTLex`, `NTRun`, `NTDoc`) |
| C29, C72 | `Threads.v`: schedules of calls, thread-local state | `ThreadSpec.v`: label, thread, call | trace invariant over schedules |
| C35-C40, C43, C44, C76 | `Curie.v` | `CurieSpec.v` | case analysis, induction on maps |
| C41, C42, C75, C78 | heap of maps, profiles by reference | `ProfileSpec.v` | frame lemmas over histories |
| C45-C48, C80 | `TurtleOut.v` | `TurtleOutSpec.v`, `TurtleTextSpec.v` | `TurtleEsc`, `TurtleRepr`, `TurtleWrite`, `TurtleLayout` |
| C49-C53, C70, C71, C79 | `Turtle.v`: two passes of the transformer over parse trees | `TurtleSpec.v`: declarative semantics of documents | mutual structural induction (`TurtleSem`, `TurtleDoc`, `TurtleScope`) |
| C54-C61, C77 | `Resource.v`: key parsing, selection, writing | `ResourceSpec.v`: selected objects as a set | frame lemmas; `ResourceSelect.v` for keys with a class when no object has two registered types (`unmixed`): no TypeError, no class made |
| C62 | `List.__iter__` with fuel, `OutOfFuel` explicit | chains, cycles, broken chains | induction on chains; for cycles: no fuel suffices |
| C63, C64 | `MetaResource`, `classify`, class numbers with bases | set of registered classes | invariant over programs (`ResourceRun.v`) |
| C65-C67 | `Sparql.v`: requests as a function, calls recorded | `SparqlSpec.v`: the three protocol forms; readers of change sets | case analysis, list lemmas |
| C68 | `JsonLd.v` from pyld's output | `JsonLdSpec.v` | injective renaming by induction |
| C69, C81 | `RdfXml.v` from lxml's element tree; urljoin may raise | `RdfXmlSpec.v`: relations for references, subjects, types and property elements | case analysis, induction on the children (`RdfXmlLemmas`) |
| C73 | serializer and parser of N-Triples | - | explicit attack string, universally quantified |
| C82, C83 | `TurtleParse.v`: from characters to parse trees and into a graph | `TurtleTextSpec.v`: the W3C grammar as relations, in a strict and a loose reading | completeness `TurtleAccept`, soundness and fuel `TurtleReject`, token facts `TurtleTokens` |
| C84-C86 | `TurtleOut.v` against `TurtleParse.v` | `TurtleOutSpec.v`: directives, readable names, `graph_reads_as` (what is left of a graph) | the writer's text is put together as a derivation of the grammar (`TurtleTrip`), exact conditions for names and literals (`TurtleNames`), composed with the parser's completeness (`TurtleRound`) |
| C87, C88 | `UrlJoin.v`: urlsplit, urlunsplit, urljoin of CPython 3.11 | `UriSpec.v`: RFC 3986 components, `remove_dot_segments`, targets; `UriTripSpec.v`: names fit for output | buffers of the RFC algorithm against segment lists (`UriLemmas`, `UriDots`), parsing of composed texts (`UriParse`), `UriJoin`, `UriAbs`, transfer to documents (`UriDocs`, `UriTrip`) |
| C89 | `Skos.v`: the class statements of vocab/skos.py run on a world | registry, `scalar`, `key_means` of `ResourceSpec.v` | effect of each class statement (`SkosLemmas`) |
| C90-C92 | `ResourceVal.v`: `==`, `!=`, `hash`, sets, `as_`, `object_of` run to its end; `to_str`, `iter` of `Resource.v` | `ResourceValSpec.v`: values with a proper equality, printed names, what a generator yielded | case analysis on values; selection lemmas of C54 (`ResourceValLemmas`) |
| C93-C94 | `Tuples.v`: instances as a class with items; `_make`, `_asdict`, `_replace`, `__getnewargs__` with copy/pickle's reconstruction; createGraph, createDataset | `TuplesSpec.v`: named items, arity | case analysis on the class; histories of C01, C12 (`TuplesLemmas`) |
| C98 | `NTriples.v`: `callbacks`, the callbacks that have run when a syntax error is found (the LALR(1) lookaheads), `raised` | the errors of single lines; `big_escape` in `NTSpec.v` | a parsed statement has had all its callbacks, locality of lines (`NTCallbacks`, `NTFinal`) |
| C95-C97 | no new code: `NTriples.v` (lexers, line parser, transformer, serializer) and the Turtle parser of C82-C83 | `NTTextSpec.v`: one grammar of texts over a record of tokens (W3C's, this library's, those of both, those Turtle has), meaning of documents, translation into Turtle trees | soundness and completeness of each lexer and rule (`NTGrammar`); transformer by induction on documents (`NTMeans`); monotonicity in the tokens and translation into `doc_text` (`NTTurtle`); C83 twice and inversion of `doc_means` (`NTBoth`) |
| C99 | no new code: `TurtleParse.v`, `Turtle.v`, `NTriples.v`, `UrlJoin.v` | `RdfSpec.v`: RDF triples, scalar values, texts without surrogates | an invariant of every generated term (`RdfShape`), characters of decoded tokens and of `urljoin` (`RdfChars`), both composed with the round trip of C95-C97 and its idempotence (`RdfLines`) |
| C100 | `escape_prefix_local` of `TurtleOut.v` | `escapable` in `TurtleOutSpec.v`; grammar and meaning of names of C82-C85 | the replacements as a character-wise map (`TurtleLocal`) |
| C101 | `UrlJoin.v`, `e_iri` of `Turtle.v` | `host_taken` in `UriSpec.v` | the parse of composed texts with any host (`urlparse_gen`), `UriErr` |
| C102 | `Resource.v` (`objs`, `objects_by_*`) | `objects_of`, `keeps`, `lang_wanted`, `type_wanted` in `ResourceSpec.v` | each list is a filter of the objects (`ResourceSelect`); for a class by the induction of `instances_spec` |
| C103 | `Resource.v`: `make_class`, `mro_of` (C3 merge), attribute lookup | `MroSpec.v`: an order that agrees with every base (`linear`), classes of the types of a node | the merge finds an order iff one exists (`MroLemmas`); also when classify raises TypeError (C63) |
| C104 | `Repr.v`: the `__repr__` methods and repr() of a str; the table of printable characters is a parameter | `ReprSpec.v`: Python string literals; terms that look alike | the representation is read back with anything after it; a text starts with at most one literal, so representations are compared piece by piece |
| C105 | `GraphRun.v`: `client_trace`, the outcomes of next() in a program that also changes the graph and uses other generators. A container under iteration remembers its size and its entries at the start, which is what CPython does unless it loses and gains entries between two steps; the hypotheses exclude that | `IterSpec.v`: which triples a pattern is about; events that change none of them, only add, or only remove | an invariant per case, relating what was given, what is still to come and the sizes of the dicts, kept by every event |
| C106 | `DatasetRun.v`: `d_trace`, the outcomes of next() in a program that also changes the dataset and uses other generators. The dict of graphs under iteration remembers its size and its entries at the start. Not among the events: add_graph, which can replace the graph of a name, and _uri set by hand | `DIterSpec.v`: which quads a pattern is about; events that change none of them | as for C105, with the graphs still to come and the generator inside the current graph as part of the invariant |
| C107 | `Bnf.v`: `token` and the parser levels `primary postfix diff seq alt ebnf` of scripts/bnf2html with the semantics of Python 2 (bytes, C locale); texts bound the loops and the depth | `BnfSpec.v`: tokens and their spellings, an inductive grammar, the writable trees | induction on the grammar with the tokens that may follow; a printer that parenthesises everything for the converse |
| C108 | same | tokens read and unread, `marks`: the tokens of a tree without parentheses and bars | each level of the parser by induction on the length of the text; witnesses computed |
| C109 | `each_rule rule_parts rows_go to_HTML`: the rows; not the templates, the attributes data-grammar-original and data-grammar-expression, main and the reading of the file | `file_of`: which lines make which rules; `rule_text`; `table` | induction on the file; witnesses computed |
| C110 | `escape html_expr` | an HTML reader for tags and five entities, balanced elements, `faithful` trees | induction on the tree, with the shown tokens as an intermediate; witnesses computed |
| C111 | `GraphThreads.v`: add and remove as steps on a heap of dictionaries, a missing key taking two; threads and schedules; `seen`: the heap read as the graph of `Graph.v` | `ThreadGraphSpec.v`: `answers` of calls made one after the other, interleavings, what may go wrong | labels of the dictionaries (index and keys) and the order of the first steps, as invariants of every step; match is sound for any contents of the dictionaries |
| C112 | same | `no_clash`, `prepared` | an invariant that says which triples are stored where up to the calls under way; paths never disappear under the conditions; witnesses computed |
| C113 | `DatasetThreads.v`: Dataset.add and remove as steps on the names and the graph objects, with the steps of `GraphThreads.v` inside a graph; `seen_d`: read as the world of `Dataset.v` | `ThreadDatasetSpec.v` with `answers` of `ThreadGraphSpec.v` | for each name the run is a run of `GraphThreads.v` (simulation step by step), so C112 applies; the orders of the graphs come from one order of all calls; owners of the graph objects for soundness; witnesses computed |
| C114 | `GraphFeed.v`: the loop of addAll over a generator of the same graph, the rule an arbitrary function | `FeedSpec.v` with `hits` of `IterSpec.v` | the invariants of C105 for a growing graph along the loop, and that each triple given is old or a conclusion from an earlier one; the generator's remaining keys and entries decrease lexicographically |
| C115 | `GraphReaders.v`: the threads of `GraphThreads.v` with in, len and toArray as further calls, one step each | `ReaderSpec.v`: calls made one after the other, an order that respects what returned before | a read takes effect at its step, a change at its step on the set; each run is linked to one of `GraphThreads.v` without the reads, with its invariants |
| C116 | `GraphScan.v`: list(match(...)) step by step (tests, subscripts with __missing__, iterators with their size check) among the threads of `GraphThreads.v` that add | `ScanSpec.v`: settled triples (in the graph, no add of it under way), the schedule without the scans | invariant of one scan kept by its own steps and by everything that only appends to the dictionaries; the adding threads only append (invariant of C112), so a scan's subscripts always find their keys |
| C117 | `TurtleNamed.v`: the functions of `TurtleOut.v` with name_map threaded through and the generator's results as a function of the number of the call | `TurtleNameSpec.v`: valid labels, the blank nodes that are written, `graph_named` (a graph with its blank nodes renamed) | the name map only grows, is injective and its labels are no names of IRIs, so that subjects can be sorted; then as C86, with labels in the derivation of the grammar (`TurtleNamedOut`) |
| C118 | `DatasetFeed.v`: the loop of addAll over a generator of `Dataset.v` and a rule that is a function from quads to lists of quads | `DFeedSpec.v`: rules that give quads, conclusions that make no new match, the names of the graphs | the dataset only grows: for the graph being read the invariant of C114, for those read before, all their first matches have been given (`DatasetFeed`); termination by the number of graphs left, then the rank of C114 |
| C119 | `DatasetLoop.v`: `__iter__` as a generator with the state of both its iterators; loops over it and over match() with a body of dataset operations | `LoopSpec.v`: bodies that change nothing, remove the quad under a test, or add the conclusions of a rule | a simulation between the states of `__iter__` and of match() (the graph's own name is its key as long as it has triples); what is left to give while nothing changes (`DatasetLoop`) |
| C120 | `GraphKeys.v`: subjects(), predicates(), objects() as views of the keys of the indexes; the loop over one with the size check of the dict iterator and a body of graph operations | `KeysSpec.v`: the term of a triple in this role, bodies that keep to the listed terms | the size of a listing after a program is the old one iff the program adds no new term (NoDup and inclusion); induction on the terms left (`GraphKeys`) |
| C121 | `NTStream.v`: the lines of io.StringIO and of a text file with universal newlines; `parse_stream` of `NTriples.v` on them | `NTStreamSpec.v`: documents of lines (grammar of C95), faults, lines of a text and newlines as relations | per line the analysis of C95 with the table of labels carried on; a document without CR cut into and joined from its lines; the grammar is invariant under newline translation, both ways (`NTStream`) |
| C122 | `NTStream.v`: newline translation of a text file when written (LF to os.linesep) and when read; `serialize_ntriples`, `parse_stream` | `NTStreamSpec.v`: the line ends of the platforms; renamings of C25 | reading undoes writing on texts without CR; output has no blank line and no CR; C25 and C121 (`NTFile`) |
| C123 | `GraphLoop.v`: the iterator of `Graph.__iter__` with the size it remembers, loops over it and over the generator of `match()` with bodies of method calls | `GLoopSpec.v`: idle and stirring programs by what they add and remove | induction over the triples still to come, with the set of C01's history as invariant (`GraphLoop`) |
| C124 | `SparqlJob.v`: a `_Select` or `_Update` object whose `params` and `headers` keep what `execute` stored, with assignments in between | `SparqlJobSpec.v`: the settings by the last assignments; the protocol of C66 | the stored parameters are, up to order, those of a new object; invariant of the stored keys (`SparqlJob`) |
| C125 | `DatasetReaders.v`: `__contains__`, `__len__`, `__iter__` and `toArray` step by step beside the writers of `DatasetThreads.v` | `DReaderSpec.v`: the quads of a moment; a dataset whose graphs are all there | invariant of the writers (`DThreadInv`): names fixed, graphs only grow, by one triple at a time; invariant of a reader over the graphs visited; the sizes between two moments are all met (`DatasetReaders`) |
| C126 | `JsonLdRun.v`: programs of `parse_json` and `document.parse` on the parser of `JsonLd.v`, with the call state that a raising call leaves behind | `JsonLdRunSpec.v`: where the data of each call goes and which calls share labels; `in_data` of C68 | induction over the program with the label table of the call that raised last; the identities of different scopes lie in different ranges (`JsonLdRun`) |
| C127 | `JsonLdThreads.v`: calls of `parse_json` in threads, a step for each triple, call states thread-local, datasets and identities shared | `JsonLdThreadSpec.v`: the calls of the threads; `in_data` of C68 | invariant with a label table for every call of every thread, all with different identities (`JsonLdThreads`); one thread is C126's run |

## Trusted base

1. Coq 8.16.1's kernel (`coqc`, re-checked with `coqchk`).
2. Axioms: `Print Assumptions` is run in the Properties files on the theorems and answers "Closed under the global context" for
   each of them: no theorem uses an axiom, neither of the standard library nor of this development.
3. That the model definitions say what the Python code does. The sources were read as text and nothing of the repository was executed. Every definition cites
   the lines it models. The readings one has to trust are listed next.

### Modelled

* `primitives.py`: all of `Graph`, `Dataset`, `Triple`, `Quad`, `Literal`, `NamedNode`, `BlankNode`, `PrefixMap`, `TermMap`, `Profile`,
  `RDFEnvironment` (all create methods except createAction), `parse_curie`, `parse_curies`, `to_curie`, `lang_match`, `is_language`.
* `util.py`: all functions. `serializers.py`: all functions. `uri_schemes.py`: the table.
* `parsers/base.py`, `parsers/lark/*.py`: the transformers, drivers, call state; the grammars as hand-written parsers.
* `parsers/jsonld.py`, `parsers/rdfxml.py`: from the output of pyld and lxml on.
* `rdf.py`: `MetaResource`, `Resource`, `List`, `register_class`. `sparql.py`: endpoints, `_Select`/`_Construct`/`_Update` methods, graph stores, `differences`, `changeset`.

### Simplifications, and what is outside

* **lark.** The LALR automaton and its lexer are replaced by deterministic parsers of the same grammars (`NTriples.v`, `TurtleParse.v`; the
  reasons are in their headers). All lark exceptions are one `LarkError`. In Turtle the transformer runs after the parse and exceptions raised inside callbacks are `VisitError`; the N-Triples and N-Quads transformers are embedded in the parser, so their exceptions come out as they are, and before or after syntax errors as `callbacks` says.
* **Python objects.** `str` = list of code points; `dict` = association list in insertion order; a `set` is a duplicate-free list whose order
  no theorem observes; ints are unbounded; object identity of blank nodes = a number, fresh ones from a counter. Reference sharing is modelled where the code relies on it
  (graphs in datasets, maps in profiles, call state). Memory errors, recursion limits, `KeyboardInterrupt`, and signals are not modelled.
* **Hashing and equality.** `Literal`, `NamedNode`, `Triple` are tuples: equal when their fields are. Terms are an inductive type with decidable equality;
  terms of other Python types are excluded (a generator stored by mistake in a graph is `None` in `turtle_add`, see C50).
* **urljoin** is a parameter (`urljoin_fn`) of C49-C86: theorems hold for any function, or for any that satisfies the stated condition `uj_clean`. `UrlJoin.v` models the one of
  CPython 3.11.10 (its source was read; the model was compared with `python3 -c` on 5917 random pairs inside Coq) and C87/C88 use it; the validity checks of bracketed hosts and of NFKC in hosts are parameters.
* **Threads.** C111-C113, C115, C116, C125: an operation on one dict or set is one step, because CPython's are and the terms have no `__eq__` or `__hash__` in Python; a missing key of a defaultdict takes two steps
  (the call of `Graph` or `Index`, and the store). Between any two steps any other thread may go on. In C111-C113 only add and remove run side by side and readers start when all calls have ended; C115 has in, len and toArray beside them, C116 match beside add, C125 in, len and iteration of a dataset beside add. C29, C72: calls of the parsers are the steps. C127: a triple of a JSON-LD document is a step, Dataset.add included.
* **requests, json, pyld, lxml, pytz/dateutil** are parameters or outcomes; logging is dropped.
* Not modelled: `scripts/named_graph_to_nquads`, `main` and the templates of `scripts/bnf2html` (a Python 2 script), `examples/`, `docs/`, `RDFEnvironment.createAction` and the Interfaces-API
  callbacks, classes that override methods of `Resource`.

### Comparing the model with the repository's tests

* `Properties/RepoTests.v` replays the repository's own tests (`test_util`, `test_primitives`, `test_parsers`, `test_serializers`, `test_RDF`) on the model:
  every assertion of the tests that are about modelled code and fixed data holds of the model.
* `Properties/W3CTurtle.v` runs the 278 tests of the W3C Turtle suite that `test_turtle.py` runs on the code: 132 evaluation tests (the graph read from the Turtle file is the
  one read from the N-Triples file, up to a renaming of blank nodes that is searched for), 73 positive and 73 negative tests. All give the expected result.

These are `Example`s computed inside Coq, no theorems about all inputs; they are evidence that the model was read off the code correctly.

### Testing the theorems

`seeded/LOG.jsonl` records wrong programs: one edit of a model definition each, the claim it breaks and the theorems that stopped compiling; where none did, the theorem
added or tightened afterwards.
