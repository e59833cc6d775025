(** JSON-LD: src/pymantic/parsers/jsonld.py and the call state of parsers/base.py 14-53.
    json.loads and pyld's to_rdf are outside: the model starts from their outcome.
    pyld documents that to_rdf returns a dictionary from graph names to lists of
    triples, whose parts are dictionaries with the keys type ("IRI", "blank node" or
    "literal"), value, for literals datatype and possibly language: [frag].  Everything
    happens in one thread (see Threads.v for several).  Sinks are datasets. *)
From Verif Require Import Model.Py Model.Terms Model.Graph Model.GraphRun Model.Dataset Model.Codec Model.NTriples.
Open Scope N_scope.

Inductive frag := FIri (value : str) | FBlank (value : str) | FLit (value datatype : str) (language : option str).
Record jtriple := mkJT { jt_s : frag; jt_p : frag; jt_o : frag }.
Notation rdf_dataset := (list (str * list jtriple)).

(** the parser: the next object identity, the attributes bnodes and graph (the index of
    a sink) of _call_state if they are set, and the datasets *)
Record jstate := mkJS { js_next : N; js_call : option (dict str N * nat); js_sinks : list world }.

(** process_triple_fragment: 48-61; defaultdict lookup of bnodes (base.py 44) *)
Definition process_fragment (st : jstate) (f : frag) : jstate * res term :=
  match f with
  | FIri v => (st, Ok (Iri v))
  | FBlank v =>
      match js_call st with
      | None => (st, Err AttributeError)
      | Some (d, i) => let '(b, t) := make_bnode (mkB (js_next st) d) v in (mkJS (bs_next b) (Some (bs_map b, i)) (js_sinks st), Ok t)
      end
  | FLit v d l => (st, Ok (Lit v l (Some d)))
  end.
(** make_quad: 36-39 *)
Definition make_quad (st : jstate) (s p o : term) (g : oterm) : jstate * res unit :=
  match js_call st with
  | None => (st, Err AttributeError)
  | Some (d, i) =>
      let '(w, r) := ds_add (nth i (js_sinks st) (ds_new [])) (Qd s p o g) in
      (mkJS (js_next st) (js_call st) (upd (js_sinks st) i w), r)
  end.
(** one pass of the loop 73-81; the arguments are evaluated from left to right *)
Definition process_triple (st : jstate) (g : oterm) (t : jtriple) : jstate * res unit :=
  match process_fragment st (jt_s t) with
  | (st, Err e) => (st, Err e)
  | (st, Ok s) =>
      match process_fragment st (jt_p t) with
      | (st, Err e) => (st, Err e)
      | (st, Ok p) =>
          match process_fragment st (jt_o t) with
          | (st, Err e) => (st, Err e)
          | (st, Ok o) => make_quad st s p o g
          end
      end
  end.
Fixpoint process_triples (st : jstate) (g : oterm) (ts : list jtriple) : jstate * res unit :=
  match ts with
  | [] => (st, Ok tt)
  | t :: r => match process_triple st g t with (st, Err e) => (st, Err e) | (st, Ok _) => process_triples st g r end
  end.
(** 68-72 *)
Definition graph_iri (name : str) : oterm := if str_eqb name (s2l "@default") then None else Some (Iri name).
(** process_jobj: 63-81 *)
Fixpoint process_graphs (st : jstate) (data : rdf_dataset) : jstate * res unit :=
  match data with
  | [] => (st, Ok tt)
  | (name, ts) :: r => match process_triples st (graph_iri name) ts with (st, Err e) => (st, Err e) | (st, Ok _) => process_graphs st r end
  end.
Definition process_jobj (st : jstate) (rdf : res rdf_dataset) : jstate * res unit :=
  match rdf with Err e => (st, Err e) | Ok data => process_graphs st data end.

(** parse_json: 27-34; _prepare_parse and _cleanup_parse: base.py 44-50.  [sink] is the
    index of a dataset or None; the result is the index of the sink. *)
Definition parse_json (st : jstate) (sink : option nat) (rdf : res rdf_dataset) : jstate * res nat :=
  let '(sinks, i) := match sink with Some i => (js_sinks st, i) | None => (js_sinks st ++ [ds_new []], length (js_sinks st)) end in
  match process_jobj (mkJS (js_next st) (Some ([], i)) sinks) rdf with
  | (st, Err e) => (st, Err e)
  | (st, Ok _) => (mkJS (js_next st) None (js_sinks st), Ok i)
  end.
(** document.parse and document.parse_file: 19-25 *)
Definition document_parse (st : jstate) (rdf : res rdf_dataset) : jstate * res unit := process_jobj st rdf.
(** a new parser *)
Definition js_init (n : N) : jstate := mkJS n None [].
