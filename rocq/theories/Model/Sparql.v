(** SPARQL endpoints and graph stores: src/pymantic/sparql.py.
    The requests library is a function from the arguments of Session.request to a
    response or an exception; the calls made are recorded.  log.debug (63) is not
    modelled. *)
From Verif Require Import Model.Py Model.Terms Model.Codec.
Open Scope N_scope.

(** ** Requests *)
(** values of the params dictionary: one graph name, several of them, or the
    encoded SPARQL text *)
Inductive pval := PStr (s : str) | PList (l : list str) | PBytes (b : list N).
Notation params := (dict str pval).
Notation pset := (dset str_eq_dec).
Inductive method := Get | Post.
Inductive body := BBytes (b : list N) | BForm (p : params).
(** the value of the argument verify: True, False or a path *)
Inductive verify := VBool (b : bool) | VPath (s : str).
(** the arguments of Session.request, 83-90 *)
Record request := mkReq {
  r_method : method; r_url : str; r_params : option params; r_headers : dict str str; r_data : option body; r_kwargs : option verify }.
(** Response: status_code, headers["content-type"] (None: no such header), content *)
Record response := mkResp { resp_status : N; resp_type : option str; resp_content : list N }.

(** SPARQLServer.__init__: 185-193 *)
Record server := mkServer { sv_url : str; sv_post_queries : bool; sv_post_directly : bool; sv_verify : option verify }.

(** _Select (105-161) and _Update (164-178) *)
Inductive kind := Select | Update.
Definition default_graph_uri (k : kind) : str := match k with Select => s2l "default-graph-uri" | Update => s2l "using-graph-uri" end.
Definition named_graph_uri (k : kind) : str := match k with Select => s2l "named-graph-uri" | Update => s2l "using-named-graph-uri" end.
Definition query_or_update (k : kind) : str := match k with Select => s2l "query" | Update => s2l "update" end.
Definition directContentType (k : kind) : str := match k with Select => s2l "application/sparql-query" | Update => s2l "application/sparql-update" end.
Definition postQueries (k : kind) (sv : server) : bool := match k with Select => sv_post_queries sv | Update => true end.

(** _SelectOrUpdate.__init__ (35-43), _Select.__init__ (116-121).  A default_graph
    or named_graph argument is None, a str or a list of str. *)
Inductive garg := GStr (s : str) | GList (l : list str).
Record job := mkJob {
  j_kind : kind; j_server : server; j_sparql : str; j_default : option garg; j_named : option garg; j_headers : dict str str; j_params : params }.
Definition acceptable_xml_responses : list str := map s2l ["application/rdf+xml"; "application/sparql-results+xml"]%string.
Definition acceptable_json_responses : list str := map s2l ["application/sparql-results+json"; "text/turtle"]%string.
(** ",".join(l) *)
Fixpoint comma_join (l : list str) : str :=
  match l with [] => [] | [x] => x | x :: r => x ++ [44] ++ comma_join r end.
Definition select_init (sv : server) (query output : str) (dg ng : option garg) : job :=
  let accept := if str_eqb output (s2l "xml") then acceptable_xml_responses else acceptable_json_responses in
  mkJob Select sv query dg ng [(s2l "Accept", comma_join accept)] [].
Definition update_init (sv : server) (query : str) (dg ng : option garg) : job := mkJob Update sv query dg ng [] [].

Definition garg_truthy (a : option garg) : bool :=
  match a with Some (GStr (_ :: _)) | Some (GList (_ :: _)) => true | _ => false end.
Definition garg_pval (a : garg) : pval := match a with GStr s => PStr s | GList l => PList l end.
(** 67-70: [if arg: self.params[name] = arg] *)
Definition add_graphs (p : params) (name : str) (a : option garg) : params :=
  match a with Some x => if garg_truthy a then pset p name (garg_pval x) else p | None => p end.

Inductive outcome :=
| OTrue
| OResponse (r : response)
| OJson (text : str).      (* the value of json.loads(text), or its exception *)

Section Net.
  Variable net : request -> res response.

  (** _SelectOrUpdate.execute: 61-102; the request made *)
  Definition request_of (j : job) (sparql : list N) : request :=
    let k := j_kind j in
    let sv := j_server j in
    let p := add_graphs (add_graphs (j_params j) (default_graph_uri k) (j_default j)) (named_graph_uri k) (j_named j) in
    if sv_post_directly sv then
      mkReq Post (sv_url sv) (Some p) (dset str_eq_dec (j_headers j) (s2l "Content-Type") (directContentType k ++ s2l "; charset=utf-8"))
        (Some (BBytes sparql)) (sv_verify sv)
    else if postQueries k sv then
      mkReq Post (sv_url sv) None (j_headers j) (Some (BForm (pset p (query_or_update k) (PBytes sparql)))) (sv_verify sv)
    else
      mkReq Get (sv_url sv) (Some (pset p (query_or_update k) (PBytes sparql))) (j_headers j) None (sv_verify sv).
  Definition execute (j : job) : list request * res outcome :=
    match utf8_encode (j_sparql j) with
    | Err e => ([], Err e)
    | Ok sparql =>
        let q := request_of j sparql in
        ([q], do r <- net q ;
              if resp_status r =? 204 then Ok OTrue
              else if negb (resp_status r =? 200) then Err SPARQLQueryException
              else Ok (OResponse r))
    end.
  (** StringIO(response.content): content is bytes, StringIO wants str *)
  Definition string_io (content : list N) : res str := Err TypeError.
  (** _Select.execute: 138-161.  A bool has no attribute headers; a missing header
      is a KeyError.  The two calls after StringIO are never reached. *)
  Definition select_execute (j : job) : list request * res outcome :=
    let '(calls, r) := execute j in
    (calls,
     do r <- r ;
     match r with
     | OResponse r =>
         match resp_type r with
         | None => Err KeyError
         | Some t =>
             if startswith t (s2l "application/rdf+xml") || startswith t (s2l "text/turtle") then
               do text <- string_io (resp_content r) ; Err AttributeError
             else if startswith t (s2l "application/sparql-results+json") then
               do text <- utf8_decode (resp_content r) ; Ok (OJson text)
             else if startswith t (s2l "application/sparql-results+xml") then
               do text <- string_io (resp_content r) ; Ok (OResponse r)
             else Err UnknownSPARQLReturnTypeException
         end
     | _ => Err AttributeError
     end).
  (** SPARQLServer.query (201-213), update (215-220) *)
  Definition query (sv : server) (sparql output : str) (dg ng : option garg) : list request * res outcome :=
    select_execute (select_init sv sparql output dg ng).
  Definition update (sv : server) (sparql : str) (dg ng : option garg) : list request * res outcome :=
    execute (update_init sv sparql dg ng).
End Net.

(** ** Graph stores: 223-336 *)
(** UpdateableGraphStore.__init__ (227-230): an object has the attributes set by it
    and by SPARQLServer.__init__; [gs_server] is Some only if a program assigns
    store.server = a SPARQLServer itself. *)
Record store := mkStore { gs_base : server; gs_dataset_url : str; gs_param_style : bool; gs_server : option server }.
Definition store_init (sv : server) (dataset_url : str) (param_style : bool) : store := mkStore sv dataset_url param_style None.
Definition getattr (attrs : list str) (name : str) : res unit := if in_dec str_eq_dec name attrs then Ok tt else Err AttributeError.
(** the attributes of the package urllib (Python 3): its submodules and the usual module attributes *)
Definition urllib_attrs : list str :=
  map s2l ["__builtins__"; "__cached__"; "__doc__"; "__file__"; "__loader__"; "__name__"; "__package__"; "__path__"; "__spec__";
           "error"; "parse"; "request"; "response"; "robotparser"]%string.
(** the attributes of a function that could matter here; urlparse is a function *)
Definition function_attrs : list str :=
  map s2l ["__annotations__"; "__call__"; "__class__"; "__closure__"; "__code__"; "__defaults__"; "__dict__"; "__doc__"; "__globals__";
           "__kwdefaults__"; "__module__"; "__name__"; "__qualname__"; "cache_clear"; "cache_info"; "cache_parameters"; "__wrapped__"]%string.
(** request_url: 239-243; the attributes are looked up before the calls *)
Definition request_url (st : store) (graph_uri : str) : res str :=
  if gs_param_style st then
    do _ <- getattr urllib_attrs (s2l "urlencode") ; Ok (gs_dataset_url st ++ [63] ++ graph_uri)
  else
    do _ <- getattr function_attrs (s2l "urljoin") ; do _ <- getattr urllib_attrs (s2l "quote_plus") ; Ok (gs_dataset_url st ++ graph_uri).
(** self.server *)
Definition self_server (st : store) : res server := match gs_server st with Some sv => Ok sv | None => Err AttributeError end.
(** attributes of a SPARQLServer: requests_kwargs (189-191), but no request_kwargs (269) *)
Definition server_attrs : list str :=
  map s2l ["query_url"; "post_queries"; "post_directly"; "requests_kwargs"; "s"; "query"; "update"; "acceptable_sparql_responses"]%string.

Inductive verb := VGet | VDelete | VPut | VPost | VPatch.
(** a call of Session.get, delete, put, post or patch *)
Record scall := mkCall { c_verb : verb; c_url : str; c_data : option (list N); c_headers : dict str str; c_kwargs : option verify }.
Section StoreNet.
  (** the status code of the answer *)
  Variable snet : scall -> res N.
  Definition send (url : res str) (kwargs : str) (st : store) (mk : str -> option verify -> scall) : list scall * res N :=
    match (do u <- url ; do sv <- self_server st ; do _ <- getattr server_attrs kwargs ; Ok (u, sv_verify sv)) with
    | Err e => ([], Err e)
    | Ok (u, v) => ([mk u v], snet (mk u v))
    end.
  Definition expect (codes : list N) (x : list scall * res N) : list scall * res unit :=
    (fst x, do c <- snd x ; if existsb (N.eqb c) codes then Ok tt else Err PlainException).
  Definition graph_types : list str := map s2l ["text/plain"; "application/rdf+xml"; "text/turtle"; "text/rdf+n3"]%string.
  (** get: 245-265; what happens after the status check is not modelled *)
  Definition store_get (st : store) (graph_uri : str) : list scall * res unit :=
    expect [200] (send (request_url st graph_uri) (s2l "requests_kwargs") st
      (fun u v => mkCall VGet u None [(s2l "Accept", comma_join graph_types)] v)).
  (** delete: 267-275 *)
  Definition store_delete (st : store) (graph_uri : str) : list scall * res unit :=
    expect [200; 202] (send (request_url st graph_uri) (s2l "request_kwargs") st (fun u v => mkCall VDelete u None [] v)).
  (** put: 277-289; [ser] is the outcome of graph.serialize(format="nt") *)
  Definition store_put (st : store) (graph_uri : str) (ser : res (list N)) : list scall * res unit :=
    match ser with
    | Err e => ([], Err e)
    | Ok data => expect [200; 201; 204] (send (request_url st graph_uri) (s2l "requests_kwargs") st
                   (fun u v => mkCall VPut u (Some data) [(s2l "content-type", s2l "text/plain")] v))
    end.
  (** post: 291-316 *)
  Definition store_post (st : store) (graph_uri : option str) (ser : res (list N)) : list scall * res unit :=
    match ser with
    | Err e => ([], Err e)
    | Ok data =>
        let mk u v := mkCall VPost u (Some data) [(s2l "content-type", s2l "text/plain")] v in
        match graph_uri with
        | Some gu => expect [200; 201; 204] (send (request_url st gu) (s2l "requests_kwargs") st mk)
        | None => expect [201] (send (Ok (gs_dataset_url st)) (s2l "requests_kwargs") st mk)
        end
    end.
  (** PatchableGraphStore.patch: 323-336 *)
  Definition store_patch (st : store) (graph_uri : str) (ser : res (list N)) : list scall * res unit :=
    match ser with
    | Err e => ([], Err e)
    | Ok data => expect [200; 201; 204] (send (request_url st graph_uri) (s2l "requests_kwargs") st
                   (fun u v => mkCall VPatch u (Some data) [(s2l "content-type", s2l "application/vnd.talis.changeset+xml")] v))
    end.
End StoreNet.

(** ** Change sets: 339-382 *)
(** An rdflib Graph is the list of its triples in iteration order; rdflib terms are
    [term]s (URIRef: [Iri]).  rdflib.BNode() makes a new blank node: [n] counts them. *)
Definition rg_mem (x : stmt) (g : list stmt) : bool := if in_dec stmt_eq_dec x g then true else false.
Definition rg_add (g : list stmt) (t : stmt) : list stmt := if rg_mem t g then g else g ++ [t].
(** differences: 376-382 *)
Definition differences (a b : list stmt) (exclude : list str) : list stmt * list stmt :=
  let keep other s := negb (rg_mem s other) && negb (if in_dec term_eq_dec (st_p s) (map Iri exclude) then true else false) in
  (filter (keep b) a, filter (keep a) b).
Definition rdf_term (n : string) : term := Iri (s2l "http://www.w3.org/1999/02/22-rdf-syntax-ns#" ++ s2l n).
Definition cs_term (n : string) : term := Iri (s2l "http://purl.org/vocab/changeset/schema#" ++ s2l n).
(** reify: 365-373 *)
Definition reify (n : N) (graph : list stmt) (st : stmt) : N * list stmt * term :=
  let node := BNode n in
  let graph := rg_add graph (Tr node (rdf_term "type") (rdf_term "Statement")) in
  let graph := rg_add graph (Tr node (rdf_term "subject") (st_s st)) in
  let graph := rg_add graph (Tr node (rdf_term "predicate") (st_p st)) in
  let graph := rg_add graph (Tr node (rdf_term "object") (st_o st)) in
  (n + 1, graph, node).
(** the loops 356-361 *)
Fixpoint reify_all (n : N) (graph : list stmt) (cset p : term) (l : list stmt) : N * list stmt :=
  match l with
  | [] => (n, graph)
  | st :: r => let '(n, graph, node) := reify n graph st in reify_all n (rg_add graph (Tr cset p node)) cset p r
  end.
(** changeset: 339-362; [now] is the text of the time *)
Definition changeset (n : N) (now : str) (a b : list stmt) (graph_uri : str) : N * list stmt :=
  let '(removal, addition) := differences a b [] in
  let cset := BNode n in
  let graph := rg_add [] (Tr cset (rdf_term "type") (cs_term "ChangeSet")) in
  let graph := rg_add graph (Tr cset (cs_term "createdDate") (Lit now None None)) in
  let graph := rg_add graph (Tr cset (cs_term "subjectOfChange") (Iri graph_uri)) in
  let '(n, graph) := reify_all (n + 1) graph cset (cs_term "removal") removal in
  reify_all n graph cset (cs_term "addition") addition.
