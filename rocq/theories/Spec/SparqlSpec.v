(** Specification side of C65-C67. *)
From Coq Require Import Permutation.
From Verif Require Import Model.Py Model.Terms Model.Sparql Spec.CodecSpec.
Open Scope N_scope.

(** ** SPARQL 1.1 Protocol, sections 2.1 and 2.2 *)
(** an HTTP request: parameters in the URL, media type and body, which is a form or octets *)
Inductive content := NoBody | Form (pairs : list (str * list N)) | Octets (b : list N).
Record http := mkHttp { h_method : method; h_url : str; h_query : list (str * list N); h_media : option str; h_body : content }.
(** the parameters that name the graphs *)
Definition graph_params (k : kind) (default named : list str) : list (str * list N) :=
  match k with
  | Select => map (fun g => (s2l "default-graph-uri", utf8_text g)) default ++ map (fun g => (s2l "named-graph-uri", utf8_text g)) named
  | Update => map (fun g => (s2l "using-graph-uri", utf8_text g)) default ++ map (fun g => (s2l "using-named-graph-uri", utf8_text g)) named
  end.
(** the three ways to send an operation; GET is for queries only *)
Inductive protocol (default named : list str) (url : str) (text : list N) : kind -> http -> Prop :=
| by_get q : Permutation q ((s2l "query", text) :: graph_params Select default named) ->
    protocol default named url text Select (mkHttp Get url q None NoBody)
| by_form k q : Permutation q ((match k with Select => s2l "query" | Update => s2l "update" end, text) :: graph_params k default named) ->
    protocol default named url text k (mkHttp Post url [] (Some (s2l "application/x-www-form-urlencoded")) (Form q))
| directly k q : Permutation q (graph_params k default named) ->
    protocol default named url text k
      (mkHttp Post url q (Some (match k with Select => s2l "application/sparql-query" | Update => s2l "application/sparql-update" end)) (Octets text)).

(** What the requests library makes of its arguments: a list gives one parameter per
    element, a dictionary of data a form, with the media type of a form unless the
    headers say otherwise.  The media type ends at the semicolon. *)
Definition pairs_of (p : list (str * pval)) : list (str * list N) :=
  concat (map (fun kv => match snd kv with
                         | PStr s => [(fst kv, utf8_text s)]
                         | PList l => map (fun s => (fst kv, utf8_text s)) l
                         | PBytes b => [(fst kv, b)]
                         end) p).
Fixpoint until_semicolon (s : str) : str := match s with [] => [] | c :: r => if c =? 59 then [] else c :: until_semicolon r end.
Definition header (h : list (str * str)) (name : str) : option str := option_map snd (find (fun kv => str_eqb (fst kv) name) h).
Definition on_the_wire (q : request) : http :=
  mkHttp (r_method q) (r_url q) (match r_params q with Some p => pairs_of p | None => [] end)
    (match header (r_headers q) (s2l "Content-Type"), r_data q with
     | Some t, _ => Some (until_semicolon t)
     | None, Some (BForm _) => Some (s2l "application/x-www-form-urlencoded")
     | None, _ => None
     end)
    (match r_data q with None => NoBody | Some (BBytes b) => Octets b | Some (BForm p) => Form (pairs_of p) end).
(** the graphs an argument names *)
Definition graphs_of (a : option garg) : list str :=
  match a with None => [] | Some (GStr s) => match s with [] => [] | _ => [s] end | Some (GList l) => l end.

(** how the text travels *)
Definition way (k : kind) (sv : server) (text : list N) (h : http) : Prop :=
  (sv_post_directly sv = true -> h_body h = Octets text) /\
  (sv_post_directly sv = false -> k = Update \/ sv_post_queries sv = true -> exists pairs, h_body h = Form pairs) /\
  (sv_post_directly sv = false -> k = Select -> sv_post_queries sv = false -> h_method h = Get).

(** a str that can be encoded *)
Definition encodable (s : str) : Prop := py_str s /\ Forall (fun c => ~ surrogate c) s.

(** ** Change sets *)
(** the names of the RDF vocabulary and of the change set vocabulary *)
Definition rdf_name (n : string) : term := Iri (s2l "http://www.w3.org/1999/02/22-rdf-syntax-ns#" ++ s2l n).
Definition cs_name (n : string) : term := Iri (s2l "http://purl.org/vocab/changeset/schema#" ++ s2l n).
Definition without (a r : list stmt) (t : stmt) : Prop := In t a /\ ~ In t r.
(** [x] is a node that describes exactly the statement [st]: it has these four properties and no others *)
Definition describes (G : list stmt) (x : term) (st : stmt) : Prop :=
  forall p o, In (Tr x p o) G <->
    (p = rdf_name "type" /\ o = rdf_name "Statement") \/ (p = rdf_name "subject" /\ o = st_s st) \/
    (p = rdf_name "predicate" /\ o = st_p st) \/ (p = rdf_name "object" /\ o = st_o st).
