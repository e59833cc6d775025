(** RDF/XML: src/pymantic/parsers/rdfxml.py.
    lxml's etree.parse is outside: the model starts from its outcome, the root
    element.  [el_tag] is None for comments and processing instructions, whose tag
    is a function; [el_base] is element.base (None if unknown).  urljoin with a
    non-empty base is a parameter, which may raise. *)
From Verif Require Import Model.Py Model.Terms Model.Graph Model.GraphRun Model.Codec Model.NTriples.
Open Scope N_scope.

Inductive elem := mkElem (el_tag : option str) (el_base : option str) (el_attrib : dict str str) (el_children : list elem).
Definition el_tag (e : elem) := let (t, _, _, _) := e in t.
Definition el_base (e : elem) := let (_, b, _, _) := e in b.
Definition el_attrib (e : elem) := let (_, _, a, _) := e in a.
Definition el_children (e : elem) := let (_, _, _, c) := e in c.

(** clark: 20-21, for the prefix rdf *)
Definition rdf_ns : str := s2l "http://www.w3.org/1999/02/22-rdf-syntax-ns#".
Definition clark (tag : string) : str := [123] ++ rdf_ns ++ [125] ++ s2l tag.
Definition attr (e : elem) (k : str) : option str := dget str_eq_dec (el_attrib e) k.
(** element == string: Element has no __eq__, so this is the comparison of two
    objects of different types: always False *)
Definition elem_eq_str (e : elem) (s : str) : bool := false.
(** element.tag == string *)
Definition tag_eq (e : elem) (s : str) : bool := match el_tag e with Some t => str_eqb t s | None => false end.

Section RdfXml.
  Variable uj : str -> str -> res str.
  (** urljoin(base, url) returns url if the base is None or empty *)
  Definition urljoin (base : option str) (url : str) : res str := match base with Some (c :: r) => uj (c :: r) url | _ => Ok url end.
  (** scheme_re.match(uri), 8: true for every str that starts with an ASCII letter, as
      the rest of the pattern may match nothing *)
  Definition scheme_match (uri : str) : bool := match uri with c :: _ => in_range 65 90 c || in_range 97 122 c | [] => false end.
  (** _resolve_uri: 81-85 *)
  Definition resolve_uri (e : elem) (uri : str) : res str := if scheme_match uri then Ok uri else urljoin (el_base e) uri.
  (** _resolve_tag: 51-56.  element[1:] is a list of children, which has no partition.
      A function cannot be subscripted. *)
  Definition resolve_tag (e : elem) : res str :=
    match el_tag e with
    | None => Err TypeError
    | Some [] => Err IndexError
    | Some (c :: r) => if c =? 123 then Err AttributeError else urljoin (el_base e) (c :: r)
    end.
  (** _determine_subject: 58-79 *)
  Definition determine_subject (b : bstate) (e : elem) : bstate * res term :=
    match attr e (clark "nodeID") with
    | Some id => let '(b, t) := make_bnode b id in (b, Ok t)
    | None =>
        match attr e (clark "ID"), attr e (clark "about") with
        | Some id, _ => (b, match el_base e with Some (c :: r) => Ok (Iri ((c :: r) ++ [35] ++ id)) | _ => Err ValueError end)
        | None, Some _ => (b, match attr e (clark "resource") with Some u => do x <- resolve_uri e u ; Ok (Iri x) | None => Err KeyError end)
        | None, None => (mkB (bs_next b + 1) (bs_map b), Ok (BNode (bs_next b)))
        end
    end.
  Definition rdf_type : term := Iri (rdf_ns ++ s2l "type").
  (** the loop 38-48; [predicate] is the local variable, None while it is unbound; the
      object (44-47) is computed before it is read (48) *)
  Fixpoint properties (g : graph) (subject : term) (predicate : option str) (children : list elem) : graph * res unit :=
    match children with
    | [] => (g, Ok tt)
    | c :: r =>
        match (if tag_eq c (clark "li") then Ok predicate else do p <- resolve_tag c ; Ok (Some p)) with
        | Err e => (g, Err e)
        | Ok predicate =>
            match attr c (clark "resource") with
            | None => properties g subject predicate r
            | Some u =>
                match resolve_uri c u, predicate with
                | Err e, _ => (g, Err e)
                | Ok _, None => (g, Err UnboundLocalError)
                | Ok o, Some p => properties (g_add g (Tr subject (Iri p) (Iri o))) subject predicate r
                end
            end
        end
    end.
  (** _handle_resource: 31-49 *)
  Definition handle_resource (b : bstate) (g : graph) (e : elem) : bstate * graph * res term :=
    match determine_subject b e with
    | (b, Err x) => (b, g, Err x)
    | (b, Ok subject) =>
        match (if tag_eq e (clark "Description") then Ok g else do c <- resolve_tag e ; Ok (g_add g (Tr subject rdf_type (Iri c)))) with
        | Err x => (b, g, Err x)
        | Ok g => match properties g subject None (el_children e) with (g, Err x) => (b, g, Err x) | (g, Ok _) => (b, g, Ok subject) end
        end
    end.
  (** the loop 28-29 *)
  Fixpoint handle_all (b : bstate) (g : graph) (l : list elem) : bstate * graph * res unit :=
    match l with
    | [] => (b, g, Ok tt)
    | e :: r => match handle_resource b g e with (b, g, Err x) => (b, g, Err x) | (b, g, Ok _) => handle_all b g r end
    end.
  (** parse: 23-29 *)
  Definition parse_rdfxml (n : N) (g : graph) (root : res elem) : bstate * graph * res unit :=
    let b := mkB n [] in
    match root with
    | Err x => (b, g, Err x)
    | Ok root => if negb (elem_eq_str root (clark "RDF")) then (b, g, Err ValueError) else handle_all b g (el_children root)
    end.
End RdfXml.
