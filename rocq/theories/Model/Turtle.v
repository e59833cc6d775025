(** Turtle parsing from the parse tree on: parsers/lark/turtle.py 101-305,
    parsers/base.py 14-53, util.py 92-111; and util.py 23-30.

    lark builds the whole parse tree first and then runs TurtleTransformer over
    it, bottom-up and left to right; the parse trees are in Model/TurtleTree.v.  Callbacks
    that are plain functions (iri, prefixed_name, prefix_id, base, blank_node,
    the literals) run during that pass and are modelled by the [e_...] functions;
    the callbacks triples, blank_node_property_list and collection are generator
    functions, whose bodies run only when Graph.addAll consumes turtle_doc
    (parse, line 303): they are modelled by the [gen_...] functions over the
    values [tval] the first pass produced. *)
From Verif Require Import Model.Py Model.Terms Model.Graph Model.Codec Model.NTriples Model.Curie Model.TurtleTree.
Open Scope N_scope.

(** ** util.py *)

(** one_or_none: util.py 23-30, for a sequence *)
Definition one_or_none {A} (values : list A) : res (option A) :=
  match values with
  | [] => Ok None
  | [x] => Ok (Some x)
  | _ => Err ValueError
  end.

(** grouper: util.py 104-111.  zip_longest over n references to one iterator:
    each round takes n items; the last round is filled up; no round is produced
    when the iterator is already exhausted (and none for n = 0). *)
Fixpoint take_fill {A} (n : nat) (fill : A) (l : list A) : list A * list A :=
  match n with
  | O => ([], l)
  | S k => match l with
           | [] => let '(c, r) := take_fill k fill [] in (fill :: c, r)
           | x :: l' => let '(c, r) := take_fill k fill l' in (x :: c, r)
           end
  end.
(** [fuel]: one unit per round; the length of the list suffices for n > 0 *)
Fixpoint grouper_go {A} (fuel n : nat) (fill : A) (l : list A) : list (list A) :=
  match fuel, l with
  | O, _ | _, [] => []
  | S f, _ => let '(c, r) := take_fill n fill l in c :: grouper_go f n fill r
  end.
Definition grouper {A} (n : nat) (fill : A) (l : list A) : list (list A) :=
  match n with O => [] | _ => grouper_go (length l) n fill l end.

(** smart_urljoin: util.py 92-101.  urllib.parse.urljoin is an argument. *)
Definition urljoin_fn := str -> str -> res str.
Definition smart_urljoin (urljoin : urljoin_fn) (base url : str) : res str :=
  do joined <- urljoin base url ;
  Ok (if endswith_char url 35 && negb (endswith_char joined 35) then joined ++ [35] else joined).

(** ** LEGAL_IRI and validate_iri: turtle.py 101-107.  The class is the one of
    IRIREF; re.match with a final $ also accepts when one newline follows. *)
Fixpoint legal_iri (s : str) : bool :=
  match s with
  | [] => true
  | c :: r => if iri_char c then legal_iri r else (c =? 10) && match r with [] => true | _ => false end
  end.
Definition validate_iri (s : str) : res str := if legal_iri s then Ok s else Err ValueError.

(** ** First pass *)

(** decode_iriref: 144-145, applied to the text between the brackets *)
Definition decode_iriref (body : str) : res str := do s <- decode_literal body ; validate_iri s.

(** prefixed_name: 170-173 *)
Definition prefixed_name (pm : dict str str) (pname : str) : res str :=
  let '(ns, _, ln) := partition pname 58 in
  match dget str_eq_dec pm ns with
  | None => Err KeyError
  | Some iri => do l <- decode_literal ln ; Ok (iri ++ l)
  end.
(** iri: 147-155.  A prefixed name whose expansion starts with "<" is treated
    as an IRIREF once more: its first and last characters are dropped. *)
Definition e_iri (uj : urljoin_fn) (pm : dict str str) (base : str) (i : tiri) : res str :=
  match i with
  | TRef body => do s <- decode_iriref body ; smart_urljoin uj base s
  | TPn tok =>
      do s <- prefixed_name pm tok ;
      if startswith s [60] then do s' <- decode_iriref (removelast (tl s)) ; smart_urljoin uj base s'
      else Ok s
  end.

(** string 263-276, rdf_literal 245-257, numeric_literal 233-243,
    boolean_literal 259-261; make_language_literal: parsers/base.py 23-27 *)
Definition e_lit (uj : urljoin_fn) (pm : dict str str) (base : str) (x : tlit) : res term :=
  match x with
  | TStr body sf =>
      do v <- decode_literal body ;
      match sf with
      | SfType i => do d <- e_iri uj pm base i ; Ok (Lit v None (Some d))
      | SfLang tag => Ok (Lit v (if str_truthy tag then Some tag else None) None)
      | SfNone => Ok (Lit v None (Some (xsd "string")))
      end
  | TNum k tok =>
      Ok (Lit tok None (Some (match k with NInteger => xsd "integer" | NDecimal => xsd "decimal"
                                         | NDouble => xsd "double" end)))
  | TBool tok => Ok (Lit tok None (Some (xsd "boolean")))
  end.

(** what the first pass leaves in the place of an object: a term, or a generator
    that has not run yet *)
Inductive tval :=
| VTerm (t : term)
| VColl (l : tvals)
| VProps (p : vpol)
with tvals := VNil | VCons (v : tval) (r : tvals)
with vpol := VPNil | VPCons (p : term) (os : tvals) (r : vpol).

Definition rdf (name : string) : term := Iri (rdf_ns ++ s2l name).

(** a verb; the token 'a' becomes rdf:type in unpack_predicate_object_list 120-123 *)
Definition e_verb (uj : urljoin_fn) (pm : dict str str) (base : str) (v : tverb) : res term :=
  match v with VA => Ok (rdf "type") | VIri i => do s <- e_iri uj pm base i ; Ok (Iri s) end.

Section Eager.
  Variables (uj : urljoin_fn) (pm : dict str str) (base : str).
  (** blank_node 200-208: ANON always makes a new node, a label is looked up in
      the bnodes of this parse *)
  Fixpoint e_obj (b : bstate) (o : tobj) : bstate * res tval :=
    match o with
    | TIri i => (b, do s <- e_iri uj pm base i ; Ok (VTerm (Iri s)))
    | TLabel l => let '(b', t) := make_bnode b l in (b', Ok (VTerm t))
    | TAnon => (mkB (bs_next b + 1) (bs_map b), Ok (VTerm (BNode (bs_next b))))
    | TColl l => let '(b', r) := e_objs b l in (b', do vs <- r ; Ok (VColl vs))
    | TProps p => let '(b', r) := e_pol b p in (b', do v <- r ; Ok (VProps v))
    | TLit x => (b, do t <- e_lit uj pm base x ; Ok (VTerm t))
    end
  with e_objs (b : bstate) (l : tobjs) : bstate * res tvals :=
    match l with
    | ONil => (b, Ok VNil)
    | OCons o r =>
        match e_obj b o with
        | (b1, Err e) => (b1, Err e)
        | (b1, Ok v) => let '(b2, x) := e_objs b1 r in (b2, do vs <- x ; Ok (VCons v vs))
        end
    end
  with e_pol (b : bstate) (p : tpol) : bstate * res vpol :=
    match p with
    | PNil => (b, Ok VPNil)
    | PCons v os r =>
        match e_verb uj pm base v with
        | Err e => (b, Err e)
        | Ok t =>
            match e_objs b os with
            | (b1, Err e) => (b1, Err e)
            | (b1, Ok vs) => let '(b2, x) := e_pol b1 r in (b2, do q <- x ; Ok (VPCons t vs q))
            end
        end
    end.
End Eager.

(** the transformer's state: prefixes (142), base_iri (141), bnodes *)
Record tstate := mkTS { ts_pm : dict str str; ts_base : str; ts_bn : bstate }.

(** one statement: prefix_id 175-181, sparql_prefix 183-184, base 186-195,
    sparql_base 197-198 (a base token never starts with "@" without being
    "@base"), or triples 160-168 with its children *)
Definition e_stmt (uj : urljoin_fn) (st : tstate) (x : tstmt) : tstate * res (option (tval * vpol)) :=
  match x with
  | SPrefix ns iri =>
      match (do s <- decode_iriref iri ; smart_urljoin uj (ts_base st) s) with
      | Err e => (st, Err e)
      | Ok i => (mkTS (dset str_eq_dec (ts_pm st) ns i) (ts_base st) (ts_bn st), Ok None)
      end
  | SBase iri =>
      match (do s <- decode_iriref iri ; smart_urljoin uj (ts_base st) s) with
      | Err e => (st, Err e)
      | Ok i => (mkTS (ts_pm st) i (ts_bn st), Ok None)
      end
  | STriples s p =>
      match e_obj uj (ts_pm st) (ts_base st) (ts_bn st) s with
      | (b1, Err e) => (mkTS (ts_pm st) (ts_base st) b1, Err e)
      | (b1, Ok v) =>
          let '(b2, q) := e_pol uj (ts_pm st) (ts_base st) b1 p in
          (mkTS (ts_pm st) (ts_base st) b2, do q' <- q ; Ok (Some (v, q')))
      end
  end.
(** tr.transform(tree): the children of turtle_doc that are not directives *)
Fixpoint e_doc (uj : urljoin_fn) (st : tstate) (l : list tstmt) : tstate * res (list (tval * vpol)) :=
  match l with
  | [] => (st, Ok [])
  | x :: r =>
      match e_stmt uj st x with
      | (st1, Err e) => (st1, Err e)
      | (st1, Ok y) =>
          let '(st2, ys) := e_doc uj st1 r in
          (st2, do zs <- ys ; Ok (match y with Some z => z :: zs | None => zs end))
      end
  end.

(** ** Second pass: the generators.
    The object of a produced triple can be a generator object instead of a term
    (see [gen_many]); such an object is [GGen]. *)
Inductive gobj := GTerm (t : term) | GGen.
Record gtriple := GT { gt_s : term; gt_p : term; gt_o : gobj }.

(** unpack_predicate_object_list 125-135 on an object_list with several members:
    the Tree's children are enumerated; a member that is a generator is not
    opened but used as the object itself *)
Fixpoint gen_many (s p : term) (l : tvals) : list gtriple :=
  match l with
  | VNil => []
  | VCons v r => GT s p (match v with VTerm t => GTerm t | _ => GGen end) :: gen_many s p r
  end.

(** what running a generator to its end yields: the triples and the final node.
    [n] is the identity of the next new BlankNode. *)
Fixpoint gen_val (n : N) (v : tval) : N * list gtriple * term :=
  match v with
  | VTerm t => (n, [], t)
  | VColl l => gen_coll n l
  | VProps p =>                                     (* 210-214 *)
      let '(n', ts) := gen_pol (n + 1) (BNode n) p in (n', ts, BNode n)
  end
(** collection 216-231: children in reverse order *)
with gen_coll (n : N) (l : tvals) : N * list gtriple * term :=
  match l with
  | VNil => (n, [], rdf "nil")
  | VCons v r =>
      let '(n1, ts, prev) := gen_coll n r in
      let this := BNode n1 in
      let '(n2, tv, node) := gen_val (n1 + 1) v in
      (n2, ts ++ tv ++ [GT this (rdf "first") (GTerm node); GT this (rdf "rest") (GTerm prev)], this)
  end
(** unpack_predicate_object_list 119-135; a one-member object list is inlined
    by the grammar (?object_list) *)
with gen_pol (n : N) (s : term) (p : vpol) : N * list gtriple :=
  match p with
  | VPNil => (n, [])
  | VPCons pr os r =>
      let '(n1, ts) :=
        match os with
        | VCons v VNil => let '(n', tv, node) := gen_val n v in (n', tv ++ [GT s pr (GTerm node)])
        | _ => (n, gen_many s pr os)
        end in
      let '(n2, ts2) := gen_pol n1 s r in (n2, ts ++ ts2)
  end.
(** triples 160-168 with unpack_predicate_object_list 110-117 *)
Definition gen_stmt (n : N) (x : tval * vpol) : N * list gtriple :=
  let '(n1, ts, s) := gen_val n (fst x) in
  let '(n2, ts2) := gen_pol n1 s (snd x) in (n2, ts ++ ts2).
(** turtle_doc 278-282 *)
Fixpoint gen_doc (n : N) (l : list (tval * vpol)) : N * list gtriple :=
  match l with
  | [] => (n, [])
  | x :: r => let '(n1, ts) := gen_stmt n x in let '(n2, ts2) := gen_doc n1 r in (n2, ts ++ ts2)
  end.

(** TurtleTransformer(base_iri=base), then _prepare_parse: 139-142, 298-301;
    createProfile() gives a Profile with the two default prefixes *)
Definition ts_new (n : N) (base : str) : tstate :=
  mkTS [(s2l "rdf", rdf_ns); (s2l "xsd", xsd_ns)] base (prepare n).

(** parse, 297-303, from the parse tree on: the triples handed to graph.addAll,
    in order.  An exception in a callback of the first pass is re-raised by lark
    as VisitError. *)
Definition turtle_run (uj : urljoin_fn) (n : N) (base : str) (doc : list tstmt) : N * res (list gtriple) :=
  match e_doc uj (ts_new n base) doc with
  | (st, Err _) => (bs_next (ts_bn st), Err VisitError)
  | (st, Ok l) => let '(n', ts) := gen_doc (bs_next (ts_bn st)) l in (n', Ok ts)
  end.

(** the triples as statements, when no object is a generator object *)
Fixpoint plain (l : list gtriple) : option (list stmt) :=
  match l with
  | [] => Some []
  | GT s p (GTerm o) :: r => match plain r with Some ts => Some (Tr s p o :: ts) | None => None end
  | GT _ _ GGen :: _ => None
  end.
(** graph.addAll(tr.transform(tree)): 303.  [None] when a generator object would
    be stored: such graphs are outside the model of Graph. *)
Definition turtle_add (uj : urljoin_fn) (n : N) (base : str) (g : graph) (doc : list tstmt)
  : option (N * graph * res unit) :=
  match turtle_run uj n base doc with
  | (n', Err e) => Some (n', g, Err e)
  | (n', Ok ts) => match plain ts with Some l => Some (n', g_addAll g l, Ok tt) | None => None end
  end.

(** ** The prefix map of a parse.
    The constructor of BaseParser (parsers/base.py 14-20) makes an RDFEnvironment
    and a profile from it; self.prefixes (142) is the map of that profile. *)
Definition parser_new (h : heap) : heap := prun h [NewProfile None None; CreateProfile (length (h_profs h)) false].
(** the assignments self.prefixes[ns] = iri (179) a document makes *)
Fixpoint doc_writes (uj : urljoin_fn) (st : tstate) (l : list tstmt) : list (str * str) :=
  match l with
  | [] => []
  | x :: r =>
      match e_stmt uj st x with
      | (_, Err _) => []
      | (st1, Ok _) =>
          (match x with
           | SPrefix ns iri => match (do s <- decode_iriref iri ; smart_urljoin uj (ts_base st) s) with
                               | Ok i => [(ns, i)]
                               | Err _ => []
                               end
           | _ => []
           end) ++ doc_writes uj st1 r
      end
  end.
(** the heap of profiles and maps after a parse *)
Definition parser_heap (uj : urljoin_fn) (h : heap) (n : N) (base : str) (doc : list tstmt) : heap :=
  prun (parser_new h) (map (fun w => SetPrefix (S (length (h_profs h))) (fst w) (snd w)) (doc_writes uj (ts_new n base) doc)).
