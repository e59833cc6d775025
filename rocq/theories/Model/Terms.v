(** RDF terms, triples and quads: src/pymantic/primitives.py 116-215 (Triple, Quad),
    225-298 (Literal), 301-317 (NamedNode), 331-353 (BlankNode). *)
From Verif Require Import Model.Py.

(** A term.
    - [Iri s]: NamedNode(s) (primitives.py 301), a str subclass: equality is
      equality of the text (Prefix, line 320, is a NamedNode and equal to it).
    - [BNode a]: a BlankNode object (331); it has no __eq__, so equality is
      identity; [a] stands for id(self).
    - [Lit v l d]: Literal (225), a tuple, so equality is componentwise;
      [l] is the language (None or a str), [d] the datatype (None or an IRI). *)
Inductive term :=
| Iri (s : str)
| BNode (a : N)
| Lit (v : str) (l : option str) (d : option str).

Definition term_eq_dec : forall a b : term, {a = b} + {a <> b}.
Proof. decide equality; try apply str_eq_dec; try apply ostr_eq_dec; apply N.eq_dec. Defined.

(** bool(term): a NamedNode is falsy iff empty (str), a BlankNode is an object
    without __bool__/__len__ and a Literal a 3-tuple, hence truthy. *)
Definition term_truthy (t : term) : bool :=
  match t with Iri s => str_truthy s | _ => true end.

(** An optional argument or graph name; Python None is [None]. *)
Notation oterm := (option term).
Definition oterm_eq_dec : forall a b : oterm, {a = b} + {a <> b}.
Proof. decide equality; apply term_eq_dec. Defined.
Definition oterm_truthy (o : oterm) : bool :=
  match o with Some t => term_truthy t | None => false end.

(** A Triple (primitives.py 116, a 3-tuple) has [st_graph = None]; a Quad (166, a
    4-tuple) has [st_graph = Some g], where the graph name [g] may itself be
    Python None (JSON-LD's default graph).  Tuple equality is componentwise and
    a 3-tuple never equals a 4-tuple. *)
Record stmt := St { st_s : term; st_p : term; st_o : term; st_graph : option oterm }.
Definition Tr (s p o : term) : stmt := St s p o None.
Definition Qd (s p o : term) (g : oterm) : stmt := St s p o (Some g).

Definition stmt_eq_dec : forall a b : stmt, {a = b} + {a <> b}.
Proof. decide equality; try apply term_eq_dec. decide equality. apply oterm_eq_dec. Defined.

(** q_as_t, t_as_q: primitives.py 217-222 *)
Definition q_as_t (q : stmt) : stmt := Tr (st_s q) (st_p q) (st_o q).
Definition t_as_q (g : oterm) (t : stmt) : stmt := Qd (st_s t) (st_p t) (st_o t) g.
