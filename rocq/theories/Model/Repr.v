(** Printed representations: the __repr__ methods of primitives.py (138-139, 184-185,
    265-266, 310-311, 346-347) and rdf.py (383-384). *)
From Verif Require Import Model.Py Model.Terms Model.Codec.
Open Scope N_scope.

(** "%0kx" %n for n < 16^k: exactly k digits in lower case *)
Fixpoint fmtx (k : nat) (n : N) : str :=
  match k with
  | O => []
  | S k' => fmtx k' (n / 16) ++ [hexL (n mod 16)]
  end.

Section Repr.
  (** str.isprintable() of a character that is not ASCII: the Unicode tables of the
      interpreter (Objects/unicodectype.c), left open *)
  Variable isprintable : char -> bool.

  (** one character of repr() of a str (Python built-in: unicode_repr in
      Objects/unicodeobject.c) inside the quotation mark [q] *)
  Definition repr_char (q c : char) : str :=
    if (c =? q) || (c =? 92) then [92; c]
    else if c =? 9 then [92; 116]
    else if c =? 10 then [92; 110]
    else if c =? 13 then [92; 114]
    else if (c <? 32) || (c =? 127) then [92; 120] ++ fmtx 2 c
    else if c <? 127 then [c]
    else if isprintable c then [c]
    else if c <? 256 then [92; 120] ++ fmtx 2 c
    else if c <? 65536 then [92; 117] ++ fmtx 4 c
    else [92; 85] ++ fmtx 8 c.
  (** the quotation mark: an apostrophe unless the text contains one and no double quotes *)
  Definition repr_quote (s : str) : char :=
    if existsb (N.eqb 39) s && negb (existsb (N.eqb 34) s) then 34 else 39.
  (** repr() of a str (Python built-in), as in %r *)
  Definition py_repr (s : str) : str := let q := repr_quote s in [q] ++ concat (map (repr_char q) s) ++ [q].
  (** %r of None or a str *)
  Definition opt_repr (o : option str) : str := match o with Some s => py_repr s | None => s2l "None" end.

  (** NamedNode.__repr__: primitives.py 310-311 *)
  Definition iri_repr (s : str) : res str := do x <- iri_toNT s ; Ok (s2l "NamedNode(" ++ x ++ s2l ")").
  (** %r of a datatype: None or a NamedNode *)
  Definition dt_repr (d : option str) : res str := match d with Some d => iri_repr d | None => Ok (s2l "None") end.
  (** NamedNode.__repr__ 310-311, BlankNode.__repr__ 346-347, Literal.__repr__ 265-266:
      the items of the tuple are formatted from left to right *)
  Definition term_repr (t : term) : res str :=
    match t with
    | Iri s => iri_repr s
    | BNode _ => Ok (s2l "BlankNode()")
    | Lit v l d => do x <- dt_repr d ;
        Ok (s2l "Literal(value=" ++ py_repr v ++ s2l ", language=" ++ opt_repr l ++ s2l ", datatype=" ++ x ++ s2l ")")
    end.
  (** %r of a graph name *)
  Definition oterm_repr (o : oterm) : res str := match o with Some t => term_repr t | None => Ok (s2l "None") end.
  (** Triple.__repr__: 138-139; Quad.__repr__: 184-185 *)
  Definition stmt_repr (t : stmt) : res str :=
    do s <- term_repr (st_s t) ; do p <- term_repr (st_p t) ; do o <- term_repr (st_o t) ;
    match st_graph t with
    | None => Ok (s2l "Triple(subject=" ++ s ++ s2l ", predicate=" ++ p ++ s2l ", object=" ++ o ++ s2l ")")
    | Some g => do g <- oterm_repr g ;
        Ok (s2l "Quad(subject=" ++ s ++ s2l ", predicate=" ++ p ++ s2l ", object=" ++ o ++ s2l ", graph=" ++ g ++ s2l ")")
    end.
End Repr.

(** Resource.__repr__: rdf.py 383-384; [c] is the module and the qualified name of
    the class, which type.__repr__ shows (no metaclass of rdf.py overrides it) *)
Definition resource_repr (c : str) (subject : term) : str :=
  s2l "<" ++ (s2l "<class '" ++ c ++ s2l "'>") ++ s2l ": " ++ term_str subject ++ s2l ">".
