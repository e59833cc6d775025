(** The tuple classes as Python objects: src/pymantic/primitives.py 116-164 (Triple),
    166-214 (Quad), 225-286 (Literal); and the create methods of RDFEnvironment for
    terms, statements, graphs and datasets: 787-809, 834-840. *)
From Verif Require Import Model.Py Model.Terms Model.Graph Model.Dataset Model.Curie.
Open Scope N_scope.

Inductive kind := KTriple | KQuad | KLiteral.
(** _fields: 125, 171, 243 *)
Definition fields (k : kind) : list str :=
  match k with
  | KTriple => [s2l "subject"; s2l "predicate"; s2l "object"]
  | KQuad => [s2l "subject"; s2l "predicate"; s2l "object"; s2l "graph"]
  | KLiteral => [s2l "value"; s2l "language"; s2l "datatype"]
  end.

Section Values.
  Context {A : Type}.
  (** An instance: its class and its items, which can be any objects *)
  Record inst := mkI { i_kind : kind; i_items : list A }.

  (** _make: 130-136, 176-182, 257-263; new is tuple.__new__, so that Literal's own
      __new__ is not called *)
  Definition make (k : kind) (iterable : list A) : res inst :=
    if Nat.eqb (length iterable) (length (fields k)) then Ok (mkI k iterable) else Err TypeError.
  (** the properties subject, predicate, ...: 155-157, 208-211, 282-284; None stands for
      the IndexError of a tuple that is too short *)
  Fixpoint item_at (fs : list str) (l : list A) (f : str) : option A :=
    match fs, l with
    | g :: fs', a :: l' => if str_eqb g f then Some a else item_at fs' l' f
    | _, _ => None
    end.
  Definition attr (x : inst) (f : str) : option A := item_at (fields (i_kind x)) (i_items x) f.
  (** _asdict: 141-143, 187-194, 268-270 *)
  Definition asdict (x : inst) : dict str A := combine (fields (i_kind x)) (i_items x).
  (** kwds.pop(field, old) for each field and old item, in order: 147, 198-199, 274 *)
  Fixpoint pops (kwds : dict str A) (fs : list str) (l : list A) : dict str A * list A :=
    match fs, l with
    | f :: fs', a :: l' =>
        let v := match dget str_eq_dec kwds f with Some b => b | None => a end in
        let '(kwds', r) := pops (ddel str_eq_dec kwds f) fs' l' in (kwds', v :: r)
    | _, _ => (kwds, [])
    end.
  (** _replace: 145-150, 196-203, 272-277.  A keyword argument called _self clashes with
      the parameter. *)
  Definition replace_ (x : inst) (kwds : dict str A) : res inst :=
    if dmem str_eq_dec kwds (s2l "_self") then Err TypeError
    else let '(rest, items) := pops kwds (fields (i_kind x)) (i_items x) in
         do r <- make (i_kind x) items ;
         match rest with [] => Ok r | _ => Err ValueError end.
  (** x == y: tuple.__eq__ looks at the items only *)
  Definition inst_eq (eqA : A -> A -> bool) (x y : inst) : bool :=
    Nat.eqb (length (i_items x)) (length (i_items y)) && forallb (fun ab => eqA (fst ab) (snd ab)) (combine (i_items x) (i_items y)).
End Values.
Arguments inst : clear implicits.

(** items of tuples: None, a term, a Python value (a str that is no NamedNode, an int, a
    datetime, something else) *)
Inductive fval := FNone | FTerm (t : term) | FPy (v : pyval).
(** an item passed to Literal as its value: a NamedNode is a str and stays what it is *)
Definition convert (v d : fval) : res (fval * fval) :=
  match v with
  | FPy (VStr _) | FTerm (Iri _) => Ok (v, d)
  | FPy (VInt z) => Ok (FPy (VStr (int_str z)), match d with FNone => FTerm (Iri (xsd "integer")) | _ => d end)
  | FPy (VDatetime iso) => Ok (FPy (VStr iso), match d with FNone => FTerm (Iri (xsd "dateTime")) | _ => d end)
  | _ => Err KeyError
  end.
(** cls.__new__(cls, args): 127-128, 173-174, 250-255 (language and datatype default to
    None) *)
Definition new_inst (k : kind) (args : list fval) : res (inst fval) :=
  match k, args with
  | KTriple, [_; _; _] => Ok (mkI k args)
  | KQuad, [_; _; _; _] => Ok (mkI k args)
  | KLiteral, [v] => do x <- convert v FNone ; Ok (mkI k [fst x; FNone; snd x])
  | KLiteral, [v; l] => do x <- convert v FNone ; Ok (mkI k [fst x; l; snd x])
  | KLiteral, [v; l; d] => do x <- convert v d ; Ok (mkI k [fst x; l; snd x])
  | _, _ => Err TypeError
  end.
(** copy.copy(x) and pickle (protocol 2 and later): __reduce_ex__ makes the object again
    by cls.__new__ with the arguments of __getnewargs__ (152-153, 205-206, 279-280) *)
Definition copied (x : inst fval) : res (inst fval) := new_inst (i_kind x) (i_items x).

(** createNamedNode, createLiteral, createTriple, createQuad: 787-800, 834-835 *)
Definition create_named_node (value : str) : term := Iri value.
Definition create_literal (value : pyval) (language datatype : option str) : res term := literal_new value language datatype.
Definition create_triple (s p o : term) : stmt := Tr s p o.
Definition create_quad (s p o : term) (g : oterm) : stmt := Qd s p o g.
(** createGraph: 802-809 *)
Definition create_graph (triples : list stmt) : graph := g_addAll (graph_new None) triples.
(** createDataset: 837-840; the graphs are new objects, on the heap [h] *)
Definition create_dataset (h : list graph) (quads : list stmt) : world * res unit := ds_addAll (ds_new h) quads.
