(** Resources as Python values: comparison and hashing (src/pymantic/rdf.py 162-177),
    object_of (243-252), as_ (547-548), and the sets they end up in (381, 585). *)
From Verif Require Import Model.Py Model.Terms Model.Graph Model.Codec Model.Curie Model.Resource.
Open Scope N_scope.

(** Values that meet in comparisons: an instance of a Resource class with (the identity
    of) its graph and its subject; a term; a str that is no NamedNode; an object of a
    class without __eq__ and __hash__, by identity. *)
Inductive pv :=
| PRes (c : nat) (graph : N) (subject : term)
| PTerm (t : term)
| PStr (s : str)
| PObj (id : N).

(** Resource.__eq__: 162-167.  None is NotImplemented.  The subjects are compared with ==
    between terms. *)
Definition res_eq (subject : term) (other : pv) : option bool :=
  match other with
  | PRes _ _ s => Some (if term_eq_dec subject s then true else false)
  | PTerm (Iri x) | PStr x => Some (str_eqb (term_str subject) x)
  | _ => None
  end.
(** Resource.__ne__: 169-174 *)
Definition res_ne (subject : term) (other : pv) : option bool :=
  match res_eq subject other with None => None | Some b => Some (negb b) end.

(** the __eq__ of a value; str.__eq__ (also NamedNode), tuple.__eq__ (Literal) and
    object.__eq__ are Python's *)
Definition eq_method (a b : pv) : option bool :=
  match a with
  | PRes _ _ s => res_eq s b
  | PStr x | PTerm (Iri x) => match b with PStr y | PTerm (Iri y) => Some (str_eqb x y) | _ => None end
  | PTerm (BNode i) => match b with PTerm (BNode j) => if i =? j then Some true else None | _ => None end
  | PTerm (Lit _ _ _ as x) => match b with PTerm (Lit _ _ _ as y) => Some (if term_eq_dec x y then true else false) | _ => None end
  | PObj i => match b with PObj j => if i =? j then Some true else None | _ => None end
  end.
(** ... and its __ne__: Python derives it from __eq__ except for Resource *)
Definition ne_method (a b : pv) : option bool :=
  match a with PRes _ _ s => res_ne s b | _ => option_map negb (eq_method a b) end.
(** "is", where it decides: a str and a tuple always have answered before *)
Definition identical (a b : pv) : bool :=
  match a, b with PTerm (BNode i), PTerm (BNode j) => i =? j | PObj i, PObj j => i =? j | _, _ => false end.
(** a == b and a != b: the left method, the right one reflected, identity.  (When the
    class of b is a subclass of that of a Python asks b first: same answers, see
    C90_symmetric.) *)
Definition py_eq (a b : pv) : bool :=
  match eq_method a b with
  | Some r => r
  | None => match eq_method b a with Some r => r | None => identical a b end
  end.
Definition py_ne (a b : pv) : bool :=
  match ne_method a b with
  | Some r => r
  | None => match ne_method b a with Some r => r | None => negb (identical a b) end
  end.

Section Hash.
  (** the hashes of strings, of objects by identity, and of tuples: any functions *)
  Variable hash_str : str -> Z.
  Variable hash_id : N -> Z.
  Variable hash_tuple : str * option str * option str -> Z.

  (** hash(term): NamedNode inherits that of str, Literal that of tuple *)
  Definition hash_term (t : term) : Z :=
    match t with Iri s => hash_str s | BNode a => hash_id a | Lit v l d => hash_tuple (v, l, d) end.
  (** Resource.__hash__: 176-177, and the built-in ones *)
  Definition py_hash (v : pv) : Z :=
    match v with PRes _ _ s => hash_term s | PTerm t => hash_term t | PStr s => hash_str s | PObj i => hash_id i end.

  (** sets and frozensets: a value is found when the hash agrees and == holds *)
  Definition set_mem (l : list pv) (x : pv) : bool := existsb (fun y => (py_hash y =? py_hash x)%Z && py_eq y x) l.
  Definition set_add (l : list pv) (x : pv) : list pv := if set_mem l x then l else l ++ [x].
  (** set(iterable) *)
  Definition set_of (l : list pv) : list pv := fold_left set_add l [].
End Hash.

(** as_: 547-548; the constructor keeps the subject (119-123) *)
Definition as_ (target : nat) (v : pv) : pv :=
  match v with PRes _ g s => PRes target g (as_subject s) | _ => v end.

(** object_of run to its end: 243-252.  What was yielded, with the predicate that is
    yielded too when no predicate is given. *)
Definition object_of_all (ord : list term -> list term) (w : world) (c : nat) (g : graph) (s : term) (predicate : option str)
  : world * (list (rval * term) * res unit) :=
  match object_of w c g s predicate with
  | Err e => (w, ([], Err e))
  | Ok l => let '(w', (vs, x)) := classify_all ord w c g (map fst l) in (w', (combine vs (map snd l), x))
  end.
