(** Specification vocabulary for graphs: mathematical sets of triples and
    pattern matching.  Independent of the model's indexes and generators. *)
From Verif Require Import Model.Py Model.Terms.
From Coq Require Import Permutation.

(** A triple in the sense of the RDF interfaces API (not a quad). *)
Definition is_triple (t : stmt) : Prop := st_graph t = None.

(** The documented meaning of one argument of match: null, or equal. *)
Definition agrees (arg : oterm) (x : term) : Prop := arg = None \/ arg = Some x.
(** ... of the three of them *)
Definition fits (s p o : oterm) (t : stmt) : Prop :=
  agrees s (st_s t) /\ agrees p (st_p t) /\ agrees o (st_o t).

(** The term the documentation forgets: NamedNode("") *)
Definition empty_iri : term := Iri [].
Definition honoured (arg : oterm) : Prop := arg <> Some empty_iri.
(** replace an unusable argument by None *)
Definition as_wildcard (arg : oterm) : oterm :=
  if oterm_eq_dec arg (Some empty_iri) then None else arg.

(** a bound argument that match honours *)
Definition bound (arg : oterm) : Prop := arg <> None /\ arg <> Some empty_iri.

(** Histories of changes, and the mathematical set they denote. *)
Inductive gop :=
| OpAdd (t : stmt)
| OpAddAll (ts : list stmt)
| OpRemove (t : stmt)
| OpQuery (s p o : oterm).    (* list(g.match(s, p, o)) *)

Definition gop_triples (op : gop) : Prop :=
  match op with
  | OpAdd t | OpRemove t => is_triple t
  | OpAddAll ts => forall t, In t ts -> is_triple t
  | OpQuery _ _ _ => True
  end.

(** membership after one operation, given membership before *)
Definition set_after (S : stmt -> Prop) (op : gop) : stmt -> Prop :=
  fun x =>
  match op with
  | OpAdd t => x = t \/ S x
  | OpAddAll ts => In x ts \/ S x
  | OpRemove t => S x /\ x <> t
  | OpQuery _ _ _ => S x
  end.
Fixpoint set_of_history (S : stmt -> Prop) (ops : list gop) : stmt -> Prop :=
  match ops with [] => S | op :: r => set_of_history (set_after S op) r end.

(** the triples some operation of the history added *)
Definition ever_added (ops : list gop) (t : stmt) : Prop :=
  exists op, In op ops /\ match op with OpAdd x => x = t | OpAddAll ts => In t ts | _ => False end.

(** [l] lists the set [S], each element once *)
Definition lists {A} (l : list A) (S : A -> Prop) : Prop :=
  NoDup l /\ forall x, In x l <-> S x.
