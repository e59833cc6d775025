(** Specification side of C93: the names of the items of each class, in order. *)
From Verif Require Import Model.Py Model.Tuples.

(** the items of an instance by name *)
Inductive has_items {A} : inst A -> list (str * A) -> Prop :=
| hi_triple s p o : has_items (mkI KTriple [s; p; o]) [(s2l "subject", s); (s2l "predicate", p); (s2l "object", o)]
| hi_quad s p o g : has_items (mkI KQuad [s; p; o; g]) [(s2l "subject", s); (s2l "predicate", p); (s2l "object", o); (s2l "graph", g)]
| hi_literal v l d : has_items (mkI KLiteral [v; l; d]) [(s2l "value", v); (s2l "language", l); (s2l "datatype", d)].
Definition arity (k : kind) : nat := match k with KQuad => 4 | _ => 3 end.
