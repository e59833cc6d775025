(** Specification vocabulary for datasets: mathematical sets of quads. *)
From Verif Require Import Model.Py Model.Terms Spec.GraphSpec.

Definition is_quad (q : stmt) : Prop := exists n, st_graph q = Some n.

(** the quad agrees with a match pattern; only an IRI, blank node or literal
    that is not the empty IRI restricts *)
Definition qfits (s p o gr : oterm) (q : stmt) : Prop :=
  fits s p o q /\ (gr = None \/ st_graph q = Some gr).

(** Changes of a set of quads *)
Inductive qop :=
| QAdd (q : stmt)
| QAddAll (qs : list stmt)
| QRemove (q : stmt)
| QQuery (s p o gr : oterm).
Definition qop_quads (op : qop) : Prop :=
  match op with
  | QAdd q | QRemove q => is_quad q
  | QAddAll qs => forall q, In q qs -> is_quad q
  | QQuery _ _ _ _ => True
  end.
Definition qset_after (S : stmt -> Prop) (op : qop) : stmt -> Prop :=
  fun x =>
  match op with
  | QAdd q => x = q \/ S x
  | QAddAll qs => In x qs \/ S x
  | QRemove q => S x /\ x <> q
  | QQuery _ _ _ _ => S x
  end.
Fixpoint qset_of_history (S : stmt -> Prop) (ops : list qop) : stmt -> Prop :=
  match ops with [] => S | op :: r => qset_of_history (qset_after S op) r end.
