(** Specification vocabulary for C114: a rule applied to triples, and whether what
    it gives concerns the pattern it reads. *)
From Verif Require Import Model.Py Model.Terms Model.Graph Spec.GraphSpec Model.GraphRun Spec.IterSpec.

(** [t] is a conclusion the rule draws from one of the triples [ys] *)
Definition derived (f : stmt -> list stmt) (ys : list stmt) (t : stmt) : Prop := exists y, In y ys /\ In t (f y).
(** what the rule draws from [y] adds no new triple the pattern matches to those of [G] *)
Definition harmless (f : stmt -> list stmt) (s p o : oterm) (G : list stmt) (y : stmt) : Prop :=
  forall t, In t (f y) -> hits s p o t -> In t G.
(** the rule gives triples, not quads *)
Definition gives_triples (f : stmt -> list stmt) : Prop := forall t, Forall is_triple (f t).
