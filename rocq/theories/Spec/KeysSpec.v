(** Vocabulary for the loops over the listings of a graph (C120). *)
From Verif Require Import Model.Py Model.Terms Model.Graph Spec.GraphSpec.

(** the term of a triple that subjects(), predicates() or objects() is about *)
Definition role (wh : which) (t : stmt) : term :=
  match wh with SPO => st_s t | POS => st_p t | OSP => st_o t end.

(** bodies that are given triples, not quads *)
Definition body_triples (body : term -> list gop) : Prop := forall x op, In op (body x) -> gop_triples op.

(** the body run for x adds no triple with a term outside l in this role *)
Definition keeps_to (wh : which) (l : list term) (body : term -> list gop) (x : term) : Prop :=
  forall t, ever_added (body x) t -> In (role wh t) l.
