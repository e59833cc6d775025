(** Specification vocabulary for C118: a rule applied to quads, and whether what it gives
    concerns the pattern it reads. *)
From Verif Require Import Model.Py Model.Terms Model.Dataset Spec.GraphSpec Spec.DatasetSpec Spec.DIterSpec.

(** the rule gives quads, not triples *)
Definition gives_quads (f : stmt -> list stmt) : Prop := forall q u, In u (f q) -> is_quad u.
(** what the rule draws from [y] adds no new quad the pattern matches to those of [G] *)
Definition qharmless (f : stmt -> list stmt) (s p o gr : oterm) (G : list stmt) (y : stmt) : Prop :=
  forall q, In q (f y) -> qhits s p o gr q -> In q G.
(** the names of the graphs of a dataset *)
Definition graph_names (w : world) : list oterm := map fst (w_graphs w).
