(** Specification vocabulary for C119: loops over a dataset. *)
From Verif Require Import Model.Py Model.Terms Model.Dataset Model.DatasetRun Spec.GraphSpec Spec.DatasetSpec Spec.DIterSpec.

(** the body adds, removes and looks for quads, and makes graphs of its own *)
Definition body_quads (body : stmt -> list dop) : Prop := forall q op, In op (body q) -> dev_quads (DvOp op).
(** the body changes nothing when run for a quad of the dataset [w] *)
Definition body_idle (w : world) (body : stmt -> list dop) : Prop := forall q, In q (ds_iter w) -> ds_run w (body q) = w.
(** [for q in ds: if test(q): ds.remove(q)] *)
Definition body_remove (test : stmt -> bool) (q : stmt) : list dop := if test q then [DRemove q] else [].
(** [for q in ds: ds.addAll(f(q))] *)
Definition body_add (f : stmt -> list stmt) (q : stmt) : list dop := [DAddAll (f q)].
