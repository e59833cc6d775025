(** Vocabulary for loops over a graph (C123). *)
From Verif Require Import Model.Py Model.Terms Spec.GraphSpec.

Definition ever_removed (ops : list gop) (t : stmt) : Prop := In (OpRemove t) ops.
(** programs that only add, only remove, or one of the two *)
Definition only_adds (ops : list gop) : Prop := forall t, ~ ever_removed ops t.
Definition only_removes (ops : list gop) : Prop := forall t, ~ ever_added ops t.
Definition one_way (ops : list gop) : Prop := only_adds ops \/ only_removes ops.
(** programs that add only what is there and remove only what is not *)
Definition idle (l : list stmt) (ops : list gop) : Prop := forall t, (ever_added ops t -> In t l) /\ (ever_removed ops t -> ~ In t l).
(** programs that add something new or remove something *)
Definition stirs (l : list stmt) (ops : list gop) : Prop := exists t, ever_added ops t /\ ~ In t l \/ ever_removed ops t /\ In t l.
(** bodies that, run for these triples, give the methods triples and not quads *)
Definition loop_triples (l : list stmt) (body : stmt -> list gop) : Prop := forall t op, In t l -> In op (body t) -> gop_triples op.
Definition remove_if (test : stmt -> bool) (t : stmt) : list gop := if test t then [OpRemove t] else [].
