(** The order of the classes along which attributes are looked up: what Python's
    documentation promises, not how it is computed. *)
From Verif Require Import Model.Py Model.Terms Model.Graph Model.Curie Model.Resource Spec.ResourceSpec.

Definition before (l : list nat) (a b : nat) : Prop := exists l1 l2 l3, l = l1 ++ a :: l2 ++ b :: l3.
(** [L] has the classes of [s], in the same order *)
Definition agrees (s L : list nat) : Prop := (forall k, In k s -> In k L) /\ (forall a b, before s a b -> before L a b).
(** an order of the bases and their bases in which no class comes before one that
    a base, or the class statement itself, puts in front of it *)
Definition linear (w : world) (bases L : list nat) : Prop :=
  NoDup L /\ agrees bases L /\ forall b, In b bases -> agrees (c_mro (class_at w b)) L.

(** the classes registered for the types of [o], one for each registered type, in
    some order of the types *)
Definition classes_of (w : world) (G : list stmt) (tp : str) (o : term) (ks : list nat) : Prop :=
  exists ts, NoDup ts /\ (forall t, In t ts <-> has_type G tp o t /\ exists k, registered w t k) /\ Forall2 (registered w) ts ks.
