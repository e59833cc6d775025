(** Vocabulary for threads that read a dataset (C125). *)
From Verif Require Import Model.Py Model.Terms Model.Graph Model.GraphThreads Model.Dataset Model.DatasetThreads Model.DatasetReaders Spec.DatasetSpec Spec.ThreadDatasetSpec.

(** a dataset built by one thread, then threads that add quads to its graphs *)
Definition fixed_graphs (ops0 : list cop) (addss : list (list stmt)) (g : dstate) : Prop :=
  of_quads ops0 /\ (exists sch s, s = d_run (mkDS d_new [dt_new ops0]) sch /\ all_made s /\ g = ds_state s) /\
  forall l q, In l addss -> In q l -> is_quad q /\ concerns ops0 (st_graph q).
(** the quads in the dataset at a moment *)
Definition quads_at (s : drsystem) : list stmt := ds_iter (seen_d (dr_state s)).
(** [q in ds] by its meaning: the quad itself, or a quad with this triple *)
Definition among (l : list stmt) (q : stmt) : Prop :=
  match st_graph q with Some _ => In q l | None => exists q', In q' l /\ q_as_t q' = q end.
(** the turns of the writers *)
Definition writers_of (sch : list turn) : list nat := flat_map (fun x => match x with Writer k => [k] | Reader _ => [] end) sch.
Definition turns (j : nat) (sch : list turn) : nat := length (filter (fun x => match x with Reader i => Nat.eqb i j | Writer _ => false end) sch).
