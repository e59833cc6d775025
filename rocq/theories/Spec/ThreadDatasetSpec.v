(** What threads that add to and remove from one dataset should see. *)
From Verif Require Import Model.Py Model.Terms Model.GraphThreads Model.DatasetThreads Spec.GraphSpec Spec.DatasetSpec Spec.ThreadGraphSpec.

Definition of_quads (ops : list cop) : Prop := forall q, In (CAdd q) ops \/ In (CRemove q) ops -> is_quad q.
(** a call has to do with the graph [n] *)
Definition concerns (ops : list cop) (n : option oterm) : Prop := exists q, (In (CAdd q) ops \/ In (CRemove q) ops) /\ st_graph q = n.
(** the graphs that two threads work on have been touched before, and in each of them the terms
    that quads of two threads share have been seen before, as in [prepared] *)
Definition graphs_there (ops0 : list cop) (opss : list (list cop)) : Prop :=
  forall i j a b n, i <> j -> nth_error opss i = Some a -> nth_error opss j = Some b -> concerns a n -> concerns b n -> concerns ops0 n.
Definition roads_there (ops0 : list cop) (opss : list (list cop)) : Prop :=
  forall i j a b t u k1 k2, i <> j -> nth_error opss i = Some a -> nth_error opss j = Some b -> In (CAdd t) a -> In (CAdd u) b ->
    In (k1, k2) roads -> st_graph t = st_graph u -> k1 t = k1 u ->
    (exists v, In (CAdd v) ops0 /\ st_graph v = st_graph t /\ k1 v = k1 t) /\
    (k2 t = k2 u -> exists v, In (CAdd v) ops0 /\ st_graph v = st_graph t /\ k1 v = k1 t /\ k2 v = k2 t).
(** every thread has made all its calls *)
Definition all_made (s : dsystem) : Prop := forall x, In x (ds_threads s) -> d_done x.
