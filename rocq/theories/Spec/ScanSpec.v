(** What scans among threads that add should give (C116). *)
From Verif Require Import Model.Py Model.Terms Model.GraphThreads Model.GraphScan Spec.GraphSpec Spec.ThreadGraphSpec.

(** the triple is in the graph and no thread is inside a call of add with it *)
Definition settled (s : mstate) (t : stmt) : Prop :=
  In t (c_triples (m_graph s)) /\ forall x r ms, In x (m_adders s) -> th_now x <> Some (CAdd t, r, ms).
(** the turns of the threads that add *)
Fixpoint adders (sch : list turn) : list nat :=
  match sch with [] => [] | Adder i :: r => i :: adders r | Scanner _ :: r => adders r end.
(** the turns of the scan [j] *)
Fixpoint turns_of (j : nat) (sch : list turn) : nat :=
  match sch with [] => 0 | Scanner k :: r => (if k =? j then 1 else 0) + turns_of j r | Adder _ :: r => turns_of j r end.
(** [g] is the graph after one thread has made the calls [ops0] on a new one; the threads that add to it do not meet *)
Definition start_of (ops0 : list cop) (addss : list (list stmt)) (g : cgraph) : Prop :=
  of_triples ops0 /\ (forall l t, In l addss -> In t l -> is_triple t) /\ prepared ops0 (map (map CAdd) addss) /\
  exists sch0 s0, s0 = s_run (mkS c_new [th_new ops0]) sch0 /\ finished s0 /\ g = s_graph s0.
