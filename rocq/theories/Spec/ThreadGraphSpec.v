(** What threads that add to and remove from one graph should see. *)
From Verif Require Import Model.Py Model.Terms Model.GraphThreads Spec.GraphSpec.

(** the calls made one after the other, each with the number of the thread that makes it, on a set
    of triples: the set afterwards, and the answers *)
Fixpoint answers (ts : list stmt) (l : list (nat * cop)) : list stmt * list (nat * (cop * res unit)) :=
  match l with
  | [] => (ts, [])
  | (i, CAdd t) :: r => let '(f, o) := answers (t :: ts) r in (f, (i, (CAdd t, Ok tt)) :: o)
  | (i, CRemove t) :: r =>
      if in_dec stmt_eq_dec t ts
      then let '(f, o) := answers (remove stmt_eq_dec t ts) r in (f, (i, (CRemove t, Ok tt)) :: o)
      else let '(f, o) := answers ts r in (f, (i, (CRemove t, Err KeyError)) :: o)
  end.
(** those of the thread [i] *)
Definition mine {A} (i : nat) (l : list (nat * A)) : list A := map snd (filter (fun x => fst x =? i) l).
(** [order] is an order of all the calls, in which those of one thread are as in its list *)
Definition interleaves (opss : list (list cop)) (order : list (nat * cop)) : Prop :=
  (forall i ops, nth_error opss i = Some ops -> mine i order = ops) /\ forall i op, In (i, op) order -> i < length opss.

Definition of_triples (ops : list cop) : Prop := forall t, In (CAdd t) ops \/ In (CRemove t) ops -> is_triple t.
(** no triple is added by one thread and removed by another *)
Definition no_clash (opss : list (list cop)) : Prop :=
  forall i j a b t, i <> j -> nth_error opss i = Some a -> nth_error opss j = Some b -> In (CAdd t) a -> ~ In (CRemove t) b.
(** when triples that different threads add have the same subject (or the same subject and predicate;
    the same for predicate and object, and object and subject), then one with that subject (subject
    and predicate) has been added before *)
Definition roads : list ((stmt -> term) * (stmt -> term)) := [(st_s, st_p); (st_p, st_o); (st_o, st_s)].
Definition prepared (ops0 : list cop) (opss : list (list cop)) : Prop :=
  forall i j a b t u k1 k2, i <> j -> nth_error opss i = Some a -> nth_error opss j = Some b -> In (CAdd t) a -> In (CAdd u) b ->
    In (k1, k2) roads -> k1 t = k1 u ->
    (exists v, In (CAdd v) ops0 /\ k1 v = k1 t) /\
    (k2 t = k2 u -> exists v, In (CAdd v) ops0 /\ k1 v = k1 t /\ k2 v = k2 t).
(** every thread has made all its calls *)
Definition finished (s : cstate) : Prop := forall x, In x (s_threads s) -> done x.
(** an answer, and the one expected: remove may fail although the triple was there *)
Definition at_worst (x y : cop * res unit) : Prop :=
  x = y \/ exists t, y = (CRemove t, Ok tt) /\ x = (CRemove t, Err KeyError).
