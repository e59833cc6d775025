(** What threads that read and change one graph should see (C115). *)
From Verif Require Import Model.Py Model.Terms Model.GraphThreads Model.GraphReaders Spec.GraphSpec Spec.ThreadGraphSpec.

(** the calls made one after the other on a set of triples: the set after them, and each
    call with the set it meets *)
Definition effect (ts : list stmt) (c : call) : list stmt :=
  match c with Wr (CAdd t) => t :: ts | Wr (CRemove t) => remove stmt_eq_dec t ts | Rd _ => ts end.
Fixpoint history (ts : list stmt) (l : list (nat * call)) : list (nat * (call * list stmt)) :=
  match l with
  | [] => []
  | (i, c) :: r => (i, (c, ts)) :: history (effect ts c) r
  end.
Definition after (ts : list stmt) (l : list (nat * call)) : list stmt := fold_left effect (map snd l) ts.
(** the answer to a call that meets the set [ts]; [strict] if remove must succeed when the triple is there *)
Definition fair (strict : bool) (x : call * answer) (y : call * list stmt) : Prop :=
  let '(c, ts) := y in
  fst x = c /\
  match c, snd x with
  | Wr (CAdd _), ADone r => r = Ok tt
  | Wr (CRemove t), ADone r => r = Ok tt /\ In t ts \/ r = Err KeyError /\ (strict = true -> ~ In t ts)
  | Rd (QIn t), ABool b => b = true <-> In t ts
  | Rd QLen, ALen n => exists l, lists l (fun t => In t ts) /\ length l = n
  | Rd QAll, ASet l => lists l (fun t => In t ts)
  | _, _ => False
  end.
(** an order of all the calls of the threads, those of one thread as it makes them *)
Definition merges (callss : list (list call)) (order : list (nat * call)) : Prop :=
  (forall i calls, nth_error callss i = Some calls -> mine i order = calls) /\ forall i c, In (i, c) order -> i < length callss.
(** at a moment when the threads are in the states [xs], the calls of [o1] have been
    counted: all that have returned, and none that has not been made *)
Definition counted (callss : list (list call)) (xs : list rthread) (o1 : list (nat * call)) : Prop :=
  forall i x calls, nth_error xs i = Some x -> nth_error callss i = Some calls ->
    length (r_out x) <= length (mine i o1) <= length calls - length (r_calls x).
Definition r_finished (s : rstate) : Prop := forall x, In x (rs_threads s) -> r_now x = None /\ r_calls x = [].
(** the changes among the calls *)
Fixpoint writes (calls : list call) : list cop :=
  match calls with [] => [] | Wr op :: r => op :: writes r | Rd _ :: r => writes r end.
