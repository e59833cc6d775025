(** Threads that also read the graph they change: [t in g], [len(g)] and [g.toArray()]
    (src/pymantic/primitives.py 481-492) between calls of add and remove.  Each of the
    three is one operation on the set _triples (a membership test, its size, a frozenset
    made of it), and so one step; the calls of add and remove go on as in
    Model/GraphThreads.v, and a switch is possible between any two steps. *)
From Verif Require Import Model.Py Model.Terms Model.Graph Model.GraphThreads.

Inductive query := QIn (t : stmt) | QLen | QAll.
Inductive call := Wr (op : cop) | Rd (q : query).
Inductive answer := ADone (r : res unit) | ABool (b : bool) | ALen (n : nat) | ASet (l : list stmt).
(** __contains__: 481-482, __len__: 484-485, toArray: 490-492 *)
Definition ask (g : cgraph) (q : query) : answer :=
  match q with
  | QIn t => ABool (if in_dec stmt_eq_dec t (c_triples g) then true else false)
  | QLen => ALen (length (c_triples g))
  | QAll => ASet (c_triples g)
  end.

(** as [thread] and [th_step] of Model/GraphThreads.v, with the reads *)
Record rthread := mkR { r_now : option (cop * nat * list micro); r_calls : list call; r_out : list (call * answer) }.
Definition r_new (calls : list call) : rthread := mkR None calls [].
Definition r_step (g : cgraph) (x : rthread) : cgraph * rthread :=
  match r_now x with
  | None => match r_calls x with
            | [] => (g, x)
            | Wr op :: r => (g, mkR (Some (op, 0, script op)) r (r_out x))
            | Rd q :: r => (g, mkR None r (r_out x ++ [(Rd q, ask g q)]))
            end
  | Some (op, r, []) => (g, mkR None (r_calls x) (r_out x ++ [(Wr op, ADone (Ok tt))]))
  | Some (op, r, m :: ms) =>
      match exec g r m with
      | (g', Ok (r', ms')) => (g', mkR (Some (op, r', ms' ++ ms)) (r_calls x) (r_out x))
      | (g', Err e) => (g', mkR None (r_calls x) (r_out x ++ [(Wr op, ADone (Err e))]))
      end
  end.
Record rstate := mkRS { rs_graph : cgraph; rs_threads : list rthread }.
Definition rs_step (s : rstate) (i : nat) : rstate :=
  match nth_error (rs_threads s) i with
  | None => s
  | Some x => let '(g, x') := r_step (rs_graph s) x in mkRS g (set_nth (rs_threads s) i x')
  end.
Definition rs_run (s : rstate) (schedule : list nat) : rstate := fold_left rs_step schedule s.
