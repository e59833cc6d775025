(** Loops [for t in g: body(t)] over a Graph with a body that works on the same graph, and
    iterators made by iter(g).  Graph.__iter__ (primitives.py 487-488) is iter(self._triples),
    the iterator of the set: it remembers the size [used] at the call of iter (not at the
    first next, as a generator of match would), raises RuntimeError when asked for the next
    triple, or for the end, while the size is another one, and otherwise gives the rest
    [rem].  That the rest does not change holds as long as nothing is added or removed; after
    a removal and an addition that leave the size alone CPython may give the new triple or
    not, so the theorems about changes are for bodies that only add or only remove.  The body
    is a program of calls with their exceptions caught (Model/GraphRun.v); a triple is given
    to the body once, so that a body which looks at the graph is, in one run, a function from
    triples to programs. *)
From Verif Require Import Model.Py Model.Terms Model.Graph Spec.GraphSpec Model.GraphRun.

(** the iterator of iter(g), and next() on it: 487-488 *)
Definition giter := (nat * list stmt)%type.
Definition g_iterator (g : graph) : giter := (length (g_triples g), g_triples g).
Definition giter_next (g : graph) (it : giter) : res (option (stmt * giter)) :=
  let '(used, rem) := it in
  if Nat.eqb (length (g_triples g)) used then
    match rem with [] => Ok None | t :: r => Ok (Some (t, (used, r))) end
  else Err RuntimeError.

(** the loop once the iterator is made: the graph at the end, the triples given to the body,
    and how the loop ends *)
Fixpoint giter_run (body : stmt -> list gop) (g : graph) (used : nat) (rem : list stmt) : graph * list stmt * res unit :=
  if Nat.eqb (length (g_triples g)) used then
    match rem with
    | [] => (g, [], Ok tt)
    | t :: r => let '(g', ts, e) := giter_run body (g_run g (body t)) used r in (g', t :: ts, e)
    end
  else (g, [], Err RuntimeError).
(** for t in g: body(t) *)
Definition graph_loop (body : stmt -> list gop) (g : graph) : graph * list stmt * res unit :=
  giter_run body g (length (g_triples g)) (g_triples g).

(** for t in g.match(): body(t), from the state [x] of the generator on (match: 401-455) *)
Fixpoint gmatch_loop (body : stmt -> list gop) (fuel : nat) (g : graph) (x : gen) : graph * list stmt * res unit :=
  match fuel with
  | O => (g, [], Err OutOfFuel)
  | S n => match gen_next g x with
           | (g1, Ok None) => (g1, [], Ok tt)
           | (g1, Err e) => (g1, [], Err e)
           | (g1, Ok (Some (t, x'))) => let '(g', ts, e) := gmatch_loop body n (g_run g1 (body t)) x' in (g', t :: ts, e)
           end
  end.
