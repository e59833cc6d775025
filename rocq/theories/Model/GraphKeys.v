(** Loops over subjects(), predicates() and objects() of a Graph with a body that works on
    the same graph.  The three methods (primitives.py 494-504) give the keys of the three
    indexes as views: nothing is copied, and the iterator that the loop makes is the one of
    the dict.  It remembers the size [used] of the dict at the start, raises RuntimeError
    when asked for the next key, or for the end, while the size is another one, and gives
    the keys in the order of the dict otherwise; the keys of an index are never deleted
    (remove, 371-376, deletes in the dict under two keys only), so that those still to be
    given, [rem], do not change as long as the size does not.  The body is a program of calls
    of add, addAll, remove and match, with exceptions of the calls caught in it
    (Model/GraphRun.v).  A term is given to the body once, so that a body which looks at the
    graph to choose its calls is also, in one run, a function from terms to programs.  Bodies
    that leave the loop are not modelled. *)
From Verif Require Import Model.Py Model.Terms Model.Graph Spec.GraphSpec Model.GraphRun.

(** g.subjects(), g.predicates(), g.objects(): 494-504 *)
Definition g_keys (wh : which) (g : graph) : list term :=
  match wh with SPO => g_subjects g | POS => g_predicates g | OSP => g_objects g end.

(** the loop once the iterator is made: the graph at the end, the terms given to the body,
    and how the loop ends *)
Fixpoint keys_run (wh : which) (body : term -> list gop) (g : graph) (used : nat) (rem : list term)
  : graph * list term * res unit :=
  if Nat.eqb (length (g_keys wh g)) used then
    match rem with
    | [] => (g, [], Ok tt)
    | x :: r => let '(g', xs, e) := keys_run wh body (g_run g (body x)) used r in (g', x :: xs, e)
    end
  else (g, [], Err RuntimeError).

(** for x in g.subjects(): body(x)    (or predicates(), objects()) *)
Definition keys_loop (wh : which) (body : term -> list gop) (g : graph) : graph * list term * res unit :=
  keys_run wh body g (length (g_keys wh g)) (g_keys wh g).

(** v = g.subjects(); ops; list(v) *)
Definition keys_view (wh : which) (g : graph) (ops : list gop) : list term := g_keys wh (g_run g ops).
