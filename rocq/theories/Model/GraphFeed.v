(** Graph.addAll on a source that reads the same graph:
    [g.addAll(u for t in g.match(s, p, o) for u in f(t))] (primitives.py 464-469 for
    addAll, 401-455 for match).  addAll asks its argument for the next triple and
    adds it before it asks again, so the generator of Model/Graph.v is suspended
    while the graph grows.  [f] stands for the expression of the comprehension: any
    function from triples to lists of triples that does not touch the graph.  [g.match()]
    also stands for the plain [for t in g] of Graph.__iter__ (487-488), a set iterator
    like the one of 453-455. *)
From Verif Require Import Model.Py Model.Terms Model.Graph.

(** addAll: 464-469, the loop over the generator [x] *)
Fixpoint feed_loop (f : stmt -> list stmt) (fuel : nat) (g : graph) (x : gen) : graph * res unit :=
  match fuel with
  | O => (g, Err OutOfFuel)
  | S n =>
    match gen_next g x with
    | (g', Err e) => (g', Err e)
    | (g', Ok None) => (g', Ok tt)
    | (g', Ok (Some (t, x'))) => feed_loop f n (g_addAll g' (f t)) x'
    end
  end.

(** the call ends with the graph [g'] and the result [r] *)
Definition feeds (f : stmt -> list stmt) (g : graph) (s p o : oterm) (g' : graph) (r : res unit) : Prop :=
  exists n, feed_loop f n g (GStart s p o) = (g', r) /\ r <> Err OutOfFuel.
