(** [for q in ds: body(q)]: Dataset.__iter__ (src/pymantic/primitives.py 570-573) as a
    generator, with a body that may change the dataset.  [ds_iter] of Model/Dataset.v is
    the list it gives when nothing changes meanwhile. *)
From Verif Require Import Model.Py Model.Terms Model.Graph Model.GraphRun Model.Dataset.

(** [IIn used rem i su srem]: suspended at the yield of 573, in the graph [i]; the
    iterator over self._graphs.values() of 571 has remembered the size [used] of the dict
    and still has the graphs [rem], the set iterator of 572 (Graph.__iter__, 487-488) the
    size [su] and the triples [srem].  Both raise RuntimeError when the size is another
    one.  As in [DMany], the graphs that are left are remembered, which is right as long
    as no name gets another graph. *)
Inductive igen :=
| IStart
| IDone
| IIn (used : nat) (rem : list gid) (i : gid) (su : nat) (srem : list stmt).

(** 571-573: the loop over the graphs *)
Fixpoint iter_outer (w : world) (used : nat) (rem : list gid) : res (option (stmt * igen)) :=
  if length (w_graphs w) =? used then
    match rem with
    | [] => Ok None
    | i :: rem' =>
        match g_iter (heap_get w i) with
        | [] => iter_outer w used rem'
        | t :: r => Ok (Some (t_as_q (g_uri (heap_get w i)) t, IIn used rem' i (length (g_iter (heap_get w i))) r))
        end
    end
  else Err RuntimeError.

(** 570-573: next() *)
Definition iter_next (w : world) (x : igen) : res (option (stmt * igen)) :=
  match x with
  | IDone => Ok None
  | IStart => iter_outer w (length (w_graphs w)) (ds_graphs w)
  | IIn used rem i su srem =>
      if length (g_iter (heap_get w i)) =? su then
        match srem with
        | [] => iter_outer w used rem
        | t :: r => Ok (Some (t_as_q (g_uri (heap_get w i)) t, IIn used rem i su r))
        end
      else Err RuntimeError
  end.

(** the body: operations on the dataset that depend on the quad; one that removes an
    absent quad is meant to catch the KeyError *)
Definition body_run (body : stmt -> list dop) (q : stmt) (w : world) : world := ds_run w (body q).

(** [for q in ds: body(q)]: the dataset afterwards, the quads the body was run for, and
    the result *)
Fixpoint iter_loop (body : stmt -> list dop) (fuel : nat) (w : world) (x : igen) : world * list stmt * res unit :=
  match fuel with
  | O => (w, [], Err OutOfFuel)
  | S n =>
      match iter_next w x with
      | Err e => (w, [], Err e)
      | Ok None => (w, [], Ok tt)
      | Ok (Some (q, x')) => let '(w', qs, r) := iter_loop body n (body_run body q w) x' in (w', q :: qs, r)
      end
  end.
(** [for q in ds.match(s, p, o, gr): body(q)] (533-541) *)
Fixpoint match_loop (body : stmt -> list dop) (fuel : nat) (w : world) (x : dgen) : world * list stmt * res unit :=
  match fuel with
  | O => (w, [], Err OutOfFuel)
  | S n =>
      match dgen_next w x with
      | (w1, Err e) => (w1, [], Err e)
      | (w1, Ok None) => (w1, [], Ok tt)
      | (w1, Ok (Some (q, x'))) => let '(w', qs, r) := match_loop body n (body_run body q w1) x' in (w', q :: qs, r)
      end
  end.
