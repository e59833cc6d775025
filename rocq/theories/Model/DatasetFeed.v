(** Dataset.addAll on a source that reads the same dataset:
    [ds.addAll(u for q in ds.match(s, p, o, gr) for u in f(q))] (primitives.py 550-555 for
    addAll, 533-541 for match).  addAll asks its argument for the next quad and adds it
    before it asks again, so the generator of Model/Dataset.v is suspended, with the one
    of the graph it is in, while the dataset grows.  [f] stands for the expression of the
    comprehension: any function from quads to lists of quads that does not touch the
    dataset. *)
From Verif Require Import Model.Py Model.Terms Model.Graph Model.Dataset.

(** addAll: 550-555, the loop over the generator [x] *)
Fixpoint dfeed_loop (f : stmt -> list stmt) (fuel : nat) (w : world) (x : dgen) : world * res unit :=
  match fuel with
  | O => (w, Err OutOfFuel)
  | S n =>
    match dgen_next w x with
    | (w', Err e) => (w', Err e)
    | (w', Ok None) => (w', Ok tt)
    | (w', Ok (Some (q, x'))) =>
        match ds_addAll w' (f q) with
        | (w'', Err e) => (w'', Err e)
        | (w'', Ok _) => dfeed_loop f n w'' x'
        end
    end
  end.

(** the call ends with the dataset [w'] and the result [r] *)
Definition dfeeds (f : stmt -> list stmt) (w : world) (s p o gr : oterm) (w' : world) (r : res unit) : Prop :=
  exists n, dfeed_loop f n w (DStart s p o gr) = (w', r) /\ r <> Err OutOfFuel.
