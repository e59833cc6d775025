(** Programs with open generators of Dataset.match (src/pymantic/primitives.py 533-541):
    the analogue of [event] and [client] of Model/GraphRun.v.  Generators are numbered in
    the order in which match was called. *)
From Verif Require Import Model.Py Model.Terms Model.Graph Model.GraphRun Model.Dataset.

Inductive dev :=
| DvOp (op : dop)
| DvMatch (s p o gr : oterm)    (* gens.append(ds.match(s, p, o, gr)) *)
| DvNext (k : nat).             (* next(gens[k]) *)
Definition dclient := (world * list dgen)%type.
(** a generator that is exhausted or has raised stays finished *)
Definition d_step (c : dclient) (e : dev) : dclient :=
  let '(w, xs) := c in
  match e with
  | DvOp op => (ds_step w op, xs)
  | DvMatch s p o gr => (w, xs ++ [DStart s p o gr])
  | DvNext k =>
      match nth_error xs k with
      | None => (w, xs)
      | Some x =>
          match dgen_next w x with
          | (w', Ok (Some (_, x'))) => (w', upd xs k x')
          | (w', _) => (w', upd xs k DDone)
          end
      end
  end.
Definition d_run (c : dclient) (es : list dev) : dclient := fold_left d_step es c.
(** what the calls next(gens[k]) among the events gave *)
Fixpoint d_trace (k : nat) (c : dclient) (es : list dev) : list (res (option stmt)) :=
  match es with
  | [] => []
  | e :: r =>
      match e with
      | DvNext j =>
          if Nat.eqb j k then
            match nth_error (snd c) k with
            | Some x => [do y <- snd (dgen_next (fst c) x) ; Ok (option_map fst y)]
            | None => []
            end
          else []
      | _ => []
      end ++ d_trace k (d_step c e) r
  end.
