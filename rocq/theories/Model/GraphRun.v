(** Programs that use a Graph through its public methods: histories of calls, and
    clients that hold several suspended match() generators while they change the
    graph.  The methods are those of Model/Graph.v (primitives.py 360-504); a
    raised exception is caught by the client, which carries on. *)
From Verif Require Import Model.Py Model.Terms Model.Graph Spec.GraphSpec.

Definition g_step (g : graph) (op : gop) : graph :=
  match op with
  | OpAdd t => g_add g t
  | OpAddAll ts => g_addAll g ts
  | OpRemove t => fst (g_remove g t)
  | OpQuery s p o => fst (drain (S (length (g_triples g))) g (GStart s p o))
  end.
Definition g_run (g : graph) (ops : list gop) : graph := fold_left g_step ops g.

(** Graphs a program can obtain: made by Graph(...), changed by any of the
    mutating methods (also when they raise), built by merge. *)
Inductive reachable : graph -> Prop :=
| reach_new u : reachable (graph_new u)
| reach_step g op : reachable g -> gop_triples op -> reachable (g_step g op)
| reach_removeMatches g s p o : reachable g -> reachable (fst (g_removeMatches g s p o))
| reach_merge g h : reachable g -> reachable h -> reachable (g_merge g h).

(** Interleaved clients: generators are numbered in creation order. *)
Inductive event :=
| EvOp (op : gop)
| EvMatch (s p o : oterm)       (* gens.append(g.match(s, p, o)) *)
| EvNext (i : nat).             (* next(gens[i]) *)
Definition client := (graph * list gen)%type.
Definition upd {A} (l : list A) (i : nat) (x : A) : list A :=
  firstn i l ++ match skipn i l with [] => [] | _ :: r => x :: r end.
Definition client_step (c : client) (e : event) : client :=
  let '(g, xs) := c in
  match e with
  | EvOp op => (g_step g op, xs)
  | EvMatch s p o => (g, xs ++ [GStart s p o])
  | EvNext i =>
      match nth_error xs i with
      | None => (g, xs)
      | Some x =>
          match gen_next g x with
          | (g', Ok (Some (_, x'))) => (g', upd xs i x')
          | (g', _) => (g', upd xs i GDone)  (* exhausted or failed generators stay finished *)
          end
      end
  end.
Definition client_run (c : client) (es : list event) : client := fold_left client_step es c.

(** what the calls next(gens[i]) among the events gave: a triple, [Ok None] for
    StopIteration, or an exception *)
Fixpoint client_trace (i : nat) (c : client) (es : list event) : list (res (option stmt)) :=
  match es with
  | [] => []
  | e :: r =>
      match e with
      | EvNext j =>
          if Nat.eqb j i then
            match nth_error (snd c) i with
            | Some x => [do y <- snd (gen_next (fst c) x) ; Ok (option_map fst y)]
            | None => []
            end
          else []
      | _ => []
      end ++ client_trace i (client_step c e) r
  end.
