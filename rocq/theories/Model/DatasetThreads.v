(** Threads that call Dataset.add and Dataset.remove of one Dataset: src/pymantic/primitives.py 507-516,
    with the steps of GraphThreads.v for the calls of Graph.add and Graph.remove.

    A subscript of the defaultdict _graphs with a missing name takes two steps: __missing__ calls
    Graph(), a Python function, and then stores the new graph.  Reading quad.graph and q_as_t concern one
    thread only and are no steps. *)
From Verif Require Import Model.Py Model.Terms Model.Graph Model.GraphThreads Model.Dataset.

(** graphs are objects: their _uri, and the rest as in GraphThreads.v; _graphs maps names to objects *)
Record dstate := mkD { d_names : dict oterm nat; d_objs : list (oterm * cgraph) }.
Definition d_new : dstate := mkD [] [].
(** Graph(): 364-372 *)
Definition o_new : oterm * cgraph := (g_uri (graph_new None), c_new).
Definition obj (s : dstate) (i : nat) : oterm * cgraph := nth i (d_objs s) o_new.
Definition set_obj (s : dstate) (i : nat) (x : oterm * cgraph) : dstate := mkD (d_names s) (set_nth (d_objs s) i x).

Inductive dmicro :=
| NGet (n : oterm)             (* self._graphs[n]; if it is missing, Graph() is called *)
| NPut (n : oterm) (i : nat)   (* the end of __missing__: the new graph i is stored *)
| NUri (n : oterm)             (* ._uri = n *)
| NG (m : micro)               (* a step inside Graph.add or Graph.remove *)
| NFail.                       (* quad.graph of a Triple *)
(** calls of Dataset.add and remove: the statement is a quad *)
Definition with_t (op : cop) : cop := match op with CAdd q => CAdd (q_as_t q) | CRemove q => CRemove (q_as_t q) end.
(** Dataset.add: 511-513, Dataset.remove: 515-516 *)
Definition dscript (op : cop) : list dmicro :=
  match op with
  | CAdd q => match st_graph q with
              | Some n => NGet n :: NUri n :: NGet n :: map NG (script (with_t op))
              | None => [NFail]
              end
  | CRemove q => match st_graph q with
                 | Some n => NGet n :: map NG (script (with_t op))
                 | None => [NFail]
                 end
  end.
(** one step: [i] is the graph and [r] the dictionary at hand *)
Definition dexec (s : dstate) (i r : nat) (m : dmicro) : dstate * res (nat * nat * list dmicro) :=
  match m with
  | NGet n => match nget (d_names s) n with
              | Some j => (s, Ok (j, 0, []))
              | None => (mkD (d_names s) (d_objs s ++ [o_new]), Ok (i, r, [NPut n (length (d_objs s))]))
              end
  | NPut n j => (mkD (nset (d_names s) n j) (d_objs s), Ok (j, 0, []))
  | NUri n => (set_obj s i (n, snd (obj s i)), Ok (i, r, []))
  | NG m => match exec (snd (obj s i)) r m with
            | (g, Ok (r', ms)) => (set_obj s i (fst (obj s i), g), Ok (i, r', map NG ms))
            | (g, Err e) => (set_obj s i (fst (obj s i), g), Err e)
            end
  | NFail => (s, Err AttributeError)
  end.
Record dthread := mkDT { dt_now : option (cop * nat * nat * list dmicro); dt_ops : list cop; dt_out : list (cop * res unit) }.
Definition dt_new (ops : list cop) : dthread := mkDT None ops [].
Definition dt_step (s : dstate) (x : dthread) : dstate * dthread :=
  match dt_now x with
  | None => match dt_ops x with
            | [] => (s, x)
            | op :: r => (s, mkDT (Some (op, 0, 0, dscript op)) r (dt_out x))
            end
  | Some (op, i, r, []) => (s, mkDT None (dt_ops x) (dt_out x ++ [(op, Ok tt)]))
  | Some (op, i, r, m :: ms) =>
      match dexec s i r m with
      | (s', Ok (i', r', ms')) => (s', mkDT (Some (op, i', r', ms' ++ ms)) (dt_ops x) (dt_out x))
      | (s', Err e) => (s', mkDT None (dt_ops x) (dt_out x ++ [(op, Err e)]))
      end
  end.
Definition d_done (x : dthread) : Prop := dt_now x = None /\ dt_ops x = [].
Record dsystem := mkDS { ds_state : dstate; ds_threads : list dthread }.
Definition d_step (s : dsystem) (k : nat) : dsystem :=
  match nth_error (ds_threads s) k with
  | None => s
  | Some x => let '(g, x') := dt_step (ds_state s) x in mkDS g (set_nth (ds_threads s) k x')
  end.
Definition d_run (s : dsystem) (schedule : list nat) : dsystem := fold_left d_step schedule s.
(** the dataset as it is seen by a program once no thread is inside a call *)
Definition seen_d (s : dstate) : world :=
  mkWorld (map (fun x => set_uri (seen (snd x)) (fst x)) (d_objs s)) (d_names s).
