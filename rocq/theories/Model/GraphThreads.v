(** Threads that call Graph.add and Graph.remove of one Graph: src/pymantic/primitives.py 356-399.

    CPython switches between threads at some points between bytecodes and inside calls of Python
    functions, never inside an operation on one dict or set (the terms have no __eq__ or __hash__
    of their own).  The steps here are: starting a call, each operation on the set _triples, reading
    an attribute _spo, _pos or _osp, each subscript, each assignment and del, returning.  A subscript of
    a defaultdict with a missing key takes two: __missing__ calls Index(), a Python function, and
    then stores what it gave.  A switch is possible between any two steps, which is more often
    than CPython does it. *)
From Verif Require Import Model.Py Model.Terms Model.Graph.

(** dictionaries are objects: a value is a reference to another one or a stored triple *)
Inductive cell := CRef (n : nat) | CVal (t : stmt).
Definition heap := list (dict term cell).
Definition deref (h : heap) (n : nat) : dict term cell := nth n h [].
Fixpoint put (h : heap) (n : nat) (d : dict term cell) : heap :=
  match h, n with
  | [], _ => []
  | _ :: r, O => d :: r
  | x :: r, S n' => x :: put r n' d
  end.
(** the objects 0, 1, 2 are self._spo, self._pos, self._osp: 369-371 *)
Record cgraph := mkC { c_triples : list stmt; c_heap : heap }.
Definition c_new : cgraph := mkC [] [[]; []; []].
Definition root (w : which) : nat := match w with SPO => 0 | POS => 1 | OSP => 2 end.
(** the keys of a triple in an index, in order: 387-389 *)
Definition key1 (w : which) (t : stmt) : term := match w with SPO => st_s t | POS => st_p t | OSP => st_o t end.
Definition key2 (w : which) (t : stmt) : term := match w with SPO => st_p t | POS => st_o t | OSP => st_s t end.
Definition key3 (w : which) (t : stmt) : term := match w with SPO => st_o t | POS => st_s t | OSP => st_p t end.

Inductive micro :=
| MAdd (t : stmt)            (* self._triples.add(triple), 386 *)
| MRemove (t : stmt)         (* self._triples.remove(triple), 395 *)
| MRoot (w : which)          (* self._spo *)
| MGet (k : term)            (* [k]; if it is missing, Index() is called *)
| MPut (k : term) (n : nat)  (* the end of __missing__: the new dictionary n is stored *)
| MStore (k : term) (t : stmt)  (* [k] = triple *)
| MDel (k : term).           (* del [k] *)
Inductive cop := CAdd (t : stmt) | CRemove (t : stmt).
(** Graph.add: 383-390, Graph.remove: 392-399 *)
Definition script (op : cop) : list micro :=
  match op with
  | CAdd t => MAdd t :: flat_map (fun w => [MRoot w; MGet (key1 w t); MGet (key2 w t); MStore (key3 w t) t]) [SPO; POS; OSP]
  | CRemove t => MRemove t :: flat_map (fun w => [MRoot w; MGet (key1 w t); MGet (key2 w t); MDel (key3 w t)]) [SPO; POS; OSP]
  end.
(** one step: [r] is the dictionary at hand; the new graph and either the new dictionary at hand and
    the steps that replace this one, or an exception *)
Definition exec (g : cgraph) (r : nat) (m : micro) : cgraph * res (nat * list micro) :=
  let h := c_heap g in
  match m with
  | MAdd t => (mkC (set_add t (c_triples g)) h, Ok (r, []))
  | MRemove t => if in_dec stmt_eq_dec t (c_triples g) then (mkC (set_remove t (c_triples g)) h, Ok (r, [])) else (g, Err KeyError)
  | MRoot w => (g, Ok (root w, []))
  | MGet k => match tget (deref h r) k with
              | Some (CRef n) => (g, Ok (n, []))
              | Some (CVal _) => (g, Err TypeError)        (* does not happen: a Triple under a first or second key *)
              | None => (mkC (c_triples g) (h ++ [[]]), Ok (r, [MPut k (length h)]))
              end
  | MPut k n => (mkC (c_triples g) (put h r (tset (deref h r) k (CRef n))), Ok (n, []))
  | MStore k t => (mkC (c_triples g) (put h r (tset (deref h r) k (CVal t))), Ok (r, []))
  | MDel k => match tget (deref h r) k with
              | Some _ => (mkC (c_triples g) (put h r (tdel (deref h r) k)), Ok (r, []))
              | None => (g, Err KeyError)
              end
  end.

(** a thread: what it is doing, the calls it will make, and the outcomes of those it has made;
    an exception ends the call, not the thread *)
Record thread := mkTh { th_now : option (cop * nat * list micro); th_ops : list cop; th_out : list (cop * res unit) }.
Definition th_new (ops : list cop) : thread := mkTh None ops [].
Definition th_step (g : cgraph) (x : thread) : cgraph * thread :=
  match th_now x with
  | None => match th_ops x with
            | [] => (g, x)
            | op :: r => (g, mkTh (Some (op, 0, script op)) r (th_out x))
            end
  | Some (op, r, []) => (g, mkTh None (th_ops x) (th_out x ++ [(op, Ok tt)]))
  | Some (op, r, m :: ms) =>
      match exec g r m with
      | (g', Ok (r', ms')) => (g', mkTh (Some (op, r', ms' ++ ms)) (th_ops x) (th_out x))
      | (g', Err e) => (g', mkTh None (th_ops x) (th_out x ++ [(op, Err e)]))
      end
  end.
Definition done (x : thread) : Prop := th_now x = None /\ th_ops x = [].
Record cstate := mkS { s_graph : cgraph; s_threads : list thread }.
Fixpoint set_nth {A} (l : list A) (n : nat) (x : A) : list A :=
  match l, n with
  | [], _ => []
  | _ :: r, O => x :: r
  | y :: r, S n' => y :: set_nth r n' x
  end.
(** the thread number [i] goes one step *)
Definition s_step (s : cstate) (i : nat) : cstate :=
  match nth_error (s_threads s) i with
  | None => s
  | Some x => let '(g, x') := th_step (s_graph s) x in mkS g (set_nth (s_threads s) i x')
  end.
Definition s_run (s : cstate) (schedule : list nat) : cstate := fold_left s_step schedule s.

(** the graph as it is seen by a program once no thread is inside a call: the objects put together
    into the nested dictionaries of Graph.v *)
Definition refs (d : dict term cell) : dict term nat := flat_map (fun kv => match snd kv with CRef n => [(fst kv, n)] | CVal _ => [] end) d.
Definition vals (d : dict term cell) : dict term stmt := flat_map (fun kv => match snd kv with CVal t => [(fst kv, t)] | CRef _ => [] end) d.
Definition view (h : heap) (n : nat) : index :=
  map (fun kv => (fst kv, map (fun kv2 => (fst kv2, vals (deref h (snd kv2)))) (refs (deref h (snd kv))))) (refs (deref h n)).
Definition seen (g : cgraph) : graph :=
  mkGraph (g_uri (graph_new None)) (c_triples g) (view (c_heap g) (root SPO)) (view (c_heap g) (root POS)) (view (c_heap g) (root OSP)).
