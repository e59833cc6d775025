(** class Dataset: src/pymantic/primitives.py 507-576.

    Graph objects are shared by reference, so they live in a heap; a dataset maps
    graph names (any term or None) to heap positions.  A [world] is a heap
    together with one dataset; programs may also hold references to graphs of
    the heap that are not (or not only) in the dataset. *)
From Verif Require Import Model.Py Model.Terms Model.Graph Model.GraphRun.

Definition gid := nat.
Record world := mkWorld { w_heap : list graph; w_graphs : dict oterm gid }.

Notation nget := (dget oterm_eq_dec).
Notation nset := (dset oterm_eq_dec).

(** Dataset.__init__: 508-509 (with a heap of graphs made elsewhere) *)
Definition ds_new (h : list graph) : world := mkWorld h [].

Definition heap_get (w : world) (i : gid) : graph := nth i (w_heap w) (graph_new None).
Definition heap_set (w : world) (i : gid) (g : graph) : world :=
  mkWorld (upd (w_heap w) i g) (w_graphs w).

(** Graph(uri) evaluated by a program: a new heap object *)
Definition heap_new (w : world) (g : graph) : world * gid :=
  (mkWorld (w_heap w ++ [g]) (w_graphs w), length (w_heap w)).

(** self._graphs[name] on the defaultdict(Graph): a missing name gets Graph() *)
Definition ds_touch (w : world) (name : oterm) : world * gid :=
  match nget (w_graphs w) name with
  | Some i => (w, i)
  | None => let '(w1, i) := heap_new w (graph_new None) in
            (mkWorld (w_heap w1) (nset (w_graphs w1) name i), i)
  end.

Definition set_uri (g : graph) (u : oterm) : graph :=
  mkGraph u (g_triples g) (g_spo g) (g_pos g) (g_osp g).

(** quad.graph; a Triple has no such attribute *)
Definition quad_graph (q : stmt) : res oterm :=
  match st_graph q with Some g => Ok g | None => Err AttributeError end.

(** Dataset.add: 511-513 *)
Definition ds_add (w : world) (q : stmt) : world * res unit :=
  match quad_graph q with
  | Err e => (w, Err e)
  | Ok n =>
    let '(w1, i) := ds_touch w n in
    let w2 := heap_set w1 i (set_uri (heap_get w1 i) n) in
    let '(w3, j) := ds_touch w2 n in
    (heap_set w3 j (g_add (heap_get w3 j) (q_as_t q)), Ok tt)
  end.

(** Dataset.remove: 515-516 *)
Definition ds_remove (w : world) (q : stmt) : world * res unit :=
  match quad_graph q with
  | Err e => (w, Err e)
  | Ok n =>
    let '(w1, i) := ds_touch w n in
    let '(g', r) := g_remove (heap_get w1 i) (q_as_t q) in
    (heap_set w1 i g', r)
  end.

(** Dataset.addAll: 550-555 *)
Fixpoint ds_addAll (w : world) (qs : list stmt) : world * res unit :=
  match qs with
  | [] => (w, Ok tt)
  | q :: r => match ds_add w q with
              | (w', Ok _) => ds_addAll w' r
              | (w', Err e) => (w', Err e)
              end
  end.

(** Dataset.add_graph: 518-524.  [name = named or graph.uri] keeps the falsy
    value of graph.uri if both are falsy, which then raises ValueError. *)
Definition ds_add_graph (w : world) (i : gid) (named : oterm) : world * res unit :=
  let name := if oterm_truthy named then named else g_uri (heap_get w i) in
  if oterm_truthy name then
    let w1 := heap_set w i (set_uri (heap_get w i) name) in
    (mkWorld (w_heap w1) (nset (w_graphs w1) (g_uri (heap_get w1 i)) i), Ok tt)
  else (w, Err ValueError).

(** Dataset.remove_graph: 526-527: [pass] *)
Definition ds_remove_graph (w : world) (graph_or_uri : oterm) : world * res unit := (w, Ok tt).

(** Dataset.graphs: 529-531 *)
Definition ds_graphs (w : world) : list gid := dvals (w_graphs w).

(** ** Dataset.match: 533-541, as a generator *)
Inductive dgen :=
| DStart (s p o : oterm) (gr : oterm)
| DDone
| DOne (n : oterm) (i : gid) (x : gen)                      (* inside 536-537 *)
| DMany (s p o : oterm) (used : nat) (rem : list (oterm * gid))
        (n : oterm) (i : gid) (x : gen).                    (* inside 539-541 *)

(** advance the inner generator of graph [i] *)
Definition inner_next (w : world) (i : gid) (x : gen) : world * res (option (stmt * gen)) :=
  let '(g', r) := gen_next (heap_get w i) x in (heap_set w i g', r).

(** [for graph_uri, graph in self._graphs.items()] from the remaining items *)
Fixpoint many_outer (w : world) (s p o : oterm) (used : nat) (rem : list (oterm * gid))
  : world * res (option (stmt * dgen)) :=
  if length (w_graphs w) =? used then
    match rem with
    | [] => (w, Ok None)
    | (n, i) :: rem' =>
      match inner_next w i (GStart s p o) with
      | (w', Err e) => (w', Err e)
      | (w', Ok (Some (t, x))) => (w', Ok (Some (t_as_q n t, DMany s p o used rem' n i x)))
      | (w', Ok None) => many_outer w' s p o used rem'
      end
    end
  else (w, Err RuntimeError).

Definition one_next (w : world) (n : oterm) (i : gid) (x : gen) : world * res (option (stmt * dgen)) :=
  match inner_next w i x with
  | (w', Err e) => (w', Err e)
  | (w', Ok (Some (t, x'))) => (w', Ok (Some (t_as_q n t, DOne n i x')))
  | (w', Ok None) => (w', Ok None)
  end.

Definition dgen_next (w : world) (x : dgen) : world * res (option (stmt * dgen)) :=
  match x with
  | DDone => (w, Ok None)
  | DStart s p o gr =>
      if oterm_truthy gr then
        let '(w1, i) := ds_touch w gr in one_next w1 gr i (GStart s p o)
      else many_outer w s p o (length (w_graphs w)) (w_graphs w)
  | DOne n i x' => one_next w n i x'
  | DMany s p o used rem n i x' =>
      match inner_next w i x' with
      | (w', Err e) => (w', Err e)
      | (w', Ok (Some (t, x''))) => (w', Ok (Some (t_as_q n t, DMany s p o used rem n i x'')))
      | (w', Ok None) => many_outer w' s p o used rem
      end
  end.

Fixpoint ds_drain (fuel : nat) (w : world) (x : dgen) : world * res (list stmt) :=
  match fuel with
  | O => (w, Err OutOfFuel)
  | S n =>
    match dgen_next w x with
    | (w', Err e) => (w', Err e)
    | (w', Ok None) => (w', Ok [])
    | (w', Ok (Some (t, x'))) =>
        match ds_drain n w' x' with
        | (w'', Ok l) => (w'', Ok (t :: l))
        | (w'', Err e) => (w'', Err e)
        end
    end
  end.

(** Dataset.__len__: 557-558 *)
Definition ds_len (w : world) : nat :=
  fold_right Nat.add 0 (map (fun i => g_len (heap_get w i)) (ds_graphs w)).

(** Dataset.__contains__: 560-568; a missing graph gives None, i.e. False *)
Definition ds_contains (w : world) (x : stmt) : bool :=
  match st_graph x with
  | Some n =>
      match nget (w_graphs w) n with
      | Some i => g_contains (heap_get w i) (q_as_t x)
      | None => false
      end
  | None => existsb (fun i => g_contains (heap_get w i) x) (ds_graphs w)
  end.

(** Dataset.__iter__: 570-573 *)
Definition ds_iter (w : world) : list stmt :=
  concat (map (fun i => map (t_as_q (g_uri (heap_get w i))) (g_iter (heap_get w i))) (ds_graphs w)).

(** Dataset.toArray: 575-576, frozenset(self) *)
Definition ds_toArray (w : world) : list stmt := nodup stmt_eq_dec (ds_iter w).

(** Dataset.removeMatches: 543-548 *)
Fixpoint ds_rm_loop (fuel : nat) (w : world) (x : dgen) : world * res unit :=
  match fuel with
  | O => (w, Err OutOfFuel)
  | S n =>
    match dgen_next w x with
    | (w', Err e) => (w', Err e)
    | (w', Ok None) => (w', Ok tt)
    | (w', Ok (Some (q, x'))) =>
        match ds_remove w' q with
        | (w'', Err e) => (w'', Err e)
        | (w'', Ok _) => ds_rm_loop n w'' x'
        end
    end
  end.
Definition ds_removeMatches (w : world) (s p o gr : oterm) : world * res unit :=
  ds_rm_loop (S (S (ds_len w))) w (DStart s p o gr).

(** ** Programs *)
Inductive dop :=
| DAdd (q : stmt)
| DAddAll (qs : list stmt)
| DRemove (q : stmt)
| DQuery (s p o gr : oterm)        (* list(ds.match(s, p, o, gr)) *)
| DRemoveMatches (s p o gr : oterm)
| DNewGraph (u : option str)       (* Graph(u) *)
| DAddGraph (i : gid) (named : oterm)
| DRemoveGraph (n : oterm)
| DGraphAdd (i : gid) (t : stmt)   (* graph_i.add(t), through a reference to the graph *)
| DGraphRemove (i : gid) (t : stmt).
Definition ds_step (w : world) (op : dop) : world :=
  match op with
  | DAdd q => fst (ds_add w q)
  | DAddAll qs => fst (ds_addAll w qs)
  | DRemove q => fst (ds_remove w q)
  | DQuery s p o gr => fst (ds_drain (S (ds_len w)) w (DStart s p o gr))
  | DRemoveMatches s p o gr => fst (ds_removeMatches w s p o gr)
  | DNewGraph u => fst (heap_new w (graph_new u))
  | DAddGraph i named => if i <? length (w_heap w) then fst (ds_add_graph w i named) else w
  | DRemoveGraph n => fst (ds_remove_graph w n)
  | DGraphAdd i t => heap_set w i (g_add (heap_get w i) t)
  | DGraphRemove i t => heap_set w i (fst (g_remove (heap_get w i) t))
  end.
Definition ds_run (w : world) (ops : list dop) : world := fold_left ds_step ops w.

(** Graph.merge (471-479) on heap objects: the result is a new object *)
Definition heap_addAll (w : world) (k : gid) (ts : list stmt) : world :=
  fold_left (fun w t => heap_set w k (g_add (heap_get w k) t)) ts w.
Definition heap_merge (w : world) (i j : gid) : world * gid :=
  let '(w1, k) := heap_new w (graph_new None) in
  let w2 := heap_addAll w1 k (g_iter (heap_get w1 j)) in
  (heap_addAll w2 k (g_iter (heap_get w2 i)), k).

(** Programs that register no Graph object twice, and that fill a graph the
    dataset created for an unknown name only through the dataset. *)
Definition tidy (w : world) (op : dop) : Prop :=
  match op with
  | DAdd q | DRemove q => st_graph q <> None
  | DAddAll qs => forall q, In q qs -> st_graph q <> None
  | DQuery _ _ _ _ | DRemoveMatches _ _ _ _ | DNewGraph _ | DRemoveGraph _ => True
  | DAddGraph i _ => ~ In i (ds_graphs w)
  | DGraphAdd i t => st_graph t = None /\ (forall n, In (n, i) (w_graphs w) -> g_uri (heap_get w i) = n)
  | DGraphRemove i t => True
  end.
Inductive ds_reachable : world -> Prop :=
| dr_new h : (forall g, In g h -> reachable g) -> ds_reachable (ds_new h)
| dr_step w op : ds_reachable w -> tidy w op -> ds_reachable (ds_step w op).
