(** class Graph: src/pymantic/primitives.py 356-504. *)
From Verif Require Import Model.Py Model.Terms.

(** Index(): primitives.py 356-357, a defaultdict of defaultdicts of dicts; the
    innermost values are the stored triples. *)
Definition index := dict term (dict term (dict term stmt)).

Notation tget := (dget term_eq_dec).
Notation tset := (dset term_eq_dec).
Notation tdel := (ddel term_eq_dec).

(** Reading [ix[a]] of a defaultdict: creates the entry when missing.
    Returns the possibly changed index and the entry. *)
Definition touch {V} (ix : dict term (dict term V)) (a : term) : dict term (dict term V) * dict term V :=
  match tget ix a with
  | Some d => (ix, d)
  | None => (tset ix a [], [])
  end.

(** [ix[a][b]], creating both levels when missing. *)
Definition touch2 (ix : index) (a b : term) : index * dict term stmt :=
  let '(ix1, d1) := touch ix a in
  let '(d1', d2) := touch d1 b in
  (tset ix1 a d1', d2).

(** [ix[a][b][c] = t] *)
Definition idx_set (ix : index) (a b c : term) (t : stmt) : index :=
  let '(ix1, d1) := touch ix a in
  let '(d1', d2) := touch d1 b in
  tset ix1 a (tset d1' b (tset d2 c t)).

(** [del ix[a][b][c]]: the two outer reads auto-vivify; a missing [c] raises KeyError. *)
Definition idx_del (ix : index) (a b c : term) : index * res unit :=
  let '(ix1, d1) := touch ix a in
  let '(d1', d2) := touch d1 b in
  match tget d2 c with
  | Some _ => (tset ix1 a (tset d1' b (tdel d2 c)), Ok tt)
  | None => (tset ix1 a d1', Err KeyError)
  end.

(** Graph.__init__: 364-372.  [_triples] is a Python set: a duplicate-free list
    whose order no theorem depends on.  [_actions] is never read by the class
    (addAction, 379-381, is not modelled). *)
Record graph := mkGraph {
  g_uri : oterm;
  g_triples : list stmt;
  g_spo : index;
  g_pos : index;
  g_osp : index
}.

(** Graph(graph_uri): a non-NamedNode argument goes through NamedNode(...), so
    Graph() is named by str(None) = "None" (365-367). *)
Definition graph_new (uri : option str) : graph :=
  mkGraph (Some (Iri (match uri with Some u => u | None => s2l "None" end))) [] [] [] [].

Definition set_add (t : stmt) (l : list stmt) : list stmt :=
  if in_dec stmt_eq_dec t l then l else l ++ [t].
Definition set_remove (t : stmt) (l : list stmt) : list stmt :=
  remove stmt_eq_dec t l.

(** Graph.add: 383-390 *)
Definition g_add (g : graph) (t : stmt) : graph :=
  mkGraph (g_uri g)
    (set_add t (g_triples g))
    (idx_set (g_spo g) (st_s t) (st_p t) (st_o t) t)
    (idx_set (g_pos g) (st_p t) (st_o t) (st_s t) t)
    (idx_set (g_osp g) (st_o t) (st_s t) (st_p t) t).

(** Graph.add called with a plain 3-tuple (as Resource.copy does, rdf.py 544):
    [self._triples.add] at 386 succeeds, [triple.subject] at 387 raises
    AttributeError.  A plain tuple is equal to the Triple with the same
    components; the model does not keep the difference of type. *)
Definition g_add_tuple (g : graph) (s p o : term) : graph * res unit :=
  (mkGraph (g_uri g) (set_add (Tr s p o) (g_triples g)) (g_spo g) (g_pos g) (g_osp g),
   Err AttributeError).

(** Graph.remove: 392-399.  set.remove raises KeyError on an absent element
    before anything changes; each [del] may raise in turn. *)
Definition g_remove (g : graph) (t : stmt) : graph * res unit :=
  if in_dec stmt_eq_dec t (g_triples g) then
    let ts := set_remove t (g_triples g) in
    let '(spo, r1) := idx_del (g_spo g) (st_s t) (st_p t) (st_o t) in
    match r1 with
    | Err e => (mkGraph (g_uri g) ts spo (g_pos g) (g_osp g), Err e)
    | Ok _ =>
      let '(pos, r2) := idx_del (g_pos g) (st_p t) (st_o t) (st_s t) in
      match r2 with
      | Err e => (mkGraph (g_uri g) ts spo pos (g_osp g), Err e)
      | Ok _ =>
        let '(osp, r3) := idx_del (g_osp g) (st_o t) (st_s t) (st_p t) in
        match r3 with
        | Err e => (mkGraph (g_uri g) ts spo pos osp, Err e)
        | Ok _ => (mkGraph (g_uri g) ts spo pos osp, Ok tt)
        end
      end
    end
  else (g, Err KeyError).

(** Graph.addAll: 464-469 (the argument already evaluated to a list) *)
Definition g_addAll (g : graph) (ts : list stmt) : graph := fold_left g_add ts g.

(** Graph.__contains__, __len__, __iter__, toArray: 481-492 *)
Definition g_contains (g : graph) (t : stmt) : bool :=
  if in_dec stmt_eq_dec t (g_triples g) then true else false.
Definition g_len (g : graph) : nat := length (g_triples g).
Definition g_iter (g : graph) : list stmt := g_triples g.

(** Graph.subjects, predicates, objects: 494-504 *)
Definition g_subjects (g : graph) : list term := dkeys (g_spo g).
Definition g_predicates (g : graph) : list term := dkeys (g_pos g).
Definition g_objects (g : graph) : list term := dkeys (g_osp g).

(** Graph.merge: 471-479 *)
Definition g_merge (self other : graph) : graph :=
  g_addAll (g_addAll (graph_new None) (g_iter other)) (g_iter self).

(** ** Graph.match as a generator: 401-455

    The generator's local state.  A Python dict or set iterator remembers the
    size of the container when it was created and raises RuntimeError on the
    next step if the size differs (CPython dictiter_iternext / setiter_iternext,
    checked before exhaustion is).  [rem] is what is left to yield. *)
Inductive which := SPO | POS | OSP.
Definition g_index (g : graph) (w : which) : index :=
  match w with SPO => g_spo g | POS => g_pos g | OSP => g_osp g end.
Definition set_index (g : graph) (w : which) (ix : index) : graph :=
  match w with
  | SPO => mkGraph (g_uri g) (g_triples g) ix (g_pos g) (g_osp g)
  | POS => mkGraph (g_uri g) (g_triples g) (g_spo g) ix (g_osp g)
  | OSP => mkGraph (g_uri g) (g_triples g) (g_spo g) (g_pos g) ix
  end.

Inductive gen :=
| GStart (s p o : oterm)                      (* created, body not entered *)
| GDone
| GVals (w : which) (a b : term) (used : nat) (rem : list stmt)
      (* inside [for triple in ix[a][b].values()] *)
| GNest (w : which) (a : term) (oused : nat) (orem : list term)
        (b : term) (used : nat) (rem : list stmt)
      (* inside the inner loop of [for b in ix[a]: for triple in ix[a][b].values()] *)
| GSet (used : nat) (rem : list stmt).        (* inside [for triple in self._triples] *)

(** One step of [for triple in ix[a][b].values()]. *)
Definition vals_next (g : graph) (w : which) (a b : term) (used : nat) (rem : list stmt)
  : res (option (stmt * gen)) :=
  match tget (g_index g w) a with
  | Some d1 =>
    match tget d1 b with
    | Some d2 => if length d2 =? used then
                   match rem with
                   | [] => Ok None
                   | t :: r => Ok (Some (t, GVals w a b used r))
                   end
                 else Err RuntimeError
    | None => Err RuntimeError
    end
  | None => Err RuntimeError
  end.

(** The outer loop [for b in ix[a]] from remaining keys [orem]: enter each inner
    loop, skip empty ones (the inner [ix[a][b]] read may auto-vivify). *)
Fixpoint nest_outer (g : graph) (w : which) (a : term) (oused : nat) (orem : list term)
  : graph * res (option (stmt * gen)) :=
  let '(ix1, d1) := touch (g_index g w) a in
  let g1 := set_index g w ix1 in
  if length d1 =? oused then
    match orem with
    | [] => (g1, Ok None)
    | b :: orem' =>
      let '(ix2, d2) := touch2 (g_index g1 w) a b in
      let g2 := set_index g1 w ix2 in
      match dvals d2 with
      | [] => nest_outer g2 w a oused orem'
      | t :: r => (g2, Ok (Some (t, GNest w a oused orem' b (length d2) r)))
      end
    end
  else (g1, Err RuntimeError).

(** Entering [for b in ix[a]] (under the guard [a in ix]). *)
Definition nest_start (g : graph) (w : which) (a : term) : graph * res (option (stmt * gen)) :=
  if dmem term_eq_dec (g_index g w) a then
    let '(ix1, d1) := touch (g_index g w) a in
    nest_outer (set_index g w ix1) w a (length d1) (dkeys d1)
  else (g, Ok None).

(** Entering [for triple in ix[a][b].values()] under [a in ix and b in ix[a]]. *)
Definition vals_start (g : graph) (w : which) (a b : term) : graph * res (option (stmt * gen)) :=
  if dmem term_eq_dec (g_index g w) a then
    let '(ix1, d1) := touch (g_index g w) a in
    let g1 := set_index g w ix1 in
    if dmem term_eq_dec d1 b then
      let '(ix2, d2) := touch2 (g_index g1 w) a b in
      let g2 := set_index g1 w ix2 in
      (g2, vals_next g2 w a b (length d2) (dvals d2))
    else (g1, Ok None)
  else (g, Ok None).

(** next(generator).  [Ok None] is StopIteration. *)
Definition gen_next (g : graph) (x : gen) : graph * res (option (stmt * gen)) :=
  match x with
  | GDone => (g, Ok None)
  | GStart s p o =>
    (* the if/elif ladder 419-455 tests truthiness, not [is None] *)
    match s, oterm_truthy s with
    | Some s', true =>
      match p, oterm_truthy p with
      | Some p', true =>
        match o, oterm_truthy o with
        | Some o', true =>                                              (* 421-423 *)
            (g, Ok (if g_contains g (Tr s' p' o') then Some (Tr s' p' o', GDone) else None))
        | _, _ => vals_start g SPO s' p'                                (* 424-427 *)
        end
      | _, _ =>
        match o, oterm_truthy o with
        | Some o', true => vals_start g OSP o' s'                       (* 429-432 *)
        | _, _ => nest_start g SPO s'                                   (* 433-437 *)
        end
      end
    | _, _ =>
      match p, oterm_truthy p with
      | Some p', true =>
        match o, oterm_truthy o with
        | Some o', true => vals_start g POS p' o'                       (* 439-442 *)
        | _, _ => nest_start g POS p'                                   (* 443-447 *)
        end
      | _, _ =>
        match o, oterm_truthy o with
        | Some o', true => nest_start g OSP o'                          (* 448-452 *)
        | _, _ => match g_triples g with                                (* 453-455 *)
                  | [] => (g, Ok None)
                  | t :: r => (g, Ok (Some (t, GSet (length (g_triples g)) r)))
                  end
        end
      end
    end
  | GVals w a b used rem => (g, vals_next g w a b used rem)
  | GNest w a oused orem b used rem =>
      match vals_next g w a b used rem with
      | Err e => (g, Err e)
      | Ok (Some (t, _)) => (g, Ok (Some (t, GNest w a oused orem b used (tl rem))))
      | Ok None => nest_outer g w a oused orem
      end
  | GSet used rem =>
      if length (g_triples g) =? used then
        match rem with
        | [] => (g, Ok None)
        | t :: r => (g, Ok (Some (t, GSet used r)))
        end
      else (g, Err RuntimeError)
  end.

(** list(generator): run it to exhaustion with no interleaved mutation. *)
Fixpoint drain (fuel : nat) (g : graph) (x : gen) : graph * res (list stmt) :=
  match fuel with
  | O => (g, Err OutOfFuel)
  | S n =>
    match gen_next g x with
    | (g', Err e) => (g', Err e)
    | (g', Ok None) => (g', Ok [])
    | (g', Ok (Some (t, x'))) =>
        match drain n g' x' with
        | (g'', Ok l) => (g'', Ok (t :: l))
        | (g'', Err e) => (g'', Err e)
        end
    end
  end.

(** The triples list(self.match(s, p, o)) yields, branch by branch; tied to the
    generator by [drain_match] (Proofs/GraphGen.v).  Other models use this. *)
Definition idx_vals2 (ix : index) (a b : term) : list stmt :=
  match tget ix a with
  | Some d1 => match tget d1 b with Some d2 => dvals d2 | None => [] end
  | None => []
  end.
Definition idx_vals1 (ix : index) (a : term) : list stmt :=
  match tget ix a with
  | Some d1 => concat (map (fun kv => dvals (snd kv)) d1)
  | None => []
  end.
Definition g_match (g : graph) (s p o : oterm) : list stmt :=
  match s, oterm_truthy s with
  | Some s', true =>
    match p, oterm_truthy p with
    | Some p', true =>
      match o, oterm_truthy o with
      | Some o', true => if g_contains g (Tr s' p' o') then [Tr s' p' o'] else []
      | _, _ => idx_vals2 (g_spo g) s' p'
      end
    | _, _ =>
      match o, oterm_truthy o with
      | Some o', true => idx_vals2 (g_osp g) o' s'
      | _, _ => idx_vals1 (g_spo g) s'
      end
    end
  | _, _ =>
    match p, oterm_truthy p with
    | Some p', true =>
      match o, oterm_truthy o with
      | Some o', true => idx_vals2 (g_pos g) p' o'
      | _, _ => idx_vals1 (g_pos g) p'
      end
    | _, _ =>
      match o, oterm_truthy o with
      | Some o', true => idx_vals1 (g_osp g) o'
      | _, _ => g_triples g
      end
    end
  end.

(** Graph.removeMatches: 457-462: [for triple in self.match(...): self.remove(triple)] *)
Fixpoint rm_loop (fuel : nat) (g : graph) (x : gen) : graph * res unit :=
  match fuel with
  | O => (g, Err OutOfFuel)
  | S n =>
    match gen_next g x with
    | (g', Err e) => (g', Err e)
    | (g', Ok None) => (g', Ok tt)
    | (g', Ok (Some (t, x'))) =>
        match g_remove g' t with
        | (g'', Err e) => (g'', Err e)
        | (g'', Ok _) => rm_loop n g'' x'
        end
    end
  end.
Definition g_removeMatches (g : graph) (s p o : oterm) : graph * res unit :=
  rm_loop (S (S (length (g_triples g)))) g (GStart s p o).
