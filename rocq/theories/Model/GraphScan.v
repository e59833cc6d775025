(** Threads that run list(g.match(s, p, o)) while other threads call g.add:
    src/pymantic/primitives.py 383-390 and 401-455.

    The steps of add are those of Model/GraphThreads.v.  Those of match are: each test
    [x in d], each subscript (two steps when the key is missing, as in GraphThreads.v), making an
    iterator, and each step of an iterator.  The tests of the arguments, which touch nothing that
    is shared, take no step.  An iterator over a dict or set remembers the size of its container and
    raises RuntimeError when it differs at the next step, before it looks whether there is anything left
    (CPython dictiter_iternextkey, dictiter_iternextvalue, setiter_iternext); what is left is kept here as a list, which
    is exact as long as nothing is removed. *)
From Verif Require Import Model.Py Model.Terms Model.Graph Model.GraphThreads.

(** the outer loop of 435-437, 445-447, 450-452: the index, the first key, the dictionary
    iterated over, its size, the keys that are left *)
Inductive outer := Outer (w : which) (a : term) (n used : nat) (rem : list term).
(** what is done with the dictionary that the subscripts give *)
Inductive cont :=
| KHas (w : which) (a b : term)      (* [b in self._w[a]]: 425, 430, 440 *)
| KKeys (w : which) (a : term)       (* [for b in self._w[a]]: 435, 445, 450 *)
| KVals (up : option outer).         (* [for triple in self._w[a][b].values()] *)
Inductive pc :=
| SIn (t : stmt)                                             (* [Triple(...) in self]: 422 *)
| SHas (w : which) (a : term) (ob : option term)             (* [a in self._w] *)
| SLoad (ms : list micro) (r : nat) (k : cont)               (* subscripts *)
| SKeys (u : outer)                                          (* the outer loop *)
| SVals (n used : nat) (rem : list cell) (up : option outer) (* the inner loop *)
| SAll                                                       (* [for triple in self._triples]: 454 *)
| SSet (used : nat) (rem : list stmt)
| SEnd (r : res unit).
Record scan := mkScan { sc_pc : pc; sc_out : list cell }.
(** the if/elif ladder 419-455 *)
Definition ladder (s p o : oterm) : pc :=
  match s, oterm_truthy s with
  | Some s', true =>
      match p, oterm_truthy p with
      | Some p', true => match o, oterm_truthy o with Some o', true => SIn (Tr s' p' o') | _, _ => SHas SPO s' (Some p') end
      | _, _ => match o, oterm_truthy o with Some o', true => SHas OSP o' (Some s') | _, _ => SHas SPO s' None end
      end
  | _, _ =>
      match p, oterm_truthy p with
      | Some p', true => match o, oterm_truthy o with Some o', true => SHas POS p' (Some o') | _, _ => SHas POS p' None end
      | _, _ => match o, oterm_truthy o with Some o', true => SHas OSP o' None | _, _ => SAll end
      end
  end.
Definition scan_new (s p o : oterm) : scan := mkScan (ladder s p o) [].
Definition load2 (w : which) (a b : term) : list micro := [MRoot w; MGet a; MGet b].
Definition sc_step (g : cgraph) (x : scan) : cgraph * scan :=
  let go := fun p => (g, mkScan p (sc_out x)) in
  let h := c_heap g in
  match sc_pc x with
  | SIn t => (g, mkScan (SEnd (Ok tt)) (sc_out x ++ if in_dec stmt_eq_dec t (c_triples g) then [CVal t] else []))
  | SHas w a ob =>
      match tget (deref h (root w)) a with
      | None => go (SEnd (Ok tt))
      | Some _ => go (SLoad [MRoot w; MGet a] 0 (match ob with Some b => KHas w a b | None => KKeys w a end))
      end
  | SLoad (m :: ms) r k =>
      match exec g r m with
      | (g', Ok (r', ms')) => (g', mkScan (SLoad (ms' ++ ms) r' k) (sc_out x))
      | (g', Err e) => (g', mkScan (SEnd (Err e)) (sc_out x))
      end
  | SLoad [] r k =>
      match k with
      | KHas w a b => match tget (deref h r) b with
                      | None => go (SEnd (Ok tt))
                      | Some _ => go (SLoad (load2 w a b) 0 (KVals None))
                      end
      | KKeys w a => go (SKeys (Outer w a r (length (deref h r)) (dkeys (deref h r))))
      | KVals up => go (SVals r (length (deref h r)) (dvals (deref h r)) up)
      end
  | SKeys (Outer w a n used rem) =>
      if length (deref h n) =? used
      then match rem with
           | [] => go (SEnd (Ok tt))
           | b :: rem' => go (SLoad (load2 w a b) 0 (KVals (Some (Outer w a n used rem'))))
           end
      else go (SEnd (Err RuntimeError))
  | SVals n used rem up =>
      if length (deref h n) =? used
      then match rem with
           | [] => match up with Some u => go (SKeys u) | None => go (SEnd (Ok tt)) end
           | c :: rem' => (g, mkScan (SVals n used rem' up) (sc_out x ++ [c]))
           end
      else go (SEnd (Err RuntimeError))
  | SAll => go (SSet (length (c_triples g)) (c_triples g))
  | SSet used rem =>
      if length (c_triples g) =? used
      then match rem with
           | [] => go (SEnd (Ok tt))
           | t :: rem' => (g, mkScan (SSet used rem') (sc_out x ++ [CVal t]))
           end
      else go (SEnd (Err RuntimeError))
  | SEnd _ => (g, x)
  end.

(** threads that add, and threads that scan *)
Record mstate := mkM { m_graph : cgraph; m_adders : list thread; m_scans : list scan }.
Inductive turn := Adder (i : nat) | Scanner (j : nat).
Definition m_step (s : mstate) (x : turn) : mstate :=
  match x with
  | Adder i => match nth_error (m_adders s) i with
               | None => s
               | Some y => let '(g, y') := th_step (m_graph s) y in mkM g (set_nth (m_adders s) i y') (m_scans s)
               end
  | Scanner j => match nth_error (m_scans s) j with
                 | None => s
                 | Some y => let '(g, y') := sc_step (m_graph s) y in mkM g (m_adders s) (set_nth (m_scans s) j y')
                 end
  end.
Definition m_run (s : mstate) (schedule : list turn) : mstate := fold_left m_step schedule s.
Definition pattern := (oterm * oterm * oterm)%type.
(** [addss]: what each thread adds; [pats]: what each scan looks for *)
Definition m_start (g : cgraph) (addss : list (list stmt)) (pats : list pattern) : mstate :=
  mkM g (map (fun l => th_new (map CAdd l)) addss) (map (fun q => let '(s, p, o) := q in scan_new s p o) pats).
