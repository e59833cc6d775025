(** Threads that read a Dataset which other threads change: [q in ds], [len(ds)], [list(ds)] and
    [ds.toArray()] (src/pymantic/primitives.py 557-576) beside the calls of Dataset.add and remove of
    Model/DatasetThreads.v.  The steps of a reader are: starting the call, which makes the iterator
    over _graphs.values() or asks whether a name is there; the subscript of 563; each next() of
    the iterator over the graphs; each operation on a set _triples (its size, a membership test, making its
    iterator); each next() of that one, with reading graph.uri and t_as_q, which concern nothing that other
    threads change after the first triple is in the graph.  The iterator over the graphs remembers
    the number of names and raises RuntimeError if it is another one; the iterator over a set
    the number of triples.  That a set iterator gives the triples of the moment it was made
    holds as long as no triple is removed. *)
From Verif Require Import Model.Py Model.Terms Model.Graph Model.GraphThreads Model.Dataset Model.DatasetThreads.

(** [QHas q]: q in ds, for a Quad (560-564) or a Triple (565-568); [QSize]: len(ds) (557-558);
    [QList]: list(ds) or ds.toArray() (570-576) *)
Inductive dquery := QHas (q : stmt) | QSize | QList.
Inductive rpc :=
| RNew                                          (* the call has not begun *)
| RGraph (n : oterm)                            (* 562 was true, self._graphs[item.graph] comes next *)
| RTest (i : nat)                               (* q_as_t(item) in graph comes next *)
| RNext (used : nat) (rem : list oterm)         (* the next graph *)
| RAt (used : nat) (rem : list oterm) (i : nat) (* len(g), item in graph or iter(graph) comes next *)
| RIn (used : nat) (rem : list oterm) (i : nat) (su : nat) (srem : list stmt)  (* the next triple *)
| REnd (r : res unit).
Record reader := mkRd { rd_query : dquery; rd_pc : rpc; rd_yes : bool; rd_sum : nat; rd_out : list stmt }.
Definition rd_new (q : dquery) : reader := mkRd q RNew false 0 [].
Definition at_pc (x : reader) (p : rpc) : reader := mkRd (rd_query x) p (rd_yes x) (rd_sum x) (rd_out x).
Definition answer_in (t : stmt) (l : list stmt) : bool := if in_dec stmt_eq_dec t l then true else false.
Definition rd_step (s : dstate) (x : reader) : reader :=
  match rd_pc x with
  | RNew =>
      match rd_query x with
      | QHas q =>
          match st_graph q with
          | Some n => at_pc x (if dmem oterm_eq_dec (d_names s) n then RGraph n else REnd (Ok tt))
          | None => at_pc x (RNext (length (d_names s)) (dkeys (d_names s)))
          end
      | _ => at_pc x (RNext (length (d_names s)) (dkeys (d_names s)))
      end
  | RGraph n => at_pc x (match nget (d_names s) n with Some i => RTest i | None => REnd (Err KeyError) end)  (* a name is never removed *)
  | RTest i =>
      match rd_query x with
      | QHas q => mkRd (rd_query x) (REnd (Ok tt)) (answer_in (q_as_t q) (c_triples (snd (obj s i)))) (rd_sum x) (rd_out x)
      | _ => x
      end
  | RNext used rem =>
      at_pc x (if length (d_names s) =? used then
                 match rem with
                 | [] => REnd (Ok tt)
                 | n :: r => match nget (d_names s) n with Some i => RAt used r i | None => REnd (Err KeyError) end
                 end
               else REnd (Err RuntimeError))
  | RAt used rem i =>
      let ts := c_triples (snd (obj s i)) in
      match rd_query x with
      | QHas q => if answer_in q ts then mkRd (rd_query x) (REnd (Ok tt)) true (rd_sum x) (rd_out x) else at_pc x (RNext used rem)
      | QSize => mkRd (rd_query x) (RNext used rem) (rd_yes x) (rd_sum x + length ts) (rd_out x)
      | QList => at_pc x (RIn used rem i (length ts) ts)
      end
  | RIn used rem i su srem =>
      if length (c_triples (snd (obj s i))) =? su then
        match srem with
        | [] => at_pc x (RNext used rem)
        | t :: r => mkRd (rd_query x) (RIn used rem i su r) (rd_yes x) (rd_sum x) (rd_out x ++ [t_as_q (fst (obj s i)) t])
        end
      else at_pc x (REnd (Err RuntimeError))
  | REnd _ => x
  end.

(** writers and readers; a schedule says who goes a step *)
Record drsystem := mkDR { dr_state : dstate; dr_writers : list dthread; dr_readers : list reader }.
Inductive turn := Writer (k : nat) | Reader (j : nat).
Definition dr_step (s : drsystem) (x : turn) : drsystem :=
  match x with
  | Writer k => let s' := d_step (mkDS (dr_state s) (dr_writers s)) k in mkDR (ds_state s') (ds_threads s') (dr_readers s)
  | Reader j =>
      match nth_error (dr_readers s) j with
      | None => s
      | Some x => mkDR (dr_state s) (dr_writers s) (set_nth (dr_readers s) j (rd_step (dr_state s) x))
      end
  end.
Definition dr_run (s : drsystem) (schedule : list turn) : drsystem := fold_left dr_step schedule s.
Definition dr_start (g : dstate) (opss : list (list cop)) (qs : list dquery) : drsystem := mkDR g (map dt_new opss) (map rd_new qs).
