(** Parser call state under threads: parsers/base.py 18-20, 34-38, 43-50 and
    parsers/lark/base.py 14-36.

    One parser object (ntriples_parser, nquads_parser, ...) is shared by all
    threads.  [_call_state] is a threading.local: each thread sees its own
    attribute [bnodes].  The events of a parse call that touch this state are its
    _prepare_parse, its label mentions and its _cleanup_parse; a schedule is any
    interleaving of the events of any number of calls.  Object identities come
    from one counter: blank nodes that are both alive have different identities. *)
From Verif Require Import Model.Py Model.Terms Model.Codec Model.NTriples.
Open Scope N_scope.

Inductive pev :=
| PStart (th : nat)                  (* _prepare_parse, base.py 43-45 *)
| PMention (th : nat) (label : str)  (* make_blank_node(label), 34-38 *)
| PEnd (th : nat).                   (* _cleanup_parse, 47-49 *)

Record tstate := mkT { ts_next : N; ts_local : dict nat (dict str N) }.
Definition t_init (n : N) : tstate := mkT n [].

(** result of an event: the blank node returned by a mention, or an exception *)
Definition t_step (st : tstate) (e : pev) : tstate * res (option N) :=
  match e with
  | PStart th => (mkT (ts_next st) (dset Nat.eq_dec (ts_local st) th []), Ok None)
  | PMention th l =>
      match dget Nat.eq_dec (ts_local st) th with
      | None => (st, Err AttributeError)          (* the thread has no attribute bnodes *)
      | Some d =>
          match make_bnode (mkB (ts_next st) d) l with
          | (b, BNode a) => (mkT (bs_next b) (dset Nat.eq_dec (ts_local st) th (bs_map b)), Ok (Some a))
          | (_, _) => (st, Err TypeError)         (* make_bnode returns blank nodes only *)
          end
      end
  | PEnd th =>
      match dget Nat.eq_dec (ts_local st) th with
      | None => (st, Err AttributeError)
      | Some _ => (mkT (ts_next st) (ddel Nat.eq_dec (ts_local st) th), Ok None)
      end
  end.
Fixpoint t_run (st : tstate) (es : list pev) : tstate * list (res (option N)) :=
  match es with
  | [] => (st, [])
  | e :: r => let '(st1, x) := t_step st e in let '(st2, xs) := t_run st1 r in (st2, x :: xs)
  end.
