(** Threads that parse JSON-LD with one parser.  _call_state is a threading.local
    (src/pymantic/parsers/base.py 14-18, 44-50), so that each thread has bnodes and graph of its own; the
    datasets and the identities of new blank nodes are shared.  A step is the work on one triple
    (jsonld.py 73-81: process_triple of Model/JsonLd.v) or the end of a call with the beginning of
    the next one; to_rdf has succeeded.  Dataset.add is taken as one step here, see
    Model/DatasetThreads.v for its parts.  The sinks are given. *)
From Verif Require Import Model.Py Model.Terms Model.Graph Model.GraphThreads Model.Dataset Model.JsonLd.

(** the triples of a document in the order of the loops, jsonld.py 67-73 *)
Definition flat (data : rdf_dataset) : list (oterm * jtriple) := concat (map (fun x => map (pair (graph_iri (fst x))) (snd x)) data).
(** a thread: its calls of parse_json, the call and the triple at which it is, its bnodes, what it raised *)
Record jthread := mkTh { th_prog : list (nat * rdf_dataset); th_at : nat; th_pos : nat; th_tab : dict str N; th_err : option exn }.
Definition jt_new (prog : list (nat * rdf_dataset)) : jthread := mkTh prog 0 0 [] None.
(** the shared identities and datasets *)
Record jshared := mkSh { sh_next : N; sh_sinks : list world }.
Definition jt_step (s : jshared) (x : jthread) : jshared * jthread :=
  match th_err x with
  | Some _ => (s, x)
  | None =>
      match nth_error (th_prog x) (th_at x) with
      | None => (s, x)
      | Some (i, data) =>
          match nth_error (flat data) (th_pos x) with
          | None => (s, mkTh (th_prog x) (Datatypes.S (th_at x)) 0 [] None)
          | Some (g, t) =>
              let '(st, r) := process_triple (mkJS (sh_next s) (Some (th_tab x, i)) (sh_sinks s)) g t in
              (mkSh (js_next st) (js_sinks st),
               mkTh (th_prog x) (th_at x) (Datatypes.S (th_pos x)) (match js_call st with Some (d, _) => d | None => [] end)
                     (match r with Ok _ => None | Err e => Some e end))
          end
      end
  end.
Record jsystem := mkJY { jy_shared : jshared; jy_threads : list jthread }.
Definition jy_step (y : jsystem) (k : nat) : jsystem :=
  match nth_error (jy_threads y) k with
  | None => y
  | Some x => let '(s, x') := jt_step (jy_shared y) x in mkJY s (set_nth (jy_threads y) k x')
  end.
Definition jy_run (y : jsystem) (schedule : list nat) : jsystem := fold_left jy_step schedule y.
Definition jy_start (start : N) (sinks : list world) (progs : list (list (nat * rdf_dataset))) : jsystem := mkJY (mkSh start sinks) (map jt_new progs).
