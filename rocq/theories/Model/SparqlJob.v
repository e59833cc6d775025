(** A query or update object (_Select, _Update) that is kept and executed more than once, with
    its attributes and those of its server assigned in between: sparql.py 31-178.  execute
    stores the parameters and the header Content-Type in self.params and self.headers (67-82),
    which __init__ made (42-43), so they are there at the next execution. *)
From Verif Require Import Model.Py Model.Terms Model.Codec Model.Sparql.
Open Scope N_scope.

(** self after execute, 61-82: what comes later, with or without an exception, changes
    nothing; if encode (65) raises, nothing has been stored *)
Definition executed (j : job) : job :=
  match utf8_encode (j_sparql j) with
  | Err _ => j
  | Ok sparql =>
      let k := j_kind j in
      let p := add_graphs (add_graphs (j_params j) (default_graph_uri k) (j_default j)) (named_graph_uri k) (j_named j) in
      if sv_post_directly (j_server j) then
        mkJob k (j_server j) (j_sparql j) (j_default j) (j_named j)
          (dset str_eq_dec (j_headers j) (s2l "Content-Type") (directContentType k ++ s2l "; charset=utf-8")) p
      else mkJob k (j_server j) (j_sparql j) (j_default j) (j_named j) (j_headers j) (pset p (query_or_update k) (PBytes sparql))
  end.
(** execute: of _Select (138-161), or inherited by _Update (61-102) *)
Definition job_execute (net : request -> res response) (j : job) : list request * res outcome :=
  match j_kind j with Select => select_execute net j | Update => execute net j end.

(** assignments to job.sparql, job.default_graphs, job.named_graphs (39-41), to job.server or
    its attributes (186-191), and job.execute() *)
Inductive jstep := SetText (s : str) | SetDefault (a : option garg) | SetNamed (a : option garg) | SetServer (sv : server) | Execute.
Definition assign (j : job) (x : jstep) : job :=
  match x with
  | SetText s => mkJob (j_kind j) (j_server j) s (j_default j) (j_named j) (j_headers j) (j_params j)
  | SetDefault a => mkJob (j_kind j) (j_server j) (j_sparql j) a (j_named j) (j_headers j) (j_params j)
  | SetNamed a => mkJob (j_kind j) (j_server j) (j_sparql j) (j_default j) a (j_headers j) (j_params j)
  | SetServer sv => mkJob (j_kind j) sv (j_sparql j) (j_default j) (j_named j) (j_headers j) (j_params j)
  | Execute => executed j
  end.
(** a program: the object afterwards, the requests and the result of every execution *)
Fixpoint job_run (net : request -> res response) (j : job) (l : list jstep) : job * list (list request * res outcome) :=
  match l with
  | [] => (j, [])
  | x :: r =>
      let '(j', out) := job_run net (assign j x) r in
      (j', match x with Execute => job_execute net j :: out | _ => out end)
  end.
