(** Specification side of C124: what a query object is to send, by the last assignments. *)
From Verif Require Import Model.Py Model.Terms Model.Sparql Model.SparqlJob Spec.SparqlSpec.

Record settings := mkSet { s_text : str; s_default : option garg; s_named : option garg; s_server : server }.
Definition change (s : settings) (x : jstep) : settings :=
  match x with
  | SetText t => mkSet t (s_default s) (s_named s) (s_server s)
  | SetDefault a => mkSet (s_text s) a (s_named s) (s_server s)
  | SetNamed a => mkSet (s_text s) (s_default s) a (s_server s)
  | SetServer sv => mkSet (s_text s) (s_default s) (s_named s) sv
  | Execute => s
  end.
Definition settings_after (s : settings) (l : list jstep) : settings := fold_left change l s.

(** graphs once named may become other graphs, but not none, and the server's
    post_directly stays as it is; everything else may change *)
Definition steady_step (s : settings) (x : jstep) : Prop :=
  match x with
  | SetDefault a => graphs_of (s_default s) <> [] -> graphs_of a <> []
  | SetNamed a => graphs_of (s_named s) <> [] -> graphs_of a <> []
  | SetServer sv => sv_post_directly sv = sv_post_directly (s_server s)
  | _ => True
  end.
Fixpoint steady (s : settings) (l : list jstep) : Prop :=
  match l with [] => True | x :: r => steady_step s x /\ steady (change s x) r end.
