(** What a program of calls of one JSON-LD parser stores and where (C126). *)
From Verif Require Import Model.Py Model.Terms Model.JsonLd Model.JsonLdRun Spec.JsonLdSpec.

(** the sink of a call when [n] datasets exist, and the number of datasets after it *)
Definition goes_to (n : nat) (sink : option nat) : nat := match sink with Some i => i | None => n end.
Definition and_then (n : nat) (sink : option nat) : nat := match sink with Some _ => n | None => Datatypes.S n end.
(** every sink that is passed exists *)
Fixpoint sinks_there (n : nat) (calls : list jcall) : Prop :=
  match calls with
  | [] => True
  | JParse sink _ :: r => (forall i, sink = Some i -> (i < n)%nat) /\ sinks_there (and_then n sink) r
  | JDoc _ :: r => sinks_there n r
  end.
(** [k] is the number of the next call; [failed] the number and the sink of the last parse_json if it
    raised.  (scope, sink, data): the data is stored in the sink, and labels mean the
    same blank nodes in the same scope. *)
Fixpoint stored (k n : nat) (failed : option (nat * nat)) (calls : list jcall) : list (nat * nat * rdf_dataset) :=
  match calls with
  | [] => []
  | JParse sink (Ok data) :: r => (k, goes_to n sink, data) :: stored (Datatypes.S k) (and_then n sink) None r
  | JParse sink (Err _) :: r => stored (Datatypes.S k) (and_then n sink) (Some (k, goes_to n sink)) r
  | JDoc (Ok data) :: r => match failed with Some (j, i) => [(j, i, data)] | None => [] end ++ stored (Datatypes.S k) n failed r
  | JDoc (Err _) :: r => stored (Datatypes.S k) n failed r
  end.
Definition no_triples (data : rdf_dataset) : bool := forallb (fun x => match snd x with [] => true | _ => false end) data.
Fixpoint said (n : nat) (failed : bool) (calls : list jcall) : list (res (option nat)) :=
  match calls with
  | [] => []
  | JParse sink (Ok _) :: r => Ok (Some (goes_to n sink)) :: said (and_then n sink) false r
  | JParse sink (Err e) :: r => Err e :: said (and_then n sink) true r
  | JDoc (Ok data) :: r => (if failed || no_triples data then Ok None else Err AttributeError) :: said n failed r
  | JDoc (Err e) :: r => Err e :: said n failed r
  end.
(** the label occurs in the scope *)
Definition in_scope (deps : list (nat * nat * rdf_dataset)) (k : nat) (l : str) : Prop := exists i data, In (k, i, data) deps /\ label_in data l.
Definition is_parse (c : jcall) : bool := match c with JParse _ _ => true | JDoc _ => false end.
