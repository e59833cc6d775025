(** Specification vocabulary for generators that stay open while the graph changes (C105). *)
From Verif Require Import Model.Py Model.Terms Model.Graph Spec.GraphSpec Model.GraphRun.

(** the program adds and removes triples, not quads *)
Definition ev_triples (e : event) : Prop := match e with EvOp op => gop_triples op | _ => True end.

(** the triples match(s, p, o) is about *)
Definition hits (s p o : oterm) (t : stmt) : Prop := fits (as_wildcard s) (as_wildcard p) (as_wildcard o) t.

(** what an event may put into the graph, or take out of it *)
Definition puts (e : event) (t : stmt) : Prop :=
  match e with EvOp (OpAdd x) => x = t | EvOp (OpAddAll l) => In t l | _ => False end.
Definition takes (e : event) (t : stmt) : Prop := match e with EvOp (OpRemove x) => x = t | _ => False end.

(** with respect to a pattern and the graph [G] of the first next(): nothing changes; things are only added; are only removed *)
Definition calm (s p o : oterm) (G : list stmt) (e : event) : Prop := forall t, hits s p o t -> (puts e t -> In t G) /\ ~ takes e t.
Definition growing (s p o : oterm) (e : event) : Prop := forall t, hits s p o t -> ~ takes e t.
Definition shrinking (s p o : oterm) (e : event) : Prop := forall t, hits s p o t -> ~ puts e t.

(** the triples among the outcomes *)
Fixpoint yields (outs : list (res (option stmt))) : list stmt :=
  match outs with
  | [] => []
  | Ok (Some t) :: r => t :: yields r
  | _ :: r => yields r
  end.
(** exactly one of the three arguments is used *)
Definition one_bound (s p o : oterm) : Prop :=
  bound s /\ ~ bound p /\ ~ bound o \/ ~ bound s /\ bound p /\ ~ bound o \/ ~ bound s /\ ~ bound p /\ bound o.
(** how many generators the events open: the next one gets this number *)
Definition opened (es : list event) : nat := length (filter (fun e => match e with EvMatch _ _ _ => true | _ => false end) es).
