(** Specification vocabulary for generators of Dataset.match that stay open (C106). *)
From Verif Require Import Model.Py Model.Terms Model.Dataset Model.DatasetRun Spec.GraphSpec Spec.DatasetSpec.

(** the program changes the dataset by adding and removing quads; it may also query,
    make graphs of its own and call remove_graph *)
Definition dev_quads (e : dev) : Prop :=
  match e with
  | DvOp (DAdd q) | DvOp (DRemove q) => is_quad q
  | DvOp (DAddAll qs) => forall q, In q qs -> is_quad q
  | DvOp (DQuery _ _ _ _) | DvOp (DNewGraph _) | DvOp (DRemoveGraph _) => True
  | DvOp _ => False
  | _ => True
  end.
(** the quads match(s, p, o, gr) is about *)
Definition qhits (s p o gr : oterm) (q : stmt) : Prop :=
  qfits (as_wildcard s) (as_wildcard p) (as_wildcard o) (as_wildcard gr) q.
(** no event adds a quad the pattern is about, unless it is in [G], or removes one *)
Definition qcalm (s p o gr : oterm) (G : list stmt) (e : dev) : Prop :=
  forall q, qhits s p o gr q ->
    match e with
    | DvOp (DAdd x) => x = q -> In q G
    | DvOp (DAddAll l) => In q l -> In q G
    | DvOp (DRemove x) => x <> q
    | _ => True
    end.
(** how many generators the events open *)
Definition dopened (es : list dev) : nat := length (filter (fun e => match e with DvMatch _ _ _ _ => true | _ => false end) es).
