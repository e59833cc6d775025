(** Specification side of C49 and C50 that speaks about the run: members of a list
    of values, and a triple as the parser hands it over. *)
From Verif Require Import Model.Py Model.Terms Model.TurtleTree Model.Turtle.
Fixpoint vals_list (l : tvals) : list tval := match l with VNil => [] | VCons v r => v :: vals_list r end.
Definition as_g (t : stmt) : gtriple := GT (st_s t) (st_p t) (GTerm (st_o t)).
(** the object is a generator object *)
Definition is_gen (t : gtriple) : bool := match gt_o t with GGen => true | GTerm _ => false end.
