(** What the scope of a blank node label is, by positions in a schedule. *)
From Verif Require Import Model.Py Model.Threads.

(** the event starts or ends a parse call of thread [th] *)
Definition touches (th : nat) (e : pev) : Prop := e = PStart th \/ e = PEnd th.

(** inside one parse call of [th] from position [i] to position [j] *)
Definition same_call (es : list pev) (th : nat) (i j : nat) : Prop :=
  forall k e, (i < k < j)%nat -> nth_error es k = Some e -> ~ touches th e.

(** every thread runs its calls one after the other: between two starts there is
    an end, and mentions and ends happen inside a call *)
Fixpoint sequential (active : nat -> bool) (es : list pev) : Prop :=
  match es with
  | [] => True
  | PStart th :: r => active th = false /\ sequential (fun x => if Nat.eqb x th then true else active x) r
  | PMention th _ :: r => active th = true /\ sequential active r
  | PEnd th :: r => active th = true /\ sequential (fun x => if Nat.eqb x th then false else active x) r
  end.
