(** What Turtle output with labels for blank nodes should read back as (C117). *)
From Verif Require Import Model.Py Model.Terms Model.TurtleTree Spec.GraphSpec Spec.TurtleSpec Spec.TurtleTextSpec Spec.ResourceSpec Spec.TurtleOutSpec.
Open Scope N_scope.

(** a generator of blank node labels ("_:" included), all different *)
Definition labels (names : nat -> res str) : Prop :=
  (forall k, exists s, names k = Ok s /\ TurtleTextSpec.label s) /\ (forall j k s, names j = Ok s -> names k = Ok s -> j = k).
(** what can be written: blank nodes too; lists as before *)
Definition printable_named (G : list stmt) : Prop :=
  forall t, In t G -> ~ list_cell G (st_s t) -> list_cell G (st_o t) -> exists os, list_of G (st_o t) os /\ Forall en_literal os.
(** the blank nodes that are written *)
Definition blank_of (G : list stmt) (b : N) : Prop :=
  exists t, In t G /\ ~ list_cell G (st_s t) /\ (st_s t = BNode b \/ st_o t = BNode b /\ ~ list_cell G (BNode b)).
(** other blank nodes for blank nodes *)
Definition renamed (rho : N -> N) (x : term) : term := match x with BNode b => BNode (rho b) | _ => x end.
Inductive reads_named (rho : N -> N) (G : list stmt) : stmt -> list stmt -> list N -> Prop :=
| rn_plain : forall s p o, ~ list_cell G o -> reads_named rho G (Tr s p o) [tr3 (renamed rho s) p (read_back (renamed rho o))] []
| rn_list : forall s p o os bs, list_cell G o -> list_of G o os -> length bs = length os ->
    reads_named rho G (Tr s p o) (tr3 (renamed rho s) p (list_head bs) :: chain bs (map read_back os)) bs.
Inductive all_named (rho : N -> N) (G : list stmt) : list stmt -> list stmt -> list N -> Prop :=
| an_nil : all_named rho G [] [] []
| an_cons : forall t l ts bs ts' bs', reads_named rho G t ts bs -> all_named rho G l ts' bs' -> all_named rho G (t :: l) (ts ++ ts') (bs ++ bs').
(** [ts] is the graph [G] with its blank nodes renamed, but for what is lost of lists *)
Definition graph_named (rho : N -> N) (G ts : list stmt) (bs : list N) : Prop :=
  exists l, NoDup l /\ (forall t, In t l <-> In t G /\ ~ list_cell G (st_s t)) /\ all_named rho G l ts bs /\ NoDup bs.
