(** Specification side of C90-C92: which values have a proper notion of equality, what
    object_of should yield. *)
From Verif Require Import Model.Py Model.Terms Model.Codec Model.Resource Model.ResourceVal Spec.GraphSpec Spec.ResourceSpec.

(** every value but an instance whose subject is a blank node *)
Definition named (v : pv) : Prop := match v with PRes _ _ s => exists i, s = Iri i | _ => True end.
(** the value shows the term: an instance for a node, a Literal for itself *)
Definition shows (v : rval) (t : term) : Prop :=
  match v with RNone => False | RLit x => x = t /\ ~ node t | RRes _ s => s = t /\ node t end.
(** a generator over [l] that ran to its end or was ended by a TypeError (no common
    subclass of the registered classes) yielded [ys] *)
Definition yielded (l : list (term * term)) (ys : list (rval * term)) (r : res unit) : Prop :=
  exists l1 l2, l = l1 ++ l2 /\ Forall2 (fun x y => shows (fst y) (fst x) /\ snd y = snd x) l1 ys /\
    ((l2 = [] /\ r = Ok tt) \/ (l2 <> [] /\ r = Err TypeError)).

(** an instance from its class, the identity of its graph and its subject *)
Definition rv (x : nat * N * term) : pv := PRes (fst (fst x)) (snd (fst x)) (snd x).
(** what is printed for a subject without a label: the IRI, or _: and the label *)
Inductive name_text : term -> str -> Prop :=
| nt_iri i : name_text (Iri i) i
| nt_bnode a : name_text (BNode a) (s2l "_:" ++ bnode_value a).
