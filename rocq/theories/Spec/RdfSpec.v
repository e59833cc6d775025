(** Specification side of C99: which triples are RDF triples (RDF 1.1 Concepts, section
    3), texts without surrogates. *)
From Verif Require Import Model.Py Model.Terms Spec.CodecSpec.
Open Scope N_scope.

Definition rdf_subject (t : term) : Prop := match t with Lit _ _ _ => False | _ => True end.
Definition rdf_predicate (t : term) : Prop := match t with Iri _ => True | _ => False end.
(** a literal has a language tag or a datatype, not both; with [plain] (RDF 1.0) it may
    have neither *)
Inductive rdf_literal (plain : bool) : option str -> option str -> Prop :=
| rl_tagged : forall l, l <> [] -> rdf_literal plain (Some l) None
| rl_typed : forall d, rdf_literal plain None (Some d)
| rl_plain : plain = true -> rdf_literal plain None None.
Definition rdf_object (plain : bool) (t : term) : Prop := match t with Lit _ l d => rdf_literal plain l d | _ => True end.
Definition rdf_triple (plain : bool) (t : stmt) : Prop :=
  rdf_subject (st_s t) /\ rdf_predicate (st_p t) /\ rdf_object plain (st_o t) /\ st_graph t = None.

(** Unicode scalar values *)
Definition scalar (c : char) : Prop := c <= 0x10FFFF /\ ~ surrogate c.
(** an escape that stands for a surrogate *)
Definition surrogate_escape (s : str) : Prop :=
  exists a k h b c, s = a ++ 92 :: k :: h ++ b /\ hexnum h c /\ surrogate c /\ (k = 117 /\ length h = 4%nat \/ k = 85 /\ length h = 8%nat).
(** nothing in the text, and nothing it stands for, is a surrogate *)
Definition unicode (s : str) : Prop := Forall scalar s /\ ~ surrogate_escape s.
