(** Specification side of C81. *)
From Verif Require Import Model.Py Model.Terms Model.NTriples Model.RdfXml Spec.CurieSpec.
Open Scope N_scope.
(** names in the notation of lxml *)
Definition rdf (s : string) : str := s2l "{http://www.w3.org/1999/02/22-rdf-syntax-ns#}" ++ s2l s.
Definition namespaced (t : str) : Prop := exists ns l, t = s2l "{" ++ ns ++ s2l "}" ++ l.
Definition ascii_alpha (c : char) : Prop := 65 <= c <= 90 \/ 97 <= c <= 122.
(** a reference with a scheme, RFC 3986 section 3.1 *)
Definition has_scheme (u : str) : Prop := exists s r, u = s ++ s2l ":" ++ r /\ (exists c t, s = c :: t /\ ascii_alpha c) /\
  Forall (fun c => ascii_alpha c \/ 48 <= c <= 57 \/ In c (s2l "+-.")) s.

(** ** What is read from an element *)
Section Reads.
  Variable uj : str -> str -> res str.
  (** a reference or a name, made absolute *)
  Inductive joined (e : elem) (u : str) : str -> Prop :=
  | jn_none : el_base e = None \/ el_base e = Some [] -> joined e u u
  | jn_base : forall b x, el_base e = Some b -> b <> [] -> uj b u = Ok x -> joined e u x.
  Inductive ref_of (e : elem) (u : str) : str -> Prop :=
  | rf_letter : (exists c r, u = c :: r /\ ascii_alpha c) -> ref_of e u u
  | rf_other : forall x, ~ (exists c r, u = c :: r /\ ascii_alpha c) -> joined e u x -> ref_of e u x.
  Definition has_attr (e : elem) (k u : str) : Prop := exists m1 m2, el_attrib e = m1 ++ (k, u) :: m2 /\ ~ In k (map fst m1).
  Definition no_attr (e : elem) (k : str) : Prop := ~ In k (map fst (el_attrib e)).
  (** the name of an element outside all namespaces *)
  Definition name_of (e : elem) (x : str) : Prop := exists c t, el_tag e = Some (c :: t) /\ c <> 123 /\ joined e (c :: t) x.
  (** the subject, the next number and the map of node ids *)
  Inductive subject_of (n : N) (m : dict str N) (e : elem) : N -> dict str N -> term -> Prop :=
  | sb_known : forall id a, has_attr e (rdf "nodeID") id -> (exists m1 m2, m = m1 ++ (id, a) :: m2 /\ ~ In id (map fst m1)) -> subject_of n m e n m (BNode a)
  | sb_new : forall id, has_attr e (rdf "nodeID") id -> ~ In id (map fst m) -> subject_of n m e (n + 1) (m ++ [(id, n)]) (BNode n)
  | sb_id : forall id b, no_attr e (rdf "nodeID") -> has_attr e (rdf "ID") id -> el_base e = Some b -> b <> [] ->
      subject_of n m e n m (Iri (b ++ s2l "#" ++ id))
  | sb_about : forall a u x, no_attr e (rdf "nodeID") -> no_attr e (rdf "ID") -> has_attr e (rdf "about") a -> has_attr e (rdf "resource") u -> ref_of e u x ->
      subject_of n m e n m (Iri x)
  | sb_blank : no_attr e (rdf "nodeID") -> no_attr e (rdf "ID") -> no_attr e (rdf "about") -> subject_of n m e (n + 1) m (BNode n).
  (** the type *)
  Inductive type_of (s : term) (e : elem) : list stmt -> Prop :=
  | ty_none : el_tag e = Some (rdf "Description") -> type_of s e []
  | ty_name : forall x, name_of e x -> type_of s e [Tr s (Iri (s2l "http://www.w3.org/1999/02/22-rdf-syntax-ns#type")) (Iri x)].
  (** the property elements: [p] is the name before *)
  Inductive props_of (s : term) : option str -> list elem -> list stmt -> Prop :=
  | po_nil : forall p, props_of s p [] []
  | po_li : forall p c r ts, el_tag c = Some (rdf "li") -> no_attr c (rdf "resource") -> props_of s p r ts -> props_of s p (c :: r) ts
  | po_li_ref : forall x c r ts u y, el_tag c = Some (rdf "li") -> has_attr c (rdf "resource") u -> ref_of c u y -> props_of s (Some x) r ts ->
      props_of s (Some x) (c :: r) (Tr s (Iri x) (Iri y) :: ts)
  | po_name : forall p x c r ts, name_of c x -> no_attr c (rdf "resource") -> props_of s (Some x) r ts -> props_of s p (c :: r) ts
  | po_name_ref : forall p x c r ts u y, name_of c x -> has_attr c (rdf "resource") u -> ref_of c u y -> props_of s (Some x) r ts ->
      props_of s p (c :: r) (Tr s (Iri x) (Iri y) :: ts).
End Reads.
