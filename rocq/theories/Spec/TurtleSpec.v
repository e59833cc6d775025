(** Specification side of C45-C53, C70, C71: what Turtle documents mean (W3C RDF 1.1
    Turtle, section 7), as relations over parse trees.  Only the tree types of
    the model are used. *)
From Verif Require Import Model.Py Model.Terms Model.TurtleTree Spec.CodecSpec.
Open Scope N_scope.

Definition tr3 (s p o : term) : stmt := St s p o None.
Definition rdf_iri (name : string) : term := Iri (s2l "http://www.w3.org/1999/02/22-rdf-syntax-ns#" ++ s2l name).
Definition xsd_iri (name : string) : str := s2l "http://www.w3.org/2001/XMLSchema#" ++ s2l name.

(** characters that may not occur in an IRIREF *)
Definition iri_illegal (c : char) : Prop := c <= 0x20 \/ In c (s2l "<>{}|^`\") \/ c = 34.

(** ** Tokens *)
(** a text over plain characters, ECHAR and UCHAR *)
Inductive escaped_text : str -> Prop :=
| et_nil : escaped_text []
| et_char : forall c s, c <> 92 -> escaped_text s -> escaped_text (c :: s)
| et_echar : forall k c s, echar k c -> escaped_text s -> escaped_text (92 :: k :: s)
| et_u : forall h s, length h = 4%nat -> Forall (fun c => hexdigit c = true) h -> escaped_text s ->
    escaped_text (92 :: 117 :: h ++ s)
| et_U : forall h s, length h = 8%nat -> Forall (fun c => hexdigit c = true) h -> escaped_text s ->
    escaped_text (92 :: 85 :: h ++ s).

(** PN_LOCAL: a backslash is followed by one of the characters of PN_LOCAL_ESC and stands for it *)
Definition local_esc (c : char) : Prop := In c (s2l "_~.-!$&'()*+,;=/?#@%").
Inductive local_denotes : str -> str -> Prop :=
| ld_nil : local_denotes [] []
| ld_char : forall c s v, c <> 92 -> c <> 60 -> local_denotes s v -> local_denotes (c :: s) (c :: v)
| ld_esc : forall c s v, local_esc c -> local_denotes s v -> local_denotes (92 :: c :: s) (c :: v).

(** ** Environments *)
Record tenv := mkEnv { e_pfx : str -> option str; e_base : str }.
Definition bind_prefix (e : tenv) (ns iri : str) : tenv :=
  mkEnv (fun x => if str_eq_dec x ns then Some iri else e_pfx e x) (e_base e).
Definition set_base (e : tenv) (iri : str) : tenv := mkEnv (e_pfx e) iri.
(** the environment a document starts in: rdf and xsd are bound *)
Definition env0 (base : str) : tenv :=
  mkEnv (fun x => if str_eq_dec x (s2l "rdf") then Some (s2l "http://www.w3.org/1999/02/22-rdf-syntax-ns#")
                  else if str_eq_dec x (s2l "xsd") then Some (s2l "http://www.w3.org/2001/XMLSchema#")
                  else None) base.

Section Semantics.
  (** reference resolution: base, reference, result *)
  Variable resolves : str -> str -> str -> Prop.

  Definition ref_means (e : tenv) (body iri : str) : Prop :=
    exists u, denotes body u /\ Forall (fun c => ~ iri_illegal c) u /\ resolves (e_base e) u iri.

  Inductive iri_means (e : tenv) : tiri -> str -> Prop :=
  | im_ref : forall body iri, ref_means e body iri -> iri_means e (TRef body) iri
  | im_pn : forall ns ln p l, ~ In 58 ns -> e_pfx e ns = Some p -> local_denotes ln l ->
      iri_means e (TPn (ns ++ 58 :: ln)) (p ++ l).

  Inductive lit_means (e : tenv) : tlit -> term -> Prop :=
  | lm_plain : forall body v, denotes body v -> lit_means e (TStr body SfNone) (Lit v None (Some (xsd_iri "string")))
  | lm_lang : forall body v tag, denotes body v -> tag <> [] -> lit_means e (TStr body (SfLang tag)) (Lit v (Some tag) None)
  | lm_type : forall body v i d, denotes body v -> iri_means e i d -> lit_means e (TStr body (SfType i)) (Lit v None (Some d))
  | lm_int : forall tok, lit_means e (TNum NInteger tok) (Lit tok None (Some (xsd_iri "integer")))
  | lm_dec : forall tok, lit_means e (TNum NDecimal tok) (Lit tok None (Some (xsd_iri "decimal")))
  | lm_dbl : forall tok, lit_means e (TNum NDouble tok) (Lit tok None (Some (xsd_iri "double")))
  | lm_bool : forall tok, lit_means e (TBool tok) (Lit tok None (Some (xsd_iri "boolean"))).

  Inductive verb_means (e : tenv) : tverb -> term -> Prop :=
  | vm_a : verb_means e VA (rdf_iri "type")
  | vm_iri : forall i s, iri_means e i s -> verb_means e (VIri i) (Iri s).

  (** [obj_means e L o node ts bs]: the object [o] stands for [node], asserts the
      triples [ts] and introduces the blank nodes [bs] (beside the labelled ones,
      which are given by [L]) *)
  Inductive obj_means (e : tenv) (L : str -> N) : tobj -> term -> list stmt -> list N -> Prop :=
  | om_iri : forall i s, iri_means e i s -> obj_means e L (TIri i) (Iri s) [] []
  | om_label : forall l, obj_means e L (TLabel l) (BNode (L l)) [] []
  | om_anon : forall b, obj_means e L TAnon (BNode b) [] [b]
  | om_lit : forall x t, lit_means e x t -> obj_means e L (TLit x) t [] []
  | om_nil : obj_means e L (TColl ONil) (rdf_iri "nil") [] []
  | om_cons : forall o r x tl ts ts' b bs bs',
      obj_means e L o x ts bs -> obj_means e L (TColl r) tl ts' bs' ->
      obj_means e L (TColl (OCons o r)) (BNode b)
        (tr3 (BNode b) (rdf_iri "first") x :: tr3 (BNode b) (rdf_iri "rest") tl :: ts ++ ts') (b :: bs ++ bs')
  | om_props : forall p b ts bs, pol_means e L (BNode b) p ts bs -> obj_means e L (TProps p) (BNode b) ts (b :: bs)
  (** every predicate of the list with each of its objects *)
  with pol_means (e : tenv) (L : str -> N) : term -> tpol -> list stmt -> list N -> Prop :=
  | pm_nil : forall s, pol_means e L s PNil [] []
  | pm_none : forall s v r ts bs, pol_means e L s r ts bs -> pol_means e L s (PCons v ONil r) ts bs
  | pm_cons : forall s v p o os r x ts ts' bs bs',
      verb_means e v p -> obj_means e L o x ts bs -> pol_means e L s (PCons v os r) ts' bs' ->
      pol_means e L s (PCons v (OCons o os) r) (tr3 s p x :: ts ++ ts') (bs ++ bs').

  (** documents: directives act on what follows them *)
  Inductive doc_means (L : str -> N) : tenv -> list tstmt -> list stmt -> list N -> Prop :=
  | dm_nil : forall e, doc_means L e [] [] []
  | dm_prefix : forall e ns body iri r ts bs, ref_means e body iri ->
      doc_means L (bind_prefix e ns iri) r ts bs -> doc_means L e (SPrefix ns body :: r) ts bs
  | dm_base : forall e body iri r ts bs, ref_means e body iri ->
      doc_means L (set_base e iri) r ts bs -> doc_means L e (SBase body :: r) ts bs
  | dm_triples : forall e s p r x ts1 ts2 ts3 bs1 bs2 bs3,
      obj_means e L s x ts1 bs1 -> pol_means e L x p ts2 bs2 -> doc_means L e r ts3 bs3 ->
      doc_means L e (STriples s p :: r) (ts1 ++ ts2 ++ ts3) (bs1 ++ bs2 ++ bs3).
End Semantics.

(** ** Labels occurring in a document *)
Fixpoint obj_labels (o : tobj) : list str :=
  match o with TLabel l => [l] | TColl l => objs_labels l | TProps p => pol_labels p | _ => [] end
with objs_labels (l : tobjs) : list str := match l with ONil => [] | OCons o r => obj_labels o ++ objs_labels r end
with pol_labels (p : tpol) : list str := match p with PNil => [] | PCons _ os r => objs_labels os ++ pol_labels r end.
Fixpoint doc_labels (d : list tstmt) : list str :=
  match d with
  | [] => []
  | STriples s p :: r => obj_labels s ++ pol_labels p ++ doc_labels r
  | _ :: r => doc_labels r
  end.

(** ** Well-formed tokens (what the terminals of the grammar match) *)
(** an IRIREF body; one whose escapes make the IRI end in a newline is excluded
    here, see C52 *)
Definition ref_token (body : str) : Prop :=
  escaped_text body /\ forall u, denotes body u -> forall u', u <> u' ++ [10].
Definition iri_token (i : tiri) : Prop :=
  match i with
  | TRef body => ref_token body
  | TPn tok => exists ns ln l, tok = ns ++ 58 :: ln /\ ~ In 58 ns /\ local_denotes ln l
  end.
Definition lit_token (x : tlit) : Prop :=
  match x with
  | TStr body sf => escaped_text body /\
      match sf with SfNone => True | SfLang tag => tag <> [] | SfType i => iri_token i end
  | _ => True
  end.
Definition verb_token (v : tverb) : Prop := match v with VA => True | VIri i => iri_token i end.
(** also: an object list is not empty *)
Fixpoint obj_tokens (o : tobj) : Prop :=
  match o with
  | TIri i => iri_token i
  | TLit x => lit_token x
  | TColl l => objs_tokens l
  | TProps p => pol_tokens p
  | _ => True
  end
with objs_tokens (l : tobjs) : Prop := match l with ONil => True | OCons o r => obj_tokens o /\ objs_tokens r end
with pol_tokens (p : tpol) : Prop :=
  match p with PNil => True | PCons v os r => verb_token v /\ os <> ONil /\ objs_tokens os /\ pol_tokens r end.
Definition stmt_tokens (x : tstmt) : Prop :=
  match x with
  | SPrefix _ body | SBase body => ref_token body
  | STriples s p => obj_tokens s /\ pol_tokens p
  end.

(** ** Object lists with several members hold no nested structure *)
Definition nested (o : tobj) : bool := match o with TColl _ | TProps _ => true | _ => false end.
Fixpoint some_nested (l : tobjs) : bool := match l with ONil => false | OCons o r => nested o || some_nested r end.
Definition several (l : tobjs) : bool := match l with OCons _ (OCons _ _) => true | _ => false end.
Fixpoint obj_flat (o : tobj) : bool :=
  match o with TColl l => objs_flat l | TProps p => pol_flat p | _ => true end
with objs_flat (l : tobjs) : bool := match l with ONil => true | OCons o r => obj_flat o && objs_flat r end
with pol_flat (p : tpol) : bool :=
  match p with PNil => true | PCons _ os r => negb (several os && some_nested os) && objs_flat os && pol_flat r end.
Definition stmt_flat (x : tstmt) : bool := match x with STriples s p => obj_flat s && pol_flat p | _ => true end.

(** ** Reference resolution with a given urljoin, an empty fragment being kept *)
Definition ends_in (c : char) (s : str) : Prop := exists x, s = x ++ [c].
Definition resolves_by (uj : str -> str -> res str) (base u s : str) : Prop :=
  exists j, uj base u = Ok j /\
    (ends_in 35 u /\ ~ ends_in 35 j /\ s = j ++ [35] \/ (~ ends_in 35 u \/ ends_in 35 j) /\ s = j).
(** no "<" appears in a joined IRI out of nothing *)
Definition uj_clean (uj : str -> str -> res str) : Prop :=
  forall b u j, ~ In 60 b -> ~ In 60 u -> uj b u = Ok j -> ~ In 60 j.

(** ** Collections: the triples of a list with cells [bs] and members [xs] *)
Definition list_head (bs : list N) : term := match bs with b :: _ => BNode b | [] => rdf_iri "nil" end.
Fixpoint chain (bs : list N) (xs : list term) : list stmt :=
  match bs, xs with
  | b :: bs', x :: xs' => tr3 (BNode b) (rdf_iri "first") x :: tr3 (BNode b) (rdf_iri "rest") (list_head bs') :: chain bs' xs'
  | _, _ => []
  end.
(** which members of an object list are nested structures *)
Fixpoint nested_flags (l : tobjs) : list bool := match l with ONil => [] | OCons o r => nested o :: nested_flags r end.

(** ** Where a namespace prefix is used *)
Definition iri_uses (ns : str) (i : tiri) : Prop := exists ln, i = TPn (ns ++ 58 :: ln).
Definition lit_uses (ns : str) (x : tlit) : Prop := match x with TStr _ (SfType i) => iri_uses ns i | _ => False end.
Definition verb_uses (ns : str) (v : tverb) : Prop := match v with VIri i => iri_uses ns i | VA => False end.
Fixpoint obj_uses (ns : str) (o : tobj) : Prop :=
  match o with
  | TIri i => iri_uses ns i
  | TLit x => lit_uses ns x
  | TColl l => objs_use ns l
  | TProps p => pol_uses ns p
  | _ => False
  end
with objs_use (ns : str) (l : tobjs) : Prop := match l with ONil => False | OCons o r => obj_uses ns o \/ objs_use ns r end
with pol_uses (ns : str) (p : tpol) : Prop :=
  match p with PNil => False | PCons v os r => verb_uses ns v \/ objs_use ns os \/ pol_uses ns r end.
Definition binds (ns : str) (x : tstmt) : Prop := match x with SPrefix m _ => m = ns | _ => False end.
Definition rebases (x : tstmt) : Prop := match x with SBase _ => True | _ => False end.

(** ** Splitting into groups of [n] (C71): [k] fill values at the end *)
Definition groups_of {A} (n : nat) (fill : A) (l : list A) (gs : list (list A)) : Prop :=
  Forall (fun g => length g = n) gs /\ exists k, (k < n)%nat /\ concat gs = l ++ repeat fill k.
