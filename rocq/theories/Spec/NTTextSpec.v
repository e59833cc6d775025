(** Specification side of C95-C97: the concrete syntax of N-Triples and N-Quads as
    relations between statements and texts.  One grammar (W3C N-Triples 1.1, section 7:
    statements, white space, ends of lines) with two sets of tokens: those of W3C and those
    this library's grammar has. *)
From Verif Require Import Model.Py Model.Terms Model.NTriples Model.TurtleTree Spec.CodecSpec Spec.NTSpec Spec.TurtleSpec Spec.TurtleTextSpec.
Open Scope N_scope.

Definition blank1 (c : char) : Prop := c = 32 \/ c = 9.
Definition blanks (s : str) : Prop := Forall blank1 s.
Definition line_ends (s : str) : Prop := s <> [] /\ Forall (fun c => c = 10 \/ c = 13) s.

(** what the parser takes from the text between < and >, the labels, the language tags;
    which terms need white space between them *)
Record tokens := mkTok { tk_iri : str -> str -> Prop; tk_label : str -> Prop; tk_lang : str -> Prop; tk_space : rterm -> rterm -> Prop }.
Definition label_term (x : rterm) : Prop := match x with RBn _ => True | _ => False end.
Definition iri_term (x : rterm) : Prop := match x with RIri _ => True | _ => False end.

(** ** tokens of W3C *)
Definition w3c_label (s : str) : Prop :=
  exists c r, s = [95; 58] ++ c :: r /\ (pn_u c \/ c = 58 \/ digit10 c) /\ Forall (fun x => pn_char x \/ x = 58 \/ x = 46) r /\ ~ ends_in 46 r.
Definition w3c : tokens :=
  mkTok (fun i t => t = i /\ units (fun c => ~ iri_illegal c) false t) w3c_label lang_tag (fun _ _ => False).

(** ** tokens of this library *)
(** blanks in an IRI are dropped *)
Inductive blank_units : str -> str -> Prop :=
| bu_nil : blank_units [] []
| bu_blank : forall c i t, blank1 c -> blank_units i t -> blank_units i (c :: t)
| bu_unit : forall u i t, unit1 (fun c => ~ iri_illegal c) false u -> blank_units i t -> blank_units (u ++ i) (u ++ t).
(** the characters of labels reach from '0' to U+EFFF, which includes punctuation *)
Definition wide_char (c : char) : Prop := between 48 0xEFFF c \/ between 0xF900 0xFDCF c \/ between 0xFDF0 0xFFFD c.
Definition wide_label (s : str) : Prop :=
  exists c r, s = [95; 58] ++ c :: r /\ wide_char c /\ Forall (fun x => wide_char x \/ x = 45 \/ x = 46) r /\ ~ ends_in 46 r.
Definition own : tokens := mkTok blank_units wide_label langtag_ok (fun x _ => label_term x).

(** ** tokens that are in both, and that Turtle has *)
Definition common : tokens :=
  mkTok (tk_iri w3c) (fun s => w3c_label s /\ wide_label s) (fun l => lang_tag l /\ langtag_ok l) (fun x _ => label_term x).
Definition in_turtle : tokens :=
  mkTok (tk_iri w3c) (fun s => label s /\ wide_label s) (fun l => lang_tag l /\ langtag_ok l) (fun x y => label_term x \/ ~ iri_term y).

Section Texts.
  Variable k : tokens.
  Inductive iri_at : rterm -> str -> Prop :=
  | ia_iri : forall i t, tk_iri k i t -> iri_at (RIri i) (60 :: t ++ [62]).
  Inductive subject_at : rterm -> str -> Prop :=
  | sa_iri : forall x t, iri_at x t -> subject_at x t
  | sa_label : forall s, tk_label k s -> subject_at (RBn s) s.
  Definition quoted_body (b : str) : Prop := units (fun c => c <> 34 /\ c <> 10 /\ c <> 13) true b.
  Inductive object_at : rterm -> str -> Prop :=
  | oa_node : forall x t, subject_at x t -> object_at x t
  | oa_plain : forall b, quoted_body b -> object_at (RLit b RPlain) (34 :: b ++ [34])
  | oa_lang : forall b w l, quoted_body b -> blanks w -> tk_lang k l -> object_at (RLit b (RLang l)) (34 :: b ++ [34] ++ w ++ 64 :: l)
  | oa_type : forall b w w' i t, quoted_body b -> blanks w -> blanks w' -> tk_iri k i t ->
      object_at (RLit b (RType i)) (34 :: b ++ [34] ++ w ++ [94; 94] ++ w' ++ 60 :: t ++ [62]).
  (** white space between terms *)
  Definition apart2 (x y : rterm) (w : str) : Prop := blanks w /\ (tk_space k x y -> w <> []).
  (** a statement with the white space before it; [q]: N-Quads *)
  Inductive line_at (q : bool) : rstmt -> str -> Prop :=
  | la_triple : forall w0 s a w1 p b w2 o c w3, q = false -> blanks w0 -> subject_at s a -> apart2 s p w1 -> iri_at p b -> apart2 p o w2 -> object_at o c -> blanks w3 ->
      line_at q (RSt s p o None) (w0 ++ a ++ w1 ++ b ++ w2 ++ c ++ w3 ++ [46])
  | la_quad : forall w0 s a w1 p b w2 o c w3 g d w4, q = true -> blanks w0 -> subject_at s a -> apart2 s p w1 -> iri_at p b -> apart2 p o w2 -> object_at o c -> apart2 o g w3 ->
      iri_at g d -> blanks w4 -> line_at q (RSt s p o (Some g)) (w0 ++ a ++ w1 ++ b ++ w2 ++ c ++ w3 ++ d ++ w4 ++ [46]).
  (** (EOL statement)* EOL? *)
  Inductive lines_at (q : bool) : list rstmt -> str -> Prop :=
  | ls_end : forall w, blanks w -> lines_at q [] w
  | ls_eol : forall w e w', blanks w -> line_ends e -> blanks w' -> lines_at q [] (w ++ e ++ w')
  | ls_cons : forall w e x t l r, blanks w -> line_ends e -> line_at q x t -> lines_at q l r -> lines_at q (x :: l) (w ++ e ++ t ++ r).
  (** statement? (EOL statement)* EOL? *)
  Inductive nt_doc (q : bool) : list rstmt -> str -> Prop :=
  | nd_none : forall l s, lines_at q l s -> nt_doc q l s
  | nd_first : forall x t l r, line_at q x t -> lines_at q l r -> nt_doc q (x :: l) (t ++ r).
End Texts.

(** ** what documents mean; [L] gives the blank nodes of the labels *)
Section Means.
  Variable L : str -> N.
  Inductive node_means : rterm -> term -> Prop :=
  | nm_iri : forall i v, denotes i v -> node_means (RIri i) (Iri v)
  | nm_label : forall l, node_means (RBn l) (BNode (L l))
  | nm_plain : forall b v, denotes b v -> node_means (RLit b RPlain) (Lit v None None)
  | nm_lang : forall b v l, denotes b v -> node_means (RLit b (RLang l)) (Lit v (Some l) None)
  | nm_type : forall b v i d, denotes b v -> denotes i d -> node_means (RLit b (RType i)) (Lit v None (Some d)).
  Inductive line_means : rstmt -> stmt -> Prop :=
  | lm_triple : forall s p o s' p' o', node_means s s' -> node_means p p' -> node_means o o' -> line_means (RSt s p o None) (Tr s' p' o')
  | lm_quad : forall s p o g s' p' o' g', node_means s s' -> node_means p p' -> node_means o o' -> node_means g g' ->
      line_means (RSt s p o (Some g)) (Qd s' p' o' (Some g')).
End Means.
Definition node_labels (x : rterm) : list str := match x with RBn l => [l] | _ => [] end.
Definition line_labels (x : rstmt) : list str :=
  node_labels (r_s x) ++ node_labels (r_p x) ++ node_labels (r_o x) ++ match r_g x with Some g => node_labels g | None => [] end.
Definition labels_of (l : list rstmt) : list str := concat (map line_labels l).
(** the labels of a document get blank nodes of their own, from [n] on and below [n'] *)
Definition fresh_labels (n n' : N) (l : list rstmt) (L : str -> N) : Prop :=
  (forall x, In x (labels_of l) -> n <= L x < n') /\ (forall x y, In x (labels_of l) -> In y (labels_of l) -> L x = L y -> x = y).

(** ** the same document as a Turtle document *)
Definition turtle_node (x : rterm) : tobj :=
  match x with
  | RIri i => TIri (TRef i)
  | RBn l => TLabel l
  | RLit b RPlain => TLit (TStr b SfNone)
  | RLit b (RLang l) => TLit (TStr b (SfLang l))
  | RLit b (RType i) => TLit (TStr b (SfType (TRef i)))
  end.
Definition turtle_verb (x : rterm) : tverb := match x with RIri i => VIri (TRef i) | _ => VA end.
Definition turtle_line (x : rstmt) : tstmt :=
  STriples (turtle_node (r_s x)) (PCons (turtle_verb (r_p x)) (OCons (turtle_node (r_o x)) ONil) PNil).
(** the IRIs of a term, of a triple *)
Definition term_iris (t : term) : list str := match t with Iri i => [i] | Lit _ _ (Some d) => [d] | _ => [] end.
Definition stmt_iris (t : stmt) : list str := term_iris (st_s t) ++ term_iris (st_p t) ++ term_iris (st_o t).
(** in Turtle a plain literal is an xsd:string *)
Definition plain_as_string (t : term) : term := match t with Lit v None None => Lit v None (Some (xsd_iri "string")) | _ => t end.
(** language tags as in W3C Turtle *)
Definition turtle_tags (t : stmt) : Prop := match st_o t with Lit _ (Some (c :: r)) _ => lang_tag (c :: r) | _ => True end.
