(** Specification side of C25-C34: which triples N-Triples can carry, what they
    come back as, language tags, renaming of blank nodes. *)
From Verif Require Import Model.Py Model.Terms Spec.CodecSpec.
Open Scope N_scope.

Definition ascii_letter (c : char) : bool := (65 <=? c) && (c <=? 90) || (97 <=? c) && (c <=? 122).
(** the language tags the grammar accepts: letters, then subtags of letters, 0, 9 and _ *)
Definition tag_first (t : str) : Prop := t <> [] /\ Forall (fun c => ascii_letter c = true) t.
Definition tag_later (t : str) : Prop :=
  t <> [] /\ Forall (fun c => ascii_letter c = true \/ c = 48 \/ c = 57 \/ c = 95) t.
Definition langtag_ok (l : str) : Prop :=
  exists t0 ts, l = t0 ++ concat (map (cons 45) ts) /\ tag_first t0 /\ Forall tag_later ts.

Definition clean_iri (s : str) : Prop := py_str s /\ Forall (fun c => ~ surrogate c) s.

Definition has_lang (l : option str) : Prop := match l with Some (_ :: _) => True | _ => False end.
(** terms N-Triples output can carry, by position *)
Definition nt_subject (t : term) : Prop :=
  match t with Iri s => clean_iri s | BNode _ => True | Lit _ _ _ => False end.
Definition nt_predicate (t : term) : Prop := match t with Iri s => clean_iri s | _ => False end.
Definition nt_object (t : term) : Prop :=
  match t with
  | Iri s => clean_iri s
  | BNode _ => True
  | Lit v l d =>
      py_str v /\
      (forall x, l = Some x -> x <> [] -> langtag_ok x) /\
      (forall x, d = Some x -> ~ has_lang l -> clean_iri x)
  end.
Definition nt_triple (t : stmt) : Prop :=
  nt_subject (st_s t) /\ nt_predicate (st_p t) /\ nt_object (st_o t) /\ st_graph t = None.

(** what a term comes back as *)
Definition undropped (v : str) : str := filter (fun c => negb (droppedb c)) v.
Definition nt_image (t : term) : term :=
  match t with
  | Iri s => Iri (quoted s)
  | BNode a => BNode a
  | Lit v (Some (c :: r)) _ => Lit (undropped v) (Some (c :: r)) None
  | Lit v _ (Some (c :: r)) => Lit (undropped v) None (Some (quoted (c :: r)))
  | Lit v _ _ => Lit (undropped v) None None
  end.
Definition on_terms (f : term -> term) (t : stmt) : stmt :=
  St (f (st_s t)) (f (st_p t)) (f (st_o t)) (match st_graph t with Some (Some g) => Some (Some (f g)) | g => g end).

(** triples that come back unchanged *)
Definition stable_term (t : term) : Prop :=
  match t with
  | Iri s => Forall (fun c => uri_char c = true) s
  | BNode _ => True
  | Lit v l d => Forall (fun c => ~ dropped c) v /\
      (l = None \/ exists c r, l = Some (c :: r) /\ d = None) /\
      (d = None \/ exists c r, d = Some (c :: r) /\ Forall (fun c => uri_char c = true) (c :: r))
  end.

Definition rename (f : N -> N) (t : term) : term := match t with BNode a => BNode (f a) | x => x end.
Definition bnodes_of (t : stmt) : list N :=
  concat (map (fun x => match x with BNode a => [a] | _ => [] end) [st_s t; st_p t; st_o t]).
Definition injective_on (f : N -> N) (l : list N) : Prop := forall a b, In a l -> In b l -> f a = f b -> a = b.

(** what may follow a blank node label without being part of it: a blank, the end of the
    text, or a dot that is not followed by more of the label *)
Definition ends_label (r : str) : Prop :=
  (exists r', r = 32 :: r') \/ r = [] \/ r = [46] \/ exists c r', r = 46 :: c :: r' /\ In c [32; 9; 10; 13].

(** lines, each ended by LF *)
Definition lf (s : str) : str := s ++ [10].
Definition text (ss : list str) : str := concat (map lf ss).
(** triples that come back unchanged; what a triple comes back as under a renaming *)
Definition stable (t : stmt) : Prop := stable_term (st_s t) /\ stable_term (st_p t) /\ stable_term (st_o t).
Definition back (f : N -> N) (t : stmt) : stmt := on_terms (rename f) (on_terms nt_image t).
Definition fresh_for (n n' : N) (f : N -> N) (l : list N) : Prop := forall a, In a l -> n <= f a < n'.
(** an all-IRI document; the characters that may stand between < and >; deleting the blanks *)
Definition iri_doc (a b c : str) : str :=
  60 :: a ++ 62 :: 32 :: 60 :: b ++ 62 :: 32 :: 60 :: c ++ 62 :: 32 :: 46 :: [10].
Definition iri_blank (c : char) : Prop := c = 32 \/ c = 9 \/ (32 < c /\ ~ In c (s2l "<>""{}|^`\")).
Definition no_blanks (s : str) : str := filter (fun c => negb ((c =? 32) || (c =? 9))) s.
(** languages of a parsed triple are tags the grammar accepts *)
Definition lang_accepted (t : term) : Prop := match t with Lit _ (Some l) _ => langtag_ok l | _ => True end.
Definition langs_accepted (t : stmt) : Prop := lang_accepted (st_s t) /\ lang_accepted (st_p t) /\ lang_accepted (st_o t).
(** letters, digits and hyphens: what language tags are made of *)
Definition tag_char (c : char) : Prop := ascii_letter c = true \/ 48 <= c <= 57 \/ c = 45.
(** an argument of match that is None or the given term *)
Definition argof (x : term) (a : oterm) : Prop := a = None \/ a = Some x.

(** no line end inside; only blanks; a line that is neither empty nor blank *)
Definition one_line (s : str) : Prop := Forall (fun c => c <> 10 /\ c <> 13) s.
Definition all_blank (s : str) : Prop := Forall (fun c => c = 32 \/ c = 9) s.
Definition proper_line (s : str) : Prop := one_line s /\ ~ all_blank s.
(** literals whose language contains no line end *)
Definition lang_one_line (t : term) : Prop := match t with Lit _ (Some l) _ => one_line l | _ => True end.
Definition nonempty (l : str) : bool := match l with [] => false | _ => true end.
(** a quad named by an IRI ([q]), or a triple *)
Definition graph_kind (q : bool) (t : stmt) : Prop :=
  if q then exists i, st_graph t = Some (Some (Iri i)) else st_graph t = None.

(** ** What str() of an IRI or a literal is (C33): the bare text *)
Inductive raw_text : term -> str -> Prop :=
| raw_iri : forall s, raw_text (Iri s) s
| raw_lit : forall v l d, raw_text (Lit v l d) v.
Inductive raw_line : stmt -> str -> Prop :=
| raw_quad : forall s p o g a b c d, raw_text s a -> raw_text p b -> raw_text o c -> raw_text g d ->
    raw_line (Qd s p o (Some g)) (a ++ [32] ++ b ++ [32] ++ c ++ [32] ++ d ++ [32; 46; 10])
| raw_default : forall s p o a b c, raw_text s a -> raw_text p b -> raw_text o c ->
    raw_line (Qd s p o None) (a ++ [32] ++ b ++ [32] ++ c ++ [32] ++ s2l "None" ++ [32; 46; 10]).

(** there is an escape in [s] that stands for no character *)
Definition big_escape (s : str) : Prop :=
  exists a h b n, s = a ++ 92 :: 85 :: h ++ b /\ length h = 8%nat /\ hexnum h n /\ 0x10FFFF < n.
(** what a call that fails on [s] may raise *)
Definition error_of (s : str) (e : exn) : Prop := e = LarkError \/ (e = ValueError \/ e = OverflowError) /\ big_escape s.
