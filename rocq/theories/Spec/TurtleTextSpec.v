(** Specification side of C45-C48 and C79-C84: the concrete syntax of Turtle (W3C RDF 1.1
    Turtle, section 6.5) as relations between parse trees and texts, in two
    readings.  The loose one is the grammar itself: token texts one after the
    other, with white space and comments between any two of them, and nothing
    said about how the text splits into tokens.  The strict one requires white
    space where two tokens might otherwise run into each other. *)
From Verif Require Import Model.Py Model.TurtleTree Spec.CodecSpec Spec.TurtleSpec.
Open Scope N_scope.

Definition between (a b c : N) : Prop := a <= c <= b.
Definition digit10 (c : char) : Prop := between 48 57 c.
Definition letter (c : char) : Prop := between 65 90 c \/ between 97 122 c.
Definition pn_base (c : char) : Prop :=
  letter c \/ between 0xC0 0xD6 c \/ between 0xD8 0xF6 c \/ between 0xF8 0x2FF c \/ between 0x370 0x37D c \/
  between 0x37F 0x1FFF c \/ between 0x200C 0x200D c \/ between 0x2070 0x218F c \/ between 0x2C00 0x2FEF c \/
  between 0x3001 0xD7FF c \/ between 0xF900 0xFDCF c \/ between 0xFDF0 0xFFFD c \/ between 0x10000 0xEFFFF c.
Definition pn_u (c : char) : Prop := pn_base c \/ c = 95.
Definition pn_char (c : char) : Prop :=
  pn_u c \/ c = 45 \/ digit10 c \/ c = 0xB7 \/ between 0x300 0x36F c \/ between 0x203F 0x2040 c.
Definition ws (c : char) : Prop := c = 32 \/ c = 9 \/ c = 13 \/ c = 10.
Definition ws0 (s : str) : Prop := Forall ws s.
(** white space and comments; at the end of a document a comment needs no newline *)
Inductive gap : str -> Prop :=
| gap_nil : gap []
| gap_ws : forall c s, ws c -> gap s -> gap (c :: s)
| gap_comment : forall x s, ~ In 10 x -> gap s -> gap (35 :: x ++ 10 :: s).
Definition last_gap (s : str) : Prop := gap s \/ exists a x, s = a ++ 35 :: x /\ gap a /\ ~ In 10 x.
(** what may stand between a token and the text [t]; [t] may follow directly if it
    starts with a bracket *)
Definition apart (strict : bool) (w t : str) : Prop :=
  gap w /\ (strict = true -> w <> [] \/ exists c r, t = c :: r /\ In c [60; 40; 91]).
(** what may follow a full stop that itself follows a token directly *)
Definition stops (k : str) : Prop := k = [] \/ exists c r, k = c :: r /\ (ws c \/ In c [35; 60; 40; 91; 64]).
(** a keyword in any case; loosely also with the letters re takes for the same *)
Definition any_case (strict : bool) (k c : char) : Prop :=
  c = k \/ c = k + 32 \/ strict = false /\ (k = 83 /\ c = 0x17F \/ k = 73 /\ (c = 0x130 \/ c = 0x131)).

(** PN_PREFIX or nothing; PN_LOCAL or nothing *)
Definition pn_prefix (s : str) : Prop :=
  s = [] \/ exists c r, s = c :: r /\ pn_base c /\ Forall (fun x => pn_char x \/ x = 46) r /\ ~ ends_in 46 r.
Inductive plx : str -> Prop :=
| plx_percent : forall a b, hexdigit a = true -> hexdigit b = true -> plx [37; a; b]
| plx_esc : forall c, local_esc c -> plx [92; c].
Inductive local_rest : str -> Prop :=
| lr_nil : local_rest []
| lr_char : forall c r, pn_char c \/ c = 58 -> local_rest r -> local_rest (c :: r)
| lr_dot : forall r, r <> [] -> local_rest r -> local_rest (46 :: r)
| lr_plx : forall x r, plx x -> local_rest r -> local_rest (x ++ r).
Inductive pn_local : str -> Prop :=
| pl_nil : pn_local []
| pl_char : forall c r, pn_u c \/ c = 58 \/ digit10 c -> local_rest r -> pn_local (c :: r)
| pl_plx : forall x r, plx x -> local_rest r -> pn_local (x ++ r).

(** bodies of strings and of IRIREFs: plain characters [ok], ECHAR if [e], UCHAR *)
Inductive unit1 (ok : char -> Prop) (e : bool) : str -> Prop :=
| un_char : forall c, ok c -> c <> 92 -> unit1 ok e [c]
| un_echar : forall k c, e = true -> echar k c -> unit1 ok e [92; k]
| un_u : forall h, length h = 4%nat -> Forall (fun c => hexdigit c = true) h -> unit1 ok e (92 :: 117 :: h)
| un_U : forall h, length h = 8%nat -> Forall (fun c => hexdigit c = true) h -> unit1 ok e (92 :: 85 :: h).
Inductive units (ok : char -> Prop) (e : bool) : str -> Prop :=
| us_nil : units ok e []
| us_cons : forall u s, unit1 ok e u -> units ok e s -> units ok e (u ++ s).
(** in a long string up to two quotes may come before each unit *)
Inductive long_units (q : char) : str -> Prop :=
| lu_nil : long_units q []
| lu_cons : forall x u s, x = [] \/ x = [q] \/ x = [q; q] -> unit1 (fun c => c <> q) true u -> long_units q s -> long_units q (x ++ u ++ s).
Inductive string_text : str -> str -> Prop :=
| st_short : forall q body, q = 34 \/ q = 39 -> units (fun c => c <> q /\ c <> 10 /\ c <> 13) true body ->
    string_text body ([q] ++ body ++ [q])
| st_long : forall q body, q = 34 \/ q = 39 -> long_units q body -> string_text body ([q; q; q] ++ body ++ [q; q; q]).

Inductive iri_text : tiri -> str -> Prop :=
| it_ref : forall body, units (fun c => ~ iri_illegal c) false body -> iri_text (TRef body) ([60] ++ body ++ [62])
| it_pn : forall ns ln, pn_prefix ns -> pn_local ln -> iri_text (TPn (ns ++ 58 :: ln)) (ns ++ 58 :: ln).

Definition sign (s : str) : Prop := s = [] \/ s = [43] \/ s = [45].
Definition digits (s : str) : Prop := Forall digit10 s.
Definition exponent (s : str) : Prop := exists c sg d, s = c :: sg ++ d /\ (c = 101 \/ c = 69) /\ sign sg /\ digits d /\ d <> [].
Definition num_text (k : tnum) (s : str) : Prop :=
  match k with
  | NInteger => exists sg d, s = sg ++ d /\ sign sg /\ digits d /\ d <> []
  | NDecimal => exists sg d f, s = sg ++ d ++ [46] ++ f /\ sign sg /\ digits d /\ digits f /\ f <> []
  | NDouble => exists sg m x, s = sg ++ m ++ x /\ sign sg /\ exponent x /\
      ((exists d f, m = d ++ [46] ++ f /\ digits d /\ digits f /\ (d <> [] \/ f <> [])) \/ (digits m /\ m <> []))
  end.
(** the part of LANGTAG after the at sign *)
Definition alnum (c : char) : Prop := letter c \/ digit10 c.
Inductive subtags : str -> Prop :=
| sub_nil : subtags []
| sub_cons : forall s r, Forall alnum s -> s <> [] -> subtags r -> subtags (45 :: s ++ r).
Definition lang_tag (t : str) : Prop := exists a r, t = a ++ r /\ Forall letter a /\ a <> [] /\ subtags r.

(** [g]: what may stand between the parts of a literal *)
Inductive lit_text (g : str -> Prop) : tlit -> str -> Prop :=
| lt_plain : forall body s, string_text body s -> lit_text g (TStr body SfNone) s
| lt_lang : forall body s w tag, string_text body s -> g w -> lang_tag tag -> lit_text g (TStr body (SfLang tag)) (s ++ w ++ [64] ++ tag)
| lt_type : forall body s w w' i t, string_text body s -> g w -> g w' -> iri_text i t ->
    lit_text g (TStr body (SfType i)) (s ++ w ++ [94; 94] ++ w' ++ t)
| lt_num : forall k s, num_text k s -> lit_text g (TNum k s) s
| lt_bool : forall s, s = s2l "true" \/ s = s2l "false" -> lit_text g (TBool s) s.

Inductive verb_text : tverb -> str -> Prop :=
| vt_a : verb_text VA [97]
| vt_iri : forall i s, iri_text i s -> verb_text (VIri i) s.

Definition label (s : str) : Prop :=
  exists c r, s = [95; 58] ++ c :: r /\ (pn_u c \/ digit10 c) /\ Forall (fun x => pn_char x \/ x = 46) r /\ ~ ends_in 46 r.

(** one or more semicolons *)
Inductive semis : str -> Prop :=
| sm_one : forall w w', gap w -> gap w' -> semis (w ++ [59] ++ w')
| sm_cons : forall w m, gap w -> semis m -> semis (w ++ [59] ++ m).

Section Texts.
Variable strict : bool.
Inductive obj_text : tobj -> str -> Prop :=
| ot_iri : forall i s, iri_text i s -> obj_text (TIri i) s
| ot_label : forall s, label s -> obj_text (TLabel s) s
| ot_anon : forall w, ws0 w -> obj_text TAnon ([91] ++ w ++ [93])
| ot_coll : forall l w s, gap w -> items_text l s -> obj_text (TColl l) ([40] ++ w ++ s ++ [41])
| ot_props : forall p w s w', gap w -> pol_text p s -> gap w' -> obj_text (TProps p) ([91] ++ w ++ s ++ w' ++ [93])
| ot_lit : forall x s, lit_text gap x s -> obj_text (TLit x) s
(** the members of a collection *)
with items_text : tobjs -> str -> Prop :=
| its_nil : items_text ONil []
| its_last : forall o s w, obj_text o s -> gap w -> items_text (OCons o ONil) (s ++ w)
| its_cons : forall o s w r t, obj_text o s -> apart strict w t -> items_text r t -> r <> ONil -> items_text (OCons o r) (s ++ w ++ t)
(** objects separated by commas *)
with objs_text : tobjs -> str -> Prop :=
| os_one : forall o s, obj_text o s -> objs_text (OCons o ONil) s
| os_cons : forall o s w w' r t, obj_text o s -> gap w -> gap w' -> objs_text r t -> objs_text (OCons o r) (s ++ w ++ [44] ++ w' ++ t)
(** predicateObjectList: verb objectList (';' (verb objectList)?)* *)
with pol_text : tpol -> str -> Prop :=
| pt_one : forall v s w os t, verb_text v s -> apart strict w t -> objs_text os t -> pol_text (PCons v os PNil) (s ++ w ++ t)
| pt_semi : forall p s w, pol_text p s -> gap w -> pol_text p (s ++ w ++ [59])
| pt_cons : forall v s w os t m p t2, verb_text v s -> apart strict w t -> objs_text os t -> semis m -> pol_text p t2 ->
    pol_text (PCons v os p) (s ++ w ++ t ++ m ++ t2).

Definition subject_form (o : tobj) : Prop := match o with TLit _ => False | _ => True end.
(** a statement; the full stop of a [tight] one follows a token directly *)
Inductive stmt_text : tstmt -> bool -> str -> Prop :=
| sx_prefix : forall ns w1 w2 body w3, pn_prefix ns -> gap w1 -> (strict = true -> w1 <> []) -> gap w2 -> iri_text (TRef body) ([60] ++ body ++ [62]) -> gap w3 ->
    stmt_text (SPrefix ns body) false (s2l "@prefix" ++ w1 ++ ns ++ [58] ++ w2 ++ [60] ++ body ++ [62] ++ w3 ++ [46])
| sx_base : forall w1 body w3, gap w1 -> iri_text (TRef body) ([60] ++ body ++ [62]) -> gap w3 ->
    stmt_text (SBase body) false (s2l "@base" ++ w1 ++ [60] ++ body ++ [62] ++ w3 ++ [46])
| sx_sparql_prefix : forall k ns w1 w2 body, Forall2 (any_case strict) (s2l "PREFIX") k ->
    pn_prefix ns -> gap w1 -> (strict = true -> w1 <> []) -> gap w2 -> iri_text (TRef body) ([60] ++ body ++ [62]) ->
    stmt_text (SPrefix ns body) false (k ++ w1 ++ ns ++ [58] ++ w2 ++ [60] ++ body ++ [62])
| sx_sparql_base : forall k w1 body, Forall2 (any_case strict) (s2l "BASE") k -> gap w1 -> iri_text (TRef body) ([60] ++ body ++ [62]) ->
    stmt_text (SBase body) false (k ++ w1 ++ [60] ++ body ++ [62])
| sx_triples : forall s t w p t2 w2 tight, subject_form s -> obj_text s t -> apart strict w t2 -> pol_text p t2 -> gap w2 ->
    (strict = true -> w2 <> [] \/ tight = true) -> stmt_text (STriples s p) tight (t ++ w ++ t2 ++ w2 ++ [46])
| sx_props : forall q t w2, obj_text (TProps q) t -> gap w2 -> stmt_text (STriples (TProps q) PNil) false (t ++ w2 ++ [46]).
Inductive doc_text : list tstmt -> str -> Prop :=
| dx_nil : forall w, last_gap w -> doc_text [] w
| dx_first : forall x tight s r t, stmt_text x tight s -> doc_text r t -> (strict = true -> tight = true -> stops t) -> doc_text (x :: r) (s ++ t)
| dx_gap : forall w d t, gap w -> doc_text d t -> doc_text d (w ++ t).
End Texts.
Scheme obj_text_i := Minimality for obj_text Sort Prop
  with items_text_i := Minimality for items_text Sort Prop
  with objs_text_i := Minimality for objs_text Sort Prop
  with pol_text_i := Minimality for pol_text Sort Prop.

(** a newline written as an escape with a code point (see C52) *)
Definition newline_escape (s : str) : Prop :=
  exists a k h b, s = a ++ 92 :: k :: h ++ b /\ hexnum h 10 /\ (k = 117 /\ length h = 4%nat \/ k = 85 /\ length h = 8%nat).

(** a quoted string and its value *)
Definition reads_string (text value : str) : Prop := exists body, string_text body text /\ denotes body value.
(** a literal token sequence *)
Definition reads_literal (text : str) : Prop := exists x, lit_text ws0 x text.

(** what turtle_string_escape does to the characters (C45): a letter of ECHAR after
    a backslash is replaced by the control character it names *)
Definition raw_of (c : char) : char :=
  if c =? 116 then 9 else if c =? 98 then 8 else if c =? 110 then 10 else if c =? 114 then 13 else if c =? 102 then 12 else c.
Fixpoint raw_after_backslash (b : bool) (s : str) : str :=
  match s with [] => [] | c :: r => (if b then raw_of c else c) :: raw_after_backslash (c =? 92) r end.
(** characters a short quoted string can hold as they are *)
Definition plain_char (c : char) : Prop := c <> 34 /\ c <> 92 /\ c <> 10 /\ c <> 13.
