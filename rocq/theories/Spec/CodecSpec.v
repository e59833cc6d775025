(** Specification side of C16-C24: what texts with escapes denote, UTF-8 as bit
    patterns, what octets an IRI text stands for.  Nothing here refers to the model. *)
From Verif Require Import Model.Py.
Open Scope N_scope.

(** a Python str: code points up to U+10FFFF *)
Definition py_str (s : str) : Prop := Forall (fun c => c <= 0x10FFFF) s.

Definition surrogate (c : char) : Prop := 0xD800 <= c <= 0xDFFF.

(** the characters N-Triples output drops *)
Definition dropped (c : char) : Prop := c < 0x20 /\ c <> 9 /\ c <> 10 /\ c <> 13.
Definition droppedb (c : char) : bool := (c <? 0x20) && negb (c =? 9) && negb (c =? 10) && negb (c =? 13).

Definition printable_ascii (c : char) : Prop := 0x20 <= c <= 0x7E.

(** hexadecimal digits and their value *)
Inductive digit : char -> N -> Prop :=
| dig_09 : forall n, n <= 9 -> digit (48 + n) n
| dig_AF : forall n, 10 <= n <= 15 -> digit (65 + (n - 10)) n
| dig_af : forall n, 10 <= n <= 15 -> digit (97 + (n - 10)) n.
(** [hexnum ds n]: the digits [ds] denote [n] *)
Inductive hexnum : str -> N -> Prop :=
| hn_nil : hexnum [] 0
| hn_snoc : forall ds d n v, hexnum ds n -> digit d v -> hexnum (ds ++ [d]) (16 * n + v).

(** [denotes text value]: what a string-literal body denotes (N-Triples/Turtle
    productions ECHAR and UCHAR) *)
Inductive echar : char -> char -> Prop :=
| e_t : echar 116 9 | e_b : echar 98 8 | e_n : echar 110 10 | e_r : echar 114 13 | e_f : echar 102 12
| e_dq : echar 34 34 | e_sq : echar 39 39 | e_bs : echar 92 92.
Inductive denotes : str -> str -> Prop :=
| den_nil : denotes [] []
| den_char : forall c s v, c <> 92 -> denotes s v -> denotes (c :: s) (c :: v)
| den_echar : forall k c s v, echar k c -> denotes s v -> denotes (92 :: k :: s) (c :: v)
| den_u : forall h c s v, length h = 4%nat -> hexnum h c -> denotes s v -> denotes (92 :: 117 :: h ++ s) (c :: v)
| den_U : forall h c s v, length h = 8%nat -> hexnum h c -> c <= 0x10FFFF -> denotes s v ->
    denotes (92 :: 85 :: h ++ s) (c :: v).

(** ** UTF-8, RFC 3629, with bit operations *)
Definition low6 (c : N) (sh : N) : N := N.lor 0x80 (N.land (N.shiftr c sh) 0x3F).
Definition utf8 (c : char) : list N :=
  if c <? 0x80 then [c]
  else if c <? 0x800 then [N.lor 0xC0 (N.shiftr c 6); low6 c 0]
  else if c <? 0x10000 then [N.lor 0xE0 (N.shiftr c 12); low6 c 6; low6 c 0]
  else [N.lor 0xF0 (N.shiftr c 18); low6 c 12; low6 c 6; low6 c 0].
Definition utf8_text (s : str) : list N := concat (map utf8 s).

(** ** Percent escapes *)
Definition hexdigit (c : char) : bool :=
  (48 <=? c) && (c <=? 57) || (65 <=? c) && (c <=? 70) || (97 <=? c) && (c <=? 102).
Definition hexdigit_val (c : char) : N := if c <=? 57 then c - 48 else if c <=? 70 then c - 55 else c - 87.

(** octets an IRI text stands for: %XX is an octet, anything else its UTF-8 *)
Fixpoint octets (s : str) : list N :=
  match s with
  | [] => []
  | c :: r =>
      match r with
      | a :: b :: r' =>
          if (c =? 37) && hexdigit a && hexdigit b
          then 16 * hexdigit_val a + hexdigit_val b :: octets r'
          else utf8 c ++ octets r
      | _ => utf8 c ++ octets r
      end
  end.

(** every % starts an escape *)
Definition pct_wf (s : str) : Prop :=
  forall a b, s = a ++ 37 :: b -> exists x y r, b = x :: y :: r /\ hexdigit x = true /\ hexdigit y = true.

(** [esc e v]: [e] is the escape of the octet [v] *)
Definition esc (e : str) (v : N) : Prop :=
  exists x y, e = [37; x; y] /\ hexdigit x = true /\ hexdigit y = true /\ v = 16 * hexdigit_val x + hexdigit_val y.
(** a sequence of escapes of octets above 20 (the ones normalisation decodes) *)
Inductive esc_seq : str -> list N -> Prop :=
| es_nil : esc_seq [] []
| es_cons : forall e v m vs, esc e v -> 0x20 < v -> esc_seq m vs -> esc_seq (e ++ m) (v :: vs).
(** a maximal such run inside [s] *)
Definition esc_run (s : str) (vs : list N) : Prop :=
  exists a m b, s = a ++ m ++ b /\ m <> [] /\ esc_seq m vs /\
    (forall a' e v, a = a' ++ e -> esc e v -> v <= 0x20) /\
    (forall b' e v, b = e ++ b' -> esc e v -> v <= 0x20).

(** characters of a URI (RFC 3986: unreserved and reserved) and the percent sign *)
Definition uri_char (c : char) : bool :=
  existsb (N.eqb c) (s2l "ABCDEFGHIJKLMNOPQRSTUVWXYZabcdefghijklmnopqrstuvwxyz0123456789-._~:/?#[]@!$&'()*+,;=%").

(** what quoting makes of one character: a URI character or the escapes of its octets *)
Definition upper (n : N) : char := nth (N.to_nat n) (s2l "0123456789ABCDEF") 0.
Definition pct_of (v : N) : str := [37; upper (v / 16); upper (v mod 16)].
Definition quoted (s : str) : str :=
  concat (map (fun c => if uri_char c then [c] else concat (map pct_of (utf8 c))) s).
