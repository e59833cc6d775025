(** Specification side of C104. *)
From Verif Require Import Model.Py Model.Terms Spec.CodecSpec.
Open Scope N_scope.

(** ** String literals of Python (The Python Language Reference, 2.4.1): the escapes of
    quotation marks, the backslash, tab, line feed, carriage return and of numbers *)
Inductive py_escape : char -> char -> Prop :=
| pe_bs : py_escape 92 92 | pe_sq : py_escape 39 39 | pe_dq : py_escape 34 34
| pe_t : py_escape 116 9 | pe_n : py_escape 110 10 | pe_r : py_escape 114 13.
(** [lit_body q text v rest]: [text] is the body of a literal in quotation marks [q] with
    the value [v], its closing mark and then [rest] *)
Inductive lit_body (q : char) : str -> str -> str -> Prop :=
| lb_end : forall r, lit_body q (q :: r) [] r
| lb_char : forall c s v r, c <> q -> c <> 92 -> c <> 10 -> c <> 13 -> lit_body q s v r -> lit_body q (c :: s) (c :: v) r
| lb_esc : forall k c s v r, py_escape k c -> lit_body q s v r -> lit_body q (92 :: k :: s) (c :: v) r
| lb_x : forall h c s v r, length h = 2%nat -> hexnum h c -> lit_body q s v r -> lit_body q (92 :: 120 :: h ++ s) (c :: v) r
| lb_u : forall h c s v r, length h = 4%nat -> hexnum h c -> lit_body q s v r -> lit_body q (92 :: 117 :: h ++ s) (c :: v) r
| lb_U : forall h c s v r, length h = 8%nat -> hexnum h c -> c <= 0x10FFFF -> lit_body q s v r -> lit_body q (92 :: 85 :: h ++ s) (c :: v) r.
(** [py_literal text v rest]: [text] starts with a string literal of value [v] *)
Definition py_literal (text v rest : str) : Prop := exists q s, (q = 39 \/ q = 34) /\ text = q :: s /\ lit_body q s v rest.

(** ** Terms that look alike *)
Definition texts_of (t : term) : list str :=
  match t with Iri s => [s] | BNode _ => [] | Lit v l d => v :: (match l with Some l => [l] | None => [] end) ++ (match d with Some d => [d] | None => [] end) end.
Definition iris_of (t : term) : list str :=
  match t with Iri s => [s] | Lit _ _ (Some d) => [d] | _ => [] end.
Definition alike_iri (a b : option str) : Prop :=
  match a, b with Some a, Some b => quoted a = quoted b | None, None => True | _, _ => False end.
Definition alike (a b : term) : Prop :=
  match a, b with
  | Iri s, Iri t => quoted s = quoted t
  | BNode _, BNode _ => True
  | Lit v l d, Lit w m e => v = w /\ l = m /\ alike_iri d e
  | _, _ => False
  end.
Definition alike_graph (a b : option oterm) : Prop :=
  match a, b with
  | None, None => True
  | Some (Some a), Some (Some b) => alike a b
  | Some None, Some None => True
  | _, _ => False
  end.
Definition alike_stmt (a b : stmt) : Prop :=
  alike (st_s a) (st_s b) /\ alike (st_p a) (st_p b) /\ alike (st_o a) (st_o b) /\ alike_graph (st_graph a) (st_graph b).
Definition terms_of (t : stmt) : list term :=
  [st_s t; st_p t; st_o t] ++ match st_graph t with Some (Some g) => [g] | _ => [] end.
(** texts of Python strings; IRIs that can be encoded *)
Definition py_term (t : term) : Prop := Forall py_str (texts_of t).
Definition encodable (t : term) : Prop := Forall (Forall (fun c => ~ surrogate c)) (iris_of t).
