(** Specification of the EBNF notation that scripts/bnf2html reads (C107-C110): tokens and how
    they are spelled, and the grammar of expressions over tokens. *)
From Verif Require Import Model.Py Model.Bnf.

Definition blank (c : char) : Prop := In c [9; 10; 11; 12; 13; 32]%N.
Definition blanks (w : str) : Prop := forall c, In c w -> blank c.
Definition letter (c : char) : Prop := (65 <= c <= 90 \/ 97 <= c <= 122)%N.
Definition word_char (c : char) : Prop := letter c \/ (48 <= c <= 57 \/ c = 95)%N.

(** a token and its text; the text of a literal stands between quotes of one of the two kinds *)
Inductive tok_text : btok -> str -> Prop :=
| tt_single l : ~ In 39%N l -> tok_text (BLit l) (39%N :: l ++ [39%N])
| tt_double l : ~ In 34%N l -> tok_text (BLit l) (34%N :: l ++ [34%N])
| tt_set l : ~ In 93%N l -> tok_text (BSet l) (91%N :: l ++ [93%N])
| tt_hash x : x <> [] -> (forall c, In c x -> word_char c) -> tok_text (BHash (35%N :: x)) (35%N :: x)
| tt_id c x : letter c -> (forall d, In d x -> word_char d) -> tok_text (BId (c :: x)) (c :: x)
| tt_at x : x <> [] -> (forall c, In c x -> word_char c) -> tok_text (BAt x) (64%N :: x)
| tt_punct c : In c [40; 63; 41; 42; 43; 124; 45]%N -> tok_text (BPunct c) [c].
(** names end where no word character follows *)
Definition open_ended (t : btok) : Prop := match t with BId _ | BHash _ | BAt _ => True | _ => False end.
Inductive spelled : list btok -> str -> Prop :=
| sp_nil : spelled [] []
| sp_cons w t x ts s : blanks w -> tok_text t x -> spelled ts s ->
    (open_ended t -> match s with c :: _ => ~ word_char c | [] => True end) -> spelled (t :: ts) (w ++ x ++ s).
(** [s] is a text of the tokens [ts], with blanks between the tokens and at both ends *)
Definition Spelled (ts : list btok) (s : str) : Prop :=
  exists s0 w, s = s0 ++ w /\ blanks w /\ spelled ts s0 /\ (ts = [] -> w = []).

(** ** The notation: primary, postfix, difference, sequence, alternatives *)
Inductive atom : expr -> btok -> Prop :=
| at_id x : atom (EId x) (BId x)
| at_lit l : atom (ELit l) (BLit l)
| at_set l : atom (ESet l) (BSet l)
| at_hash x : atom (EHash x) (BHash x).
Inductive g_prim : expr -> list btok -> Prop :=
| gp_atom e t : atom e t -> g_prim e [t]
| gp_group e ts : g_alt e ts -> g_prim e (BPunct 40 :: ts ++ [BPunct 41])
with g_post : expr -> list btok -> Prop :=
| go_prim e ts : g_prim e ts -> g_post e ts
| go_op c e ts : In c [63; 42; 43]%N -> g_prim e ts -> g_post (EPost c e) (ts ++ [BPunct c])
with g_diff : expr -> list btok -> Prop :=
| gd_post e ts : g_post e ts -> g_diff e ts
| gd_diff a b ts us : g_post a ts -> g_prim b us -> g_diff (EDiff a b) (ts ++ BPunct 45 :: us)
(** one or more differences in a row *)
with g_items : list expr -> list btok -> Prop :=
| gi_one e ts : g_diff e ts -> g_items [e] ts
| gi_more e l ts us : g_diff e ts -> g_items l us -> g_items (e :: l) (ts ++ us)
with g_seq : expr -> list btok -> Prop :=
| gs_one e ts : g_items [e] ts -> g_seq e ts
| gs_many a b l ts : g_items (a :: b :: l) ts -> g_seq (ESeq (a :: b :: l)) ts
(** further alternatives, each after a bar *)
with g_bars : list expr -> list btok -> Prop :=
| gb_nil : g_bars [] []
| gb_cons e l ts us : g_seq e ts -> g_bars l us -> g_bars (e :: l) (BPunct 124 :: ts ++ us)
(** the first alternative may be empty: the empty sequence *)
with g_alt : expr -> list btok -> Prop :=
| ga_one e ts : g_seq e ts -> g_alt e ts
| ga_empty : g_alt (ESeq []) []
| ga_many e b l ts us : g_seq e ts -> g_bars (b :: l) us -> g_alt (EAlt (e :: b :: l)) (ts ++ us)
| ga_first_empty b l us : g_bars (b :: l) us -> g_alt (EAlt (ESeq [] :: b :: l)) us.

(** the trees that the notation can express: a sequence has not just one member, a choice at
    least two *)
Definition name_ok (x : str) : Prop := match x with c :: r => letter c /\ forall d, In d r -> word_char d | [] => False end.
Fixpoint writable (e : expr) : Prop :=
  match e with
  | EId x => name_ok x
  | ELit l => ~ In 39%N l \/ ~ In 34%N l
  | ESet l => ~ In 93%N l
  | EHash x => exists y, x = 35%N :: y /\ y <> [] /\ forall d, In d y -> word_char d
  | EPost c a => In c [63; 42; 43]%N /\ writable a
  | EDiff a b => writable a /\ writable b
  | ESeq l => length l <> 1 /\ (fix all l := match l with [] => True | x :: r => writable x /\ all r end) l
  | EAlt l => 2 <= length l /\ (fix all l := match l with [] => True | x :: r => writable x /\ all r end) l
  end.
(** the names, literals, character classes and operators of an expression, from left to right *)
Fixpoint marks (e : expr) : list btok :=
  match e with
  | EId x => [BId x] | ELit l => [BLit l] | ESet l => [BSet l] | EHash x => [BHash x]
  | EPost c a => marks a ++ [BPunct c]
  | EDiff a b => marks a ++ BPunct 45 :: marks b
  | ESeq l | EAlt l => flat_map marks l
  end.
(** parentheses and bars *)
Definition grouping (t : btok) : bool := match t with BPunct c => (c =? 40)%N || (c =? 41)%N || (c =? 124)%N | _ => false end.

(** ** Grammar files *)
(** [x] is the line without the white space around it *)
Definition stripped (l x : str) : Prop :=
  exists w w', l = w ++ x ++ w' /\ blanks w /\ blanks w' /\
    (x = [] \/ exists c y d z, x = c :: y /\ x = z ++ [d] /\ ~ blank c /\ ~ blank d).
Definition line_starts (p : string) (l : str) : Prop := exists r, l = s2l p ++ r.
Definition rule_line (l : str) : Prop := line_starts "[" l \/ line_starts "@" l.
Definition comment_line (l : str) : Prop := line_starts "/*" l.
(** the lines of a file and the rules in it; a rule is its first line and the lines after it,
    put together without the white space around them; comments may stand anywhere *)
Inductive rule_rest : list str -> str -> Prop :=
| rr_nil : rule_rest [] []
| rr_comment l ls r : comment_line l -> rule_rest ls r -> rule_rest (l :: ls) r
| rr_line l ls x r : ~ comment_line l -> ~ rule_line l -> stripped l x -> rule_rest ls r -> rule_rest (l :: ls) (x ++ r).
Inductive file_of : list str -> list str -> Prop :=
| fo_nil : file_of [] []
| fo_rule l x more r rs ls : rule_line l -> stripped l x -> rule_rest more r -> file_of rs ls -> file_of ((x ++ r) :: rs) (l :: more ++ ls).
(** a rule [num] sym ::= expression *)
Definition rule_text (num sym : str) (e : expr) (r : str) : Prop :=
  exists w1 w2 s ts, r = s2l "[" ++ num ++ s2l "]" ++ w1 ++ sym ++ w2 ++ s2l "::=" ++ s /\
    ~ In 93%N num /\ blanks w1 /\ blanks w2 /\ name_ok sym /\ g_alt e ts /\ ts <> [] /\ Spelled ts s.
Inductive entry := Terminals | Rule (num sym : str) (e : expr).
Definition entry_text (x : entry) (r : str) : Prop :=
  match x with Terminals => r = s2l "@terminals" | Rule num sym e => rule_text num sym e r end.
Definition entry_nums (es : list entry) : list str := flat_map (fun x => match x with Rule n _ _ => [n] | Terminals => [] end) es.
(** the rows: those after @terminals are marked *)
Inductive table (html : expr -> res str) : bool -> list entry -> list row -> Prop :=
| tb_nil b : table html b [] []
| tb_terminals b es rows : table html true es rows -> table html b (Terminals :: es) rows
| tb_rule b num sym e h es rows : html e = Ok h -> table html b es rows -> table html b (Rule num sym e :: es) ((num, sym, h, b) :: rows).

(** ** HTML *)
Inductive item := Tag (t : str) | Chr (c : char).
Inductive hmode := MText | MTag (acc : str) | MEnt (acc : str).
Definition entity (x : str) : option char :=
  if str_eq_dec x (s2l "amp") then Some 38%N else if str_eq_dec x (s2l "lt") then Some 60%N
  else if str_eq_dec x (s2l "gt") then Some 62%N else if str_eq_dec x (s2l "quot") then Some 34%N
  else if str_eq_dec x (s2l "#x27") then Some 39%N else None.
(** tags and characters of a piece of HTML; None if it is not well-formed *)
Fixpoint html_items (m : hmode) (s : str) : option (list item) :=
  match s with
  | [] => match m with MText => Some [] | _ => None end
  | c :: r =>
      match m with
      | MText => if (c =? 60)%N then html_items (MTag []) r
                 else if (c =? 38)%N then html_items (MEnt []) r
                 else if (c =? 62)%N then None
                 else option_map (cons (Chr c)) (html_items MText r)
      | MTag acc => if (c =? 62)%N then option_map (cons (Tag acc)) (html_items MText r)
                    else if (c =? 60)%N then None
                    else html_items (MTag (acc ++ [c])) r
      | MEnt acc => if (c =? 59)%N then
                      match entity acc with Some d => option_map (cons (Chr d)) (html_items MText r) | None => None end
                    else html_items (MEnt (acc ++ [c])) r
      end
  end.
Definition tags (l : list item) : list str := flat_map (fun x => match x with Tag t => [t] | Chr _ => [] end) l.
Definition shown_text (l : list item) : str := flat_map (fun x => match x with Tag _ => [] | Chr c => [c] end) l.
(** elements one after the other: a start tag of a or code, then its end tag *)
Inductive elements : list str -> Prop :=
| el_nil : elements []
| el_cons name attrs l : name = s2l "a" \/ name = s2l "code" -> (attrs = [] \/ exists x, attrs = s2l " " ++ x) -> elements l ->
    elements ((name ++ attrs) :: (s2l "/" ++ name) :: l).
(** all bytes are ASCII *)
Fixpoint ascii_expr (e : expr) : Prop :=
  match e with
  | EId _ => True
  | ELit x | ESet x | EHash x => forall c, In c x -> (c < 128)%N
  | EPost _ a => ascii_expr a
  | EDiff a b => ascii_expr a /\ ascii_expr b
  | ESeq l | EAlt l => (fix all l := match l with [] => True | x :: r => ascii_expr x /\ all r end) l
  end.
(** trees of which the HTML shows the grouping: an operand of ?, * and + is neither such an
    operation nor a difference; a difference is one of names, literals and classes, the first
    possibly with an operator; no sequence and no choice stands right inside a sequence that is itself
    an operand or a member of a sequence.  [member]: the tree is an operand, or a member of a
    sequence or of a choice; [choice]: of a choice. *)
Definition is_leaf (e : expr) : Prop := match e with EId _ | ELit _ | ESet _ | EHash _ => True | _ => False end.
Fixpoint faithful (member choice : bool) (e : expr) : Prop :=
  match e with
  | EId _ | ELit _ | ESet _ | EHash _ => True
  | EPost _ a => match a with EPost _ _ | EDiff _ _ => False | _ => faithful true false a end
  | EDiff a b => is_leaf b /\ (is_leaf a \/ exists c x, a = EPost c x /\ faithful false false a)
  | ESeq l =>
      if member && negb choice then
        (fix all l := match l with [] => True | x :: r => (match x with ESeq _ | EAlt _ => False | _ => faithful false false x end) /\ all r end) l
      else (fix all l := match l with [] => True | x :: r => faithful true false x /\ all r end) l
  | EAlt l =>
      (fix all l := match l with [] => True | x :: r => faithful true true x /\ all r end) l /\ ~ In (ESeq []) (tl l)
  end.
