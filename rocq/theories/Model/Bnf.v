(** src/pymantic/scripts/bnf2html: the reader of EBNF grammars and the HTML it prints.
    The script is Python 2 (line 334 does not compile in Python 3): a str is a list of
    bytes, white space, letters and \w are those of the C locale. *)
From Verif Require Import Model.Py.
From Verif Require Model.Curie.
From Coq Require Import ZArith.

(** str.strip(): \t \n \v \f \r and the space *)
Definition b_space (c : char) : bool := ((9 <=? c) && (c <=? 13) || (c =? 32))%N.
(** str.isalpha() of one byte *)
Definition b_alpha (c : char) : bool := ((65 <=? c) && (c <=? 90) || (97 <=? c) && (c <=? 122))%N.
(** \w of re without flags *)
Definition b_word (c : char) : bool := b_alpha c || ((48 <=? c) && (c <=? 57) || (c =? 95))%N.
Fixpoint lstrip (s : str) : str :=
  match s with
  | c :: r => if b_space c then lstrip r else s
  | [] => []
  end.
Fixpoint rstrip (s : str) : str :=
  match s with
  | c :: r => match rstrip r with
              | [] => if b_space c then [] else [c]
              | r' => c :: r'
              end
  | [] => []
  end.
Definition strip (s : str) : str := lstrip (rstrip s).
(** s.split(sep, 1) unpacked into two names: ValueError if sep is not in s *)
Definition split1 (s : str) (sep : char) : res (str * str) :=
  match partition s sep with
  | (a, true, b) => Ok (a, b)
  | _ => Err ValueError
  end.
(** the same for a longer separator (only "::=" here, 147) *)
Fixpoint split1s (s sep : str) : res (str * str) :=
  if startswith s sep then Ok ([], skipn (length sep) s)
  else match s with
       | [] => Err ValueError
       | c :: r => do x <- split1s r sep ; Ok (c :: fst x, snd x)
       end.
(** what re.match("\w+", s) matches, and the rest; no match is None, and None.end is an AttributeError *)
Fixpoint word_run (s : str) : str * str :=
  match s with
  | c :: r => if b_word c then let '(a, b) := word_run r in (c :: a, b) else ([], s)
  | [] => ([], [])
  end.
Definition word_match (s : str) : res (str * str) :=
  match word_run s with
  | ([], _) => Err AttributeError
  | x => Ok x
  end.

(** the tuples of token: 302-334.  [BLit] is ("'", l), [BSet] is ("[", l), [BHash] is ('#', "#..."),
    [BId] is ('id', x), [BAt] is ('@', x), [BPunct] is a tuple of one character *)
Inductive btok := BLit (l : str) | BSet (l : str) | BHash (x : str) | BId (x : str) | BAt (x : str) | BPunct (c : char).
Definition token (s0 : str) : res (btok * str) :=
  let s := strip s0 in
  match s with
  | [] => Err IndexError                        (* s[0], 325 *)
  | c :: r =>
      if (c =? 39)%N then do x <- split1 r 39 ; Ok (BLit (fst x), snd x)
      else if (c =? 34)%N then do x <- split1 r 34 ; Ok (BLit (fst x), snd x)
      else if (c =? 91)%N then do x <- split1 r 93 ; Ok (BSet (fst x), snd x)
      else if (c =? 35)%N then do x <- word_match r ; Ok (BHash (35 :: fst x)%N, snd x)
      else if b_alpha c then do x <- word_match s ; Ok (BId (fst x), snd x)
      else if (c =? 64)%N then do x <- word_match r ; Ok (BAt (fst x), snd x)
      else if str_in_char c (s2l "(?)*+|-") then Ok (BPunct c, r)
      else Err ValueError
  end.

(** expressions: the tuples (op, args) of the parser *)
Inductive expr :=
| EId (x : str) | ELit (l : str) | ESet (l : str) | EHash (x : str)
| EPost (op : char) (e : expr)       (* '?', '*', '+' *)
| EDiff (a b : expr)
| ESeq (l : list expr)
| EAlt (l : list expr).
(** a parser: an expression or None, and the rest of the text *)
Definition presult := res (option expr * str).
Definition is_punct (t : btok) (c : char) : bool := match t with BPunct d => (d =? c)%N | _ => false end.

Section Levels.
  Variable prim : str -> presult.    (* primary, for shorter texts *)
  (** postfix: 263-281 *)
  Definition postfix (s : str) : presult :=
    do x <- prim s ;
    match x with
    | (None, s1) => Ok (None, s1)
    | (Some e, []) => Ok (Some e, [])
    | (Some e, s1) =>
        do y <- token s1 ;
        match fst y with
        | BPunct c => if str_in_char c (s2l "?*+") then Ok (Some (EPost c e), snd y) else Ok (Some e, s1)
        | _ => Ok (Some e, s1)
        end
    end.
  (** diff: 240-260 *)
  Definition diff (s : str) : presult :=
    do x <- postfix s ;
    match x with
    | (None, s1) => Ok (None, s1)
    | (Some e, []) => Ok (Some e, [])
    | (Some e, s1) =>
        do y <- token s1 ;
        if is_punct (fst y) 45 then
          do z <- prim (snd y) ;
          match z with
          | (Some e2, s2) => Ok (Some (EDiff e e2), s2)
          | (None, _) => Err SyntaxError
          end
        else Ok (Some e, s1)
    end.
  (** seq: 214-237.  [n] bounds the number of rounds of the loop. *)
  Fixpoint seq_go (n : nat) (s : str) : res (list expr * str) :=
    match s with
    | [] => Ok ([], [])
    | _ =>
        match n with
        | O => Err OutOfFuel
        | S n' =>
            do x <- diff s ;
            match x with
            | (Some e, s1) => do y <- seq_go n' s1 ; Ok (e :: fst y, snd y)
            | (None, _) => Ok ([], s)
            end
        end
    end.
  Definition seq (s : str) : presult :=
    do x <- seq_go (length s) s ;
    match fst x with
    | [] => Ok (None, snd x)
    | [e] => Ok (Some e, snd x)
    | l => Ok (Some (ESeq l), snd x)
    end.
  (** the loop of alt: 197-207.  [args] as it is, [e] the value of the variable e (None at the
      outside: not bound yet), the rest. *)
  Fixpoint alt_go (n : nat) (args : list expr) (e : option (option expr)) (s : str) : res (list expr * option (option expr) * str) :=
    match s with
    | [] => Ok (args, e, [])
    | _ =>
        match n with
        | O => Err OutOfFuel
        | S n' =>
            do x <- seq s ;
            match x, args with
            | (None, s1), _ :: _ => Ok (args, Some None, s1)
            | (e0, s1), _ =>
                let e1 := match e0 with Some e1 => e1 | None => ESeq [] end in
                match s1 with
                | [] => Ok (args ++ [e1], Some (Some e1), [])
                | _ =>
                    do t <- token s1 ;
                    if is_punct (fst t) 124 then alt_go n' (args ++ [e1]) (Some (Some e1)) (snd t)
                    else Ok (args ++ [e1], Some (Some e1), s1)
                end
            end
        end
    end.
  (** alt: 189-211 *)
  Definition alt (s : str) : presult :=
    do x <- alt_go (length s) [] None s ;
    match x with
    | ((_ :: _ :: _) as l, _, s1) => Ok (Some (EAlt l), s1)
    | (_, Some e, s1) => Ok (e, s1)
    | (_, None, _) => Err UnboundLocalError
    end.
  (** ebnf: 152-186 *)
  Definition ebnf_with (s : str) : presult :=
    do x <- alt s ;
    match x with
    | (e, []) => Ok (e, [])
    | (e, s1) => do t <- token s1 ; if is_punct (fst t) 41 then Ok (e, snd t) else Ok (e, s1)
    end.
End Levels.

(** primary: 283-299.  [n] bounds the depth of parentheses. *)
Fixpoint primary (n : nat) (s : str) : presult :=
  match n with
  | O => Err OutOfFuel
  | S n' =>
      do x <- token s ;
      match x with
      | (BId v, r) => Ok (Some (EId v), r)
      | (BLit v, r) => Ok (Some (ELit v), r)
      | (BSet v, r) => Ok (Some (ESet v), r)
      | (BHash v, r) => Ok (Some (EHash v), r)
      | (BPunct c, r) => if (c =? 40)%N then ebnf_with (primary n') r else Ok (None, r)
      | (BAt _, r) => Ok (None, r)
      end
  end.
Definition ebnf (s : str) : presult := ebnf_with (primary (S (length s))) s.

(** ** Grammar files *)
(** each_rule: 119-133.  The variable r is the rule so far. *)
Fixpoint each_rule (r : str) (lines : list str) : list str :=
  match lines with
  | [] => match r with [] => [] | _ => [r] end
  | l :: ls =>
      if startswith l (s2l "/*") then each_rule r ls
      else if startswith l (s2l "[") || startswith l (s2l "@") then
        match r with [] => each_rule (strip l) ls | _ => r :: each_rule (strip l) ls end
      else each_rule (r ++ strip l) ls
  end.
(** rule_parts: 136-149; find gives -1 or the first position of the bracket *)
Definition rule_parts (r : str) : res (str * str * option expr) :=
  match partition r 93 with
  | (c :: num, true, r1) =>
      do x <- split1s r1 (s2l "::=") ;
      do y <- ebnf (snd x) ;
      Ok (num, strip (fst x), fst y)
  | _ => Err AssertionError
  end.

(** ** HTML *)
(** escape: 339-341; unicode(s) decodes a str as ASCII *)
Definition escape_char (c : char) : str :=
  if (c =? 38)%N then s2l "&amp;" else if (c =? 60)%N then s2l "&lt;" else if (c =? 62)%N then s2l "&gt;"
  else if (c =? 34)%N then s2l "&quot;" else if (c =? 39)%N then s2l "&#x27;" else [c].
Definition escape (s : str) : res str :=
  if forallb (fun c => c <? 128)%N s then Ok (flat_map escape_char s) else Err UnicodeDecodeError.
(** str.join *)
Fixpoint join (sep : str) (l : list str) : str :=
  match l with
  | [] => []
  | [x] => x
  | x :: r => x ++ sep ++ join sep r
  end.
Fixpoint all_ok {A} (l : list (res A)) : res (list A) :=
  match l with
  | [] => Ok []
  | x :: r => do a <- x ; do b <- all_ok r ; Ok (a :: b)
  end.
(** html_expr: 81-117.  Results of escape are unicode; all of it is ASCII, so the formats give
    the same characters.  The last branch of the function (repr) is for other tuples. *)
Fixpoint html_expr (prefix : str) (nested alternation : bool) (e : expr) : res str :=
  match e with
  | EPost op a =>
      do h <- html_expr prefix true false a ;
      Ok (if (op =? 42)%N then h ++ s2l "<code class='grammar-star'>*</code>"
          else if (op =? 63)%N then h ++ s2l "?"
          else h ++ s2l "<code class='grammar-plus'>+</code>")
  | EId x => Ok (s2l "<a href='#" ++ (match prefix with [] => [] | _ => prefix ++ s2l "-" end) ++ s2l "grammar-production-" ++ x ++ s2l "'>" ++ x ++ s2l "</a>")
  | EAlt l =>
      do hs <- all_ok (map (html_expr prefix true true) l) ;
      let content := join (s2l " <code>| </code> ") hs in
      Ok (if nested then s2l "(" ++ content ++ s2l ")" else content)
  | ESeq l =>
      if nested && negb alternation then
        do hs <- all_ok (map (html_expr prefix false false) l) ; Ok (s2l "(" ++ join (s2l " ") hs ++ s2l ")")
      else
        do hs <- all_ok (map (html_expr prefix true false) l) ; Ok (join (s2l " ") hs)
  | ELit x =>
      do h <- escape x ;
      Ok (if str_in_char 39 x then [34]%N ++ s2l "<code class=" ++ [34]%N ++ s2l "grammar-literal" ++ [34]%N ++ s2l ">" ++ h ++ s2l "</code>" ++ [34]%N
          else s2l "'<code class='grammar-literal'>" ++ h ++ s2l "</code>'")
  | ESet x => do h <- escape x ; Ok (s2l "[<code class='grammar-chars'>" ++ h ++ s2l "</code>]")
  | EDiff a b => do x <- html_expr prefix false false a ; do y <- html_expr prefix false false b ; Ok (x ++ s2l "<code class='grammar-diff'>-</code>" ++ y)
  | EHash x => do h <- escape x ; Ok (s2l "<code class='grammar-char-escape'>" ++ h ++ s2l "</code>")
  end.

(** to_HTML: 28-53, what becomes of the rules: rows (number, symbol, html of the expression,
    is it a terminal).  The templates, and the attributes with the original text and the repr of
    the tree, are left out.  [numbers] the set, [error] the counter. *)
Definition row := (str * str * str * bool)%type.
Fixpoint rows_go (prefix : str) (token : bool) (numbers : list str) (error : Z) (rs : list str) : res (list row) :=
  match rs with
  | [] => Ok []
  | r :: rest =>
      if str_eq_dec r (s2l "@terminals") then rows_go prefix true numbers error rest
      else
        do x <- rule_parts r ;
        match x with
        | (_, _, None) => Err TypeError                (* op, args = None, 83 *)
        | (num, sym, Some e) =>
            do h <- html_expr prefix false false e ;
            if in_dec str_eq_dec num numbers then
              do l <- rows_go prefix token numbers (error + 1)%Z rest ; Ok ((s2l "ERROR-" ++ Curie.int_str error, sym, h, token) :: l)
            else
              do l <- rows_go prefix token (num :: numbers) error rest ; Ok ((num, sym, h, token) :: l)
        end
  end.
Definition to_HTML (prefix : str) (lines : list str) : res (list row) := rows_go prefix false [] 1 (each_rule [] lines).
