(** Turtle texts to parse trees: the grammar of parsers/lark/turtle.py 35-96,
    and parse, 285-309.

    lark's contextual lexer and LALR automaton are replaced by a hand-written
    deterministic parser of the same grammar.  White space and comments (93-95)
    are skipped before every terminal.  lark joins the terminals of a parser state
    into one alternation, longest possible match first and then longest pattern
    first: so PNAME_LN is tried before PNAME_NS, both before the keywords and the
    booleans, DOUBLE before DECIMAL before INTEGER, the long strings before the
    short ones, and ANON before the bracket; the functions below try them in that
    order.  (A parser state can also allow terminals that are not acceptable in
    the given context, LALR lookahead sets being merged; where one of these would
    be matched instead, the text is rejected either way.)  The regular expressions
    are followed character by character.  Every failure is one LarkError. *)
From Verif Require Import Model.Py Model.Terms Model.Graph Model.Codec Model.NTriples Model.TurtleTree Model.Turtle.
Open Scope N_scope.

(** WS and COMMENT, ignored: 81, 93-95; [comment]: inside a comment *)
Definition is_tws (c : char) : bool := (c =? 32) || (c =? 9) || (c =? 13) || (c =? 10).
Fixpoint skip (comment : bool) (s : str) : str :=
  match s with
  | [] => []
  | c :: r =>
      if comment then skip (negb (c =? 10)) r
      else if is_tws c then skip false r
      else if c =? 35 then skip true r
      else s
  end.
Fixpoint skip_tws (s : str) : str := match s with c :: r => if is_tws c then skip_tws r else s | [] => [] end.

(** PN_CHARS_BASE, PN_CHARS_U, PN_CHARS: 83-85 *)
Definition t_base (c : char) : bool :=
  in_range 65 90 c || in_range 97 122 c || in_range 0xC0 0xD6 c || in_range 0xD8 0xF6 c
  || in_range 0xF8 0x2FF c || in_range 0x370 0x37D c || in_range 0x37F 0x1FFF c
  || in_range 0x200C 0x200D c || in_range 0x2070 0x218F c || in_range 0x2C00 0x2FEF c
  || in_range 0x3001 0xD7FF c || in_range 0xF900 0xFDCF c || in_range 0xFDF0 0xFFFD c
  || in_range 0x10000 0xEFFFF c.
Definition t_u (c : char) : bool := t_base c || (c =? 95).
Definition t_digit (c : char) : bool := in_range 48 57 c.
Definition t_char (c : char) : bool :=
  t_u c || (c =? 45) || t_digit c || (c =? 0xB7) || in_range 0x300 0x36F c || in_range 0x203F 0x2040 c.

(** IRIREF after its "<": 65, 79 *)
Fixpoint lex_ref (st : lexst) (s : str) : option (str * str) :=
  match s with
  | [] => None
  | c :: r =>
    match st with
    | LNormal =>
        if c =? 62 then Some ([], r)
        else if c =? 92 then cons_tok c (lex_ref LEsc r)
        else if iri_char c then cons_tok c (lex_ref LNormal r)
        else None
    | LEsc =>
        if c =? 117 then cons_tok c (lex_ref (LHex 3) r)
        else if c =? 85 then cons_tok c (lex_ref (LHex 7) r)
        else None
    | LHex k => if is_hex c then cons_tok c (lex_ref (hex_next k) r) else None
    end
  end.

(** PN_PREFIX? ":" , 66, 86: [ok] if the last character was no dot *)
Fixpoint prefix_tail (ok : bool) (s : str) : option (str * str) :=
  match s with
  | [] => None
  | c :: r =>
      if c =? 58 then if ok then Some ([], r) else None
      else if t_char c then cons_tok c (prefix_tail true r)
      else if c =? 46 then cons_tok c (prefix_tail false r)
      else None
  end.
Definition lex_ns (s : str) : option (str * str) :=
  match s with
  | [] => None
  | c :: r => if c =? 58 then Some ([], r)
              else if t_base c then cons_tok c (prefix_tail true r)
              else None
  end.
(** PN_LOCAL, 87-91: the part after the first element, as long as possible, not
    ending in a dot *)
Definition t_local_esc (c : char) : bool := existsb (N.eqb c) (s2l "_~.-!$&'()*+,;=/?#@%").
Definition pre_tok (x : str) (y : str * str) : str * str := (x ++ fst y, snd y).
Fixpoint local_tail (s : str) : str * str :=
  match s with
  | [] => ([], [])
  | c :: r =>
      if t_char c || (c =? 58) then pre_tok [c] (local_tail r)
      else if c =? 46 then
        match local_tail r with
        | ([], _) => ([], s)
        | (l, t) => (c :: l, t)
        end
      else if c =? 37 then
        match r with
        | a :: b :: r' => if is_hex a && is_hex b then pre_tok [c; a; b] (local_tail r') else ([], s)
        | _ => ([], s)
        end
      else if c =? 92 then
        match r with
        | a :: r' => if t_local_esc a then pre_tok [c; a] (local_tail r') else ([], s)
        | [] => ([], s)
        end
      else ([], s)
  end.
(** PN_LOCAL, or nothing *)
Definition lex_local (s : str) : str * str :=
  match s with
  | [] => ([], [])
  | c :: r =>
      if t_u c || (c =? 58) || t_digit c || (c =? 37) || (c =? 92) then local_tail s else ([], s)
  end.
(** PNAME_LN or PNAME_NS: 61, 66-67.  The value is the whole token. *)
Definition lex_pname (s : str) : option (str * str) :=
  match lex_ns s with
  | None => None
  | Some (ns, t) => let '(l, t') := lex_local t in Some (ns ++ 58 :: l, t')
  end.

(** BLANK_NODE_LABEL after its "_:": 68 *)
Fixpoint blabel_tail (s : str) : str * str :=
  match s with
  | [] => ([], [])
  | c :: r =>
      if t_char c then pre_tok [c] (blabel_tail r)
      else if c =? 46 then match blabel_tail r with ([], _) => ([], s) | (l, t) => (c :: l, t) end
      else ([], s)
  end.
Definition lex_blabel (s : str) : option (str * str) :=
  match s with
  | c :: r => if t_u c || t_digit c then Some (pre_tok [c] (blabel_tail r)) else None
  | [] => None
  end.

(** LANGTAG after its "@": 69 *)
Definition t_alnum (c : char) : bool := letter c || t_digit c.
Fixpoint tag_rest (s : str) : str * str :=
  match s with
  | [] => ([], [])
  | c :: r =>
      if t_alnum c then pre_tok [c] (tag_rest r)
      else if c =? 45 then
        match r with
        | d :: _ => if t_alnum d then pre_tok [c] (tag_rest r) else ([], s)
        | [] => ([], s)
        end
      else ([], s)
  end.
Fixpoint tag_first (s : str) : str * str :=
  match s with
  | [] => ([], [])
  | c :: r => if letter c then pre_tok [c] (tag_first r) else if c =? 45 then tag_rest s else ([], s)
  end.
Definition lex_tag (s : str) : option (str * str) :=
  match s with
  | c :: _ => if letter c then Some (tag_first s) else None
  | [] => None
  end.

(** INTEGER, DECIMAL, DOUBLE, EXPONENT: 70-74 *)
Fixpoint lex_digits (s : str) : str * str :=
  match s with
  | [] => ([], [])
  | c :: r => if t_digit c then pre_tok [c] (lex_digits r) else ([], s)
  end.
Definition lex_sign (s : str) : str * str :=
  match s with
  | [] => ([], [])
  | c :: r => if (c =? 43) || (c =? 45) then ([c], r) else ([], s)
  end.
(** one or more digits *)
Definition lex_digits1 (s : str) : option (str * str) :=
  match lex_digits s with ([], _) => None | x => Some x end.
Definition lex_exp (s : str) : option (str * str) :=
  match s with
  | [] => None
  | c :: r =>
      if (c =? 101) || (c =? 69) then
        let '(sg, t) := lex_sign r in
        match lex_digits1 t with Some (d, t') => Some (c :: sg ++ d, t') | None => None end
      else None
  end.
(** "." and digits, possibly none *)
Definition lex_frac (s : str) : option (str * str) :=
  match s with
  | c :: r => if c =? 46 then let '(d, t) := lex_digits r in Some (c :: d, t) else None
  | [] => None
  end.
Definition lex_double (s : str) : option (str * str) :=
  let '(sg, t) := lex_sign s in
  let '(d, t1) := lex_digits t in
  let '(f, t2) := match lex_frac t1 with Some x => x | None => ([], t1) end in
  match d, f with
  | [], [] | [], [_] => None
  | _, _ => match lex_exp t2 with Some (x, t3) => Some (sg ++ d ++ f ++ x, t3) | None => None end
  end.
Definition lex_decimal (s : str) : option (str * str) :=
  let '(sg, t) := lex_sign s in
  let '(d, t1) := lex_digits t in
  match lex_frac t1 with
  | Some (c :: e :: f, t2) => Some (sg ++ d ++ c :: e :: f, t2)
  | _ => None
  end.
Definition lex_integer (s : str) : option (str * str) :=
  let '(sg, t) := lex_sign s in
  match lex_digits1 t with Some (d, t1) => Some (sg ++ d, t1) | None => None end.
Definition lex_number (s : str) : option (tlit * str) :=
  match lex_double s with
  | Some (x, t) => Some (TNum NDouble x, t)
  | None =>
      match lex_decimal s with
      | Some (x, t) => Some (TNum NDecimal x, t)
      | None => match lex_integer s with Some (x, t) => Some (TNum NInteger x, t) | None => None end
      end
  end.

(** the short strings after their opening quote: 75-76, 79-80 *)
Fixpoint lex_short (q : char) (st : lexst) (s : str) : option (str * str) :=
  match s with
  | [] => None
  | c :: r =>
    match st with
    | LNormal =>
        if c =? q then Some ([], r)
        else if c =? 92 then cons_tok c (lex_short q LEsc r)
        else if (c =? 10) || (c =? 13) then None
        else cons_tok c (lex_short q LNormal r)
    | LEsc =>
        if c =? 117 then cons_tok c (lex_short q (LHex 3) r)
        else if c =? 85 then cons_tok c (lex_short q (LHex 7) r)
        else if echar_char c then cons_tok c (lex_short q LNormal r)
        else None
    | LHex k => if is_hex c then cons_tok c (lex_short q (hex_next k) r) else None
    end
  end.
(** the long strings after their opening quotes: 77-80; [k] quotes have just been
    read, the third one closes the string *)
Fixpoint lex_long (q : char) (k : nat) (st : lexst) (s : str) : option (str * str) :=
  match s with
  | [] => None
  | c :: r =>
    match st with
    | LNormal =>
        if c =? q then match k with 2%nat => Some ([], r) | _ => lex_long q (S k) LNormal r end
        else
          match cons_tok c (lex_long q 0 (if c =? 92 then LEsc else LNormal) r) with
          | Some (l, t) => Some (repeat q k ++ l, t)
          | None => None
          end
    | LEsc =>
        if c =? 117 then cons_tok c (lex_long q 0 (LHex 3) r)
        else if c =? 85 then cons_tok c (lex_long q 0 (LHex 7) r)
        else if echar_char c then cons_tok c (lex_long q 0 LNormal r)
        else None
    | LHex j => if is_hex c then cons_tok c (lex_long q 0 (hex_next j) r) else None
    end
  end.
(** a string starting with the quote [q]: 56-59 *)
Definition lex_string_tok (q : char) (s : str) : option (str * str) :=
  match (if startswith s [q; q; q] then lex_long q 0 LNormal (skipn 3 s) else None) with
  | Some x => Some x
  | None => lex_short q LNormal (tl s)
  end.

(** /BASE/i, /PREFIX/i: 40-41.  Ignoring case, re also lets a long s (U+017F) stand for S
    and the two Turkish i's (U+0130, U+0131) for I. *)
Definition same_letter (k c : char) : bool :=
  (c =? k) || (c =? k + 32) || (k =? 83) && (c =? 0x17F) || (k =? 73) && ((c =? 0x130) || (c =? 0x131)).
Fixpoint keyword (w s : str) : option str :=
  match w with
  | [] => Some s
  | k :: w' => match s with c :: r => if same_letter k c then keyword w' r else None | [] => None end
  end.

(** ** The rules.  Each skips white space and comments first. *)
Definition head_is (c : char) (s : str) : bool := match s with d :: _ => d =? c | [] => false end.
(** iri: 60-61, 65-67 *)
Definition p_tiri (s : str) : option (tiri * str) :=
  let s := skip false s in
  if head_is 60 s then match lex_ref LNormal (tl s) with Some (b, t) => Some (TRef b, t) | None => None end
  else match lex_pname s with Some (tok, t) => Some (TPn tok, t) | None => None end.
(** an IRIREF alone *)
Definition p_ref (s : str) : option (str * str) :=
  let s := skip false s in
  if head_is 60 s then lex_ref LNormal (tl s) else None.
(** verb: 46, 48 *)
Definition p_verb (s : str) : option (tverb * str) :=
  match p_tiri s with
  | Some (i, t) => Some (VIri i, t)
  | None => let s := skip false s in if head_is 97 s then Some (VA, tl s) else None
  end.
(** rdf_literal: 54, 56-59 *)
Definition p_rdf_literal (q : char) (s : str) : option (tlit * str) :=
  match lex_string_tok q s with
  | None => None
  | Some (b, t) =>
      let t1 := skip false t in
      if head_is 64 t1 then match lex_tag (tl t1) with Some (g, t2) => Some (TStr b (SfLang g), t2) | None => None end
      else if startswith t1 [94; 94] then
        match p_tiri (skipn 2 t1) with Some (i, t2) => Some (TStr b (SfType i), t2) | None => None end
      else Some (TStr b SfNone, t)
  end.
(** boolean_literal: 55 *)
Definition p_bool (s : str) : option (tlit * str) :=
  if startswith s (s2l "true") then Some (TBool (s2l "true"), skipn 4 s)
  else if startswith s (s2l "false") then Some (TBool (s2l "false"), skipn 5 s)
  else None.
Definition t_ok {A} (x : option (A * str)) : res (A * str) := match x with Some y => Ok y | None => Err LarkError end.

(** [fuel]: see [turtle_text] *)
(** object: 47-52, 62, 68, 82 *)
Fixpoint p_obj (fuel : nat) (s : str) : res (tobj * str) :=
  match fuel with
  | O => Err OutOfFuel
  | S n =>
      let s := skip false s in
      match s with
      | [] => Err LarkError
      | c :: r =>
          if c =? 60 then do x <- t_ok (p_tiri s) ; Ok (TIri (fst x), snd x)
          else if c =? 95 then
            match r with
            | d :: r' => if d =? 58 then do x <- t_ok (lex_blabel r') ; Ok (TLabel (c :: d :: fst x), snd x) else Err LarkError
            | [] => Err LarkError
            end
          else if c =? 40 then do x <- p_items n r ; Ok (TColl (fst x), snd x)
          else if c =? 91 then
            if head_is 93 (skip_tws r) then Ok (TAnon, tl (skip_tws r))
            else
              do x <- p_pol n r ;
              let t := skip false (snd x) in
              if head_is 93 t then Ok (TProps (fst x), tl t) else Err LarkError
          else if (c =? 34) || (c =? 39) then do x <- t_ok (p_rdf_literal c s) ; Ok (TLit (fst x), snd x)
          else
            match lex_pname s with
            | Some (tok, t) => Ok (TIri (TPn tok), t)
            | None =>
                match lex_number s with
                | Some (x, t) => Ok (TLit x, t)
                | None => do x <- t_ok (p_bool s) ; Ok (TLit (fst x), snd x)
                end
            end
      end
  end
(** object* ")" : 52 *)
with p_items (fuel : nat) (s : str) : res (tobjs * str) :=
  match fuel with
  | O => Err OutOfFuel
  | S n =>
      let s := skip false s in
      if head_is 41 s then Ok (ONil, tl s)
      else do x <- p_obj n s ; do y <- p_items n (snd x) ; Ok (OCons (fst x) (fst y), snd y)
  end
(** object_list: 45 *)
with p_objs (fuel : nat) (s : str) : res (tobjs * str) :=
  match fuel with
  | O => Err OutOfFuel
  | S n =>
      do x <- p_obj n s ;
      let t := skip false (snd x) in
      if head_is 44 t then do y <- p_objs n (tl t) ; Ok (OCons (fst x) (fst y), snd y)
      else Ok (OCons (fst x) ONil, snd x)
  end
(** predicate_object_list: 44 *)
with p_pol (fuel : nat) (s : str) : res (tpol * str) :=
  match fuel with
  | O => Err OutOfFuel
  | S n =>
      do v <- t_ok (p_verb s) ;
      do x <- p_objs n (snd v) ;
      do y <- p_more n (snd x) ;
      Ok (PCons (fst v) (fst x) (fst y), snd y)
  end
(** (";" (verb object_list)?)* *)
with p_more (fuel : nat) (s : str) : res (tpol * str) :=
  match fuel with
  | O => Err OutOfFuel
  | S n =>
      let t := skip false s in
      if head_is 59 t then
        let t' := skip false (tl t) in
        if head_is 46 t' || head_is 93 t' || head_is 59 t' then p_more n (tl t) else p_pol n (tl t)
      else Ok (PNil, s)
  end.

Definition p_end (s : str) : option str := let t := skip false s in if head_is 46 t then Some (tl t) else None.
(** prefix_id 38, sparql_prefix 41, base 39, sparql_base 40; after the keyword *)
Definition p_prefix (dot : bool) (s : str) : option (tstmt * str) :=
  match lex_ns (skip false s) with
  | None => None
  | Some (ns, t) =>
      match p_ref t with
      | None => None
      | Some (b, t1) =>
          if dot then match p_end t1 with Some t2 => Some (SPrefix ns b, t2) | None => None end
          else Some (SPrefix ns b, t1)
      end
  end.
Definition p_base (dot : bool) (s : str) : option (tstmt * str) :=
  match p_ref s with
  | None => None
  | Some (b, t1) =>
      if dot then match p_end t1 with Some t2 => Some (SBase b, t2) | None => None end
      else Some (SBase b, t1)
  end.
Definition p_directive (s : str) : option (tstmt * str) :=
  if startswith s (s2l "@prefix") then p_prefix true (skipn 7 s)
  else if startswith s (s2l "@base") then p_base true (skipn 5 s)
  else
    match keyword (s2l "PREFIX") s with
    | Some t => p_prefix false t
    | None => match keyword (s2l "BASE") s with Some t => p_base false t | None => None end
    end.
(** triples: 42-43; a literal is no subject *)
Definition p_triples (fuel : nat) (s : str) : res (tstmt * str) :=
  do x <- p_obj fuel s ;
  match fst x with
  | TLit _ => Err LarkError
  | o =>
      let t := skip false (snd x) in
      match o, head_is 46 t with
      | TProps _, true => Ok (STriples o PNil, tl t)
      | _, _ =>
          do y <- p_pol fuel (snd x) ;
          do e <- t_ok (match p_end (snd y) with Some t' => Some (tt, t') | None => None end) ;
          Ok (STriples o (fst y), snd e)
      end
  end.
(** statement: 36-37.  A text that starts like a prefixed name is no directive. *)
Definition starts_subject (s : str) : bool :=
  existsb (fun c => head_is c s) [60; 95; 40; 91] || match lex_pname s with Some _ => true | None => false end.
Definition p_tstmt (fuel : nat) (s : str) : res (tstmt * str) :=
  let s := skip false s in
  if starts_subject s then p_triples fuel s else t_ok (p_directive s).
(** turtle_doc: 35; [k] bounds the number of statements *)
Fixpoint p_tdoc (k fuel : nat) (s : str) : res (list tstmt) :=
  match skip false s with
  | [] => Ok []
  | _ :: _ =>
      match k with
      | O => Err OutOfFuel
      | S k' => do x <- p_tstmt fuel s ; do l <- p_tdoc k' fuel (snd x) ; Ok (fst x :: l)
      end
  end.
(** turtle_lark.parse(string): 297; the fuel always suffices *)
Definition turtle_text (s : str) : res (list tstmt) := p_tdoc (length s) (2 * length s + 2) s.

(** ** parse: 285-305 *)
(** the argument: a str, a bytes object, or an object with readline and read *)
Inductive tsource := SrcStr (s : str) | SrcBytes (b : list N) | SrcStream (content : str).
(** 286-295: what is read from a stream is replaced by the stream object itself,
    whose length lark asks for: TypeError *)
Definition tsource_text (x : tsource) : res str :=
  match x with SrcStr s => Ok s | SrcBytes b => utf8_decode b | SrcStream _ => Err TypeError end.
(** [None]: see [turtle_add] *)
Definition turtle_parse (uj : urljoin_fn) (n : N) (base : str) (g : graph) (x : tsource) : option (N * graph * res unit) :=
  match (do s <- tsource_text x ; turtle_text s) with
  | Err e => Some (n, g, Err e)
  | Ok doc => turtle_add uj n base g doc
  end.
