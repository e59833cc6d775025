(** N-Triples and N-Quads parsing: parsers/lark/ntriples.py, nquads.py,
    parsers/lark/base.py, parsers/base.py.

    lark's contextual lexer and LALR automaton are replaced by a hand-written
    deterministic parser of the same grammar (ntriples.py 21-49): in every parser
    state the acceptable terminals have distinct first characters, so the
    contextual lexer has one candidate; blanks (%ignore /[ \t]+/) are skipped
    before every terminal.  The regular expressions of the terminals are followed
    character by character.  lark runs the callbacks of the transformer while it
    parses; here a text (or line) is parsed first and transformed afterwards,
    which comes to the same if it has no syntax error.  If it has one, the
    callbacks that have run by then decide whether it is reported or an exception
    of theirs ([callbacks] below); blank nodes they made are not counted, as
    nothing can refer to them. *)
From Verif Require Import Model.Py Model.Terms Model.Graph Model.Codec.
Open Scope N_scope.

(** %ignore /[ \t]/+ : line 48 *)
Definition is_ws (c : char) : bool := (c =? 32) || (c =? 9).
Fixpoint skip_ws (s : str) : str :=
  match s with
  | c :: r => if is_ws c then skip_ws r else s
  | [] => []
  end.

(** EOL: /[\r\n]/+ : line 37 *)
Definition is_eol (c : char) : bool := (c =? 10) || (c =? 13).
Fixpoint skip_eol (s : str) : str :=
  match s with
  | c :: r => if is_eol c then skip_eol r else s
  | [] => []
  end.

(** PN_CHARS_BASE, line 43.  The class ends in (backslash)u10000-(backslash)uEFFFF,
    which the re module reads as U+1000, the range '0' to U+EFFF, and the letter F. *)
Definition pn_chars_base (c : char) : bool :=
  in_range 65 90 c || in_range 97 122 c || in_range 0xC0 0xD6 c || in_range 0xD8 0xF6 c
  || in_range 0xF8 0x2FF c || in_range 0x370 0x37D c || in_range 0x37F 0x1FFF c
  || in_range 0x200C 0x200D c || in_range 0x2070 0x218F c || in_range 0x2C00 0x2FEF c
  || in_range 0x3001 0xD7FF c || in_range 0xF900 0xFDCF c || in_range 0xFDF0 0xFFFD c
  || (c =? 0x1000) || in_range 48 0xEFFF c || (c =? 70).
(** PN_CHARS_U, PN_CHARS: 44-45 *)
Definition pn_chars_u (c : char) : bool := pn_chars_base c || (c =? 95) || (c =? 58).
Definition pn_chars (c : char) : bool :=
  pn_chars_u c || (c =? 45) || in_range 48 57 c || (c =? 0xB7) || in_range 0x300 0x36F c
  || in_range 0x203F 0x2040 c.

(** ((PN_CHARS | ".")* PN_CHARS)? : the longest prefix over PN_CHARS and '.' not ending in '.' *)
Fixpoint label_tail (s : str) : str * str :=
  match s with
  | [] => ([], [])
  | c :: r =>
      if pn_chars c || (c =? 46) then
        let '(l, t) := label_tail r in
        match l with
        | [] => if pn_chars c then ([c], r) else ([], s)
        | _ => (c :: l, t)
        end
      else ([], s)
  end.
(** BLANK_NODE_LABEL after its "_:": line 40 *)
Definition lex_label (s : str) : option (str * str) :=
  match s with
  | c :: r => if pn_chars_u c || in_range 48 57 c
              then let '(l, t) := label_tail r in Some (c :: l, t)
              else None
  | [] => None
  end.

Definition cons_tok (c : char) (x : option (str * str)) : option (str * str) :=
  match x with Some (l, t) => Some (c :: l, t) | None => None end.

Inductive lexst := LNormal | LEsc | LHex (k : nat).
Definition hex_next (k : nat) : lexst := match k with O => LNormal | S k' => LHex k' end.

(** the class of line 38 *)
Definition iri_char (c : char) : bool :=
  negb (c <=? 32) && negb (existsb (N.eqb c) [60; 62; 34; 123; 125; 124; 94; 96; 92]).
(** iriref after "<": line 38.  iriref is a rule, so blanks between its
    terminals (single characters and UCHARs) are ignored and not part of the
    children; ntriples.py 60 joins the children. *)
Fixpoint lex_iri (st : lexst) (s : str) : option (str * str) :=
  match s with
  | [] => None
  | c :: r =>
    match st with
    | LNormal =>
        if c =? 62 then Some ([], r)
        else if is_ws c then lex_iri LNormal r
        else if c =? 92 then cons_tok c (lex_iri LEsc r)
        else if iri_char c then cons_tok c (lex_iri LNormal r)
        else None
    | LEsc =>
        if c =? 117 then cons_tok c (lex_iri (LHex 3) r)
        else if c =? 85 then cons_tok c (lex_iri (LHex 7) r)
        else None
    | LHex k => if is_hex c then cons_tok c (lex_iri (hex_next k) r) else None
    end
  end.

(** STRING_LITERAL_QUOTE after its opening quote: 39, 41-42 *)
Definition echar_char (c : char) : bool := existsb (N.eqb c) [116; 98; 110; 114; 102; 34; 39; 92].
Fixpoint lex_string (st : lexst) (s : str) : option (str * str) :=
  match s with
  | [] => None
  | c :: r =>
    match st with
    | LNormal =>
        if c =? 34 then Some ([], r)
        else if c =? 92 then cons_tok c (lex_string LEsc r)
        else if (c =? 10) || (c =? 13) then None
        else cons_tok c (lex_string LNormal r)
    | LEsc =>
        if c =? 117 then cons_tok c (lex_string (LHex 3) r)
        else if c =? 85 then cons_tok c (lex_string (LHex 7) r)
        else if echar_char c then cons_tok c (lex_string LNormal r)
        else None
    | LHex k => if is_hex c then cons_tok c (lex_string (hex_next k) r) else None
    end
  end.

(** LANGTAG after its "@": line 36.  The second class is [a-zA-Z0_9] *)
Definition letter (c : char) : bool := in_range 97 122 c || in_range 65 90 c.
Definition lang_class (c : char) : bool := letter c || (c =? 48) || (c =? 95) || (c =? 57).
Fixpoint lang_go (s : str) : str * str :=
  match s with
  | [] => ([], [])
  | c :: r =>
      if lang_class c then let '(l, t) := lang_go r in (c :: l, t)
      else if c =? 45 then
        match r with
        | d :: _ => if lang_class d then let '(l, t) := lang_go r in (c :: l, t) else ([], s)
        | [] => ([], s)
        end
      else ([], s)
  end.
Fixpoint lang_first (s : str) : str * str :=
  match s with
  | [] => ([], [])
  | c :: r =>
      if letter c then let '(l, t) := lang_first r in (c :: l, t)
      else if c =? 45 then lang_go s
      else ([], s)
  end.
Definition lex_lang (s : str) : option (str * str) :=
  match s with
  | c :: _ => if letter c then Some (lang_first s) else None
  | [] => None
  end.

(** ** Parse trees (children as the transformer receives them) *)
Inductive rkind := RPlain | RLang (l : str) | RType (iri : str).
Inductive rterm :=
| RIri (s : str)                      (* joined children of iriref *)
| RBn (label : str)                   (* the token, with its "_:" *)
| RLit (body : str) (k : rkind).      (* STRING_LITERAL_QUOTE without the quotes *)
Record rstmt := RSt { r_s : rterm; r_p : rterm; r_o : rterm; r_g : option rterm }.

(** ?predicate, ?graph: iriref *)
Definition p_iri (s : str) : option (rterm * str) :=
  match skip_ws s with
  | c :: r => if c =? 60
              then match lex_iri LNormal r with Some (i, t) => Some (RIri i, t) | None => None end
              else None
  | _ => None
  end.
(** BLANK_NODE_LABEL *)
Definition p_bnode (s : str) : option (rterm * str) :=
  match skip_ws s with
  | c :: d :: r => if (c =? 95) && (d =? 58)
                   then match lex_label r with Some (l, t) => Some (RBn (c :: d :: l), t) | None => None end
                   else None
  | _ => None
  end.
Definition starts (c : char) (s : str) : bool :=
  match skip_ws s with d :: _ => d =? c | [] => false end.
(** ?subject: iriref | BLANK_NODE_LABEL *)
Definition p_subject (s : str) : option (rterm * str) :=
  if starts 95 s then p_bnode s else p_iri s.
(** "^^" iriref *)
Definition p_datatype (s : str) : option (str * str) :=
  match s with
  | c :: d :: r => if (c =? 94) && (d =? 94)
                   then match p_iri r with Some (RIri i, t) => Some (i, t) | _ => None end
                   else None
  | _ => None
  end.
(** literal: STRING_LITERAL_QUOTE ("^^" iriref | LANGTAG)?, after the opening quote *)
Definition p_literal (s : str) : option (rterm * str) :=
  match lex_string LNormal s with
  | None => None
  | Some (b, t) =>
      if starts 94 t then
        match p_datatype (skip_ws t) with Some (i, t') => Some (RLit b (RType i), t') | None => None end
      else if starts 64 t then
        match lex_lang (tl (skip_ws t)) with Some (l, t') => Some (RLit b (RLang l), t') | None => None end
      else Some (RLit b RPlain, t)
  end.
(** ?object *)
Definition p_object (s : str) : option (rterm * str) :=
  if starts 34 s then p_literal (tl (skip_ws s)) else p_subject s.
Definition p_dot (s : str) : option str :=
  match skip_ws s with c :: r => if c =? 46 then Some r else None | [] => None end.

(** triple / quad: 22, 25; [q] selects the start symbol *)
Definition p_stmt (q : bool) (s : str) : option (rstmt * str) :=
  match p_subject s with
  | None => None
  | Some (a, s1) =>
    match p_iri s1 with
    | None => None
    | Some (b, s2) =>
      match p_object s2 with
      | None => None
      | Some (c, s3) =>
        if q then
          match p_iri s3 with
          | None => None
          | Some (g, s4) => match p_dot s4 with Some r => Some (RSt a b c (Some g), r) | None => None end
          end
        else match p_dot s3 with Some r => Some (RSt a b c None, r) | None => None end
      end
    end
  end.

(** triples_start / quads_start: x? (EOL x)* EOL? *)
Inductive docst := AtStart | AfterStmt | AfterEol.
Fixpoint p_doc (q : bool) (fuel : nat) (st : docst) (s : str) : res (list rstmt) :=
  match fuel with
  | O => Err OutOfFuel
  | S n =>
    match skip_ws s with
    | [] => Ok []
    | c :: r =>
        if is_eol c then
          match st with
          | AfterEol => Err LarkError
          | _ => p_doc q n AfterEol (skip_eol r)
          end
        else
          match st with
          | AfterStmt => Err LarkError
          | _ => match p_stmt q s with
                 | Some (x, t) => do l <- p_doc q n AfterStmt t ; Ok (x :: l)
                 | None => Err LarkError
                 end
          end
    end
  end.
(** self.lark.parse(text), without the transformer; the fuel always suffices *)
Definition lark_parse (q : bool) (s : str) : res (list rstmt) := p_doc q (S (length s)) AtStart s.

(** ** What has happened when a syntax error is found

    Lark(transformer=...), 88-93: a callback runs when its rule is reduced, which
    is when the next terminal has been read, if it is one that may follow. *)

Definition is_some {A} (x : option A) : bool := match x with Some _ => true | None => false end.
(** an iriref is reduced before any terminal that may follow one somewhere: its
    LALR(1) state does not depend on its place *)
Definition iri_cb (i t : str) : list str :=
  let ok := match skip_ws t with
            | c :: r => (c =? 60) || (c =? 46) || (c =? 95) && is_some (p_bnode t) || (c =? 34) && is_some (lex_string LNormal r)
            | [] => false
            end in
  if ok then [i] else [].
(** a literal is reduced before the one terminal that follows an object *)
Definition lit_cb (q : bool) (body t : str) : list str := if starts (if q then 60 else 46) t then [body] else [].
(** the texts given to decode_literal by the callbacks of a term that [t] follows *)
Definition term_cbs (q : bool) (x : rterm) (t : str) : list str :=
  match x with
  | RIri i => iri_cb i t
  | RBn _ => []
  | RLit b (RType d) => iri_cb d t ++ lit_cb q b t
  | RLit b _ => lit_cb q b t
  end.
Definition stmt_cbs (q : bool) (s : str) : list str :=
  match p_subject s with
  | None => []
  | Some (a, s1) =>
    term_cbs q a s1 ++
    match p_iri s1 with
    | None => []
    | Some (b, s2) =>
      term_cbs q b s2 ++
      match p_object s2 with
      | None => []
      | Some (c, s3) =>
        term_cbs q c s3 ++
        if q then match p_iri s3 with None => [] | Some (g, s4) => term_cbs q g s4 end else []
      end
    end
  end.
Fixpoint doc_cbs (q : bool) (fuel : nat) (st : docst) (s : str) : list str :=
  match fuel with
  | O => []
  | S n =>
    match skip_ws s with
    | [] => []
    | c :: r =>
        if is_eol c then
          match st with
          | AfterEol => []
          | _ => doc_cbs q n AfterEol (skip_eol r)
          end
        else
          match st with
          | AfterStmt => []
          | _ => stmt_cbs q s ++ match p_stmt q s with Some (_, t) => doc_cbs q n AfterStmt t | None => [] end
          end
    end
  end.
Definition callbacks (q : bool) (s : str) : list str := doc_cbs q (S (length s)) AtStart s.
(** the exception that leaves lark.parse for a text with a syntax error *)
Fixpoint raised (l : list str) : exn :=
  match l with
  | [] => LarkError
  | s :: r => match decode_literal s with Err e => e | Ok _ => raised r end
  end.

(** ** Transformer and parser state *)

(** threading.local() attribute [bnodes] of the current call (parsers/base.py 43-45):
    a defaultdict(createBlankNode); [bs_next] is the identity the next new
    BlankNode object gets, larger than that of every existing one *)
Record bstate := mkB { bs_next : N; bs_map : dict str N }.
(** make_blank_node(label): parsers/base.py 34-38 *)
Definition make_bnode (b : bstate) (label : str) : bstate * term :=
  match dget str_eq_dec (bs_map b) label with
  | Some a => (b, BNode a)
  | None => (mkB (bs_next b + 1) (dset str_eq_dec (bs_map b) label (bs_next b)), BNode (bs_next b))
  end.

(** blank_node_label 55-57, iriref 59-62, literal 64-79 *)
Definition tr_term (b : bstate) (x : rterm) : bstate * res term :=
  match x with
  | RIri s => (b, do i <- decode_literal s ; Ok (Iri i))
  | RBn l => let '(b', t) := make_bnode b l in (b', Ok t)
  | RLit body k =>
      (b, match k with
          | RType d => do i <- decode_literal d ; do v <- decode_literal body ; Ok (Lit v None (Some i))
          | RLang l => do v <- decode_literal body ; Ok (Lit v (Some l) None)
          | RPlain => do v <- decode_literal body ; Ok (Lit v None None)
          end)
  end.
(** a graph name in a quad *)
Definition tr_graph (b : bstate) (g : option rterm) : bstate * res (option oterm) :=
  match g with
  | None => (b, Ok None)
  | Some x => let '(b', r) := tr_term b x in (b', do t <- r ; Ok (Some (Some t)))
  end.
(** triple 81-83, quad (nquads.py 24-26) *)
Definition tr_stmt (b : bstate) (x : rstmt) : bstate * res stmt :=
  let '(b1, s) := tr_term b (r_s x) in
  let '(b2, p) := tr_term b1 (r_p x) in
  let '(b3, o) := tr_term b2 (r_o x) in
  let '(b4, g) := tr_graph b3 (r_g x) in
  (b4, do s' <- s ; do p' <- p ; do o' <- o ; do g' <- g ; Ok (St s' p' o' g')).
Fixpoint tr_doc (b : bstate) (l : list rstmt) : bstate * res (list stmt) :=
  match l with
  | [] => (b, Ok [])
  | x :: r =>
      let '(b1, t) := tr_stmt b x in
      match t with
      | Err e => (b1, Err e)
      | Ok t' => let '(b2, ts) := tr_doc b1 r in (b2, do ts' <- ts ; Ok (t' :: ts'))
      end
  end.
(** self.lark.parse(text) with the transformer: the list the generator returned
    by triples_start (84-87) / quads_start will yield *)
Definition lark_run (q : bool) (b : bstate) (s : str) : bstate * res (list stmt) :=
  match lark_parse q s with
  | Err LarkError => (b, Err (raised (callbacks q s)))
  | Err e => (b, Err e)
  | Ok l => tr_doc b l
  end.

(** _prepare_parse: parsers/base.py 46-48: a new, empty bnodes dictionary *)
Definition prepare (n : N) : bstate := mkB n [].

(** LarkParser.parse of a string: parsers/lark/base.py 14-36.  [n]: the identity
    of the next new object.  The graph is returned also when an exception
    leaves parse. *)
Definition parse_string (q : bool) (n : N) (g : graph) (s : str) : N * graph * res unit :=
  let '(b, r) := lark_run q (prepare n) s in
  match r with
  | Err e => (bs_next b, g, Err e)
  | Ok ts => (bs_next b, g_addAll g ts, Ok tt)
  end.

(** LarkParser.line_by_line_parser 9-12 consumed by Graph.addAll.  next() on an
    empty generator raises StopIteration, which inside a generator becomes
    RuntimeError; a line is a str as yielded by the stream. *)
Fixpoint stream_loop (q : bool) (b : bstate) (g : graph) (lines : list str) : bstate * graph * res unit :=
  match lines with
  | [] => (b, g, Ok tt)
  | [] :: r => stream_loop q b g r
  | line :: r =>
      match lark_run q b line with
      | (b', Err e) => (b', g, Err e)
      | (b', Ok []) => (b', g, Err RuntimeError)
      | (b', Ok (t :: _)) => stream_loop q b' (g_add g t) r
      end
  end.
Definition parse_stream (q : bool) (n : N) (g : graph) (lines : list str) : N * graph * res unit :=
  let '(b, g', r) := stream_loop q (prepare n) g lines in (bs_next b, g', r).

(** parse with graph=None: env.createGraph() (parsers/base.py 52-53) is Graph(),
    also for nquads_parser *)
Definition parse_string_new (q : bool) (n : N) (s : str) : N * graph * res unit :=
  parse_string q n (graph_new None) s.

(** LarkParser.parse_string of a bytes object: parsers/lark/base.py 38-45; the
    decoding happens before the parse call, so on failure nothing has changed *)
Definition parse_bytes (q : bool) (n : N) (g : graph) (bs : list N) : N * graph * res unit :=
  match utf8_decode bs with
  | Err e => (n, g, Err e)
  | Ok s => parse_string q n g s
  end.
