(** Character-level code: escaping for N-Triples (serializers.py 4-31, util.py
    114-143), percent coding of IRIs (util.py 33-89), and the N-Triples text of
    terms (primitives.py 159-160, 291-298, 316-317, 343-353). *)
From Verif Require Import Model.Py Model.Terms.
Open Scope N_scope.

(** ** Hexadecimal *)

(** value of a hexadecimal digit, for the class [0-9A-Fa-f] and int(_, 16) *)
Definition hexval (c : char) : option N :=
  if (48 <=? c) && (c <=? 57) then Some (c - 48)
  else if (65 <=? c) && (c <=? 70) then Some (c - 55)
  else if (97 <=? c) && (c <=? 102) then Some (c - 87)
  else None.
Definition is_hex (c : char) : bool := match hexval c with Some _ => true | None => false end.

(** digit [d < 16] in upper case, as printed by %X *)
Definition hexU (d : N) : char := if d <? 10 then 48 + d else 55 + d.
(** digit in lower case, as printed by hex() *)
Definition hexL (d : N) : char := if d <? 10 then 48 + d else 87 + d.

(** "%0kX" % n for n < 16^k (the only case that occurs): exactly k digits *)
Fixpoint fmtX (k : nat) (n : N) : str :=
  match k with
  | O => []
  | S k' => fmtX k' (n / 16) ++ [hexU (n mod 16)]
  end.

(** int(s, 16) for a string of hexadecimal digits *)
Definition int16 (s : str) : N :=
  fold_left (fun a c => a * 16 + match hexval c with Some d => d | None => 0 end) s 0.

(** hex(n)[2:]: no leading zeros (Python built-in); the fuel suffices for every n *)
Fixpoint hex_go (fuel : nat) (n : N) (acc : str) : str :=
  match fuel with
  | O => acc
  | S k => if n <? 16 then hexL n :: acc else hex_go k (n / 16) (hexL (n mod 16) :: acc)
  end.
Definition hex_lower (n : N) : str := hex_go (S (N.size_nat n)) n [].

(** chr(n) of a non-negative int: CPython raises OverflowError when n does not
    fit a C int and ValueError above sys.maxunicode *)
Definition chr (n : N) : res char :=
  if n <=? 1114111 then Ok n else if n <=? 2147483647 then Err ValueError else Err OverflowError.

(** ** re.sub for a pattern that never matches the empty string
    [m s] is the length of the match at the start of [s], if any; [f] the
    replacement function.  Left to right, non-overlapping; [skip] counts the
    characters of the current match still to be passed over. *)
Fixpoint re_sub (m : str -> option nat) (f : str -> res str) (skip : nat) (s : str) : res str :=
  match s with
  | [] => Ok []
  | c :: r =>
      match skip with
      | S k => re_sub m f k r
      | O =>
          match m s with
          | Some (S n) => do x <- f (firstn (S n) s) ; do y <- re_sub m f n r ; Ok (x ++ y)
          | _ => do y <- re_sub m f 0 r ; Ok (c :: y)
          end
      end
  end.

(** ** nt_escape: serializers.py 4-31.  The if/elif chain in source order; a
    character matching no branch (a C0 control other than TAB, LF, CR) is dropped. *)
Definition nt_escape_char (c : char) : str :=
  if c =? 9 then [92; 116]
  else if c =? 10 then [92; 110]
  else if c =? 13 then [92; 114]
  else if c =? 34 then [92; 34]
  else if c =? 92 then [92; 92]
  else if (32 <=? c) && (c <=? 33) || (35 <=? c) && (c <=? 91) || (93 <=? c) && (c <=? 126) then [c]
  else if (127 <=? c) && (c <=? 65535) then [92; 117] ++ fmtX 4 c
  else if (65536 <=? c) && (c <=? 1114111) then [92; 85] ++ fmtX 8 c
  else [].
Fixpoint nt_escape (s : str) : str :=
  match s with [] => [] | c :: r => nt_escape_char c ++ nt_escape r end.

(** ESCAPE_MAP.get(c, c): util.py 114-123, 135 *)
Definition escape_map : dict char char :=
  [(116, 9); (98, 8); (110, 10); (114, 13); (102, 12); (34, 34); (39, 39); (92, 92)].
Definition escape_get (c : char) : char :=
  match dget N.eq_dec escape_map c with Some d => d | None => c end.

(** process_escape: util.py 129-135; [m] is the matched text *)
Definition process_escape (m : str) : res str :=
  match tl m with
  | c :: ds => if (c =? 117) || (c =? 85) then do x <- chr (int16 ds) ; Ok [x]
               else Ok [escape_get c]
  | [] => Err IndexError
  end.

(** the pattern of decode_literal, util.py 139-140 *)
Fixpoint all_hex (k : nat) (s : str) : bool :=
  match k, s with
  | O, _ => true
  | S k', c :: r => is_hex c && all_hex k' r
  | S _, [] => false
  end.
Definition escape_match (s : str) : option nat :=
  match s with
  | b :: c :: r =>
      if negb (b =? 92) then None
      else if c =? 117 then (if all_hex 4 r then Some 6%nat else None)
      else if c =? 85 then (if all_hex 8 r then Some 10%nat else None)
      else Some 2%nat
  | _ => None
  end.
(** decode_literal: util.py 138-143 *)
Definition decode_literal (s : str) : res str := re_sub escape_match process_escape 0 s.

(** ** UTF-8 (the Python codec, errors='strict') *)
Definition is_surrogate (c : char) : bool := (55296 <=? c) && (c <=? 57343).

(** str.encode('utf-8') of one character; lone surrogates raise.  Code points
    above 10FFFF do not exist in a Python str. *)
Definition utf8_char (c : char) : res (list N) :=
  if c <? 128 then Ok [c]
  else if c <? 2048 then Ok [192 + c / 64; 128 + c mod 64]
  else if is_surrogate c then Err UnicodeEncodeError
  else if c <? 65536 then Ok [224 + c / 4096; 128 + c / 64 mod 64; 128 + c mod 64]
  else Ok [240 + c / 262144; 128 + c / 4096 mod 64; 128 + c / 64 mod 64; 128 + c mod 64].

(** str.encode('utf-8') *)
Fixpoint utf8_encode (s : str) : res (list N) :=
  match s with
  | [] => Ok []
  | c :: r => do a <- utf8_char c ; do b <- utf8_encode r ; Ok (a ++ b)
  end.

Definition in_range (lo hi b : N) : bool := (lo <=? b) && (b <=? hi).
Definition cont (b : N) : bool := in_range 128 191 b.

(** bytes.decode('utf-8'): Unicode's table of well-formed byte sequences *)
Fixpoint utf8_decode (bs : list N) : res str :=
  match bs with
  | [] => Ok []
  | b :: r =>
    if b <? 128 then do x <- utf8_decode r ; Ok (b :: x)
    else if in_range 194 223 b then
      match r with
      | c1 :: r1 =>
        if cont c1 then do x <- utf8_decode r1 ; Ok ((b - 192) * 64 + (c1 - 128) :: x)
        else Err UnicodeDecodeError
      | _ => Err UnicodeDecodeError
      end
    else if in_range 224 239 b then
      match r with
      | c1 :: c2 :: r2 =>
        if in_range (if b =? 224 then 160 else 128) (if b =? 237 then 159 else 191) c1 && cont c2
        then do x <- utf8_decode r2 ; Ok ((b - 224) * 4096 + (c1 - 128) * 64 + (c2 - 128) :: x)
        else Err UnicodeDecodeError
      | _ => Err UnicodeDecodeError
      end
    else if in_range 240 244 b then
      match r with
      | c1 :: c2 :: c3 :: r3 =>
        if in_range (if b =? 240 then 144 else 128) (if b =? 244 then 143 else 191) c1 && cont c2 && cont c3
        then do x <- utf8_decode r3 ;
             Ok ((b - 240) * 262144 + (c1 - 128) * 4096 + (c2 - 128) * 64 + (c3 - 128) :: x)
        else Err UnicodeDecodeError
      | _ => Err UnicodeDecodeError
      end
    else Err UnicodeDecodeError
  end.

(** "%%%02X" % b *)
Definition pct (b : N) : str := 37 :: fmtX 2 b.

(** ** IRIs *)

(** reserved_in_iri: util.py 37-57, in source order: %:/?#[]@!$&'()*+,;= *)
Definition reserved_in_iri : list char :=
  [37; 58; 47; 63; 35; 91; 93; 64; 33; 36; 38; 39; 40; 41; 42; 43; 44; 59; 61].

(** one %XX accepted by percent_encoding_re (util.py 33-35): not %00-%1F, not %20 *)
Definition pct_ok (s : str) : bool :=
  match s with
  | p :: a :: b :: _ =>
      (p =? 37)
      && negb (((a =? 48) || (a =? 49)) && is_hex b)      (* (?![01][0-9a-fA-F]) *)
      && negb ((a =? 50) && (b =? 48))                    (* (?!20) *)
      && is_hex a && is_hex b
  | _ => false
  end.
(** the greedy (?:...)+: length of the run at the start of [s] *)
Fixpoint pct_run (s : str) : nat :=
  match s with
  | p :: a :: b :: r => if pct_ok (p :: a :: b :: r) then 3 + pct_run r else 0
  | _ => 0
  end%nat.
Definition pct_match (s : str) : option nat :=
  match pct_run s with O => None | n => Some n end.

(** regmatch.group(0)[1:].split("%") followed by int(group, 16): the matched text
    is a sequence of %XX (util.py 61-63) *)
Fixpoint pct_bytes (s : str) : list N :=
  match s with
  | _ :: a :: b :: r => int16 [a; b] :: pct_bytes r
  | _ => []
  end.
(** percent_decode: util.py 60-67 *)
Definition percent_decode (m : str) : res str :=
  do uni <- utf8_decode (pct_bytes m) ;
  Ok (fold_left (fun u r => replace u [r] (pct r)) reserved_in_iri uni).

(** normalize_iri: util.py 70-75 *)
Definition normalize_iri (iri : str) : res str := re_sub pct_match percent_decode 0 iri.

(** percent_encode: util.py 78-79 *)
Definition percent_encode (c : char) : res str :=
  do bs <- utf8_char c ; Ok (concat (map pct bs)).

(** the characters urllib.parse.quote never quotes: letters, digits, "_.-~", plus [safe] *)
Definition always_safe (c : char) : bool :=
  in_range 65 90 c || in_range 97 122 c || in_range 48 57 c
  || (c =? 95) || (c =? 46) || (c =? 45) || (c =? 126).
Definition quote_char (safe : list char) (c : char) : res str :=
  if always_safe c || existsb (N.eqb c) safe then Ok [c] else percent_encode c.
Fixpoint concat_res (l : list (res str)) : res str :=
  match l with
  | [] => Ok []
  | x :: r => do a <- x ; do b <- concat_res r ; Ok (a ++ b)
  end.
(** urllib.parse.quote(s, safe) for ASCII [safe] *)
Definition quote (s : str) (safe : list char) : res str := concat_res (map (quote_char safe) s).

(** quote_normalized_iri: util.py 82-89 *)
Definition quote_normalized_iri (s : str) : res str :=
  do u <- concat_res (map (fun c => if 127 <? c then percent_encode c else Ok [c]) s) ;
  quote u reserved_in_iri.

(** ** Text of terms *)

(** NamedNode.toNT: primitives.py 316-317 *)
Definition iri_toNT (s : str) : res str :=
  do q <- quote_normalized_iri s ; Ok ([60] ++ nt_escape q ++ [62]).

(** BlankNode.value: primitives.py 342-344; [a] is id(self) *)
Definition bnode_value (a : N) : str := map (fun c => c + 17) (hex_lower a).
(** BlankNode.__str__, toNT: 349-353 *)
Definition bnode_str (a : N) : str := s2l "_:" ++ bnode_value a.

(** Literal.toNT: primitives.py 291-298 *)
Definition lit_toNT (v : str) (l d : option str) : res str :=
  let quoted := [34] ++ nt_escape v ++ [34] in
  match l, d with
  | Some (c :: r), _ => Ok (quoted ++ [64] ++ (c :: r))
  | _, Some (c :: r) => do x <- iri_toNT (c :: r) ; Ok (quoted ++ [94; 94] ++ x)
  | _, _ => Ok quoted
  end.

Definition term_toNT (t : term) : res str :=
  match t with
  | Iri s => iri_toNT s
  | BNode a => Ok (bnode_str a)
  | Lit v l d => lit_toNT v l d
  end.

(** str(term): NamedNode.__str__ 313-314, BlankNode.__str__ 349-350, Literal.__str__ 288-289 *)
Definition term_str (t : term) : str :=
  match t with Iri s => s | BNode a => bnode_str a | Lit v _ _ => v end.
(** str() of a graph name that may be None *)
Definition oterm_str (o : oterm) : str :=
  match o with Some t => term_str t | None => s2l "None" end.

(** Triple.__str__: primitives.py 159-160 *)
Definition triple_str (t : stmt) : res str :=
  do s <- term_toNT (st_s t) ; do p <- term_toNT (st_p t) ; do o <- term_toNT (st_o t) ;
  Ok (s ++ [32] ++ p ++ [32] ++ o ++ s2l " ." ++ [10]).

(** serialize_ntriples: serializers.py 34-37; the text written before an exception is kept *)
Fixpoint serialize_ntriples (ts : list stmt) : str * res unit :=
  match ts with
  | [] => ([], Ok tt)
  | t :: r =>
      match triple_str t with
      | Err e => ([], Err e)
      | Ok line => let '(out, x) := serialize_ntriples r in (line ++ out, x)
      end
  end.

(** Quad.__str__: primitives.py 213-214; str(), not toNT(), of the four components.
    serialize_nquads (serializers.py 40-43) writes str() of what it iterates over,
    so a Triple would be written by Triple.__str__. *)
Definition quad_str (s p o : term) (g : oterm) : str :=
  term_str s ++ [32] ++ term_str p ++ [32] ++ term_str o ++ [32] ++ oterm_str g ++ s2l " ." ++ [10].
Definition stmt_str (t : stmt) : res str :=
  match st_graph t with
  | Some g => Ok (quad_str (st_s t) (st_p t) (st_o t) g)
  | None => triple_str t
  end.
(** serialize_nquads: serializers.py 40-43 *)
Fixpoint serialize_nquads (ts : list stmt) : str * res unit :=
  match ts with
  | [] => ([], Ok tt)
  | t :: r =>
      match stmt_str t with
      | Err e => ([], Err e)
      | Ok line => let '(out, x) := serialize_nquads r in (line ++ out, x)
      end
  end.
