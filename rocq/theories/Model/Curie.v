(** CURIEs, prefix maps, term maps, profiles and environments, languages and
    literal construction: src/pymantic/primitives.py 31-113, 225-298, 582-840,
    and src/pymantic/uri_schemes.py. *)
From Coq Require Import DecimalZ.
From Verif Require Import Model.Py Model.Terms.
Open Scope N_scope.

Notation sget := (dget str_eq_dec).
Notation sset := (dset str_eq_dec).

(** uri_schemes.schemes: uri_schemes.py 4-79 *)
Definition schemes : list str := map s2l
  ["aaa"; "aaas"; "acap"; "cap"; "cid"; "crid"; "data"; "dav"; "dict"; "dns"; "fax"; "file"; "ftp";
   "go"; "gopher"; "h323"; "http"; "https"; "icap"; "im"; "imap"; "info"; "ipp"; "iris"; "iris.beep";
   "iris.xpc"; "iris.xpcs"; "iris.lwz"; "ldap"; "mailto"; "mid"; "modem"; "msrp"; "msrps"; "mtqp";
   "mupdate"; "news"; "nfs"; "nntp"; "opaquelocktoken"; "pop"; "pres"; "rtsp"; "service"; "shttp";
   "sip"; "sips"; "snmp"; "soap.beep"; "soap.beeps"; "tag"; "tel"; "telnet"; "tftp"; "thismessage";
   "tip"; "tv"; "urn"; "vemmi"; "xmlrpc.beep"; "xmlrpc.beeps"; "xmpp"; "z39.50r"; "z39.50s"; "afs";
   "dtn"; "iax"; "mailserver"; "pack"; "tn3270"; "prospero"; "snews"; "videotex"; "wais"]%string.

(** parse_curie: primitives.py 53-83.  The result is the text of the NamedNode;
    Prefix(ns)(reference) is NamedNode(ns + reference) (320-325).  Namespaces are
    str values. *)
Definition parse_curie (curie : str) (prefixes : dict str str) : res str :=
  match curie with
  | [] => Err IndexError                                             (* curie[0], 69 *)
  | c :: r =>
      let definitely := (c =? 91) && endswith_char curie 93 in       (* 69 *)
      let curie := if definitely then removelast r else curie in     (* curie[1:-1], 70 *)
      let '(prefix, _, reference) := partition curie 58 in           (* 72 *)
      if negb definitely && (if in_dec str_eq_dec prefix schemes then true else false)
      then Ok curie                                                  (* 73-75 *)
      else
        match (if str_truthy reference then None else sget prefixes []) with
        | Some ns => Ok (ns ++ prefix)                               (* 76-78 *)
        | None =>
            match sget prefixes prefix with
            | Some ns => Ok (ns ++ reference)                        (* 79-80 *)
            | None => Err ValueError                                 (* 81-83 *)
            end
        end
  end.

(** parse_curies: 86-89; what the generator yields before it ends or raises *)
Fixpoint parse_curies (curies : list str) (prefixes : dict str str) : list str * res unit :=
  match curies with
  | [] => ([], Ok tt)
  | c :: r => match parse_curie c prefixes with
              | Ok x => let '(xs, e) := parse_curies r prefixes in (x :: xs, e)
              | Err e => ([], Err e)
              end
  end.

(** sorted(l, key=k): a stable insertion sort *)
Fixpoint insert_by {A} (k : A -> Z) (x : A) (l : list A) : list A :=
  match l with
  | [] => [x]
  | y :: r => if (k x <=? k y)%Z then x :: l else y :: insert_by k x r
  end.
Definition sorted_by {A} (k : A -> Z) (l : list A) : list A := fold_right (insert_by k) [] l.

(** to_curie: 92-113; namespaces.items() in insertion order *)
Definition curie_matches (uri : str) (namespaces : dict str str) : list (str * str) :=
  filter (fun pn => startswith uri (snd pn)) namespaces.
Definition to_curie (uri : str) (namespaces : dict str str) (sep : str) (explicit : bool) : str :=
  match sorted_by (fun pn => (- Z.of_nat (length (snd pn)))%Z) (curie_matches uri namespaces) with
  | [] => uri
  | (prefix, ns) :: _ =>
      let x := replace uri ns (prefix ++ sep) in
      if explicit then [91] ++ x ++ [93] else x
  end.

(** ** PrefixMap: 582-641 (a dict in insertion order) *)
Definition pm_resolve (m : dict str str) (curie : str) : res str := parse_curie curie m.
Definition pm_shrink (m : dict str str) (iri : str) : str := to_curie iri m (s2l ":") false.
(** PrefixMap.addAll 627-634, TermMap.addAll 671-678: the same code *)
Definition addAll_keep (m other : dict str str) : dict str str :=
  fold_left (fun acc kv => if dmem str_eq_dec acc (fst kv) then acc else sset acc (fst kv) (snd kv)) other m.
Definition map_addAll (m other : dict str str) (override : bool) : dict str str :=
  if override then dupdate str_eq_dec m other else addAll_keep m other.
(** setDefault: 636-639 *)
Definition pm_setDefault (m : dict str str) (iri : str) : dict str str := sset m [] iri.

(** ** TermMap: 644-716; [tm_default]: the attribute [default], absent until set *)
Record tmap := mkTM { tm_items : dict str str; tm_default : option str }.
(** TermMap.resolve: 680-694; None when nothing is found *)
Definition tm_resolve (m : tmap) (term : str) : option str :=
  match tm_default m with
  | Some d => match sget (tm_items m) term with Some v => Some v | None => Some (d ++ term) end
  | None => sget (tm_items m) term
  end.
Definition tm_setDefault (m : tmap) (iri : str) : tmap := mkTM (tm_items m) (Some iri).
(** TermMap.shrink: 702-711: the first item with that value *)
Definition tm_shrink (m : tmap) (iri : str) : str :=
  match find (fun kv => if str_eq_dec (snd kv) iri then true else false) (tm_items m) with
  | Some (term, _) => term
  | None => iri
  end.
Definition tm_addAll (m other : tmap) (override : bool) : tmap :=
  mkTM (map_addAll (tm_items m) (tm_items other) override) (tm_default m).

(** ** Profiles as objects: 719-840

    Maps are mutable objects shared by reference, so they live in a heap and a
    profile holds two addresses.  An RDFEnvironment is a Profile. *)
Record heap := mkH { h_pms : list (dict str str); h_tms : list tmap; h_profs : list (nat * nat) }.
Definition heap0 : heap := mkH [] [] [].
Definition pm_at (h : heap) (i : nat) : dict str str := nth i (h_pms h) [].
Definition tm_at (h : heap) (i : nat) : tmap := nth i (h_tms h) (mkTM [] None).
Fixpoint upd {A} (l : list A) (i : nat) (x : A) : list A :=
  match l, i with
  | [], _ => []
  | _ :: r, O => x :: r
  | a :: r, S j => a :: upd r j x
  end.
Definition pm_put (h : heap) (i : nat) (m : dict str str) : heap := mkH (upd (h_pms h) i m) (h_tms h) (h_profs h).
Definition tm_put (h : heap) (i : nat) (m : tmap) : heap := mkH (h_pms h) (upd (h_tms h) i m) (h_profs h).
Definition pm_alloc (h : heap) (m : dict str str) : heap * nat :=
  (mkH (h_pms h ++ [m]) (h_tms h) (h_profs h), length (h_pms h)).
Definition tm_alloc (h : heap) (m : tmap) : heap * nat :=
  (mkH (h_pms h) (h_tms h ++ [m]) (h_profs h), length (h_tms h)).

Definition rdf_ns : str := s2l "http://www.w3.org/1999/02/22-rdf-syntax-ns#".
Definition xsd_ns : str := s2l "http://www.w3.org/2001/XMLSchema#".
Definition add_missing (m : dict str str) (k v : str) : dict str str :=
  if dmem str_eq_dec m k then m else sset m k v.
(** Profile.__init__: 723-729; the arguments are addresses of maps or None; an
    empty map is falsy, so [prefixes or PrefixMap()] replaces it by a new one *)
Definition profile_new (h : heap) (prefixes terms : option nat) : heap * nat :=
  let '(h1, p) := match prefixes with
                  | Some i => match pm_at h i with [] => pm_alloc h [] | _ => (h, i) end
                  | None => pm_alloc h []
                  end in
  let '(h2, t) := match terms with
                  | Some i => match tm_items (tm_at h1 i) with [] => tm_alloc h1 (mkTM [] None) | _ => (h1, i) end
                  | None => tm_alloc h1 (mkTM [] None)
                  end in
  let h3 := pm_put h2 p (add_missing (pm_at h2 p) (s2l "rdf") rdf_ns) in
  let h4 := pm_put h3 p (add_missing (pm_at h3 p) (s2l "xsd") xsd_ns) in
  (mkH (h_pms h4) (h_tms h4) (h_profs h4 ++ [(p, t)]), length (h_profs h4)).

Definition prof (h : heap) (i : nat) : nat * nat := nth i (h_profs h) (O, O).
Definition prof_pm (h : heap) (i : nat) : dict str str := pm_at h (fst (prof h i)).
Definition prof_tm (h : heap) (i : nat) : tmap := tm_at h (snd (prof h i)).

(** Profile.resolve: 731-743 *)
Definition profile_resolve (h : heap) (i : nat) (s : str) : res (option str) :=
  if str_in_char 58 s then (do x <- pm_resolve (prof_pm h i) s ; Ok (Some x))
  else Ok (tm_resolve (prof_tm h i) s).

(** the methods that change profiles: 745-776, and those of RDFEnvironment that
    make new maps and profiles: 815-833 *)
Inductive pop :=
| SetDefaultVocabulary (i : nat) (iri : str)
| SetDefaultPrefix (i : nat) (iri : str)
| SetTerm (i : nat) (term iri : str)
| SetPrefix (i : nat) (prefix iri : str)
| ImportProfile (i j : nat) (override : bool)
| NewProfile (prefixes terms : option nat)     (* Profile(prefixes, terms); the new profile is the last one *)
| CreateProfile (i : nat) (empty : bool)       (* the new profile is the last one *)
| CreateTermMap (i : nat) (empty : bool)       (* the new map is the last one *)
| CreatePrefixMap (i : nat) (empty : bool)
| MapSet (a : nat) (prefix iri : str)          (* m[prefix] = iri on a prefix map object *)
| TermSet (a : nat) (term iri : str).
Definition pstep (h : heap) (op : pop) : heap :=
  match op with
  | SetDefaultVocabulary i iri => tm_put h (snd (prof h i)) (tm_setDefault (prof_tm h i) iri)
  | SetDefaultPrefix i iri => pm_put h (fst (prof h i)) (pm_setDefault (prof_pm h i) iri)
  | SetTerm i t iri => tm_put h (snd (prof h i)) (mkTM (sset (tm_items (prof_tm h i)) t iri) (tm_default (prof_tm h i)))
  | SetPrefix i p iri => pm_put h (fst (prof h i)) (sset (prof_pm h i) p iri)
  | ImportProfile i j o =>
      let h1 := pm_put h (fst (prof h i)) (map_addAll (prof_pm h i) (prof_pm h j) o) in
      tm_put h1 (snd (prof h1 i)) (tm_addAll (prof_tm h1 i) (prof_tm h1 j) o)
  | NewProfile p t => fst (profile_new h p t)
  | CreateProfile i e => fst (if e then profile_new h None None
                              else profile_new h (Some (fst (prof h i))) (Some (snd (prof h i))))
  | CreateTermMap i e => fst (tm_alloc h (if e then mkTM [] None else mkTM (tm_items (prof_tm h i)) None))
  | CreatePrefixMap i e => fst (pm_alloc h (if e then [] else prof_pm h i))
  | MapSet a p iri => pm_put h a (sset (pm_at h a) p iri)
  | TermSet a t iri => tm_put h a (mkTM (sset (tm_items (tm_at h a)) t iri) (tm_default (tm_at h a)))
  end.
Definition prun (h : heap) (ops : list pop) : heap := fold_left pstep ops h.

(** ** Languages: 31-50 *)
(** is_language: 31-35; the argument is a NamedNode or something else *)
Definition is_language (is_named_node : bool) : bool := negb is_named_node.
(** lang_match: 38-50 *)
Definition lang_match (lang1 lang2 : option str) : bool :=
  match lang1, lang2 with
  | None, None => true
  | None, _ | _, None => false
  | Some a, Some b =>
      let '(a0, _, a2) := partition a 45 in
      let '(b0, _, b2) := partition b 45 in
      str_eqb a0 b0 && (negb (str_truthy a2) || negb (str_truthy b2) || str_eqb a2 b2)
  end.

(** ** Literal(value, language, datatype): 245-255 *)
(** the Python values that can be passed; a str subclass (NamedNode) is a str;
    a datetime is represented by its isoformat() text; [VOther]: an instance of
    any other type, bool and subclasses of int included, since
    [types[type(value)]] looks up the exact type *)
Inductive pyval :=
| VStr (s : str)
| VInt (z : Z)
| VDatetime (iso : str)
| VOther.
(** str(int): decimal text.  (CPython 3.11 refuses to print ints of more than
    4300 digits unless configured otherwise; that limit is not modelled.) *)
Fixpoint uint_str (u : Decimal.uint) : str :=
  match u with
  | Decimal.Nil => []
  | Decimal.D0 r => 48 :: uint_str r
  | Decimal.D1 r => 49 :: uint_str r
  | Decimal.D2 r => 50 :: uint_str r
  | Decimal.D3 r => 51 :: uint_str r
  | Decimal.D4 r => 52 :: uint_str r
  | Decimal.D5 r => 53 :: uint_str r
  | Decimal.D6 r => 54 :: uint_str r
  | Decimal.D7 r => 55 :: uint_str r
  | Decimal.D8 r => 56 :: uint_str r
  | Decimal.D9 r => 57 :: uint_str r
  end.
Definition int_str (z : Z) : str :=
  match Z.to_int z with
  | Decimal.Pos u => uint_str u
  | Decimal.Neg u => 45 :: uint_str u
  end.
Definition xsd (name : string) : str := xsd_ns ++ s2l name.
Definition literal_new (v : pyval) (language datatype : option str) : res term :=
  match v with
  | VStr s => Ok (Lit s language datatype)
  | VInt z => Ok (Lit (int_str z) language (match datatype with None => Some (xsd "integer") | d => d end))
  | VDatetime iso => Ok (Lit iso language (match datatype with None => Some (xsd "dateTime") | d => d end))
  | VOther => Err KeyError
  end.
