(** Turtle output: src/pymantic/serializers.py 46-169, util.py 114-126. *)
From Verif Require Import Model.Py Model.Terms Model.Graph Model.Codec Model.Curie Model.Resource.
Open Scope N_scope.

(** ESCAPE_MAP and ECHAR_MAP: util.py 114-126, in dictionary order; the items of
    ECHAR_MAP are (raw character, backslash + letter) *)
Definition ESCAPE_MAP : list (char * char) :=
  [(116, 9); (98, 8); (110, 10); (114, 13); (102, 12); (34, 34); (39, 39); (92, 92)].
Definition ECHAR_MAP : list (char * str) := map (fun kv => (snd kv, [92; fst kv])) ESCAPE_MAP.

(** turtle_string_escape: 60-66.  The item's key is called [escaped] and its
    value [value]: the value (backslash + letter) is replaced by backslash + key. *)
Definition turtle_string_escape (string : str) : str :=
  [34] ++ fold_left (fun s item => replace s (snd item) [92; fst item]) ECHAR_MAP string ++ [34].

(** escape_prefix_local: 53-57 *)
Definition escape_prefix_local (prefix : str) : str :=
  let '(prefix, colon, local) := partition prefix 58 in
  let local := fold_left (fun l c => replace l [c] [92; c]) (s2l "~.-!$&'()*+,;=:/?#@%_") local in
  prefix ++ (if colon then [58] else []) ++ local.

(** turtle_repr: 69-109.  [pm] is profile.prefixes; the names resolved at 89-103
    contain a colon, so profile.resolve (primitives.py 731-743) looks them up in
    [pm].  [bnode_name_maker] is an iterator without a method next, as every
    Python generator is (46-50 is one): line 86 raises AttributeError before
    name_map is changed, so name_map stays empty.  The result of
    escape_prefix_local at 81 is not used. *)
Definition repr_iri (pm : dict str str) (base : option str) (node : str) : str :=
  let name := pm_shrink pm node in
  let name :=
    match base with
    | Some (c :: b) =>
        if startswith name (c :: b) then
          if endswith_char (c :: b) 35 then [60] ++ replace name (c :: b) [35] ++ [62]
          else [60] ++ replace name (c :: b) [] ++ [62]
        else name
    | _ => name
    end in
  if str_eqb name node then [60] ++ name ++ [62] else name.
Definition repr_typed (pm : dict str str) (v d : str) : str := turtle_string_escape v ++ [94] ++ repr_iri pm None d.
(** [node.datatype == profile.resolve(name)] for each name in turn: 97-103 *)
Fixpoint repr_verbatim (pm : dict str str) (names : list str) (d : str) : res bool :=
  match names with
  | [] => Ok false
  | n :: r => do iri <- pm_resolve pm n ; if str_eqb d iri then Ok true else repr_verbatim pm r d
  end.
Definition turtle_repr (pm : dict str str) (base : option str) (node : term) : res str :=
  match node with
  | Iri s => Ok (repr_iri pm base s)
  | BNode _ => Err AttributeError
  | Lit v l d =>
      do string <- pm_resolve pm (s2l "xsd:string") ;
      match d with
      | None => Ok (turtle_string_escape v ++ match l with Some (c :: t) => [64] ++ c :: t | _ => [] end)
      | Some dt =>
          if str_eqb dt string then Ok (turtle_string_escape v)
          else
            do verbatim <- repr_verbatim pm (map s2l ["xsd:integer"; "xsd:decimal"; "xsd:double"; "xsd:boolean"]%string) dt ;
            Ok (if (verbatim : bool) then v else repr_typed pm v dt)
      end
  end.

(** ** sorted((name, node) ...): 112-114 *)
(** < on str and on terms: NamedNodes are compared as str, Literals as tuples
    (value, language, datatype); everything else raises TypeError *)
Fixpoint str_ltb (a b : str) : bool :=
  match a, b with
  | _, [] => false
  | [], _ :: _ => true
  | c :: a', d :: b' => (c <? d) || ((c =? d) && str_ltb a' b')
  end.
Definition ostr_lt (a b : option str) : res bool :=
  match a, b with Some x, Some y => Ok (str_ltb x y) | _, _ => Err TypeError end.
Definition node_lt (a b : term) : res bool :=
  match a, b with
  | Iri x, Iri y => Ok (str_ltb x y)
  | Lit v l d, Lit v' l' d' =>
      if str_eq_dec v v' then
        if ostr_eq_dec l l' then if ostr_eq_dec d d' then Ok false else ostr_lt d d'
        else ostr_lt l l'
      else Ok (str_ltb v v')
  | _, _ => Err TypeError
  end.
(** (n, x) < (m, y) *)
Definition pair_lt (a b : str * term) : res bool :=
  if str_eq_dec (fst a) (fst b) then
    if term_eq_dec (snd a) (snd b) then Ok false else node_lt (snd a) (snd b)
  else Ok (str_ltb (fst a) (fst b)).
(** list.sort, as an insertion sort.  Which comparisons CPython makes, and so
    whether it meets an incomparable pair, is not modelled: between NamedNodes
    every comparison succeeds. *)
Fixpoint sort_insert (x : str * term) (l : list (str * term)) : res (list (str * term)) :=
  match l with
  | [] => Ok [x]
  | y :: r => do lt <- pair_lt y x ; if (lt : bool) then (do r' <- sort_insert x r ; Ok (y :: r')) else Ok (x :: l)
  end.
Fixpoint sort_pairs (l : list (str * term)) : res (list (str * term)) :=
  match l with [] => Ok [] | x :: r => do r' <- sort_pairs r ; sort_insert x r' end.
(** turtle_sorted_names: 112-114; all the names are made before the sorting starts *)
Fixpoint named (pm : dict str str) (base : option str) (nodes : list term) : res (list (str * term)) :=
  match nodes with
  | [] => Ok []
  | x :: r => do n <- turtle_repr pm base x ; do r' <- named pm base r ; Ok ((n, x) :: r')
  end.
Definition turtle_sorted_names (pm : dict str str) (base : option str) (nodes : list term) : res (list (str * term)) :=
  do l <- named pm base nodes ; sort_pairs l.

(** ** serialize_turtle: 117-169.  The result is the text written to f before the
    end or the exception. *)
Definition nl : str := [10].
(** 124-132; [pm] is the prefix map of the profile given, or of Profile() *)
Definition header (pm : dict str str) (base : option str) : str :=
  match base with Some b => s2l "@base <" ++ b ++ s2l "> ." ++ nl | None => [] end ++
  concat (map (fun pi => if str_eqb (fst pi) (s2l "rdf") then []
                         else s2l "@prefix " ++ fst pi ++ s2l ": <" ++ snd pi ++ s2l "> ." ++ nl) pm).
Definition default_pm : dict str str := [(s2l "rdf", rdf_ns); (s2l "xsd", xsd_ns)].
Definition spaces (n : nat) : str := repeat 32 n.

(** the elements of a list, 161-164, and how the iteration ended: an element that
    is a Resource, None or a generator has no attribute interfaceName *)
Fixpoint write_elements (pm : dict str str) (base : option str) (first : bool) (vs : list gres) (fin : res unit) : str * res unit :=
  match vs with
  | [] => ([], fin)
  | v :: r =>
      let pre := if first then [] else [32] in
      match (match v with One (RLit t) => turtle_repr pm base t | _ => Err AttributeError end) with
      | Err e => (pre, Err e)
      | Ok n => let '(t, x) := write_elements pm base false r fin in (pre ++ n ++ t, x)
      end
  end.

Section Write.
  (** [ord], [fuel]: as in Model/Resource.v; List is class 1.  [fuel] bounds the
      length of the lists followed; the world is threaded through because reading
      list cells classifies them. *)
  Variables (ord : list term -> list term) (fuel : nat) (pm : dict str str) (base : option str) (g : graph).

  (** one object: 159-167 *)
  Definition write_object (w : world) (o : term) : world * (str * res unit) :=
    match is_list w 1 g o with
    | Err e => (w, ([], Err e))
    | Ok true =>
        let '(w', (vs, fin)) := list_iter ord fuel w 1 g (as_subject o) in
        let '(t, x) := write_elements pm base true vs fin in
        (w', match x with Ok _ => ([40] ++ t ++ [41], Ok tt) | Err e => ([40] ++ t, Err e) end)
    | Ok false => (w, match turtle_repr pm base o with Ok n => (n, Ok tt) | Err e => ([], Err e) end)
    end.
  (** 154-167; [sep] is what is written before the next object *)
  Fixpoint write_objects (w : world) (sep indent : str) (l : list term) : world * (str * res unit) :=
    match l with
    | [] => (w, ([], Ok tt))
    | o :: r =>
        match write_object w o with
        | (w1, (t, Err e)) => (w1, (sep ++ t, Err e))
        | (w1, (t, Ok _)) =>
            let '(w2, (t2, x)) := write_objects w1 (s2l "," ++ nl ++ indent) indent r in
            (w2, (sep ++ t ++ t2, x))
        end
    end.
  (** 149-168 *)
  Fixpoint write_predicates (w : world) (s : term) (sep : str) (size : nat) (l : list (str * term)) : world * (str * res unit) :=
    match l with
    | [] => (w, ([], Ok tt))
    | (name, p) :: r =>
        let indent := spaces (size + length name + 1) in
        match write_objects w [] indent (map st_o (g_match g (Some s) (Some p) None)) with
        | (w1, (t, Err e)) => (w1, (sep ++ name ++ [32] ++ t, Err e))
        | (w1, (t, Ok _)) =>
            let '(w2, (t2, x)) := write_predicates w1 s (spaces size) size r in
            (w2, (sep ++ name ++ [32] ++ t ++ s2l " ;" ++ nl ++ t2, x))
        end
    end.
  (** 144-169 *)
  Fixpoint write_subjects (w : world) (l : list (str * term)) : world * (str * res unit) :=
    match l with
    | [] => (w, ([], Ok tt))
    | (name, s) :: r =>
        let size := S (length name) in
        match turtle_sorted_names pm base (nodup term_eq_dec (map st_p (g_match g (Some s) None None))) with
        | Err e => (w, (name ++ [32], Err e))
        | Ok ps =>
            match write_predicates w s [] size ps with
            | (w1, (t, Err e)) => (w1, (name ++ [32] ++ t, Err e))
            | (w1, (t, Ok _)) =>
                let '(w2, (t2, x)) := write_subjects w1 r in
                (w2, (name ++ [32] ++ t ++ spaces size ++ s2l "." ++ nl ++ nl ++ t2, x))
            end
        end
    end.
  (** the subjects that are no list cells: 142 *)
  Fixpoint plain_subjects (w : world) (l : list term) : res (list term) :=
    match l with
    | [] => Ok []
    | s :: r => do b <- is_list w 1 g s ; do r' <- plain_subjects w r ; Ok (if (b : bool) then r' else s :: r')
    end.
  Definition serialize_turtle (w : world) : world * (str * res unit) :=
    let h := header pm base in
    match (do l <- plain_subjects w (g_subjects g) ; turtle_sorted_names pm base l) with
    | Err e => (w, (h, Err e))
    | Ok l => let '(w', (t, x)) := write_subjects w l in (w', (h ++ t, x))
    end.
End Write.
