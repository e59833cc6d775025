(** Resource, List, MetaResource: src/pymantic/rdf.py 23-622.

    Python classes made by MetaResource are numbered; class 0 is Resource, class
    1 is List.  An instance is a class number and a subject; all methods get the
    graph explicitly.  Not modelled: classes that override methods or the class
    attributes lang/scalars/prefixes after creation, a class attribute lang = None, keys that are tuples of
    other lengths than 2, logging, URLRetrievalError. *)
From Verif Require Import Model.Py Model.Terms Model.Graph Model.Codec Model.Curie.
Open Scope N_scope.

(** ** Classes *)

(** keys of MetaResource._classes: a type, or a frozenset of types *)
Inductive regkey := KType (iri : str) | KTypes (types : list term).

(** what MetaResource.__new__ leaves in a class; [c_lang] and [c_rdf] are the
    class's own attributes lang and rdf_classes, if it has them; [c_mro] is its
    __mro__ without object *)
Record cls := mkCls {
  c_name : str;
  c_prefixes : dict str str;
  c_scalars : list str;
  c_lang : option str;
  c_rdf : option (list term);
  c_mro : list nat
}.
Definition cls0 : cls := mkCls [] [] [] None None [].
(** all classes, MetaResource._classes (28), and Resource.global_profile (117) *)
Record world := mkW {
  w_classes : list cls;
  w_reg : list (regkey * nat);
  w_gp : dict str str;
  w_gt : tmap
}.
Definition class_at (w : world) (c : nat) : cls := nth c (w_classes w) cls0.

(** Python's method resolution order, the C3 linearisation (type.__new__): not
    pymantic code.  A candidate head must not occur in the tail of any list. *)
Definition c3_good (seqs : list (list nat)) (h : nat) : bool :=
  forallb (fun s => negb (if in_dec Nat.eq_dec h (tl s) then true else false)) seqs.
Fixpoint c3_pick (seqs all : list (list nat)) : option nat :=
  match seqs with
  | [] => None
  | [] :: r => c3_pick r all
  | (h :: _) :: r => if c3_good all h then Some h else c3_pick r all
  end.
Fixpoint c3_merge (fuel : nat) (seqs : list (list nat)) : option (list nat) :=
  match fuel with
  | O => None
  | S f =>
      if forallb (fun s => match s with [] => true | _ => false end) seqs then Some []
      else match c3_pick seqs seqs with
           | None => None
           | Some h =>
               option_map (cons h)
                 (c3_merge f (map (fun s => match s with x :: r => if Nat.eqb x h then r else s | [] => [] end) seqs))
           end
  end.
(** [me]: the number of the new class; None stands for TypeError (duplicate base
    class or inconsistent order) *)
Definition mro_of (w : world) (me : nat) (bases : list nat) : option (list nat) :=
  if (length (nodup Nat.eq_dec bases) =? length bases)%nat then
    let seqs := map (fun b => c_mro (class_at w b)) bases ++ [bases] in
    option_map (cons me) (c3_merge (S (length (concat seqs))) seqs)
  else None.

(** attribute lookup along the mro *)
Fixpoint first_some {A} (l : list (option A)) : option A :=
  match l with [] => None | Some x :: _ => Some x | None :: r => first_some r end.
Definition lang_of (w : world) (c : nat) : str :=
  match first_some (map (fun b => c_lang (class_at w b)) (c_mro (class_at w c))) with Some l => l | None => [] end.
Definition rdf_classes_of (w : world) (c : nat) : list term :=
  match first_some (map (fun b => c_rdf (class_at w b)) (c_mro (class_at w c))) with Some l => l | None => [] end.
Definition is_subclass (w : world) (c d : nat) : bool := if in_dec Nat.eq_dec d (c_mro (class_at w c)) then true else false.

(** MetaResource.__new__: 30-46.  [own] and [scalars] are the dictionary and the
    set in the class body (empty when absent); a scalar that is no CURIE raises
    before the class exists. *)
Fixpoint parse_scalars (ss : list str) (prefixes : dict str str) : res (list str) :=
  match ss with
  | [] => Ok []
  | s :: r => do x <- parse_curie s prefixes ; do xs <- parse_scalars r prefixes ; Ok (x :: xs)
  end.
Definition base_prefixes (w : world) (bases : list nat) : dict str str :=
  fold_left (fun acc b => dupdate str_eq_dec acc (c_prefixes (class_at w b))) bases [].
Definition make_class (w : world) (name : str) (bases : list nat) (own : dict str str) (scalars : list str)
    (lang : option str) (rdfs : option (list term)) : world * res nat :=
  let prefixes := dupdate str_eq_dec (base_prefixes w bases) own in
  match parse_scalars scalars prefixes with
  | Err e => (w, Err e)
  | Ok ss =>
      let me := length (w_classes w) in
      match mro_of w me bases with
      | None => (w, Err TypeError)
      | Some mro =>
          let c := mkCls name prefixes (nodup str_eq_dec (concat (map (fun b => c_scalars (class_at w b)) bases) ++ ss)) lang rdfs mro in
          (mkW (w_classes w ++ [c]) (w_reg w) (w_gp w) (w_gt w), Ok me)
      end
  end.

(** Resource.resolve: 154-160.  [None] when global_profile.resolve finds no term. *)
Definition resolve (w : world) (c : nat) (key : str) : res (option str) :=
  match parse_curie key (c_prefixes (class_at w c)) with
  | Ok x => Ok (Some x)
  | Err ValueError =>
      if str_in_char 58 key then (do x <- pm_resolve (w_gp w) key ; Ok (Some x))
      else Ok (tm_resolve (w_gt w) key)
  | Err e => Err e
  end.

(** register_class: 49-57, for a type that resolves *)
Definition set_reg (w : world) (k : regkey) (c : nat) : world := mkW (w_classes w) ((k, c) :: w_reg w) (w_gp w) (w_gt w).
Definition set_rdf (w : world) (c : nat) (ts : list term) : world :=
  let k := class_at w c in
  mkW (upd (w_classes w) c (mkCls (c_name k) (c_prefixes k) (c_scalars k) (c_lang k) (Some ts) (c_mro k)))
    (w_reg w) (w_gp w) (w_gt w).
Definition register_class (w : world) (rdf_type : str) (c : nat) : world * res unit :=
  match resolve w c rdf_type with
  | Ok (Some iri) => (set_rdf (set_reg w (KType iri) c) c [Iri iri], Ok tt)
  | Ok None => (w, Err TypeError)     (* _classes[None] = ...: outside the model *)
  | Err e => (w, Err e)
  end.
(** the registry is a dict: the latest entry for a key counts *)
Definition same_set (a b : list term) : bool :=
  forallb (fun x => if in_dec term_eq_dec x b then true else false) a &&
  forallb (fun x => if in_dec term_eq_dec x a then true else false) b.
Fixpoint reg_type (r : list (regkey * nat)) (t : term) : option nat :=
  match r with
  | [] => None
  | (KType s, c) :: r' => if term_eq_dec t (Iri s) then Some c else reg_type r' t
  | _ :: r' => reg_type r' t
  end.
Fixpoint reg_types (r : list (regkey * nat)) (ts : list term) : option nat :=
  match r with
  | [] => None
  | (KTypes us, c) :: r' => if same_set ts us then Some c else reg_types r' ts
  | _ :: r' => reg_types r' ts
  end.

(** the classes Resource and List: 67-117, 551-557 *)
Definition rdfs_ns : str := s2l "http://www.w3.org/2000/01/rdf-schema#".
Definition world0 : world :=
  let w := mkW [] [] [(s2l "rdf", rdf_ns); (s2l "xsd", xsd_ns)] (mkTM [] None) in
  let w := fst (make_class w (s2l "Resource") [] [(s2l "rdf", rdf_ns); (s2l "rdfs", rdfs_ns)] [s2l "rdfs:label"] (Some (s2l "en")) (Some [])) in
  fst (make_class w (s2l "List") [O] [] [s2l "rdf:first"; s2l "rdf:rest"] None None).

(** ** Reading *)

(** what classify can return: None, a Literal, or an instance of a class *)
Inductive rval := RNone | RLit (t : term) | RRes (c : nat) (subject : term).

(** Resource(graph, subject): 119-123; a Literal as subject becomes NamedNode(str) *)
Definition as_subject (t : term) : term := match t with Lit v _ _ => Iri v | _ => t end.

(** match(subject, predicate, None) with a resolved predicate *)
Definition pred (p : option str) : oterm := option_map Iri p.
Definition objs (g : graph) (s : term) (p : option str) : list term := map st_o (g_match g (Some s) (pred p) None).

(** bare_literals 179-188, objects_by_lang 190-206, objects_by_datatype 208-224;
    only Literals have the attributes language and datatype *)
Definition is_bare (t : term) : bool := match t with Lit _ None None => true | _ => false end.
Definition bare_literals (g : graph) (s : term) (p : option str) : list term := filter is_bare (objs g s p).
Definition objects_by_lang (g : graph) (s : term) (p : option str) (lang : option str) : list term :=
  match lang with
  | Some (c :: l) => filter (fun t => match t with Lit _ tl _ => lang_match (Some (c :: l)) tl | _ => false end) (objs g s p)
  | Some [] => bare_literals g s p
  | None => filter (fun t => match t with Lit _ (Some _) _ => true | _ => false end) (objs g s p)
  end.
Definition objects_by_datatype (g : graph) (s : term) (p : option str) (dt : option str) : list term :=
  match dt with
  | Some (c :: d) => filter (fun t => match t with Lit _ _ (Some d') => str_eqb d' (c :: d) | _ => false end) (objs g s p)
  | Some [] => bare_literals g s p
  | None => filter (fun t => match t with Lit _ _ (Some _) => true | _ => false end) (objs g s p)
  end.
(** objects: 239-241 *)
Definition objects := objs.

Section Classify.
  (** the order in which a frozenset of types is iterated: any rearrangement *)
  Variable ord : list term -> list term.

  (** classify: 392-428.  The inner test at 402-405 can not succeed: the same
      query is asked twice. *)
  Definition classify (w : world) (c : nat) (g : graph) (obj : term) : world * res rval :=
    match obj with
    | Lit _ _ _ => (w, Ok (RLit obj))
    | _ =>
        match resolve w c (s2l "rdf:type") with
        | Err e => (w, Err e)
        | Ok tp =>
            let types := nodup term_eq_dec (objs g obj tp) in
            let classes := flat_map (fun t => match reg_type (w_reg w) t with Some k => [k] | None => [] end) (ord types) in
            match classes with
            | [] => (w, Ok (RRes O obj))
            | [k] => (w, Ok (RRes k obj))
            | _ =>
                match reg_types (w_reg w) types with
                | Some k => (w, Ok (RRes k obj))
                | None =>
                    match make_class w (concat (map (fun k => c_name (class_at w k)) classes)) classes [] [] None (Some types) with
                    | (w', Ok k) => (set_reg w' (KTypes types) k, Ok (RRes k obj))
                    | (w', Err e) => (w', Err e)
                    end
                end
            end
        end
    end.
  Definition classify_opt (w : world) (c : nat) (g : graph) (obj : option term) : world * res rval :=
    match obj with None => (w, Ok RNone) | Some t => classify w c g t end.

  (** objects_by_type: 226-237 *)
  Definition is_node (t : term) : bool := match t with Lit _ _ _ => false | _ => true end.
  Fixpoint instances (w : world) (c : nat) (g : graph) (k : nat) (l : list term) : world * res (list term) :=
    match l with
    | [] => (w, Ok [])
    | t :: r =>
        if is_node t then
          match classify w c g t with
          | (w1, Err e) => (w1, Err e)
          | (w1, Ok v) =>
              let keep := match v with RRes c' _ => is_subclass w1 c' k | _ => false end in
              let '(w2, x) := instances w1 c g k r in
              (w2, do ts <- x ; Ok (if keep then t :: ts else ts))
          end
        else instances w c g k r
    end.
  Definition objects_by_type (w : world) (c : nat) (g : graph) (s : term) (p : option str) (rc : option nat) : world * res (list term) :=
    match rc with
    | None => (w, Ok (filter is_node (objs g s p)))
    | Some k => instances w c g k (objs g s p)
    end.

  (** ** Keys: a name, or a pair of a name and None, a str (a language), a
      NamedNode (a datatype) or a class *)
  Inductive kfilter := FNone | FLang (l : str) | FType (iri : str) | FClass (k : nat).
  Inductive rkey := KName (s : str) | KPair (s : str) (f : kfilter).
  Definition is_pair (k : rkey) : bool := match k with KPair _ _ => true | _ => false end.

  Definition in_scalars (w : world) (c : nat) (p : option str) : bool :=
    match p with Some x => if in_dec str_eq_dec x (c_scalars (class_at w c)) then true else false | None => false end.
  (** _interpret_datatype: 452-459 *)
  Definition interpret_datatype (d : str) : str := if str_eqb d (xsd "string") then [] else d.
  (** _interpret_key: 430-450: predicate, lang, datatype, rdf_class *)
  Definition interpret_key (w : world) (c : nat) (k : rkey) : res (option str * option str * option str * option nat) :=
    match k with
    | KName s =>
        do p <- resolve w c s ;
        Ok (p, if in_scalars w c p then Some (lang_of w c) else None, None, None)
    | KPair s f =>
        do p <- resolve w c s ;
        Ok (match f with
            | FNone => (p, None, None, None)
            | FLang l => (p, Some l, None, None)
            | FType d => (p, None, Some (interpret_datatype d), None)
            | FClass k => (p, None, None, Some k)
            end)
    end.

  (** _objects_for_key: 461-489.  At most one of lang, datatype, rdf_class is not None. *)
  Definition objects_for_key (w : world) (c : nat) (g : graph) (s : term) (key : rkey) : world * res (option str * list term) :=
    match interpret_key w c key with
    | Err e => (w, Err e)
    | Ok (p, None, None, None) => (w, Ok (p, objects g s p))
    | Ok (p, Some (ch :: l), _, _) =>
        let os := objects_by_lang g s p (Some (ch :: l)) in
        let os := if negb (is_pair key) && in_scalars w c p then
                    match os with
                    | _ :: _ => os
                    | [] => match filter is_node (objs g s p) with
                            | (_ :: _) as ts => ts
                            | [] => match objects_by_datatype g s p None with
                                    | (_ :: _) as ds => ds
                                    | [] => bare_literals g s p
                                    end
                            end
                    end
                  else os in
        (w, Ok (p, if in_scalars w c p then os else os ++ filter is_node (objs g s p)))
    | Ok (p, _, Some (ch :: d), _) =>
        let os := objects_by_datatype g s p (Some (ch :: d)) in
        (w, Ok (p, if in_scalars w c p then os else os ++ filter is_node (objs g s p)))
    | Ok (p, _, _, Some k) =>
        let '(w', x) := objects_by_type w c g s p (Some k) in (w', do os <- x ; Ok (p, os))
    | Ok (p, _, _, None) => (w, Ok (p, bare_literals g s p))
    end.

  (** what r[key] returns: a generator over the objects, each classified when it
      is reached, or one classified object *)
  Inductive gres := Many (objects : list term) | One (v : rval).
  Definition one_or_none {A} (values : list A) : res (option A) :=     (* util.py 23-30 *)
    match values with [] => Ok None | [x] => Ok (Some x) | _ => Err ValueError end.
  (** __getitem__: 254-278; get_scalar: 280-285 *)
  Definition getitem (w : world) (c : nat) (g : graph) (s : term) (key : rkey) : world * res gres :=
    match objects_for_key w c g s key with
    | (w1, Err e) => (w1, Err e)
    | (w1, Ok (p, os)) =>
        if negb (in_scalars w c p) || match key with KPair _ FNone => true | _ => false end then (w1, Ok (Many os))
        else match one_or_none os with
             | Err e => (w1, Err e)
             | Ok o => let '(w2, x) := classify_opt w1 c g o in (w2, do v <- x ; Ok (One v))
             end
    end.
  Definition get_scalar (w : world) (c : nat) (g : graph) (s : term) (key : rkey) : world * res rval :=
    match objects_for_key w c g s key with
    | (w1, Err e) => (w1, Err e)
    | (w1, Ok (p, os)) =>
        match one_or_none os with Err e => (w1, Err e) | Ok o => classify_opt w1 c g o end
    end.
  (** running that generator to its end *)
  Fixpoint classify_all (w : world) (c : nat) (g : graph) (os : list term) : world * (list rval * res unit) :=
    match os with
    | [] => (w, ([], Ok tt))
    | t :: r =>
        match classify w c g t with
        | (w1, Err e) => (w1, ([], Err e))
        | (w1, Ok v) => let '(w2, (vs, x)) := classify_all w1 c g r in (w2, (v :: vs, x))
        end
    end.
  (** __contains__: 350-356 *)
  Definition contains (w : world) (c : nat) (g : graph) (s : term) (key : rkey) : world * res bool :=
    let '(w1, x) := objects_for_key w c g s key in
    (w1, do po <- x ; Ok (match snd po with [] => false | _ => true end)).
  (** __iter__: 358-360 *)
  Definition iter (g : graph) (s : term) : list (term * term) := map (fun t => (st_p t, st_o t)) (g_match g (Some s) None None).
  (** object_of: 243-252, the objects before classification *)
  Definition object_of (w : world) (c : nat) (g : graph) (s : term) (predicate : option str) : res (list (term * term)) :=
    match predicate with
    | None => Ok (map (fun t => (st_s t, st_p t)) (g_match g None None (Some s)))
    | Some key => do p <- resolve w c key ; Ok (map (fun t => (st_s t, st_p t)) (g_match g None (pred p) (Some s)))
    end.
  (** is_a: 143-152 *)
  Definition is_a (w : world) (c : nat) (g : graph) (s : term) : res bool :=
    match rdf_classes_of w c with
    | [] => Ok true
    | l => do tp <- resolve w c (s2l "rdf:type") ;
           Ok (forallb (fun k => match g_match g (Some s) (pred tp) (Some k) with [] => false | _ => true end) l)
    end.
  (** __str__: 386-390; an instance has no attribute value *)
  Definition to_str (w : world) (c : nat) (g : graph) (s : term) : world * res str :=
    match getitem w c g s (KName (s2l "rdfs:label")) with
    | (w1, Err e) => (w1, Err e)
    | (w1, Ok (Many _)) => (w1, Err AttributeError)
    | (w1, Ok (One RNone)) => (w1, Ok (term_str s))
    | (w1, Ok (One (RLit t))) => (w1, Ok (match t with Lit v _ _ => v | _ => [] end))
    | (w1, Ok (One (RRes _ _))) => (w1, Err AttributeError)
    end.

  (** ** Writing *)

  (** removal of the triples (s, p, o) for o in a list, in order: 321-322, 345-346.
      With predicate None no stored triple is meant: KeyError. *)
  Fixpoint remove_objs (g : graph) (s : term) (p : option str) (os : list term) : graph * res unit :=
    match os with
    | [] => (g, Ok tt)
    | o :: r =>
        match p with
        | None => (g, Err KeyError)
        | Some x => match g_remove g (Tr s (Iri x) o) with
                    | (g', Err e) => (g', Err e)
                    | (g', Ok _) => remove_objs g' s p r
                    end
        end
    end.
  (** __delitem__: 339-346 *)
  Definition delitem (w : world) (c : nat) (g : graph) (s : term) (key : rkey) : world * graph * res unit :=
    match objects_for_key w c g s key with
    | (w1, Err e) => (w1, g, Err e)
    | (w1, Ok (p, os)) => let '(g', x) := remove_objs g s p os in (w1, g', x)
    end.

  (** values: a term, an instance, or a Python value Literal(...) is made of;
      one of them or a set of them (set, frozenset, list or tuple) *)
  Inductive aval := ATerm (t : term) | ARes (c : nat) (subject : term) | APy (v : pyval).
  Inductive sval := SOne (a : aval) | SSet (l : list aval).
  (** objectify_value: 588-597 *)
  Definition objectify (w : world) (g : graph) (a : aval) (lang dt : option str) : world * res rval :=
    match a with
    | ATerm (Lit _ _ _ as t) => (w, Ok (RLit t))
    | ATerm t => classify w O g t
    | ARes c s => (w, Ok (RRes c s))
    | APy (VStr s) => (w, do t <- literal_new (VStr s) lang dt ; Ok (RLit t))
    | APy v => (w, do t <- literal_new v None None ; Ok (RLit t))
    end.
  (** literalize: 574-585; a frozenset keeps one of several equal values: two
      Resources are equal when their subjects are *)
  Definition rval_eqb (a b : rval) : bool :=
    match a, b with
    | RNone, RNone => true
    | RLit x, RLit y => if term_eq_dec x y then true else false
    | RRes _ x, RRes _ y => if term_eq_dec x y then true else false
    | _, _ => false
    end.
  Fixpoint objectify_all (w : world) (g : graph) (l : list aval) (lang dt : option str) : world * res (list rval) :=
    match l with
    | [] => (w, Ok [])
    | a :: r =>
        match objectify w g a lang dt with
        | (w1, Err e) => (w1, Err e)
        | (w1, Ok v) => let '(w2, x) := objectify_all w1 g r lang dt in (w2, do vs <- x ; Ok (v :: vs))
        end
    end.
  Fixpoint dedup (seen l : list rval) : list rval :=
    match l with
    | [] => []
    | v :: r => if existsb (rval_eqb v) seen then dedup seen r else v :: dedup (v :: seen) r
    end.
  Inductive lval := LOne (v : rval) | LSet (l : list rval).
  Definition literalize (w : world) (g : graph) (v : sval) (lang dt : option str) : world * res lval :=
    match v with
    | SOne a => let '(w1, x) := objectify w g a lang dt in (w1, do r <- x ; Ok (LOne r))
    | SSet l => let '(w1, x) := objectify_all w g l lang dt in (w1, do r <- x ; Ok (LSet (dedup [] r)))
    end.

  (** _objects_for_implicit_set: 491-509 *)
  Definition objects_for_implicit_set (w : world) (c : nat) (g : graph) (s : term) (p : option str) (v : lval) : res (list term) :=
    if in_scalars w c p then
      match v with
      | LSet _ => Err ValueError
      | LOne (RLit (Lit _ (Some (ch :: l)) _)) =>
          Ok (objects_by_lang g s p (Some (ch :: l)) ++ objects_by_datatype g s p None ++ filter is_node (objs g s p) ++ bare_literals g s p)
      | _ => Ok (objects g s p)
      end
    else Ok (objects g s p).

  (** check_objects: 600-622.  An instance has no attributes language, datatype:
      reading them raises AttributeError.  The datatype is compared with !=. *)
  Definition check_one (w : world) (v : rval) (lang dt : option str) (rc : option nat) : res bool :=
    let lang_ok :=
      if ostr_truthy lang then match v with RLit (Lit _ l _) => Ok (lang_match l lang) | _ => Err AttributeError end else Ok false in
    let dt_ok :=
      if ostr_truthy dt then match v with RLit (Lit _ _ d) => Ok (if ostr_eq_dec d dt then true else false) | _ => Err AttributeError end else Ok false in
    let rc_ok := match rc, v with Some k, RRes c' _ => is_subclass w c' k | _, _ => false end in
    do a <- lang_ok ;
    if (a : bool) then Ok true else do b <- dt_ok ; if (b : bool) then Ok true else Ok rc_ok.
  Fixpoint check_set (w : world) (l : list rval) (lang dt : option str) (rc : option nat) : res bool :=
    match l with
    | [] => Ok true
    | v :: r =>
        let bad_lang := ostr_truthy lang && negb (match v with RLit (Lit _ l _) => lang_match l lang | _ => false end) in
        if bad_lang then Ok false
        else
          do bad_dt <- (if ostr_truthy dt then match v with RLit (Lit _ _ d) => Ok (if ostr_eq_dec d dt then false else true) | _ => Err AttributeError end
                        else Ok false) ;
          if (bad_dt : bool) then Ok false
          else
            match rc with
            | Some k => if match v with RRes c' _ => is_subclass w c' k | _ => false end then check_set w r lang dt rc else Ok false
            | None => check_set w r lang dt rc
            end
    end.
  Definition check_objects (w : world) (v : lval) (lang dt : option str) (rc : option nat) : res bool :=
    match v with LSet l => check_set w l lang dt rc | LOne x => check_one w x lang dt rc end.

  (** _objects_for_explicit_set: 511-533.  Falling off the end gives None, and
      the loop over None (321) raises TypeError. *)
  Definition objects_for_explicit_set (w : world) (c : nat) (g : graph) (s : term) (p : option str) (v : lval)
      (lang dt : option str) (rc : option nat) : world * res (list term) :=
    match check_objects w v lang dt rc with
    | Err e => (w, Err e)
    | Ok false => (w, Err ValueError)
    | Ok true =>
        if ostr_truthy lang then
          if in_scalars w c p then
            (w, Ok (objects_by_lang g s p lang ++ objects_by_datatype g s p None ++ filter is_node (objs g s p)))
          else (w, Ok (objects_by_lang g s p lang ++ filter is_node (objs g s p)))
        else if in_scalars w c p then (w, Ok (objects g s p))
        else if ostr_truthy dt then (w, Ok (objects_by_datatype g s p dt ++ filter is_node (objs g s p)))
        else match rc with
             | Some k => objects_by_type w c g s p (Some k)
             | None => (w, Err TypeError)
             end
    end.

  (** __setitem__: 289-335.  With predicate None a triple with predicate None
      would be stored: outside the model, shown as TypeError. *)
  Definition rval_term (v : rval) : option term :=
    match v with RLit t => Some t | RRes _ s => Some s | RNone => None end.
  Definition lval_terms (v : lval) : list term :=
    flat_map (fun x => match rval_term x with Some t => [t] | None => [] end) (match v with LOne x => [x] | LSet l => l end).
  Definition setitem (w : world) (c : nat) (g : graph) (s : term) (key : rkey) (v : sval) : world * graph * res unit :=
    match interpret_key w c key with
    | Err e => (w, g, Err e)
    | Ok (p, lang, dt, rc) =>
        match literalize w g v lang dt with
        | (w1, Err e) => (w1, g, Err e)
        | (w1, Ok lv) =>
            let '(w2, x) := if is_pair key then objects_for_explicit_set w1 c g s p lv lang dt rc
                            else (w1, objects_for_implicit_set w1 c g s p lv) in
            match x with
            | Err e => (w2, g, Err e)
            | Ok os =>
                match remove_objs g s p os with
                | (g1, Err e) => (w2, g1, Err e)
                | (g1, Ok _) =>
                    match p with
                    | Some y => (w2, g_addAll g1 (map (fun t => Tr s (Iri y) t) (lval_terms lv)), Ok tt)
                    | None => (w2, g1, Err TypeError)
                    end
                end
            end
        end
    end.

  (** copy: 535-545.  Graph.add is given a plain tuple (see Model/Graph.v).  The loop goes
      over the matches at its start; it never gets to a second one. *)
  Fixpoint copy_go (g : graph) (target : term) (l : list stmt) : graph * res unit :=
    match l with
    | [] => (g, Ok tt)
    | t :: r => match g_add_tuple g target (st_p t) (st_o t) with
                | (g1, Ok _) => copy_go g1 target r
                | (g1, Err e) => (g1, Err e)
                end
    end.
  Definition copy (w : world) (c : nat) (g : graph) (s target : term) : world * graph * res rval :=
    match copy_go g target (g_match g (Some s) None None) with
    | (g1, Ok _) => let '(w', x) := classify w c g1 target in (w', g1, x)
    | (g1, Err e) => (w, g1, Err e)
    end.

  (** in_graph: 362-381.  rdf_classes is a frozenset. *)
  Fixpoint in_graph_go (g : graph) (tp : option str) (l subjects : list term) : list term :=
    match l with
    | [] => subjects
    | k :: r =>
        let found := map st_s (g_match g None (pred tp) (Some k)) in
        in_graph_go g tp r
          (match subjects with
           | [] => nodup term_eq_dec found
           | _ => filter (fun x => if in_dec term_eq_dec x found then true else false) subjects
           end)
    end.
  Definition in_graph (w : world) (c : nat) (g : graph) : res (list term) :=
    match rdf_classes_of w c with
    | [] => Ok []
    | l => do tp <- resolve w c (s2l "rdf:type") ; Ok (map as_subject (in_graph_go g tp (ord l) []))
    end.
End Classify.

(** erase: 138-141 *)
Fixpoint remove_all (g : graph) (ts : list stmt) : graph * res unit :=
  match ts with
  | [] => (g, Ok tt)
  | t :: r => match g_remove g t with (g', Err e) => (g', Err e) | (g', Ok _) => remove_all g' r end
  end.
Definition erase (g : graph) (s : term) : graph * res unit := remove_all g (g_match g (Some s) None None).

(** new: 125-136.  The argument is None, a NamedNode or str, or a BlankNode; a
    BlankNode goes through NamedNode(str); [n] is the identity of a new BlankNode. *)
Inductive newarg := NewNone | NewIri (s : str) | NewBNode (a : N).
Definition new_subject (n : N) (a : newarg) : term :=
  match a with NewNone => Iri (bnode_str n) | NewIri s => Iri s | NewBNode b => Iri (bnode_str b) end.
Definition new (w : world) (c : nat) (g : graph) (n : N) (a : newarg) : graph * res (nat * term) :=
  let s := new_subject n a in
  match rdf_classes_of w c with
  | [] => (g, Ok (c, s))
  | l => match resolve w c (s2l "rdf:type") with
         | Ok (Some tp) => (g_addAll g (map (fun k => Tr s (Iri tp) k) l), Ok (c, s))
         | Ok None => (g, Err TypeError)      (* can not happen: the key has a colon *)
         | Err e => (g, Err e)
         end
  end.

(** ** List *)
(** List.__iter__: 559-566; the values yielded so far and how the generator ended.
    [OutOfFuel]: still running after [fuel] rounds. *)
Fixpoint list_iter (ord : list term -> list term) (fuel : nat) (w : world) (c : nat) (g : graph) (s : term)
  : world * (list gres * res unit) :=
  match fuel with
  | O => (w, ([], Err OutOfFuel))
  | S f =>
      match resolve w c (s2l "rdf:nil") with
      | Err e => (w, ([], Err e))
      | Ok nl =>
          if oterm_eq_dec (Some s) (pred nl) then (w, ([], Ok tt))
          else
            match getitem ord w c g s (KName (s2l "rdf:first")) with
            | (w1, Err e) => (w1, ([], Err e))
            | (w1, Ok v) =>
                match getitem ord w1 c g s (KName (s2l "rdf:rest")) with
                | (w2, Err e) => (w2, ([v], Err e))
                | (w2, Ok (One (RRes _ s'))) =>
                    let '(w3, (vs, x)) := list_iter ord f w2 c g s' in (w3, (v :: vs, x))
                | (w2, Ok _) => (w2, ([v], Err AttributeError))
                end
            end
      end
  end.
(** List.is_list: 568-571 *)
Definition is_list (w : world) (c : nat) (g : graph) (node : term) : res bool :=
  do p <- resolve w c (s2l "rdf:rest") ;
  Ok (match g_match g (Some node) (pred p) None with [] => false | _ => true end).
