(** Specification side of C54-C64: what keys mean, what they select in a set of
    triples, what an assignment replaces and adds.  Only the data types of
    Model/Resource.v are used. *)
From Verif Require Import Model.Py Model.Terms Model.Curie Model.Resource Spec.GraphSpec Spec.CurieSpec.
Open Scope N_scope.

(** ** Kinds of objects *)
Definition node (t : term) : Prop := match t with Lit _ _ _ => False | _ => True end.
Definition bare (t : term) : Prop := exists v, t = Lit v None None.
Definition typed (t : term) : Prop := exists v l d, t = Lit v l (Some d).
Definition typed_as (d : str) (t : term) : Prop := exists v l, t = Lit v l (Some d).
(** two language tags agree: same primary subtag, and equal rests unless one has none *)
Definition tags_agree (a b : str) : Prop :=
  exists p r r', tag_split a p r /\ tag_split b p r' /\ (r = [] \/ r' = [] \/ r = r').
Definition in_lang (l : str) (t : term) : Prop := exists v l' d, t = Lit v (Some l') d /\ tags_agree l l'.

(** ** Keys *)
Definition key_text (k : rkey) : str := match k with KName s => s | KPair s _ => s end.
(** the key (name, None) *)
Definition unfiltered (k : rkey) : Prop := exists t, k = KPair t FNone.
(** the class in a key (name, class) *)
Definition class_key (k : rkey) : option nat := match k with KPair _ (FClass c) => Some c | _ => None end.
Definition term_means (m : tmap) (key iri : str) : Prop :=
  lookup (tm_items m) key iri \/ (unbound (tm_items m) key /\ exists d, tm_default m = Some d /\ iri = d ++ key).
(** a key names a predicate: by the prefixes of the class, else by the global profile *)
Definition key_means (w : world) (c : nat) (key iri : str) : Prop :=
  let own := c_prefixes (class_at w c) in
  curie_means registered_schemes own key iri \/
  ((forall x, ~ curie_means registered_schemes own key x) /\ key <> [] /\
   ((In 58 key /\ curie_means registered_schemes (w_gp w) key iri) \/ (~ In 58 key /\ term_means (w_gt w) key iri))).
Definition scalar (w : world) (c : nat) (p : str) : Prop := In p (c_scalars (class_at w c)).

(** ** Classes *)
Definition registered (w : world) (iri : str) (k : nat) : Prop :=
  exists r1 r2, w_reg w = r1 ++ (KType iri, k) :: r2 /\ forall k', ~ In (KType iri, k') r1.
Definition has_type (G : list stmt) (tp : str) (o : term) (t : str) : Prop := In (Tr o (Iri tp) (Iri t)) G.
(** [o] is an instance of class [k]: every node is one of Resource, and of the
    classes registered for its types and their bases *)
Definition instance (w : world) (G : list stmt) (tp : str) (k : nat) (o : term) : Prop :=
  node o /\ (k = O \/ exists t kc, has_type G tp o t /\ registered w t kc /\ In k (c_mro (class_at w kc))).
(** a class that was written down or registered, not one made by classify *)
Definition written (w : world) (k : nat) : Prop := (k < length (w_classes w))%nat /\ forall us, ~ In (KTypes us, k) (w_reg w).

(** ** What a key selects among the objects of subject [s] and predicate [p] *)
Section Select.
  Variables (G : list stmt) (s : term) (p : str) (scal : Prop) (lang : str) (inst : nat -> term -> Prop).
  Definition has (o : term) : Prop := In (Tr s (Iri p) o) G.
  (** the members of the first of several kinds that is not empty *)
  Fixpoint first_kind (kinds : list (term -> Prop)) (o : term) : Prop :=
    match kinds with
    | [] => False
    | K :: r => K o \/ ((forall x, has x -> ~ K x) /\ first_kind r o)
    end.
  Definition fits_key (k : rkey) (o : term) : Prop :=
    match k with
    | KPair _ FNone => True
    | KPair _ (FLang l) => (l = [] /\ bare o) \/ (l <> [] /\ (in_lang l o \/ (~ scal /\ node o)))
    | KPair _ (FType d) =>
        let plain := d = [] \/ d = w3_xsd ++ s2l "string" in
        (plain /\ bare o) \/ (~ plain /\ (typed_as d o \/ (~ scal /\ node o)))
    | KPair _ (FClass c) => inst c o
    | KName _ => ~ scal \/ (lang = [] /\ bare o) \/ (lang <> [] /\ first_kind [in_lang lang; node; typed; bare] o)
    end.
  Definition selected (k : rkey) (o : term) : Prop := has o /\ fits_key k o.
End Select.

(** ** What an assignment replaces, and what it adds *)
(** the language of the literals made of plain text *)
Definition text_lang (scal : bool) (lang : str) (k : rkey) : option str :=
  match k with KName _ => if scal then Some lang else None | KPair _ (FLang l) => Some l | _ => None end.
Definition text_type (k : rkey) : option str :=
  match k with KPair _ (FType d) => if str_eq_dec d (w3_xsd ++ s2l "string") then Some [] else Some d | _ => None end.
Definition one_value (lang dt : option str) (a : aval) (t : term) : Prop :=
  match a with
  | ATerm t' => t = t'
  | ARes _ s => t = s
  | APy (VStr v) => t = Lit v lang dt
  | APy (VInt z) => exists v, canonical_int v /\ dec_value v = Some z /\ t = Lit v None (Some (w3_xsd ++ s2l "integer"))
  | APy (VDatetime v) => t = Lit v None (Some (w3_xsd ++ s2l "dateTime"))
  | APy VOther => False
  end.
Definition new_value (lang dt : option str) (v : sval) (t : term) : Prop :=
  match v with SOne a => one_value lang dt a t | SSet l => exists a, In a l /\ one_value lang dt a t end.
(** the language of a value that is one literal with a non-empty language tag *)
Definition value_lang (lang dt : option str) (v : sval) : option str :=
  match v with
  | SOne (ATerm (Lit _ (Some (c :: l)) _)) => Some (c :: l)
  | SOne (APy (VStr _)) => match lang with Some (c :: l) => Some (c :: l) | _ => None end
  | _ => None
  end.
Definition replaced (inst : nat -> term -> Prop) (scal : Prop) (vl : option str) (k : rkey) (o : term) : Prop :=
  match k with
  | KName _ => scal -> match vl with Some l => in_lang l o \/ typed o \/ node o \/ bare o | None => True end
  | KPair _ (FLang l) => l <> [] -> in_lang l o \/ node o \/ (scal /\ typed o)
  | KPair _ (FType d) => scal \/ typed_as d o \/ node o
  | KPair _ (FClass c) => scal \/ inst c o
  | KPair _ FNone => True
  end.
(** the values of an assignment; a value fits the filter of a key when it is a
    literal of that language or datatype, or an instance of that class *)
Definition values (v : sval) : list aval := match v with SOne a => [a] | SSet l => l end.
Definition falsy (f : kfilter) : Prop := f = FNone \/ f = FLang [] \/ f = FType [] \/ f = FType (w3_xsd ++ s2l "string").
Definition value_fits (w : world) (inst : nat -> term -> Prop) (f : kfilter) (a : aval) (t : term) : Prop :=
  match f with
  | FNone => False
  | FLang l => in_lang l t
  | FType d => typed_as d t
  | FClass k => match a with ARes c _ => In k (c_mro (class_at w c)) | ATerm t' => inst k t' | APy _ => False end
  end.
(** values the theorems talk about: instances of existing classes (whose subject
    is never a Literal), no empty IRI *)
Definition usable (w : world) (a : aval) : Prop :=
  match a with
  | ATerm t => honoured (Some t)
  | ARes c s => (c < length (w_classes w))%nat /\ node s
  | APy _ => True
  end.
(** the filter is one that a single value can fit, or is ignored for a set *)
Definition form_ok (scal : Prop) (k : rkey) (v : sval) : Prop :=
  match k with
  | KName _ => scal -> exists a, v = SOne a
  | KPair _ f => falsy f -> scal /\ exists l, v = SSet l
  end.
(** no literal has both a language and a datatype (RDF 1.1 has no such literal) *)
Definition sane_literals (G : list stmt) : Prop :=
  forall t v l d, In t G -> st_o t = Lit v (Some l) (Some d) -> False.

(** at most one type of [o] is registered *)
Definition single (w : world) (G : list stmt) (tp : str) (o : term) : Prop :=
  forall t t' k k', has_type G tp o t -> has_type G tp o t' -> registered w t k -> registered w t' k' -> t = t'.

(** the class for a node with at most one registered type *)
Definition own_class (w : world) (G : list stmt) (tp : str) (o : term) (k : nat) : Prop :=
  (forall t j, has_type G tp o t -> registered w t j -> k = j) /\ ((forall t j, has_type G tp o t -> ~ registered w t j) -> k = O).
Definition classed (w : world) (G : list stmt) (tp : str) (o : term) (v : gres) : Prop := forall k x, v = One (RRes k x) -> own_class w G tp o k.

(** ** Class bodies *)
(** the binding of prefix [k] in a class with bases [bases] and own prefixes [own]:
    its own one, else that of the last base that has one *)
Inductive inherits (w : world) (bases : list nat) (own : dict str str) (k v : str) : Prop :=
| from_body : lookup own k v -> inherits w bases own k v
| from_base b1 b b2 : unbound own k -> bases = b1 ++ b :: b2 -> lookup (c_prefixes (class_at w b)) k v ->
    (forall b', In b' b2 -> unbound (c_prefixes (class_at w b')) k) -> inherits w bases own k v.

(** ** Lists *)
(** a class in which the list vocabulary can be used, with scalar first and rest *)
Definition list_keys (w : world) (c : nat) (first rest nil tp : str) : Prop :=
  key_means w c (s2l "rdf:first") first /\ key_means w c (s2l "rdf:rest") rest /\ key_means w c (s2l "rdf:nil") nil /\
  key_means w c (s2l "rdf:type") tp /\ scalar w c first /\ scalar w c rest.
Section Lists.
  Variables (G : list stmt) (first rest nil : str).
  Definition only (s : term) (p : str) (o : term) : Prop := forall x, In (Tr s (Iri p) x) G <-> x = o.
  (** a cell with one element and one successor *)
  Definition cell (s o s' : term) : Prop :=
    s <> Iri nil /\ honoured (Some s) /\ only s first o /\ only s rest s' /\ node s'.
  (** the cells from [s] to [e] and their elements *)
  Inductive path : term -> list term -> term -> Prop :=
  | path_here s : path s [] s
  | path_cell s o s' os e : cell s o s' -> path s' os e -> path s (o :: os) e.
  (** a cell where following the list fails: no next cell, or a literal instead of one *)
  Definition broken (s : term) : Prop :=
    s <> Iri nil /\ honoured (Some s) /\
    ((forall x, ~ In (Tr s (Iri first) x) G) \/ exists o, only s first o) /\
    ((forall x, ~ In (Tr s (Iri rest) x) G) \/ exists o, only s rest o /\ ~ node o).
  (** no element or cell has an empty IRI or several registered types *)
  Definition unambiguous (w : world) (tp : str) : Prop :=
    forall x y, In (Tr x (Iri first) y) G \/ In (Tr x (Iri rest) y) G -> node y -> honoured (Some y) /\ single w G tp y.
  (** what iterating over a List yields for an element, given the language of the
      class: a literal in another language shows as None *)
  Definition shown (lang : str) (o : term) (v : gres) : Prop :=
    match o with
    | Lit _ (Some l) None => (tags_agree lang l -> v = One (RLit o)) /\ (~ tags_agree lang l -> v = One RNone)
    | Lit _ _ _ => v = One (RLit o)
    | _ => exists k, v = One (RRes k o)
    end.
End Lists.

(** the node a subject stands for: itself, or, for a Literal, the IRI spelled by its value *)
Inductive stands_for : term -> term -> Prop :=
| sf_iri i : stands_for (Iri i) (Iri i)
| sf_bnode b : stands_for (BNode b) (BNode b)
| sf_lit v l d : stands_for (Lit v l d) (Iri v).

(** ** The methods that select objects for a predicate (C102) *)
Definition tagged (t : term) : Prop := exists v l d, t = Lit v (Some l) d.
(** [os] are the objects of the triples of [G] with subject [s] and a predicate that
    fits [p], one for each triple *)
Definition objects_of (G : list stmt) (s : term) (p : oterm) (os : list term) : Prop :=
  exists ts, lists ts (fun t => In t G /\ fits (Some s) p None t) /\ os = map st_o ts.
(** the members of a list that are in [K], in their order *)
Inductive keeps {A} (K : A -> Prop) : list A -> list A -> Prop :=
| keeps_nil : keeps K [] []
| keeps_take x l r : K x -> keeps K l r -> keeps K (x :: l) (x :: r)
| keeps_drop x l r : ~ K x -> keeps K l r -> keeps K (x :: l) r.
Definition lang_wanted (lang : option str) (t : term) : Prop :=
  match lang with None => tagged t | Some [] => bare t | Some l => in_lang l t end.
Definition type_wanted (dt : option str) (t : term) : Prop :=
  match dt with None => typed t | Some [] => bare t | Some d => typed_as d t end.

(** no object of [s] and [p] has two registered types *)
Definition unmixed (w : world) (G : list stmt) (tp : str) (s : term) (p : str) : Prop :=
  forall o, has G s p o -> node o -> single w G tp o.
