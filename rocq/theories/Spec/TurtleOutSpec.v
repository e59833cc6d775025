(** Specification side of C46, C48, C80 and C84-C86: which triples Turtle output
    covers, and what it should read back as. *)
From Coq Require Import Sorted.
From Verif Require Import Model.Py Model.Terms Model.TurtleTree Model.Resource Model.TurtleOut Spec.GraphSpec Spec.CodecSpec Spec.CurieSpec
  Spec.TurtleSpec Spec.TurtleTextSpec Spec.ResourceSpec.
Open Scope N_scope.

Definition rdf_name (n : string) : str := s2l "http://www.w3.org/1999/02/22-rdf-syntax-ns#" ++ s2l n.
(** a node with an rdf:rest *)
Definition list_cell (G : list stmt) (o : term) : Prop := exists x, In (Tr o (rdf_iri "rest") x) G.
(** the list starting at [o] has the elements [os] and ends in rdf:nil *)
Definition list_of (G : list stmt) (o : term) (os : list term) : Prop :=
  path G (rdf_name "first") (rdf_name "rest") (rdf_name "nil") o os (Iri (rdf_name "nil")).
(** a list that ends in rdf:nil, or breaks off, after [n] elements *)
Definition plain_list (G : list stmt) (o : term) (n : nat) : Prop :=
  exists os e, length os = n /\ path G (rdf_name "first") (rdf_name "rest") (rdf_name "nil") o os e /\
    (e = Iri (rdf_name "nil") \/ broken G (rdf_name "first") (rdf_name "rest") (rdf_name "nil") e).
(** no empty IRIs, and no list node with several types that are registered *)
Definition no_empty_iri (t : stmt) : Prop := honoured (Some (st_s t)) /\ honoured (Some (st_p t)) /\ honoured (Some (st_o t)).
Definition list_types_clear (w : world) (G : list stmt) : Prop :=
  unambiguous G (rdf_name "first") (rdf_name "rest") w (rdf_name "type").
(** words separated by spaces *)
Fixpoint spaced (l : list str) : str := match l with [] => [] | [x] => x | x :: r => x ++ [32] ++ spaced r end.
(** a literal that a List shows: one with a datatype, without a language, or in English *)
Definition en_literal (o : term) : Prop := exists v l d, o = Lit v l d /\ (d = None -> forall t, l = Some t -> tags_agree (s2l "en") t).
(** RDF triples *)
Definition rdf_triple (t : stmt) : Prop := node (st_s t) /\ exists p, st_p t = Iri p.

(** the graphs meant here: RDF triples without empty IRIs; list nodes have at most
    one registered type; and an object that is a list cell starts a list of fewer
    than [fuel] cells that ends in rdf:nil or breaks off *)
Definition usual (w : world) (G : list stmt) (subjects : list term) (fuel : nat) : Prop :=
  (forall s, In s subjects -> node s /\ honoured (Some s)) /\
  (forall t, In t G -> rdf_triple t /\ no_empty_iri t) /\
  list_types_clear w G /\
  (forall t, In t G -> list_cell G (st_o t) -> exists n, plain_list G (st_o t) n /\ (n < fuel)%nat).
(** an object that can be written: no blank node, unless it starts a list of such literals *)
Definition printable_object (G : list stmt) (o : term) : Prop :=
  ~ list_cell G o /\ (forall b, o <> BNode b) \/ list_cell G o /\ exists os, list_of G o os /\ Forall en_literal os.
Definition printable (G : list stmt) (subjects : list term) : Prop :=
  (forall s, In s subjects -> ~ list_cell G s -> forall b, s <> BNode b) /\
  (forall t, In t G -> ~ list_cell G (st_s t) -> printable_object G (st_o t)).

(** ** The layout of the output *)
(** what is written for an object *)
Definition object_text (pm : dict str str) (base : option str) (G : list stmt) (o : term) (t : str) : Prop :=
  ~ list_cell G o /\ turtle_repr pm base o = Ok t \/
  list_cell G o /\ exists os names, list_of G o os /\ Forall2 (fun x n => turtle_repr pm base x = Ok n) os names /\ t = s2l "(" ++ spaced names ++ s2l ")".
(** code point order, and names in order (equal names are ordered by the IRIs) *)
Inductive str_lt : str -> str -> Prop :=
| lt_nil c s : str_lt [] (c :: s)
| lt_head c d a b : c < d -> str_lt (c :: a) (d :: b)
| lt_tail c a b : str_lt a b -> str_lt (c :: a) (c :: b).
Definition before (a b : str * term) : Prop :=
  str_lt (fst a) (fst b) \/ fst a = fst b /\ exists i j, snd a = Iri i /\ snd b = Iri j /\ str_lt i j.
(** a predicate with its objects, a subject with its predicates *)
Definition pred_part : Type := str * term * list (str * term).
Definition subj_part : Type := str * term * list pred_part.
Definition blanks (n : nat) : str := repeat 32 n.
Definition newline : str := [10].
Fixpoint objs_text (ind : str) (l : list (str * term)) : str :=
  match l with [] => [] | [(t, _)] => t | (t, _) :: r => t ++ s2l "," ++ newline ++ ind ++ objs_text ind r end.
Definition pred_text (n : nat) (e : pred_part) : str :=
  let '(pn, _, ol) := e in pn ++ s2l " " ++ objs_text (blanks (n + length pn + 1)) ol ++ s2l " ;" ++ newline.
Fixpoint preds_text (n : nat) (l : list pred_part) : str :=
  match l with [] => [] | [e] => pred_text n e | e :: r => pred_text n e ++ blanks n ++ preds_text n r end.
Definition block_text (b : subj_part) : str :=
  let '(sn, _, pl) := b in sn ++ s2l " " ++ preds_text (S (length sn)) pl ++ blanks (S (length sn)) ++ s2l "." ++ newline ++ newline.
Definition laid_pred (pm : dict str str) (base : option str) (G : list stmt) (s : term) (e : pred_part) : Prop :=
  let '(pn, p, ol) := e in
  turtle_repr pm base p = Ok pn /\ lists (map snd ol) (fun o => In (Tr s p o) G) /\ Forall (fun to => object_text pm base G (snd to) (fst to)) ol.
Definition laid_block (pm : dict str str) (base : option str) (G : list stmt) (b : subj_part) : Prop :=
  let '(sn, s, pl) := b in
  turtle_repr pm base s = Ok sn /\ lists (map (fun e => snd (fst e)) pl) (fun p => exists o, In (Tr s p o) G) /\
  StronglySorted before (map fst pl) /\ Forall (laid_pred pm base G s) pl.
(** the blocks of the subjects that are no list cells, in the order of their names *)
Definition laid_out (pm : dict str str) (base : option str) (G : list stmt) (subjects : list term) (bl : list subj_part) : Prop :=
  lists (map (fun b => snd (fst b)) bl) (fun s => In s subjects /\ ~ list_cell G s) /\
  StronglySorted before (map fst bl) /\ Forall (laid_block pm base G) bl.
(** the same elements in any order *)
Definition same_elements {A} (l l' : list A) : Prop := forall x, In x l <-> In x l'.
(** at most one object for each subject and predicate *)
Definition one_object (G : list stmt) : Prop := forall s p o o', In (Tr s p o) G -> In (Tr s p o') G -> o = o'.

(** a literal as every Turtle reader understands its Turtle text: a literal
    without language and datatype is an xsd:string, and a literal with both
    keeps the datatype *)
Definition read_back (o : term) : term :=
  match o with
  | Lit v (Some (c :: l)) None => Lit v (Some (c :: l)) None
  | Lit v _ None => Lit v None (Some (xsd_iri "string"))
  | Lit v _ (Some d) => Lit v None (Some d)
  | _ => o
  end.
(** a triple and the triples it is read back as; [bs]: new blank nodes, one per list cell *)
Inductive reads_as (G : list stmt) : stmt -> list stmt -> list N -> Prop :=
| ra_plain : forall s p o, ~ list_cell G o -> reads_as G (Tr s p o) [tr3 s p (read_back o)] []
| ra_list : forall s p o os bs, list_cell G o -> list_of G o os -> length bs = length os ->
    reads_as G (Tr s p o) (tr3 s p (list_head bs) :: chain bs (map read_back os)) bs.
Inductive all_read_as (G : list stmt) : list stmt -> list stmt -> list N -> Prop :=
| ara_nil : all_read_as G [] [] []
| ara_cons : forall t l ts bs ts' bs', reads_as G t ts bs -> all_read_as G l ts' bs' -> all_read_as G (t :: l) (ts ++ ts') (bs ++ bs').
(** [ts] is what is left of the graph [G]: the triples whose subject is no list
    cell, with the lists that are their objects; the rest is lost *)
Definition graph_reads_as (G ts : list stmt) (bs : list N) : Prop :=
  exists l, NoDup l /\ (forall t, In t l <-> In t G /\ ~ list_cell G (st_s t)) /\ all_read_as G l ts bs /\ NoDup bs.

Section Readable.
  Variable resolves : str -> str -> str -> Prop.
  (** an environment with the prefixes of [pm] and the base [B] *)
  Definition env_with (pm : dict str str) (B : str) (e : tenv) : Prop :=
    (forall p ns, lookup pm p ns -> e_pfx e p = Some ns) /\ e_base e = B.
  (** a text reads as an IRI / as a literal wherever these prefixes and base are in force *)
  Definition text_is_iri (pm : dict str str) (B : str) (text iri : str) : Prop :=
    exists i, iri_text i text /\ forall e, env_with pm B e -> iri_means resolves e i iri.
  Definition text_is_lit (pm : dict str str) (B : str) (text : str) (t : term) : Prop :=
    exists x, lit_text ws0 x text /\ forall e, env_with pm B e -> lit_means resolves e x t.
End Readable.

(** local names that can be written with the escapes of PN_LOCAL_ESC alone: a colon is none of them *)
Definition escapable (r : str) : Prop :=
  Forall (fun c => pn_char c \/ local_esc c) r /\ (forall c t, r = c :: t -> pn_u c \/ digit10 c \/ local_esc c).

(** ** The header, as directives: the base first, then the prefixes in dictionary
    order; the prefix rdf is never declared *)
Definition directives (pm : dict str str) (base : option str) : list tstmt :=
  match base with Some b => [SBase b] | None => [] end ++
  map (fun pn => SPrefix (fst pn) (snd pn)) (filter (fun pn => if str_eq_dec (fst pn) (s2l "rdf") then false else true) pm).
Definition legal_text (s : str) : Prop := Forall (fun c => ~ iri_illegal c) s.
(** the names and IRIs can be written in directives ... *)
Definition header_legal (pm : dict str str) (base : option str) : Prop :=
  (forall b, base = Some b -> legal_text b) /\ (forall p ns, In (p, ns) pm -> p <> s2l "rdf" -> pn_prefix p /\ legal_text ns).
Section RoundTrip.
  Variable resolves : str -> str -> str -> Prop.
  (** ... and a reader that starts with the base [B0] ends up with the base [B] and the bindings of [pm] *)
  Definition header_means (B0 : str) (base : option str) (B : str) (pm : dict str str) : Prop :=
    match base with Some b => resolves B0 b B | None => B = B0 end /\
    NoDup (map fst pm) /\ (forall p ns, In (p, ns) pm -> p <> s2l "rdf" -> resolves B ns ns) /\
    (forall ns, In (s2l "rdf", ns) pm -> ns = rdf_name "").
  (** the text of a node reads as the node *)
  Definition readable (pm : dict str str) (base : option str) (B : str) (x : term) : Prop :=
    forall t, turtle_repr pm base x = Ok t ->
      match x with
      | Iri s => text_is_iri resolves pm B t s
      | Lit _ _ _ => text_is_lit resolves pm B t (read_back x)
      | BNode _ => True
      end.
  (** all the nodes that are written are *)
  Definition readable_graph (pm : dict str str) (base : option str) (B : str) (G : list stmt) : Prop :=
    forall t, In t G -> ~ list_cell G (st_s t) ->
      readable pm base B (st_s t) /\ readable pm base B (st_p t) /\ (~ list_cell G (st_o t) -> readable pm base B (st_o t)) /\
      (forall os x, list_of G (st_o t) os -> In x os -> readable pm base B x).
End RoundTrip.
(** no subject is left from removed triples *)
Definition no_stale_subjects (G : list stmt) (subjects : list term) : Prop := forall s, In s subjects -> exists p o, In (Tr s p o) G.
(** a list is the only object of its subject and predicate *)
Definition lists_alone (G : list stmt) : Prop :=
  forall s p o o', In (Tr s p o) G -> In (Tr s p o') G -> list_cell G o -> o' = o.
(** the base, if there is one, is no beginning of [s] *)
Definition not_based (base : option str) (s : str) : Prop := forall b, base = Some b -> b <> [] -> ~ prefix_of b s.
(** a literal whose text can be read: without a quote, backslash or line end, and
    with a tag that is one; numbers and truth values in their syntax *)
Definition legal_literal (v : str) (l d : option str) : Prop :=
  match d with
  | None => Forall plain_char v /\ (forall c t, l = Some (c :: t) -> lang_tag (c :: t))
  | Some dt => dt = xsd_iri "string" /\ Forall plain_char v \/ dt = xsd_iri "integer" /\ num_text NInteger v \/ dt = xsd_iri "decimal" /\ num_text NDecimal v \/
      dt = xsd_iri "double" /\ num_text NDouble v \/ dt = xsd_iri "boolean" /\ (v = s2l "true" \/ v = s2l "false")
  end.
