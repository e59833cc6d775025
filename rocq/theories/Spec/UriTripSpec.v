(** Which names survive Turtle output and urllib's resolution of references (C88). *)
From Verif Require Import Model.Py Model.Terms Spec.GraphSpec Spec.CurieSpec Spec.TurtleSpec Spec.TurtleTextSpec Spec.TurtleOutSpec Spec.UriSpec.
Open Scope N_scope.

(** the base that a reader has after the header, having started with [B0] *)
Definition base_after (B0 : str) (base : option str) : str := match base with Some b => b | None => B0 end.
(** the header can be written, and its IRIs are absolute *)
Definition header_fit (pm : dict str str) (B0 : str) (base : option str) : Prop :=
  NoDup (map fst pm) /\ lookup pm (s2l "xsd") (xsd_iri "") /\ (forall ns, In (s2l "rdf", ns) pm -> ns = rdf_name "") /\
  (forall p ns, In (p, ns) pm -> pn_prefix p /\ legal_text ns /\ rfc_resolves (base_after B0 base) ns ns) /\
  (forall b, base = Some b -> legal_text b /\ rfc_resolves B0 b b).
Definition outside (pm : dict str str) (s : str) : Prop := forall p ns, In (p, ns) pm -> ~ prefix_of ns s.

Inductive fit_iri (pm : dict str str) (B0 : str) (base : option str) (s : str) : Prop :=
(** outside of all namespaces and the base *)
| FiFull : outside pm s -> not_based base s -> legal_text s -> rfc_resolves (base_after B0 base) s s -> fit_iri pm B0 base s
(** in a namespace, the rest being a local name without characters to be escaped *)
| FiShort p ns r : s = ns ++ r -> chosen pm (ns ++ r) p ns -> ns <> [] -> ~ occurs_in ns r -> p ++ 58 :: r <> ns ++ r -> not_based base (p ++ 58 :: r) ->
    pn_local r -> ~ In 92 r -> fit_iri pm B0 base s
(** below a base that ends in a slash; the rest is a reference *)
| FiBelow B R : base = Some (uri_text B) -> base_ok B -> ends_with (r_path B) [47] -> r_query B = None -> r_frag B = None ->
    s = uri_text B ++ uri_text R -> outside pm s -> ~ occurs_in (uri_text B) (uri_text R) -> legal_text (uri_text R) ->
    ref_ok B R -> (forall q, r_path R <> 47 :: q) -> no_dot_segment (r_path B ++ r_path R) -> fit_iri pm B0 base s
(** a fragment of a base that ends in a number sign *)
| FiFragment B f : base = Some (uri_text B) -> base_ok B -> r_frag B = Some [] ->
    s = uri_text B ++ f -> outside pm s -> ~ occurs_in (uri_text B) f -> legal_text f -> ~ In 35 f -> fit_iri pm B0 base s.
Definition fit_node (pm : dict str str) (B0 : str) (base : option str) (x : term) : Prop :=
  match x with
  | Iri s => fit_iri pm B0 base s
  | Lit v l d => (forall dt, d = Some dt -> legal_text dt) /\ legal_literal v l d
  | BNode _ => True
  end.
(** all the nodes that are written *)
Definition fit_graph (pm : dict str str) (B0 : str) (base : option str) (G : list stmt) : Prop :=
  forall t, In t G -> ~ list_cell G (st_s t) ->
    fit_node pm B0 base (st_s t) /\ fit_node pm B0 base (st_p t) /\ (~ list_cell G (st_o t) -> fit_node pm B0 base (st_o t)) /\
    (forall os x, list_of G (st_o t) os -> In x os -> fit_node pm B0 base x).
