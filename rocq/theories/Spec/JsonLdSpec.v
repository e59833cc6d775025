(** Specification side of C68: the quads of a dataset in the sense of JSON-LD. *)
From Verif Require Import Model.Py Model.Terms Model.JsonLd.
Open Scope N_scope.
(** [f] says which blank node a label stands for *)
Definition frag_term (f : str -> N) (x : frag) : term :=
  match x with FIri v => Iri v | FBlank l => BNode (f l) | FLit v d l => Lit v l (Some d) end.
(** the quad [q] is in the data *)
Definition in_data (f : str -> N) (data : rdf_dataset) (q : stmt) : Prop :=
  exists name ts t, In (name, ts) data /\ In t ts /\
    st_s q = frag_term f (jt_s t) /\ st_p q = frag_term f (jt_p t) /\ st_o q = frag_term f (jt_o t) /\
    ((name = s2l "@default" /\ st_graph q = Some None) \/ (name <> s2l "@default" /\ st_graph q = Some (Some (Iri name)))).
Definition label_in (data : rdf_dataset) (l : str) : Prop :=
  exists name ts t, In (name, ts) data /\ In t ts /\ In (FBlank l) [jt_s t; jt_p t; jt_o t].
(** the same with graph names that are blank node labels, as in RDF *)
Definition blank_label (s : str) : Prop := exists r, s = s2l "_:" ++ r.
Definition in_rdf (f : str -> N) (data : rdf_dataset) (q : stmt) : Prop :=
  exists name ts t, In (name, ts) data /\ In t ts /\
    st_s q = frag_term f (jt_s t) /\ st_p q = frag_term f (jt_p t) /\ st_o q = frag_term f (jt_o t) /\
    ((name = s2l "@default" /\ st_graph q = Some None) \/
     (name <> s2l "@default" /\ (exists r, name = s2l "_:" ++ r /\ st_graph q = Some (Some (BNode (f name))))) \/
     (name <> s2l "@default" /\ ~ blank_label name /\ st_graph q = Some (Some (Iri name)))).
