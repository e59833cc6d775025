(** Importing pymantic.vocab.skos: src/pymantic/vocab/skos.py 1-21. *)
From Verif Require Import Model.Py Model.Terms Model.Curie Model.Resource.
Open Scope N_scope.

(** SKOS_NS: 3 *)
Definition skos_ns : str := s2l "http://www.w3.org/2004/02/skos/core#".

(** A class of the module and, if given, its registration (13-20).  The attributes
    namespaces and scaler of SKOSResource (8, 10) are not the ones MetaResource.__new__
    reads (prefixes and scalars, rdf.py 39, 43), so each class body is empty. *)
Definition skos_class (w : world) (name : str) (base : nat) (type : option str) : world * res nat :=
  match make_class w name [base] [] [] None None with
  | (w1, Err e) => (w1, Err e)
  | (w1, Ok c) =>
      match type with
      | None => (w1, Ok c)
      | Some t => match register_class w1 t c with
                  | (w2, Err e) => (w2, Err e)
                  | (w2, Ok _) => (w2, Ok c)
                  end
      end
  end.
(** executing the module: SKOSResource 7-10, Concept 13-15, ConceptScheme 18-20.  An
    exception ends it; the module is then not in sys.modules, and the next import
    starts again. *)
Definition import_skos (w : world) : world * res (nat * nat * nat) :=
  match skos_class w (s2l "SKOSResource") 0 None with
  | (w1, Err e) => (w1, Err e)
  | (w1, Ok b) =>
      match skos_class w1 (s2l "Concept") b (Some (s2l "skos:Concept")) with
      | (w2, Err e) => (w2, Err e)
      | (w2, Ok c) =>
          match skos_class w2 (s2l "ConceptScheme") b (Some (s2l "skos:ConceptScheme")) with
          | (w3, Err e) => (w3, Err e)
          | (w3, Ok s) => (w3, Ok (b, c, s))
          end
      end
  end.
