(** One JSON-LD parser used many times: programs of calls of parse_json and of
    document.parse or document.parse_file (src/pymantic/parsers/jsonld.py 19-34). *)
From Verif Require Import Model.Py Model.Terms Model.Graph Model.Dataset Model.JsonLd.

(** a call, with what to_rdf gives for its document (or json.loads or to_rdf raise) *)
Inductive jcall := JParse (sink : option nat) (rdf : res rdf_dataset) | JDoc (rdf : res rdf_dataset).
(** parse_json returns its sink (27-34), document.parse nothing (19-25) *)
Definition jr_step (st : jstate) (c : jcall) : jstate * res (option nat) :=
  match c with
  | JParse sink rdf => match parse_json st sink rdf with (st', Ok i) => (st', Ok (Some i)) | (st', Err e) => (st', Err e) end
  | JDoc rdf => match document_parse st rdf with (st', Ok _) => (st', Ok None) | (st', Err e) => (st', Err e) end
  end.
Fixpoint jr_run (st : jstate) (calls : list jcall) : jstate * list (res (option nat)) :=
  match calls with
  | [] => (st, [])
  | c :: r => let '(st1, x) := jr_step st c in let '(st2, xs) := jr_run st1 r in (st2, x :: xs)
  end.
