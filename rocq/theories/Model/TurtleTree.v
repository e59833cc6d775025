(** Parse trees of the Turtle grammar, parsers/lark/turtle.py 35-62, with the
    tokens as texts.  Data types only. *)
From Verif Require Import Model.Py.

Inductive tiri :=
| TRef (body : str)                 (* IRIREF, without the angle brackets *)
| TPn (tok : str).                  (* PNAME_LN or PNAME_NS, the whole token *)
Inductive tverb := VA | VIri (i : tiri).
Inductive tnum := NInteger | NDecimal | NDouble.
Inductive tsuffix := SfNone | SfLang (tag : str) (* after the "@" *) | SfType (i : tiri).
Inductive tlit :=
| TStr (body : str) (x : tsuffix)   (* a quoted string of any of the four kinds, without its quotes *)
| TNum (k : tnum) (tok : str)
| TBool (tok : str).
Inductive tobj :=
| TIri (i : tiri)
| TLabel (l : str)                  (* BLANK_NODE_LABEL, with its "_:" *)
| TAnon                             (* ANON *)
| TColl (l : tobjs)                 (* collection *)
| TProps (p : tpol)                 (* blank_node_property_list *)
| TLit (x : tlit)
with tobjs := ONil | OCons (o : tobj) (r : tobjs)
with tpol := PNil | PCons (v : tverb) (os : tobjs) (r : tpol).   (* predicate_object_list *)
(** statement: prefix_id or sparql_prefix (namespace token without its colon,
    IRIREF), base or sparql_base, triples.  [STriples s PNil] is a
    blank_node_property_list without a predicate_object_list (line 43). *)
Inductive tstmt :=
| SPrefix (ns : str) (iri : str)
| SBase (iri : str)
| STriples (s : tobj) (p : tpol).

