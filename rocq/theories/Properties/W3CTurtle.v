(** The W3C Turtle test suite in tests/TurtleTests, which tests/test_turtle.py runs on the
    code, run on the model: the 278 entries of manifest.ttl.  Each test is the name of a
    file and its bytes; an evaluation test also has the bytes of the N-Triples file with
    the expected graph.  The lists below were made from those files by a script. *)
From Verif Require Import Model.Py Model.Terms Model.Graph Model.Codec Model.NTriples Model.Curie Model.UrlJoin Model.Turtle Model.TurtleParse.
Open Scope N_scope.

(** urljoin; the checks of hosts in brackets and of odd characters in hosts do not matter here *)
Definition uj := urljoin (fun _ => true) (fun _ => true).
(** test_turtle.py 58: the base is the place of the suite on the web and the file name *)
Definition base_of (name : string) : str := s2l "http://www.w3.org/2013/TurtleTests/" ++ s2l name.
Definition read_turtle (name : string) (bytes : list N) : option (list stmt) :=
  match turtle_parse uj 0 (base_of name) (graph_new None) (SrcBytes bytes) with Some (_, g, Ok _) => Some (g_iter g) | _ => None end.
(** the expected graph; the numbers of its blank nodes do not matter *)
Definition read_expected (bytes : list N) : option (list stmt) :=
  match parse_bytes false 0 (graph_new None) bytes with (_, g, Ok _) => Some (g_iter g) | _ => None end.

(** Two graphs are the same up to the names of blank nodes: a one-to-one pairing of blank
    nodes is sought that turns the triples of one into those of the other.  A literal
    without language and datatype is the same as one with the datatype xsd:string. *)
Definition plain (t : term) : term := match t with Lit v None None => Lit v None (Some (xsd "string")) | _ => t end.
Definition pair_terms (m : list (N * N)) (a b : term) : option (list (N * N)) :=
  match a, b with
  | BNode i, BNode j =>
      match find (fun x => (fst x =? i) || (snd x =? j)) m with
      | Some (i', j') => if (i' =? i) && (j' =? j) then Some m else None
      | None => Some ((i, j) :: m)
      end
  | _, _ => if term_eq_dec (plain a) (plain b) then Some m else None
  end.
Definition pair_stmts (m : list (N * N)) (a b : stmt) : option (list (N * N)) :=
  match pair_terms m (st_s a) (st_s b) with
  | None => None
  | Some m => match pair_terms m (st_p a) (st_p b) with None => None | Some m => pair_terms m (st_o a) (st_o b) end
  end.
Fixpoint same_graph (m : list (N * N)) (g h : list stmt) : bool :=
  match g with
  | [] => match h with [] => true | _ => false end
  | t :: g' =>
      (fix go (before after : list stmt) : bool :=
         match after with
         | [] => false
         | u :: r => match pair_stmts m t u with Some m' => same_graph m' g' (rev_append before r) | None => false end || go (u :: before) r
         end) [] h
  end.

Definition eval_tests : list (string * list N * list N) := [
  ("IRI_subject.ttl", [60;104;116;116;112;58;47;47;97;46;101;120;97;109;112;108;101;47;115;62;32;60;104;116;116;112;58;47;47;97;46;101;120;97;109;112;108;101;47;112;62;32;60;104;116;116;112;58;47;47;97;46;101;120;97;109;112;108;101;47;111;62;32;46;10],
   [60;104;116;116;112;58;47;47;97;46;101;120;97;109;112;108;101;47;115;62;32;60;104;116;116;112;58;47;47;97;46;101;120;97;109;112;108;101;47;112;62;32;60;104;116;116;112;58;47;47;97;46;101;120;97;109;112;108;101;47;111;62;32;46;10]);
  ("IRI_with_four_digit_numeric_escape.ttl", [60;104;116;116;112;58;47;47;97;46;101;120;97;109;112;108;101;47;92;117;48;48;55;51;62;32;60;104;116;116;112;58;47;47;97;46;101;120;97;109;112;108;101;47;112;62;32;60;104;116;116;112;58;47;47;97;46;101;120;97;109;112;108;101;47;111;62;32;46;10],
   [60;104;116;116;112;58;47;47;97;46;101;120;97;109;112;108;101;47;115;62;32;60;104;116;116;112;58;47;47;97;46;101;120;97;109;112;108;101;47;112;62;32;60;104;116;116;112;58;47;47;97;46;101;120;97;109;112;108;101;47;111;62;32;46;10]);
  ("IRI_with_eight_digit_numeric_escape.ttl", [60;104;116;116;112;58;47;47;97;46;101;120;97;109;112;108;101;47;92;85;48;48;48;48;48;48;55;51;62;32;60;104;116;116;112;58;47;47;97;46;101;120;97;109;112;108;101;47;112;62;32;60;104;116;116;112;58;47;47;97;46;101;120;97;109;112;108;101;47;111;62;32;46;10],
   [60;104;116;116;112;58;47;47;97;46;101;120;97;109;112;108;101;47;115;62;32;60;104;116;116;112;58;47;47;97;46;101;120;97;109;112;108;101;47;112;62;32;60;104;116;116;112;58;47;47;97;46;101;120;97;109;112;108;101;47;111;62;32;46;10]);
  ("IRI_with_all_punctuation.ttl", [60;115;99;104;101;109;101;58;33;36;37;50;53;38;97;109;112;59;39;40;41;42;43;44;45;46;47;48;49;50;51;52;53;54;55;56;57;58;47;64;65;66;67;68;69;70;71;72;73;74;75;76;77;78;79;80;81;82;83;84;85;86;87;88;89;90;95;97;98;99;100;101;102;103;104;105;106;107;108;109;110;111;112;113;114;115;116;117;118;119;120;121;122;126;63;35;62;32;60;104;116;116;112;58;47;47;97;46;101;120;97;109;112;108;101;47;112;62;32;60;104;116;116;112;58;47;47;97;46;101;120;97;109;112;108;101;47;111;62;32;46;10],
   [60;115;99;104;101;109;101;58;33;36;37;50;53;38;97;109;112;59;39;40;41;42;43;44;45;46;47;48;49;50;51;52;53;54;55;56;57;58;47;64;65;66;67;68;69;70;71;72;73;74;75;76;77;78;79;80;81;82;83;84;85;86;87;88;89;90;95;97;98;99;100;101;102;103;104;105;106;107;108;109;110;111;112;113;114;115;116;117;118;119;120;121;122;126;63;35;62;32;60;104;116;116;112;58;47;47;97;46;101;120;97;109;112;108;101;47;112;62;32;60;104;116;116;112;58;47;47;97;46;101;120;97;109;112;108;101;47;111;62;32;46;10]);
  ("bareword_a_predicate.ttl", [60;104;116;116;112;58;47;47;97;46;101;120;97;109;112;108;101;47;115;62;32;97;32;60;104;116;116;112;58;47;47;97;46;101;120;97;109;112;108;101;47;111;62;32;46;10],
   [60;104;116;116;112;58;47;47;97;46;101;120;97;109;112;108;101;47;115;62;32;60;104;116;116;112;58;47;47;119;119;119;46;119;51;46;111;114;103;47;49;57;57;57;47;48;50;47;50;50;45;114;100;102;45;115;121;110;116;97;120;45;110;115;35;116;121;112;101;62;32;60;104;116;116;112;58;47;47;97;46;101;120;97;109;112;108;101;47;111;62;32;46;10]);
  ("old_style_prefix.ttl", [64;112;114;101;102;105;120;32;112;58;32;60;104;116;116;112;58;47;47;97;46;101;120;97;109;112;108;101;47;62;46;10;112;58;115;32;60;104;116;116;112;58;47;47;97;46;101;120;97;109;112;108;101;47;112;62;32;60;104;116;116;112;58;47;47;97;46;101;120;97;109;112;108;101;47;111;62;32;46;10],
   [60;104;116;116;112;58;47;47;97;46;101;120;97;109;112;108;101;47;115;62;32;60;104;116;116;112;58;47;47;97;46;101;120;97;109;112;108;101;47;112;62;32;60;104;116;116;112;58;47;47;97;46;101;120;97;109;112;108;101;47;111;62;32;46;10]);
  ("SPARQL_style_prefix.ttl", [80;82;69;70;73;88;32;112;58;32;60;104;116;116;112;58;47;47;97;46;101;120;97;109;112;108;101;47;62;10;112;58;115;32;60;104;116;116;112;58;47;47;97;46;101;120;97;109;112;108;101;47;112;62;32;60;104;116;116;112;58;47;47;97;46;101;120;97;109;112;108;101;47;111;62;32;46;10],
   [60;104;116;116;112;58;47;47;97;46;101;120;97;109;112;108;101;47;115;62;32;60;104;116;116;112;58;47;47;97;46;101;120;97;109;112;108;101;47;112;62;32;60;104;116;116;112;58;47;47;97;46;101;120;97;109;112;108;101;47;111;62;32;46;10]);
  ("prefixed_IRI_predicate.ttl", [64;112;114;101;102;105;120;32;112;58;32;60;104;116;116;112;58;47;47;97;46;101;120;97;109;112;108;101;47;62;46;10;60;104;116;116;112;58;47;47;97;46;101;120;97;109;112;108;101;47;115;62;32;112;58;112;32;60;104;116;116;112;58;47;47;97;46;101;120;97;109;112;108;101;47;111;62;32;46;10],
   [60;104;116;116;112;58;47;47;97;46;101;120;97;109;112;108;101;47;115;62;32;60;104;116;116;112;58;47;47;97;46;101;120;97;109;112;108;101;47;112;62;32;60;104;116;116;112;58;47;47;97;46;101;120;97;109;112;108;101;47;111;62;32;46;10]);
  ("prefixed_IRI_object.ttl", [64;112;114;101;102;105;120;32;112;58;32;60;104;116;116;112;58;47;47;97;46;101;120;97;109;112;108;101;47;62;46;10;60;104;116;116;112;58;47;47;97;46;101;120;97;109;112;108;101;47;115;62;32;60;104;116;116;112;58;47;47;97;46;101;120;97;109;112;108;101;47;112;62;32;112;58;111;32;46;10],
   [60;104;116;116;112;58;47;47;97;46;101;120;97;109;112;108;101;47;115;62;32;60;104;116;116;112;58;47;47;97;46;101;120;97;109;112;108;101;47;112;62;32;60;104;116;116;112;58;47;47;97;46;101;120;97;109;112;108;101;47;111;62;32;46;10]);
  ("prefix_only_IRI.ttl", [64;112;114;101;102;105;120;32;112;58;32;60;104;116;116;112;58;47;47;97;46;101;120;97;109;112;108;101;47;115;62;46;10;112;58;32;60;104;116;116;112;58;47;47;97;46;101;120;97;109;112;108;101;47;112;62;32;60;104;116;116;112;58;47;47;97;46;101;120;97;109;112;108;101;47;111;62;32;46;10],
   [60;104;116;116;112;58;47;47;97;46;101;120;97;109;112;108;101;47;115;62;32;60;104;116;116;112;58;47;47;97;46;101;120;97;109;112;108;101;47;112;62;32;60;104;116;116;112;58;47;47;97;46;101;120;97;109;112;108;101;47;111;62;32;46;10]);
  ("prefix_with_PN_CHARS_BASE_character_boundaries.ttl", [64;112;114;101;102;105;120;32;65;90;97;122;195;128;195;150;195;152;195;182;195;184;203;191;205;176;205;189;205;191;225;191;191;226;128;140;226;128;141;226;129;176;226;134;143;226;176;128;226;191;175;227;128;129;237;159;191;239;164;128;239;183;143;239;183;176;239;191;189;240;144;128;128;243;175;191;189;58;32;60;104;116;116;112;58;47;47;97;46;101;120;97;109;112;108;101;47;62;32;46;10;60;104;116;116;112;58;47;47;97;46;101;120;97;109;112;108;101;47;115;62;32;60;104;116;116;112;58;47;47;97;46;101;120;97;109;112;108;101;47;112;62;32;65;90;97;122;195;128;195;150;195;152;195;182;195;184;203;191;205;176;205;189;205;191;225;191;191;226;128;140;226;128;141;226;129;176;226;134;143;226;176;128;226;191;175;227;128;129;237;159;191;239;164;128;239;183;143;239;183;176;239;191;189;240;144;128;128;243;175;191;189;58;111;32;46;10],
   [60;104;116;116;112;58;47;47;97;46;101;120;97;109;112;108;101;47;115;62;32;60;104;116;116;112;58;47;47;97;46;101;120;97;109;112;108;101;47;112;62;32;60;104;116;116;112;58;47;47;97;46;101;120;97;109;112;108;101;47;111;62;32;46;10]);
  ("prefix_with_non_leading_extras.ttl", [64;112;114;101;102;105;120;32;97;194;183;204;128;205;175;226;128;191;46;226;129;128;58;32;60;104;116;116;112;58;47;47;97;46;101;120;97;109;112;108;101;47;62;46;10;97;194;183;204;128;205;175;226;128;191;46;226;129;128;58;115;32;60;104;116;116;112;58;47;47;97;46;101;120;97;109;112;108;101;47;112;62;32;60;104;116;116;112;58;47;47;97;46;101;120;97;109;112;108;101;47;111;62;32;46;10],
   [60;104;116;116;112;58;47;47;97;46;101;120;97;109;112;108;101;47;115;62;32;60;104;116;116;112;58;47;47;97;46;101;120;97;109;112;108;101;47;112;62;32;60;104;116;116;112;58;47;47;97;46;101;120;97;109;112;108;101;47;111;62;32;46;10]);
  ("localName_with_assigned_nfc_bmp_PN_CHARS_BASE_character_boundaries.ttl", [64;112;114;101;102;105;120;32;112;58;32;60;104;116;116;112;58;47;47;97;46;101;120;97;109;112;108;101;47;62;32;46;10;60;104;116;116;112;58;47;47;97;46;101;120;97;109;112;108;101;47;115;62;32;60;104;116;116;112;58;47;47;97;46;101;120;97;109;112;108;101;47;112;62;32;112;58;65;90;97;122;195;128;195;150;195;152;195;182;195;184;203;191;205;176;205;189;206;132;225;191;190;226;128;140;226;128;141;226;129;176;226;134;137;226;176;128;226;191;149;227;128;129;237;159;187;239;168;142;239;183;135;239;183;176;239;191;175;32;46;10],
   [60;104;116;116;112;58;47;47;97;46;101;120;97;109;112;108;101;47;115;62;32;60;104;116;116;112;58;47;47;97;46;101;120;97;109;112;108;101;47;112;62;32;60;104;116;116;112;58;47;47;97;46;101;120;97;109;112;108;101;47;65;90;97;122;92;117;48;48;67;48;92;117;48;48;68;54;92;117;48;48;68;56;92;117;48;48;70;54;92;117;48;48;70;56;92;117;48;50;70;70;92;117;48;51;55;48;92;117;48;51;55;68;92;117;48;51;56;52;92;117;49;70;70;69;92;117;50;48;48;67;92;117;50;48;48;68;92;117;50;48;55;48;92;117;50;49;56;57;92;117;50;67;48;48;92;117;50;70;68;53;92;117;51;48;48;49;92;117;68;55;70;66;92;117;70;65;48;69;92;117;70;68;67;55;92;117;70;68;70;48;92;117;70;70;69;70;62;32;46;10]);
  ("localName_with_assigned_nfc_PN_CHARS_BASE_character_boundaries.ttl", [64;112;114;101;102;105;120;32;112;58;32;60;104;116;116;112;58;47;47;97;46;101;120;97;109;112;108;101;47;62;32;46;10;60;104;116;116;112;58;47;47;97;46;101;120;97;109;112;108;101;47;115;62;32;60;104;116;116;112;58;47;47;97;46;101;120;97;109;112;108;101;47;112;62;32;112;58;65;90;97;122;195;128;195;150;195;152;195;182;195;184;203;191;205;176;205;189;206;132;225;191;190;226;128;140;226;128;141;226;129;176;226;134;137;226;176;128;226;191;149;227;128;129;237;159;187;239;168;142;239;183;135;239;183;176;239;191;175;240;144;128;128;243;160;135;175;32;46;10],
   [60;104;116;116;112;58;47;47;97;46;101;120;97;109;112;108;101;47;115;62;32;60;104;116;116;112;58;47;47;97;46;101;120;97;109;112;108;101;47;112;62;32;60;104;116;116;112;58;47;47;97;46;101;120;97;109;112;108;101;47;65;90;97;122;92;117;48;48;67;48;92;117;48;48;68;54;92;117;48;48;68;56;92;117;48;48;70;54;92;117;48;48;70;56;92;117;48;50;70;70;92;117;48;51;55;48;92;117;48;51;55;68;92;117;48;51;56;52;92;117;49;70;70;69;92;117;50;48;48;67;92;117;50;48;48;68;92;117;50;48;55;48;92;117;50;49;56;57;92;117;50;67;48;48;92;117;50;70;68;53;92;117;51;48;48;49;92;117;68;55;70;66;92;117;70;65;48;69;92;117;70;68;67;55;92;117;70;68;70;48;92;117;70;70;69;70;92;85;48;48;48;49;48;48;48;48;92;85;48;48;48;69;48;49;69;70;62;32;46;10]);
  ("localName_with_nfc_PN_CHARS_BASE_character_boundaries.ttl", [64;112;114;101;102;105;120;32;112;58;32;60;104;116;116;112;58;47;47;97;46;101;120;97;109;112;108;101;47;62;32;46;10;60;104;116;116;112;58;47;47;97;46;101;120;97;109;112;108;101;47;115;62;32;60;104;116;116;112;58;47;47;97;46;101;120;97;109;112;108;101;47;112;62;32;112;58;65;90;97;122;195;128;195;150;195;152;195;182;195;184;203;191;205;176;205;189;205;191;225;191;191;226;128;140;226;128;141;226;129;176;226;134;143;226;176;128;226;191;175;227;128;129;237;159;191;239;168;142;239;183;143;239;183;176;239;191;175;240;144;128;128;243;175;191;189;32;46;10],
   [60;104;116;116;112;58;47;47;97;46;101;120;97;109;112;108;101;47;115;62;32;60;104;116;116;112;58;47;47;97;46;101;120;97;109;112;108;101;47;112;62;32;60;104;116;116;112;58;47;47;97;46;101;120;97;109;112;108;101;47;65;90;97;122;92;117;48;48;67;48;92;117;48;48;68;54;92;117;48;48;68;56;92;117;48;48;70;54;92;117;48;48;70;56;92;117;48;50;70;70;92;117;48;51;55;48;92;117;48;51;55;68;92;117;48;51;55;70;92;117;49;70;70;70;92;117;50;48;48;67;92;117;50;48;48;68;92;117;50;48;55;48;92;117;50;49;56;70;92;117;50;67;48;48;92;117;50;70;69;70;92;117;51;48;48;49;92;117;68;55;70;70;92;117;70;65;48;69;92;117;70;68;67;70;92;117;70;68;70;48;92;117;70;70;69;70;92;85;48;48;48;49;48;48;48;48;92;85;48;48;48;69;70;70;70;68;62;32;46;10]);
  ("default_namespace_IRI.ttl", [64;112;114;101;102;105;120;32;58;32;60;104;116;116;112;58;47;47;97;46;101;120;97;109;112;108;101;47;62;46;10;58;115;32;60;104;116;116;112;58;47;47;97;46;101;120;97;109;112;108;101;47;112;62;32;60;104;116;116;112;58;47;47;97;46;101;120;97;109;112;108;101;47;111;62;32;46;10],
   [60;104;116;116;112;58;47;47;97;46;101;120;97;109;112;108;101;47;115;62;32;60;104;116;116;112;58;47;47;97;46;101;120;97;109;112;108;101;47;112;62;32;60;104;116;116;112;58;47;47;97;46;101;120;97;109;112;108;101;47;111;62;32;46;10]);
  ("prefix_reassigned_and_used.ttl", [64;112;114;101;102;105;120;32;112;58;32;60;104;116;116;112;58;47;47;97;46;101;120;97;109;112;108;101;47;62;46;10;64;112;114;101;102;105;120;32;112;58;32;60;104;116;116;112;58;47;47;98;46;101;120;97;109;112;108;101;47;62;46;10;112;58;115;32;60;104;116;116;112;58;47;47;97;46;101;120;97;109;112;108;101;47;112;62;32;60;104;116;116;112;58;47;47;97;46;101;120;97;109;112;108;101;47;111;62;32;46;10],
   [60;104;116;116;112;58;47;47;98;46;101;120;97;109;112;108;101;47;115;62;32;60;104;116;116;112;58;47;47;97;46;101;120;97;109;112;108;101;47;112;62;32;60;104;116;116;112;58;47;47;97;46;101;120;97;109;112;108;101;47;111;62;32;46;10]);
  ("reserved_escaped_localName.ttl", [64;112;114;101;102;105;120;32;112;58;32;60;104;116;116;112;58;47;47;97;46;101;120;97;109;112;108;101;47;62;46;10;112;58;92;95;92;126;92;46;92;45;92;33;92;36;92;38;92;39;92;40;92;41;92;42;92;43;92;44;92;59;92;61;92;47;92;63;92;35;92;64;92;37;48;48;32;60;104;116;116;112;58;47;47;97;46;101;120;97;109;112;108;101;47;112;62;32;60;104;116;116;112;58;47;47;97;46;101;120;97;109;112;108;101;47;111;62;32;46;10],
   [60;104;116;116;112;58;47;47;97;46;101;120;97;109;112;108;101;47;95;126;46;45;33;36;38;39;40;41;42;43;44;59;61;47;63;35;64;37;48;48;62;32;60;104;116;116;112;58;47;47;97;46;101;120;97;109;112;108;101;47;112;62;32;60;104;116;116;112;58;47;47;97;46;101;120;97;109;112;108;101;47;111;62;32;46;10]);
  ("percent_escaped_localName.ttl", [64;112;114;101;102;105;120;32;112;58;32;60;104;116;116;112;58;47;47;97;46;101;120;97;109;112;108;101;47;62;46;10;112;58;37;50;53;32;60;104;116;116;112;58;47;47;97;46;101;120;97;109;112;108;101;47;112;62;32;60;104;116;116;112;58;47;47;97;46;101;120;97;109;112;108;101;47;111;62;32;46;10],
   [60;104;116;116;112;58;47;47;97;46;101;120;97;109;112;108;101;47;37;50;53;62;32;60;104;116;116;112;58;47;47;97;46;101;120;97;109;112;108;101;47;112;62;32;60;104;116;116;112;58;47;47;97;46;101;120;97;109;112;108;101;47;111;62;32;46;10]);
  ("HYPHEN_MINUS_in_localName.ttl", [64;112;114;101;102;105;120;32;112;58;32;60;104;116;116;112;58;47;47;97;46;101;120;97;109;112;108;101;47;62;46;10;112;58;115;45;32;60;104;116;116;112;58;47;47;97;46;101;120;97;109;112;108;101;47;112;62;32;60;104;116;116;112;58;47;47;97;46;101;120;97;109;112;108;101;47;111;62;32;46;10],
   [60;104;116;116;112;58;47;47;97;46;101;120;97;109;112;108;101;47;115;45;62;32;60;104;116;116;112;58;47;47;97;46;101;120;97;109;112;108;101;47;112;62;32;60;104;116;116;112;58;47;47;97;46;101;120;97;109;112;108;101;47;111;62;32;46;10]);
  ("underscore_in_localName.ttl", [64;112;114;101;102;105;120;32;112;58;32;60;104;116;116;112;58;47;47;97;46;101;120;97;109;112;108;101;47;62;46;10;112;58;115;95;32;60;104;116;116;112;58;47;47;97;46;101;120;97;109;112;108;101;47;112;62;32;60;104;116;116;112;58;47;47;97;46;101;120;97;109;112;108;101;47;111;62;32;46;10],
   [60;104;116;116;112;58;47;47;97;46;101;120;97;109;112;108;101;47;115;95;62;32;60;104;116;116;112;58;47;47;97;46;101;120;97;109;112;108;101;47;112;62;32;60;104;116;116;112;58;47;47;97;46;101;120;97;109;112;108;101;47;111;62;32;46;10]);
  ("localname_with_COLON.ttl", [64;112;114;101;102;105;120;32;112;58;32;60;104;116;116;112;58;47;47;97;46;101;120;97;109;112;108;101;47;62;46;10;112;58;115;58;32;60;104;116;116;112;58;47;47;97;46;101;120;97;109;112;108;101;47;112;62;32;60;104;116;116;112;58;47;47;97;46;101;120;97;109;112;108;101;47;111;62;32;46;10],
   [60;104;116;116;112;58;47;47;97;46;101;120;97;109;112;108;101;47;115;58;62;32;60;104;116;116;112;58;47;47;97;46;101;120;97;109;112;108;101;47;112;62;32;60;104;116;116;112;58;47;47;97;46;101;120;97;109;112;108;101;47;111;62;32;46;10]);
  ("localName_with_leading_underscore.ttl", [64;112;114;101;102;105;120;32;112;58;32;60;104;116;116;112;58;47;47;97;46;101;120;97;109;112;108;101;47;62;46;10;112;58;95;32;60;104;116;116;112;58;47;47;97;46;101;120;97;109;112;108;101;47;112;62;32;60;104;116;116;112;58;47;47;97;46;101;120;97;109;112;108;101;47;111;62;32;46;10],
   [60;104;116;116;112;58;47;47;97;46;101;120;97;109;112;108;101;47;95;62;32;60;104;116;116;112;58;47;47;97;46;101;120;97;109;112;108;101;47;112;62;32;60;104;116;116;112;58;47;47;97;46;101;120;97;109;112;108;101;47;111;62;32;46;10]);
  ("localName_with_leading_digit.ttl", [64;112;114;101;102;105;120;32;112;58;32;60;104;116;116;112;58;47;47;97;46;101;120;97;109;112;108;101;47;62;46;10;112;58;48;32;60;104;116;116;112;58;47;47;97;46;101;120;97;109;112;108;101;47;112;62;32;60;104;116;116;112;58;47;47;97;46;101;120;97;109;112;108;101;47;111;62;32;46;10],
   [60;104;116;116;112;58;47;47;97;46;101;120;97;109;112;108;101;47;48;62;32;60;104;116;116;112;58;47;47;97;46;101;120;97;109;112;108;101;47;112;62;32;60;104;116;116;112;58;47;47;97;46;101;120;97;109;112;108;101;47;111;62;32;46;10]);
  ("localName_with_non_leading_extras.ttl", [64;112;114;101;102;105;120;32;112;58;32;60;104;116;116;112;58;47;47;97;46;101;120;97;109;112;108;101;47;62;46;10;112;58;97;194;183;204;128;205;175;226;128;191;46;226;129;128;32;60;104;116;116;112;58;47;47;97;46;101;120;97;109;112;108;101;47;112;62;32;60;104;116;116;112;58;47;47;97;46;101;120;97;109;112;108;101;47;111;62;32;46;10],
   [60;104;116;116;112;58;47;47;97;46;101;120;97;109;112;108;101;47;97;92;117;48;48;98;55;92;117;48;51;48;48;92;117;48;51;54;102;92;117;50;48;51;102;92;117;48;48;50;101;92;117;50;48;52;48;62;32;60;104;116;116;112;58;47;47;97;46;101;120;97;109;112;108;101;47;112;62;32;60;104;116;116;112;58;47;47;97;46;101;120;97;109;112;108;101;47;111;62;32;46;10]);
  ("old_style_base.ttl", [64;98;97;115;101;32;60;104;116;116;112;58;47;47;97;46;101;120;97;109;112;108;101;47;62;46;10;60;115;62;32;60;104;116;116;112;58;47;47;97;46;101;120;97;109;112;108;101;47;112;62;32;60;104;116;116;112;58;47;47;97;46;101;120;97;109;112;108;101;47;111;62;32;46;10],
   [60;104;116;116;112;58;47;47;97;46;101;120;97;109;112;108;101;47;115;62;32;60;104;116;116;112;58;47;47;97;46;101;120;97;109;112;108;101;47;112;62;32;60;104;116;116;112;58;47;47;97;46;101;120;97;109;112;108;101;47;111;62;32;46;10]);
  ("SPARQL_style_base.ttl", [66;65;83;69;32;60;104;116;116;112;58;47;47;97;46;101;120;97;109;112;108;101;47;62;10;60;115;62;32;60;104;116;116;112;58;47;47;97;46;101;120;97;109;112;108;101;47;112;62;32;60;104;116;116;112;58;47;47;97;46;101;120;97;109;112;108;101;47;111;62;32;46;10],
   [60;104;116;116;112;58;47;47;97;46;101;120;97;109;112;108;101;47;115;62;32;60;104;116;116;112;58;47;47;97;46;101;120;97;109;112;108;101;47;112;62;32;60;104;116;116;112;58;47;47;97;46;101;120;97;109;112;108;101;47;111;62;32;46;10]);
  ("labeled_blank_node_subject.ttl", [95;58;115;32;60;104;116;116;112;58;47;47;97;46;101;120;97;109;112;108;101;47;112;62;32;60;104;116;116;112;58;47;47;97;46;101;120;97;109;112;108;101;47;111;62;32;46;10],
   [95;58;98;49;32;60;104;116;116;112;58;47;47;97;46;101;120;97;109;112;108;101;47;112;62;32;60;104;116;116;112;58;47;47;97;46;101;120;97;109;112;108;101;47;111;62;32;46;10]);
  ("labeled_blank_node_object.ttl", [60;104;116;116;112;58;47;47;97;46;101;120;97;109;112;108;101;47;115;62;32;60;104;116;116;112;58;47;47;97;46;101;120;97;109;112;108;101;47;112;62;32;95;58;111;32;46;10],
   [60;104;116;116;112;58;47;47;97;46;101;120;97;109;112;108;101;47;115;62;32;60;104;116;116;112;58;47;47;97;46;101;120;97;109;112;108;101;47;112;62;32;95;58;98;49;32;46;10]);
  ("labeled_blank_node_with_PN_CHARS_BASE_character_boundaries.ttl", [60;104;116;116;112;58;47;47;97;46;101;120;97;109;112;108;101;47;115;62;32;60;104;116;116;112;58;47;47;97;46;101;120;97;109;112;108;101;47;112;62;32;95;58;65;90;97;122;195;128;195;150;195;152;195;182;195;184;203;191;205;176;205;189;205;191;225;191;191;226;128;140;226;128;141;226;129;176;226;134;143;226;176;128;226;191;175;227;128;129;237;159;191;239;164;128;239;183;143;239;183;176;239;191;189;240;144;128;128;243;175;191;189;32;46;10],
   [60;104;116;116;112;58;47;47;97;46;101;120;97;109;112;108;101;47;115;62;32;60;104;116;116;112;58;47;47;97;46;101;120;97;109;112;108;101;47;112;62;32;95;58;98;49;32;46;10]);
  ("labeled_blank_node_with_leading_underscore.ttl", [60;104;116;116;112;58;47;47;97;46;101;120;97;109;112;108;101;47;115;62;32;60;104;116;116;112;58;47;47;97;46;101;120;97;109;112;108;101;47;112;62;32;95;58;95;32;46;10],
   [60;104;116;116;112;58;47;47;97;46;101;120;97;109;112;108;101;47;115;62;32;60;104;116;116;112;58;47;47;97;46;101;120;97;109;112;108;101;47;112;62;32;95;58;98;49;32;46;10]);
  ("labeled_blank_node_with_leading_digit.ttl", [60;104;116;116;112;58;47;47;97;46;101;120;97;109;112;108;101;47;115;62;32;60;104;116;116;112;58;47;47;97;46;101;120;97;109;112;108;101;47;112;62;32;95;58;48;32;46;10],
   [60;104;116;116;112;58;47;47;97;46;101;120;97;109;112;108;101;47;115;62;32;60;104;116;116;112;58;47;47;97;46;101;120;97;109;112;108;101;47;112;62;32;95;58;98;49;32;46;10]);
  ("labeled_blank_node_with_non_leading_extras.ttl", [60;104;116;116;112;58;47;47;97;46;101;120;97;109;112;108;101;47;115;62;32;60;104;116;116;112;58;47;47;97;46;101;120;97;109;112;108;101;47;112;62;32;95;58;97;194;183;204;128;205;175;226;128;191;46;226;129;128;32;46;10],
   [60;104;116;116;112;58;47;47;97;46;101;120;97;109;112;108;101;47;115;62;32;60;104;116;116;112;58;47;47;97;46;101;120;97;109;112;108;101;47;112;62;32;95;58;98;49;32;46;10]);
  ("anonymous_blank_node_subject.ttl", [91;93;32;60;104;116;116;112;58;47;47;97;46;101;120;97;109;112;108;101;47;112;62;32;60;104;116;116;112;58;47;47;97;46;101;120;97;109;112;108;101;47;111;62;32;46;10],
   [95;58;98;49;32;60;104;116;116;112;58;47;47;97;46;101;120;97;109;112;108;101;47;112;62;32;60;104;116;116;112;58;47;47;97;46;101;120;97;109;112;108;101;47;111;62;32;46;10]);
  ("anonymous_blank_node_object.ttl", [60;104;116;116;112;58;47;47;97;46;101;120;97;109;112;108;101;47;115;62;32;60;104;116;116;112;58;47;47;97;46;101;120;97;109;112;108;101;47;112;62;32;91;93;32;46;10],
   [60;104;116;116;112;58;47;47;97;46;101;120;97;109;112;108;101;47;115;62;32;60;104;116;116;112;58;47;47;97;46;101;120;97;109;112;108;101;47;112;62;32;95;58;98;49;32;46;10]);
  ("sole_blankNodePropertyList.ttl", [91;32;60;104;116;116;112;58;47;47;97;46;101;120;97;109;112;108;101;47;112;62;32;60;104;116;116;112;58;47;47;97;46;101;120;97;109;112;108;101;47;111;62;32;93;32;46;10],
   [95;58;98;49;32;60;104;116;116;112;58;47;47;97;46;101;120;97;109;112;108;101;47;112;62;32;60;104;116;116;112;58;47;47;97;46;101;120;97;109;112;108;101;47;111;62;32;46;10]);
  ("blankNodePropertyList_as_subject.ttl", [91;32;60;104;116;116;112;58;47;47;97;46;101;120;97;109;112;108;101;47;112;62;32;60;104;116;116;112;58;47;47;97;46;101;120;97;109;112;108;101;47;111;62;32;93;32;60;104;116;116;112;58;47;47;97;46;101;120;97;109;112;108;101;47;112;50;62;32;60;104;116;116;112;58;47;47;97;46;101;120;97;109;112;108;101;47;111;50;62;32;46;10],
   [95;58;98;49;32;60;104;116;116;112;58;47;47;97;46;101;120;97;109;112;108;101;47;112;62;32;60;104;116;116;112;58;47;47;97;46;101;120;97;109;112;108;101;47;111;62;32;46;10;95;58;98;49;32;60;104;116;116;112;58;47;47;97;46;101;120;97;109;112;108;101;47;112;50;62;32;60;104;116;116;112;58;47;47;97;46;101;120;97;109;112;108;101;47;111;50;62;32;46;10]);
  ("blankNodePropertyList_as_object.ttl", [60;104;116;116;112;58;47;47;97;46;101;120;97;109;112;108;101;47;115;62;32;60;104;116;116;112;58;47;47;97;46;101;120;97;109;112;108;101;47;112;62;32;91;32;60;104;116;116;112;58;47;47;97;46;101;120;97;109;112;108;101;47;112;50;62;32;60;104;116;116;112;58;47;47;97;46;101;120;97;109;112;108;101;47;111;50;62;32;93;32;46;10],
   [60;104;116;116;112;58;47;47;97;46;101;120;97;109;112;108;101;47;115;62;32;60;104;116;116;112;58;47;47;97;46;101;120;97;109;112;108;101;47;112;62;32;95;58;98;49;32;46;10;95;58;98;49;32;60;104;116;116;112;58;47;47;97;46;101;120;97;109;112;108;101;47;112;50;62;32;60;104;116;116;112;58;47;47;97;46;101;120;97;109;112;108;101;47;111;50;62;32;46;10]);
  ("blankNodePropertyList_with_multiple_triples.ttl", [91;32;60;104;116;116;112;58;47;47;97;46;101;120;97;109;112;108;101;47;112;49;62;32;60;104;116;116;112;58;47;47;97;46;101;120;97;109;112;108;101;47;111;49;62;32;59;32;60;104;116;116;112;58;47;47;97;46;101;120;97;109;112;108;101;47;112;50;62;32;60;104;116;116;112;58;47;47;97;46;101;120;97;109;112;108;101;47;111;50;62;32;93;32;60;104;116;116;112;58;47;47;97;46;101;120;97;109;112;108;101;47;112;62;32;60;104;116;116;112;58;47;47;97;46;101;120;97;109;112;108;101;47;111;62;32;46;10],
   [95;58;98;49;32;60;104;116;116;112;58;47;47;97;46;101;120;97;109;112;108;101;47;112;49;62;32;60;104;116;116;112;58;47;47;97;46;101;120;97;109;112;108;101;47;111;49;62;32;46;10;95;58;98;49;32;60;104;116;116;112;58;47;47;97;46;101;120;97;109;112;108;101;47;112;50;62;32;60;104;116;116;112;58;47;47;97;46;101;120;97;109;112;108;101;47;111;50;62;32;46;10;95;58;98;49;32;60;104;116;116;112;58;47;47;97;46;101;120;97;109;112;108;101;47;112;62;32;60;104;116;116;112;58;47;47;97;46;101;120;97;109;112;108;101;47;111;62;32;46;10]);
  ("nested_blankNodePropertyLists.ttl", [91;32;60;104;116;116;112;58;47;47;97;46;101;120;97;109;112;108;101;47;112;49;62;32;91;32;60;104;116;116;112;58;47;47;97;46;101;120;97;109;112;108;101;47;112;50;62;32;60;104;116;116;112;58;47;47;97;46;101;120;97;109;112;108;101;47;111;50;62;32;93;32;59;32;60;104;116;116;112;58;47;47;97;46;101;120;97;109;112;108;101;47;112;62;32;60;104;116;116;112;58;47;47;97;46;101;120;97;109;112;108;101;47;111;62;32;93;46;10],
   [95;58;98;49;32;60;104;116;116;112;58;47;47;97;46;101;120;97;109;112;108;101;47;112;49;62;32;95;58;98;50;32;46;10;95;58;98;50;32;60;104;116;116;112;58;47;47;97;46;101;120;97;109;112;108;101;47;112;50;62;32;60;104;116;116;112;58;47;47;97;46;101;120;97;109;112;108;101;47;111;50;62;32;46;10;95;58;98;49;32;60;104;116;116;112;58;47;47;97;46;101;120;97;109;112;108;101;47;112;62;32;60;104;116;116;112;58;47;47;97;46;101;120;97;109;112;108;101;47;111;62;32;46;10]);
  ("blankNodePropertyList_containing_collection.ttl", [91;32;60;104;116;116;112;58;47;47;97;46;101;120;97;109;112;108;101;47;112;49;62;32;40;49;41;32;93;32;46;10],
   [95;58;98;49;32;60;104;116;116;112;58;47;47;97;46;101;120;97;109;112;108;101;47;112;49;62;32;95;58;101;108;49;32;46;10;95;58;101;108;49;32;60;104;116;116;112;58;47;47;119;119;119;46;119;51;46;111;114;103;47;49;57;57;57;47;48;50;47;50;50;45;114;100;102;45;115;121;110;116;97;120;45;110;115;35;102;105;114;115;116;62;32;34;49;34;94;94;60;104;116;116;112;58;47;47;119;119;119;46;119;51;46;111;114;103;47;50;48;48;49;47;88;77;76;83;99;104;101;109;97;35;105;110;116;101;103;101;114;62;32;46;10;95;58;101;108;49;32;60;104;116;116;112;58;47;47;119;119;119;46;119;51;46;111;114;103;47;49;57;57;57;47;48;50;47;50;50;45;114;100;102;45;115;121;110;116;97;120;45;110;115;35;114;101;115;116;62;32;60;104;116;116;112;58;47;47;119;119;119;46;119;51;46;111;114;103;47;49;57;57;57;47;48;50;47;50;50;45;114;100;102;45;115;121;110;116;97;120;45;110;115;35;110;105;108;62;32;46;10]);
  ("collection_subject.ttl", [40;49;41;32;60;104;116;116;112;58;47;47;97;46;101;120;97;109;112;108;101;47;112;62;32;60;104;116;116;112;58;47;47;97;46;101;120;97;109;112;108;101;47;111;62;32;46;10],
   [95;58;101;108;49;32;60;104;116;116;112;58;47;47;119;119;119;46;119;51;46;111;114;103;47;49;57;57;57;47;48;50;47;50;50;45;114;100;102;45;115;121;110;116;97;120;45;110;115;35;102;105;114;115;116;62;32;34;49;34;94;94;60;104;116;116;112;58;47;47;119;119;119;46;119;51;46;111;114;103;47;50;48;48;49;47;88;77;76;83;99;104;101;109;97;35;105;110;116;101;103;101;114;62;32;46;10;95;58;101;108;49;32;60;104;116;116;112;58;47;47;119;119;119;46;119;51;46;111;114;103;47;49;57;57;57;47;48;50;47;50;50;45;114;100;102;45;115;121;110;116;97;120;45;110;115;35;114;101;115;116;62;32;60;104;116;116;112;58;47;47;119;119;119;46;119;51;46;111;114;103;47;49;57;57;57;47;48;50;47;50;50;45;114;100;102;45;115;121;110;116;97;120;45;110;115;35;110;105;108;62;32;46;10;95;58;101;108;49;32;60;104;116;116;112;58;47;47;97;46;101;120;97;109;112;108;101;47;112;62;32;60;104;116;116;112;58;47;47;97;46;101;120;97;109;112;108;101;47;111;62;32;46;10]);
  ("collection_object.ttl", [60;104;116;116;112;58;47;47;97;46;101;120;97;109;112;108;101;47;115;62;32;60;104;116;116;112;58;47;47;97;46;101;120;97;109;112;108;101;47;112;62;32;40;49;41;32;46;10],
   [60;104;116;116;112;58;47;47;97;46;101;120;97;109;112;108;101;47;115;62;32;60;104;116;116;112;58;47;47;97;46;101;120;97;109;112;108;101;47;112;62;32;95;58;101;108;49;32;46;10;95;58;101;108;49;32;60;104;116;116;112;58;47;47;119;119;119;46;119;51;46;111;114;103;47;49;57;57;57;47;48;50;47;50;50;45;114;100;102;45;115;121;110;116;97;120;45;110;115;35;102;105;114;115;116;62;32;34;49;34;94;94;60;104;116;116;112;58;47;47;119;119;119;46;119;51;46;111;114;103;47;50;48;48;49;47;88;77;76;83;99;104;101;109;97;35;105;110;116;101;103;101;114;62;32;46;10;95;58;101;108;49;32;60;104;116;116;112;58;47;47;119;119;119;46;119;51;46;111;114;103;47;49;57;57;57;47;48;50;47;50;50;45;114;100;102;45;115;121;110;116;97;120;45;110;115;35;114;101;115;116;62;32;60;104;116;116;112;58;47;47;119;119;119;46;119;51;46;111;114;103;47;49;57;57;57;47;48;50;47;50;50;45;114;100;102;45;115;121;110;116;97;120;45;110;115;35;110;105;108;62;32;46;10]);
  ("empty_collection.ttl", [60;104;116;116;112;58;47;47;97;46;101;120;97;109;112;108;101;47;115;62;32;60;104;116;116;112;58;47;47;97;46;101;120;97;109;112;108;101;47;112;62;32;40;41;32;46;10],
   [60;104;116;116;112;58;47;47;97;46;101;120;97;109;112;108;101;47;115;62;32;60;104;116;116;112;58;47;47;97;46;101;120;97;109;112;108;101;47;112;62;32;60;104;116;116;112;58;47;47;119;119;119;46;119;51;46;111;114;103;47;49;57;57;57;47;48;50;47;50;50;45;114;100;102;45;115;121;110;116;97;120;45;110;115;35;110;105;108;62;32;46;10]);
  ("nested_collection.ttl", [60;104;116;116;112;58;47;47;97;46;101;120;97;109;112;108;101;47;115;62;32;60;104;116;116;112;58;47;47;97;46;101;120;97;109;112;108;101;47;112;62;32;40;40;49;41;41;32;46;10],
   [60;104;116;116;112;58;47;47;97;46;101;120;97;109;112;108;101;47;115;62;32;60;104;116;116;112;58;47;47;97;46;101;120;97;109;112;108;101;47;112;62;32;95;58;111;117;116;101;114;69;108;49;32;46;10;95;58;111;117;116;101;114;69;108;49;32;60;104;116;116;112;58;47;47;119;119;119;46;119;51;46;111;114;103;47;49;57;57;57;47;48;50;47;50;50;45;114;100;102;45;115;121;110;116;97;120;45;110;115;35;102;105;114;115;116;62;32;95;58;105;110;110;101;114;69;108;49;32;46;10;95;58;105;110;110;101;114;69;108;49;32;60;104;116;116;112;58;47;47;119;119;119;46;119;51;46;111;114;103;47;49;57;57;57;47;48;50;47;50;50;45;114;100;102;45;115;121;110;116;97;120;45;110;115;35;102;105;114;115;116;62;32;34;49;34;94;94;60;104;116;116;112;58;47;47;119;119;119;46;119;51;46;111;114;103;47;50;48;48;49;47;88;77;76;83;99;104;101;109;97;35;105;110;116;101;103;101;114;62;32;46;10;95;58;105;110;110;101;114;69;108;49;32;60;104;116;116;112;58;47;47;119;119;119;46;119;51;46;111;114;103;47;49;57;57;57;47;48;50;47;50;50;45;114;100;102;45;115;121;110;116;97;120;45;110;115;35;114;101;115;116;62;32;60;104;116;116;112;58;47;47;119;119;119;46;119;51;46;111;114;103;47;49;57;57;57;47;48;50;47;50;50;45;114;100;102;45;115;121;110;116;97;120;45;110;115;35;110;105;108;62;32;46;10;95;58;111;117;116;101;114;69;108;49;32;60;104;116;116;112;58;47;47;119;119;119;46;119;51;46;111;114;103;47;49;57;57;57;47;48;50;47;50;50;45;114;100;102;45;115;121;110;116;97;120;45;110;115;35;114;101;115;116;62;32;60;104;116;116;112;58;47;47;119;119;119;46;119;51;46;111;114;103;47;49;57;57;57;47;48;50;47;50;50;45;114;100;102;45;115;121;110;116;97;120;45;110;115;35;110;105;108;62;32;46;10]);
  ("first.ttl", [60;104;116;116;112;58;47;47;97;46;101;120;97;109;112;108;101;47;115;62;32;60;104;116;116;112;58;47;47;97;46;101;120;97;109;112;108;101;47;112;62;32;40;40;49;41;32;50;41;32;46;10],
   [60;104;116;116;112;58;47;47;97;46;101;120;97;109;112;108;101;47;115;62;32;60;104;116;116;112;58;47;47;97;46;101;120;97;109;112;108;101;47;112;62;32;95;58;111;117;116;101;114;69;108;49;32;46;10;95;58;111;117;116;101;114;69;108;49;32;60;104;116;116;112;58;47;47;119;119;119;46;119;51;46;111;114;103;47;49;57;57;57;47;48;50;47;50;50;45;114;100;102;45;115;121;110;116;97;120;45;110;115;35;102;105;114;115;116;62;32;95;58;105;110;110;101;114;69;108;49;32;46;10;95;58;105;110;110;101;114;69;108;49;32;60;104;116;116;112;58;47;47;119;119;119;46;119;51;46;111;114;103;47;49;57;57;57;47;48;50;47;50;50;45;114;100;102;45;115;121;110;116;97;120;45;110;115;35;102;105;114;115;116;62;32;34;49;34;94;94;60;104;116;116;112;58;47;47;119;119;119;46;119;51;46;111;114;103;47;50;48;48;49;47;88;77;76;83;99;104;101;109;97;35;105;110;116;101;103;101;114;62;32;46;10;95;58;105;110;110;101;114;69;108;49;32;60;104;116;116;112;58;47;47;119;119;119;46;119;51;46;111;114;103;47;49;57;57;57;47;48;50;47;50;50;45;114;100;102;45;115;121;110;116;97;120;45;110;115;35;114;101;115;116;62;32;60;104;116;116;112;58;47;47;119;119;119;46;119;51;46;111;114;103;47;49;57;57;57;47;48;50;47;50;50;45;114;100;102;45;115;121;110;116;97;120;45;110;115;35;110;105;108;62;32;46;10;95;58;111;117;116;101;114;69;108;49;32;60;104;116;116;112;58;47;47;119;119;119;46;119;51;46;111;114;103;47;49;57;57;57;47;48;50;47;50;50;45;114;100;102;45;115;121;110;116;97;120;45;110;115;35;114;101;115;116;62;32;95;58;111;117;116;101;114;69;108;50;32;46;10;95;58;111;117;116;101;114;69;108;50;32;60;104;116;116;112;58;47;47;119;119;119;46;119;51;46;111;114;103;47;49;57;57;57;47;48;50;47;50;50;45;114;100;102;45;115;121;110;116;97;120;45;110;115;35;102;105;114;115;116;62;32;34;50;34;94;94;60;104;116;116;112;58;47;47;119;119;119;46;119;51;46;111;114;103;47;50;48;48;49;47;88;77;76;83;99;104;101;109;97;35;105;110;116;101;103;101;114;62;32;46;10;95;58;111;117;116;101;114;69;108;50;32;60;104;116;116;112;58;47;47;119;119;119;46;119;51;46;111;114;103;47;49;57;57;57;47;48;50;47;50;50;45;114;100;102;45;115;121;110;116;97;120;45;110;115;35;114;101;115;116;62;32;60;104;116;116;112;58;47;47;119;119;119;46;119;51;46;111;114;103;47;49;57;57;57;47;48;50;47;50;50;45;114;100;102;45;115;121;110;116;97;120;45;110;115;35;110;105;108;62;32;46;10]);
  ("last.ttl", [60;104;116;116;112;58;47;47;97;46;101;120;97;109;112;108;101;47;115;62;32;60;104;116;116;112;58;47;47;97;46;101;120;97;109;112;108;101;47;112;62;32;40;49;32;40;50;41;41;32;46;10],
   [60;104;116;116;112;58;47;47;97;46;101;120;97;109;112;108;101;47;115;62;32;60;104;116;116;112;58;47;47;97;46;101;120;97;109;112;108;101;47;112;62;32;95;58;111;117;116;101;114;69;108;49;32;46;10;95;58;111;117;116;101;114;69;108;49;32;60;104;116;116;112;58;47;47;119;119;119;46;119;51;46;111;114;103;47;49;57;57;57;47;48;50;47;50;50;45;114;100;102;45;115;121;110;116;97;120;45;110;115;35;102;105;114;115;116;62;32;34;49;34;94;94;60;104;116;116;112;58;47;47;119;119;119;46;119;51;46;111;114;103;47;50;48;48;49;47;88;77;76;83;99;104;101;109;97;35;105;110;116;101;103;101;114;62;32;46;10;95;58;111;117;116;101;114;69;108;49;32;60;104;116;116;112;58;47;47;119;119;119;46;119;51;46;111;114;103;47;49;57;57;57;47;48;50;47;50;50;45;114;100;102;45;115;121;110;116;97;120;45;110;115;35;114;101;115;116;62;32;95;58;111;117;116;101;114;69;108;50;32;46;10;95;58;111;117;116;101;114;69;108;50;32;60;104;116;116;112;58;47;47;119;119;119;46;119;51;46;111;114;103;47;49;57;57;57;47;48;50;47;50;50;45;114;100;102;45;115;121;110;116;97;120;45;110;115;35;102;105;114;115;116;62;32;95;58;105;110;110;101;114;69;108;49;32;46;10;95;58;105;110;110;101;114;69;108;49;32;60;104;116;116;112;58;47;47;119;119;119;46;119;51;46;111;114;103;47;49;57;57;57;47;48;50;47;50;50;45;114;100;102;45;115;121;110;116;97;120;45;110;115;35;102;105;114;115;116;62;32;34;50;34;94;94;60;104;116;116;112;58;47;47;119;119;119;46;119;51;46;111;114;103;47;50;48;48;49;47;88;77;76;83;99;104;101;109;97;35;105;110;116;101;103;101;114;62;32;46;10;95;58;105;110;110;101;114;69;108;49;32;60;104;116;116;112;58;47;47;119;119;119;46;119;51;46;111;114;103;47;49;57;57;57;47;48;50;47;50;50;45;114;100;102;45;115;121;110;116;97;120;45;110;115;35;114;101;115;116;62;32;60;104;116;116;112;58;47;47;119;119;119;46;119;51;46;111;114;103;47;49;57;57;57;47;48;50;47;50;50;45;114;100;102;45;115;121;110;116;97;120;45;110;115;35;110;105;108;62;32;46;10;95;58;111;117;116;101;114;69;108;50;32;60;104;116;116;112;58;47;47;119;119;119;46;119;51;46;111;114;103;47;49;57;57;57;47;48;50;47;50;50;45;114;100;102;45;115;121;110;116;97;120;45;110;115;35;114;101;115;116;62;32;60;104;116;116;112;58;47;47;119;119;119;46;119;51;46;111;114;103;47;49;57;57;57;47;48;50;47;50;50;45;114;100;102;45;115;121;110;116;97;120;45;110;115;35;110;105;108;62;32;46;10]);
  ("LITERAL1.ttl", [60;104;116;116;112;58;47;47;97;46;101;120;97;109;112;108;101;47;115;62;32;60;104;116;116;112;58;47;47;97;46;101;120;97;109;112;108;101;47;112;62;32;39;120;39;32;46;10],
   [60;104;116;116;112;58;47;47;97;46;101;120;97;109;112;108;101;47;115;62;32;60;104;116;116;112;58;47;47;97;46;101;120;97;109;112;108;101;47;112;62;32;34;120;34;32;46;10]);
  ("LITERAL1_ascii_boundaries.ttl", [60;104;116;116;112;58;47;47;97;46;101;120;97;109;112;108;101;47;115;62;32;60;104;116;116;112;58;47;47;97;46;101;120;97;109;112;108;101;47;112;62;32;39;0;9;11;12;14;38;40;91;93;127;39;32;46;10],
   [60;104;116;116;112;58;47;47;97;46;101;120;97;109;112;108;101;47;115;62;32;60;104;116;116;112;58;47;47;97;46;101;120;97;109;112;108;101;47;112;62;32;34;92;117;48;48;48;48;92;116;92;117;48;48;48;66;92;117;48;48;48;67;92;117;48;48;48;69;38;40;91;93;92;117;48;48;55;70;34;32;46;10]);
  ("LITERAL1_with_UTF8_boundaries.ttl", [60;104;116;116;112;58;47;47;97;46;101;120;97;109;112;108;101;47;115;62;32;60;104;116;116;112;58;47;47;97;46;101;120;97;109;112;108;101;47;112;62;32;39;194;128;223;191;224;160;128;224;191;191;225;128;128;236;191;191;237;128;128;237;159;191;238;128;128;239;191;189;240;144;128;128;240;191;191;189;241;128;128;128;243;191;191;189;244;128;128;128;244;143;191;189;39;32;46;10],
   [60;104;116;116;112;58;47;47;97;46;101;120;97;109;112;108;101;47;115;62;32;60;104;116;116;112;58;47;47;97;46;101;120;97;109;112;108;101;47;112;62;32;34;92;117;48;48;56;48;92;117;48;55;70;70;92;117;48;56;48;48;92;117;48;70;70;70;92;117;49;48;48;48;92;117;67;70;70;70;92;117;68;48;48;48;92;117;68;55;70;70;92;117;69;48;48;48;92;117;70;70;70;68;92;85;48;48;48;49;48;48;48;48;92;85;48;48;48;51;70;70;70;68;92;85;48;48;48;52;48;48;48;48;92;85;48;48;48;70;70;70;70;68;92;85;48;48;49;48;48;48;48;48;92;85;48;48;49;48;70;70;70;68;34;32;46;10]);
  ("LITERAL1_all_controls.ttl", [60;104;116;116;112;58;47;47;97;46;101;120;97;109;112;108;101;47;115;62;32;60;104;116;116;112;58;47;47;97;46;101;120;97;109;112;108;101;47;112;62;32;39;0;1;2;3;4;5;6;7;8;9;11;12;14;15;16;17;18;19;20;21;22;23;24;25;26;27;28;29;30;31;39;32;46;10],
   [60;104;116;116;112;58;47;47;97;46;101;120;97;109;112;108;101;47;115;62;32;60;104;116;116;112;58;47;47;97;46;101;120;97;109;112;108;101;47;112;62;32;34;92;117;48;48;48;48;92;117;48;48;48;49;92;117;48;48;48;50;92;117;48;48;48;51;92;117;48;48;48;52;92;117;48;48;48;53;92;117;48;48;48;54;92;117;48;48;48;55;92;117;48;48;48;56;92;116;92;117;48;48;48;66;92;117;48;48;48;67;92;117;48;48;48;69;92;117;48;48;48;70;92;117;48;48;49;48;92;117;48;48;49;49;92;117;48;48;49;50;92;117;48;48;49;51;92;117;48;48;49;52;92;117;48;48;49;53;92;117;48;48;49;54;92;117;48;48;49;55;92;117;48;48;49;56;92;117;48;48;49;57;92;117;48;48;49;65;92;117;48;48;49;66;92;117;48;48;49;67;92;117;48;48;49;68;92;117;48;48;49;69;92;117;48;48;49;70;34;32;46;10]);
  ("LITERAL1_all_punctuation.ttl", [60;104;116;116;112;58;47;47;97;46;101;120;97;109;112;108;101;47;115;62;32;60;104;116;116;112;58;47;47;97;46;101;120;97;109;112;108;101;47;112;62;32;39;32;33;34;35;36;37;38;40;41;58;59;60;61;62;63;64;91;93;94;95;96;123;124;125;126;39;32;46;10],
   [60;104;116;116;112;58;47;47;97;46;101;120;97;109;112;108;101;47;115;62;32;60;104;116;116;112;58;47;47;97;46;101;120;97;109;112;108;101;47;112;62;32;34;32;33;92;34;35;36;37;38;40;41;58;59;60;61;62;63;64;91;93;94;95;96;123;124;125;126;34;32;46;10]);
  ("LITERAL_LONG1.ttl", [60;104;116;116;112;58;47;47;97;46;101;120;97;109;112;108;101;47;115;62;32;60;104;116;116;112;58;47;47;97;46;101;120;97;109;112;108;101;47;112;62;32;39;39;39;120;39;39;39;32;46;10],
   [60;104;116;116;112;58;47;47;97;46;101;120;97;109;112;108;101;47;115;62;32;60;104;116;116;112;58;47;47;97;46;101;120;97;109;112;108;101;47;112;62;32;34;120;34;32;46;10]);
  ("LITERAL_LONG1_ascii_boundaries.ttl", [60;104;116;116;112;58;47;47;97;46;101;120;97;109;112;108;101;47;115;62;32;60;104;116;116;112;58;47;47;97;46;101;120;97;109;112;108;101;47;112;62;32;39;0;38;40;91;93;127;39;32;46;10],
   [60;104;116;116;112;58;47;47;97;46;101;120;97;109;112;108;101;47;115;62;32;60;104;116;116;112;58;47;47;97;46;101;120;97;109;112;108;101;47;112;62;32;34;92;117;48;48;48;48;38;40;91;93;92;117;48;48;55;70;34;32;46;10]);
  ("LITERAL_LONG1_with_UTF8_boundaries.ttl", [60;104;116;116;112;58;47;47;97;46;101;120;97;109;112;108;101;47;115;62;32;60;104;116;116;112;58;47;47;97;46;101;120;97;109;112;108;101;47;112;62;32;39;39;39;194;128;223;191;224;160;128;224;191;191;225;128;128;236;191;191;237;128;128;237;159;191;238;128;128;239;191;189;240;144;128;128;240;191;191;189;241;128;128;128;243;191;191;189;244;128;128;128;244;143;191;189;39;39;39;32;46;10],
   [60;104;116;116;112;58;47;47;97;46;101;120;97;109;112;108;101;47;115;62;32;60;104;116;116;112;58;47;47;97;46;101;120;97;109;112;108;101;47;112;62;32;34;92;117;48;48;56;48;92;117;48;55;70;70;92;117;48;56;48;48;92;117;48;70;70;70;92;117;49;48;48;48;92;117;67;70;70;70;92;117;68;48;48;48;92;117;68;55;70;70;92;117;69;48;48;48;92;117;70;70;70;68;92;85;48;48;48;49;48;48;48;48;92;85;48;48;48;51;70;70;70;68;92;85;48;48;48;52;48;48;48;48;92;85;48;48;48;70;70;70;70;68;92;85;48;48;49;48;48;48;48;48;92;85;48;48;49;48;70;70;70;68;34;32;46;10]);
  ("LITERAL_LONG1_with_1_squote.ttl", [60;104;116;116;112;58;47;47;97;46;101;120;97;109;112;108;101;47;115;62;32;60;104;116;116;112;58;47;47;97;46;101;120;97;109;112;108;101;47;112;62;32;39;39;39;120;39;121;39;39;39;32;46;10],
   [60;104;116;116;112;58;47;47;97;46;101;120;97;109;112;108;101;47;115;62;32;60;104;116;116;112;58;47;47;97;46;101;120;97;109;112;108;101;47;112;62;32;34;120;39;121;34;32;46;10]);
  ("LITERAL_LONG1_with_2_squotes.ttl", [60;104;116;116;112;58;47;47;97;46;101;120;97;109;112;108;101;47;115;62;32;60;104;116;116;112;58;47;47;97;46;101;120;97;109;112;108;101;47;112;62;32;39;39;39;120;39;39;121;39;39;39;32;46;10],
   [60;104;116;116;112;58;47;47;97;46;101;120;97;109;112;108;101;47;115;62;32;60;104;116;116;112;58;47;47;97;46;101;120;97;109;112;108;101;47;112;62;32;34;120;39;39;121;34;32;46;10]);
  ("LITERAL2.ttl", [60;104;116;116;112;58;47;47;97;46;101;120;97;109;112;108;101;47;115;62;32;60;104;116;116;112;58;47;47;97;46;101;120;97;109;112;108;101;47;112;62;32;34;120;34;32;46;10],
   [60;104;116;116;112;58;47;47;97;46;101;120;97;109;112;108;101;47;115;62;32;60;104;116;116;112;58;47;47;97;46;101;120;97;109;112;108;101;47;112;62;32;34;120;34;32;46;10]);
  ("LITERAL2_ascii_boundaries.ttl", [60;104;116;116;112;58;47;47;97;46;101;120;97;109;112;108;101;47;115;62;32;60;104;116;116;112;58;47;47;97;46;101;120;97;109;112;108;101;47;112;62;32;34;0;9;11;12;14;33;35;91;93;127;34;32;46;10],
   [60;104;116;116;112;58;47;47;97;46;101;120;97;109;112;108;101;47;115;62;32;60;104;116;116;112;58;47;47;97;46;101;120;97;109;112;108;101;47;112;62;32;34;92;117;48;48;48;48;92;116;92;117;48;48;48;66;92;117;48;48;48;67;92;117;48;48;48;69;33;35;91;93;92;117;48;48;55;70;34;32;46;10]);
  ("LITERAL2_with_UTF8_boundaries.ttl", [60;104;116;116;112;58;47;47;97;46;101;120;97;109;112;108;101;47;115;62;32;60;104;116;116;112;58;47;47;97;46;101;120;97;109;112;108;101;47;112;62;32;34;194;128;223;191;224;160;128;224;191;191;225;128;128;236;191;191;237;128;128;237;159;191;238;128;128;239;191;189;240;144;128;128;240;191;191;189;241;128;128;128;243;191;191;189;244;128;128;128;244;143;191;189;34;32;46;10],
   [60;104;116;116;112;58;47;47;97;46;101;120;97;109;112;108;101;47;115;62;32;60;104;116;116;112;58;47;47;97;46;101;120;97;109;112;108;101;47;112;62;32;34;92;117;48;48;56;48;92;117;48;55;70;70;92;117;48;56;48;48;92;117;48;70;70;70;92;117;49;48;48;48;92;117;67;70;70;70;92;117;68;48;48;48;92;117;68;55;70;70;92;117;69;48;48;48;92;117;70;70;70;68;92;85;48;48;48;49;48;48;48;48;92;85;48;48;48;51;70;70;70;68;92;85;48;48;48;52;48;48;48;48;92;85;48;48;48;70;70;70;70;68;92;85;48;48;49;48;48;48;48;48;92;85;48;48;49;48;70;70;70;68;34;32;46;10]);
  ("LITERAL_LONG2.ttl", [60;104;116;116;112;58;47;47;97;46;101;120;97;109;112;108;101;47;115;62;32;60;104;116;116;112;58;47;47;97;46;101;120;97;109;112;108;101;47;112;62;32;34;34;34;120;34;34;34;32;46;10],
   [60;104;116;116;112;58;47;47;97;46;101;120;97;109;112;108;101;47;115;62;32;60;104;116;116;112;58;47;47;97;46;101;120;97;109;112;108;101;47;112;62;32;34;120;34;32;46;10]);
  ("LITERAL_LONG2_ascii_boundaries.ttl", [60;104;116;116;112;58;47;47;97;46;101;120;97;109;112;108;101;47;115;62;32;60;104;116;116;112;58;47;47;97;46;101;120;97;109;112;108;101;47;112;62;32;34;0;33;35;91;93;127;34;32;46;10],
   [60;104;116;116;112;58;47;47;97;46;101;120;97;109;112;108;101;47;115;62;32;60;104;116;116;112;58;47;47;97;46;101;120;97;109;112;108;101;47;112;62;32;34;92;117;48;48;48;48;33;35;91;93;92;117;48;48;55;70;34;32;46;10]);
  ("LITERAL_LONG2_with_UTF8_boundaries.ttl", [60;104;116;116;112;58;47;47;97;46;101;120;97;109;112;108;101;47;115;62;32;60;104;116;116;112;58;47;47;97;46;101;120;97;109;112;108;101;47;112;62;32;34;34;34;194;128;223;191;224;160;128;224;191;191;225;128;128;236;191;191;237;128;128;237;159;191;238;128;128;239;191;189;240;144;128;128;240;191;191;189;241;128;128;128;243;191;191;189;244;128;128;128;244;143;191;189;34;34;34;32;46;10],
   [60;104;116;116;112;58;47;47;97;46;101;120;97;109;112;108;101;47;115;62;32;60;104;116;116;112;58;47;47;97;46;101;120;97;109;112;108;101;47;112;62;32;34;92;117;48;48;56;48;92;117;48;55;70;70;92;117;48;56;48;48;92;117;48;70;70;70;92;117;49;48;48;48;92;117;67;70;70;70;92;117;68;48;48;48;92;117;68;55;70;70;92;117;69;48;48;48;92;117;70;70;70;68;92;85;48;48;48;49;48;48;48;48;92;85;48;48;48;51;70;70;70;68;92;85;48;48;48;52;48;48;48;48;92;85;48;48;48;70;70;70;70;68;92;85;48;48;49;48;48;48;48;48;92;85;48;48;49;48;70;70;70;68;34;32;46;10]);
  ("LITERAL_LONG2_with_1_squote.ttl", [60;104;116;116;112;58;47;47;97;46;101;120;97;109;112;108;101;47;115;62;32;60;104;116;116;112;58;47;47;97;46;101;120;97;109;112;108;101;47;112;62;32;34;34;34;120;34;121;34;34;34;32;46;10],
   [60;104;116;116;112;58;47;47;97;46;101;120;97;109;112;108;101;47;115;62;32;60;104;116;116;112;58;47;47;97;46;101;120;97;109;112;108;101;47;112;62;32;34;120;92;34;121;34;32;46;10]);
  ("LITERAL_LONG2_with_2_squotes.ttl", [60;104;116;116;112;58;47;47;97;46;101;120;97;109;112;108;101;47;115;62;32;60;104;116;116;112;58;47;47;97;46;101;120;97;109;112;108;101;47;112;62;32;34;34;34;120;34;34;121;34;34;34;32;46;10],
   [60;104;116;116;112;58;47;47;97;46;101;120;97;109;112;108;101;47;115;62;32;60;104;116;116;112;58;47;47;97;46;101;120;97;109;112;108;101;47;112;62;32;34;120;92;34;92;34;121;34;32;46;10]);
  ("literal_with_CHARACTER_TABULATION.ttl", [60;104;116;116;112;58;47;47;97;46;101;120;97;109;112;108;101;47;115;62;32;60;104;116;116;112;58;47;47;97;46;101;120;97;109;112;108;101;47;112;62;32;39;9;39;32;46;10],
   [60;104;116;116;112;58;47;47;97;46;101;120;97;109;112;108;101;47;115;62;32;60;104;116;116;112;58;47;47;97;46;101;120;97;109;112;108;101;47;112;62;32;34;92;116;34;32;46;10]);
  ("literal_with_BACKSPACE.ttl", [60;104;116;116;112;58;47;47;97;46;101;120;97;109;112;108;101;47;115;62;32;60;104;116;116;112;58;47;47;97;46;101;120;97;109;112;108;101;47;112;62;32;39;8;39;32;46;10],
   [60;104;116;116;112;58;47;47;97;46;101;120;97;109;112;108;101;47;115;62;32;60;104;116;116;112;58;47;47;97;46;101;120;97;109;112;108;101;47;112;62;32;34;92;117;48;48;48;56;34;32;46;10]);
  ("literal_with_LINE_FEED.ttl", [60;104;116;116;112;58;47;47;97;46;101;120;97;109;112;108;101;47;115;62;32;60;104;116;116;112;58;47;47;97;46;101;120;97;109;112;108;101;47;112;62;32;39;39;39;10;39;39;39;32;46;10],
   [60;104;116;116;112;58;47;47;97;46;101;120;97;109;112;108;101;47;115;62;32;60;104;116;116;112;58;47;47;97;46;101;120;97;109;112;108;101;47;112;62;32;34;92;110;34;32;46;10]);
  ("literal_with_CARRIAGE_RETURN.ttl", [60;104;116;116;112;58;47;47;97;46;101;120;97;109;112;108;101;47;115;62;32;60;104;116;116;112;58;47;47;97;46;101;120;97;109;112;108;101;47;112;62;32;39;39;39;13;39;39;39;32;46;10],
   [60;104;116;116;112;58;47;47;97;46;101;120;97;109;112;108;101;47;115;62;32;60;104;116;116;112;58;47;47;97;46;101;120;97;109;112;108;101;47;112;62;32;34;92;114;34;32;46;10]);
  ("literal_with_FORM_FEED.ttl", [60;104;116;116;112;58;47;47;97;46;101;120;97;109;112;108;101;47;115;62;32;60;104;116;116;112;58;47;47;97;46;101;120;97;109;112;108;101;47;112;62;32;39;12;39;32;46;10],
   [60;104;116;116;112;58;47;47;97;46;101;120;97;109;112;108;101;47;115;62;32;60;104;116;116;112;58;47;47;97;46;101;120;97;109;112;108;101;47;112;62;32;34;92;117;48;48;48;67;34;32;46;10]);
  ("literal_with_REVERSE_SOLIDUS.ttl", [60;104;116;116;112;58;47;47;97;46;101;120;97;109;112;108;101;47;115;62;32;60;104;116;116;112;58;47;47;97;46;101;120;97;109;112;108;101;47;112;62;32;39;92;92;39;32;46;10],
   [60;104;116;116;112;58;47;47;97;46;101;120;97;109;112;108;101;47;115;62;32;60;104;116;116;112;58;47;47;97;46;101;120;97;109;112;108;101;47;112;62;32;34;92;92;34;32;46;10]);
  ("literal_with_escaped_CHARACTER_TABULATION.ttl", [60;104;116;116;112;58;47;47;97;46;101;120;97;109;112;108;101;47;115;62;32;60;104;116;116;112;58;47;47;97;46;101;120;97;109;112;108;101;47;112;62;32;39;92;116;39;32;46;10],
   [60;104;116;116;112;58;47;47;97;46;101;120;97;109;112;108;101;47;115;62;32;60;104;116;116;112;58;47;47;97;46;101;120;97;109;112;108;101;47;112;62;32;34;92;116;34;32;46;10]);
  ("literal_with_escaped_BACKSPACE.ttl", [60;104;116;116;112;58;47;47;97;46;101;120;97;109;112;108;101;47;115;62;32;60;104;116;116;112;58;47;47;97;46;101;120;97;109;112;108;101;47;112;62;32;39;92;98;39;32;46;10],
   [60;104;116;116;112;58;47;47;97;46;101;120;97;109;112;108;101;47;115;62;32;60;104;116;116;112;58;47;47;97;46;101;120;97;109;112;108;101;47;112;62;32;34;92;117;48;48;48;56;34;32;46;10]);
  ("literal_with_escaped_LINE_FEED.ttl", [60;104;116;116;112;58;47;47;97;46;101;120;97;109;112;108;101;47;115;62;32;60;104;116;116;112;58;47;47;97;46;101;120;97;109;112;108;101;47;112;62;32;39;92;110;39;32;46;10],
   [60;104;116;116;112;58;47;47;97;46;101;120;97;109;112;108;101;47;115;62;32;60;104;116;116;112;58;47;47;97;46;101;120;97;109;112;108;101;47;112;62;32;34;92;110;34;32;46;10]);
  ("literal_with_escaped_CARRIAGE_RETURN.ttl", [60;104;116;116;112;58;47;47;97;46;101;120;97;109;112;108;101;47;115;62;32;60;104;116;116;112;58;47;47;97;46;101;120;97;109;112;108;101;47;112;62;32;39;92;114;39;32;46;10],
   [60;104;116;116;112;58;47;47;97;46;101;120;97;109;112;108;101;47;115;62;32;60;104;116;116;112;58;47;47;97;46;101;120;97;109;112;108;101;47;112;62;32;34;92;114;34;32;46;10]);
  ("literal_with_escaped_FORM_FEED.ttl", [60;104;116;116;112;58;47;47;97;46;101;120;97;109;112;108;101;47;115;62;32;60;104;116;116;112;58;47;47;97;46;101;120;97;109;112;108;101;47;112;62;32;39;92;102;39;32;46;10],
   [60;104;116;116;112;58;47;47;97;46;101;120;97;109;112;108;101;47;115;62;32;60;104;116;116;112;58;47;47;97;46;101;120;97;109;112;108;101;47;112;62;32;34;92;117;48;48;48;67;34;32;46;10]);
  ("literal_with_numeric_escape4.ttl", [60;104;116;116;112;58;47;47;97;46;101;120;97;109;112;108;101;47;115;62;32;60;104;116;116;112;58;47;47;97;46;101;120;97;109;112;108;101;47;112;62;32;39;92;117;48;48;54;70;39;32;46;10],
   [60;104;116;116;112;58;47;47;97;46;101;120;97;109;112;108;101;47;115;62;32;60;104;116;116;112;58;47;47;97;46;101;120;97;109;112;108;101;47;112;62;32;34;111;34;32;46;10]);
  ("literal_with_numeric_escape8.ttl", [60;104;116;116;112;58;47;47;97;46;101;120;97;109;112;108;101;47;115;62;32;60;104;116;116;112;58;47;47;97;46;101;120;97;109;112;108;101;47;112;62;32;39;92;85;48;48;48;48;48;48;54;70;39;32;46;10],
   [60;104;116;116;112;58;47;47;97;46;101;120;97;109;112;108;101;47;115;62;32;60;104;116;116;112;58;47;47;97;46;101;120;97;109;112;108;101;47;112;62;32;34;111;34;32;46;10]);
  ("IRIREF_datatype.ttl", [60;104;116;116;112;58;47;47;97;46;101;120;97;109;112;108;101;47;115;62;32;60;104;116;116;112;58;47;47;97;46;101;120;97;109;112;108;101;47;112;62;32;34;49;34;94;94;60;104;116;116;112;58;47;47;119;119;119;46;119;51;46;111;114;103;47;50;48;48;49;47;88;77;76;83;99;104;101;109;97;35;105;110;116;101;103;101;114;62;32;46;10],
   [60;104;116;116;112;58;47;47;97;46;101;120;97;109;112;108;101;47;115;62;32;60;104;116;116;112;58;47;47;97;46;101;120;97;109;112;108;101;47;112;62;32;34;49;34;94;94;60;104;116;116;112;58;47;47;119;119;119;46;119;51;46;111;114;103;47;50;48;48;49;47;88;77;76;83;99;104;101;109;97;35;105;110;116;101;103;101;114;62;32;46;10]);
  ("prefixed_name_datatype.ttl", [64;112;114;101;102;105;120;32;120;115;100;58;32;60;104;116;116;112;58;47;47;119;119;119;46;119;51;46;111;114;103;47;50;48;48;49;47;88;77;76;83;99;104;101;109;97;35;62;32;46;10;60;104;116;116;112;58;47;47;97;46;101;120;97;109;112;108;101;47;115;62;32;60;104;116;116;112;58;47;47;97;46;101;120;97;109;112;108;101;47;112;62;32;34;49;34;94;94;120;115;100;58;105;110;116;101;103;101;114;32;46;10],
   [60;104;116;116;112;58;47;47;97;46;101;120;97;109;112;108;101;47;115;62;32;60;104;116;116;112;58;47;47;97;46;101;120;97;109;112;108;101;47;112;62;32;34;49;34;94;94;60;104;116;116;112;58;47;47;119;119;119;46;119;51;46;111;114;103;47;50;48;48;49;47;88;77;76;83;99;104;101;109;97;35;105;110;116;101;103;101;114;62;32;46;10]);
  ("bareword_integer.ttl", [60;104;116;116;112;58;47;47;97;46;101;120;97;109;112;108;101;47;115;62;32;60;104;116;116;112;58;47;47;97;46;101;120;97;109;112;108;101;47;112;62;32;49;32;46;10],
   [60;104;116;116;112;58;47;47;97;46;101;120;97;109;112;108;101;47;115;62;32;60;104;116;116;112;58;47;47;97;46;101;120;97;109;112;108;101;47;112;62;32;34;49;34;94;94;60;104;116;116;112;58;47;47;119;119;119;46;119;51;46;111;114;103;47;50;48;48;49;47;88;77;76;83;99;104;101;109;97;35;105;110;116;101;103;101;114;62;32;46;10]);
  ("bareword_decimal.ttl", [60;104;116;116;112;58;47;47;97;46;101;120;97;109;112;108;101;47;115;62;32;60;104;116;116;112;58;47;47;97;46;101;120;97;109;112;108;101;47;112;62;32;49;46;48;32;46;10],
   [60;104;116;116;112;58;47;47;97;46;101;120;97;109;112;108;101;47;115;62;32;60;104;116;116;112;58;47;47;97;46;101;120;97;109;112;108;101;47;112;62;32;34;49;46;48;34;94;94;60;104;116;116;112;58;47;47;119;119;119;46;119;51;46;111;114;103;47;50;48;48;49;47;88;77;76;83;99;104;101;109;97;35;100;101;99;105;109;97;108;62;32;46;10]);
  ("bareword_double.ttl", [60;104;116;116;112;58;47;47;97;46;101;120;97;109;112;108;101;47;115;62;32;60;104;116;116;112;58;47;47;97;46;101;120;97;109;112;108;101;47;112;62;32;49;69;48;32;46;10],
   [60;104;116;116;112;58;47;47;97;46;101;120;97;109;112;108;101;47;115;62;32;60;104;116;116;112;58;47;47;97;46;101;120;97;109;112;108;101;47;112;62;32;34;49;69;48;34;94;94;60;104;116;116;112;58;47;47;119;119;119;46;119;51;46;111;114;103;47;50;48;48;49;47;88;77;76;83;99;104;101;109;97;35;100;111;117;98;108;101;62;32;46;10]);
  ("double_lower_case_e.ttl", [60;104;116;116;112;58;47;47;97;46;101;120;97;109;112;108;101;47;115;62;32;60;104;116;116;112;58;47;47;97;46;101;120;97;109;112;108;101;47;112;62;32;49;101;48;32;46;10],
   [60;104;116;116;112;58;47;47;97;46;101;120;97;109;112;108;101;47;115;62;32;60;104;116;116;112;58;47;47;97;46;101;120;97;109;112;108;101;47;112;62;32;34;49;101;48;34;94;94;60;104;116;116;112;58;47;47;119;119;119;46;119;51;46;111;114;103;47;50;48;48;49;47;88;77;76;83;99;104;101;109;97;35;100;111;117;98;108;101;62;32;46;10]);
  ("negative_numeric.ttl", [60;104;116;116;112;58;47;47;97;46;101;120;97;109;112;108;101;47;115;62;32;60;104;116;116;112;58;47;47;97;46;101;120;97;109;112;108;101;47;112;62;32;45;49;32;46;10],
   [60;104;116;116;112;58;47;47;97;46;101;120;97;109;112;108;101;47;115;62;32;60;104;116;116;112;58;47;47;97;46;101;120;97;109;112;108;101;47;112;62;32;34;45;49;34;94;94;60;104;116;116;112;58;47;47;119;119;119;46;119;51;46;111;114;103;47;50;48;48;49;47;88;77;76;83;99;104;101;109;97;35;105;110;116;101;103;101;114;62;32;46;10]);
  ("positive_numeric.ttl", [60;104;116;116;112;58;47;47;97;46;101;120;97;109;112;108;101;47;115;62;32;60;104;116;116;112;58;47;47;97;46;101;120;97;109;112;108;101;47;112;62;32;43;49;32;46;10],
   [60;104;116;116;112;58;47;47;97;46;101;120;97;109;112;108;101;47;115;62;32;60;104;116;116;112;58;47;47;97;46;101;120;97;109;112;108;101;47;112;62;32;34;43;49;34;94;94;60;104;116;116;112;58;47;47;119;119;119;46;119;51;46;111;114;103;47;50;48;48;49;47;88;77;76;83;99;104;101;109;97;35;105;110;116;101;103;101;114;62;32;46;10]);
  ("numeric_with_leading_0.ttl", [60;104;116;116;112;58;47;47;97;46;101;120;97;109;112;108;101;47;115;62;32;60;104;116;116;112;58;47;47;97;46;101;120;97;109;112;108;101;47;112;62;32;48;49;32;46;10],
   [60;104;116;116;112;58;47;47;97;46;101;120;97;109;112;108;101;47;115;62;32;60;104;116;116;112;58;47;47;97;46;101;120;97;109;112;108;101;47;112;62;32;34;48;49;34;94;94;60;104;116;116;112;58;47;47;119;119;119;46;119;51;46;111;114;103;47;50;48;48;49;47;88;77;76;83;99;104;101;109;97;35;105;110;116;101;103;101;114;62;32;46;10]);
  ("literal_true.ttl", [60;104;116;116;112;58;47;47;97;46;101;120;97;109;112;108;101;47;115;62;32;60;104;116;116;112;58;47;47;97;46;101;120;97;109;112;108;101;47;112;62;32;116;114;117;101;32;46;10],
   [60;104;116;116;112;58;47;47;97;46;101;120;97;109;112;108;101;47;115;62;32;60;104;116;116;112;58;47;47;97;46;101;120;97;109;112;108;101;47;112;62;32;34;116;114;117;101;34;94;94;60;104;116;116;112;58;47;47;119;119;119;46;119;51;46;111;114;103;47;50;48;48;49;47;88;77;76;83;99;104;101;109;97;35;98;111;111;108;101;97;110;62;32;46;10]);
  ("literal_false.ttl", [60;104;116;116;112;58;47;47;97;46;101;120;97;109;112;108;101;47;115;62;32;60;104;116;116;112;58;47;47;97;46;101;120;97;109;112;108;101;47;112;62;32;102;97;108;115;101;32;46;10],
   [60;104;116;116;112;58;47;47;97;46;101;120;97;109;112;108;101;47;115;62;32;60;104;116;116;112;58;47;47;97;46;101;120;97;109;112;108;101;47;112;62;32;34;102;97;108;115;101;34;94;94;60;104;116;116;112;58;47;47;119;119;119;46;119;51;46;111;114;103;47;50;48;48;49;47;88;77;76;83;99;104;101;109;97;35;98;111;111;108;101;97;110;62;32;46;10]);
  ("langtagged_non_LONG.ttl", [60;104;116;116;112;58;47;47;97;46;101;120;97;109;112;108;101;47;115;62;32;60;104;116;116;112;58;47;47;97;46;101;120;97;109;112;108;101;47;112;62;32;34;99;104;97;116;34;64;101;110;32;46;10],
   [60;104;116;116;112;58;47;47;97;46;101;120;97;109;112;108;101;47;115;62;32;60;104;116;116;112;58;47;47;97;46;101;120;97;109;112;108;101;47;112;62;32;34;99;104;97;116;34;64;101;110;32;46;10]);
  ("langtagged_LONG.ttl", [60;104;116;116;112;58;47;47;97;46;101;120;97;109;112;108;101;47;115;62;32;60;104;116;116;112;58;47;47;97;46;101;120;97;109;112;108;101;47;112;62;32;34;34;34;99;104;97;116;34;34;34;64;101;110;32;46;10],
   [60;104;116;116;112;58;47;47;97;46;101;120;97;109;112;108;101;47;115;62;32;60;104;116;116;112;58;47;47;97;46;101;120;97;109;112;108;101;47;112;62;32;34;99;104;97;116;34;64;101;110;32;46;10]);
  ("lantag_with_subtag.ttl", [60;104;116;116;112;58;47;47;97;46;101;120;97;109;112;108;101;47;115;62;32;60;104;116;116;112;58;47;47;97;46;101;120;97;109;112;108;101;47;112;62;32;34;99;104;97;116;34;64;101;110;45;117;115;32;46;10],
   [60;104;116;116;112;58;47;47;97;46;101;120;97;109;112;108;101;47;115;62;32;60;104;116;116;112;58;47;47;97;46;101;120;97;109;112;108;101;47;112;62;32;34;99;104;97;116;34;64;101;110;45;117;115;32;46;10]);
  ("objectList_with_two_objects.ttl", [60;104;116;116;112;58;47;47;97;46;101;120;97;109;112;108;101;47;115;62;32;60;104;116;116;112;58;47;47;97;46;101;120;97;109;112;108;101;47;112;62;32;60;104;116;116;112;58;47;47;97;46;101;120;97;109;112;108;101;47;111;49;62;44;32;60;104;116;116;112;58;47;47;97;46;101;120;97;109;112;108;101;47;111;50;62;32;46;10],
   [60;104;116;116;112;58;47;47;97;46;101;120;97;109;112;108;101;47;115;62;32;60;104;116;116;112;58;47;47;97;46;101;120;97;109;112;108;101;47;112;62;32;60;104;116;116;112;58;47;47;97;46;101;120;97;109;112;108;101;47;111;49;62;32;46;10;60;104;116;116;112;58;47;47;97;46;101;120;97;109;112;108;101;47;115;62;32;60;104;116;116;112;58;47;47;97;46;101;120;97;109;112;108;101;47;112;62;32;60;104;116;116;112;58;47;47;97;46;101;120;97;109;112;108;101;47;111;50;62;32;46;10]);
  ("predicateObjectList_with_two_objectLists.ttl", [60;104;116;116;112;58;47;47;97;46;101;120;97;109;112;108;101;47;115;62;32;60;104;116;116;112;58;47;47;97;46;101;120;97;109;112;108;101;47;112;49;62;32;60;104;116;116;112;58;47;47;97;46;101;120;97;109;112;108;101;47;111;49;62;59;32;60;104;116;116;112;58;47;47;97;46;101;120;97;109;112;108;101;47;112;50;62;32;60;104;116;116;112;58;47;47;97;46;101;120;97;109;112;108;101;47;111;50;62;32;46;10],
   [60;104;116;116;112;58;47;47;97;46;101;120;97;109;112;108;101;47;115;62;32;60;104;116;116;112;58;47;47;97;46;101;120;97;109;112;108;101;47;112;49;62;32;60;104;116;116;112;58;47;47;97;46;101;120;97;109;112;108;101;47;111;49;62;32;46;10;60;104;116;116;112;58;47;47;97;46;101;120;97;109;112;108;101;47;115;62;32;60;104;116;116;112;58;47;47;97;46;101;120;97;109;112;108;101;47;112;50;62;32;60;104;116;116;112;58;47;47;97;46;101;120;97;109;112;108;101;47;111;50;62;32;46;10]);
  ("repeated_semis_at_end.ttl", [60;104;116;116;112;58;47;47;97;46;101;120;97;109;112;108;101;47;115;62;32;60;104;116;116;112;58;47;47;97;46;101;120;97;109;112;108;101;47;112;49;62;32;60;104;116;116;112;58;47;47;97;46;101;120;97;109;112;108;101;47;111;49;62;59;59;32;60;104;116;116;112;58;47;47;97;46;101;120;97;109;112;108;101;47;112;50;62;32;60;104;116;116;112;58;47;47;97;46;101;120;97;109;112;108;101;47;111;50;62;32;46;10],
   [60;104;116;116;112;58;47;47;97;46;101;120;97;109;112;108;101;47;115;62;32;60;104;116;116;112;58;47;47;97;46;101;120;97;109;112;108;101;47;112;49;62;32;60;104;116;116;112;58;47;47;97;46;101;120;97;109;112;108;101;47;111;49;62;32;46;10;60;104;116;116;112;58;47;47;97;46;101;120;97;109;112;108;101;47;115;62;32;60;104;116;116;112;58;47;47;97;46;101;120;97;109;112;108;101;47;112;50;62;32;60;104;116;116;112;58;47;47;97;46;101;120;97;109;112;108;101;47;111;50;62;32;46;10]);
  ("repeated_semis_not_at_end.ttl", [60;104;116;116;112;58;47;47;97;46;101;120;97;109;112;108;101;47;115;62;32;60;104;116;116;112;58;47;47;97;46;101;120;97;109;112;108;101;47;112;49;62;32;60;104;116;116;112;58;47;47;97;46;101;120;97;109;112;108;101;47;111;49;62;59;59;32;46;10],
   [60;104;116;116;112;58;47;47;97;46;101;120;97;109;112;108;101;47;115;62;32;60;104;116;116;112;58;47;47;97;46;101;120;97;109;112;108;101;47;112;49;62;32;60;104;116;116;112;58;47;47;97;46;101;120;97;109;112;108;101;47;111;49;62;32;46;10]);
  ("turtle-eval-struct-01.ttl", [60;104;116;116;112;58;47;47;119;119;119;46;119;51;46;111;114;103;47;50;48;49;51;47;84;117;114;116;108;101;84;101;115;116;115;47;115;62;32;60;104;116;116;112;58;47;47;119;119;119;46;119;51;46;111;114;103;47;50;48;49;51;47;84;117;114;116;108;101;84;101;115;116;115;47;112;62;32;60;104;116;116;112;58;47;47;119;119;119;46;119;51;46;111;114;103;47;50;48;49;51;47;84;117;114;116;108;101;84;101;115;116;115;47;111;62;32;46;10],
   [60;104;116;116;112;58;47;47;119;119;119;46;119;51;46;111;114;103;47;50;48;49;51;47;84;117;114;116;108;101;84;101;115;116;115;47;115;62;32;60;104;116;116;112;58;47;47;119;119;119;46;119;51;46;111;114;103;47;50;48;49;51;47;84;117;114;116;108;101;84;101;115;116;115;47;112;62;32;60;104;116;116;112;58;47;47;119;119;119;46;119;51;46;111;114;103;47;50;48;49;51;47;84;117;114;116;108;101;84;101;115;116;115;47;111;62;32;46;10]);
  ("turtle-eval-struct-02.ttl", [60;104;116;116;112;58;47;47;119;119;119;46;119;51;46;111;114;103;47;50;48;49;51;47;84;117;114;116;108;101;84;101;115;116;115;47;115;62;32;10;32;32;32;32;32;32;60;104;116;116;112;58;47;47;119;119;119;46;119;51;46;111;114;103;47;50;48;49;51;47;84;117;114;116;108;101;84;101;115;116;115;47;112;49;62;32;60;104;116;116;112;58;47;47;119;119;119;46;119;51;46;111;114;103;47;50;48;49;51;47;84;117;114;116;108;101;84;101;115;116;115;47;111;49;62;32;59;10;32;32;32;32;32;32;60;104;116;116;112;58;47;47;119;119;119;46;119;51;46;111;114;103;47;50;48;49;51;47;84;117;114;116;108;101;84;101;115;116;115;47;112;50;62;32;60;104;116;116;112;58;47;47;119;119;119;46;119;51;46;111;114;103;47;50;48;49;51;47;84;117;114;116;108;101;84;101;115;116;115;47;111;50;62;32;59;32;10;32;32;32;32;32;32;46;10],
   [60;104;116;116;112;58;47;47;119;119;119;46;119;51;46;111;114;103;47;50;48;49;51;47;84;117;114;116;108;101;84;101;115;116;115;47;115;62;32;60;104;116;116;112;58;47;47;119;119;119;46;119;51;46;111;114;103;47;50;48;49;51;47;84;117;114;116;108;101;84;101;115;116;115;47;112;49;62;32;60;104;116;116;112;58;47;47;119;119;119;46;119;51;46;111;114;103;47;50;48;49;51;47;84;117;114;116;108;101;84;101;115;116;115;47;111;49;62;32;46;10;60;104;116;116;112;58;47;47;119;119;119;46;119;51;46;111;114;103;47;50;48;49;51;47;84;117;114;116;108;101;84;101;115;116;115;47;115;62;32;60;104;116;116;112;58;47;47;119;119;119;46;119;51;46;111;114;103;47;50;48;49;51;47;84;117;114;116;108;101;84;101;115;116;115;47;112;50;62;32;60;104;116;116;112;58;47;47;119;119;119;46;119;51;46;111;114;103;47;50;48;49;51;47;84;117;114;116;108;101;84;101;115;116;115;47;111;50;62;32;46;10]);
  ("turtle-subm-01.ttl", [64;112;114;101;102;105;120;32;58;32;60;35;62;32;46;10;91;93;32;58;120;32;58;121;32;46;10],
   [95;58;103;101;110;105;100;49;32;60;104;116;116;112;58;47;47;119;119;119;46;119;51;46;111;114;103;47;50;48;49;51;47;84;117;114;116;108;101;84;101;115;116;115;47;116;117;114;116;108;101;45;115;117;98;109;45;48;49;46;116;116;108;35;120;62;32;60;104;116;116;112;58;47;47;119;119;119;46;119;51;46;111;114;103;47;50;48;49;51;47;84;117;114;116;108;101;84;101;115;116;115;47;116;117;114;116;108;101;45;115;117;98;109;45;48;49;46;116;116;108;35;121;62;32;46;10]);
  ("turtle-subm-02.ttl", [35;32;84;101;115;116;32;64;112;114;101;102;105;120;32;97;110;100;32;113;110;97;109;101;115;10;64;112;114;101;102;105;120;32;58;32;32;60;104;116;116;112;58;47;47;101;120;97;109;112;108;101;46;111;114;103;47;98;97;115;101;49;35;62;32;46;10;64;112;114;101;102;105;120;32;97;58;32;60;104;116;116;112;58;47;47;101;120;97;109;112;108;101;46;111;114;103;47;98;97;115;101;50;35;62;32;46;10;64;112;114;101;102;105;120;32;98;58;32;60;104;116;116;112;58;47;47;101;120;97;109;112;108;101;46;111;114;103;47;98;97;115;101;51;35;62;32;46;10;58;97;32;58;98;32;58;99;32;46;10;97;58;97;32;97;58;98;32;97;58;99;32;46;10;58;97;32;97;58;97;32;98;58;97;32;46;10],
   [60;104;116;116;112;58;47;47;101;120;97;109;112;108;101;46;111;114;103;47;98;97;115;101;49;35;97;62;32;60;104;116;116;112;58;47;47;101;120;97;109;112;108;101;46;111;114;103;47;98;97;115;101;49;35;98;62;32;60;104;116;116;112;58;47;47;101;120;97;109;112;108;101;46;111;114;103;47;98;97;115;101;49;35;99;62;32;46;10;60;104;116;116;112;58;47;47;101;120;97;109;112;108;101;46;111;114;103;47;98;97;115;101;50;35;97;62;32;60;104;116;116;112;58;47;47;101;120;97;109;112;108;101;46;111;114;103;47;98;97;115;101;50;35;98;62;32;60;104;116;116;112;58;47;47;101;120;97;109;112;108;101;46;111;114;103;47;98;97;115;101;50;35;99;62;32;46;10;60;104;116;116;112;58;47;47;101;120;97;109;112;108;101;46;111;114;103;47;98;97;115;101;49;35;97;62;32;60;104;116;116;112;58;47;47;101;120;97;109;112;108;101;46;111;114;103;47;98;97;115;101;50;35;97;62;32;60;104;116;116;112;58;47;47;101;120;97;109;112;108;101;46;111;114;103;47;98;97;115;101;51;35;97;62;32;46;10]);
  ("turtle-subm-03.ttl", [35;32;84;101;115;116;32;44;32;111;112;101;114;97;116;111;114;10;64;112;114;101;102;105;120;32;58;32;60;104;116;116;112;58;47;47;101;120;97;109;112;108;101;46;111;114;103;47;98;97;115;101;35;62;32;46;10;58;97;32;58;98;32;58;99;44;10;32;32;32;32;32;32;58;100;44;10;32;32;32;32;32;32;58;101;32;46;10],
   [60;104;116;116;112;58;47;47;101;120;97;109;112;108;101;46;111;114;103;47;98;97;115;101;35;97;62;32;60;104;116;116;112;58;47;47;101;120;97;109;112;108;101;46;111;114;103;47;98;97;115;101;35;98;62;32;60;104;116;116;112;58;47;47;101;120;97;109;112;108;101;46;111;114;103;47;98;97;115;101;35;99;62;32;46;10;60;104;116;116;112;58;47;47;101;120;97;109;112;108;101;46;111;114;103;47;98;97;115;101;35;97;62;32;60;104;116;116;112;58;47;47;101;120;97;109;112;108;101;46;111;114;103;47;98;97;115;101;35;98;62;32;60;104;116;116;112;58;47;47;101;120;97;109;112;108;101;46;111;114;103;47;98;97;115;101;35;100;62;32;46;10;60;104;116;116;112;58;47;47;101;120;97;109;112;108;101;46;111;114;103;47;98;97;115;101;35;97;62;32;60;104;116;116;112;58;47;47;101;120;97;109;112;108;101;46;111;114;103;47;98;97;115;101;35;98;62;32;60;104;116;116;112;58;47;47;101;120;97;109;112;108;101;46;111;114;103;47;98;97;115;101;35;101;62;32;46;10]);
  ("turtle-subm-04.ttl", [35;32;84;101;115;116;32;59;32;111;112;101;114;97;116;111;114;10;64;112;114;101;102;105;120;32;58;32;60;104;116;116;112;58;47;47;101;120;97;109;112;108;101;46;111;114;103;47;98;97;115;101;35;62;32;46;10;58;97;32;58;98;32;58;99;32;59;10;32;32;32;58;100;32;58;101;32;59;10;32;32;32;58;102;32;58;103;32;46;10],
   [60;104;116;116;112;58;47;47;101;120;97;109;112;108;101;46;111;114;103;47;98;97;115;101;35;97;62;32;60;104;116;116;112;58;47;47;101;120;97;109;112;108;101;46;111;114;103;47;98;97;115;101;35;98;62;32;60;104;116;116;112;58;47;47;101;120;97;109;112;108;101;46;111;114;103;47;98;97;115;101;35;99;62;32;46;10;60;104;116;116;112;58;47;47;101;120;97;109;112;108;101;46;111;114;103;47;98;97;115;101;35;97;62;32;60;104;116;116;112;58;47;47;101;120;97;109;112;108;101;46;111;114;103;47;98;97;115;101;35;100;62;32;60;104;116;116;112;58;47;47;101;120;97;109;112;108;101;46;111;114;103;47;98;97;115;101;35;101;62;32;46;10;60;104;116;116;112;58;47;47;101;120;97;109;112;108;101;46;111;114;103;47;98;97;115;101;35;97;62;32;60;104;116;116;112;58;47;47;101;120;97;109;112;108;101;46;111;114;103;47;98;97;115;101;35;102;62;32;60;104;116;116;112;58;47;47;101;120;97;109;112;108;101;46;111;114;103;47;98;97;115;101;35;103;62;32;46;10]);
  ("turtle-subm-05.ttl", [35;32;84;101;115;116;32;101;109;112;116;121;32;91;93;32;111;112;101;114;97;116;111;114;59;32;110;111;116;32;97;108;108;111;119;101;100;32;97;115;32;112;114;101;100;105;99;97;116;101;10;64;112;114;101;102;105;120;32;58;32;60;104;116;116;112;58;47;47;101;120;97;109;112;108;101;46;111;114;103;47;98;97;115;101;35;62;32;46;10;91;93;32;58;97;32;58;98;32;46;10;58;99;32;58;100;32;91;93;32;46;10],
   [95;58;103;101;110;105;100;49;32;60;104;116;116;112;58;47;47;101;120;97;109;112;108;101;46;111;114;103;47;98;97;115;101;35;97;62;32;60;104;116;116;112;58;47;47;101;120;97;109;112;108;101;46;111;114;103;47;98;97;115;101;35;98;62;32;46;10;60;104;116;116;112;58;47;47;101;120;97;109;112;108;101;46;111;114;103;47;98;97;115;101;35;99;62;32;60;104;116;116;112;58;47;47;101;120;97;109;112;108;101;46;111;114;103;47;98;97;115;101;35;100;62;32;95;58;103;101;110;105;100;50;32;46;10]);
  ("turtle-subm-06.ttl", [35;32;84;101;115;116;32;110;111;110;32;101;109;112;116;121;32;91;93;32;111;112;101;114;97;116;111;114;59;32;110;111;116;32;97;108;108;111;119;101;100;32;97;115;32;112;114;101;100;105;99;97;116;101;10;64;112;114;101;102;105;120;32;58;32;60;104;116;116;112;58;47;47;101;120;97;109;112;108;101;46;111;114;103;47;98;97;115;101;35;62;32;46;10;91;32;58;97;32;58;98;32;93;32;58;99;32;58;100;32;46;10;58;101;32;58;102;32;91;32;58;103;32;58;104;32;93;32;46;10],
   [95;58;103;101;110;105;100;49;32;60;104;116;116;112;58;47;47;101;120;97;109;112;108;101;46;111;114;103;47;98;97;115;101;35;97;62;32;60;104;116;116;112;58;47;47;101;120;97;109;112;108;101;46;111;114;103;47;98;97;115;101;35;98;62;32;46;10;95;58;103;101;110;105;100;49;32;60;104;116;116;112;58;47;47;101;120;97;109;112;108;101;46;111;114;103;47;98;97;115;101;35;99;62;32;60;104;116;116;112;58;47;47;101;120;97;109;112;108;101;46;111;114;103;47;98;97;115;101;35;100;62;32;46;10;95;58;103;101;110;105;100;50;32;60;104;116;116;112;58;47;47;101;120;97;109;112;108;101;46;111;114;103;47;98;97;115;101;35;103;62;32;60;104;116;116;112;58;47;47;101;120;97;109;112;108;101;46;111;114;103;47;98;97;115;101;35;104;62;32;46;10;60;104;116;116;112;58;47;47;101;120;97;109;112;108;101;46;111;114;103;47;98;97;115;101;35;101;62;32;60;104;116;116;112;58;47;47;101;120;97;109;112;108;101;46;111;114;103;47;98;97;115;101;35;102;62;32;95;58;103;101;110;105;100;50;32;46;10]);
  ("turtle-subm-07.ttl", [35;32;39;97;39;32;111;110;108;121;32;97;108;108;111;119;101;100;32;97;115;32;97;32;112;114;101;100;105;99;97;116;101;10;64;112;114;101;102;105;120;32;58;32;60;104;116;116;112;58;47;47;101;120;97;109;112;108;101;46;111;114;103;47;98;97;115;101;35;62;32;46;10;58;97;32;97;32;58;98;32;46;10],
   [60;104;116;116;112;58;47;47;101;120;97;109;112;108;101;46;111;114;103;47;98;97;115;101;35;97;62;32;60;104;116;116;112;58;47;47;119;119;119;46;119;51;46;111;114;103;47;49;57;57;57;47;48;50;47;50;50;45;114;100;102;45;115;121;110;116;97;120;45;110;115;35;116;121;112;101;62;32;60;104;116;116;112;58;47;47;101;120;97;109;112;108;101;46;111;114;103;47;98;97;115;101;35;98;62;32;46;10]);
  ("turtle-subm-08.ttl", [64;112;114;101;102;105;120;32;58;32;60;104;116;116;112;58;47;47;101;120;97;109;112;108;101;46;111;114;103;47;115;116;117;102;102;47;49;46;48;47;62;32;46;10;58;97;32;58;98;32;40;32;34;97;112;112;108;101;34;32;34;98;97;110;97;110;97;34;32;41;32;46;10;10],
   [95;58;103;101;110;105;100;49;32;60;104;116;116;112;58;47;47;119;119;119;46;119;51;46;111;114;103;47;49;57;57;57;47;48;50;47;50;50;45;114;100;102;45;115;121;110;116;97;120;45;110;115;35;102;105;114;115;116;62;32;34;98;97;110;97;110;97;34;32;46;10;95;58;103;101;110;105;100;49;32;60;104;116;116;112;58;47;47;119;119;119;46;119;51;46;111;114;103;47;49;57;57;57;47;48;50;47;50;50;45;114;100;102;45;115;121;110;116;97;120;45;110;115;35;114;101;115;116;62;32;60;104;116;116;112;58;47;47;119;119;119;46;119;51;46;111;114;103;47;49;57;57;57;47;48;50;47;50;50;45;114;100;102;45;115;121;110;116;97;120;45;110;115;35;110;105;108;62;32;46;10;95;58;103;101;110;105;100;50;32;60;104;116;116;112;58;47;47;119;119;119;46;119;51;46;111;114;103;47;49;57;57;57;47;48;50;47;50;50;45;114;100;102;45;115;121;110;116;97;120;45;110;115;35;102;105;114;115;116;62;32;34;97;112;112;108;101;34;32;46;10;95;58;103;101;110;105;100;50;32;60;104;116;116;112;58;47;47;119;119;119;46;119;51;46;111;114;103;47;49;57;57;57;47;48;50;47;50;50;45;114;100;102;45;115;121;110;116;97;120;45;110;115;35;114;101;115;116;62;32;95;58;103;101;110;105;100;49;32;46;10;60;104;116;116;112;58;47;47;101;120;97;109;112;108;101;46;111;114;103;47;115;116;117;102;102;47;49;46;48;47;97;62;32;60;104;116;116;112;58;47;47;101;120;97;109;112;108;101;46;111;114;103;47;115;116;117;102;102;47;49;46;48;47;98;62;32;95;58;103;101;110;105;100;50;32;46;10]);
  ("turtle-subm-09.ttl", [64;112;114;101;102;105;120;32;58;32;60;104;116;116;112;58;47;47;101;120;97;109;112;108;101;46;111;114;103;47;115;116;117;102;102;47;49;46;48;47;62;32;46;10;58;97;32;58;98;32;40;32;41;32;46;10;10],
   [60;104;116;116;112;58;47;47;101;120;97;109;112;108;101;46;111;114;103;47;115;116;117;102;102;47;49;46;48;47;97;62;32;60;104;116;116;112;58;47;47;101;120;97;109;112;108;101;46;111;114;103;47;115;116;117;102;102;47;49;46;48;47;98;62;32;60;104;116;116;112;58;47;47;119;119;119;46;119;51;46;111;114;103;47;49;57;57;57;47;48;50;47;50;50;45;114;100;102;45;115;121;110;116;97;120;45;110;115;35;110;105;108;62;32;46;10]);
  ("turtle-subm-10.ttl", [35;32;84;101;115;116;32;105;110;116;101;103;101;114;32;100;97;116;97;116;121;112;101;100;32;108;105;116;101;114;97;108;115;32;117;115;105;110;103;32;97;110;32;79;87;76;32;99;97;114;100;105;110;97;108;105;116;121;32;99;111;110;115;116;114;97;105;110;116;10;64;112;114;101;102;105;120;32;111;119;108;58;32;60;104;116;116;112;58;47;47;119;119;119;46;119;51;46;111;114;103;47;50;48;48;50;47;48;55;47;111;119;108;35;62;32;46;10;10;35;32;98;97;115;101;100;32;111;110;32;101;120;97;109;112;108;101;115;32;105;110;32;116;104;101;32;79;87;76;32;82;101;102;101;114;101;110;99;101;10;10;95;58;104;97;115;80;97;114;101;110;116;32;97;32;111;119;108;58;79;98;106;101;99;116;80;114;111;112;101;114;116;121;32;46;10;10;91;93;32;97;32;111;119;108;58;82;101;115;116;114;105;99;116;105;111;110;32;59;10;32;32;111;119;108;58;111;110;80;114;111;112;101;114;116;121;32;95;58;104;97;115;80;97;114;101;110;116;32;59;10;32;32;111;119;108;58;109;97;120;67;97;114;100;105;110;97;108;105;116;121;32;50;32;46;10],
   [95;58;104;97;115;80;97;114;101;110;116;32;60;104;116;116;112;58;47;47;119;119;119;46;119;51;46;111;114;103;47;49;57;57;57;47;48;50;47;50;50;45;114;100;102;45;115;121;110;116;97;120;45;110;115;35;116;121;112;101;62;32;60;104;116;116;112;58;47;47;119;119;119;46;119;51;46;111;114;103;47;50;48;48;50;47;48;55;47;111;119;108;35;79;98;106;101;99;116;80;114;111;112;101;114;116;121;62;32;46;10;95;58;103;101;110;105;100;49;32;60;104;116;116;112;58;47;47;119;119;119;46;119;51;46;111;114;103;47;49;57;57;57;47;48;50;47;50;50;45;114;100;102;45;115;121;110;116;97;120;45;110;115;35;116;121;112;101;62;32;60;104;116;116;112;58;47;47;119;119;119;46;119;51;46;111;114;103;47;50;48;48;50;47;48;55;47;111;119;108;35;82;101;115;116;114;105;99;116;105;111;110;62;32;46;10;95;58;103;101;110;105;100;49;32;60;104;116;116;112;58;47;47;119;119;119;46;119;51;46;111;114;103;47;50;48;48;50;47;48;55;47;111;119;108;35;111;110;80;114;111;112;101;114;116;121;62;32;95;58;104;97;115;80;97;114;101;110;116;32;46;10;95;58;103;101;110;105;100;49;32;60;104;116;116;112;58;47;47;119;119;119;46;119;51;46;111;114;103;47;50;48;48;50;47;48;55;47;111;119;108;35;109;97;120;67;97;114;100;105;110;97;108;105;116;121;62;32;34;50;34;94;94;60;104;116;116;112;58;47;47;119;119;119;46;119;51;46;111;114;103;47;50;48;48;49;47;88;77;76;83;99;104;101;109;97;35;105;110;116;101;103;101;114;62;32;46;10]);
  ("turtle-subm-11.ttl", [60;104;116;116;112;58;47;47;101;120;97;109;112;108;101;46;111;114;103;47;114;101;115;49;62;32;60;104;116;116;112;58;47;47;101;120;97;109;112;108;101;46;111;114;103;47;112;114;111;112;49;62;32;48;48;48;48;48;48;32;46;10;60;104;116;116;112;58;47;47;101;120;97;109;112;108;101;46;111;114;103;47;114;101;115;50;62;32;60;104;116;116;112;58;47;47;101;120;97;109;112;108;101;46;111;114;103;47;112;114;111;112;50;62;32;48;32;46;10;60;104;116;116;112;58;47;47;101;120;97;109;112;108;101;46;111;114;103;47;114;101;115;51;62;32;60;104;116;116;112;58;47;47;101;120;97;109;112;108;101;46;111;114;103;47;112;114;111;112;51;62;32;48;48;48;48;48;49;32;46;10;60;104;116;116;112;58;47;47;101;120;97;109;112;108;101;46;111;114;103;47;114;101;115;52;62;32;60;104;116;116;112;58;47;47;101;120;97;109;112;108;101;46;111;114;103;47;112;114;111;112;52;62;32;50;32;46;10;60;104;116;116;112;58;47;47;101;120;97;109;112;108;101;46;111;114;103;47;114;101;115;53;62;32;60;104;116;116;112;58;47;47;101;120;97;109;112;108;101;46;111;114;103;47;112;114;111;112;53;62;32;52;32;46;10],
   [60;104;116;116;112;58;47;47;101;120;97;109;112;108;101;46;111;114;103;47;114;101;115;49;62;32;60;104;116;116;112;58;47;47;101;120;97;109;112;108;101;46;111;114;103;47;112;114;111;112;49;62;32;34;48;48;48;48;48;48;34;94;94;60;104;116;116;112;58;47;47;119;119;119;46;119;51;46;111;114;103;47;50;48;48;49;47;88;77;76;83;99;104;101;109;97;35;105;110;116;101;103;101;114;62;32;46;10;60;104;116;116;112;58;47;47;101;120;97;109;112;108;101;46;111;114;103;47;114;101;115;50;62;32;60;104;116;116;112;58;47;47;101;120;97;109;112;108;101;46;111;114;103;47;112;114;111;112;50;62;32;34;48;34;94;94;60;104;116;116;112;58;47;47;119;119;119;46;119;51;46;111;114;103;47;50;48;48;49;47;88;77;76;83;99;104;101;109;97;35;105;110;116;101;103;101;114;62;32;46;10;60;104;116;116;112;58;47;47;101;120;97;109;112;108;101;46;111;114;103;47;114;101;115;51;62;32;60;104;116;116;112;58;47;47;101;120;97;109;112;108;101;46;111;114;103;47;112;114;111;112;51;62;32;34;48;48;48;48;48;49;34;94;94;60;104;116;116;112;58;47;47;119;119;119;46;119;51;46;111;114;103;47;50;48;48;49;47;88;77;76;83;99;104;101;109;97;35;105;110;116;101;103;101;114;62;32;46;10;60;104;116;116;112;58;47;47;101;120;97;109;112;108;101;46;111;114;103;47;114;101;115;52;62;32;60;104;116;116;112;58;47;47;101;120;97;109;112;108;101;46;111;114;103;47;112;114;111;112;52;62;32;34;50;34;94;94;60;104;116;116;112;58;47;47;119;119;119;46;119;51;46;111;114;103;47;50;48;48;49;47;88;77;76;83;99;104;101;109;97;35;105;110;116;101;103;101;114;62;32;46;10;60;104;116;116;112;58;47;47;101;120;97;109;112;108;101;46;111;114;103;47;114;101;115;53;62;32;60;104;116;116;112;58;47;47;101;120;97;109;112;108;101;46;111;114;103;47;112;114;111;112;53;62;32;34;52;34;94;94;60;104;116;116;112;58;47;47;119;119;119;46;119;51;46;111;114;103;47;50;48;48;49;47;88;77;76;83;99;104;101;109;97;35;105;110;116;101;103;101;114;62;32;46;10]);
  ("turtle-subm-12.ttl", [35;32;84;101;115;116;115;32;102;111;114;32;45;32;97;110;100;32;95;32;105;110;32;110;97;109;101;115;44;32;113;110;97;109;101;115;10;64;112;114;101;102;105;120;32;101;120;49;58;32;60;104;116;116;112;58;47;47;101;120;97;109;112;108;101;46;111;114;103;47;101;120;49;35;62;32;46;10;64;112;114;101;102;105;120;32;101;120;45;50;58;32;60;104;116;116;112;58;47;47;101;120;97;109;112;108;101;46;111;114;103;47;101;120;50;35;62;32;46;10;64;112;114;101;102;105;120;32;101;120;51;95;58;32;60;104;116;116;112;58;47;47;101;120;97;109;112;108;101;46;111;114;103;47;101;120;51;35;62;32;46;10;64;112;114;101;102;105;120;32;101;120;52;45;58;32;60;104;116;116;112;58;47;47;101;120;97;109;112;108;101;46;111;114;103;47;101;120;52;35;62;32;46;10;10;101;120;49;58;102;111;111;45;98;97;114;32;101;120;49;58;102;111;111;95;98;97;114;32;34;97;34;32;46;10;101;120;45;50;58;102;111;111;45;98;97;114;32;101;120;45;50;58;102;111;111;95;98;97;114;32;34;98;34;32;46;10;101;120;51;95;58;102;111;111;45;98;97;114;32;101;120;51;95;58;102;111;111;95;98;97;114;32;34;99;34;32;46;10;101;120;52;45;58;102;111;111;45;98;97;114;32;101;120;52;45;58;102;111;111;95;98;97;114;32;34;100;34;32;46;10],
   [60;104;116;116;112;58;47;47;101;120;97;109;112;108;101;46;111;114;103;47;101;120;49;35;102;111;111;45;98;97;114;62;32;60;104;116;116;112;58;47;47;101;120;97;109;112;108;101;46;111;114;103;47;101;120;49;35;102;111;111;95;98;97;114;62;32;34;97;34;32;46;10;60;104;116;116;112;58;47;47;101;120;97;109;112;108;101;46;111;114;103;47;101;120;50;35;102;111;111;45;98;97;114;62;32;60;104;116;116;112;58;47;47;101;120;97;109;112;108;101;46;111;114;103;47;101;120;50;35;102;111;111;95;98;97;114;62;32;34;98;34;32;46;10;60;104;116;116;112;58;47;47;101;120;97;109;112;108;101;46;111;114;103;47;101;120;51;35;102;111;111;45;98;97;114;62;32;60;104;116;116;112;58;47;47;101;120;97;109;112;108;101;46;111;114;103;47;101;120;51;35;102;111;111;95;98;97;114;62;32;34;99;34;32;46;10;60;104;116;116;112;58;47;47;101;120;97;109;112;108;101;46;111;114;103;47;101;120;52;35;102;111;111;45;98;97;114;62;32;60;104;116;116;112;58;47;47;101;120;97;109;112;108;101;46;111;114;103;47;101;120;52;35;102;111;111;95;98;97;114;62;32;34;100;34;32;46;10]);
  ("turtle-subm-13.ttl", [35;32;84;101;115;116;115;32;102;111;114;32;114;100;102;58;95;60;110;117;109;98;101;114;115;62;32;97;110;100;32;111;116;104;101;114;32;113;110;97;109;101;115;32;115;116;97;114;116;105;110;103;32;119;105;116;104;32;95;10;64;112;114;101;102;105;120;32;114;100;102;58;32;60;104;116;116;112;58;47;47;119;119;119;46;119;51;46;111;114;103;47;49;57;57;57;47;48;50;47;50;50;45;114;100;102;45;115;121;110;116;97;120;45;110;115;35;62;32;46;10;64;112;114;101;102;105;120;32;101;120;58;32;32;60;104;116;116;112;58;47;47;101;120;97;109;112;108;101;46;111;114;103;47;101;120;35;62;32;46;10;64;112;114;101;102;105;120;32;58;32;32;32;32;60;104;116;116;112;58;47;47;101;120;97;109;112;108;101;46;111;114;103;47;109;121;112;114;111;112;35;62;32;46;10;10;101;120;58;102;111;111;32;114;100;102;58;95;49;32;34;49;34;32;46;10;101;120;58;102;111;111;32;114;100;102;58;95;50;32;34;50;34;32;46;10;101;120;58;102;111;111;32;58;95;97;98;99;32;34;100;101;102;34;32;46;10;101;120;58;102;111;111;32;58;95;51;52;53;32;34;54;55;56;34;32;46;10],
   [60;104;116;116;112;58;47;47;101;120;97;109;112;108;101;46;111;114;103;47;101;120;35;102;111;111;62;32;60;104;116;116;112;58;47;47;119;119;119;46;119;51;46;111;114;103;47;49;57;57;57;47;48;50;47;50;50;45;114;100;102;45;115;121;110;116;97;120;45;110;115;35;95;49;62;32;34;49;34;32;46;10;60;104;116;116;112;58;47;47;101;120;97;109;112;108;101;46;111;114;103;47;101;120;35;102;111;111;62;32;60;104;116;116;112;58;47;47;119;119;119;46;119;51;46;111;114;103;47;49;57;57;57;47;48;50;47;50;50;45;114;100;102;45;115;121;110;116;97;120;45;110;115;35;95;50;62;32;34;50;34;32;46;10;60;104;116;116;112;58;47;47;101;120;97;109;112;108;101;46;111;114;103;47;101;120;35;102;111;111;62;32;60;104;116;116;112;58;47;47;101;120;97;109;112;108;101;46;111;114;103;47;109;121;112;114;111;112;35;95;97;98;99;62;32;34;100;101;102;34;32;46;10;60;104;116;116;112;58;47;47;101;120;97;109;112;108;101;46;111;114;103;47;101;120;35;102;111;111;62;32;60;104;116;116;112;58;47;47;101;120;97;109;112;108;101;46;111;114;103;47;109;121;112;114;111;112;35;95;51;52;53;62;32;34;54;55;56;34;32;46;10]);
  ("turtle-subm-14.ttl", [35;32;84;101;115;116;32;102;111;114;32;58;32;97;108;108;111;119;101;100;10;64;112;114;101;102;105;120;32;58;32;32;32;32;60;104;116;116;112;58;47;47;101;120;97;109;112;108;101;46;111;114;103;47;114;111;110;62;32;46;10;10;91;93;32;58;32;91;93;32;46;10;10;58;32;58;32;58;32;46;10;10],
   [95;58;103;101;110;105;100;49;32;60;104;116;116;112;58;47;47;101;120;97;109;112;108;101;46;111;114;103;47;114;111;110;62;32;95;58;103;101;110;105;100;50;32;46;10;60;104;116;116;112;58;47;47;101;120;97;109;112;108;101;46;111;114;103;47;114;111;110;62;32;60;104;116;116;112;58;47;47;101;120;97;109;112;108;101;46;111;114;103;47;114;111;110;62;32;60;104;116;116;112;58;47;47;101;120;97;109;112;108;101;46;111;114;103;47;114;111;110;62;32;46;10]);
  ("turtle-subm-15.ttl", [35;32;84;101;115;116;32;108;111;110;103;32;108;105;116;101;114;97;108;10;64;112;114;101;102;105;120;32;58;32;32;60;104;116;116;112;58;47;47;101;120;97;109;112;108;101;46;111;114;103;47;101;120;35;62;32;46;10;58;97;32;58;98;32;34;34;34;97;32;108;111;110;103;10;9;108;105;116;101;114;97;108;10;119;105;116;104;10;110;101;119;108;105;110;101;115;34;34;34;32;46;10],
   [60;104;116;116;112;58;47;47;101;120;97;109;112;108;101;46;111;114;103;47;101;120;35;97;62;32;60;104;116;116;112;58;47;47;101;120;97;109;112;108;101;46;111;114;103;47;101;120;35;98;62;32;34;97;32;108;111;110;103;92;110;92;116;108;105;116;101;114;97;108;92;110;119;105;116;104;92;110;110;101;119;108;105;110;101;115;34;32;46;10]);
  ("turtle-subm-16.ttl", [64;112;114;101;102;105;120;32;58;32;60;104;116;116;112;58;47;47;101;120;97;109;112;108;101;46;111;114;103;47;102;111;111;35;62;32;46;10;10;35;35;32;92;85;48;48;48;49;53;54;55;56;32;105;115;32;97;32;110;111;116;32;97;32;108;101;103;97;108;32;99;111;100;101;112;111;105;110;116;10;35;35;32;58;97;32;58;98;32;34;34;34;92;110;116;104;105;115;32;92;114;105;115;32;97;32;92;85;48;48;48;49;53;54;55;56;108;111;110;103;92;116;10;35;35;32;108;105;116;101;114;97;108;92;117;65;66;67;68;10;35;35;32;34;34;34;32;46;10;35;35;32;10;35;35;32;58;100;32;58;101;32;34;34;34;92;116;84;104;105;115;32;92;117;65;66;67;68;105;115;92;114;32;92;85;48;48;48;49;53;54;55;56;97;110;111;116;104;101;114;92;110;10;35;35;32;111;110;101;10;35;35;32;34;34;34;32;46;10;10;35;32;92;85;48;48;48;49;53;54;55;56;32;105;115;32;97;32;110;111;116;32;97;32;108;101;103;97;108;32;99;111;100;101;112;111;105;110;116;10;35;32;92;85;48;48;48;49;50;52;53;49;32;105;110;32;67;117;110;101;105;102;111;114;109;32;110;117;109;101;114;105;99;32;98;97;110;32;51;10;58;97;32;58;98;32;34;34;34;92;110;116;104;105;115;32;92;114;105;115;32;97;32;92;85;48;48;48;49;50;52;53;49;108;111;110;103;92;116;10;108;105;116;101;114;97;108;92;117;65;66;67;68;10;34;34;34;32;46;10;10;58;100;32;58;101;32;34;34;34;92;116;84;104;105;115;32;92;117;65;66;67;68;105;115;92;114;32;92;85;48;48;48;49;50;52;53;49;97;110;111;116;104;101;114;92;110;10;111;110;101;10;34;34;34;32;46;10],
   [60;104;116;116;112;58;47;47;101;120;97;109;112;108;101;46;111;114;103;47;102;111;111;35;97;62;32;60;104;116;116;112;58;47;47;101;120;97;109;112;108;101;46;111;114;103;47;102;111;111;35;98;62;32;34;92;110;116;104;105;115;32;92;114;105;115;32;97;32;92;85;48;48;48;49;50;52;53;49;108;111;110;103;92;116;92;110;108;105;116;101;114;97;108;92;117;65;66;67;68;92;110;34;32;46;10;60;104;116;116;112;58;47;47;101;120;97;109;112;108;101;46;111;114;103;47;102;111;111;35;100;62;32;60;104;116;116;112;58;47;47;101;120;97;109;112;108;101;46;111;114;103;47;102;111;111;35;101;62;32;34;92;116;84;104;105;115;32;92;117;65;66;67;68;105;115;92;114;32;92;85;48;48;48;49;50;52;53;49;97;110;111;116;104;101;114;92;110;92;110;111;110;101;92;110;34;32;46;10]);
  ("turtle-subm-17.ttl", [64;112;114;101;102;105;120;32;58;32;60;104;116;116;112;58;47;47;101;120;97;109;112;108;101;46;111;114;103;47;35;62;32;46;10;10;58;97;32;58;98;32;32;49;46;48;32;46;10;10],
   [60;104;116;116;112;58;47;47;101;120;97;109;112;108;101;46;111;114;103;47;35;97;62;32;60;104;116;116;112;58;47;47;101;120;97;109;112;108;101;46;111;114;103;47;35;98;62;32;34;49;46;48;34;94;94;60;104;116;116;112;58;47;47;119;119;119;46;119;51;46;111;114;103;47;50;48;48;49;47;88;77;76;83;99;104;101;109;97;35;100;101;99;105;109;97;108;62;32;46;10]);
  ("turtle-subm-18.ttl", [64;112;114;101;102;105;120;32;58;32;60;104;116;116;112;58;47;47;101;120;97;109;112;108;101;46;111;114;103;47;35;62;32;46;10;10;58;97;32;58;98;32;34;34;32;46;10;10;58;99;32;58;100;32;34;34;34;34;34;34;32;46;10;10],
   [60;104;116;116;112;58;47;47;101;120;97;109;112;108;101;46;111;114;103;47;35;97;62;32;60;104;116;116;112;58;47;47;101;120;97;109;112;108;101;46;111;114;103;47;35;98;62;32;34;34;32;46;10;60;104;116;116;112;58;47;47;101;120;97;109;112;108;101;46;111;114;103;47;35;99;62;32;60;104;116;116;112;58;47;47;101;120;97;109;112;108;101;46;111;114;103;47;35;100;62;32;34;34;32;46;10]);
  ("turtle-subm-19.ttl", [64;112;114;101;102;105;120;32;58;32;60;104;116;116;112;58;47;47;101;120;97;109;112;108;101;46;111;114;103;35;62;32;46;10;58;97;32;58;98;32;49;46;48;32;46;10;58;99;32;58;100;32;49;32;46;10;58;101;32;58;102;32;49;46;48;101;48;32;46;10],
   [60;104;116;116;112;58;47;47;101;120;97;109;112;108;101;46;111;114;103;35;97;62;32;60;104;116;116;112;58;47;47;101;120;97;109;112;108;101;46;111;114;103;35;98;62;32;34;49;46;48;34;94;94;60;104;116;116;112;58;47;47;119;119;119;46;119;51;46;111;114;103;47;50;48;48;49;47;88;77;76;83;99;104;101;109;97;35;100;101;99;105;109;97;108;62;32;46;10;60;104;116;116;112;58;47;47;101;120;97;109;112;108;101;46;111;114;103;35;99;62;32;60;104;116;116;112;58;47;47;101;120;97;109;112;108;101;46;111;114;103;35;100;62;32;34;49;34;94;94;60;104;116;116;112;58;47;47;119;119;119;46;119;51;46;111;114;103;47;50;48;48;49;47;88;77;76;83;99;104;101;109;97;35;105;110;116;101;103;101;114;62;32;46;10;60;104;116;116;112;58;47;47;101;120;97;109;112;108;101;46;111;114;103;35;101;62;32;60;104;116;116;112;58;47;47;101;120;97;109;112;108;101;46;111;114;103;35;102;62;32;34;49;46;48;101;48;34;94;94;60;104;116;116;112;58;47;47;119;119;119;46;119;51;46;111;114;103;47;50;48;48;49;47;88;77;76;83;99;104;101;109;97;35;100;111;117;98;108;101;62;32;46;10]);
  ("turtle-subm-20.ttl", [64;112;114;101;102;105;120;32;58;32;60;104;116;116;112;58;47;47;101;120;97;109;112;108;101;46;111;114;103;35;62;32;46;10;58;97;32;58;98;32;45;49;46;48;32;46;10;58;99;32;58;100;32;45;49;32;46;10;58;101;32;58;102;32;45;49;46;48;101;48;32;46;10],
   [60;104;116;116;112;58;47;47;101;120;97;109;112;108;101;46;111;114;103;35;97;62;32;60;104;116;116;112;58;47;47;101;120;97;109;112;108;101;46;111;114;103;35;98;62;32;34;45;49;46;48;34;94;94;60;104;116;116;112;58;47;47;119;119;119;46;119;51;46;111;114;103;47;50;48;48;49;47;88;77;76;83;99;104;101;109;97;35;100;101;99;105;109;97;108;62;32;46;10;60;104;116;116;112;58;47;47;101;120;97;109;112;108;101;46;111;114;103;35;99;62;32;60;104;116;116;112;58;47;47;101;120;97;109;112;108;101;46;111;114;103;35;100;62;32;34;45;49;34;94;94;60;104;116;116;112;58;47;47;119;119;119;46;119;51;46;111;114;103;47;50;48;48;49;47;88;77;76;83;99;104;101;109;97;35;105;110;116;101;103;101;114;62;32;46;10;60;104;116;116;112;58;47;47;101;120;97;109;112;108;101;46;111;114;103;35;101;62;32;60;104;116;116;112;58;47;47;101;120;97;109;112;108;101;46;111;114;103;35;102;62;32;34;45;49;46;48;101;48;34;94;94;60;104;116;116;112;58;47;47;119;119;119;46;119;51;46;111;114;103;47;50;48;48;49;47;88;77;76;83;99;104;101;109;97;35;100;111;117;98;108;101;62;32;46;10]);
  ("turtle-subm-21.ttl", [35;32;84;101;115;116;32;108;111;110;103;32;108;105;116;101;114;97;108;10;64;112;114;101;102;105;120;32;58;32;32;60;104;116;116;112;58;47;47;101;120;97;109;112;108;101;46;111;114;103;47;101;120;35;62;32;46;10;58;97;32;58;98;32;34;34;34;74;111;104;110;32;115;97;105;100;58;32;34;72;101;108;108;111;32;87;111;114;108;100;33;92;34;34;34;34;32;46;10],
   [60;104;116;116;112;58;47;47;101;120;97;109;112;108;101;46;111;114;103;47;101;120;35;97;62;32;60;104;116;116;112;58;47;47;101;120;97;109;112;108;101;46;111;114;103;47;101;120;35;98;62;32;34;74;111;104;110;32;115;97;105;100;58;32;92;34;72;101;108;108;111;32;87;111;114;108;100;33;92;34;34;32;46;10]);
  ("turtle-subm-22.ttl", [64;112;114;101;102;105;120;32;58;32;60;104;116;116;112;58;47;47;101;120;97;109;112;108;101;46;111;114;103;35;62;32;46;10;58;97;32;58;98;32;116;114;117;101;32;46;10;58;99;32;58;100;32;102;97;108;115;101;32;46;10],
   [60;104;116;116;112;58;47;47;101;120;97;109;112;108;101;46;111;114;103;35;97;62;32;60;104;116;116;112;58;47;47;101;120;97;109;112;108;101;46;111;114;103;35;98;62;32;34;116;114;117;101;34;94;94;60;104;116;116;112;58;47;47;119;119;119;46;119;51;46;111;114;103;47;50;48;48;49;47;88;77;76;83;99;104;101;109;97;35;98;111;111;108;101;97;110;62;32;46;10;60;104;116;116;112;58;47;47;101;120;97;109;112;108;101;46;111;114;103;35;99;62;32;60;104;116;116;112;58;47;47;101;120;97;109;112;108;101;46;111;114;103;35;100;62;32;34;102;97;108;115;101;34;94;94;60;104;116;116;112;58;47;47;119;119;119;46;119;51;46;111;114;103;47;50;48;48;49;47;88;77;76;83;99;104;101;109;97;35;98;111;111;108;101;97;110;62;32;46;10]);
  ("turtle-subm-23.ttl", [35;32;99;111;109;109;101;110;116;32;116;101;115;116;10;64;112;114;101;102;105;120;32;58;32;60;104;116;116;112;58;47;47;101;120;97;109;112;108;101;46;111;114;103;47;35;62;32;46;10;58;97;32;58;98;32;58;99;32;46;32;35;32;101;110;100;32;111;102;32;108;105;110;101;32;99;111;109;109;101;110;116;10;58;100;32;35;32;105;103;110;111;114;101;32;109;101;10;32;32;58;101;32;35;32;97;110;100;32;109;101;10;32;32;32;32;32;32;58;102;32;35;32;97;110;100;32;109;101;10;32;32;32;32;32;32;32;32;46;10;58;103;32;58;104;32;35;105;103;110;111;114;101;32;109;101;10;32;32;32;32;32;58;105;44;32;32;35;32;97;110;100;32;109;101;10;32;32;32;32;32;58;106;32;46;32;35;32;97;110;100;32;109;101;10;10;58;107;32;58;108;32;58;109;32;59;32;35;105;103;110;111;114;101;32;109;101;10;32;32;32;58;110;32;58;111;32;59;32;35;32;97;110;100;32;109;101;10;32;32;32;58;112;32;58;113;32;46;32;35;32;97;110;100;32;109;101;10],
   [60;104;116;116;112;58;47;47;101;120;97;109;112;108;101;46;111;114;103;47;35;97;62;32;60;104;116;116;112;58;47;47;101;120;97;109;112;108;101;46;111;114;103;47;35;98;62;32;60;104;116;116;112;58;47;47;101;120;97;109;112;108;101;46;111;114;103;47;35;99;62;32;46;10;60;104;116;116;112;58;47;47;101;120;97;109;112;108;101;46;111;114;103;47;35;100;62;32;60;104;116;116;112;58;47;47;101;120;97;109;112;108;101;46;111;114;103;47;35;101;62;32;60;104;116;116;112;58;47;47;101;120;97;109;112;108;101;46;111;114;103;47;35;102;62;32;46;10;60;104;116;116;112;58;47;47;101;120;97;109;112;108;101;46;111;114;103;47;35;103;62;32;60;104;116;116;112;58;47;47;101;120;97;109;112;108;101;46;111;114;103;47;35;104;62;32;60;104;116;116;112;58;47;47;101;120;97;109;112;108;101;46;111;114;103;47;35;105;62;32;46;10;60;104;116;116;112;58;47;47;101;120;97;109;112;108;101;46;111;114;103;47;35;103;62;32;60;104;116;116;112;58;47;47;101;120;97;109;112;108;101;46;111;114;103;47;35;104;62;32;60;104;116;116;112;58;47;47;101;120;97;109;112;108;101;46;111;114;103;47;35;106;62;32;46;10;60;104;116;116;112;58;47;47;101;120;97;109;112;108;101;46;111;114;103;47;35;107;62;32;60;104;116;116;112;58;47;47;101;120;97;109;112;108;101;46;111;114;103;47;35;108;62;32;60;104;116;116;112;58;47;47;101;120;97;109;112;108;101;46;111;114;103;47;35;109;62;32;46;10;60;104;116;116;112;58;47;47;101;120;97;109;112;108;101;46;111;114;103;47;35;107;62;32;60;104;116;116;112;58;47;47;101;120;97;109;112;108;101;46;111;114;103;47;35;110;62;32;60;104;116;116;112;58;47;47;101;120;97;109;112;108;101;46;111;114;103;47;35;111;62;32;46;10;60;104;116;116;112;58;47;47;101;120;97;109;112;108;101;46;111;114;103;47;35;107;62;32;60;104;116;116;112;58;47;47;101;120;97;109;112;108;101;46;111;114;103;47;35;112;62;32;60;104;116;116;112;58;47;47;101;120;97;109;112;108;101;46;111;114;103;47;35;113;62;32;46;10]);
  ("turtle-subm-24.ttl", [35;32;99;111;109;109;101;110;116;32;108;105;110;101;32;119;105;116;104;32;110;111;32;102;105;110;97;108;32;110;101;119;108;105;110;101;32;116;101;115;116;10;64;112;114;101;102;105;120;32;58;32;60;104;116;116;112;58;47;47;101;120;97;109;112;108;101;46;111;114;103;47;35;62;32;46;10;58;97;32;58;98;32;58;99;32;46;10;35;102;111;111;10],
   [60;104;116;116;112;58;47;47;101;120;97;109;112;108;101;46;111;114;103;47;35;97;62;32;60;104;116;116;112;58;47;47;101;120;97;109;112;108;101;46;111;114;103;47;35;98;62;32;60;104;116;116;112;58;47;47;101;120;97;109;112;108;101;46;111;114;103;47;35;99;62;32;46;10]);
  ("turtle-subm-25.ttl", [64;112;114;101;102;105;120;32;102;111;111;58;32;60;104;116;116;112;58;47;47;101;120;97;109;112;108;101;46;111;114;103;47;102;111;111;35;62;32;32;46;10;64;112;114;101;102;105;120;32;102;111;111;58;32;60;104;116;116;112;58;47;47;101;120;97;109;112;108;101;46;111;114;103;47;98;97;114;35;62;32;32;46;10;10;102;111;111;58;98;108;97;104;32;102;111;111;58;98;108;97;104;32;102;111;111;58;98;108;97;104;32;46;10;10],
   [60;104;116;116;112;58;47;47;101;120;97;109;112;108;101;46;111;114;103;47;98;97;114;35;98;108;97;104;62;32;60;104;116;116;112;58;47;47;101;120;97;109;112;108;101;46;111;114;103;47;98;97;114;35;98;108;97;104;62;32;60;104;116;116;112;58;47;47;101;120;97;109;112;108;101;46;111;114;103;47;98;97;114;35;98;108;97;104;62;32;46;10]);
  ("turtle-subm-26.ttl", [60;104;116;116;112;58;47;47;101;120;97;109;112;108;101;46;111;114;103;47;102;111;111;62;32;60;104;116;116;112;58;47;47;101;120;97;109;112;108;101;46;111;114;103;47;98;97;114;62;32;34;50;46;51;52;53;34;94;94;60;104;116;116;112;58;47;47;119;119;119;46;119;51;46;111;114;103;47;50;48;48;49;47;88;77;76;83;99;104;101;109;97;35;100;101;99;105;109;97;108;62;32;46;10;60;104;116;116;112;58;47;47;101;120;97;109;112;108;101;46;111;114;103;47;102;111;111;62;32;60;104;116;116;112;58;47;47;101;120;97;109;112;108;101;46;111;114;103;47;98;97;114;62;32;34;49;34;94;94;60;104;116;116;112;58;47;47;119;119;119;46;119;51;46;111;114;103;47;50;48;48;49;47;88;77;76;83;99;104;101;109;97;35;100;101;99;105;109;97;108;62;32;46;10;60;104;116;116;112;58;47;47;101;120;97;109;112;108;101;46;111;114;103;47;102;111;111;62;32;60;104;116;116;112;58;47;47;101;120;97;109;112;108;101;46;111;114;103;47;98;97;114;62;32;34;49;46;48;34;94;94;60;104;116;116;112;58;47;47;119;119;119;46;119;51;46;111;114;103;47;50;48;48;49;47;88;77;76;83;99;104;101;109;97;35;100;101;99;105;109;97;108;62;32;46;10;60;104;116;116;112;58;47;47;101;120;97;109;112;108;101;46;111;114;103;47;102;111;111;62;32;60;104;116;116;112;58;47;47;101;120;97;109;112;108;101;46;111;114;103;47;98;97;114;62;32;34;49;46;34;94;94;60;104;116;116;112;58;47;47;119;119;119;46;119;51;46;111;114;103;47;50;48;48;49;47;88;77;76;83;99;104;101;109;97;35;100;101;99;105;109;97;108;62;32;46;10;60;104;116;116;112;58;47;47;101;120;97;109;112;108;101;46;111;114;103;47;102;111;111;62;32;60;104;116;116;112;58;47;47;101;120;97;109;112;108;101;46;111;114;103;47;98;97;114;62;32;34;49;46;48;48;48;48;48;48;48;48;48;34;94;94;60;104;116;116;112;58;47;47;119;119;119;46;119;51;46;111;114;103;47;50;48;48;49;47;88;77;76;83;99;104;101;109;97;35;100;101;99;105;109;97;108;62;32;46;10;60;104;116;116;112;58;47;47;101;120;97;109;112;108;101;46;111;114;103;47;102;111;111;62;32;60;104;116;116;112;58;47;47;101;120;97;109;112;108;101;46;111;114;103;47;98;97;114;62;32;34;50;46;51;34;94;94;60;104;116;116;112;58;47;47;119;119;119;46;119;51;46;111;114;103;47;50;48;48;49;47;88;77;76;83;99;104;101;109;97;35;100;101;99;105;109;97;108;62;32;46;10;60;104;116;116;112;58;47;47;101;120;97;109;112;108;101;46;111;114;103;47;102;111;111;62;32;60;104;116;116;112;58;47;47;101;120;97;109;112;108;101;46;111;114;103;47;98;97;114;62;32;34;50;46;50;51;52;48;48;48;48;48;53;34;94;94;60;104;116;116;112;58;47;47;119;119;119;46;119;51;46;111;114;103;47;50;48;48;49;47;88;77;76;83;99;104;101;109;97;35;100;101;99;105;109;97;108;62;32;46;10;60;104;116;116;112;58;47;47;101;120;97;109;112;108;101;46;111;114;103;47;102;111;111;62;32;60;104;116;116;112;58;47;47;101;120;97;109;112;108;101;46;111;114;103;47;98;97;114;62;32;34;50;46;50;51;52;48;48;48;48;48;48;53;34;94;94;60;104;116;116;112;58;47;47;119;119;119;46;119;51;46;111;114;103;47;50;48;48;49;47;88;77;76;83;99;104;101;109;97;35;100;101;99;105;109;97;108;62;32;46;10;60;104;116;116;112;58;47;47;101;120;97;109;112;108;101;46;111;114;103;47;102;111;111;62;32;60;104;116;116;112;58;47;47;101;120;97;109;112;108;101;46;111;114;103;47;98;97;114;62;32;34;50;46;50;51;52;48;48;48;48;48;48;48;53;34;94;94;60;104;116;116;112;58;47;47;119;119;119;46;119;51;46;111;114;103;47;50;48;48;49;47;88;77;76;83;99;104;101;109;97;35;100;101;99;105;109;97;108;62;32;46;10;60;104;116;116;112;58;47;47;101;120;97;109;112;108;101;46;111;114;103;47;102;111;111;62;32;60;104;116;116;112;58;47;47;101;120;97;109;112;108;101;46;111;114;103;47;98;97;114;62;32;34;50;46;50;51;52;48;48;48;48;48;48;48;48;53;34;94;94;60;104;116;116;112;58;47;47;119;119;119;46;119;51;46;111;114;103;47;50;48;48;49;47;88;77;76;83;99;104;101;109;97;35;100;101;99;105;109;97;108;62;32;46;10;60;104;116;116;112;58;47;47;101;120;97;109;112;108;101;46;111;114;103;47;102;111;111;62;32;60;104;116;116;112;58;47;47;101;120;97;109;112;108;101;46;111;114;103;47;98;97;114;62;32;34;50;46;50;51;52;48;48;48;48;48;48;48;48;48;53;34;94;94;60;104;116;116;112;58;47;47;119;119;119;46;119;51;46;111;114;103;47;50;48;48;49;47;88;77;76;83;99;104;101;109;97;35;100;101;99;105;109;97;108;62;32;46;10;60;104;116;116;112;58;47;47;101;120;97;109;112;108;101;46;111;114;103;47;102;111;111;62;32;60;104;116;116;112;58;47;47;101;120;97;109;112;108;101;46;111;114;103;47;98;97;114;62;32;34;50;46;50;51;52;48;48;48;48;48;48;48;48;48;48;53;34;94;94;60;104;116;116;112;58;47;47;119;119;119;46;119;51;46;111;114;103;47;50;48;48;49;47;88;77;76;83;99;104;101;109;97;35;100;101;99;105;109;97;108;62;32;46;10;60;104;116;116;112;58;47;47;101;120;97;109;112;108;101;46;111;114;103;47;102;111;111;62;32;60;104;116;116;112;58;47;47;101;120;97;109;112;108;101;46;111;114;103;47;98;97;114;62;32;34;50;46;50;51;52;48;48;48;48;48;48;48;48;48;48;48;53;34;94;94;60;104;116;116;112;58;47;47;119;119;119;46;119;51;46;111;114;103;47;50;48;48;49;47;88;77;76;83;99;104;101;109;97;35;100;101;99;105;109;97;108;62;32;46;10;60;104;116;116;112;58;47;47;101;120;97;109;112;108;101;46;111;114;103;47;102;111;111;62;32;60;104;116;116;112;58;47;47;101;120;97;109;112;108;101;46;111;114;103;47;98;97;114;62;32;34;50;46;50;51;52;48;48;48;48;48;48;48;48;48;48;48;48;53;34;94;94;60;104;116;116;112;58;47;47;119;119;119;46;119;51;46;111;114;103;47;50;48;48;49;47;88;77;76;83;99;104;101;109;97;35;100;101;99;105;109;97;108;62;32;46;10;60;104;116;116;112;58;47;47;101;120;97;109;112;108;101;46;111;114;103;47;102;111;111;62;32;60;104;116;116;112;58;47;47;101;120;97;109;112;108;101;46;111;114;103;47;98;97;114;62;32;34;50;46;50;51;52;48;48;48;48;48;48;48;48;48;48;48;48;48;53;34;94;94;60;104;116;116;112;58;47;47;119;119;119;46;119;51;46;111;114;103;47;50;48;48;49;47;88;77;76;83;99;104;101;109;97;35;100;101;99;105;109;97;108;62;32;46;10;60;104;116;116;112;58;47;47;101;120;97;109;112;108;101;46;111;114;103;47;102;111;111;62;32;60;104;116;116;112;58;47;47;101;120;97;109;112;108;101;46;111;114;103;47;98;97;114;62;32;34;50;46;50;51;52;48;48;48;48;48;48;48;48;48;48;48;48;48;48;53;34;94;94;60;104;116;116;112;58;47;47;119;119;119;46;119;51;46;111;114;103;47;50;48;48;49;47;88;77;76;83;99;104;101;109;97;35;100;101;99;105;109;97;108;62;32;46;10;60;104;116;116;112;58;47;47;101;120;97;109;112;108;101;46;111;114;103;47;102;111;111;62;32;60;104;116;116;112;58;47;47;101;120;97;109;112;108;101;46;111;114;103;47;98;97;114;62;32;34;50;46;50;51;52;48;48;48;48;48;48;48;48;48;48;48;48;48;48;48;53;34;94;94;60;104;116;116;112;58;47;47;119;119;119;46;119;51;46;111;114;103;47;50;48;48;49;47;88;77;76;83;99;104;101;109;97;35;100;101;99;105;109;97;108;62;32;46;10;60;104;116;116;112;58;47;47;101;120;97;109;112;108;101;46;111;114;103;47;102;111;111;62;32;60;104;116;116;112;58;47;47;101;120;97;109;112;108;101;46;111;114;103;47;98;97;114;62;32;34;50;46;50;51;52;48;48;48;48;48;48;48;48;48;48;48;48;48;48;48;48;53;34;94;94;60;104;116;116;112;58;47;47;119;119;119;46;119;51;46;111;114;103;47;50;48;48;49;47;88;77;76;83;99;104;101;109;97;35;100;101;99;105;109;97;108;62;32;46;10;60;104;116;116;112;58;47;47;101;120;97;109;112;108;101;46;111;114;103;47;102;111;111;62;32;60;104;116;116;112;58;47;47;101;120;97;109;112;108;101;46;111;114;103;47;98;97;114;62;32;34;50;46;50;51;52;48;48;48;48;48;48;48;48;48;48;48;48;48;48;48;48;48;53;34;94;94;60;104;116;116;112;58;47;47;119;119;119;46;119;51;46;111;114;103;47;50;48;48;49;47;88;77;76;83;99;104;101;109;97;35;100;101;99;105;109;97;108;62;32;46;10;60;104;116;116;112;58;47;47;101;120;97;109;112;108;101;46;111;114;103;47;102;111;111;62;32;60;104;116;116;112;58;47;47;101;120;97;109;112;108;101;46;111;114;103;47;98;97;114;62;32;34;50;46;50;51;52;48;48;48;48;48;48;48;48;48;48;48;48;48;48;48;48;48;48;53;34;94;94;60;104;116;116;112;58;47;47;119;119;119;46;119;51;46;111;114;103;47;50;48;48;49;47;88;77;76;83;99;104;101;109;97;35;100;101;99;105;109;97;108;62;32;46;10;60;104;116;116;112;58;47;47;101;120;97;109;112;108;101;46;111;114;103;47;102;111;111;62;32;60;104;116;116;112;58;47;47;101;120;97;109;112;108;101;46;111;114;103;47;98;97;114;62;32;34;50;46;50;51;52;48;48;48;48;48;48;48;48;48;48;48;48;48;48;48;48;48;48;48;53;34;94;94;60;104;116;116;112;58;47;47;119;119;119;46;119;51;46;111;114;103;47;50;48;48;49;47;88;77;76;83;99;104;101;109;97;35;100;101;99;105;109;97;108;62;32;46;10;60;104;116;116;112;58;47;47;101;120;97;109;112;108;101;46;111;114;103;47;102;111;111;62;32;60;104;116;116;112;58;47;47;101;120;97;109;112;108;101;46;111;114;103;47;98;97;114;62;32;34;49;46;50;51;52;53;54;55;56;57;48;49;50;51;52;53;54;55;56;57;48;49;50;51;52;53;55;56;57;48;34;94;94;60;104;116;116;112;58;47;47;119;119;119;46;119;51;46;111;114;103;47;50;48;48;49;47;88;77;76;83;99;104;101;109;97;35;100;101;99;105;109;97;108;62;32;46;10],
   [60;104;116;116;112;58;47;47;101;120;97;109;112;108;101;46;111;114;103;47;102;111;111;62;32;60;104;116;116;112;58;47;47;101;120;97;109;112;108;101;46;111;114;103;47;98;97;114;62;32;34;50;46;51;52;53;34;94;94;60;104;116;116;112;58;47;47;119;119;119;46;119;51;46;111;114;103;47;50;48;48;49;47;88;77;76;83;99;104;101;109;97;35;100;101;99;105;109;97;108;62;32;46;10;60;104;116;116;112;58;47;47;101;120;97;109;112;108;101;46;111;114;103;47;102;111;111;62;32;60;104;116;116;112;58;47;47;101;120;97;109;112;108;101;46;111;114;103;47;98;97;114;62;32;34;49;34;94;94;60;104;116;116;112;58;47;47;119;119;119;46;119;51;46;111;114;103;47;50;48;48;49;47;88;77;76;83;99;104;101;109;97;35;100;101;99;105;109;97;108;62;32;46;10;60;104;116;116;112;58;47;47;101;120;97;109;112;108;101;46;111;114;103;47;102;111;111;62;32;60;104;116;116;112;58;47;47;101;120;97;109;112;108;101;46;111;114;103;47;98;97;114;62;32;34;49;46;48;34;94;94;60;104;116;116;112;58;47;47;119;119;119;46;119;51;46;111;114;103;47;50;48;48;49;47;88;77;76;83;99;104;101;109;97;35;100;101;99;105;109;97;108;62;32;46;10;60;104;116;116;112;58;47;47;101;120;97;109;112;108;101;46;111;114;103;47;102;111;111;62;32;60;104;116;116;112;58;47;47;101;120;97;109;112;108;101;46;111;114;103;47;98;97;114;62;32;34;49;46;34;94;94;60;104;116;116;112;58;47;47;119;119;119;46;119;51;46;111;114;103;47;50;48;48;49;47;88;77;76;83;99;104;101;109;97;35;100;101;99;105;109;97;108;62;32;46;10;60;104;116;116;112;58;47;47;101;120;97;109;112;108;101;46;111;114;103;47;102;111;111;62;32;60;104;116;116;112;58;47;47;101;120;97;109;112;108;101;46;111;114;103;47;98;97;114;62;32;34;49;46;48;48;48;48;48;48;48;48;48;34;94;94;60;104;116;116;112;58;47;47;119;119;119;46;119;51;46;111;114;103;47;50;48;48;49;47;88;77;76;83;99;104;101;109;97;35;100;101;99;105;109;97;108;62;32;46;10;60;104;116;116;112;58;47;47;101;120;97;109;112;108;101;46;111;114;103;47;102;111;111;62;32;60;104;116;116;112;58;47;47;101;120;97;109;112;108;101;46;111;114;103;47;98;97;114;62;32;34;50;46;51;34;94;94;60;104;116;116;112;58;47;47;119;119;119;46;119;51;46;111;114;103;47;50;48;48;49;47;88;77;76;83;99;104;101;109;97;35;100;101;99;105;109;97;108;62;32;46;10;60;104;116;116;112;58;47;47;101;120;97;109;112;108;101;46;111;114;103;47;102;111;111;62;32;60;104;116;116;112;58;47;47;101;120;97;109;112;108;101;46;111;114;103;47;98;97;114;62;32;34;50;46;50;51;52;48;48;48;48;48;53;34;94;94;60;104;116;116;112;58;47;47;119;119;119;46;119;51;46;111;114;103;47;50;48;48;49;47;88;77;76;83;99;104;101;109;97;35;100;101;99;105;109;97;108;62;32;46;10;60;104;116;116;112;58;47;47;101;120;97;109;112;108;101;46;111;114;103;47;102;111;111;62;32;60;104;116;116;112;58;47;47;101;120;97;109;112;108;101;46;111;114;103;47;98;97;114;62;32;34;50;46;50;51;52;48;48;48;48;48;48;53;34;94;94;60;104;116;116;112;58;47;47;119;119;119;46;119;51;46;111;114;103;47;50;48;48;49;47;88;77;76;83;99;104;101;109;97;35;100;101;99;105;109;97;108;62;32;46;10;60;104;116;116;112;58;47;47;101;120;97;109;112;108;101;46;111;114;103;47;102;111;111;62;32;60;104;116;116;112;58;47;47;101;120;97;109;112;108;101;46;111;114;103;47;98;97;114;62;32;34;50;46;50;51;52;48;48;48;48;48;48;48;53;34;94;94;60;104;116;116;112;58;47;47;119;119;119;46;119;51;46;111;114;103;47;50;48;48;49;47;88;77;76;83;99;104;101;109;97;35;100;101;99;105;109;97;108;62;32;46;10;60;104;116;116;112;58;47;47;101;120;97;109;112;108;101;46;111;114;103;47;102;111;111;62;32;60;104;116;116;112;58;47;47;101;120;97;109;112;108;101;46;111;114;103;47;98;97;114;62;32;34;50;46;50;51;52;48;48;48;48;48;48;48;48;53;34;94;94;60;104;116;116;112;58;47;47;119;119;119;46;119;51;46;111;114;103;47;50;48;48;49;47;88;77;76;83;99;104;101;109;97;35;100;101;99;105;109;97;108;62;32;46;10;60;104;116;116;112;58;47;47;101;120;97;109;112;108;101;46;111;114;103;47;102;111;111;62;32;60;104;116;116;112;58;47;47;101;120;97;109;112;108;101;46;111;114;103;47;98;97;114;62;32;34;50;46;50;51;52;48;48;48;48;48;48;48;48;48;53;34;94;94;60;104;116;116;112;58;47;47;119;119;119;46;119;51;46;111;114;103;47;50;48;48;49;47;88;77;76;83;99;104;101;109;97;35;100;101;99;105;109;97;108;62;32;46;10;60;104;116;116;112;58;47;47;101;120;97;109;112;108;101;46;111;114;103;47;102;111;111;62;32;60;104;116;116;112;58;47;47;101;120;97;109;112;108;101;46;111;114;103;47;98;97;114;62;32;34;50;46;50;51;52;48;48;48;48;48;48;48;48;48;48;53;34;94;94;60;104;116;116;112;58;47;47;119;119;119;46;119;51;46;111;114;103;47;50;48;48;49;47;88;77;76;83;99;104;101;109;97;35;100;101;99;105;109;97;108;62;32;46;10;60;104;116;116;112;58;47;47;101;120;97;109;112;108;101;46;111;114;103;47;102;111;111;62;32;60;104;116;116;112;58;47;47;101;120;97;109;112;108;101;46;111;114;103;47;98;97;114;62;32;34;50;46;50;51;52;48;48;48;48;48;48;48;48;48;48;48;53;34;94;94;60;104;116;116;112;58;47;47;119;119;119;46;119;51;46;111;114;103;47;50;48;48;49;47;88;77;76;83;99;104;101;109;97;35;100;101;99;105;109;97;108;62;32;46;10;60;104;116;116;112;58;47;47;101;120;97;109;112;108;101;46;111;114;103;47;102;111;111;62;32;60;104;116;116;112;58;47;47;101;120;97;109;112;108;101;46;111;114;103;47;98;97;114;62;32;34;50;46;50;51;52;48;48;48;48;48;48;48;48;48;48;48;48;53;34;94;94;60;104;116;116;112;58;47;47;119;119;119;46;119;51;46;111;114;103;47;50;48;48;49;47;88;77;76;83;99;104;101;109;97;35;100;101;99;105;109;97;108;62;32;46;10;60;104;116;116;112;58;47;47;101;120;97;109;112;108;101;46;111;114;103;47;102;111;111;62;32;60;104;116;116;112;58;47;47;101;120;97;109;112;108;101;46;111;114;103;47;98;97;114;62;32;34;50;46;50;51;52;48;48;48;48;48;48;48;48;48;48;48;48;48;53;34;94;94;60;104;116;116;112;58;47;47;119;119;119;46;119;51;46;111;114;103;47;50;48;48;49;47;88;77;76;83;99;104;101;109;97;35;100;101;99;105;109;97;108;62;32;46;10;60;104;116;116;112;58;47;47;101;120;97;109;112;108;101;46;111;114;103;47;102;111;111;62;32;60;104;116;116;112;58;47;47;101;120;97;109;112;108;101;46;111;114;103;47;98;97;114;62;32;34;50;46;50;51;52;48;48;48;48;48;48;48;48;48;48;48;48;48;48;53;34;94;94;60;104;116;116;112;58;47;47;119;119;119;46;119;51;46;111;114;103;47;50;48;48;49;47;88;77;76;83;99;104;101;109;97;35;100;101;99;105;109;97;108;62;32;46;10;60;104;116;116;112;58;47;47;101;120;97;109;112;108;101;46;111;114;103;47;102;111;111;62;32;60;104;116;116;112;58;47;47;101;120;97;109;112;108;101;46;111;114;103;47;98;97;114;62;32;34;50;46;50;51;52;48;48;48;48;48;48;48;48;48;48;48;48;48;48;48;53;34;94;94;60;104;116;116;112;58;47;47;119;119;119;46;119;51;46;111;114;103;47;50;48;48;49;47;88;77;76;83;99;104;101;109;97;35;100;101;99;105;109;97;108;62;32;46;10;60;104;116;116;112;58;47;47;101;120;97;109;112;108;101;46;111;114;103;47;102;111;111;62;32;60;104;116;116;112;58;47;47;101;120;97;109;112;108;101;46;111;114;103;47;98;97;114;62;32;34;50;46;50;51;52;48;48;48;48;48;48;48;48;48;48;48;48;48;48;48;48;53;34;94;94;60;104;116;116;112;58;47;47;119;119;119;46;119;51;46;111;114;103;47;50;48;48;49;47;88;77;76;83;99;104;101;109;97;35;100;101;99;105;109;97;108;62;32;46;10;60;104;116;116;112;58;47;47;101;120;97;109;112;108;101;46;111;114;103;47;102;111;111;62;32;60;104;116;116;112;58;47;47;101;120;97;109;112;108;101;46;111;114;103;47;98;97;114;62;32;34;50;46;50;51;52;48;48;48;48;48;48;48;48;48;48;48;48;48;48;48;48;48;53;34;94;94;60;104;116;116;112;58;47;47;119;119;119;46;119;51;46;111;114;103;47;50;48;48;49;47;88;77;76;83;99;104;101;109;97;35;100;101;99;105;109;97;108;62;32;46;10;60;104;116;116;112;58;47;47;101;120;97;109;112;108;101;46;111;114;103;47;102;111;111;62;32;60;104;116;116;112;58;47;47;101;120;97;109;112;108;101;46;111;114;103;47;98;97;114;62;32;34;50;46;50;51;52;48;48;48;48;48;48;48;48;48;48;48;48;48;48;48;48;48;48;53;34;94;94;60;104;116;116;112;58;47;47;119;119;119;46;119;51;46;111;114;103;47;50;48;48;49;47;88;77;76;83;99;104;101;109;97;35;100;101;99;105;109;97;108;62;32;46;10;60;104;116;116;112;58;47;47;101;120;97;109;112;108;101;46;111;114;103;47;102;111;111;62;32;60;104;116;116;112;58;47;47;101;120;97;109;112;108;101;46;111;114;103;47;98;97;114;62;32;34;50;46;50;51;52;48;48;48;48;48;48;48;48;48;48;48;48;48;48;48;48;48;48;48;53;34;94;94;60;104;116;116;112;58;47;47;119;119;119;46;119;51;46;111;114;103;47;50;48;48;49;47;88;77;76;83;99;104;101;109;97;35;100;101;99;105;109;97;108;62;32;46;10;60;104;116;116;112;58;47;47;101;120;97;109;112;108;101;46;111;114;103;47;102;111;111;62;32;60;104;116;116;112;58;47;47;101;120;97;109;112;108;101;46;111;114;103;47;98;97;114;62;32;34;49;46;50;51;52;53;54;55;56;57;48;49;50;51;52;53;54;55;56;57;48;49;50;51;52;53;55;56;57;48;34;94;94;60;104;116;116;112;58;47;47;119;119;119;46;119;51;46;111;114;103;47;50;48;48;49;47;88;77;76;83;99;104;101;109;97;35;100;101;99;105;109;97;108;62;32;46;10]);
  ("turtle-subm-27.ttl", [35;32;73;110;45;115;99;111;112;101;32;98;97;115;101;32;85;82;73;32;105;115;32;60;104;116;116;112;58;47;47;119;119;119;46;119;51;46;111;114;103;47;50;48;49;51;47;84;117;114;116;108;101;84;101;115;116;115;47;116;117;114;116;108;101;45;115;117;98;109;45;50;55;46;116;116;108;62;32;97;116;32;116;104;105;115;32;112;111;105;110;116;10;60;97;49;62;32;60;98;49;62;32;60;99;49;62;32;46;10;64;98;97;115;101;32;60;104;116;116;112;58;47;47;101;120;97;109;112;108;101;46;111;114;103;47;110;115;47;62;32;46;10;35;32;73;110;45;115;99;111;112;101;32;98;97;115;101;32;85;82;73;32;105;115;32;104;116;116;112;58;47;47;101;120;97;109;112;108;101;46;111;114;103;47;110;115;47;32;97;116;32;116;104;105;115;32;112;111;105;110;116;10;60;97;50;62;32;60;104;116;116;112;58;47;47;101;120;97;109;112;108;101;46;111;114;103;47;110;115;47;98;50;62;32;60;99;50;62;32;46;10;64;98;97;115;101;32;60;102;111;111;47;62;32;46;10;35;32;73;110;45;115;99;111;112;101;32;98;97;115;101;32;85;82;73;32;105;115;32;104;116;116;112;58;47;47;101;120;97;109;112;108;101;46;111;114;103;47;110;115;47;102;111;111;47;32;97;116;32;116;104;105;115;32;112;111;105;110;116;10;60;97;51;62;32;60;98;51;62;32;60;99;51;62;32;46;10;64;112;114;101;102;105;120;32;58;32;60;98;97;114;35;62;32;46;10;58;97;52;32;58;98;52;32;58;99;52;32;46;10;64;112;114;101;102;105;120;32;58;32;60;104;116;116;112;58;47;47;101;120;97;109;112;108;101;46;111;114;103;47;110;115;50;35;62;32;46;10;58;97;53;32;58;98;53;32;58;99;53;32;46;10],
   [60;104;116;116;112;58;47;47;119;119;119;46;119;51;46;111;114;103;47;50;48;49;51;47;84;117;114;116;108;101;84;101;115;116;115;47;97;49;62;32;60;104;116;116;112;58;47;47;119;119;119;46;119;51;46;111;114;103;47;50;48;49;51;47;84;117;114;116;108;101;84;101;115;116;115;47;98;49;62;32;60;104;116;116;112;58;47;47;119;119;119;46;119;51;46;111;114;103;47;50;48;49;51;47;84;117;114;116;108;101;84;101;115;116;115;47;99;49;62;32;46;10;60;104;116;116;112;58;47;47;101;120;97;109;112;108;101;46;111;114;103;47;110;115;47;97;50;62;32;60;104;116;116;112;58;47;47;101;120;97;109;112;108;101;46;111;114;103;47;110;115;47;98;50;62;32;60;104;116;116;112;58;47;47;101;120;97;109;112;108;101;46;111;114;103;47;110;115;47;99;50;62;32;46;10;60;104;116;116;112;58;47;47;101;120;97;109;112;108;101;46;111;114;103;47;110;115;47;102;111;111;47;97;51;62;32;60;104;116;116;112;58;47;47;101;120;97;109;112;108;101;46;111;114;103;47;110;115;47;102;111;111;47;98;51;62;32;60;104;116;116;112;58;47;47;101;120;97;109;112;108;101;46;111;114;103;47;110;115;47;102;111;111;47;99;51;62;32;46;10;60;104;116;116;112;58;47;47;101;120;97;109;112;108;101;46;111;114;103;47;110;115;47;102;111;111;47;98;97;114;35;97;52;62;32;60;104;116;116;112;58;47;47;101;120;97;109;112;108;101;46;111;114;103;47;110;115;47;102;111;111;47;98;97;114;35;98;52;62;32;60;104;116;116;112;58;47;47;101;120;97;109;112;108;101;46;111;114;103;47;110;115;47;102;111;111;47;98;97;114;35;99;52;62;32;46;10;60;104;116;116;112;58;47;47;101;120;97;109;112;108;101;46;111;114;103;47;110;115;50;35;97;53;62;32;60;104;116;116;112;58;47;47;101;120;97;109;112;108;101;46;111;114;103;47;110;115;50;35;98;53;62;32;60;104;116;116;112;58;47;47;101;120;97;109;112;108;101;46;111;114;103;47;110;115;50;35;99;53;62;32;46;10]);
  ("comment_following_localName.ttl", [64;112;114;101;102;105;120;32;112;58;32;60;104;116;116;112;58;47;47;97;46;101;120;97;109;112;108;101;47;62;32;46;10;60;104;116;116;112;58;47;47;97;46;101;120;97;109;112;108;101;47;115;62;32;60;104;116;116;112;58;47;47;97;46;101;120;97;109;112;108;101;47;112;62;32;112;58;111;35;99;111;109;109;101;110;116;10;46;10],
   [60;104;116;116;112;58;47;47;97;46;101;120;97;109;112;108;101;47;115;62;32;60;104;116;116;112;58;47;47;97;46;101;120;97;109;112;108;101;47;112;62;32;60;104;116;116;112;58;47;47;97;46;101;120;97;109;112;108;101;47;111;62;32;46;10]);
  ("number_sign_following_localName.ttl", [64;112;114;101;102;105;120;32;112;58;32;60;104;116;116;112;58;47;47;97;46;101;120;97;109;112;108;101;47;62;32;46;10;60;104;116;116;112;58;47;47;97;46;101;120;97;109;112;108;101;47;115;62;32;60;104;116;116;112;58;47;47;97;46;101;120;97;109;112;108;101;47;112;62;32;112;58;111;92;35;110;117;109;98;101;114;115;105;103;110;10;46;10],
   [60;104;116;116;112;58;47;47;97;46;101;120;97;109;112;108;101;47;115;62;32;60;104;116;116;112;58;47;47;97;46;101;120;97;109;112;108;101;47;112;62;32;60;104;116;116;112;58;47;47;97;46;101;120;97;109;112;108;101;47;111;35;110;117;109;98;101;114;115;105;103;110;62;32;46;10]);
  ("comment_following_PNAME_NS.ttl", [64;112;114;101;102;105;120;32;112;58;32;60;104;116;116;112;58;47;47;97;46;101;120;97;109;112;108;101;47;62;32;46;10;60;104;116;116;112;58;47;47;97;46;101;120;97;109;112;108;101;47;115;62;32;60;104;116;116;112;58;47;47;97;46;101;120;97;109;112;108;101;47;112;62;32;112;58;35;99;111;109;109;101;110;116;10;46;10],
   [60;104;116;116;112;58;47;47;97;46;101;120;97;109;112;108;101;47;115;62;32;60;104;116;116;112;58;47;47;97;46;101;120;97;109;112;108;101;47;112;62;32;60;104;116;116;112;58;47;47;97;46;101;120;97;109;112;108;101;47;62;32;46;10]);
  ("number_sign_following_PNAME_NS.ttl", [64;112;114;101;102;105;120;32;112;58;32;60;104;116;116;112;58;47;47;97;46;101;120;97;109;112;108;101;47;62;46;10;60;104;116;116;112;58;47;47;97;46;101;120;97;109;112;108;101;47;115;62;32;60;104;116;116;112;58;47;47;97;46;101;120;97;109;112;108;101;47;112;62;32;112;58;92;35;110;117;109;98;101;114;115;105;103;110;10;46;10],
   [60;104;116;116;112;58;47;47;97;46;101;120;97;109;112;108;101;47;115;62;32;60;104;116;116;112;58;47;47;97;46;101;120;97;109;112;108;101;47;112;62;32;60;104;116;116;112;58;47;47;97;46;101;120;97;109;112;108;101;47;35;110;117;109;98;101;114;115;105;103;110;62;32;46;10]);
  ("LITERAL_LONG2_with_REVERSE_SOLIDUS.ttl", [64;112;114;101;102;105;120;32;58;32;60;104;116;116;112;58;47;47;101;120;97;109;112;108;101;46;111;114;103;47;110;115;35;62;32;46;10;10;58;115;32;58;112;49;32;34;34;34;116;101;115;116;45;92;92;34;34;34;32;46;10],
   [60;104;116;116;112;58;47;47;101;120;97;109;112;108;101;46;111;114;103;47;110;115;35;115;62;32;60;104;116;116;112;58;47;47;101;120;97;109;112;108;101;46;111;114;103;47;110;115;35;112;49;62;32;34;116;101;115;116;45;92;92;34;32;46;10]);
  ("two_LITERAL_LONG2s.ttl", [35;32;84;101;115;116;32;108;111;110;103;32;108;105;116;101;114;97;108;32;116;119;105;99;101;32;116;111;32;101;110;115;117;114;101;32;105;116;32;100;111;101;115;32;110;111;116;32;111;118;101;114;45;113;117;111;116;101;10;64;112;114;101;102;105;120;32;58;32;32;60;104;116;116;112;58;47;47;101;120;97;109;112;108;101;46;111;114;103;47;101;120;35;62;32;46;10;58;97;32;58;98;32;34;34;34;102;105;114;115;116;32;108;111;110;103;32;108;105;116;101;114;97;108;34;34;34;32;46;10;58;99;32;58;100;32;34;34;34;115;101;99;111;110;100;32;108;111;110;103;32;108;105;116;101;114;97;108;34;34;34;32;46;10],
   [60;104;116;116;112;58;47;47;101;120;97;109;112;108;101;46;111;114;103;47;101;120;35;97;62;32;60;104;116;116;112;58;47;47;101;120;97;109;112;108;101;46;111;114;103;47;101;120;35;98;62;32;34;102;105;114;115;116;32;108;111;110;103;32;108;105;116;101;114;97;108;34;32;46;10;60;104;116;116;112;58;47;47;101;120;97;109;112;108;101;46;111;114;103;47;101;120;35;99;62;32;60;104;116;116;112;58;47;47;101;120;97;109;112;108;101;46;111;114;103;47;101;120;35;100;62;32;34;115;101;99;111;110;100;32;108;111;110;103;32;108;105;116;101;114;97;108;34;32;46;10]);
  ("langtagged_LONG_with_subtag.ttl", [35;32;84;101;115;116;32;108;111;110;103;32;108;105;116;101;114;97;108;32;119;105;116;104;32;108;97;110;103;32;116;97;103;10;64;112;114;101;102;105;120;32;58;32;32;60;104;116;116;112;58;47;47;101;120;97;109;112;108;101;46;111;114;103;47;101;120;35;62;32;46;10;58;97;32;58;98;32;34;34;34;67;104;101;101;114;115;34;34;34;64;101;110;45;85;75;32;46;10],
   [60;104;116;116;112;58;47;47;101;120;97;109;112;108;101;46;111;114;103;47;101;120;35;97;62;32;60;104;116;116;112;58;47;47;101;120;97;109;112;108;101;46;111;114;103;47;101;120;35;98;62;32;34;67;104;101;101;114;115;34;64;101;110;45;85;75;32;46;10])]%string.
Definition positive_tests : list (string * list N) := [
  ("turtle-syntax-file-01.ttl", []);
  ("turtle-syntax-file-02.ttl", [35;69;109;112;116;121;32;102;105;108;101;46;10]);
  ("turtle-syntax-file-03.ttl", [35;79;110;101;32;99;111;109;109;101;110;116;44;32;111;110;101;32;101;109;112;116;121;32;108;105;110;101;46;10;10]);
  ("turtle-syntax-uri-01.ttl", [60;104;116;116;112;58;47;47;119;119;119;46;119;51;46;111;114;103;47;50;48;49;51;47;84;117;114;116;108;101;84;101;115;116;115;47;115;62;32;60;104;116;116;112;58;47;47;119;119;119;46;119;51;46;111;114;103;47;50;48;49;51;47;84;117;114;116;108;101;84;101;115;116;115;47;112;62;32;60;104;116;116;112;58;47;47;119;119;119;46;119;51;46;111;114;103;47;50;48;49;51;47;84;117;114;116;108;101;84;101;115;116;115;47;111;62;32;46;10]);
  ("turtle-syntax-uri-02.ttl", [35;32;120;53;51;32;105;115;32;99;97;112;105;116;97;108;32;83;10;60;104;116;116;112;58;47;47;119;119;119;46;119;51;46;111;114;103;47;50;48;49;51;47;84;117;114;116;108;101;84;101;115;116;115;47;92;117;48;48;53;51;62;32;60;104;116;116;112;58;47;47;119;119;119;46;119;51;46;111;114;103;47;50;48;49;51;47;84;117;114;116;108;101;84;101;115;116;115;47;112;62;32;60;104;116;116;112;58;47;47;119;119;119;46;119;51;46;111;114;103;47;50;48;49;51;47;84;117;114;116;108;101;84;101;115;116;115;47;111;62;32;46;10]);
  ("turtle-syntax-uri-03.ttl", [35;32;120;53;51;32;105;115;32;99;97;112;105;116;97;108;32;83;10;60;104;116;116;112;58;47;47;119;119;119;46;119;51;46;111;114;103;47;50;48;49;51;47;84;117;114;116;108;101;84;101;115;116;115;47;92;85;48;48;48;48;48;48;53;51;62;32;60;104;116;116;112;58;47;47;119;119;119;46;119;51;46;111;114;103;47;50;48;49;51;47;84;117;114;116;108;101;84;101;115;116;115;47;112;62;32;60;104;116;116;112;58;47;47;119;119;119;46;119;51;46;111;114;103;47;50;48;49;51;47;84;117;114;116;108;101;84;101;115;116;115;47;111;62;32;46;10]);
  ("turtle-syntax-uri-04.ttl", [35;32;73;82;73;32;119;105;116;104;32;97;108;108;32;99;104;97;114;115;32;105;110;32;105;116;46;10;60;104;116;116;112;58;47;47;119;119;119;46;119;51;46;111;114;103;47;50;48;49;51;47;84;117;114;116;108;101;84;101;115;116;115;47;115;62;32;60;104;116;116;112;58;47;47;119;119;119;46;119;51;46;111;114;103;47;50;48;49;51;47;84;117;114;116;108;101;84;101;115;116;115;47;112;62;10;60;115;99;104;101;109;101;58;33;36;37;50;53;38;39;40;41;42;43;44;45;46;47;48;49;50;51;52;53;54;55;56;57;58;47;64;65;66;67;68;69;70;71;72;73;74;75;76;77;78;79;80;81;82;83;84;85;86;87;88;89;90;95;97;98;99;100;101;102;103;104;105;106;107;108;109;110;111;112;113;114;115;116;117;118;119;120;121;122;126;63;35;62;32;46;10]);
  ("turtle-syntax-base-01.ttl", [64;98;97;115;101;32;60;104;116;116;112;58;47;47;119;119;119;46;119;51;46;111;114;103;47;50;48;49;51;47;84;117;114;116;108;101;84;101;115;116;115;47;62;32;46;10]);
  ("turtle-syntax-base-02.ttl", [66;65;83;69;32;60;104;116;116;112;58;47;47;119;119;119;46;119;51;46;111;114;103;47;50;48;49;51;47;84;117;114;116;108;101;84;101;115;116;115;47;62;10]);
  ("turtle-syntax-base-03.ttl", [64;98;97;115;101;32;60;104;116;116;112;58;47;47;119;119;119;46;119;51;46;111;114;103;47;50;48;49;51;47;84;117;114;116;108;101;84;101;115;116;115;47;62;32;46;10;60;115;62;32;60;112;62;32;60;111;62;32;46;10]);
  ("turtle-syntax-base-04.ttl", [98;97;115;101;32;60;104;116;116;112;58;47;47;119;119;119;46;119;51;46;111;114;103;47;50;48;49;51;47;84;117;114;116;108;101;84;101;115;116;115;47;62;10;60;115;62;32;60;112;62;32;60;111;62;32;46;10]);
  ("turtle-syntax-prefix-01.ttl", [64;112;114;101;102;105;120;32;58;32;60;104;116;116;112;58;47;47;119;119;119;46;119;51;46;111;114;103;47;50;48;49;51;47;84;117;114;116;108;101;84;101;115;116;115;47;62;32;46;10]);
  ("turtle-syntax-prefix-02.ttl", [80;114;101;70;73;88;32;58;32;60;104;116;116;112;58;47;47;119;119;119;46;119;51;46;111;114;103;47;50;48;49;51;47;84;117;114;116;108;101;84;101;115;116;115;47;62;10]);
  ("turtle-syntax-prefix-03.ttl", [80;82;69;70;73;88;32;58;32;60;104;116;116;112;58;47;47;119;119;119;46;119;51;46;111;114;103;47;50;48;49;51;47;84;117;114;116;108;101;84;101;115;116;115;47;62;10;58;115;32;58;112;32;58;49;50;51;32;46;10]);
  ("turtle-syntax-prefix-04.ttl", [64;112;114;101;102;105;120;32;58;32;60;104;116;116;112;58;47;47;119;119;119;46;119;51;46;111;114;103;47;50;48;49;51;47;84;117;114;116;108;101;84;101;115;116;115;47;62;32;46;10;58;115;32;58;112;32;58;37;50;48;32;46;10]);
  ("turtle-syntax-prefix-05.ttl", [64;112;114;101;102;105;120;32;58;32;60;104;116;116;112;58;47;47;119;119;119;46;119;51;46;111;114;103;47;50;48;49;51;47;84;117;114;116;108;101;84;101;115;116;115;47;62;32;46;10;58;32;58;32;58;32;46;10]);
  ("turtle-syntax-prefix-06.ttl", [35;32;99;111;108;111;110;32;105;115;32;97;32;108;101;103;97;108;32;112;110;97;109;101;32;99;104;97;114;97;99;116;101;114;10;64;112;114;101;102;105;120;32;58;32;60;104;116;116;112;58;47;47;119;119;119;46;119;51;46;111;114;103;47;50;48;49;51;47;84;117;114;116;108;101;84;101;115;116;115;47;62;32;46;10;64;112;114;101;102;105;120;32;120;58;32;60;104;116;116;112;58;47;47;119;119;119;46;119;51;46;111;114;103;47;50;48;49;51;47;84;117;114;116;108;101;84;101;115;116;115;47;62;32;46;10;58;97;58;98;58;99;32;32;120;58;100;58;101;58;102;32;58;58;58;58;32;46;10]);
  ("turtle-syntax-prefix-07.ttl", [35;32;100;97;115;104;32;105;115;32;97;32;108;101;103;97;108;32;112;110;97;109;101;32;99;104;97;114;97;99;116;101;114;10;64;112;114;101;102;105;120;32;120;58;32;60;104;116;116;112;58;47;47;119;119;119;46;119;51;46;111;114;103;47;50;48;49;51;47;84;117;114;116;108;101;84;101;115;116;115;47;62;32;46;10;120;58;97;45;98;45;99;32;32;120;58;112;32;120;58;111;32;46;10]);
  ("turtle-syntax-prefix-08.ttl", [35;32;117;110;100;101;114;115;99;111;114;101;32;105;115;32;97;32;108;101;103;97;108;32;112;110;97;109;101;32;99;104;97;114;97;99;116;101;114;10;64;112;114;101;102;105;120;32;120;58;32;60;104;116;116;112;58;47;47;119;119;119;46;119;51;46;111;114;103;47;50;48;49;51;47;84;117;114;116;108;101;84;101;115;116;115;47;62;32;46;10;120;58;95;32;32;120;58;112;95;49;32;120;58;111;32;46;10]);
  ("turtle-syntax-prefix-09.ttl", [35;32;112;101;114;99;101;110;116;115;10;64;112;114;101;102;105;120;32;58;32;60;104;116;116;112;58;47;47;119;119;119;46;119;51;46;111;114;103;47;50;48;49;51;47;84;117;114;116;108;101;84;101;115;116;115;47;62;32;46;10;64;112;114;101;102;105;120;32;120;58;32;60;104;116;116;112;58;47;47;119;119;119;46;119;51;46;111;114;103;47;50;48;49;51;47;84;117;114;116;108;101;84;101;115;116;115;47;62;32;46;10;58;97;37;51;69;32;32;120;58;37;50;53;32;58;97;37;51;69;98;32;46;10]);
  ("turtle-syntax-string-01.ttl", [60;104;116;116;112;58;47;47;119;119;119;46;119;51;46;111;114;103;47;50;48;49;51;47;84;117;114;116;108;101;84;101;115;116;115;47;115;62;32;60;104;116;116;112;58;47;47;119;119;119;46;119;51;46;111;114;103;47;50;48;49;51;47;84;117;114;116;108;101;84;101;115;116;115;47;112;62;32;34;115;116;114;105;110;103;34;32;46;10]);
  ("turtle-syntax-string-02.ttl", [60;104;116;116;112;58;47;47;119;119;119;46;119;51;46;111;114;103;47;50;48;49;51;47;84;117;114;116;108;101;84;101;115;116;115;47;115;62;32;60;104;116;116;112;58;47;47;119;119;119;46;119;51;46;111;114;103;47;50;48;49;51;47;84;117;114;116;108;101;84;101;115;116;115;47;112;62;32;34;115;116;114;105;110;103;34;64;101;110;32;46;10]);
  ("turtle-syntax-string-03.ttl", [60;104;116;116;112;58;47;47;119;119;119;46;119;51;46;111;114;103;47;50;48;49;51;47;84;117;114;116;108;101;84;101;115;116;115;47;115;62;32;60;104;116;116;112;58;47;47;119;119;119;46;119;51;46;111;114;103;47;50;48;49;51;47;84;117;114;116;108;101;84;101;115;116;115;47;112;62;32;34;115;116;114;105;110;103;34;64;101;110;45;117;107;32;46;10]);
  ("turtle-syntax-string-04.ttl", [60;104;116;116;112;58;47;47;119;119;119;46;119;51;46;111;114;103;47;50;48;49;51;47;84;117;114;116;108;101;84;101;115;116;115;47;115;62;32;60;104;116;116;112;58;47;47;119;119;119;46;119;51;46;111;114;103;47;50;48;49;51;47;84;117;114;116;108;101;84;101;115;116;115;47;112;62;32;39;115;116;114;105;110;103;39;32;46;10]);
  ("turtle-syntax-string-05.ttl", [60;104;116;116;112;58;47;47;119;119;119;46;119;51;46;111;114;103;47;50;48;49;51;47;84;117;114;116;108;101;84;101;115;116;115;47;115;62;32;60;104;116;116;112;58;47;47;119;119;119;46;119;51;46;111;114;103;47;50;48;49;51;47;84;117;114;116;108;101;84;101;115;116;115;47;112;62;32;39;115;116;114;105;110;103;39;64;101;110;32;46;10]);
  ("turtle-syntax-string-06.ttl", [60;104;116;116;112;58;47;47;119;119;119;46;119;51;46;111;114;103;47;50;48;49;51;47;84;117;114;116;108;101;84;101;115;116;115;47;115;62;32;60;104;116;116;112;58;47;47;119;119;119;46;119;51;46;111;114;103;47;50;48;49;51;47;84;117;114;116;108;101;84;101;115;116;115;47;112;62;32;39;115;116;114;105;110;103;39;64;101;110;45;117;107;32;46;10]);
  ("turtle-syntax-string-07.ttl", [60;104;116;116;112;58;47;47;119;119;119;46;119;51;46;111;114;103;47;50;48;49;51;47;84;117;114;116;108;101;84;101;115;116;115;47;115;62;32;60;104;116;116;112;58;47;47;119;119;119;46;119;51;46;111;114;103;47;50;48;49;51;47;84;117;114;116;108;101;84;101;115;116;115;47;112;62;32;34;34;34;97;98;99;34;34;100;101;102;39;39;103;104;105;34;34;34;32;46;10]);
  ("turtle-syntax-string-08.ttl", [60;104;116;116;112;58;47;47;119;119;119;46;119;51;46;111;114;103;47;50;48;49;51;47;84;117;114;116;108;101;84;101;115;116;115;47;115;62;32;60;104;116;116;112;58;47;47;119;119;119;46;119;51;46;111;114;103;47;50;48;49;51;47;84;117;114;116;108;101;84;101;115;116;115;47;112;62;32;34;34;34;97;98;99;10;100;101;102;34;34;34;32;46;10]);
  ("turtle-syntax-string-09.ttl", [60;104;116;116;112;58;47;47;119;119;119;46;119;51;46;111;114;103;47;50;48;49;51;47;84;117;114;116;108;101;84;101;115;116;115;47;115;62;32;60;104;116;116;112;58;47;47;119;119;119;46;119;51;46;111;114;103;47;50;48;49;51;47;84;117;114;116;108;101;84;101;115;116;115;47;112;62;32;39;39;39;97;98;99;10;100;101;102;39;39;39;32;46;10]);
  ("turtle-syntax-string-10.ttl", [60;104;116;116;112;58;47;47;119;119;119;46;119;51;46;111;114;103;47;50;48;49;51;47;84;117;114;116;108;101;84;101;115;116;115;47;115;62;32;60;104;116;116;112;58;47;47;119;119;119;46;119;51;46;111;114;103;47;50;48;49;51;47;84;117;114;116;108;101;84;101;115;116;115;47;112;62;32;34;34;34;97;98;99;10;100;101;102;34;34;34;64;101;110;32;46;10]);
  ("turtle-syntax-string-11.ttl", [60;104;116;116;112;58;47;47;119;119;119;46;119;51;46;111;114;103;47;50;48;49;51;47;84;117;114;116;108;101;84;101;115;116;115;47;115;62;32;60;104;116;116;112;58;47;47;119;119;119;46;119;51;46;111;114;103;47;50;48;49;51;47;84;117;114;116;108;101;84;101;115;116;115;47;112;62;32;39;39;39;97;98;99;10;100;101;102;39;39;39;64;101;110;32;46;10]);
  ("turtle-syntax-str-esc-01.ttl", [60;104;116;116;112;58;47;47;119;119;119;46;119;51;46;111;114;103;47;50;48;49;51;47;84;117;114;116;108;101;84;101;115;116;115;47;115;62;32;60;104;116;116;112;58;47;47;119;119;119;46;119;51;46;111;114;103;47;50;48;49;51;47;84;117;114;116;108;101;84;101;115;116;115;47;112;62;32;34;97;92;110;34;32;46;10]);
  ("turtle-syntax-str-esc-02.ttl", [60;104;116;116;112;58;47;47;119;119;119;46;119;51;46;111;114;103;47;50;48;49;51;47;84;117;114;116;108;101;84;101;115;116;115;47;115;62;32;60;104;116;116;112;58;47;47;119;119;119;46;119;51;46;111;114;103;47;50;48;49;51;47;84;117;114;116;108;101;84;101;115;116;115;47;112;62;32;34;97;92;117;48;48;50;48;98;34;32;46;10]);
  ("turtle-syntax-str-esc-03.ttl", [60;104;116;116;112;58;47;47;119;119;119;46;119;51;46;111;114;103;47;50;48;49;51;47;84;117;114;116;108;101;84;101;115;116;115;47;115;62;32;60;104;116;116;112;58;47;47;119;119;119;46;119;51;46;111;114;103;47;50;48;49;51;47;84;117;114;116;108;101;84;101;115;116;115;47;112;62;32;34;97;92;85;48;48;48;48;48;48;50;48;98;34;32;46;10]);
  ("turtle-syntax-pname-esc-01.ttl", [64;112;114;101;102;105;120;32;58;32;60;104;116;116;112;58;47;47;119;119;119;46;119;51;46;111;114;103;47;50;48;49;51;47;84;117;114;116;108;101;84;101;115;116;115;47;62;32;46;10;58;115;32;58;112;32;58;92;126;92;46;92;45;92;33;92;36;92;38;92;39;92;40;92;41;92;42;92;43;92;44;92;59;92;61;92;47;92;63;92;35;92;64;92;95;92;37;65;65;32;46;10]);
  ("turtle-syntax-pname-esc-02.ttl", [64;112;114;101;102;105;120;32;58;32;60;104;116;116;112;58;47;47;119;119;119;46;119;51;46;111;114;103;47;50;48;49;51;47;84;117;114;116;108;101;84;101;115;116;115;47;62;32;46;10;58;115;32;58;112;32;58;48;49;50;51;92;126;92;46;92;45;92;33;92;36;92;38;92;39;92;40;92;41;92;42;92;43;92;44;92;59;92;61;92;47;92;63;92;35;92;64;92;95;92;37;65;65;49;50;51;32;46;10]);
  ("turtle-syntax-pname-esc-03.ttl", [64;112;114;101;102;105;120;32;58;32;60;104;116;116;112;58;47;47;119;119;119;46;119;51;46;111;114;103;47;50;48;49;51;47;84;117;114;116;108;101;84;101;115;116;115;47;62;32;46;10;58;120;121;122;92;126;32;58;97;98;99;92;46;58;32;32;58;32;46;10]);
  ("turtle-syntax-bnode-01.ttl", [64;112;114;101;102;105;120;32;58;32;60;104;116;116;112;58;47;47;119;119;119;46;119;51;46;111;114;103;47;50;48;49;51;47;84;117;114;116;108;101;84;101;115;116;115;47;62;32;46;10;91;93;32;58;112;32;58;111;32;46;10]);
  ("turtle-syntax-bnode-02.ttl", [64;112;114;101;102;105;120;32;58;32;60;104;116;116;112;58;47;47;119;119;119;46;119;51;46;111;114;103;47;50;48;49;51;47;84;117;114;116;108;101;84;101;115;116;115;47;62;32;46;10;58;115;32;58;112;32;91;93;32;46;10]);
  ("turtle-syntax-bnode-03.ttl", [64;112;114;101;102;105;120;32;58;32;60;104;116;116;112;58;47;47;119;119;119;46;119;51;46;111;114;103;47;50;48;49;51;47;84;117;114;116;108;101;84;101;115;116;115;47;62;32;46;10;58;115;32;58;112;32;91;32;58;113;32;58;111;32;93;32;46;10]);
  ("turtle-syntax-bnode-04.ttl", [64;112;114;101;102;105;120;32;58;32;60;104;116;116;112;58;47;47;119;119;119;46;119;51;46;111;114;103;47;50;48;49;51;47;84;117;114;116;108;101;84;101;115;116;115;47;62;32;46;10;58;115;32;58;112;32;91;32;58;113;49;32;58;111;49;32;59;32;58;113;50;32;58;111;50;32;93;32;46;10]);
  ("turtle-syntax-bnode-05.ttl", [64;112;114;101;102;105;120;32;58;32;60;104;116;116;112;58;47;47;119;119;119;46;119;51;46;111;114;103;47;50;48;49;51;47;84;117;114;116;108;101;84;101;115;116;115;47;62;32;46;10;91;32;58;113;49;32;58;111;49;32;59;32;58;113;50;32;58;111;50;32;93;32;58;112;32;58;111;32;46;10]);
  ("turtle-syntax-bnode-06.ttl", [64;112;114;101;102;105;120;32;58;32;60;104;116;116;112;58;47;47;119;119;119;46;119;51;46;111;114;103;47;50;48;49;51;47;84;117;114;116;108;101;84;101;115;116;115;47;62;32;46;10;95;58;97;32;32;58;112;32;58;111;32;46;10]);
  ("turtle-syntax-bnode-07.ttl", [64;112;114;101;102;105;120;32;58;32;60;104;116;116;112;58;47;47;119;119;119;46;119;51;46;111;114;103;47;50;48;49;51;47;84;117;114;116;108;101;84;101;115;116;115;47;62;32;46;10;58;115;32;32;58;112;32;95;58;97;32;46;10;95;58;97;32;32;58;112;32;58;111;32;46;10]);
  ("turtle-syntax-bnode-08.ttl", [64;112;114;101;102;105;120;32;58;32;60;104;116;116;112;58;47;47;119;119;119;46;119;51;46;111;114;103;47;50;48;49;51;47;84;117;114;116;108;101;84;101;115;116;115;47;62;32;46;10;91;32;58;112;32;32;58;111;32;93;32;46;10]);
  ("turtle-syntax-bnode-09.ttl", [64;112;114;101;102;105;120;32;58;32;60;104;116;116;112;58;47;47;119;119;119;46;119;51;46;111;114;103;47;50;48;49;51;47;84;117;114;116;108;101;84;101;115;116;115;47;62;32;46;10;91;32;58;112;32;32;58;111;49;44;58;50;32;93;32;46;10;58;115;32;58;112;32;58;111;32;32;46;10]);
  ("turtle-syntax-bnode-10.ttl", [64;112;114;101;102;105;120;32;58;32;60;104;116;116;112;58;47;47;119;119;119;46;119;51;46;111;114;103;47;50;48;49;51;47;84;117;114;116;108;101;84;101;115;116;115;47;62;32;46;10;10;58;115;49;32;58;112;32;58;111;32;46;10;91;32;58;112;49;32;32;58;111;49;32;59;32;58;112;50;32;58;111;50;32;93;32;46;10;58;115;50;32;58;112;32;58;111;32;46;10]);
  ("turtle-syntax-number-01.ttl", [60;115;62;32;60;112;62;32;49;50;51;32;46;10]);
  ("turtle-syntax-number-02.ttl", [60;115;62;32;60;112;62;32;45;49;50;51;32;46;10]);
  ("turtle-syntax-number-03.ttl", [60;115;62;32;60;112;62;32;43;49;50;51;32;46;10]);
  ("turtle-syntax-number-04.ttl", [35;32;84;104;105;115;32;105;115;32;97;32;100;101;99;105;109;97;108;46;10;60;115;62;32;60;112;62;32;49;50;51;46;48;32;46;32;10]);
  ("turtle-syntax-number-05.ttl", [35;32;84;104;105;115;32;105;115;32;97;32;100;101;99;105;109;97;108;46;10;60;115;62;32;60;112;62;32;46;49;32;46;32;10]);
  ("turtle-syntax-number-06.ttl", [35;32;84;104;105;115;32;105;115;32;97;32;100;101;99;105;109;97;108;46;10;60;115;62;32;60;112;62;32;45;49;50;51;46;48;32;46;32;10]);
  ("turtle-syntax-number-07.ttl", [35;32;84;104;105;115;32;105;115;32;97;32;100;101;99;105;109;97;108;46;10;60;115;62;32;60;112;62;32;43;49;50;51;46;48;32;46;32;10]);
  ("turtle-syntax-number-08.ttl", [35;32;84;104;105;115;32;105;115;32;97;110;32;105;110;116;101;103;101;114;10;60;115;62;32;60;112;62;32;49;50;51;46;10]);
  ("turtle-syntax-number-09.ttl", [60;115;62;32;60;112;62;32;49;50;51;46;48;101;49;32;46;10]);
  ("turtle-syntax-number-10.ttl", [60;115;62;32;60;112;62;32;45;49;50;51;101;45;49;32;46;10]);
  ("turtle-syntax-number-11.ttl", [60;115;62;32;60;112;62;32;49;50;51;46;69;43;49;32;46;10]);
  ("turtle-syntax-datatypes-01.ttl", [64;112;114;101;102;105;120;32;120;115;100;58;32;32;32;32;32;60;104;116;116;112;58;47;47;119;119;119;46;119;51;46;111;114;103;47;50;48;48;49;47;88;77;76;83;99;104;101;109;97;35;62;32;46;10;60;115;62;32;60;112;62;32;34;49;50;51;34;94;94;120;115;100;58;98;121;116;101;32;46;10]);
  ("turtle-syntax-datatypes-02.ttl", [64;112;114;101;102;105;120;32;114;100;102;58;32;32;32;32;32;60;104;116;116;112;58;47;47;119;119;119;46;119;51;46;111;114;103;47;49;57;57;57;47;48;50;47;50;50;45;114;100;102;45;115;121;110;116;97;120;45;110;115;35;62;32;46;10;64;112;114;101;102;105;120;32;120;115;100;58;32;32;32;32;32;60;104;116;116;112;58;47;47;119;119;119;46;119;51;46;111;114;103;47;50;48;48;49;47;88;77;76;83;99;104;101;109;97;35;62;32;46;10;60;115;62;32;60;112;62;32;34;49;50;51;34;94;94;120;115;100;58;115;116;114;105;110;103;32;46;10]);
  ("turtle-syntax-kw-01.ttl", [60;115;62;32;60;112;62;32;116;114;117;101;32;46;10]);
  ("turtle-syntax-kw-02.ttl", [60;115;62;32;60;112;62;32;102;97;108;115;101;32;46;10]);
  ("turtle-syntax-kw-03.ttl", [64;112;114;101;102;105;120;32;58;32;60;104;116;116;112;58;47;47;119;119;119;46;119;51;46;111;114;103;47;50;48;49;51;47;84;117;114;116;108;101;84;101;115;116;115;47;62;32;46;10;58;115;32;97;32;58;67;32;46;10]);
  ("turtle-syntax-struct-01.ttl", [64;112;114;101;102;105;120;32;58;32;60;104;116;116;112;58;47;47;119;119;119;46;119;51;46;111;114;103;47;50;48;49;51;47;84;117;114;116;108;101;84;101;115;116;115;47;62;32;46;10;58;115;32;58;112;32;58;111;49;32;44;32;58;111;50;32;46;10]);
  ("turtle-syntax-struct-02.ttl", [64;112;114;101;102;105;120;32;58;32;60;104;116;116;112;58;47;47;119;119;119;46;119;51;46;111;114;103;47;50;48;49;51;47;84;117;114;116;108;101;84;101;115;116;115;47;62;32;46;10;58;115;32;58;112;49;32;58;111;49;32;59;10;32;32;32;58;112;50;32;58;111;50;32;46;10]);
  ("turtle-syntax-struct-03.ttl", [64;112;114;101;102;105;120;32;58;32;60;104;116;116;112;58;47;47;119;119;119;46;119;51;46;111;114;103;47;50;48;49;51;47;84;117;114;116;108;101;84;101;115;116;115;47;62;32;46;10;58;115;32;58;112;49;32;58;111;49;32;59;10;32;32;32;58;112;50;32;58;111;50;32;59;10;32;32;32;46;10]);
  ("turtle-syntax-struct-04.ttl", [64;112;114;101;102;105;120;32;58;32;60;104;116;116;112;58;47;47;119;119;119;46;119;51;46;111;114;103;47;50;48;49;51;47;84;117;114;116;108;101;84;101;115;116;115;47;62;32;46;10;58;115;32;58;112;49;32;58;111;49;32;59;59;10;32;32;32;58;112;50;32;58;111;50;32;10;32;32;32;46;10]);
  ("turtle-syntax-struct-05.ttl", [64;112;114;101;102;105;120;32;58;32;60;104;116;116;112;58;47;47;119;119;119;46;119;51;46;111;114;103;47;50;48;49;51;47;84;117;114;116;108;101;84;101;115;116;115;47;62;32;46;10;58;115;32;58;112;49;32;58;111;49;32;59;10;32;32;32;58;112;50;32;58;111;50;32;59;59;10;32;32;32;46;10]);
  ("turtle-syntax-lists-01.ttl", [64;112;114;101;102;105;120;32;58;32;60;104;116;116;112;58;47;47;119;119;119;46;119;51;46;111;114;103;47;50;48;49;51;47;84;117;114;116;108;101;84;101;115;116;115;47;62;32;46;10;58;115;32;58;112;32;40;41;32;46;10]);
  ("turtle-syntax-lists-02.ttl", [64;112;114;101;102;105;120;32;58;32;60;104;116;116;112;58;47;47;119;119;119;46;119;51;46;111;114;103;47;50;48;49;51;47;84;117;114;116;108;101;84;101;115;116;115;47;62;32;46;10;58;115;32;58;112;32;40;49;32;34;50;34;32;58;111;41;32;46;10]);
  ("turtle-syntax-lists-03.ttl", [64;112;114;101;102;105;120;32;58;32;60;104;116;116;112;58;47;47;119;119;119;46;119;51;46;111;114;103;47;50;48;49;51;47;84;117;114;116;108;101;84;101;115;116;115;47;62;32;46;10;40;49;41;32;58;112;32;40;49;41;32;46;10]);
  ("turtle-syntax-lists-04.ttl", [64;112;114;101;102;105;120;32;58;32;60;104;116;116;112;58;47;47;119;119;119;46;119;51;46;111;114;103;47;50;48;49;51;47;84;117;114;116;108;101;84;101;115;116;115;47;62;32;46;10;40;40;41;41;32;58;112;32;40;40;41;41;32;46;10]);
  ("turtle-syntax-lists-05.ttl", [64;112;114;101;102;105;120;32;58;32;60;104;116;116;112;58;47;47;119;119;119;46;119;51;46;111;114;103;47;50;48;49;51;47;84;117;114;116;108;101;84;101;115;116;115;47;62;32;46;10;40;49;32;50;32;40;49;32;50;41;41;32;58;112;32;40;40;32;34;97;34;41;32;34;98;34;32;58;111;41;32;46;10])]%string.
(** negative syntax tests and negative evaluation tests *)
Definition negative_tests : list (string * list N) := [
  ("turtle-syntax-bad-uri-01.ttl", [35;32;66;97;100;32;73;82;73;32;58;32;115;112;97;99;101;46;10;60;104;116;116;112;58;47;47;119;119;119;46;119;51;46;111;114;103;47;50;48;49;51;47;84;117;114;116;108;101;84;101;115;116;115;47;32;115;112;97;99;101;62;32;60;104;116;116;112;58;47;47;119;119;119;46;119;51;46;111;114;103;47;50;48;49;51;47;84;117;114;116;108;101;84;101;115;116;115;47;112;62;32;60;104;116;116;112;58;47;47;119;119;119;46;119;51;46;111;114;103;47;50;48;49;51;47;84;117;114;116;108;101;84;101;115;116;115;47;111;62;32;46;10]);
  ("turtle-syntax-bad-uri-02.ttl", [35;32;66;97;100;32;73;82;73;32;58;32;98;97;100;32;101;115;99;97;112;101;10;60;104;116;116;112;58;47;47;119;119;119;46;119;51;46;111;114;103;47;50;48;49;51;47;84;117;114;116;108;101;84;101;115;116;115;47;92;117;48;48;90;90;49;49;62;32;60;104;116;116;112;58;47;47;119;119;119;46;119;51;46;111;114;103;47;50;48;49;51;47;84;117;114;116;108;101;84;101;115;116;115;47;112;62;32;60;104;116;116;112;58;47;47;119;119;119;46;119;51;46;111;114;103;47;50;48;49;51;47;84;117;114;116;108;101;84;101;115;116;115;47;111;62;32;46;10]);
  ("turtle-syntax-bad-uri-03.ttl", [35;32;66;97;100;32;73;82;73;32;58;32;98;97;100;32;101;115;99;97;112;101;10;60;104;116;116;112;58;47;47;119;119;119;46;119;51;46;111;114;103;47;50;48;49;51;47;84;117;114;116;108;101;84;101;115;116;115;47;92;85;48;48;90;90;49;49;49;49;62;32;60;104;116;116;112;58;47;47;119;119;119;46;119;51;46;111;114;103;47;50;48;49;51;47;84;117;114;116;108;101;84;101;115;116;115;47;112;62;32;60;104;116;116;112;58;47;47;119;119;119;46;119;51;46;111;114;103;47;50;48;49;51;47;84;117;114;116;108;101;84;101;115;116;115;47;111;62;32;46;10]);
  ("turtle-syntax-bad-uri-04.ttl", [35;32;66;97;100;32;73;82;73;32;58;32;99;104;97;114;97;99;116;101;114;32;101;115;99;97;112;101;115;32;110;111;116;32;97;108;108;111;119;101;100;46;10;60;104;116;116;112;58;47;47;119;119;119;46;119;51;46;111;114;103;47;50;48;49;51;47;84;117;114;116;108;101;84;101;115;116;115;47;92;110;62;32;60;104;116;116;112;58;47;47;119;119;119;46;119;51;46;111;114;103;47;50;48;49;51;47;84;117;114;116;108;101;84;101;115;116;115;47;112;62;32;60;104;116;116;112;58;47;47;119;119;119;46;119;51;46;111;114;103;47;50;48;49;51;47;84;117;114;116;108;101;84;101;115;116;115;47;111;62;32;46;10]);
  ("turtle-syntax-bad-uri-05.ttl", [35;32;66;97;100;32;73;82;73;32;58;32;99;104;97;114;97;99;116;101;114;32;101;115;99;97;112;101;115;32;110;111;116;32;97;108;108;111;119;101;100;46;10;60;104;116;116;112;58;47;47;119;119;119;46;119;51;46;111;114;103;47;50;48;49;51;47;84;117;114;116;108;101;84;101;115;116;115;47;92;47;62;32;60;104;116;116;112;58;47;47;119;119;119;46;119;51;46;111;114;103;47;50;48;49;51;47;84;117;114;116;108;101;84;101;115;116;115;47;112;62;32;60;104;116;116;112;58;47;47;119;119;119;46;119;51;46;111;114;103;47;50;48;49;51;47;84;117;114;116;108;101;84;101;115;116;115;47;111;62;32;46;10]);
  ("turtle-syntax-bad-prefix-01.ttl", [35;32;78;111;32;112;114;101;102;105;120;10;58;115;32;60;104;116;116;112;58;47;47;119;119;119;46;119;51;46;111;114;103;47;50;48;49;51;47;84;117;114;116;108;101;84;101;115;116;115;47;112;62;32;34;120;34;32;46;10]);
  ("turtle-syntax-bad-prefix-02.ttl", [35;32;78;111;32;112;114;101;102;105;120;10;64;112;114;101;102;105;120;32;114;100;102;58;32;32;32;32;32;60;104;116;116;112;58;47;47;119;119;119;46;119;51;46;111;114;103;47;49;57;57;57;47;48;50;47;50;50;45;114;100;102;45;115;121;110;116;97;120;45;110;115;35;62;32;46;10;60;104;116;116;112;58;47;47;119;119;119;46;119;51;46;111;114;103;47;50;48;49;51;47;84;117;114;116;108;101;84;101;115;116;115;47;115;62;32;114;100;102;58;116;121;112;101;32;58;67;32;46;10]);
  ("turtle-syntax-bad-prefix-03.ttl", [35;32;64;112;114;101;102;105;120;32;119;105;116;104;111;117;116;32;85;82;73;46;10;64;112;114;101;102;105;120;32;101;120;58;32;46;10]);
  ("turtle-syntax-bad-prefix-04.ttl", [35;32;64;112;114;101;102;105;120;32;119;105;116;104;111;117;116;32;112;114;101;102;105;120;32;110;97;109;101;32;46;10;64;112;114;101;102;105;120;32;60;104;116;116;112;58;47;47;119;119;119;46;119;51;46;111;114;103;47;50;48;49;51;47;84;117;114;116;108;101;84;101;115;116;115;47;62;32;46;10]);
  ("turtle-syntax-bad-prefix-05.ttl", [35;32;64;112;114;101;102;105;120;32;119;105;116;104;111;117;116;32;58;10;64;112;114;101;102;105;120;32;120;32;60;104;116;116;112;58;47;47;119;119;119;46;119;51;46;111;114;103;47;50;48;49;51;47;84;117;114;116;108;101;84;101;115;116;115;47;62;32;46;10]);
  ("turtle-syntax-bad-base-01.ttl", [35;32;64;98;97;115;101;32;119;105;116;104;111;117;116;32;85;82;73;46;10;64;98;97;115;101;32;46;10]);
  ("turtle-syntax-bad-base-02.ttl", [35;32;64;98;97;115;101;32;105;110;32;119;114;111;110;103;32;99;97;115;101;46;10;64;66;65;83;69;32;60;104;116;116;112;58;47;47;119;119;119;46;119;51;46;111;114;103;47;50;48;49;51;47;84;117;114;116;108;101;84;101;115;116;115;47;62;32;46;10]);
  ("turtle-syntax-bad-base-03.ttl", [35;32;70;85;76;76;32;83;84;79;80;32;117;115;101;100;32;97;102;116;101;114;32;83;80;65;82;81;76;32;66;65;83;69;10;66;65;83;69;32;60;104;116;116;112;58;47;47;119;119;119;46;119;51;46;111;114;103;47;50;48;49;51;47;84;117;114;116;108;101;84;101;115;116;115;47;62;32;46;10;60;115;62;32;60;112;62;32;60;111;62;32;46;10]);
  ("turtle-syntax-bad-struct-01.ttl", [35;32;84;117;114;116;108;101;32;105;115;32;110;111;116;32;84;114;105;71;10;123;32;60;104;116;116;112;58;47;47;119;119;119;46;119;51;46;111;114;103;47;50;48;49;51;47;84;117;114;116;108;101;84;101;115;116;115;47;115;62;32;60;104;116;116;112;58;47;47;119;119;119;46;119;51;46;111;114;103;47;50;48;49;51;47;84;117;114;116;108;101;84;101;115;116;115;47;112;62;32;60;104;116;116;112;58;47;47;119;119;119;46;119;51;46;111;114;103;47;50;48;49;51;47;84;117;114;116;108;101;84;101;115;116;115;47;111;62;32;125;10]);
  ("turtle-syntax-bad-struct-02.ttl", [35;32;84;117;114;116;108;101;32;105;115;32;110;111;116;32;78;51;10;60;104;116;116;112;58;47;47;119;119;119;46;119;51;46;111;114;103;47;50;48;49;51;47;84;117;114;116;108;101;84;101;115;116;115;47;115;62;32;61;32;60;104;116;116;112;58;47;47;119;119;119;46;119;51;46;111;114;103;47;50;48;49;51;47;84;117;114;116;108;101;84;101;115;116;115;47;111;62;32;46;10]);
  ("turtle-syntax-bad-struct-03.ttl", [35;32;84;117;114;116;108;101;32;105;115;32;110;111;116;32;78;81;117;97;100;115;10;60;104;116;116;112;58;47;47;119;119;119;46;119;51;46;111;114;103;47;50;48;49;51;47;84;117;114;116;108;101;84;101;115;116;115;47;115;62;32;60;104;116;116;112;58;47;47;119;119;119;46;119;51;46;111;114;103;47;50;48;49;51;47;84;117;114;116;108;101;84;101;115;116;115;47;112;62;32;60;104;116;116;112;58;47;47;119;119;119;46;119;51;46;111;114;103;47;50;48;49;51;47;84;117;114;116;108;101;84;101;115;116;115;47;111;62;32;60;104;116;116;112;58;47;47;119;119;119;46;119;51;46;111;114;103;47;50;48;49;51;47;84;117;114;116;108;101;84;101;115;116;115;47;103;62;32;46;10]);
  ("turtle-syntax-bad-struct-04.ttl", [35;32;84;117;114;116;108;101;32;100;111;101;115;32;110;111;116;32;97;108;108;111;119;32;108;105;116;101;114;97;108;115;45;97;115;45;115;117;98;106;101;99;116;115;10;34;104;101;108;108;111;34;32;60;104;116;116;112;58;47;47;119;119;119;46;119;51;46;111;114;103;47;50;48;49;51;47;84;117;114;116;108;101;84;101;115;116;115;47;112;62;32;60;104;116;116;112;58;47;47;119;119;119;46;119;51;46;111;114;103;47;50;48;49;51;47;84;117;114;116;108;101;84;101;115;116;115;47;111;62;32;46;10]);
  ("turtle-syntax-bad-struct-05.ttl", [35;32;84;117;114;116;108;101;32;100;111;101;115;32;110;111;116;32;97;108;108;111;119;32;108;105;116;101;114;97;108;115;45;97;115;45;112;114;101;100;105;99;97;116;101;115;10;60;104;116;116;112;58;47;47;119;119;119;46;119;51;46;111;114;103;47;50;48;49;51;47;84;117;114;116;108;101;84;101;115;116;115;47;115;62;32;34;104;101;108;108;111;34;32;60;104;116;116;112;58;47;47;119;119;119;46;119;51;46;111;114;103;47;50;48;49;51;47;84;117;114;116;108;101;84;101;115;116;115;47;111;62;32;46;10]);
  ("turtle-syntax-bad-struct-06.ttl", [35;32;84;117;114;116;108;101;32;100;111;101;115;32;110;111;116;32;97;108;108;111;119;32;98;110;111;100;101;115;45;97;115;45;112;114;101;100;105;99;97;116;101;115;10;60;104;116;116;112;58;47;47;119;119;119;46;119;51;46;111;114;103;47;50;48;49;51;47;84;117;114;116;108;101;84;101;115;116;115;47;115;62;32;91;93;32;60;104;116;116;112;58;47;47;119;119;119;46;119;51;46;111;114;103;47;50;48;49;51;47;84;117;114;116;108;101;84;101;115;116;115;47;111;62;32;46;10]);
  ("turtle-syntax-bad-struct-07.ttl", [35;32;84;117;114;116;108;101;32;100;111;101;115;32;110;111;116;32;97;108;108;111;119;32;98;110;111;100;101;115;45;97;115;45;112;114;101;100;105;99;97;116;101;115;10;60;104;116;116;112;58;47;47;119;119;119;46;119;51;46;111;114;103;47;50;48;49;51;47;84;117;114;116;108;101;84;101;115;116;115;47;115;62;32;95;58;112;32;60;104;116;116;112;58;47;47;119;119;119;46;119;51;46;111;114;103;47;50;48;49;51;47;84;117;114;116;108;101;84;101;115;116;115;47;111;62;32;46;10]);
  ("turtle-syntax-bad-kw-01.ttl", [64;112;114;101;102;105;120;32;58;32;60;104;116;116;112;58;47;47;119;119;119;46;119;51;46;111;114;103;47;50;48;49;51;47;84;117;114;116;108;101;84;101;115;116;115;47;62;32;46;10;58;115;32;65;32;58;67;32;46;10]);
  ("turtle-syntax-bad-kw-02.ttl", [64;112;114;101;102;105;120;32;58;32;60;104;116;116;112;58;47;47;119;119;119;46;119;51;46;111;114;103;47;50;48;49;51;47;84;117;114;116;108;101;84;101;115;116;115;47;62;32;46;10;97;32;58;112;32;58;111;32;46;10]);
  ("turtle-syntax-bad-kw-03.ttl", [64;112;114;101;102;105;120;32;58;32;60;104;116;116;112;58;47;47;119;119;119;46;119;51;46;111;114;103;47;50;48;49;51;47;84;117;114;116;108;101;84;101;115;116;115;47;62;32;46;10;58;115;32;58;112;32;97;32;46;10]);
  ("turtle-syntax-bad-kw-04.ttl", [64;112;114;101;102;105;120;32;58;32;60;104;116;116;112;58;47;47;119;119;119;46;119;51;46;111;114;103;47;50;48;49;51;47;84;117;114;116;108;101;84;101;115;116;115;47;62;32;46;10;116;114;117;101;32;58;112;32;58;111;32;46;10]);
  ("turtle-syntax-bad-kw-05.ttl", [64;112;114;101;102;105;120;32;58;32;60;104;116;116;112;58;47;47;119;119;119;46;119;51;46;111;114;103;47;50;48;49;51;47;84;117;114;116;108;101;84;101;115;116;115;47;62;32;46;10;58;115;32;116;114;117;101;32;58;111;32;46;10]);
  ("turtle-syntax-bad-n3-extras-01.ttl", [35;32;123;125;32;102;111;109;117;108;97;101;32;110;111;116;32;105;110;32;84;117;114;116;108;101;10;64;112;114;101;102;105;120;32;58;32;60;104;116;116;112;58;47;47;119;119;119;46;119;51;46;111;114;103;47;50;48;49;51;47;84;117;114;116;108;101;84;101;115;116;115;47;62;32;46;10;10;123;32;58;97;32;58;113;32;58;99;32;46;32;125;32;58;112;32;58;122;32;46;10;10]);
  ("turtle-syntax-bad-n3-extras-02.ttl", [35;32;61;32;105;115;32;110;111;116;32;84;117;114;116;108;101;10;64;112;114;101;102;105;120;32;58;32;60;104;116;116;112;58;47;47;119;119;119;46;119;51;46;111;114;103;47;50;48;49;51;47;84;117;114;116;108;101;84;101;115;116;115;47;62;32;46;10;10;58;97;32;61;32;58;98;32;46;10]);
  ("turtle-syntax-bad-n3-extras-03.ttl", [35;32;78;51;32;112;97;116;104;115;10;64;112;114;101;102;105;120;32;58;32;60;104;116;116;112;58;47;47;119;119;119;46;119;51;46;111;114;103;47;50;48;49;51;47;84;117;114;116;108;101;84;101;115;116;115;47;62;32;46;10;64;112;114;101;102;105;120;32;110;115;58;32;60;104;116;116;112;58;47;47;119;119;119;46;119;51;46;111;114;103;47;50;48;49;51;47;84;117;114;116;108;101;84;101;115;116;115;47;112;35;62;32;46;10;10;58;120;46;10;32;32;110;115;58;112;46;10;32;32;32;32;110;115;58;113;32;58;112;32;58;122;32;46;10]);
  ("turtle-syntax-bad-n3-extras-04.ttl", [35;32;78;51;32;112;97;116;104;115;10;64;112;114;101;102;105;120;32;58;32;60;104;116;116;112;58;47;47;119;119;119;46;119;51;46;111;114;103;47;50;48;49;51;47;84;117;114;116;108;101;84;101;115;116;115;47;62;32;46;10;64;112;114;101;102;105;120;32;110;115;58;32;60;104;116;116;112;58;47;47;119;119;119;46;119;51;46;111;114;103;47;50;48;49;51;47;84;117;114;116;108;101;84;101;115;116;115;47;112;35;62;32;46;10;10;58;120;94;110;115;58;112;32;58;112;32;58;122;32;46;10]);
  ("turtle-syntax-bad-n3-extras-05.ttl", [35;32;78;51;32;105;115;46;46;46;111;102;10;64;112;114;101;102;105;120;32;58;32;60;104;116;116;112;58;47;47;119;119;119;46;119;51;46;111;114;103;47;50;48;49;51;47;84;117;114;116;108;101;84;101;115;116;115;47;62;32;46;10;10;58;122;32;105;115;32;58;112;32;111;102;32;58;120;32;46;10]);
  ("turtle-syntax-bad-n3-extras-06.ttl", [35;32;61;32;105;115;32;110;111;116;32;84;117;114;116;108;101;10;64;112;114;101;102;105;120;32;58;32;60;104;116;116;112;58;47;47;119;119;119;46;119;51;46;111;114;103;47;50;48;49;51;47;84;117;114;116;108;101;84;101;115;116;115;47;62;32;46;10;10;58;97;46;58;98;46;58;99;32;46;10]);
  ("turtle-syntax-bad-n3-extras-07.ttl", [35;32;64;107;101;121;119;111;114;100;115;32;105;115;32;110;111;116;32;84;117;114;116;108;101;10;64;107;101;121;119;111;114;100;115;32;97;32;46;10;120;32;97;32;73;116;101;109;32;46;10]);
  ("turtle-syntax-bad-n3-extras-08.ttl", [35;32;64;107;101;121;119;111;114;100;115;32;105;115;32;110;111;116;32;84;117;114;116;108;101;10;64;107;101;121;119;111;114;100;115;32;97;32;46;10;120;32;97;32;73;116;101;109;32;46;10]);
  ("turtle-syntax-bad-n3-extras-09.ttl", [35;32;61;62;32;105;115;32;110;111;116;32;84;117;114;116;108;101;10;64;112;114;101;102;105;120;32;58;32;60;104;116;116;112;58;47;47;119;119;119;46;119;51;46;111;114;103;47;50;48;49;51;47;84;117;114;116;108;101;84;101;115;116;115;47;62;32;46;10;58;115;32;61;62;32;58;111;32;46;10]);
  ("turtle-syntax-bad-n3-extras-10.ttl", [35;32;60;61;32;105;115;32;110;111;116;32;84;117;114;116;108;101;10;64;112;114;101;102;105;120;32;58;32;60;104;116;116;112;58;47;47;119;119;119;46;119;51;46;111;114;103;47;50;48;49;51;47;84;117;114;116;108;101;84;101;115;116;115;47;62;32;46;10;58;115;32;60;61;32;58;111;32;46;10]);
  ("turtle-syntax-bad-n3-extras-11.ttl", [35;32;64;102;111;114;83;111;109;101;32;105;115;32;110;111;116;32;84;117;114;116;108;101;10;64;112;114;101;102;105;120;32;58;32;60;104;116;116;112;58;47;47;119;119;119;46;119;51;46;111;114;103;47;50;48;49;51;47;84;117;114;116;108;101;84;101;115;116;115;47;62;32;46;10;64;102;111;114;83;111;109;101;32;58;120;32;46;10]);
  ("turtle-syntax-bad-n3-extras-12.ttl", [35;32;64;102;111;114;65;108;108;32;105;115;32;110;111;116;32;84;117;114;116;108;101;10;64;112;114;101;102;105;120;32;58;32;60;104;116;116;112;58;47;47;119;119;119;46;119;51;46;111;114;103;47;50;48;49;51;47;84;117;114;116;108;101;84;101;115;116;115;47;62;32;46;10;64;102;111;114;65;108;108;32;58;120;32;46;10]);
  ("turtle-syntax-bad-n3-extras-13.ttl", [35;32;64;107;101;121;119;111;114;100;115;32;105;115;32;110;111;116;32;84;117;114;116;108;101;10;64;107;101;121;119;111;114;100;115;32;46;10;120;32;64;97;32;73;116;101;109;32;46;10]);
  ("turtle-syntax-bad-struct-08.ttl", [35;32;78;111;32;68;79;84;10;60;104;116;116;112;58;47;47;119;119;119;46;119;51;46;111;114;103;47;50;48;49;51;47;84;117;114;116;108;101;84;101;115;116;115;47;115;62;32;60;104;116;116;112;58;47;47;119;119;119;46;119;51;46;111;114;103;47;50;48;49;51;47;84;117;114;116;108;101;84;101;115;116;115;47;112;62;32;60;104;116;116;112;58;47;47;119;119;119;46;119;51;46;111;114;103;47;50;48;49;51;47;84;117;114;116;108;101;84;101;115;116;115;47;111;62;10]);
  ("turtle-syntax-bad-struct-09.ttl", [35;32;84;111;111;32;109;97;110;121;32;68;79;84;10;60;104;116;116;112;58;47;47;119;119;119;46;119;51;46;111;114;103;47;50;48;49;51;47;84;117;114;116;108;101;84;101;115;116;115;47;115;62;32;60;104;116;116;112;58;47;47;119;119;119;46;119;51;46;111;114;103;47;50;48;49;51;47;84;117;114;116;108;101;84;101;115;116;115;47;112;62;32;60;104;116;116;112;58;47;47;119;119;119;46;119;51;46;111;114;103;47;50;48;49;51;47;84;117;114;116;108;101;84;101;115;116;115;47;111;62;32;46;32;46;10]);
  ("turtle-syntax-bad-struct-10.ttl", [35;32;84;111;111;32;109;97;110;121;32;68;79;84;10;60;104;116;116;112;58;47;47;119;119;119;46;119;51;46;111;114;103;47;50;48;49;51;47;84;117;114;116;108;101;84;101;115;116;115;47;115;62;32;60;104;116;116;112;58;47;47;119;119;119;46;119;51;46;111;114;103;47;50;48;49;51;47;84;117;114;116;108;101;84;101;115;116;115;47;112;62;32;60;104;116;116;112;58;47;47;119;119;119;46;119;51;46;111;114;103;47;50;48;49;51;47;84;117;114;116;108;101;84;101;115;116;115;47;111;62;32;46;32;46;10;60;104;116;116;112;58;47;47;119;119;119;46;119;51;46;111;114;103;47;50;48;49;51;47;84;117;114;116;108;101;84;101;115;116;115;47;115;49;62;32;60;104;116;116;112;58;47;47;119;119;119;46;119;51;46;111;114;103;47;50;48;49;51;47;84;117;114;116;108;101;84;101;115;116;115;47;112;49;62;32;60;104;116;116;112;58;47;47;119;119;119;46;119;51;46;111;114;103;47;50;48;49;51;47;84;117;114;116;108;101;84;101;115;116;115;47;111;49;62;32;46;10]);
  ("turtle-syntax-bad-struct-11.ttl", [35;32;84;114;97;105;108;105;110;103;32;59;10;60;104;116;116;112;58;47;47;119;119;119;46;119;51;46;111;114;103;47;50;48;49;51;47;84;117;114;116;108;101;84;101;115;116;115;47;115;62;32;60;104;116;116;112;58;47;47;119;119;119;46;119;51;46;111;114;103;47;50;48;49;51;47;84;117;114;116;108;101;84;101;115;116;115;47;112;62;32;60;104;116;116;112;58;47;47;119;119;119;46;119;51;46;111;114;103;47;50;48;49;51;47;84;117;114;116;108;101;84;101;115;116;115;47;111;62;32;59;10]);
  ("turtle-syntax-bad-struct-12.ttl", [60;104;116;116;112;58;47;47;119;119;119;46;119;51;46;111;114;103;47;50;48;49;51;47;84;117;114;116;108;101;84;101;115;116;115;47;115;62;32;60;104;116;116;112;58;47;47;119;119;119;46;119;51;46;111;114;103;47;50;48;49;51;47;84;117;114;116;108;101;84;101;115;116;115;47;112;62;32;10]);
  ("turtle-syntax-bad-struct-13.ttl", [60;104;116;116;112;58;47;47;119;119;119;46;119;51;46;111;114;103;47;50;48;49;51;47;84;117;114;116;108;101;84;101;115;116;115;47;115;62;32;60;104;116;116;112;58;47;47;119;119;119;46;119;51;46;111;114;103;47;50;48;49;51;47;84;117;114;116;108;101;84;101;115;116;115;47;112;62;32;10]);
  ("turtle-syntax-bad-struct-14.ttl", [35;32;76;105;116;101;114;97;108;32;97;115;32;115;117;98;106;101;99;116;10;34;97;98;99;34;32;60;104;116;116;112;58;47;47;119;119;119;46;119;51;46;111;114;103;47;50;48;49;51;47;84;117;114;116;108;101;84;101;115;116;115;47;112;62;32;60;104;116;116;112;58;47;47;119;119;119;46;119;51;46;111;114;103;47;50;48;49;51;47;84;117;114;116;108;101;84;101;115;116;115;47;112;62;32;32;46;10]);
  ("turtle-syntax-bad-struct-15.ttl", [35;32;76;105;116;101;114;97;108;32;97;115;32;112;114;101;100;105;99;97;116;101;10;60;104;116;116;112;58;47;47;119;119;119;46;119;51;46;111;114;103;47;50;48;49;51;47;84;117;114;116;108;101;84;101;115;116;115;47;115;62;32;34;97;98;99;34;32;60;104;116;116;112;58;47;47;119;119;119;46;119;51;46;111;114;103;47;50;48;49;51;47;84;117;114;116;108;101;84;101;115;116;115;47;112;62;32;32;46;10]);
  ("turtle-syntax-bad-struct-16.ttl", [35;32;66;78;111;100;101;32;97;115;32;112;114;101;100;105;99;97;116;101;10;60;104;116;116;112;58;47;47;119;119;119;46;119;51;46;111;114;103;47;50;48;49;51;47;84;117;114;116;108;101;84;101;115;116;115;47;115;62;32;91;93;32;60;104;116;116;112;58;47;47;119;119;119;46;119;51;46;111;114;103;47;50;48;49;51;47;84;117;114;116;108;101;84;101;115;116;115;47;112;62;32;32;46;10]);
  ("turtle-syntax-bad-struct-17.ttl", [35;32;66;78;111;100;101;32;97;115;32;112;114;101;100;105;99;97;116;101;10;60;104;116;116;112;58;47;47;119;119;119;46;119;51;46;111;114;103;47;50;48;49;51;47;84;117;114;116;108;101;84;101;115;116;115;47;115;62;32;95;58;97;32;60;104;116;116;112;58;47;47;119;119;119;46;119;51;46;111;114;103;47;50;48;49;51;47;84;117;114;116;108;101;84;101;115;116;115;47;112;62;32;32;46;10]);
  ("turtle-syntax-bad-lang-01.ttl", [35;32;66;97;100;32;108;97;110;103;32;116;97;103;10;60;104;116;116;112;58;47;47;119;119;119;46;119;51;46;111;114;103;47;50;48;49;51;47;84;117;114;116;108;101;84;101;115;116;115;47;115;62;32;60;104;116;116;112;58;47;47;119;119;119;46;119;51;46;111;114;103;47;50;48;49;51;47;84;117;114;116;108;101;84;101;115;116;115;47;112;62;32;34;115;116;114;105;110;103;34;64;49;32;46;10]);
  ("turtle-syntax-bad-esc-01.ttl", [35;32;66;97;100;32;115;116;114;105;110;103;32;101;115;99;97;112;101;10;60;104;116;116;112;58;47;47;119;119;119;46;119;51;46;111;114;103;47;50;48;49;51;47;84;117;114;116;108;101;84;101;115;116;115;47;115;62;32;60;104;116;116;112;58;47;47;119;119;119;46;119;51;46;111;114;103;47;50;48;49;51;47;84;117;114;116;108;101;84;101;115;116;115;47;112;62;32;34;97;92;122;98;34;32;46;10]);
  ("turtle-syntax-bad-esc-02.ttl", [35;32;66;97;100;32;115;116;114;105;110;103;32;101;115;99;97;112;101;10;60;104;116;116;112;58;47;47;119;119;119;46;119;51;46;111;114;103;47;50;48;49;51;47;84;117;114;116;108;101;84;101;115;116;115;47;115;62;32;60;104;116;116;112;58;47;47;119;119;119;46;119;51;46;111;114;103;47;50;48;49;51;47;84;117;114;116;108;101;84;101;115;116;115;47;112;62;32;34;92;117;87;88;89;90;34;32;46;10]);
  ("turtle-syntax-bad-esc-03.ttl", [35;32;66;97;100;32;115;116;114;105;110;103;32;101;115;99;97;112;101;10;60;104;116;116;112;58;47;47;119;119;119;46;119;51;46;111;114;103;47;50;48;49;51;47;84;117;114;116;108;101;84;101;115;116;115;47;115;62;32;60;104;116;116;112;58;47;47;119;119;119;46;119;51;46;111;114;103;47;50;48;49;51;47;84;117;114;116;108;101;84;101;115;116;115;47;112;62;32;34;92;85;48;48;48;48;87;88;89;90;34;32;46;10]);
  ("turtle-syntax-bad-esc-04.ttl", [35;32;66;97;100;32;115;116;114;105;110;103;32;101;115;99;97;112;101;10;60;104;116;116;112;58;47;47;119;119;119;46;119;51;46;111;114;103;47;50;48;49;51;47;84;117;114;116;108;101;84;101;115;116;115;47;115;62;32;60;104;116;116;112;58;47;47;119;119;119;46;119;51;46;111;114;103;47;50;48;49;51;47;84;117;114;116;108;101;84;101;115;116;115;47;112;62;32;34;92;85;48;48;48;48;87;88;89;90;34;32;46;10]);
  ("turtle-syntax-bad-pname-01.ttl", [35;32;126;32;109;117;115;116;32;98;101;32;101;115;99;97;112;101;100;46;10;64;112;114;101;102;105;120;32;58;32;60;104;116;116;112;58;47;47;119;119;119;46;119;51;46;111;114;103;47;50;48;49;51;47;84;117;114;116;108;101;84;101;115;116;115;47;62;32;46;10;58;97;126;98;32;58;112;32;58;111;32;46;10]);
  ("turtle-syntax-bad-pname-02.ttl", [35;32;66;97;100;32;37;45;115;101;113;117;101;110;99;101;10;64;112;114;101;102;105;120;32;58;32;60;104;116;116;112;58;47;47;119;119;119;46;119;51;46;111;114;103;47;50;48;49;51;47;84;117;114;116;108;101;84;101;115;116;115;47;62;32;46;10;58;97;37;50;32;58;112;32;58;111;32;46;10]);
  ("turtle-syntax-bad-pname-03.ttl", [35;32;78;111;32;92;117;32;40;120;51;57;32;105;115;32;34;57;34;41;10;64;112;114;101;102;105;120;32;58;32;60;104;116;116;112;58;47;47;119;119;119;46;119;51;46;111;114;103;47;50;48;49;51;47;84;117;114;116;108;101;84;101;115;116;115;47;62;32;46;10;58;97;92;117;48;48;51;57;32;58;112;32;58;111;32;46;10]);
  ("turtle-syntax-bad-string-01.ttl", [64;112;114;101;102;105;120;32;58;32;60;104;116;116;112;58;47;47;119;119;119;46;119;51;46;111;114;103;47;50;48;49;51;47;84;117;114;116;108;101;84;101;115;116;115;47;62;32;46;10;58;115;32;58;112;32;34;97;98;99;39;32;46;10]);
  ("turtle-syntax-bad-string-02.ttl", [64;112;114;101;102;105;120;32;58;32;60;104;116;116;112;58;47;47;119;119;119;46;119;51;46;111;114;103;47;50;48;49;51;47;84;117;114;116;108;101;84;101;115;116;115;47;62;32;46;10;58;115;32;58;112;32;39;97;98;99;34;32;46;10]);
  ("turtle-syntax-bad-string-03.ttl", [64;112;114;101;102;105;120;32;58;32;60;104;116;116;112;58;47;47;119;119;119;46;119;51;46;111;114;103;47;50;48;49;51;47;84;117;114;116;108;101;84;101;115;116;115;47;62;32;46;10;58;115;32;58;112;32;39;39;39;97;98;99;39;32;46;10]);
  ("turtle-syntax-bad-string-04.ttl", [64;112;114;101;102;105;120;32;58;32;60;104;116;116;112;58;47;47;119;119;119;46;119;51;46;111;114;103;47;50;48;49;51;47;84;117;114;116;108;101;84;101;115;116;115;47;62;32;46;10;58;115;32;58;112;32;34;34;34;97;98;99;39;39;39;32;46;10]);
  ("turtle-syntax-bad-string-05.ttl", [35;32;76;111;110;103;32;108;105;116;101;114;97;108;32;119;105;116;104;32;109;105;115;115;105;110;103;32;101;110;100;10;64;112;114;101;102;105;120;32;58;32;60;104;116;116;112;58;47;47;119;119;119;46;119;51;46;111;114;103;47;50;48;49;51;47;84;117;114;116;108;101;84;101;115;116;115;47;62;32;46;10;58;115;32;58;112;32;34;34;34;97;98;99;10;100;101;102;10]);
  ("turtle-syntax-bad-string-06.ttl", [35;32;76;111;110;103;32;108;105;116;101;114;97;108;32;119;105;116;104;32;52;34;10;64;112;114;101;102;105;120;32;58;32;60;104;116;116;112;58;47;47;119;119;119;46;119;51;46;111;114;103;47;50;48;49;51;47;84;117;114;116;108;101;84;101;115;116;115;47;62;32;46;10;58;115;32;58;112;32;34;34;34;97;98;99;34;34;34;34;64;101;110;32;46;10]);
  ("turtle-syntax-bad-string-07.ttl", [35;32;76;111;110;103;32;108;105;116;101;114;97;108;32;119;105;116;104;32;52;39;10;64;112;114;101;102;105;120;32;58;32;60;104;116;116;112;58;47;47;119;119;119;46;119;51;46;111;114;103;47;50;48;49;51;47;84;117;114;116;108;101;84;101;115;116;115;47;62;32;46;10;58;115;32;58;112;32;39;39;39;97;98;99;39;39;39;39;64;101;110;32;46;10]);
  ("turtle-syntax-bad-num-01.ttl", [60;104;116;116;112;58;47;47;119;119;119;46;119;51;46;111;114;103;47;50;48;49;51;47;84;117;114;116;108;101;84;101;115;116;115;47;115;62;32;60;104;116;116;112;58;47;47;119;119;119;46;119;51;46;111;114;103;47;50;48;49;51;47;84;117;114;116;108;101;84;101;115;116;115;47;112;62;32;49;50;51;46;97;98;99;32;46;10]);
  ("turtle-syntax-bad-num-02.ttl", [60;104;116;116;112;58;47;47;119;119;119;46;119;51;46;111;114;103;47;50;48;49;51;47;84;117;114;116;108;101;84;101;115;116;115;47;115;62;32;60;104;116;116;112;58;47;47;119;119;119;46;119;51;46;111;114;103;47;50;48;49;51;47;84;117;114;116;108;101;84;101;115;116;115;47;112;62;32;49;50;51;101;32;46;10]);
  ("turtle-syntax-bad-num-03.ttl", [60;104;116;116;112;58;47;47;119;119;119;46;119;51;46;111;114;103;47;50;48;49;51;47;84;117;114;116;108;101;84;101;115;116;115;47;115;62;32;60;104;116;116;112;58;47;47;119;119;119;46;119;51;46;111;114;103;47;50;48;49;51;47;84;117;114;116;108;101;84;101;115;116;115;47;112;62;32;49;50;51;97;98;99;32;46;10]);
  ("turtle-syntax-bad-num-04.ttl", [60;104;116;116;112;58;47;47;119;119;119;46;119;51;46;111;114;103;47;50;48;49;51;47;84;117;114;116;108;101;84;101;115;116;115;47;115;62;32;60;104;116;116;112;58;47;47;119;119;119;46;119;51;46;111;114;103;47;50;48;49;51;47;84;117;114;116;108;101;84;101;115;116;115;47;112;62;32;48;120;49;50;51;32;46;10]);
  ("turtle-syntax-bad-num-05.ttl", [60;104;116;116;112;58;47;47;119;119;119;46;119;51;46;111;114;103;47;50;48;49;51;47;84;117;114;116;108;101;84;101;115;116;115;47;115;62;32;60;104;116;116;112;58;47;47;119;119;119;46;119;51;46;111;114;103;47;50;48;49;51;47;84;117;114;116;108;101;84;101;115;116;115;47;112;62;32;43;45;49;32;46;10]);
  ("turtle-eval-bad-01.ttl", [35;32;66;97;100;32;73;82;73;32;58;32;103;111;111;100;32;101;115;99;97;112;101;44;32;98;97;100;32;99;104;97;114;99;97;116;101;114;10;60;104;116;116;112;58;47;47;119;119;119;46;119;51;46;111;114;103;47;50;48;49;51;47;84;117;114;116;108;101;84;101;115;116;115;47;92;117;48;48;50;48;62;32;60;104;116;116;112;58;47;47;119;119;119;46;119;51;46;111;114;103;47;50;48;49;51;47;84;117;114;116;108;101;84;101;115;116;115;47;112;62;32;60;104;116;116;112;58;47;47;119;119;119;46;119;51;46;111;114;103;47;50;48;49;51;47;84;117;114;116;108;101;84;101;115;116;115;47;111;62;32;46;10]);
  ("turtle-eval-bad-02.ttl", [35;32;66;97;100;32;73;82;73;32;58;32;104;101;120;32;51;67;32;105;115;32;60;10;60;104;116;116;112;58;47;47;119;119;119;46;119;51;46;111;114;103;47;50;48;49;51;47;84;117;114;116;108;101;84;101;115;116;115;47;92;117;48;48;51;67;62;32;60;104;116;116;112;58;47;47;119;119;119;46;119;51;46;111;114;103;47;50;48;49;51;47;84;117;114;116;108;101;84;101;115;116;115;47;112;62;32;60;104;116;116;112;58;47;47;119;119;119;46;119;51;46;111;114;103;47;50;48;49;51;47;84;117;114;116;108;101;84;101;115;116;115;47;111;62;32;46;10]);
  ("turtle-eval-bad-03.ttl", [35;32;66;97;100;32;73;82;73;32;58;32;104;101;120;32;51;69;32;105;115;32;62;10;60;104;116;116;112;58;47;47;119;119;119;46;119;51;46;111;114;103;47;50;48;49;51;47;84;117;114;116;108;101;84;101;115;116;115;47;92;117;48;48;51;69;62;32;60;104;116;116;112;58;47;47;119;119;119;46;119;51;46;111;114;103;47;50;48;49;51;47;84;117;114;116;108;101;84;101;115;116;115;47;112;62;32;60;104;116;116;112;58;47;47;119;119;119;46;119;51;46;111;114;103;47;50;48;49;51;47;84;117;114;116;108;101;84;101;115;116;115;47;111;62;32;46;10]);
  ("turtle-eval-bad-04.ttl", [35;32;66;97;100;32;73;82;73;10;60;104;116;116;112;58;47;47;119;119;119;46;119;51;46;111;114;103;47;50;48;49;51;47;84;117;114;116;108;101;84;101;115;116;115;47;123;97;98;99;125;62;32;60;104;116;116;112;58;47;47;119;119;119;46;119;51;46;111;114;103;47;50;48;49;51;47;84;117;114;116;108;101;84;101;115;116;115;47;112;62;32;60;104;116;116;112;58;47;47;119;119;119;46;119;51;46;111;114;103;47;50;48;49;51;47;84;117;114;116;108;101;84;101;115;116;115;47;111;62;32;46;10]);
  ("turtle-syntax-bad-LITERAL2_with_langtag_and_datatype.ttl", [60;104;116;116;112;58;47;47;101;120;97;109;112;108;101;46;111;114;103;47;114;101;115;111;117;114;99;101;62;32;60;104;116;116;112;58;47;47;101;120;97;109;112;108;101;46;111;114;103;35;112;114;101;100;62;32;34;118;97;108;117;101;34;64;101;110;94;94;60;104;116;116;112;58;47;47;119;119;119;46;119;51;46;111;114;103;47;49;57;57;57;47;48;50;47;50;50;45;114;100;102;45;115;121;110;116;97;120;45;110;115;35;88;77;76;76;105;116;101;114;97;108;62;32;46;10])]%string.

(** the graphs are the expected ones *)
Example W3C_eval : length eval_tests = 132%nat /\
  forallb (fun '(name, bytes, expected) =>
             match read_turtle name bytes, read_expected expected with Some g, Some h => same_graph [] g h | _, _ => false end) eval_tests = true.
Proof. vm_compute. auto. Qed.
(** the texts are accepted *)
Example W3C_positive : length positive_tests = 73%nat /\
  forallb (fun '(name, bytes) => match read_turtle name bytes with Some _ => true | None => false end) positive_tests = true.
Proof. vm_compute. auto. Qed.
(** the texts are refused with an exception *)
Example W3C_negative : length negative_tests = 73%nat /\
  forallb (fun '(name, bytes) => match turtle_parse uj 0 (base_of name) (graph_new None) (SrcBytes bytes) with
                                 | Some (_, _, Err _) => true | _ => false end) negative_tests = true.
Proof. vm_compute. auto. Qed.
