(** The N-Triples and N-Quads parsers on text streams: which lines the loop of
    line_by_line_parser (parsers/lark/base.py 9-12) gets.  The stream itself is Python's:
    io.StringIO(s) ends lines at LF only and changes nothing; a file opened as the
    documentation says, io.open(name, mode='rt') (parsers/lark/ntriples.py 6), first turns
    CR LF and CR into LF.  The decoding of the file is not modelled here (Model/Codec.v). *)
From Verif Require Import Model.Py Model.Terms Model.Graph Model.NTriples.
Open Scope N_scope.

(** list(io.StringIO(s)): lines with their LF, the last one perhaps without *)
Fixpoint split_lf (s : str) : list str :=
  match s with
  | [] => []
  | c :: r => if c =? 10 then [10] :: split_lf r
              else match split_lf r with [] => [[c]] | l :: ls => (c :: l) :: ls end
  end.

(** newline=None of io.open: universal newlines *)
Fixpoint universal (s : str) : str :=
  match s with
  | [] => []
  | c :: r =>
      if c =? 13 then 10 :: match r with d :: r' => if d =? 10 then universal r' else universal r | [] => [] end
      else c :: universal r
  end.

(** LarkParser.parse (base.py 14-36) of io.StringIO(s), and of a text file with the content s *)
Definition parse_stringio (q : bool) (n : N) (g : graph) (s : str) : N * graph * res unit := parse_stream q n g (split_lf s).
Definition parse_file (q : bool) (n : N) (g : graph) (s : str) : N * graph * res unit := parse_stream q n g (split_lf (universal s)).

(** what a text file opened for writing has after f.write(s) (serializers.py 34-37 writes
    to it): LF becomes os.linesep, which is LF, CR LF or CR *)
Definition written (eol s : str) : str := flat_map (fun c => if c =? 10 then eol else [c]) s.
