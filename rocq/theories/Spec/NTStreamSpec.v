(** Vocabulary for parsing streams (C121). *)
From Verif Require Import Model.Py Model.Terms Model.NTriples Spec.CodecSpec Spec.NTSpec Spec.NTTextSpec.
Open Scope N_scope.

(** the documents of the lines that are not the empty string, each with a statement *)
Definition stream_docs (q : bool) (lines : list str) (ds : list (list rstmt)) : Prop :=
  Forall2 (fun s d => nt_doc own q d s /\ d <> []) (filter nonempty lines) ds.
(** their triples *)
Definition docs_mean (L : str -> N) (ds : list (list rstmt)) (tss : list (list stmt)) : Prop := Forall2 (Forall2 (line_means L)) ds tss.
(** the first triple of each *)
Definition first_of (tss : list (list stmt)) (t : stmt) : Prop := exists u, In (t :: u) tss.
(** what is wrong with a line that raises e *)
Inductive fault (q : bool) (s : str) : exn -> Prop :=
| ft_empty : s <> [] -> nt_doc own q [] s -> fault q s RuntimeError
| ft_escape : forall e d, e = ValueError \/ e = OverflowError -> nt_doc own q d s -> (forall L ts, ~ Forall2 (line_means L) d ts) -> fault q s e
| ft_syntax : forall e, (forall d, ~ nt_doc own q d s) -> error_of s e -> fault q s e.

(** a line with nothing but blanks *)
Definition blank_line (s : str) : Prop := Forall (fun c => c = 32 \/ c = 9 \/ c = 10) s.
(** the lines of a text: each ends in LF and has no other, but for the last *)
Inductive lines_of : str -> list str -> Prop :=
| lo_none : lines_of [] []
| lo_last : forall l, l <> [] -> ~ In 10 l -> lines_of l [l]
| lo_line : forall l s ls, ~ In 10 l -> lines_of s ls -> lines_of (l ++ 10 :: s) ((l ++ [10]) :: ls).
(** CR LF, CR and LF are line ends; all become LF *)
Inductive newlines : str -> str -> Prop :=
| nw_nil : newlines [] []
| nw_char : forall c s u, c <> 13 -> newlines s u -> newlines (c :: s) (c :: u)
| nw_crlf : forall s u, newlines s u -> newlines (13 :: 10 :: s) (10 :: u)
| nw_cr : forall s u, hd_error s <> Some 10 -> newlines s u -> newlines (13 :: s) (10 :: u).
(** no line of the text is blank; the same for a text whose line ends are of the three kinds *)
Definition no_blank_line (s : str) : Prop := exists ls, lines_of s ls /\ Forall (fun x => ~ blank_line x) ls.
Definition no_blank_line_file (s : str) : Prop := exists u, newlines s u /\ no_blank_line u.
(** the line ends of the platforms *)
Definition linesep (eol : str) : Prop := In eol [[10]; [13; 10]; [13]].
Definition tags_one_line (t : stmt) : Prop := lang_one_line (st_s t) /\ lang_one_line (st_p t) /\ lang_one_line (st_o t).
