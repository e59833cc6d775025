(** Property C121: parsing N-Triples and N-Quads from streams, in terms of the grammar of C95. *)
From Verif Require Import Model.Py Model.Terms Model.Graph Model.NTriples Model.NTStream
  Spec.CodecSpec Spec.GraphSpec Spec.NTSpec Spec.NTTextSpec Spec.NTStreamSpec Proofs.GraphInv Proofs.NTRun Proofs.NTMeans Proofs.NTStream.
Open Scope N_scope.

(** if every line is the text of a document with at least one statement, and these have a
    meaning, the first triple of each line is added and nothing else; a label has one blank
    node in all lines *)
Theorem C121_stream_adds : forall q n g lines ds L0 tss0, stream_docs q lines ds -> docs_mean L0 ds tss0 ->
  exists n' g' L tss, parse_stream q n g lines = (n', g', Ok tt) /\ docs_mean L ds tss /\ fresh_labels n n' (concat ds) L /\
    forall t, In t (g_iter g') <-> In t (g_iter g) \/ first_of tss t.
Proof.
  intros q n g lines ds L0 tss0 SD0 M0. destruct (stream_cases q n g lines) as (n' & g' & r & E & [(-> & ds1 & L & tss & SD & M & FL & ->)|(e & bf & y & af & ds1 & L & tss & -> & -> & F & _)]).
  - assert (ds1 = ds).
    { unfold stream_docs in *. clear - SD SD0. revert ds SD0. induction SD as [|s d ss ds1 [D _] _ IH]; intros ds SD0; inversion SD0 as [|? d' ? ds' [D' _] SD']; subst; [reflexivity|]. f_equal; [exact (doc_unique q d d' s D D')|now apply IH]. }
    subst ds1. exists n', (g_addAll g (heads tss)), L, tss. do 3 (split; [assumption|]). intro t. unfold g_iter. rewrite g_addAll_In, heads_In. tauto.
  - destruct (docs_fault q bf y af e ds L0 tss0 F SD0 M0).
Qed.
(** conversely a stream that is parsed is of this kind *)
Theorem C121_stream_accepts : forall q n g lines n' g', parse_stream q n g lines = (n', g', Ok tt) ->
  exists ds L tss, stream_docs q lines ds /\ docs_mean L ds tss /\ fresh_labels n n' (concat ds) L /\
    forall t, In t (g_iter g') <-> In t (g_iter g) \/ first_of tss t.
Proof.
  intros q n g lines n' g' E0. destruct (stream_cases q n g lines) as (m & h & r & E & [(-> & ds1 & L & tss & SD & M & FL & ->)|(e & bf & y & af & ds1 & L & tss & -> & _)]); rewrite E in E0; [|discriminate].
  injection E0 as <- <-. exists ds1, L, tss. do 3 (split; [assumption|]). intro t. unfold g_iter. rewrite g_addAll_In, heads_In. tauto.
Qed.
(** an error is the fault of the first line that has one: a line without a statement
    (RuntimeError), an escape that stands for no character, or no text of the grammar; the
    first triples of the lines before it are in the graph *)
Theorem C121_stream_errors : forall q n g lines n' g' e, parse_stream q n g lines = (n', g', Err e) ->
  exists before s after ds L tss, lines = before ++ s :: after /\ fault q s e /\ stream_docs q before ds /\ docs_mean L ds tss /\ fresh_labels n n' (concat ds) L /\
    forall t, In t (g_iter g') <-> In t (g_iter g) \/ first_of tss t.
Proof.
  intros q n g lines n' g' e0 E0. destruct (stream_cases q n g lines) as (m & h & r & E & [(-> & _)|(e & bf & y & af & ds1 & L & tss & -> & -> & F & SD & M & FL & ->)]); rewrite E in E0; [discriminate|].
  injection E0 as <- <- <-. exists bf, y, af, ds1, L, tss. do 5 (split; [auto; fail|]). intro t. unfold g_iter. rewrite g_addAll_In, heads_In. tauto.
Qed.
Theorem C121_faults_raise : forall q n g before s after e, fault q s e -> exists n' g' e', parse_stream q n g (before ++ s :: after) = (n', g', Err e').
Proof.
  intros q n g before s after e F. destruct (stream_cases q n g (before ++ s :: after)) as (n' & g' & r & E & [(-> & ds & L & tss & SD & M & _)|(e' & bf & y & af & ds & L & tss & -> & _)]).
  - destruct (docs_fault q before s after e ds L tss F SD M).
  - eauto.
Qed.

(** the lines that the model's streams give are those of the text; line ends *)
Theorem C121_lines : forall s ls, lines_of s ls <-> ls = split_lf s.
Proof. intros s ls. split; [apply lines_unique|]. intros ->. apply split_lines. Qed.
Theorem C121_newlines : forall s u, newlines s u <-> u = universal s.
Proof. exact newlines_universal. Qed.

(** a file with this content is parsed if and only if the text is, as a string, and no line
    is blank; then the graph is the same *)
Theorem C121_file : forall q n g s n' g', parse_file q n g s = (n', g', Ok tt) <-> parse_string q n g s = (n', g', Ok tt) /\ no_blank_line_file s.
Proof.
  intros q n g s n' g'. unfold parse_file. rewrite (lines_string q n g (universal s) s n' g' (universal_no_cr s)).
  - split; intros [A B]; (split; [exact A|]).
    + exists (universal s). split; [now apply newlines_universal|]. exists (split_lf (universal s)). split; [apply split_lines|exact B].
    + destruct B as (u & NW & ls & LO & NB). apply newlines_universal in NW. subst u. now rewrite <- (lines_unique _ _ LO).
  - intro l. split; [apply universal_doc_inv|apply universal_doc].
Qed.
(** the same for io.StringIO and texts without CR *)
Theorem C121_stringio : forall q n g s n' g', ~ In 13 s -> parse_stringio q n g s = (n', g', Ok tt) <-> parse_string q n g s = (n', g', Ok tt) /\ no_blank_line s.
Proof.
  intros q n g s n' g' N. unfold parse_stringio. rewrite (lines_string q n g s s n' g' N) by tauto.
  split; intros [A B]; (split; [exact A|]).
  - exists (split_lf s). split; [apply split_lines|exact B].
  - destruct B as (ls & LO & NB). now rewrite <- (lines_unique _ _ LO).
Qed.
(** with CR the two differ both ways: a text that only the stream parser reads, and one of
    which it reads less *)
Definition ex_blank_cr : str := s2l "<a> <b> <c> ." ++ [10; 32; 13] ++ s2l "<a> <b> <d> ." ++ [10].
Definition ex_two_cr : str := s2l "<a> <b> <c> ." ++ [13] ++ s2l "<a> <b> <d> ." ++ [10].
Theorem C121_stringio_cr_refuted :
  (exists s n' g', parse_stringio false 0 (graph_new None) s = (n', g', Ok tt) /\ snd (parse_string false 0 (graph_new None) s) = Err LarkError) /\
  (exists s n' g' g'', parse_stringio false 0 (graph_new None) s = (n', g', Ok tt) /\ parse_string false 0 (graph_new None) s = (n', g'', Ok tt) /\ length (g_iter g') = 1%nat /\ length (g_iter g'') = 2%nat).
Proof.
  split.
  - exists ex_blank_cr. do 2 eexists. split; vm_compute; reflexivity.
  - exists ex_two_cr. do 3 eexists. repeat split; vm_compute; reflexivity.
Qed.

(** a file with the line ends of Windows, of old Macs and of Unix, the last line without *)
Definition ex_file : str := s2l "<a> <b> <c> ." ++ [13; 10] ++ s2l "<a> <b> _:x ." ++ [13] ++ s2l "_:x <b> <c> ." ++ [10] ++ s2l "<d> <b> <c> .".
Example ex_C121_file : snd (parse_file false 0 (graph_new None) ex_file) = Ok tt /\ length (g_iter (snd (fst (parse_file false 0 (graph_new None) ex_file)))) = 4%nat /\
  length (split_lf (universal ex_file)) = 4%nat.
Proof. repeat split; vm_compute; reflexivity. Qed.
(** ... and with an empty line between *)
Example ex_C121_file_blank : snd (parse_file false 0 (graph_new None) (s2l "<a> <b> <c> ." ++ [13; 10; 13; 10] ++ s2l "<a> <b> <d> .")) = Err RuntimeError /\
  snd (parse_string false 0 (graph_new None) (s2l "<a> <b> <c> ." ++ [13; 10; 13; 10] ++ s2l "<a> <b> <d> .")) = Ok tt.
Proof. split; vm_compute; reflexivity. Qed.
(** hypotheses of C121_stream_adds: they hold for the lines of a parsed stream *)
Example ex_C121_stream : exists ds L tss, stream_docs false (split_lf (universal ex_file)) ds /\ docs_mean L ds tss /\ length ds = 4%nat.
Proof.
  destruct (parse_stream false 0 (graph_new None) (split_lf (universal ex_file))) as [[n' g'] r] eqn:E.
  assert (R : r = Ok tt) by (change r with (snd (n', g', r)); rewrite <- E; vm_compute; reflexivity). subst r.
  destruct (C121_stream_accepts _ _ _ _ _ _ E) as (ds & L & tss & SD & M & _). exists ds, L, tss. split; [exact SD|]. split; [exact M|].
  assert (LL : forall (A B : Type) (P : A -> B -> Prop) a b, Forall2 P a b -> length a = length b) by (induction 1; cbn; congruence).
  rewrite <- (LL _ _ _ _ _ SD). vm_compute. reflexivity.
Qed.
(** a fault after a good line *)
Example ex_C121_error : exists n' g', parse_stream false 0 (graph_new None) (split_lf (s2l "<a> <b> <c> ." ++ [10] ++ s2l "<a> <b> ." ++ [10])) = (n', g', Err LarkError) /\ length (g_iter g') = 1%nat.
Proof. do 2 eexists. split; vm_compute; reflexivity. Qed.

Print Assumptions C121_stream_adds.
Print Assumptions C121_stream_accepts.
Print Assumptions C121_stream_errors.
Print Assumptions C121_faults_raise.
Print Assumptions C121_lines.
Print Assumptions C121_newlines.
Print Assumptions C121_file.
Print Assumptions C121_stringio.
Print Assumptions C121_stringio_cr_refuted.
