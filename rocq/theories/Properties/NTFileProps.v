(** Property C122: N-Triples files, written and read. *)
From Verif Require Import Model.Py Model.Terms Model.Graph Model.Codec Model.NTriples Model.NTStream
  Spec.CodecSpec Spec.GraphSpec Spec.NTSpec Spec.NTTextSpec Spec.NTStreamSpec Proofs.GraphInv Proofs.NTRun Proofs.NTMeans Proofs.NTFinal Proofs.NTStream Proofs.NTFile Properties.NTProps Properties.NTStreamProps.
Open Scope N_scope.

(** what serialize_ntriples writes to a file, with the line ends of any platform, is read
    from the file exactly when the text is parsed as a string, with the same result *)
Theorem C122_file_as_string : forall ts eol n g n' g', Forall tags_one_line ts -> linesep eol -> snd (serialize_ntriples ts) = Ok tt ->
  parse_file false n g (written eol (fst (serialize_ntriples ts))) = (n', g', Ok tt) <-> parse_string false n g (fst (serialize_ntriples ts)) = (n', g', Ok tt).
Proof.
  intros ts eol n g n' g' F L S. destruct (out_lines ts F S) as [NB NC]. set (s := fst (serialize_ntriples ts)) in *.
  assert (E : parse_file false n g (written eol s) = parse_stringio false n g s) by (unfold parse_file, parse_stringio; now rewrite universal_written).
  rewrite E, (C121_stringio false n g s n' g' NC). tauto.
Qed.
(** so files round-trip as strings do (C25) *)
Theorem C122_round_trip : forall ts eol n g, Forall nt_triple ts -> linesep eol ->
  exists text n' f, serialize_ntriples ts = (text, Ok tt) /\ injective_on f (concat (map bnodes_of ts)) /\ fresh_for n n' f (concat (map bnodes_of ts)) /\
    parse_file false n g (written eol text) = (n', g_addAll g (map (back f) ts), Ok tt).
Proof.
  intros ts eol n g F L. destruct (C25_round_trip_general ts n g F) as (text & n' & f & S & I & FR & P). exists text, n', f. do 3 (split; [assumption|]).
  assert (FT : Forall tags_one_line ts) by (eapply Forall_impl; [|exact F]; exact nt_tags).
  pose proof (C122_file_as_string ts eol n g n' (g_addAll g (map (back f) ts)) FT L) as K. rewrite S in K. now apply K.
Qed.
(** a file to which a second graph is appended, perhaps with other line ends, is read as
    both; a blank node of both graphs comes back as one *)
Theorem C122_append : forall ts ts' eol eol' n g, Forall nt_triple ts -> Forall nt_triple ts' -> linesep eol -> linesep eol' ->
  exists t t' n' f, serialize_ntriples ts = (t, Ok tt) /\ serialize_ntriples ts' = (t', Ok tt) /\
    injective_on f (concat (map bnodes_of (ts ++ ts'))) /\ fresh_for n n' f (concat (map bnodes_of (ts ++ ts'))) /\
    parse_file false n g (written eol t ++ written eol' t') = (n', g_addAll g (map (back f) (ts ++ ts')), Ok tt).
Proof.
  intros ts ts' eol eol' n g F F' L L'. destruct (C25_round_trip_general ts n g F) as (t & _ & _ & S & _). destruct (C25_round_trip_general ts' n g F') as (t' & _ & _ & S' & _).
  destruct (C25_round_trip_general (ts ++ ts') n g) as (u & n' & f & SU & I & FR & P); [apply Forall_app; now split|].
  rewrite (serialize_app ts ts' t t' S S') in SU. injection SU as <-. exists t, t', n', f. do 4 (split; [assumption|]).
  assert (A : Forall tags_one_line (ts ++ ts')) by (apply Forall_app; split; (eapply Forall_impl; [exact nt_tags|assumption])).
  pose proof (serialize_app ts ts' t t' S S') as SA. pose proof (out_lines (ts ++ ts') A) as O. rewrite SA in O. destruct (O eq_refl) as [NB NC]. cbn [fst] in NB, NC.
  assert (U : universal (written eol t ++ written eol' t') = t ++ t').
  { apply universal_written_app; auto.
    - intro J. apply NC. rewrite in_app_iff. now left.
    - intro J. apply NC. rewrite in_app_iff. now right.
    - destruct ts' as [|x ts']; [injection S' as <-; exact Logic.I|]. apply (out_nolf (x :: ts') t' S'). eapply Forall_impl; [exact nt_tags|exact F']. }
  assert (E : parse_file false n g (written eol t ++ written eol' t') = parse_stringio false n g (t ++ t')) by (unfold parse_file, parse_stringio; now rewrite U).
  rewrite E. apply (C121_stringio false n g (t ++ t') n' _ NC). now split.
Qed.

(** a file of Windows with a literal that has both line ends in it, and a blank node *)
Definition ex_ts : list stmt := [Tr (BNode 7) (Iri (s2l "http://p")) (Lit [97; 13; 10; 98] None None); Tr (Iri (s2l "http://s")) (Iri (s2l "http://p")) (BNode 7)].
Lemma ex_ts_ok : Forall nt_triple ex_ts.
Proof.
  assert (C : forall s, forallb (fun c => c <? 128) s = true -> clean_iri s).
  { intros s H. rewrite forallb_forall in H. split; apply Forall_forall; intros c J; apply H in J; apply N.ltb_lt in J; unfold surrogate; cbn; lia. }
  constructor; [|constructor; [|constructor]]; (split; [|split; [|split; [|reflexivity]]]); cbn [st_s st_p st_o Tr nt_subject nt_predicate nt_object]; try exact Logic.I; try (apply C; reflexivity).
  split; [|split; discriminate]. apply Forall_forall. intros c J. repeat (destruct J as [<-|J]; [cbn; lia|]). destruct J.
Qed.
Example ex_C122 : snd (parse_file false 100 (graph_new None) (written [13; 10] (fst (serialize_ntriples ex_ts)))) = Ok tt /\
  g_iter (snd (fst (parse_file false 100 (graph_new None) (written [13; 10] (fst (serialize_ntriples ex_ts)))))) =
    [Tr (BNode 100) (Iri (s2l "http://p")) (Lit [97; 13; 10; 98] None None); Tr (Iri (s2l "http://s")) (Iri (s2l "http://p")) (BNode 100)] /\
  written [13; 10] (fst (serialize_ntriples ex_ts)) <> fst (serialize_ntriples ex_ts).
Proof. split; [vm_compute; reflexivity|]. split; [vm_compute; reflexivity|]. vm_compute. discriminate. Qed.
Example ex_C122_append : length (g_iter (snd (fst (parse_file false 100 (graph_new None) (written [13] (fst (serialize_ntriples ex_ts)) ++ written [13; 10] (fst (serialize_ntriples [Tr (Iri (s2l "http://q")) (Iri (s2l "http://p")) (BNode 7)]))))))) = 3%nat.
Proof. vm_compute. reflexivity. Qed.

Print Assumptions C122_file_as_string.
Print Assumptions C122_round_trip.
Print Assumptions C122_append.
