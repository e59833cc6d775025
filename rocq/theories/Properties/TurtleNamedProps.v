(** Property C117: Turtle output with labels for blank nodes. *)
From Coq Require Import Permutation Sorted.
From Verif Require Import Model.Py Model.Terms Model.Graph Model.GraphRun Model.NTriples Model.Curie Model.TurtleTree Model.Turtle Model.TurtleParse Model.Resource Model.ResourceRun Model.TurtleOut Model.TurtleNamed
  Spec.GraphSpec Spec.CodecSpec Spec.CurieSpec Spec.TurtleSpec Spec.TurtleTextSpec Spec.ResourceSpec Spec.TurtleOutSpec Spec.TurtleNameSpec
  Proofs.GraphHist Proofs.ResourceMore Proofs.TurtleNamedOut
  Properties.TurtleProps Properties.TurtleOutProps Properties.TurtleTextProps Properties.TurtleTripProps.
Open Scope N_scope.

(** a generator without next: what C46-C48 say, since the name_map stays empty *)
Theorem C117_generators_without_next : forall ord fuel pm base g w w' r, serialize_turtle ord fuel pm base g w = (w', r) ->
  serialize_n no_next ord fuel pm base g w = (w', [], r).
Proof. intros ord fuel pm base g w w' r E. rewrite serialize_none, E. reflexivity. Qed.
(** otherwise blank nodes can be written: the text is the text of a document, each blank node in it has
    a label of its own, taken from the generator in turn, and the document means what is left of the graph, under whatever
    blank nodes a reader takes for the labels *)
Theorem C117_output_is_turtle : forall names ord fuel pm base g early w ns resolves B0 B, labels names -> reachable g -> shuffle ord -> wreach_if early w -> lookup pm (s2l "xsd") ns ->
  usual w (g_iter g) (g_subjects g) fuel -> printable_named (g_iter g) -> no_stale_subjects (g_iter g) (g_subjects g) ->
  header_legal pm base -> header_means resolves B0 base B pm -> readable_graph resolves pm base B (g_iter g) ->
  exists t nm d k name, serialize_n names ord fuel pm base g w = (w, nm, (t, Ok tt)) /\ doc_text true d t /\
    NoDup (map fst nm) /\ (forall i b n, nth_error nm i = Some (b, n) -> names i = Ok n) /\
    (forall b, blank_of (g_iter g) b -> In (b, name b) nm /\ In (name b) (doc_labels d)) /\
    (forall b b', blank_of (g_iter g) b -> blank_of (g_iter g) b' -> name b = name b' -> b = b') /\
    forall L bs, length bs = k -> NoDup bs -> exists ts, doc_means resolves L (env0 B0) d ts bs /\ graph_named (fun b => L (name b)) (g_iter g) ts bs.
Proof.
  intros names ord fuel pm base g early w ns resolves B0 B LB RG SH WR LX US PR NS HL HM RD.
  destruct (round_trip_n names ord fuel pm base g early w ns LB RG SH WR LX US PR NS resolves B0 B HL HM RD) as (t & nm & d & k & name & E & T & _ & LS & IJ & [ND W] & M).
  exists t, nm, d, k, name. do 6 (split; [assumption|]). intros L bs X N. destruct (M L bs X) as (ts & D & R). eauto.
Qed.
(** this library's own parser adds just these triples, with a new blank node for each *)
Theorem C117_own_output : forall names ord fuel pm base g early w ns uj n h B0 B, labels names -> reachable g -> shuffle ord -> wreach_if early w -> lookup pm (s2l "xsd") ns ->
  usual w (g_iter g) (g_subjects g) fuel -> printable_named (g_iter g) -> no_stale_subjects (g_iter g) (g_subjects g) ->
  uj_clean uj -> ~ In 60 B0 -> header_legal pm base -> header_means (resolves_by uj) B0 base B pm -> readable_graph (resolves_by uj) pm base B (g_iter g) ->
  lists_alone (g_iter g) ->
  exists t nm n' h' rho ts bs, serialize_n names ord fuel pm base g w = (w, nm, (t, Ok tt)) /\ turtle_parse uj n B0 h (SrcStr t) = Some (n', h', Ok tt) /\
    graph_named rho (g_iter g) ts bs /\ (forall a, In a bs -> n <= a < n') /\
    (forall b, blank_of (g_iter g) b -> n <= rho b < n' /\ ~ In (rho b) bs) /\
    (forall b b', blank_of (g_iter g) b -> blank_of (g_iter g) b' -> rho b = rho b' -> b = b') /\
    (forall x, In x (g_iter h') <-> In x (g_iter h) \/ In x ts).
Proof. intros names ord fuel pm base g early w ns uj n h B0 B LB RG SH WR LX US PR NS. exact (own_round_trip_n names ord fuel pm base g early w ns LB RG SH WR LX US PR NS uj n h B0 B). Qed.

(** ** Examples and counterexamples *)
(** _:b, _:bb, _:bbb, ... *)
Definition ex_names (k : nat) : res str := Ok ([95; 58] ++ repeat 98 (S k)).
Lemma ex_labels : labels ex_names.
Proof.
  split.
  - intro k. exists ([95; 58] ++ repeat 98 (S k)). split; [reflexivity|]. exists 98, (repeat 98 k). split; [reflexivity|].
    assert (P : pn_u 98) by (left; left; unfold TurtleTextSpec.letter, between; lia). split; [now left|]. split.
    + apply Forall_forall. intros x J. apply repeat_spec in J. subst x. left. now left.
    + intros [r E]. assert (X : In 46 (repeat 98 k)) by (rewrite E; apply in_app_iff; right; now left). apply repeat_spec in X. discriminate X.
  - intros j k s E F. rewrite <- F in E. injection E as E. apply (f_equal (@length _)) in E. rewrite !repeat_length in E. exact E.
Qed.
Definition ex_bn : list stmt :=
  [Tr (Iri (eg "t")) (Iri (eg "p")) (BNode 1); Tr (BNode 1) (Iri (eg "p")) (BNode 2); Tr (BNode 2) (Iri (eg "q")) (BNode 1); Tr (BNode 1) (Iri (eg "q")) (BNode 3);
   Tr (BNode 3) (rdf1 "first") (en "a"); Tr (BNode 3) (rdf1 "rest") (rdf1 "nil")].
Lemma ex_bn_iter : g_iter (graph_of ex_bn) = ex_bn /\ g_subjects (graph_of ex_bn) = [Iri (eg "t"); BNode 1; BNode 2; BNode 3].
Proof. split; vm_compute; reflexivity. Qed.
Lemma ex_bn_cells : forall o, list_cell ex_bn o -> o = BNode 3.
Proof. intros o [x J]. cbn in J. repeat (destruct J as [J|J]; [first [discriminate J|injection J as <- <-; auto]|]). destruct J. Qed.
Lemma ex_bn_list : list_of ex_bn (BNode 3) [en "a"].
Proof.
  apply path_cell with (s' := rdf1 "nil"); [|constructor]. split; [discriminate|]. split; [discriminate|]. split; [apply only_in; [do 4 right; now left|vm_compute; reflexivity]|].
  split; [apply only_in; [do 5 right; now left|vm_compute; reflexivity]|exact Logic.I].
Qed.
Example C117_example : labels ex_names /\ reachable (graph_of ex_bn) /\ usual world0 (g_iter (graph_of ex_bn)) (g_subjects (graph_of ex_bn)) 9 /\ printable_named (g_iter (graph_of ex_bn)) /\
  no_stale_subjects (g_iter (graph_of ex_bn)) (g_subjects (graph_of ex_bn)) /\ lists_alone (g_iter (graph_of ex_bn)) /\
  readable_graph (resolves_by ex_uj) default_pm None eg_base (g_iter (graph_of ex_bn)) /\ blank_of (g_iter (graph_of ex_bn)) 2 /\ ~ blank_of (g_iter (graph_of ex_bn)) 3 /\
  serialize_n ex_names same_order 9 default_pm None (graph_of ex_bn) world0 = (world0, [(1, s2l "_:b"); (2, s2l "_:bb")], (header default_pm None ++
    s2l "<http://e/t> <http://e/p> _:b ;" ++ [10] ++ s2l "             ." ++ [10; 10] ++
    s2l "_:b <http://e/p> _:bb ;" ++ [10] ++ s2l "    <http://e/q> (" ++ [34; 97; 34] ++ s2l "@en) ;" ++ [10] ++ s2l "    ." ++ [10; 10] ++
    s2l "_:bb <http://e/q> _:b ;" ++ [10] ++ s2l "     ." ++ [10; 10], Ok tt)) /\
  exists h, turtle_parse ex_uj 5 eg_base (graph_new None) (SrcStr (fst (snd (serialize_n ex_names same_order 9 default_pm None (graph_of ex_bn) world0)))) = Some (8, h, Ok tt) /\
    same_elements (g_iter h) [Tr (Iri (eg "t")) (Iri (eg "p")) (BNode 5); Tr (BNode 5) (Iri (eg "p")) (BNode 6); Tr (BNode 6) (Iri (eg "q")) (BNode 5); Tr (BNode 5) (Iri (eg "q")) (BNode 7);
      Tr (BNode 7) (rdf1 "first") (en "a"); Tr (BNode 7) (rdf1 "rest") (rdf1 "nil")].
Proof.
  destruct ex_bn_iter as [E1 E2]. rewrite E1, E2. assert (C3 : list_cell ex_bn (BNode 3)) by (exists (rdf1 "nil"); do 5 right; now left).
  assert (NC : forall o, o <> BNode 3 -> ~ list_cell ex_bn o) by (intros o N L; apply ex_bn_cells in L; contradiction).
  split; [exact ex_labels|]. split; [apply graph_of_reachable; repeat (constructor; [reflexivity|]); constructor|]. split.
  { apply usual_checked; [vm_compute; reflexivity..|]. intros t J L. apply ex_bn_cells in L. rewrite L. exists 1%nat. split; [|lia]. exists [en "a"], (rdf1 "nil"). split; [reflexivity|]. split; [exact ex_bn_list|now left]. }
  split.
  { intros t J N L. apply ex_bn_cells in L. rewrite L. exists [en "a"]. split; [exact ex_bn_list|]. constructor; [|constructor]. exists (s2l "a"), (Some (s2l "en")), None. split; [reflexivity|]. intros _ t0 [= <-]. apply tags_refl. }
  split.
  { intros s J. cbn in J. destruct J as [<-|[<-|[<-|[<-|[]]]]]; eexists _, _; [now left|right; now left|do 2 right; now left|do 4 right; now left]. }
  split.
  { intros s p o o' J J' C. apply ex_bn_cells in C. cbn in J, J'.
    repeat (destruct J as [J|J]; [injection J as <- <- <-; repeat (destruct J' as [J'|J']; [first [discriminate J'|now injection J' as <-]|]); destruct J'|]). destruct J. }
  split.
  { assert (R : forall n, In n ["s"; "t"; "p"; "q"]%string -> readable (resolves_by ex_uj) default_pm None eg_base (Iri (eg n))) by exact eg_names.
    assert (RB : forall b, readable (resolves_by ex_uj) default_pm None eg_base (BNode b)) by (intros b t _; exact Logic.I).
    assert (NL : forall o os x, ~ list_cell ex_bn o -> list_of ex_bn o os -> In x os -> False).
    { intros o os x N LO K. inversion LO as [|? ? s' ? ? C _]; subst; [destruct K|]. destruct C as (_ & _ & _ & C & _). apply N. exists s'. now apply C. }
    intros t J N. cbn [ex_bn] in J. destruct J as [<-|[<-|[<-|[<-|[<-|[<-|[]]]]]]]; try (now destruct N); cbn [st_s st_p st_o Tr]; (split; [first [apply RB|apply R; cbn; tauto]|]); (split; [apply R; cbn; tauto|]); (split; [intros _; apply RB|]);
      intros os x LO K; try (exfalso; eapply NL; [|exact LO|exact K]; apply NC; discriminate).
    assert (P := TurtleWrite.path_end (graph_of ex_bn)). rewrite (proj1 ex_bn_iter) in P.
    destruct (P _ _ _ LO _ _ ex_bn_list ltac:(auto) ltac:(auto)) as [-> _]. destruct K as [<-|[]]. apply eg_lits; [|discriminate].
    split; [constructor; [unfold plain_char; do 3 (split; [discriminate|]); discriminate|constructor]|]. intros c u E. injection E as <- <-. exists (s2l "en"), []. split; [reflexivity|]. split; [apply ex_letters; reflexivity|]. split; [discriminate|constructor]. }
  split; [exists (Tr (BNode 1) (Iri (eg "p")) (BNode 2)); split; [right; now left|]; split; [apply NC; discriminate|]; right; split; [reflexivity|apply NC; discriminate]|]. split.
  { intros (t & J & N & [E|[E X]]); [rewrite E in N; contradiction|contradiction]. }
  split; [vm_compute; reflexivity|]. eexists. split; [vm_compute; reflexivity|]. intro x. vm_compute. tauto.
Qed.
(** a generator that gives a label twice merges blank nodes: two triples are read back as one *)
Definition ex_same (k : nat) : res str := Ok (s2l "_:b").
Theorem C117_repeated_labels_merge_refuted : exists names g t nm h, (forall k, exists s, names k = Ok s /\ TurtleTextSpec.label s) /\ reachable g /\
  g_iter g = [Tr (Iri (eg "s")) (Iri (eg "p")) (BNode 1); Tr (Iri (eg "s")) (Iri (eg "p")) (BNode 2)] /\
  serialize_n names same_order 9 default_pm None g world0 = (world0, nm, (t, Ok tt)) /\
  turtle_parse ex_uj 5 eg_base (graph_new None) (SrcStr t) = Some (6, h, Ok tt) /\ g_iter h = [Tr (Iri (eg "s")) (Iri (eg "p")) (BNode 5)].
Proof.
  exists ex_same, (graph_of [Tr (Iri (eg "s")) (Iri (eg "p")) (BNode 1); Tr (Iri (eg "s")) (Iri (eg "p")) (BNode 2)]). eexists _, _, _. split.
  { intro k. exists (s2l "_:b"). split; [reflexivity|]. exists 98, []. split; [reflexivity|]. split; [left; left; left; unfold TurtleTextSpec.letter, between; lia|]. split; [constructor|]. intros [r E]. now destruct r. }
  split; [apply graph_of_reachable; repeat (constructor; [reflexivity|]); constructor|]. split; [vm_compute; reflexivity|]. split; [vm_compute; reflexivity|]. split; vm_compute; reflexivity.
Qed.
(** and if both are subjects, sorting compares the nodes themselves, which fails *)
Theorem C117_repeated_labels_fail_refuted : exists names g nm, (forall k, exists s, names k = Ok s /\ TurtleTextSpec.label s) /\ reachable g /\ g_iter g <> [] /\
  serialize_n names same_order 9 default_pm None g world0 = (world0, nm, (header default_pm None, Err TypeError)).
Proof.
  exists ex_same, (graph_of [Tr (BNode 1) (Iri (eg "p")) (Iri (eg "o")); Tr (BNode 2) (Iri (eg "p")) (Iri (eg "o"))]). eexists. split.
  { intro k. exists (s2l "_:b"). split; [reflexivity|]. exists 98, []. split; [reflexivity|]. split; [left; left; left; unfold TurtleTextSpec.letter, between; lia|]. split; [constructor|]. intros [r E]. now destruct r. }
  split; [apply graph_of_reachable; repeat (constructor; [reflexivity|]); constructor|]. split; [vm_compute; discriminate|]. vm_compute. reflexivity.
Qed.

Print Assumptions C117_generators_without_next.
Print Assumptions C117_output_is_turtle.
Print Assumptions C117_own_output.
Print Assumptions C117_repeated_labels_merge_refuted.
Print Assumptions C117_repeated_labels_fail_refuted.
