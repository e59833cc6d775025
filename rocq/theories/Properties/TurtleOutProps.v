(** Properties C45-C48: Turtle output. *)
From Coq Require Import Permutation Sorted.
From Verif Require Import Model.Py Model.Terms Model.Graph Model.GraphRun Model.Curie Model.TurtleTree Model.Resource Model.ResourceRun Model.TurtleOut
  Spec.GraphSpec Spec.CodecSpec Spec.CurieSpec Spec.TurtleSpec Spec.TurtleTextSpec Spec.ResourceSpec Spec.TurtleOutSpec
  Proofs.CurieLemmas Proofs.CurieMore Proofs.TurtleEsc Proofs.TurtleRepr Proofs.ResourceMore Proofs.TurtleWrite Proofs.TurtleLayout.
Open Scope N_scope.

(** C45 *)
Theorem C45_round_trip : forall s, reads_string (turtle_string_escape s) s <-> Forall plain_char s.
Proof. exact escape_round_trip. Qed.
(** no character is escaped: the text has the length of the string and its quotes,
    and the only change is that the letter of an escape sequence already in the
    string is replaced by the control character the sequence stands for *)
Theorem C45_nothing_is_escaped : forall s, turtle_string_escape s = [34] ++ raw_after_backslash false s ++ [34] /\
  length (turtle_string_escape s) = (2 + length s)%nat.
Proof.
  intro s. rewrite escape_exact. split; auto. rewrite !app_length, raw_length. cbn. lia.
Qed.
Theorem C45_wrong_string_read_back_refuted : exists s s', s <> s' /\ reads_string (turtle_string_escape s) s'.
Proof.
  exists [92; 34], [34]. split; [discriminate|]. exists [92; 34]. split.
  - apply (st_short 34 [92; 34]); auto. apply (us_cons _ _ [92; 34] []); [|constructor]. apply (un_echar _ _ 34 34); auto. repeat constructor.
  - apply (den_echar 34 34); repeat constructor.
Qed.
Example C45_example :
  Forall plain_char (s2l "it's 5	o'clock") /\ turtle_string_escape (s2l "it's") = [34] ++ s2l "it's" ++ [34] /\
  turtle_string_escape [97; 34; 98] = [34; 97; 34; 98; 34] /\ ~ Forall plain_char [97; 34; 98] /\
  turtle_string_escape [92; 110; 110] = [34; 92; 10; 110; 34] /\ turtle_string_escape [10] = [34; 10; 34].
Proof.
  split; [|repeat split; try (vm_compute; reflexivity)].
  - rewrite Forall_forall. unfold plain_char. intros c J. cbn in J. intuition (subst; discriminate).
  - intro F. inversion F as [|? ? _ F1]. inversion F1 as [|? ? P _]. now destruct P.
Qed.

(** C47 *)
(** what is between the quotes is described by C45_nothing_is_escaped *)
Theorem C47_literals : forall pm base ns v l, lookup pm (s2l "xsd") ns ->
  turtle_repr pm base (Lit v l None) = Ok (turtle_string_escape v ++ match l with Some (c :: t) => 64 :: c :: t | _ => [] end) /\
  turtle_repr pm base (Lit v l (Some (ns ++ s2l "string"))) = Ok (turtle_string_escape v) /\
  (forall d, In d (map s2l ["integer"; "decimal"; "double"; "boolean"]%string) -> turtle_repr pm base (Lit v l (Some (ns ++ d))) = Ok v) /\
  (forall d, ~ In d (map (fun n => ns ++ s2l n) ["string"; "integer"; "decimal"; "double"; "boolean"]%string) ->
     exists t, turtle_repr pm None (Iri d) = Ok t /\ turtle_repr pm base (Lit v l (Some d)) = Ok (turtle_string_escape v ++ [94] ++ t)).
Proof.
  intros pm base ns v l L. destruct (repr_lit pm base ns v l L) as (A & B & C & D). repeat split; auto.
  intros d N. exists (repr_iri pm None d). split; [reflexivity|]. apply D.
  - intros ->. apply N. now left.
  - intros n J ->. apply N. right. change (In (ns ++ n) (map (fun n => ns ++ n) xsd_names)). apply in_map_iff. eauto.
Qed.
Theorem C47_other_types_cannot_be_read : forall pm base ns v l d, lookup pm (s2l "xsd") ns ->
  (forall p n, In (p, n) pm -> pn_prefix p) -> Forall (fun c => ~ iri_illegal c) d ->
  ~ In d (map (fun n => ns ++ s2l n) ["string"; "integer"; "decimal"; "double"; "boolean"]%string) ->
  exists t, turtle_repr pm base (Lit v l (Some d)) = Ok t /\ ~ reads_literal t.
Proof.
  intros pm base ns v l d L P F N. exists (repr_typed pm v d). split; [|now apply typed_unreadable].
  destruct (C47_literals pm base ns v l L) as (_ & _ & _ & D). destruct (D d N) as (t & [= <-] & E). exact E.
Qed.
(** a profile without xsd (its binding can be deleted) cannot write any literal *)
Theorem C47_no_xsd_prefix : forall pm base v l d, unbound pm (s2l "xsd") -> turtle_repr pm base (Lit v l d) = Err ValueError.
Proof. exact repr_lit_no_xsd. Qed.
Theorem C47_numbers_are_readable_refuted : exists v, turtle_repr default_pm None (Lit v None (Some (xsd "integer"))) = Ok v /\ ~ reads_literal v.
Proof.
  exists (s2l "abc"). split; [vm_compute; reflexivity|]. intros (x & T).
  assert (NS : forall b s r, string_text b s -> s ++ r <> s2l "abc").
  { intros b s r S E. inversion S as [q b' Q U X1 X2|q b' Q U X1 X2]; subst; cbn in E; injection E as -> _; destruct Q; discriminate. }
  inversion T as [b s S E|b s w tag S W L E|b s w w' i t S W W' I E|k s K E|s B E]; subst.
  - apply (NS _ _ [] S). now rewrite app_nil_r.
  - apply (NS _ _ _ S H).
  - apply (NS _ _ _ S H).
  - assert (D97 : forall sg r, sign sg -> s2l "abc" = sg ++ r -> r = s2l "abc").
    { intros sg r [->|[->| ->]] E; [now symmetry|discriminate E..]. }
    assert (ND : forall d c r, digits d -> s2l "abc" = d ++ c :: r -> c = 97).
    { intros [|c' d] c r Dg E; [now injection E as <- _|]. injection E as <- _. inversion Dg as [|? ? X _]. unfold digit10, between in X. lia. }
    destruct k; cbn in K.
    + destruct K as (sg & d & E & S & Dg & N). apply D97 in E; auto. subst d. inversion Dg as [|? ? X _]. unfold digit10, between in X. lia.
    + destruct K as (sg & d & f & E & S & Dg & _). apply D97 in E; auto. symmetry in E. apply ND in E; auto. discriminate.
    + destruct K as (sg & m & y & E & S & (c & sg' & d & -> & C & _ & _ & _) & M). apply D97 in E; auto. symmetry in E.
      destruct M as [(d' & f & -> & Dg & _)|[Dg N]].
      * rewrite <- app_assoc in E. apply ND in E; auto. discriminate.
      * apply ND in E; auto. destruct C; subst; discriminate.
  - destruct B as [B|B]; discriminate B.
Qed.
Example C47_example : lookup default_pm (s2l "xsd") xsd_ns /\ (forall p n, In (p, n) default_pm -> pn_prefix p) /\
  turtle_repr default_pm None (Lit (s2l "x") (Some (s2l "en")) None) = Ok ([34; 120; 34] ++ s2l "@en") /\
  turtle_repr default_pm None (Lit (s2l "x") (Some (s2l "en")) (Some (xsd "string"))) = Ok [34; 120; 34] /\
  turtle_repr default_pm None (Lit (s2l "007") None (Some (xsd "integer"))) = Ok (s2l "007") /\
  turtle_repr default_pm None (Lit (s2l "x") None (Some (xsd "date"))) = Ok ([34; 120; 34] ++ s2l "^xsd:date") /\
  turtle_repr default_pm None (Lit (s2l "x") None (Some (s2l "http://t"))) = Ok ([34; 120; 34] ++ s2l "^<http://t>") /\
  ~ reads_literal ([34; 120; 34] ++ s2l "^xsd:date").
Proof.
  assert (L : lookup default_pm (s2l "xsd") xsd_ns) by (apply lookup_sget; vm_compute; reflexivity).
  assert (P : forall p n, In (p, n) default_pm -> pn_prefix p).
  { intros p n J. apply letters_prefix. cbn in J. destruct J as [[= <- _]|[[= <- _]|[]]]; repeat (constructor; [right; unfold between; lia|]); constructor. }
  repeat (split; [first [exact L|exact P|vm_compute; reflexivity]|]).
  destruct (C47_other_types_cannot_be_read default_pm None xsd_ns (s2l "x") None (xsd "date") L P) as (t & E & N).
  - apply legal_iri_forall; [vm_compute; reflexivity|discriminate].
  - intro J. cbn in J. intuition discriminate.
  - vm_compute in E. injection E as <-. exact N.
Qed.

(** ** The graph of the examples *)
Definition eg (s : string) : str := s2l "http://e/" ++ s2l s.
Definition rdf1 (n : string) : term := Iri (rdf_name n).
Definition en (v : string) : term := Lit (s2l v) (Some (s2l "en")) None.
Definition eg_ts : list stmt :=
  [Tr (Iri (eg "t")) (Iri (eg "p")) (Iri (eg "s")); Tr (Iri (eg "s")) (Iri (eg "q")) (Lit (s2l "x") None None); Tr (Iri (eg "s")) (Iri (eg "p")) (BNode 1);
   Tr (BNode 1) (rdf1 "first") (en "a"); Tr (BNode 1) (rdf1 "rest") (BNode 2);
   Tr (BNode 2) (rdf1 "first") (Lit (s2l "7") None (Some (xsd "integer"))); Tr (BNode 2) (rdf1 "rest") (rdf1 "nil")].
Definition graph_of (ts : list stmt) : graph := fold_left (fun g t => g_step g (OpAdd t)) ts (graph_new None).
Lemma graph_of_reachable : forall ts, Forall is_triple ts -> reachable (graph_of ts).
Proof.
  intros ts F. unfold graph_of. assert (R : reachable (graph_new None)) by apply reach_new. revert R. generalize (graph_new None). induction F as [|t ts T F IH]; intros g R; [exact R|].
  cbn [fold_left]. apply IH. apply reach_step; [exact R|]. exact T.
Qed.
Lemma eg_iter : g_iter (graph_of eg_ts) = eg_ts /\ g_subjects (graph_of eg_ts) = [Iri (eg "t"); Iri (eg "s"); BNode 1; BNode 2].
Proof. split; vm_compute; reflexivity. Qed.
Definition teqb (a b : term) : bool := if term_eq_dec a b then true else false.
Definition plain_node (t : term) : bool := match t with Lit _ _ _ => false | _ => negb (teqb t empty_iri) end.
Definition triple_checked (t : stmt) : bool :=
  plain_node (st_s t) && match st_p t with Iri _ => negb (teqb (st_p t) empty_iri) && negb (teqb (st_p t) (rdf1 "type")) | _ => false end && negb (teqb (st_o t) empty_iri).
Lemma teqb_neq : forall a b, negb (teqb a b) = true -> a <> b.
Proof. intros a b H. unfold teqb in H. now destruct (term_eq_dec a b). Qed.
Lemma hon : forall t, negb (teqb t empty_iri) = true -> honoured (Some t).
Proof. intros t H E. apply teqb_neq in H. injection E as E. exact (H E). Qed.
Lemma usual_checked : forall w G ss fuel, forallb plain_node ss = true -> forallb triple_checked G = true ->
  (forall t, In t G -> list_cell G (st_o t) -> exists n, plain_list G (st_o t) n /\ (n < fuel)%nat) -> usual w G ss fuel.
Proof.
  intros w G ss fuel A B C. rewrite forallb_forall in A, B.
  assert (PN : forall t, plain_node t = true -> node t /\ honoured (Some t)).
  { intros t H. destruct t as [i|b|v l d]; cbn [plain_node] in H; [|split; [exact Logic.I|discriminate]|discriminate]. split; [exact Logic.I|]. now apply hon. }
  split; [intros s J; auto|]. split; [|split; [|exact C]].
  - intros t J. specialize (B t J). unfold triple_checked in B. apply andb_prop in B. destruct B as [B1 BO]. apply andb_prop in B1. destruct B1 as [BS BP].
    apply PN in BS. apply hon in BO. destruct (st_p t) as [i|b|v l d] eqn:P; try discriminate. apply andb_prop in BP. destruct BP as [BP _]. apply hon in BP.
    split; [split; [apply BS|rewrite P; eauto]|]. split; [apply BS|]. rewrite P. auto.
  - intros x y J N. split.
    + assert (J' : exists p, In (Tr x p y) G) by (destruct J as [J|J]; eauto). destruct J' as [p J']. specialize (B _ J'). unfold triple_checked in B. apply andb_prop in B. destruct B as [_ BO].
      cbn [st_o Tr] in BO. now apply hon.
    + intros t t' k k' T. specialize (B _ T). unfold triple_checked in B. apply andb_prop in B. destruct B as [B1 _]. apply andb_prop in B1. destruct B1 as [_ BP]. cbn [st_p Tr] in BP.
      apply andb_prop in BP. destruct BP as [_ BP]. apply teqb_neq in BP. now destruct BP.
Qed.
Lemma only_in : forall G s p o, In (Tr s (Iri p) o) G -> forallb (fun t => negb (teqb (st_s t) s && teqb (st_p t) (Iri p)) || teqb (st_o t) o) G = true -> only G s p o.
Proof.
  intros G s p o J F x. split; [|intros ->; exact J]. intro X. rewrite forallb_forall in F. specialize (F _ X). cbn [st_s st_p st_o Tr] in F. unfold teqb in F.
  destruct (term_eq_dec s s); [|contradiction]. destruct (term_eq_dec (Iri p) (Iri p)); [|contradiction]. destruct (term_eq_dec x o); [assumption|discriminate].
Qed.
Lemma eg_list : list_of eg_ts (BNode 1) [en "a"; Lit (s2l "7") None (Some (xsd "integer"))].
Proof.
  apply path_cell with (s' := BNode 2).
  - split; [discriminate|]. split; [discriminate|]. split; [apply only_in; [right; right; right; now left|vm_compute; reflexivity]|].
    split; [apply only_in; [do 4 right; now left|vm_compute; reflexivity]|exact Logic.I].
  - apply path_cell with (s' := rdf1 "nil"); [|constructor]. split; [discriminate|]. split; [discriminate|]. split; [apply only_in; [do 5 right; now left|vm_compute; reflexivity]|].
    split; [apply only_in; [do 6 right; now left|vm_compute; reflexivity]|exact Logic.I].
Qed.
Lemma eg_cells : forall o, list_cell eg_ts o -> o = BNode 1 \/ o = BNode 2.
Proof. intros o [x J]. cbn in J. repeat (destruct J as [J|J]; [first [discriminate J|injection J as <- <-; auto]|]). destruct J. Qed.
Lemma eg_usual : forall w f, (2 < f)%nat -> usual w eg_ts [Iri (eg "t"); Iri (eg "s"); BNode 1; BNode 2] f.
Proof.
  intros w f F. apply usual_checked; [vm_compute; reflexivity..|]. intros t J L. apply eg_cells in L. destruct L as [L|L]; rewrite L.
  - exists 2%nat. split; [|lia]. exists [en "a"; Lit (s2l "7") None (Some (xsd "integer"))], (rdf1 "nil"). split; [reflexivity|]. split; [exact eg_list|now left].
  - exists 1%nat. split; [|lia]. pose proof eg_list as P. inversion P as [|? ? s' ? ? C P']; subst.
    assert (s' = BNode 2) by (destruct C as (_ & _ & _ & R & _); symmetry; apply R; do 4 right; now left). subst s'.
    exists [Lit (s2l "7") None (Some (xsd "integer"))], (rdf1 "nil"). split; [reflexivity|]. split; [exact P'|now left].
Qed.
Lemma eg_printable : printable eg_ts [Iri (eg "t"); Iri (eg "s"); BNode 1; BNode 2].
Proof.
  assert (C1 : list_cell eg_ts (BNode 1)) by (exists (BNode 2); do 4 right; now left). assert (C2 : list_cell eg_ts (BNode 2)) by (exists (rdf1 "nil"); do 6 right; now left).
  split.
  - intros s J N b ->. destruct J as [J|[J|[J|[J|[]]]]]; try discriminate J; injection J as <-; contradiction.
  - intros t J N. assert (PO : forall o, o <> BNode 1 -> o <> BNode 2 -> (forall b, o <> BNode b) -> printable_object eg_ts o) by (intros o A B X; left; split; [intro L; apply eg_cells in L; tauto|exact X]).
    cbn [eg_ts] in J. destruct J as [<-|[<-|[<-|[<-|[<-|[<-|[<-|[]]]]]]]]; try (now destruct N); try (apply PO; discriminate).
    right. split; [exact C1|]. eexists. split; [exact eg_list|]. constructor; [|constructor; [|constructor]].
    + exists (s2l "a"), (Some (s2l "en")), None. split; [reflexivity|]. intros _ t [= <-]. apply tags_refl.
    + eexists _, _, _. split; [reflexivity|discriminate].
Qed.
Lemma eg_xsd : lookup default_pm (s2l "xsd") xsd_ns.
Proof. apply lookup_sget. vm_compute. reflexivity. Qed.
Definition same_order (l : list term) : list term := l.
Lemma same_order_shuffle : shuffle same_order.
Proof. intro l. apply Permutation_refl. Qed.

(** C46 *)
(** a subject that is a blank node outside any list: nothing but the header is written *)
Theorem C46_blank_subject : forall ord fuel pm base g early w ns b p o, reachable g -> wreach_if early w -> lookup pm (s2l "xsd") ns ->
  In (Tr (BNode b) p o) (g_iter g) -> ~ list_cell (g_iter g) (BNode b) ->
  serialize_turtle ord fuel pm base g w = (w, (header pm base, Err AttributeError)).
Proof. intros ord fuel pm base g early w ns b p o RG. exact (blank_subject ord fuel pm base g RG early w ns b p o). Qed.
(** an object that is one: no graph is written ... *)
Theorem C46_blank_object : forall ord fuel pm base g early w s p b w' t r, reachable g -> shuffle ord -> wreach_if early w -> In (Tr s p (BNode b)) (g_iter g) ->
  honoured (Some s) -> ~ list_cell (g_iter g) s -> ~ list_cell (g_iter g) (BNode b) ->
  serialize_turtle ord fuel pm base g w = (w', (t, r)) -> exists e, r = Err e.
Proof. intros ord fuel pm base g early w s p b w' t r RG SH. exact (blank_object ord fuel pm base g RG SH early w s p b w' t r). Qed.
(** ... and for the usual graphs the error is AttributeError; the outcome for all of
    them: *)
Theorem C46_outcome : forall ord fuel pm base g early w ns, reachable g -> shuffle ord -> wreach_if early w -> lookup pm (s2l "xsd") ns ->
  usual w (g_iter g) (g_subjects g) fuel ->
  fst (serialize_turtle ord fuel pm base g w) = w /\
  (snd (snd (serialize_turtle ord fuel pm base g w)) = Ok tt /\ printable (g_iter g) (g_subjects g) \/
   snd (snd (serialize_turtle ord fuel pm base g w)) = Err AttributeError /\ ~ printable (g_iter g) (g_subjects g)).
Proof. intros ord fuel pm base g early w ns RG SH. exact (serialize_outcome ord fuel pm base g RG SH early w ns). Qed.
Theorem C46_blank_object_attribute_error : forall ord fuel pm base g early w ns s p b, reachable g -> shuffle ord -> wreach_if early w -> lookup pm (s2l "xsd") ns ->
  usual w (g_iter g) (g_subjects g) fuel -> In (Tr s p (BNode b)) (g_iter g) -> ~ list_cell (g_iter g) s -> ~ list_cell (g_iter g) (BNode b) ->
  snd (snd (serialize_turtle ord fuel pm base g w)) = Err AttributeError.
Proof.
  intros ord fuel pm base g early w ns s p b RG SH WR LX US J NS NB. destruct (C46_outcome ord fuel pm base g early w ns RG SH WR LX US) as [_ [[_ [_ P]]|[E _]]]; [|exact E].
  destruct (P _ J NS) as [[_ X]|[X _]]; [now destruct (X b)|contradiction].
Qed.
Definition eg_blank : list stmt := Tr (BNode 5) (Iri (eg "p")) (Lit (s2l "x") None None) :: eg_ts.
Definition eg_blank_object : list stmt := [Tr (Iri (eg "a")) (Iri (eg "q")) (BNode 5); Tr (Iri (eg "a")) (Iri (eg "p")) (Iri (eg "b"))].
Example C46_example :
  reachable (graph_of eg_blank) /\ In (Tr (BNode 5) (Iri (eg "p")) (Lit (s2l "x") None None)) (g_iter (graph_of eg_blank)) /\ ~ list_cell (g_iter (graph_of eg_blank)) (BNode 5) /\
  serialize_turtle same_order 9 default_pm None (graph_of eg_blank) world0 = (world0, (header default_pm None, Err AttributeError)) /\
  reachable (graph_of eg_blank_object) /\ usual world0 (g_iter (graph_of eg_blank_object)) (g_subjects (graph_of eg_blank_object)) 9 /\
  (forall x, ~ list_cell (g_iter (graph_of eg_blank_object)) x) /\ In (Tr (Iri (eg "a")) (Iri (eg "q")) (BNode 5)) (g_iter (graph_of eg_blank_object)) /\
  snd (serialize_turtle same_order 9 default_pm None (graph_of eg_blank_object) world0) =
    (header default_pm None ++ s2l "<http://e/a> <http://e/p> <http://e/b> ;" ++ [10] ++ s2l "             <http://e/q> ", Err AttributeError).
Proof.
  assert (E1 : g_iter (graph_of eg_blank) = eg_blank) by (vm_compute; reflexivity). assert (E2 : g_iter (graph_of eg_blank_object) = eg_blank_object) by (vm_compute; reflexivity).
  assert (NC : forall x, ~ list_cell eg_blank_object x) by (intros x [y J]; cbn in J; repeat (destruct J as [J|J]; [discriminate J|]); exact J).
  rewrite E1, E2. split; [apply graph_of_reachable; repeat (constructor; [reflexivity|]); constructor|]. split; [now left|]. split.
  { intros [x [J|J]]; [discriminate J|]. destruct (eg_cells (BNode 5) ltac:(now exists x)); discriminate. }
  split; [vm_compute; reflexivity|]. split; [apply graph_of_reachable; repeat (constructor; [reflexivity|]); constructor|].
  split; [apply usual_checked; [vm_compute; reflexivity..|]; intros t _ L; now destruct (NC (st_o t))|]. split; [exact NC|]. split; [now left|]. vm_compute. reflexivity.
Qed.

(** C48 *)
(** the output, when there is no error: the header and one block for each subject
    that is no list cell, with its triples; lists appear where they are objects,
    their elements in order *)
Theorem C48_layout : forall ord fuel pm base g early w ns, reachable g -> shuffle ord -> wreach_if early w -> lookup pm (s2l "xsd") ns ->
  usual w (g_iter g) (g_subjects g) fuel -> printable (g_iter g) (g_subjects g) ->
  exists bl, laid_out pm base (g_iter g) (g_subjects g) bl /\
    serialize_turtle ord fuel pm base g w = (w, (header pm base ++ concat (map block_text bl), Ok tt)).
Proof. intros ord fuel pm base g early w ns RG SH. exact (serialize_layout ord fuel pm base g RG SH early w ns). Qed.
(** a list with an element that is no literal, or one in another language than English *)
Theorem C48_other_elements_raise : forall ord fuel pm base g early w ns s p o os x, reachable g -> shuffle ord -> wreach_if early w -> lookup pm (s2l "xsd") ns ->
  usual w (g_iter g) (g_subjects g) fuel -> In (Tr s p o) (g_iter g) -> ~ list_cell (g_iter g) s -> list_cell (g_iter g) o ->
  list_of (g_iter g) o os -> In x os -> ~ en_literal x ->
  snd (snd (serialize_turtle ord fuel pm base g w)) = Err AttributeError.
Proof.
  intros ord fuel pm base g early w ns s p o os x RG SH WR LX US J NS LO P X NE. destruct (C46_outcome ord fuel pm base g early w ns RG SH WR LX US) as [_ [[_ [_ PR]]|[E _]]]; [|exact E].
  destruct (PR _ J NS) as [[Y _]|(_ & os' & P' & F)]; [contradiction|]. destruct (path_end g _ _ _ P _ _ P' ltac:(auto) ltac:(auto)) as [<- _]. rewrite Forall_forall in F. now destruct NE; apply F.
Qed.
Definition eg_de : list stmt :=
  [Tr (Iri (eg "s")) (Iri (eg "p")) (BNode 1); Tr (BNode 1) (rdf1 "first") (Lit (s2l "a") (Some (s2l "de")) None); Tr (BNode 1) (rdf1 "rest") (rdf1 "nil")].
(** lists of literals are not always written *)
Theorem C48_lists_of_literals_are_written_refuted : exists g o os, reachable g /\ usual world0 (g_iter g) (g_subjects g) 9 /\
  (forall s p x, In (Tr s p x) (g_iter g) -> ~ list_cell (g_iter g) s -> x = o) /\ list_of (g_iter g) o os /\ Forall (fun x => ~ node x) os /\
  snd (serialize_turtle same_order 9 default_pm None g world0) = (header default_pm None ++ s2l "<http://e/s> <http://e/p> (", Err AttributeError).
Proof.
  assert (E : g_iter (graph_of eg_de) = eg_de) by (vm_compute; reflexivity).
  assert (P : list_of eg_de (BNode 1) [Lit (s2l "a") (Some (s2l "de")) None]).
  { apply path_cell with (s' := rdf1 "nil"); [|constructor]. split; [discriminate|]. split; [discriminate|]. split; [apply only_in; [right; now left|vm_compute; reflexivity]|].
    split; [apply only_in; [right; right; now left|vm_compute; reflexivity]|exact Logic.I]. }
  assert (C : forall x, list_cell eg_de x -> x = BNode 1) by (intros x [y J]; cbn in J; repeat (destruct J as [J|J]; [first [discriminate J|now injection J as <- <-]|]); destruct J).
  exists (graph_of eg_de), (BNode 1), [Lit (s2l "a") (Some (s2l "de")) None]. rewrite E. split; [apply graph_of_reachable; repeat (constructor; [reflexivity|]); constructor|]. split.
  { apply usual_checked; [vm_compute; reflexivity..|]. intros t J L. apply C in L. rewrite L. exists 1%nat. split; [|lia]. eexists _, _. split; [|split; [exact P|now left]]. reflexivity. }
  split; [|split; [exact P|split; [|vm_compute; reflexivity]]].
  - intros s p x J N. assert (C1 : list_cell eg_de (BNode 1)) by (exists (rdf1 "nil"); right; right; now left). cbn in J. destruct J as [J|[J|[J|[]]]]; injection J as <- <- <-; [reflexivity|now destruct N..].
  - constructor; [|constructor]. intros [].
Qed.
Example C48_example : reachable (graph_of eg_ts) /\ usual world0 (g_iter (graph_of eg_ts)) (g_subjects (graph_of eg_ts)) 9 /\ printable (g_iter (graph_of eg_ts)) (g_subjects (graph_of eg_ts)) /\
  serialize_turtle same_order 9 default_pm None (graph_of eg_ts) world0 = (world0, (header default_pm None ++
    s2l "<http://e/s> <http://e/p> (" ++ [34; 97; 34] ++ s2l "@en 7) ;" ++ [10] ++
    s2l "             <http://e/q> " ++ [34; 120; 34] ++ s2l " ;" ++ [10] ++
    s2l "             ." ++ [10; 10] ++
    s2l "<http://e/t> <http://e/p> <http://e/s> ;" ++ [10] ++
    s2l "             ." ++ [10; 10], Ok tt)).
Proof.
  destruct eg_iter as [-> ->]. split; [apply graph_of_reachable; repeat (constructor; [reflexivity|]); constructor|]. split; [apply eg_usual; lia|]. split; [exact eg_printable|].
  vm_compute. reflexivity.
Qed.

(** C80 *)
Theorem C80_output_depends_on_the_triples_only : forall ord ord' fuel pm base g g' early early' w w' ns, reachable g -> reachable g' -> shuffle ord -> shuffle ord' ->
  wreach_if early w -> wreach_if early' w' -> lookup pm (s2l "xsd") ns ->
  usual w (g_iter g) (g_subjects g) fuel -> usual w' (g_iter g') (g_subjects g') fuel -> printable (g_iter g) (g_subjects g) ->
  same_elements (g_iter g) (g_iter g') -> same_elements (g_subjects g) (g_subjects g') -> one_object (g_iter g) ->
  exists t, serialize_turtle ord fuel pm base g w = (w, (t, Ok tt)) /\ serialize_turtle ord' fuel pm base g' w' = (w', (t, Ok tt)).
Proof.
  intros ord ord' fuel pm base g g' early early' w w' ns RG RG' SH SH' WR WR' LX US US' PR SE SS OO.
  assert (PR' : printable (g_iter g') (g_subjects g')) by (exact (printable_same _ _ _ _ SE SS PR)).
  destruct (C48_layout ord fuel pm base g early w ns RG SH WR LX US PR) as (bl & L & E). destruct (C48_layout ord' fuel pm base g' early' w' ns RG' SH' WR' LX US' PR') as (bl' & L' & E').
  exists (header pm base ++ concat (map block_text bl)). split; [exact E|]. rewrite E'. now rewrite (layout_unique pm base g g' _ _ bl bl' SE SS OO L L').
Qed.
(** several objects are written in the order in which they were added *)
Theorem C80_object_order_refuted : exists g g', reachable g /\ reachable g' /\ same_elements (g_iter g) (g_iter g') /\ same_elements (g_subjects g) (g_subjects g') /\
  exists t t', snd (serialize_turtle same_order 9 default_pm None g world0) = (t, Ok tt) /\ snd (serialize_turtle same_order 9 default_pm None g' world0) = (t', Ok tt) /\ t <> t'.
Proof.
  set (a := Tr (Iri (eg "s")) (Iri (eg "p")) (Iri (eg "a"))). set (b := Tr (Iri (eg "s")) (Iri (eg "p")) (Iri (eg "b"))).
  exists (graph_of [a; b]), (graph_of [b; a]).
  assert (E1 : g_iter (graph_of [a; b]) = [a; b]) by (vm_compute; reflexivity). assert (E2 : g_iter (graph_of [b; a]) = [b; a]) by (vm_compute; reflexivity).
  assert (E3 : g_subjects (graph_of [a; b]) = g_subjects (graph_of [b; a])) by (vm_compute; reflexivity). rewrite E1, E2, E3.
  do 2 (split; [apply graph_of_reachable; repeat (constructor; [reflexivity|]); constructor|]). split; [intro x; cbn; tauto|]. split; [intro x; tauto|].
  eexists _, _. split; [vm_compute; reflexivity|]. split; [vm_compute; reflexivity|]. discriminate.
Qed.
Example C80_example : reachable (graph_of (rev eg_ts)) /\ same_elements (g_iter (graph_of eg_ts)) (g_iter (graph_of (rev eg_ts))) /\
  same_elements (g_subjects (graph_of eg_ts)) (g_subjects (graph_of (rev eg_ts))) /\ one_object (g_iter (graph_of eg_ts)) /\ 
  serialize_turtle same_order 9 default_pm None (graph_of (rev eg_ts)) world0 = serialize_turtle same_order 9 default_pm None (graph_of eg_ts) world0.
Proof.
  assert (E : g_iter (graph_of (rev eg_ts)) = rev eg_ts) by (vm_compute; reflexivity).
  assert (E2 : g_subjects (graph_of (rev eg_ts)) = [BNode 2; BNode 1; Iri (eg "s"); Iri (eg "t")]) by (vm_compute; reflexivity). destruct eg_iter as [E3 E4]. rewrite E, E2, E3, E4.
  split; [apply graph_of_reachable; repeat (constructor; [reflexivity|]); constructor|]. split; [intro x; now rewrite <- in_rev|]. split; [intro x; cbn; tauto|]. split; [|vm_compute; reflexivity].
  intros s p o o' J J'. cbn in J, J'.
  repeat (destruct J as [J|J]; [injection J as <- <- <-; repeat (destruct J' as [J'|J']; [first [discriminate J'|now injection J' as <-]|]); destruct J'|]). destruct J.
Qed.

Print Assumptions C45_round_trip.
Print Assumptions C45_nothing_is_escaped.
Print Assumptions C45_wrong_string_read_back_refuted.
Print Assumptions C47_literals.
Print Assumptions C47_other_types_cannot_be_read.
Print Assumptions C47_no_xsd_prefix.
Print Assumptions C47_numbers_are_readable_refuted.
Print Assumptions C46_blank_subject.
Print Assumptions C46_blank_object.
Print Assumptions C46_outcome.
Print Assumptions C46_blank_object_attribute_error.
Print Assumptions C48_layout.
Print Assumptions C48_other_elements_raise.
Print Assumptions C48_lists_of_literals_are_written_refuted.
Print Assumptions C80_output_depends_on_the_triples_only.
Print Assumptions C80_object_order_refuted.
