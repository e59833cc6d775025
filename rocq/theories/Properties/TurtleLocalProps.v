(** Property C100: escape_prefix_local, whose result turtle_repr does not use. *)
From Verif Require Import Model.Py Model.Terms Model.Graph Model.Codec Model.NTriples Model.Curie Model.TurtleTree Model.UrlJoin Model.Turtle Model.TurtleParse Model.TurtleOut
  Spec.CodecSpec Spec.CurieSpec Spec.TurtleSpec Spec.TurtleTextSpec Spec.TurtleOutSpec
  Proofs.CurieLemmas Proofs.TurtleNames Proofs.TurtleLocal Properties.TurtleTripProps.
Open Scope N_scope.

(** ** C100 *)
(** an escaped name is read as the IRI exactly when the local part can be escaped *)
Theorem C100_escaped_names : forall resolves pm B p ns r, pn_prefix p -> lookup pm p ns ->
  text_is_iri resolves pm B (escape_prefix_local (p ++ s2l ":" ++ r)) (ns ++ r) <-> escapable r.
Proof.
  intros resolves pm B p ns r P L. split.
  - intro H. now apply (escaped_inv resolves pm B p ns r (ns ++ r)) in H.
  - now apply escaped_reads.
Qed.
(** it is never read as another IRI *)
Theorem C100_no_other_iri : forall resolves pm B p ns r iri, pn_prefix p -> lookup pm p ns ->
  text_is_iri resolves pm B (escape_prefix_local (p ++ s2l ":" ++ r)) iri -> iri = ns ++ r.
Proof. intros resolves pm B p ns r iri P L H. now apply (escaped_inv resolves pm B p ns r iri) in H. Qed.
(** a name that can be read as it stands can be read escaped, if it has no second colon *)
Theorem C100_nothing_lost : forall resolves pm B p ns r, pn_prefix p -> lookup pm p ns -> ~ In 58 r ->
  text_is_iri resolves pm B (p ++ s2l ":" ++ r) (ns ++ r) -> text_is_iri resolves pm B (escape_prefix_local (p ++ s2l ":" ++ r)) (ns ++ r).
Proof.
  intros resolves pm B p ns r P L N H. apply (pn_reads resolves pm B p ns r P L) in H. apply escaped_reads; auto. now apply local_escapable.
Qed.
(** with a second colon it cannot *)
Theorem C100_colons_refuted : exists p ns r pm, pn_prefix p /\ lookup pm p ns /\ (forall resolves B, text_is_iri resolves pm B (p ++ s2l ":" ++ r) (ns ++ r)) /\
  forall i, ~ iri_text i (escape_prefix_local (p ++ s2l ":" ++ r)).
Proof.
  exists (s2l "e"), (s2l "http://e/"), (s2l "a:b"), [(s2l "e", s2l "http://e/")]. assert (P : pn_prefix (s2l "e")) by exact (ex_letters_prefix [101] eq_refl).
  assert (L : lookup [(s2l "e", s2l "http://e/")] (s2l "e") (s2l "http://e/")) by (apply lookup_sget; vm_compute; reflexivity).
  split; [exact P|]. split; [exact L|]. split.
  - intros resolves B. apply (pn_reads resolves _ B (s2l "e") (s2l "http://e/") (s2l "a:b") P L). split; [apply ex_local; vm_compute; reflexivity|cbn; intuition discriminate].
  - intros i T. change (escape_prefix_local (s2l "e" ++ s2l ":" ++ s2l "a:b")) with (s2l "e" ++ 58 :: [97; 92; 58; 98]) in T. apply pn_inv in T; [|exact P]. destruct T as [_ T].
    assert (X : forall y, ~ local_rest (92 :: 58 :: y)).
    { intros y H. inversion H as [|c r C R|r N R|x r Y R E]; subst; [unfold pn_char, pn_u, pn_base, TurtleTextSpec.letter, digit10, between in C; lia|].
      inversion Y as [|c C]; subst; [discriminate|]. injection E as -> _. now apply ne58. }
    inversion T as [|c r C R|x r Y R E]; subst; [exact (X _ R)|]. inversion Y; subst; discriminate.
Qed.
(** names without a colon are left alone *)
Theorem C100_no_colon : forall s, ~ In 58 s -> escape_prefix_local s = s.
Proof. exact escape_none. Qed.
(** turtle_repr does not use the function: it writes the local part as it is *)
Theorem C100_not_used : forall pm base p ns r, chosen pm (ns ++ r) p ns -> ns <> [] -> ~ occurs_in ns r -> p ++ 58 :: r <> ns ++ r -> not_based base (p ++ 58 :: r) ->
  turtle_repr pm base (Iri (ns ++ r)) = Ok (p ++ s2l ":" ++ r).
Proof. exact short_text. Qed.

Lemma ex_escapable : forall r, forallb (fun c => in_range 97 122 c || in_range 48 57 c || existsb (N.eqb c) (s2l "_~.-!$&'()*+,;=/?#@%")) r = true -> escapable r.
Proof.
  intros r H. rewrite forallb_forall in H. assert (X : forall c, In c r -> pn_u c \/ digit10 c \/ local_esc c).
  { intros c J. specialize (H c J). cbv beta in H. rewrite !orb_true_iff in H. destruct H as [[H|H]|H].
    - unfold in_range in H. apply andb_true_iff in H. rewrite !N.leb_le in H. left. left. left. right. exact H.
    - unfold in_range in H. apply andb_true_iff in H. rewrite !N.leb_le in H. right. left. exact H.
    - right. right. apply existsb_exists in H. destruct H as (x & K & E). apply N.eqb_eq in E. now subst. }
  split; [|intros c t ->; apply X; now left]. apply Forall_forall. intros c J. specialize (X c J). unfold pn_char. tauto.
Qed.
Definition ex_local_name : str := s2l "a/b(c)%41.".
Example C100_example : escape_prefix_local (s2l "e:" ++ ex_local_name) = s2l "e:a\/b\(c\)\%41\." /\ escapable ex_local_name /\
  turtle_repr [(s2l "e", s2l "http://e/")] None (Iri (s2l "http://e/" ++ ex_local_name)) = Ok (s2l "e:" ++ ex_local_name) /\
  exists m g, turtle_parse (urljoin (fun _ => true) (fun _ => true)) 0 [] (graph_new None)
    (SrcStr (s2l "@prefix e: <http://e/> . e:s e:p " ++ escape_prefix_local (s2l "e:" ++ ex_local_name) ++ s2l " .")) = Some (m, g, Ok tt) /\
    g_iter g = [Tr (Iri (s2l "http://e/s")) (Iri (s2l "http://e/p")) (Iri (s2l "http://e/" ++ ex_local_name))].
Proof.
  split; [vm_compute; reflexivity|]. split.
  - apply ex_escapable. vm_compute. reflexivity.
  - split; [vm_compute; reflexivity|]. eexists. eexists. split; [vm_compute; reflexivity|vm_compute; reflexivity].
Qed.

Print Assumptions C100_escaped_names. Print Assumptions C100_no_other_iri. Print Assumptions C100_nothing_lost. Print Assumptions C100_colons_refuted.
Print Assumptions C100_no_colon. Print Assumptions C100_not_used.
