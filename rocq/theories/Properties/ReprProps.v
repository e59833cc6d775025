(** C104: printed representations. *)
From Verif Require Import Model.Py Model.Terms Model.Codec Model.Repr Spec.CodecSpec Spec.ReprSpec Proofs.IriLemmas Proofs.CodecMore Proofs.ReprLemmas.
Open Scope N_scope.

(** an interpreter that knows Latin-1 and the letters of Greek *)
Definition ex_isp (c : char) : bool := in_range 161 172 c || in_range 174 255 c || in_range 945 969 c.
Definition ex_txt : str := s2l "it's" ++ [34; 92; 10; 7; 233; 160; 945; 8364; 55296; 128512].

(** ** C104 *)
Theorem C104_texts_are_literals : forall isp s rest, py_str s -> py_literal (py_repr isp s ++ rest) s rest.
Proof. exact repr_literal. Qed.
Theorem C104_literals_have_one_value : forall t v r v' r', py_literal t v r -> py_literal t v' r' -> v = v' /\ r = r'.
Proof. exact py_literal_fun. Qed.
Theorem C104_quotation_mark : forall isp s, (In 39 s /\ ~ In 34 s -> exists t, py_repr isp s = 34 :: t ++ [34]) /\ (~ (In 39 s /\ ~ In 34 s) -> exists t, py_repr isp s = 39 :: t ++ [39]).
Proof.
  intros isp s. destruct (repr_quote_spec s) as [A B]. unfold py_repr. split; intro H; [rewrite (A H)|rewrite (B H)]; eexists; reflexivity.
Qed.
Theorem C104_texts_can_be_encoded : forall isp, (forall c, surrogate c -> isp c = false) -> forall s, Forall (fun c => ~ surrogate c) (py_repr isp s).
Proof. exact py_repr_encodable. Qed.
(** what [str.isprintable] says matters for no more than how a text is shown *)
Theorem C104_raises : forall isp t, py_term t ->
  ((exists x, term_repr isp t = Ok x) <-> encodable t) /\ (~ encodable t -> term_repr isp t = Err UnicodeEncodeError).
Proof. exact term_repr_ok. Qed.
Theorem C104_statements_raise : forall isp t, Forall py_term (terms_of t) ->
  ((exists x, stmt_repr isp t = Ok x) <-> Forall encodable (terms_of t)) /\ (~ Forall encodable (terms_of t) -> stmt_repr isp t = Err UnicodeEncodeError).
Proof. exact stmt_repr_raises. Qed.
Theorem C104_one_line : forall isp t x, Forall py_term (terms_of t) -> stmt_repr isp t = Ok x -> Forall (fun c => 32 <= c /\ c <> 127) x.
Proof. exact stmt_repr_shown. Qed.
Theorem C104_terms : forall isp a b, py_term a -> py_term b -> encodable a -> encodable b -> (term_repr isp a = term_repr isp b <-> alike a b).
Proof.
  intros isp a b A B EA EB. split; [|now apply alike_same]. intro H. destruct (proj2 (proj1 (term_repr_ok isp a A)) EA) as [x X].
  apply (term_repr_prefix isp a b x x [] []); auto. now rewrite <- H.
Qed.
Theorem C104_statements : forall isp a b, Forall py_term (terms_of a) -> Forall py_term (terms_of b) -> Forall encodable (terms_of a) -> Forall encodable (terms_of b) ->
  (stmt_repr isp a = stmt_repr isp b <-> alike_stmt a b).
Proof.
  intros isp a b A B EA EB. split; [|now apply alike_stmt_same]. intro H. destruct (proj2 (proj1 (stmt_repr_raises isp a A)) EA) as [x X].
  apply (stmt_repr_alike isp a b x); auto. now rewrite <- H.
Qed.
(** with URIs for IRIs, terms that look alike are equal or blank nodes *)
Theorem C104_uris : forall a b, Forall (Forall (fun c => uri_char c = true)) (iris_of a ++ iris_of b) -> alike a b -> a = b \/ exists n m, a = BNode n /\ b = BNode m.
Proof.
  intros [s|n|v l d] [s'|n'|v' l' d'] F H; cbn [alike iris_of app] in *; try contradiction; eauto.
  - left. inversion F as [|? ? F1 F2]; subst. inversion F2; subst. f_equal. now apply quoted_same.
  - left. destruct H as (-> & -> & H). destruct d as [d|], d' as [d'|]; cbn [alike_iri app] in *; try contradiction; auto.
    inversion F as [|? ? F1 F2]; subst. inversion F2; subst. do 2 f_equal. now apply quoted_same.
Qed.
Theorem C104_distinct_terms_look_different_refuted : (exists a b, a <> b /\ forall isp, term_repr isp (BNode a) = term_repr isp (BNode b)) /\
  (exists a b, a <> b /\ py_str a /\ py_str b /\ forall isp, exists x, term_repr isp (Iri a) = Ok x /\ term_repr isp (Iri b) = Ok x).
Proof.
  split; [exists 1, 2; split; [discriminate|reflexivity]|]. exists [233], (s2l "%C3%A9"). split; [discriminate|].
  split; [repeat constructor; discriminate|]. split; [repeat constructor; discriminate|]. intro isp. exists (s2l "NamedNode(<%C3%A9>)"). split; vm_compute; reflexivity.
Qed.
Theorem C104_resources : forall c a b, resource_repr c a = resource_repr c b <-> term_str a = term_str b.
Proof.
  intros c a b. unfold resource_repr. split; [|intros ->; reflexivity]. intro H. do 3 apply app_inv_head in H. now apply app_inv_tail in H.
Qed.
Theorem C104_resources_of_equal_texts_refuted : exists a b, a <> b /\ forall c, resource_repr c a = resource_repr c b.
Proof. exists (Iri (s2l "_:D")), (BNode 3). split; [discriminate|]. intro c. apply C104_resources. vm_compute. reflexivity. Qed.

Example C104_case : py_str ex_txt /\ (forall c, surrogate c -> ex_isp c = false) /\
  py_repr ex_isp ex_txt = s2l "'it\'s""\\\n\x07" ++ [233] ++ s2l "\xa0" ++ [945] ++ [92; 117] ++ s2l "20ac" ++ [92; 117] ++ s2l "d800" ++ [92; 85] ++ s2l "0001f600'" /\
  py_repr ex_isp (s2l "it's") = s2l """it's""" /\ In 39 (s2l "it's") /\ ~ In 34 (s2l "it's") /\
  term_repr ex_isp (Lit (s2l "a") (Some (s2l "en")) None) = Ok (s2l "Literal(value='a', language='en', datatype=None)") /\
  stmt_repr ex_isp (Qd (Iri (s2l "http://e/s")) (Iri (s2l "p")) (Lit (s2l "1") None (Some (s2l "http://e/i"))) None) =
    Ok (s2l "Quad(subject=NamedNode(<http://e/s>), predicate=NamedNode(<p>), object=Literal(value='1', language=None, datatype=NamedNode(<http://e/i>)), graph=None)") /\
  stmt_repr ex_isp (Tr (BNode 3) (Iri (s2l "p")) (BNode 4)) = Ok (s2l "Triple(subject=BlankNode(), predicate=NamedNode(<p>), object=BlankNode())") /\
  term_repr ex_isp (Iri [55296]) = Err UnicodeEncodeError /\ resource_repr (s2l "m.C") (Iri (s2l "http://e/s")) = s2l "<<class 'm.C'>: http://e/s>".
Proof.
  split; [repeat constructor; discriminate|]. split.
  { intros c S. unfold surrogate in S. unfold ex_isp, in_range. destruct (c <=? 172) eqn:A; [apply N.leb_le in A; lia|]. destruct (c <=? 255) eqn:B; [apply N.leb_le in B; lia|]. destruct (c <=? 969) eqn:C; [apply N.leb_le in C; lia|].
    now rewrite !andb_false_r. }
  split; [vm_compute; reflexivity|]. split; [vm_compute; reflexivity|]. split; [vm_compute; auto|]. split; [vm_compute; intuition discriminate|].
  split; [vm_compute; reflexivity|]. split; [vm_compute; reflexivity|]. split; [vm_compute; reflexivity|]. split; vm_compute; reflexivity.
Qed.
Example C104_terms_case : let q := Qd (Iri (s2l "http://e/s")) (Iri (s2l "p")) (Lit (s2l "1") None (Some (s2l "http://e/i"))) (Some (BNode 1)) in
  Forall py_term (terms_of q) /\ Forall encodable (terms_of q) /\ ~ encodable (Iri [55296]) /\ alike_stmt q (Qd (st_s q) (st_p q) (st_o q) (Some (BNode 7))) /\
  Forall (Forall (fun c => uri_char c = true)) (iris_of (st_o q) ++ iris_of (st_s q)).
Proof.
  cbv zeta. assert (S : forall s, forallb (fun c => c <=? 127) s = true -> Forall (fun c => ~ surrogate c) s).
  { intros s H. rewrite forallb_forall in H. apply Forall_forall. intros c I. apply H, N.leb_le in I. unfold surrogate. lia. }
  assert (P : forall s, forallb (fun c => c <=? 127) s = true -> py_str s).
  { intros s H. rewrite forallb_forall in H. apply Forall_forall. intros c I. apply H, N.leb_le in I. lia. }
  assert (PT : forall t, forallb (forallb (fun c => c <=? 127)) (texts_of t) = true -> py_term t).
  { intros t H. rewrite forallb_forall in H. apply Forall_forall. intros x I. now apply P, H. }
  assert (ET : forall t, forallb (forallb (fun c => c <=? 127)) (iris_of t) = true -> encodable t).
  { intros t H. rewrite forallb_forall in H. apply Forall_forall. intros x I. now apply S, H. }
  split; [constructor; [now apply PT|constructor; [now apply PT|constructor; [now apply PT|constructor; [now apply PT|constructor]]]]|].
  split; [constructor; [now apply ET|constructor; [now apply ET|constructor; [now apply ET|constructor; [now apply ET|constructor]]]]|].
  split; [intro H; inversion H as [|? ? F _]; inversion F as [|? ? N _]; apply N; split; discriminate|].
  split; [repeat split|]. repeat constructor.
Qed.

Print Assumptions C104_texts_are_literals. Print Assumptions C104_literals_have_one_value. Print Assumptions C104_quotation_mark. Print Assumptions C104_texts_can_be_encoded.
Print Assumptions C104_raises. Print Assumptions C104_statements_raise. Print Assumptions C104_one_line. Print Assumptions C104_terms. Print Assumptions C104_statements. Print Assumptions C104_uris.
Print Assumptions C104_distinct_terms_look_different_refuted. Print Assumptions C104_resources. Print Assumptions C104_resources_of_equal_texts_refuted.
