(** Property C101: when the resolution of a reference raises. *)
From Verif Require Import Model.Py Model.Terms Model.Graph Model.Codec Model.Curie Model.TurtleTree Model.UrlJoin Model.Turtle Model.TurtleParse
  Spec.CodecSpec Spec.TurtleSpec Spec.TurtleTextSpec Spec.TurtleOutSpec Spec.UriSpec
  Proofs.CodecLemmas Proofs.TurtleLemmas Proofs.TurtleEsc Proofs.UriErr Proofs.UriTrip.
Open Scope N_scope.

(** ** C101 *)
(** nothing but ValueError, whatever the texts *)
Theorem C101_only_value_errors : forall bo nk base ref e, smart_urljoin (urljoin bo nk) base ref = Err e -> e = ValueError.
Proof. exact join_error. Qed.
(** a result exactly when the hosts of the base and of the reference are taken, whether or not the
    host of the base is needed *)
Theorem C101_exactly : forall bo nk B R, uri_ok B -> uri_ok R -> visible (uri_text B) -> visible (uri_text R) -> uri_text B <> [] -> uri_text R <> [] ->
  (exists x, smart_urljoin (urljoin bo nk) (uri_text B) (uri_text R) = Ok x) <->
  forall a, r_auth B = Some a \/ r_auth R = Some a -> host_taken bo nk a.
Proof. exact join_exactly. Qed.
(** without a base or without a reference nothing is looked at *)
Theorem C101_nothing_checked : forall bo nk s, smart_urljoin (urljoin bo nk) [] s = Ok s /\ exists x, smart_urljoin (urljoin bo nk) s [] = Ok x.
Proof.
  intros bo nk s. split.
  - unfold smart_urljoin, urljoin. cbn [str_truthy negb bind]. destruct (endswith_char s 35); reflexivity.
  - destruct s as [|c s]; eexists; reflexivity.
Qed.
(** texts in ASCII without square brackets never raise *)
Theorem C101_plain_texts : forall bo nk base ref, Forall (fun c => c <> 91 /\ c <> 93 /\ c < 128) (base ++ ref) ->
  exists x, smart_urljoin (urljoin bo nk) base ref = Ok x.
Proof. exact join_plain. Qed.
(** references of documents *)
Theorem C101_in_documents : forall bo nk pm B R, uri_ok B -> uri_ok R -> legal_text (uri_text B) -> legal_text (uri_text R) -> uri_text B <> [] -> uri_text R <> [] ->
  e_iri (urljoin bo nk) pm (uri_text B) (TRef (uri_text R)) = Err ValueError <->
  exists a, (r_auth B = Some a \/ r_auth R = Some a) /\ ~ host_taken bo nk a.
Proof.
  intros bo nk pm B R OB OR LB LR NB NR. cbn [e_iri]. unfold decode_iriref. rewrite (denotes_decode _ _ (TurtleEsc.plain_denotes _ (legal_no_bs _ LR))). cbn [bind].
  unfold validate_iri. rewrite (proj2 (legal_iri_spec (uri_text R))) by auto. cbn [bind].
  assert (X := join_exactly bo nk B R OB OR (legal_visible _ LB) (legal_visible _ LR) NB NR). split.
  - intro E. destruct (host_dec bo nk (r_auth B)) as [(a & A & N)|HB]; [exists a; auto|]. destruct (host_dec bo nk (r_auth R)) as [(a & A & N)|HR]; [exists a; auto|].
    exfalso. destruct (proj2 X) as (x & Y); [intros a [A|A]; auto|]. congruence.
  - intros (a & A & N). destruct (smart_urljoin (urljoin bo nk) (uri_text B) (uri_text R)) as [x|e] eqn:E.
    + exfalso. apply N. apply (proj1 X); [eauto|assumption].
    + now rewrite (join_error _ _ _ _ _ E).
Qed.
(** an absolute reference does not need its base: still a base with one bracket makes it raise *)
Theorem C101_absolute_references_refuted : exists base ref, (forall bo nk, smart_urljoin (urljoin bo nk) [] ref = Ok ref) /\
  forall bo nk, smart_urljoin (urljoin bo nk) base ref = Err ValueError.
Proof. exists (s2l "http://[a/"), (s2l "http://e/x"). split; intros bo nk; reflexivity. Qed.

(** examples *)
Definition ex_six : uri := mkUri (Some (s2l "http")) (Some (s2l "[::1]:80")) (s2l "/a") None None.
Definition ex_open : uri := mkUri (Some (s2l "http")) (Some (s2l "[::1")) (s2l "/a") None None.
Definition ex_rel : uri := mkUri None None (s2l "b") None None.
Lemma ex_uri_ok : uri_ok ex_six /\ uri_ok ex_open /\ uri_ok ex_rel.
Proof.
  assert (S : scheme_name (s2l "http")) by (exists 104, (s2l "ttp"); split; [reflexivity|split; [right; lia|]]; apply Forall_forall; intros c J; left; right; cbn in J; intuition (subst; lia)).
  repeat split; try assumption; try (repeat constructor; discriminate); try (right; eexists; reflexivity); try discriminate.
  - intros (q & E). discriminate E.
  - intros _ _ a b E. exfalso. assert (J : In 58 [98]) by (change [98] with (s2l "b"); change (r_path ex_rel) with (s2l "b") in E; rewrite E; apply in_elt). destruct J as [J|[]]. discriminate J.
Qed.
Example C101_example : uri_ok ex_six /\ uri_ok ex_rel /\ visible (uri_text ex_six) /\ uri_text ex_six = s2l "http://[::1]:80/a" /\
  smart_urljoin (urljoin (fun h => str_eqb h (s2l "::1")) (fun _ => true)) (uri_text ex_six) (s2l "b") = Ok (s2l "http://[::1]:80/b") /\
  smart_urljoin (urljoin (fun h => str_eqb h (s2l "::2")) (fun _ => true)) (uri_text ex_six) (s2l "b") = Err ValueError /\
  smart_urljoin (urljoin (fun _ => true) (fun _ => true)) (uri_text ex_open) (s2l "b") = Err ValueError /\
  (exists m g, turtle_parse (urljoin (fun _ => true) (fun _ => true)) 0 (uri_text ex_open) (graph_new None) (SrcStr (s2l "<http://e/s> <http://e/p> <http://e/o> .")) = Some (m, g, Err VisitError)) /\
  exists m g, turtle_parse (urljoin (fun _ => true) (fun _ => true)) 0 [] (graph_new None) (SrcStr (s2l "<http://e/s> <http://e/p> <http://[e> .")) = Some (m, g, Ok tt).
Proof.
  split; [apply ex_uri_ok|]. split; [apply ex_uri_ok|]. split; [apply Forall_forall; intros c J; assert (F : forallb (fun c => 32 <? c) (uri_text ex_six) = true) by reflexivity; rewrite forallb_forall in F; now apply N.ltb_lt, F|].
  split; [reflexivity|]. split; [vm_compute; reflexivity|]. split; [vm_compute; reflexivity|]. split; [vm_compute; reflexivity|].
  split; [eexists; eexists; vm_compute; reflexivity|eexists; eexists; vm_compute; reflexivity].
Qed.

Print Assumptions C101_only_value_errors. Print Assumptions C101_exactly. Print Assumptions C101_nothing_checked. Print Assumptions C101_plain_texts.
Print Assumptions C101_in_documents. Print Assumptions C101_absolute_references_refuted.
