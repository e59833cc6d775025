(** Properties C87 and C88: references resolved as in RFC 3986, and Turtle documents with urllib's urljoin. *)
From Verif Require Import Model.Py Model.Terms Model.Graph Model.GraphRun Model.NTriples Model.Curie Model.Codec Model.TurtleTree Model.UrlJoin Model.Turtle Model.TurtleParse Model.Resource Model.ResourceRun Model.TurtleOut
  Spec.GraphSpec Spec.CodecSpec Spec.CurieSpec Spec.TurtleSpec Spec.TurtleTextSpec Spec.ResourceSpec Spec.TurtleOutSpec Spec.UriSpec Spec.UriTripSpec
  Proofs.GraphHist Proofs.TurtleLemmas Proofs.TurtleEsc Proofs.TurtleRound Proofs.UriDots Proofs.UriJoin Proofs.UriAbs Proofs.UriDocs Proofs.UriTrip
  Properties.TurtleProps Properties.TurtleOutProps Properties.TurtleTextProps Properties.TurtleTripProps.
Open Scope N_scope.

(** ** C87: references *)
(** a reference without a scheme and an authority has one target, and that is the result *)
Theorem C87_relative_references : forall bo nk B R, base_ok B -> ref_ok B R ->
  exists T, target B R T /\ (forall T', target B R T' -> T' = T) /\ smart_urljoin (urljoin bo nk) (uri_text B) (uri_text R) = Ok (uri_text T).
Proof. intros bo nk B R HB HR. destruct (join_relative bo nk B R HB HR) as (T & H & E). exists T. split; [exact H|]. split; [|exact E]. intros T' H'. eapply target_unique; eauto. Qed.
(** an absolute reference is its own target, and the result *)
Theorem C87_absolute_references : forall bo nk B R s, uri_legal B -> lower_scheme B -> uri_kept R -> r_scheme R = Some s -> lower_case s ->
  uri_text B = [] \/ r_scheme B <> Some s \/ ~ In s relative_schemes \/ (exists c a, r_auth R = Some (c :: a)) ->
  smart_urljoin (urljoin bo nk) (uri_text B) (uri_text R) = Ok (uri_text R) /\ (no_dot_segment (r_path R) -> target B R R).
Proof. intros bo nk B R s LB SB KR SR LS C. split; [eapply join_absolute; eauto|intro N; eapply target_self; eauto]. Qed.
(** a reference with an authority gets the scheme of the base *)
Theorem C87_network_path_references : forall bo nk B R s c a, uri_legal B -> r_scheme B = Some s -> In s relative_schemes ->
  uri_kept R -> r_scheme R = None -> r_auth R = Some (c :: a) -> no_dot_segment (r_path R) ->
  exists T, target B R T /\ smart_urljoin (urljoin bo nk) (uri_text B) (uri_text R) = Ok (uri_text T).
Proof. intros bo nk B R s c a LB SB IS KR SR AR N. apply agreed_join. eapply AgNetwork; eauto. Qed.
(** all of them, as IRIREFs of a document *)
Theorem C87_references_in_documents : forall bo nk pm B R T, agreed B R -> target B R T -> legal_text (uri_text R) ->
  e_iri (urljoin bo nk) pm (uri_text B) (TRef (uri_text R)) = Ok (uri_text T).
Proof.
  intros bo nk pm B R T A H L. cbn [e_iri]. apply (ref_complete (urljoin bo nk) (mkEnv (fun _ => None) (uri_text B))). exists (uri_text R). split; [|split; [exact L|]].
  - apply TurtleEsc.plain_denotes. now apply legal_no_bs.
  - apply rfc_incl. right. exists B, R, T. auto.
Qed.
(** a text is read as a reference in one way only *)
Theorem C87_one_reading : forall A B, uri_ok A -> uri_ok B -> uri_text A = uri_text B -> A = B.
Proof. exact uri_text_unique. Qed.

(** examples *)
Definition u_of (s a p q f : option string) : uri :=
  mkUri (option_map s2l s) (option_map s2l a) (match p with Some x => s2l x | None => [] end) (option_map s2l q) (option_map s2l f).
Definition rel (p : string) : uri := u_of None None (Some p) None None.
Definition http (a p : string) : uri := u_of (Some "http"%string) (Some a) (Some p) None None.
Definition rfc_base : uri := u_of (Some "http"%string) (Some "a"%string) (Some "/b/c/d;p"%string) (Some "q"%string) None.
Definition joined (B R : uri) : res str := smart_urljoin (urljoin (fun _ => true) (fun _ => true)) (uri_text B) (uri_text R).
Lemma ex_chars : forall (P : char -> Prop) (f : char -> bool), (forall c, f c = true -> P c) -> forall s, forallb f s = true -> Forall P s.
Proof. intros P f H s F. rewrite forallb_forall in F. apply Forall_forall. auto. Qed.
Lemma ex_no_semi : forall p, forallb (fun c => negb (c =? 59)) p = true -> plain_params p.
Proof.
  intros p H. assert (N : ~ In 59 p) by (intro J; rewrite forallb_forall in H; apply H in J; discriminate). split.
  - intros [x ->]. apply N, in_or_app. right. now left.
  - intros x seg y -> _ _. exfalso. apply N, in_or_app. right. apply in_or_app. right. now left.
Qed.
Lemma ex_no_dot : forall p, forallb (fun c => negb (c =? 46)) p = true -> no_dot_segment p.
Proof.
  intros p H x seg y -> _ _. rewrite forallb_forall in H. split; intros ->; assert (X : negb (46 =? 46) = true); try discriminate X;
    apply H, in_or_app; right; now left.
Qed.
Fixpoint single (p : str) : bool := match p with c :: r => negb ((c =? 47) && match r with d :: _ => d =? 47 | [] => false end) && single r | [] => true end.
Lemma ex_single : forall p, single p = true -> no_empty_segment p.
Proof.
  intros p H (x & y & ->). induction x as [|c x IH]; [cbn in H; discriminate|].
  cbn [app single] in H. apply andb_true_iff in H. destruct H as [_ H]. now apply IH.
Qed.
(** the components of a reference given by their texts are as the grammar has them *)
Definition none_of (l : list char) (s : str) : bool := forallb (fun c => negb (existsb (N.eqb c) l)) s.
Definition opt_none (l : list char) (o : option str) : bool := match o with Some s => none_of l s | None => true end.
Definition ok_b (r : uri) : bool :=
  match r_scheme r with Some (c :: s) => ascii_letter c && forallb scheme_char s | Some [] => false | None => true end &&
  opt_none [47; 63; 35] (r_auth r) && none_of [63; 35] (r_path r) && opt_none [35] (r_query r) && opt_none [35] (r_frag r) &&
  match r_auth r with
  | Some _ => match r_path r with [] => true | c :: _ => c =? 47 end
  | None => negb (match r_path r with c :: d :: _ => (c =? 47) && (d =? 47) | _ => false end) && match r_scheme r with Some _ => true | None => none_of [58] (r_path r) end
  end.
Lemma none_of_in : forall l s c, none_of l s = true -> In c s -> ~ In c l.
Proof.
  intros l s c H J X. unfold none_of in H. rewrite forallb_forall in H. apply H in J. apply negb_true_iff in J.
  assert (E : existsb (N.eqb c) l = true) by (apply existsb_exists; exists c; split; auto; apply N.eqb_refl). congruence.
Qed.
Lemma ex_letter : forall c, ascii_letter c = true -> alpha c.
Proof. intros c H. unfold ascii_letter, in_range in H. unfold alpha. rewrite orb_true_iff, !andb_true_iff, !N.leb_le in H. tauto. Qed.
Lemma ex_schar : forall c, scheme_char c = true -> schar c.
Proof.
  intros c H. unfold scheme_char in H. rewrite !orb_true_iff, !N.eqb_eq in H. unfold schar. destruct H as [[[[H|H]|H]|H]|H]; auto.
  - left. now apply ex_letter.
  - right. left. unfold in_range in H. rewrite andb_true_iff, !N.leb_le in H. exact H.
Qed.
Lemma ex_ok : forall r, ok_b r = true -> uri_ok r.
Proof.
  intros [s a p q f] H. unfold ok_b in H. cbn [r_scheme r_auth r_path r_query r_frag] in H.
  repeat (apply andb_true_iff in H; let X := fresh "H" in destruct H as [H X]).
  unfold uri_ok. cbn [r_scheme r_auth r_path r_query r_frag].
  assert (OA : forall l o, opt_none l o = true -> opt_all (fun c => ~ In c l) o).
  { intros l [x|] X; cbn; auto. apply Forall_forall. intros c C. eapply none_of_in; eauto. }
  repeat split.
  - destruct s as [[|c s]|]; auto; [discriminate|]. apply andb_true_iff in H. destruct H as [X Y]. exists c, s. split; auto. split; [now apply ex_letter|].
    apply (ex_chars _ _ ex_schar _ Y).
  - apply OA in H4. destruct a; cbn in *; auto. apply Forall_impl with (2 := H4). intros c C. cbn in C. intuition congruence.
  - apply Forall_forall. intros c C. apply (none_of_in _ _ _ H3) in C. cbn in C. intuition congruence.
  - apply OA in H2. destruct q; cbn in *; auto. apply Forall_impl with (2 := H2). intros c C. cbn in C. intuition congruence.
  - apply OA in H1. destruct f; cbn in *; auto. apply Forall_impl with (2 := H1). intros c C. cbn in C. intuition congruence.
  - destruct a.
    + destruct p as [|c p]; auto. right. apply N.eqb_eq in H0. subst. eauto.
    + apply andb_true_iff in H0. destruct H0 as [X _]. intros [r ->]. cbn in X. discriminate.
  - intros -> -> x y E. apply andb_true_iff in H0. destruct H0 as [_ X]. exfalso. apply (none_of_in _ _ 58 X); [rewrite E; apply in_or_app; right; now left|now left].
Qed.
Lemma ex_visible : forall s, forallb (fun c => 32 <? c) s = true -> visible s.
Proof. apply ex_chars. intros c C. now apply N.ltb_lt. Qed.
Lemma ex_host : forall s, forallb (fun c => negb (c =? 91) && negb (c =? 93) && (c <? 128)) s = true -> plain_host s.
Proof. apply ex_chars. intros c C. rewrite !andb_true_iff, !negb_true_iff, !N.eqb_neq, N.ltb_lt in C. tauto. Qed.
Definition base_b (B : uri) : bool :=
  ok_b B && forallb (fun c => 32 <? c) (uri_text B) && match r_scheme B with Some s => str_mem s relative_schemes | None => false end &&
  match r_auth B with Some a => forallb (fun c => negb (c =? 91) && negb (c =? 93) && (c <? 128)) a | None => false end &&
  single (r_path B) && match r_query B with Some [] => false | _ => true end.
Lemma ex_base : forall B, base_b B = true -> plain_params (r_path B) -> base_ok B.
Proof.
  intros B H P. unfold base_b in H. do 5 (apply andb_true_iff in H; let X := fresh "H" in destruct H as [H X]).
  split; [now apply ex_ok|]. split; [now apply ex_visible|]. split; [|split; [|split; [|split]]].
  - destruct (r_scheme B) as [s|]; [|discriminate]. exists s. split; auto. unfold str_mem in H3. destruct in_dec; [auto|discriminate].
  - destruct (r_auth B) as [a|]; [|discriminate]. exists a. split; auto. now apply ex_host.
  - now apply ex_single.
  - exact P.
  - intros E. rewrite E in H0. discriminate.
Qed.
Definition ref_b (R : uri) : bool :=
  ok_b R && forallb (fun c => 32 <? c) (uri_text R) && match r_scheme R, r_auth R with None, None => true | _, _ => false end &&
  single (r_path R) && match r_query R with Some [] => false | _ => true end && str_truthy (uri_text R).
Lemma ex_refs : forall B R, ref_b R = true -> plain_params (r_path R) -> ref_ok B R.
Proof.
  intros B R H P. unfold ref_b in H. do 5 (apply andb_true_iff in H; let X := fresh "H" in destruct H as [H X]).
  split; [now apply ex_ok|]. split; [now apply ex_visible|]. destruct (r_scheme R); [discriminate|]. destruct (r_auth R); [discriminate|].
  do 2 (split; [auto|]). split; [now apply ex_single|]. split; [exact P|]. split; [intros E; rewrite E in H1; discriminate|]. intros E. rewrite E in H0. discriminate.
Qed.
Lemma rfc_base_ok : base_ok rfc_base.
Proof.
  apply ex_base; [vm_compute; reflexivity|]. assert (E : r_path rfc_base = s2l "/b/c/d;p") by reflexivity. rewrite E. split.
  - intros [x X]. apply (f_equal (@rev _)) in X. rewrite rev_app_distr in X. discriminate X.
  - intros x seg y X [->|[z ->]] NY; cbn [app] in X.
    + destruct seg; [discriminate|]. injection X as <- _. split; discriminate.
    + assert (L : ~ In 47 (59 :: y)) by (intros [K|K]; [discriminate|exact (NY K)]).
      split; intros ->; do 9 (destruct z as [|? z]; [try discriminate X|]; try (injection X as _ X)); try discriminate X; destruct z; discriminate X.
Qed.
(** the examples of RFC 3986, sections 5.4.1 and 5.4.2 *)
Definition rfc_examples : list (string * string) := [
  ("g:h", "g:h"); ("g", "http://a/b/c/g"); ("./g", "http://a/b/c/g"); ("g/", "http://a/b/c/g/"); ("/g", "http://a/g"); ("//g", "http://g");
  ("?y", "http://a/b/c/d;p?y"); ("g?y", "http://a/b/c/g?y"); ("#s", "http://a/b/c/d;p?q#s"); ("g#s", "http://a/b/c/g#s"); ("g?y#s", "http://a/b/c/g?y#s");
  (";x", "http://a/b/c/;x"); ("g;x", "http://a/b/c/g;x"); ("g;x?y#s", "http://a/b/c/g;x?y#s"); ("", "http://a/b/c/d;p?q"); (".", "http://a/b/c/");
  ("./", "http://a/b/c/"); ("..", "http://a/b/"); ("../", "http://a/b/"); ("../g", "http://a/b/g"); ("../..", "http://a/"); ("../../", "http://a/"); ("../../g", "http://a/g");
  ("../../../g", "http://a/g"); ("../../../../g", "http://a/g"); ("/./g", "http://a/g"); ("/../g", "http://a/g"); ("g.", "http://a/b/c/g."); (".g", "http://a/b/c/.g");
  ("g..", "http://a/b/c/g.."); ("..g", "http://a/b/c/..g"); ("./../g", "http://a/b/g"); ("./g/.", "http://a/b/c/g/"); ("g/./h", "http://a/b/c/g/h"); ("g/../h", "http://a/b/c/h");
  ("g;x=1/./y", "http://a/b/c/g;x=1/y"); ("g;x=1/../y", "http://a/b/c/y"); ("g?y/./x", "http://a/b/c/g?y/./x"); ("g?y/../x", "http://a/b/c/g?y/../x");
  ("g#s/./x", "http://a/b/c/g#s/./x"); ("g#s/../x", "http://a/b/c/g#s/../x")]%string.
Example C87_rfc_examples : forall u x, In (u, x) rfc_examples ->
  smart_urljoin (urljoin (fun _ => true) (fun _ => true)) (uri_text rfc_base) (s2l u) = Ok (s2l x).
Proof.
  intros u x J.
  assert (H : forallb (fun p => match smart_urljoin (urljoin (fun _ => true) (fun _ => true)) (uri_text rfc_base) (s2l (fst p)) with Ok y => str_eqb y (s2l (snd p)) | Err _ => false end) rfc_examples = true)
    by (vm_compute; reflexivity).
  rewrite forallb_forall in H. apply H in J. cbn [fst snd] in J. destruct smart_urljoin as [y|]; [|discriminate]. unfold str_eqb in J. destruct str_eq_dec; [now subst|discriminate].
Qed.
Example C87_example : base_ok rfc_base /\ ref_ok rfc_base (rel "../g") /\ joined rfc_base (rel "../g") = Ok (s2l "http://a/b/g") /\
  target rfc_base (rel "../g") (http "a" "/b/g") /\
  joined rfc_base (u_of (Some "urn"%string) None (Some "x:y"%string) None None) = Ok (s2l "urn:x:y") /\ joined rfc_base (u_of None (Some "h"%string) (Some "/x"%string) None None) = Ok (s2l "http://h/x").
Proof.
  assert (RR : ref_ok rfc_base (rel "../g")) by (apply ex_refs; [vm_compute; reflexivity|apply ex_no_semi; vm_compute; reflexivity]).
  split; [exact rfc_base_ok|]. split; [exact RR|]. split; [vm_compute; reflexivity|]. split; [|split; vm_compute; reflexivity].
  destruct (C87_relative_references (fun _ => true) (fun _ => true) rfc_base _ rfc_base_ok RR) as (T & HT & _ & E).
  assert (X : uri_text T = uri_text (http "a" "/b/g")) by (injection (eq_trans (eq_sym E) (eq_refl : joined rfc_base (rel "../g") = Ok (s2l "http://a/b/g"))); auto).
  inversion HT as [| | |q p SR AR PR|m p SR AR PR NR MG DR]; subst; try discriminate. unfold uri_text, hier_text in X. cbn in X. repeat rewrite app_nil_r in X. injection X as ->. exact HT.
Qed.
(** where urllib goes another way *)
Definition deviates (B R T : uri) (x : string) : Prop :=
  uri_ok B /\ uri_ok R /\ target B R T /\ (forall bo nk, smart_urljoin (urljoin bo nk) (uri_text B) (uri_text R) = Ok (s2l x)) /\ uri_text T <> s2l x.
Ltac dev := split; [apply ex_ok; vm_compute; reflexivity|split; [apply ex_ok; vm_compute; reflexivity|split; [|split; [intros; vm_compute; reflexivity|vm_compute; discriminate]]]].
Lemma ex_merged : forall B R d l, r_scheme R = None -> r_auth R = None -> r_path R <> [] -> (forall q, r_path R <> 47 :: q) ->
  r_path B = (d ++ [47]) ++ l -> no_slash l -> forall p, dots_removed [] ((d ++ [47]) ++ r_path R) p -> target B R (mkUri (r_scheme B) (r_auth B) p (r_query R) (r_frag R)).
Proof.
  intros B R d l SR AR N NS E NL p D. apply (TgRel B R ((d ++ [47]) ++ r_path R)); auto. apply (MgDir B (r_path R) (d ++ [47]) l); auto; [|right; eauto].
  right. rewrite E. destruct d; discriminate.
Qed.
Ltac noslash := unfold no_slash; cbn; intuition discriminate.
(** the empty reference keeps the fragment of the base *)
Theorem C87_empty_reference_refuted : exists B R T, deviates B R T "http://a/b#c".
Proof.
  exists (u_of (Some "http"%string) (Some "a"%string) (Some "/b"%string) None (Some "c"%string)), (rel ""), (http "a" "/b"). dev. exact (TgEmpty (u_of (Some "http"%string) (Some "a"%string) (Some "/b"%string) None (Some "c"%string)) (rel "") eq_refl eq_refl eq_refl).
Qed.
(** so does one with an empty query keep the query *)
Theorem C87_empty_query_refuted : exists B R T, deviates B R T "http://a/b?c".
Proof.
  exists (u_of (Some "http"%string) (Some "a"%string) (Some "/b"%string) (Some "c"%string) None), (u_of None None None (Some ""%string) None), (u_of (Some "http"%string) (Some "a"%string) (Some "/b"%string) (Some ""%string) None). dev.
  exact (TgEmpty (u_of (Some "http"%string) (Some "a"%string) (Some "/b"%string) (Some "c"%string) None) (u_of None None None (Some ""%string) None) eq_refl eq_refl eq_refl).
Qed.
(** dot segments of absolute references are not removed *)
Theorem C87_absolute_dot_segments_refuted : exists B R T, deviates B R T "http://a/b/../c".
Proof.
  exists (http "a" "/"), (http "a" "/b/../c"), (http "a" "/c"). dev. apply (TgScheme _ (http "a" "/b/../c") (s2l "http") (s2l "/c")); [reflexivity|].
  change (dots_removed [] (47 :: s2l "b" ++ s2l "/../" ++ s2l "c") (s2l "/c")).
  apply DrE; [noslash|discriminate|discriminate|right; eexists; reflexivity|].
  apply (DrC1 _ []); [apply (LrSlash []); noslash|]. change (dots_removed [] (47 :: s2l "c" ++ []) ([] ++ 47 :: s2l "c")).
  apply DrE; [noslash|discriminate|discriminate|now left|]. apply DrEnd.
Qed.
(** empty segments are dropped *)
Theorem C87_empty_segments_refuted : exists B R T, deviates B R T "http://a/b/d".
Proof.
  exists (http "a" "/b//c"), (rel "d"), (http "a" "/b//d"). dev.
  apply (ex_merged (http "a" "/b//c") (rel "d") (s2l "/b/") (s2l "c")); try reflexivity; [discriminate|intros q; discriminate|noslash|]. apply dots_none, ex_no_dot. vm_compute. reflexivity.
Qed.
(** references to bases of most other schemes are not resolved at all *)
Theorem C87_other_schemes_refuted : exists B R T, deviates B R T "#c".
Proof.
  exists (u_of (Some "urn"%string) None (Some "a:b"%string) None None), (u_of None None None None (Some "c"%string)), (u_of (Some "urn"%string) None (Some "a:b"%string) None (Some "c"%string)). dev.
  exact (TgEmpty (u_of (Some "urn"%string) None (Some "a:b"%string) None None) (u_of None None None None (Some "c"%string)) eq_refl eq_refl eq_refl).
Qed.
(** a reference with the scheme of the base and no authority is taken as a relative one *)
Theorem C87_same_scheme_refuted : exists B R T, deviates B R T "http://a/b/c/g".
Proof.
  exists rfc_base, (u_of (Some "http"%string) None (Some "g"%string) None None), (u_of (Some "http"%string) None (Some "g"%string) None None). dev.
  eapply target_self; [reflexivity|]. apply ex_no_dot. vm_compute. reflexivity.
Qed.
(** parameters are split off before dot segments are removed *)
Theorem C87_parameters_refuted : exists B R T, deviates B R T "http://a/b/;x".
Proof.
  exists rfc_base, (rel "..;x"), (http "a" "/b/c/..;x"). dev.
  apply (ex_merged rfc_base (rel "..;x") (s2l "/b/c") (s2l "d;p")); try reflexivity; [discriminate|intros q; discriminate|noslash|].
  change (dots_removed [] (47 :: s2l "b" ++ 47 :: s2l "c" ++ 47 :: s2l "..;x" ++ []) ((([] ++ 47 :: s2l "b") ++ 47 :: s2l "c") ++ 47 :: s2l "..;x")).
  apply DrE; [noslash|discriminate|discriminate|right; eexists; reflexivity|]. apply DrE; [noslash|discriminate|discriminate|right; eexists; reflexivity|].
  apply DrE; [noslash|discriminate|discriminate|now left|]. apply DrEnd.
Qed.
(** and an empty parameter is dropped *)
Theorem C87_empty_parameters_refuted : exists B R T, deviates B R T "http://a/b/c/g".
Proof.
  exists rfc_base, (rel "g;"), (http "a" "/b/c/g;"). dev.
  apply (ex_merged rfc_base (rel "g;") (s2l "/b/c") (s2l "d;p")); try reflexivity; [discriminate|intros q; discriminate|noslash|]. apply dots_none, ex_no_dot. vm_compute. reflexivity.
Qed.
(** a base without an authority gets an empty one *)
Theorem C87_no_authority_refuted : exists B R T, deviates B R T "file:///a/c".
Proof.
  exists (u_of (Some "file"%string) None (Some "/a/b"%string) None None), (rel "c"), (u_of (Some "file"%string) None (Some "/a/c"%string) None None). dev.
  apply (ex_merged (u_of (Some "file"%string) None (Some "/a/b"%string) None None) (rel "c") (s2l "/a") (s2l "b")); try reflexivity; [discriminate|intros q; discriminate|noslash|]. apply dots_none, ex_no_dot. vm_compute. reflexivity.
Qed.
(** upper case letters of a scheme become lower case ones *)
Theorem C87_upper_case_refuted : exists B R T, deviates B R T "http://x/y".
Proof.
  exists (http "a" "/b"), (u_of (Some "HTTP"%string) (Some "x"%string) (Some "/y"%string) None None), (u_of (Some "HTTP"%string) (Some "x"%string) (Some "/y"%string) None None). dev.
  eapply target_self; [reflexivity|]. apply ex_no_dot. vm_compute. reflexivity.
Qed.

(** ** C88: documents and output with urllib's urljoin *)
(** no "<" appears out of nothing: what C79-C86 ask of urljoin *)
Theorem C88_joins_are_clean : forall bo nk, uj_clean (urljoin bo nk).
Proof. exact urljoin_clean. Qed.
(** a document whose references are among the agreed ones gives the triples it has by RFC 3986 *)
Theorem C88_documents : forall bo nk n base g d s L0 ts0 bs0, ~ In 60 base -> doc_text true d s -> forallb stmt_flat d = true -> doc_means rfc_resolves L0 (env0 base) d ts0 bs0 ->
  exists n' g' L ts bs, turtle_parse (urljoin bo nk) n base g (SrcStr s) = Some (n', g', Ok tt) /\
    doc_means rfc_resolves L (env0 base) d ts bs /\ NoDup bs /\ (forall a, In a bs -> n <= a < n') /\
    (forall x, In x (doc_labels d) -> n <= L x < n' /\ ~ In (L x) bs) /\
    (forall x y, In x (doc_labels d) -> In y (doc_labels d) -> L x = L y -> x = y) /\
    (forall t, In t (g_iter g') <-> In t (g_iter g) \/ In t ts).
Proof.
  intros bo nk n base g d s L0 ts0 bs0 NB T F M.
  assert (M' := doc_incl rfc_resolves (resolves_by (urljoin bo nk)) (rfc_incl bo nk) L0 (env0 base) d ts0 bs0 M).
  destruct (C83_adds_the_triples_of_the_text (urljoin bo nk) n base g d s L0 ts0 bs0 (urljoin_clean bo nk) NB T F M') as (n' & g' & L & ts & bs & P & D & X).
  exists n', g', L, ts, bs. split; [exact P|]. split; [|exact X]. exact (doc_switch rfc_resolves (resolves_by (urljoin bo nk)) (rfc_incl bo nk) (resolves_fun _) _ _ _ _ _ _ _ _ M D).
Qed.
(** and what a parser adds is what the text means with urllib's references *)
Theorem C88_added_triples : forall bo nk n base g s n' g', ~ In 60 base -> ~ newline_escape s ->
  turtle_parse (urljoin bo nk) n base g (SrcStr s) = Some (n', g', Ok tt) ->
  exists d L ts bs, doc_text false d s /\ doc_means (resolves_by (urljoin bo nk)) L (env0 base) d ts bs /\ NoDup bs /\ (forall a, In a bs -> n <= a < n') /\
    (forall x, In x (doc_labels d) -> n <= L x < n' /\ ~ In (L x) bs) /\
    (forall x y, In x (doc_labels d) -> In y (doc_labels d) -> L x = L y -> x = y) /\
    (forall t, In t (g_iter g') <-> In t (g_iter g) \/ In t ts).
Proof. intros bo nk n base g s n' g' NB NE E. eapply C83_added_triples_are_of_the_text; eauto using urljoin_clean. Qed.
(** output is read back, with or without a base *)
Theorem C88_round_trip : forall bo nk ord fuel pm base g early w n h B0, reachable g -> shuffle ord -> wreach_if early w ->
  usual w (g_iter g) (g_subjects g) fuel -> printable (g_iter g) (g_subjects g) -> no_stale_subjects (g_iter g) (g_subjects g) -> lists_alone (g_iter g) ->
  ~ In 60 B0 -> header_fit pm B0 base -> fit_graph pm B0 base (g_iter g) ->
  exists t n' h' ts bs, serialize_turtle ord fuel pm base g w = (w, (t, Ok tt)) /\ turtle_parse (urljoin bo nk) n B0 h (SrcStr t) = Some (n', h', Ok tt) /\
    graph_reads_as (g_iter g) ts bs /\ (forall a, In a bs -> n <= a < n') /\ (forall x, In x (g_iter h') <-> In x (g_iter h) \/ In x ts).
Proof.
  intros bo nk ord fuel pm base g early w n h B0 RG SH WR US PR NS LA NB HF F. destruct (fit_header bo nk pm B0 base HF) as [HL HM]. assert (HF' := HF). destruct HF' as (_ & LX & _).
  eapply C86_own_output; eauto using urljoin_clean. now apply fit_readable_graph.
Qed.

(** "http://a/bc" below the base "http://a/b" is written as <c> and misread; so are two slashes in a row *)
Theorem C88_based_names_refuted : exists g h t, reachable g /\ g_iter g = [Tr (Iri (s2l "http://a/bc")) (Iri (s2l "http://p")) (Iri (s2l "http://o"))] /\
  serialize_turtle same_order 9 default_pm (Some (s2l "http://a/b")) g world0 = (world0, (t, Ok tt)) /\
  (forall bo nk, turtle_parse (urljoin bo nk) 5 [] (graph_new None) (SrcStr t) = Some (5, h, Ok tt)) /\
  g_iter h = [Tr (Iri (s2l "http://a/c")) (Iri (s2l "http://p")) (Iri (s2l "http://o"))].
Proof.
  exists (graph_of [Tr (Iri (s2l "http://a/bc")) (Iri (s2l "http://p")) (Iri (s2l "http://o"))]). eexists _, _.
  split; [apply graph_of_reachable; repeat (constructor; [reflexivity|]); constructor|]. split; [vm_compute; reflexivity|]. split; [vm_compute; reflexivity|]. split; [intros; vm_compute; reflexivity|vm_compute; reflexivity].
Qed.
Theorem C88_two_slashes_refuted : exists g h t, reachable g /\ g_iter g = [Tr (Iri (s2l "http://a//c")) (Iri (s2l "http://p")) (Iri (s2l "http://o"))] /\
  serialize_turtle same_order 9 default_pm (Some (s2l "http://a/")) g world0 = (world0, (t, Ok tt)) /\
  (forall bo nk, turtle_parse (urljoin bo nk) 5 [] (graph_new None) (SrcStr t) = Some (5, h, Ok tt)) /\
  g_iter h = [Tr (Iri (s2l "http://a/c")) (Iri (s2l "http://p")) (Iri (s2l "http://o"))].
Proof.
  exists (graph_of [Tr (Iri (s2l "http://a//c")) (Iri (s2l "http://p")) (Iri (s2l "http://o"))]). eexists _, _.
  split; [apply graph_of_reachable; repeat (constructor; [reflexivity|]); constructor|]. split; [vm_compute; reflexivity|]. split; [vm_compute; reflexivity|]. split; [intros; vm_compute; reflexivity|vm_compute; reflexivity].
Qed.
(** a document whose base is a URN: its references stay relative *)
Theorem C88_urn_bases_refuted : exists s h, (forall bo nk, turtle_parse (urljoin bo nk) 5 [] (graph_new None) (SrcStr s) = Some (5, h, Ok tt)) /\
  s = s2l "@base <urn:x:y> . <#s> <http://p> <> ." /\ g_iter h = [Tr (Iri (s2l "#s")) (Iri (s2l "http://p")) (Iri (s2l "urn:x:y"))].
Proof. eexists _, _. split; [|split; [reflexivity|]]; [intros; vm_compute; reflexivity|vm_compute; reflexivity]. Qed.

(** examples: the graph of C86_example with the base "http://e/" *)
Definition ex_e : uri := http "e" "/".
Lemma ex_e_ok : base_ok ex_e.
Proof. apply ex_base; [vm_compute; reflexivity|apply ex_no_semi; vm_compute; reflexivity]. Qed.
Lemma ex_stays : forall B R, base_ok B -> r_scheme R = Some (s2l "http") -> uri_kept R -> no_dot_segment (r_path R) ->
  (exists c a, r_auth R = Some (c :: a)) -> rfc_resolves (uri_text B) (uri_text R) (uri_text R).
Proof.
  intros B R (OB & VB & (s & SB & IS) & (a & AB & PH) & _) SR KR ND C. right. exists B, R, R. do 2 (split; [reflexivity|]). split; [|split; [eapply target_self; eauto|reflexivity]].
  apply (AgAbsolute B R (s2l "http")); auto.
  - split; [exact OB|]. split; [exact VB|]. intros b E. rewrite AB in E. injection E as <-. exact PH.
  - intros t E. rewrite SB in E. injection E as <-. destruct (relative_facts s IS) as (_ & _ & _ & L & _).
    apply Forall_forall. intros c J. destruct (N.lt_ge_cases c 65); [auto|]. destruct (N.lt_ge_cases 90 c); [auto|]. exfalso.
    assert (X : lower_char c = c). { clear - L J. revert L J. induction s as [|d s IH]; intros L J; [destruct J|]. cbn in L. injection L as L1 L2. destruct J as [->|J]; auto. }
    unfold lower_char, in_range in X. destruct (N.leb_spec 65 c), (N.leb_spec c 90); cbn in X; lia.
  - apply (ex_chars (fun c => c < 65 \/ 90 < c) (fun c => (c <? 65) || (90 <? c))); [|vm_compute; reflexivity].
    intros c X. rewrite orb_true_iff, !N.ltb_lt in X. exact X.
Qed.
Lemma ex_kept : forall R a, ok_b R && forallb (fun c => 32 <? c) (uri_text R) && none_of [59] (r_path R) && none_of [91; 93] a && forallb (fun c => c <? 128) a = true ->
  r_auth R = Some a -> r_query R = None -> uri_kept R.
Proof.
  intros R a H A Q. do 4 (apply andb_true_iff in H; let X := fresh "H" in destruct H as [H X]). split; [split; [now apply ex_ok|split; [now apply ex_visible|]]|split].
  - intros b E. rewrite A in E. injection E as <-. apply Forall_forall. intros c J. assert (K := none_of_in _ _ _ H1 J). rewrite forallb_forall in H0. apply H0, N.ltb_lt in J. cbn in K. intuition congruence.
  - congruence.
  - intros [x E]. apply (none_of_in _ _ 59 H2); [rewrite E; apply in_or_app; right; now left|now left].
Qed.
Lemma ex_header_fit : header_fit default_pm [] (Some (uri_text ex_e)).
Proof.
  assert (K : forall f, f = "1999/02/22-rdf-syntax-ns"%string \/ f = "2001/XMLSchema"%string ->
    rfc_resolves (uri_text ex_e) (s2l "http://www.w3.org/" ++ s2l f ++ [35]) (s2l "http://www.w3.org/" ++ s2l f ++ [35])).
  { intros f F. assert (E : s2l "http://www.w3.org/" ++ s2l f ++ [35] = uri_text (mkUri (Some (s2l "http")) (Some (s2l "www.w3.org")) (47 :: s2l f) None (Some []))).
    { destruct F as [->| ->]; vm_compute; reflexivity. }
    rewrite E. apply ex_stays; [exact ex_e_ok|reflexivity| | |].
    - eapply ex_kept; [|reflexivity|reflexivity]. destruct F as [->| ->]; vm_compute; reflexivity.
    - cbn [r_path]. apply ex_no_dot. destruct F as [->| ->]; vm_compute; reflexivity.
    - eexists _, _. reflexivity. }
  split; [repeat constructor; cbn; intuition discriminate|]. split; [exact eg_xsd|]. split; [|split].
  - intros ns J. cbn in J. destruct J as [J|[J|[]]]; try discriminate J. now injection J as <-.
  - intros p ns J. cbn in J. destruct J as [J|[J|[]]]; injection J as <- <-; (split; [apply ex_letters_prefix; reflexivity|]; split; [apply ex_legal_text; vm_compute; reflexivity|]).
    + exact (K _ (or_introl eq_refl)).
    + exact (K _ (or_intror eq_refl)).
  - intros b E. injection E as <-. split; [apply ex_legal_text; vm_compute; reflexivity|]. now left.
Qed.
Lemma ex_fit_names : forall n, In n ["s"; "t"; "p"; "q"]%string -> fit_node default_pm [] (Some (uri_text ex_e)) (Iri (eg n)).
Proof.
  intros n J. cbn [fit_node].
  assert (F : exists c, s2l n = [c] /\ (c = 115 \/ c = 116 \/ c = 112 \/ c = 113)).
  { cbn in J. destruct J as [<-|[<-|[<-|[<-|[]]]]]; eexists; (split; [reflexivity|]); tauto. }
  destruct F as (c & E & F).
  apply (FiBelow _ _ _ _ ex_e (rel n)); try reflexivity.
  - exact ex_e_ok.
  - exists []. reflexivity.
  - unfold eg. unfold uri_text, hier_text, rel, u_of. cbn. now rewrite ?app_nil_r.
  - intros p ns K [r X]. cbn in K. destruct K as [K|[K|[]]]; injection K as <- <-; discriminate X.
  - intros (x & y & X). assert (L := f_equal (@length _) X). unfold uri_text, hier_text in L. cbn in L. rewrite E, !app_length in L. cbn in L. lia.
  - unfold uri_text, hier_text. cbn. rewrite E. apply ex_legal_text. destruct F as [->|[->|[->| ->]]]; vm_compute; reflexivity.
  - apply ex_refs; [|apply ex_no_semi]; clear E F; destruct J as [<-|[<-|[<-|[<-|[]]]]]; vm_compute; reflexivity.
  - intros q X. cbn in X. rewrite E in X. injection X as X _. lia.
  - apply ex_no_dot. cbn [r_path rel u_of ex_e http]. rewrite E. destruct F as [->|[->|[->| ->]]]; vm_compute; reflexivity.
Qed.
Lemma ex_fit_graph : fit_graph default_pm [] (Some (uri_text ex_e)) eg_ts.
Proof.
  assert (C1 : list_cell eg_ts (BNode 1)) by (exists (BNode 2); do 4 right; now left). assert (C2 : list_cell eg_ts (BNode 2)) by (exists (rdf1 "nil"); do 6 right; now left).
  assert (PL : Forall plain_char (s2l "x") /\ Forall plain_char (s2l "a")) by (split; (constructor; [unfold plain_char; do 3 (split; [discriminate|]); discriminate|constructor])).
  assert (R := ex_fit_names).
  assert (NL : forall o os x, ~ list_cell eg_ts o -> list_of eg_ts o os -> In x os -> False).
  { intros o os x N LO K. inversion LO as [|? ? s' ? ? C _]; subst; [destruct K|]. destruct C as (_ & _ & _ & C & _). apply N. exists s'. now apply C. }
  assert (NC : forall o, o <> BNode 1 -> o <> BNode 2 -> ~ list_cell eg_ts o) by (intros o A B L; apply eg_cells in L; tauto).
  intros t J N. cbn [eg_ts] in J. destruct J as [<-|[<-|[<-|[<-|[<-|[<-|[<-|[]]]]]]]]; try (now destruct N); cbn [st_s st_p st_o Tr]; do 2 (split; [apply R; cbn; tauto|]).
  - split; [intros _; apply R; cbn; tauto|]. intros os x LO K. exfalso. eapply NL; [|exact LO|exact K]. apply NC; discriminate.
  - split; [intros _; split; [discriminate|split; [apply PL|discriminate]]|]. intros os x LO K. exfalso. eapply NL; [|exact LO|exact K]. apply NC; discriminate.
  - split; [intros X; now destruct X|]. intros os x LO K.
    assert (P := TurtleWrite.path_end (graph_of eg_ts)). rewrite (proj1 eg_iter) in P.
    destruct (P _ _ _ LO _ _ eg_list ltac:(auto) ltac:(auto)) as [-> _]. destruct K as [<-|[<-|[]]]; split.
    + discriminate.
    + split; [apply PL|]. intros c u E. injection E as <- <-. exists (s2l "en"), []. split; [reflexivity|]. split; [apply ex_letters; reflexivity|]. split; [discriminate|constructor].
    + intros dt E. injection E as <-. apply ex_legal_text. vm_compute. reflexivity.
    + right. left. split; [reflexivity|]. exists [], (s2l "7"). split; [reflexivity|]. split; [now left|]. split; [constructor; [vm_compute; split; discriminate|constructor]|discriminate].
Qed.
Example C88_example : header_fit default_pm [] (Some (uri_text ex_e)) /\ fit_graph default_pm [] (Some (uri_text ex_e)) (g_iter (graph_of eg_ts)) /\
  snd (serialize_turtle same_order 9 default_pm (Some (uri_text ex_e)) (graph_of [Tr (Iri (eg "s")) (Iri (eg "p")) (Lit (s2l "x") None None)]) world0) =
    (s2l "@base <http://e/> ." ++ [10] ++ s2l "@prefix xsd: <http://www.w3.org/2001/XMLSchema#> ." ++ [10] ++ s2l "<s> <p> " ++ [34] ++ s2l "x" ++ [34] ++ s2l " ;" ++ [10] ++ s2l "    ." ++ [10; 10], Ok tt) /\
  exists h, turtle_parse (urljoin (fun _ => true) (fun _ => true)) 5 [] (graph_new None) (SrcStr (fst (snd (serialize_turtle same_order 9 default_pm (Some (uri_text ex_e)) (graph_of eg_ts) world0)))) = Some (7, h, Ok tt) /\
    same_elements (g_iter h) [Tr (Iri (eg "t")) (Iri (eg "p")) (Iri (eg "s")); Tr (Iri (eg "s")) (Iri (eg "q")) (Lit (s2l "x") None (Some (xsd "string"))); Tr (Iri (eg "s")) (Iri (eg "p")) (BNode 6);
      Tr (BNode 6) (rdf1 "first") (en "a"); Tr (BNode 6) (rdf1 "rest") (BNode 5); Tr (BNode 5) (rdf1 "first") (Lit (s2l "7") None (Some (xsd "integer"))); Tr (BNode 5) (rdf1 "rest") (rdf1 "nil")].
Proof.
  split; [exact ex_header_fit|]. split; [rewrite (proj1 eg_iter); exact ex_fit_graph|]. split; [vm_compute; reflexivity|].
  eexists. split; [vm_compute; reflexivity|]. intro x. vm_compute. tauto.
Qed.
(** and a document with a base and references *)
Definition ex_doc : str := s2l "<../s> a _:b , [ ] .".
Definition ex_doc_tree : list tstmt := [STriples (ex_ref "../s") (PCons VA (ex_list [TLabel (s2l "_:b"); TAnon]) PNil)].
Example C88_document_example : doc_means rfc_resolves (fun _ => 0) (env0 (uri_text rfc_base)) ex_doc_tree [Tr (Iri (s2l "http://a/b/s")) (rdf1 "type") (BNode 0); Tr (Iri (s2l "http://a/b/s")) (rdf1 "type") (BNode 9)] [9] /\
  turtle_text ex_doc = Ok ex_doc_tree /\
  exists h, turtle_parse (urljoin (fun _ => true) (fun _ => true)) 5 (uri_text rfc_base) (graph_new None) (SrcStr ex_doc) = Some (7, h, Ok tt) /\ length (g_iter h) = 2%nat.
Proof.
  split; [|split; [vm_compute; reflexivity|eexists; split; vm_compute; reflexivity]].
  set (s := Iri (s2l "http://a/b/s")).
  assert (RR : ref_ok rfc_base (rel "../s")) by (apply ex_refs; [vm_compute; reflexivity|apply ex_no_semi; vm_compute; reflexivity]).
  assert (M : rfc_resolves (uri_text rfc_base) (s2l "../s") (s2l "http://a/b/s")).
  { right. destruct (C87_relative_references (fun _ => true) (fun _ => true) rfc_base _ rfc_base_ok RR) as (T & HT & _ & E).
    exists rfc_base, (rel "../s"), T. split; [reflexivity|]. split; [vm_compute; reflexivity|]. split; [now apply AgRelative; [exact rfc_base_ok|]|]. split; [exact HT|].
    assert (V : smart_urljoin (urljoin (fun _ => true) (fun _ => true)) (uri_text rfc_base) (uri_text (rel "../s")) = Ok (s2l "http://a/b/s")) by (vm_compute; reflexivity).
    congruence. }
  apply (dm_triples rfc_resolves (fun _ => 0) (env0 (uri_text rfc_base)) (ex_ref "../s") _ [] s [] [Tr s (rdf1 "type") (BNode 0); Tr s (rdf1 "type") (BNode 9)] [] [] [9] []).
  - constructor. constructor. exists (s2l "../s"). split; [apply plain_denotes; vm_compute; intuition discriminate|]. split; [apply ex_legal_text; vm_compute; reflexivity|exact M].
  - apply (pm_cons rfc_resolves _ _ s VA (rdf_iri "type") (TLabel (s2l "_:b")) _ PNil (BNode 0) [] [Tr s (rdf1 "type") (BNode 9)] [] [9]); [constructor|apply om_label|].
    apply (pm_cons rfc_resolves _ _ s VA (rdf_iri "type") TAnon _ PNil (BNode 9) [] [] [9] []); [constructor|constructor|]. apply pm_none. constructor.
  - constructor.
Qed.

Print Assumptions C87_relative_references.
Print Assumptions C87_absolute_references.
Print Assumptions C87_network_path_references.
Print Assumptions C87_references_in_documents.
Print Assumptions C87_one_reading.
Print Assumptions C87_empty_reference_refuted.
Print Assumptions C87_empty_query_refuted.
Print Assumptions C87_absolute_dot_segments_refuted.
Print Assumptions C87_empty_segments_refuted.
Print Assumptions C87_other_schemes_refuted.
Print Assumptions C87_same_scheme_refuted.
Print Assumptions C87_parameters_refuted.
Print Assumptions C87_empty_parameters_refuted.
Print Assumptions C87_no_authority_refuted.
Print Assumptions C87_upper_case_refuted.
Print Assumptions C88_joins_are_clean.
Print Assumptions C88_documents.
Print Assumptions C88_added_triples.
Print Assumptions C88_round_trip.
Print Assumptions C88_based_names_refuted.
Print Assumptions C88_two_slashes_refuted.
Print Assumptions C88_urn_bases_refuted.
