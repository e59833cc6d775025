(** Lemmas for C81. *)
From Verif Require Import Model.Py Model.Terms Model.Graph Model.GraphRun Model.Codec Model.NTriples Model.RdfXml Spec.GraphSpec Spec.RdfXmlSpec
  Proofs.DictLemmas.
Open Scope N_scope.

Lemma tag_eq_true : forall e s, tag_eq e s = true -> el_tag e = Some s.
Proof. intros e s. unfold tag_eq, str_eqb. destruct (el_tag e) as [t|]; [|discriminate]. destruct (str_eq_dec t s); [congruence|discriminate]. Qed.
Lemma properties_ok : forall uj s children g p g', properties uj g s p children = (g', Ok tt) ->
  forall c t, In c children -> el_tag c = Some t -> namespaced t -> t = rdf "li".
Proof.
  induction children as [|c r IH]; intros g p g' H x t J T N; [destruct J|]. cbn [properties] in H. change (clark "li") with (rdf "li") in H.
  assert (K : (forall t, el_tag c = Some t -> namespaced t -> t = rdf "li") /\ exists g1 p1, properties uj g1 s p1 r = (g', Ok tt)).
  { destruct (tag_eq c (rdf "li")) eqn:L.
    - apply tag_eq_true in L. split; [congruence|]. destruct (attr c (clark "resource")) as [u|]; [|eauto]. destruct (resolve_uri uj c u); [|discriminate H]. destruct p; [eauto|discriminate H].
    - unfold resolve_tag in H. destruct (el_tag c) as [[|ch t']|]; [discriminate H| |discriminate H]. destruct (N.eqb_spec ch 123) as [E|E]; [discriminate H|]. split.
      + intros t0 [= <-] (ns & l & X). injection X as X _. contradiction.
      + destruct (urljoin uj (el_base c) (ch :: t')); [|discriminate H]. cbn [bind] in H. destruct (attr c (clark "resource")) as [u|]; [|eauto]. destruct (resolve_uri uj c u); [eauto|discriminate H]. }
  destruct K as [K (g1 & p1 & H1)]. destruct J as [<-|J]; [auto|]. exact (IH _ _ _ H1 x t J T N).
Qed.

(** ** Exactly what is read *)
Lemma first_dget : forall {V} (m : dict str V) k v, (exists m1 m2, m = m1 ++ (k, v) :: m2 /\ ~ In k (map fst m1)) <-> dget str_eq_dec m k = Some v.
Proof.
  intros V m k v. split.
  - intros (m1 & m2 & -> & N). induction m1 as [|[k' v'] m1 IH]; cbn [app dget].
    + destruct (str_eq_dec k k); [reflexivity|congruence].
    + destruct (str_eq_dec k k') as [->|]; [exfalso; apply N; now left|]. apply IH. intro X. apply N. now right.
  - induction m as [|[k' v'] m IH]; cbn [dget]; [discriminate|]. destruct (str_eq_dec k k') as [->|Ne]; intro H.
    + inversion H; subst. exists [], m. split; [reflexivity|intros []].
    + destruct (IH H) as (m1 & m2 & -> & N). exists ((k', v') :: m1), m2. split; [reflexivity|].
      intros [X|X]; [cbn in X; congruence|contradiction].
Qed.
Lemma attr_has : forall e k u, has_attr e k u <-> attr e k = Some u.
Proof. intros. apply first_dget. Qed.
Lemma attr_no : forall e k, no_attr e k <-> attr e k = None.
Proof. intros. unfold no_attr, attr. symmetry. exact (dget_None_iff str_eq_dec (el_attrib e) k). Qed.
Section Exact.
  Variable uj : str -> str -> res str.
  Lemma joined_ok : forall e u x, joined uj e u x <-> urljoin uj (el_base e) u = Ok x.
  Proof.
    intros e u x. unfold urljoin. split.
    - intros [[E|E]|b y E B H]; rewrite E; auto. destruct b; [congruence|assumption].
    - destruct (el_base e) as [[|c b]|] eqn:E; intro H; [injection H as <-; apply jn_none; auto| |injection H as <-; apply jn_none; auto].
      apply jn_base with (c :: b); auto. discriminate.
  Qed.
  Lemma scheme_match_spec : forall u, scheme_match u = true <-> exists c r, u = c :: r /\ ascii_alpha c.
  Proof.
    intros [|c r]; cbn [scheme_match].
    - split; [discriminate|intros (c & r & E & _); discriminate].
    - unfold in_range. rewrite orb_true_iff, !andb_true_iff, !N.leb_le. split; [intro H; exists c, r; auto|intros (c' & r' & [= <- <-] & H); exact H].
  Qed.
  Lemma ref_ok : forall e u x, ref_of uj e u x <-> resolve_uri uj e u = Ok x.
  Proof.
    intros e u x. unfold resolve_uri. destruct (scheme_match u) eqn:S.
    - assert (S' := proj1 (scheme_match_spec u) S). split; [intros [H|y H J]; [reflexivity|contradiction]|intros [= <-]; now apply rf_letter].
    - assert (S' : ~ exists c r, u = c :: r /\ ascii_alpha c) by (intro X; apply scheme_match_spec in X; congruence).
      rewrite <- joined_ok. split; [intros [H|y H J]; [contradiction|assumption]|intro J; now apply rf_other].
  Qed.
  Lemma name_ok : forall e x, name_of uj e x <-> resolve_tag uj e = Ok x.
  Proof.
    intros e x. unfold name_of, resolve_tag. split.
    - intros (c & t & -> & N & J). apply N.eqb_neq in N. rewrite N. now apply joined_ok.
    - destruct (el_tag e) as [[|c t]|]; try discriminate. destruct (N.eqb_spec c 123); [discriminate|]. intro J. exists c, t. repeat split; auto. now apply joined_ok.
  Qed.
  Lemma subject_ok : forall n m e n' m' s, subject_of uj n m e n' m' s <-> determine_subject uj (mkB n m) e = (mkB n' m', Ok s).
  Proof.
    intros n m e n' m' s. unfold determine_subject. change (clark "nodeID") with (rdf "nodeID"). change (clark "ID") with (rdf "ID").
    change (clark "about") with (rdf "about"). change (clark "resource") with (rdf "resource"). split.
    - intros [id a A M|id A M|id b A B E NE|a u x A B C D R|A B C].
      + apply attr_has in A. rewrite A. unfold make_bnode. cbn [bs_map]. apply first_dget in M. now rewrite M.
      + apply attr_has in A. rewrite A. unfold make_bnode. cbn [bs_map bs_next]. assert (G : dget str_eq_dec m id = None) by now apply (dget_None_iff str_eq_dec).
        rewrite G. now rewrite (dkeys_dset_notin str_eq_dec m id n M).
      + apply attr_no in A. apply attr_has in B. rewrite A, B, E. destruct b; [congruence|reflexivity].
      + apply attr_no in A. apply attr_no in B. apply attr_has in C. apply attr_has in D. rewrite A, B, C, D. apply ref_ok in R. now rewrite R.
      + apply attr_no in A. apply attr_no in B. apply attr_no in C. rewrite A, B, C. reflexivity.
    - destruct (attr e (rdf "nodeID")) as [id|] eqn:A.
      + unfold make_bnode. cbn [bs_map bs_next]. destruct (dget str_eq_dec m id) as [a|] eqn:M; intros [= <- <- <-].
        * apply sb_known with id; [now apply attr_has|now apply first_dget].
        * assert (M' : ~ In id (map fst m)) by (apply (dget_None_iff str_eq_dec); exact M). rewrite (dkeys_dset_notin str_eq_dec m id n M'). apply sb_new; auto. now apply attr_has.
      + apply attr_no in A. destruct (attr e (rdf "ID")) as [id|] eqn:B.
        * intros [= <- <- H]. destruct (el_base e) as [[|c b]|] eqn:E; try discriminate. injection H as <-.
          apply (sb_id uj n m e id (c :: b)); auto; [now apply attr_has|discriminate].
        * apply attr_no in B. destruct (attr e (rdf "about")) as [a|] eqn:C.
          -- intros [= <- <- H]. destruct (attr e (rdf "resource")) as [u|] eqn:D; [|discriminate]. destruct (resolve_uri uj e u) as [x|] eqn:R; [|discriminate]. injection H as <-.
             apply sb_about with a u; auto; [now apply attr_has|now apply attr_has|now apply ref_ok].
          -- intros [= <- <- <-]. apply sb_blank; auto. now apply attr_no.
  Qed.
  Lemma tag_eq_iff : forall e t, tag_eq e t = true <-> el_tag e = Some t.
  Proof.
    intros e t. split; [apply tag_eq_true|]. intro H. unfold tag_eq, str_eqb. rewrite H. now destruct (str_eq_dec t t).
  Qed.
  Lemma props_ok : forall s cs p g g', properties uj g s p cs = (g', Ok tt) <-> exists ts, props_of uj s p cs ts /\ g' = g_addAll g ts.
  Proof.
    intros s cs. induction cs as [|c cs IH]; intros p g g'.
    - cbn [properties]. split; [intros [= <-]; exists []; split; [constructor|reflexivity]|intros (ts & H & ->); inversion H; reflexivity].
    - cbn [properties]. change (clark "li") with (rdf "li"). change (clark "resource") with (rdf "resource"). destruct (tag_eq c (rdf "li")) eqn:T.
      + apply tag_eq_iff in T. destruct (attr c (rdf "resource")) as [u|] eqn:A.
        * destruct (resolve_uri uj c u) as [o|x] eqn:R.
          -- destruct p as [x|].
             ++ rewrite IH. split.
                ** intros (ts & H & ->). exists (Tr s (Iri x) (Iri o) :: ts). split; [|reflexivity]. apply po_li_ref with u; auto; [now apply attr_has|now apply ref_ok].
                ** intros (ts & H & ->). inversion H as [|? ? ? ? T' N|? ? ? ts' u' y T' N R' H'|? x' ? ? ? N|? x' ? ? ts' u' y N]; subst.
                   --- apply attr_no in N. congruence.
                   --- apply attr_has in N. apply ref_ok in R'. rewrite A in N. injection N as <-. rewrite R in R'. injection R' as <-. exists ts'. auto.
                   --- exfalso. destruct N as (k & t & N & K & _). rewrite T in N. injection N as <- _. now apply K.
                   --- exfalso. destruct N as (k & t & N & K & _). rewrite T in N. injection N as <- _. now apply K.
             ++ split; [discriminate|]. intros (ts & H & _). exfalso. inversion H as [|? ? ? ? T' N|? ? ? ts' u' y T' N R' H'|? x' ? ? ? N|? x' ? ? ts' u' y N]; subst.
                ** apply attr_no in N. congruence.
                ** destruct N as (k & t & N & K & _). rewrite T in N. injection N as <- _. now apply K.
                ** destruct N as (k & t & N & K & _). rewrite T in N. injection N as <- _. now apply K.
          -- split; [discriminate|]. intros (ts & H & _). exfalso. inversion H as [|? ? ? ? T' N|? ? ? ts' u' y T' N R' H'|? x' ? ? ? N|? x' ? ? ts' u' y N]; subst.
             ++ apply attr_no in N. congruence.
             ++ apply attr_has in N. apply ref_ok in R'. congruence.
             ++ destruct N as (k & t & N & K & _). rewrite T in N. injection N as <- _. now apply K.
             ++ destruct N as (k & t & N & K & _). rewrite T in N. injection N as <- _. now apply K.
        * rewrite IH. split.
          -- intros (ts & H & ->). exists ts. split; [|reflexivity]. apply po_li; auto. now apply attr_no.
          -- intros (ts & H & ->). exists ts. split; [|reflexivity]. inversion H as [|? ? ? ? T' N|? ? ? ts' u' y T' N R' H'|? x' ? ? ? N|? x' ? ? ts' u' y N]; subst; auto.
             ++ apply attr_has in N. congruence.
             ++ exfalso. destruct N as (k & t & N & K & _). rewrite T in N. injection N as <- _. now apply K.
             ++ exfalso. destruct N as (k & t & N & K & _). rewrite T in N. injection N as <- _. now apply K.
      + assert (T' : el_tag c <> Some (rdf "li")) by (intro X; apply tag_eq_iff in X; congruence). destruct (resolve_tag uj c) as [x|err] eqn:Nm; cbn [bind].
        * assert (Nm' := proj2 (name_ok c x) Nm). destruct (attr c (rdf "resource")) as [u|] eqn:A.
          -- destruct (resolve_uri uj c u) as [o|err] eqn:R.
             ++ rewrite IH. split.
                ** intros (ts & H & ->). exists (Tr s (Iri x) (Iri o) :: ts). split; [|reflexivity]. apply po_name_ref with u; auto; [now apply attr_has|now apply ref_ok].
                ** intros (ts & H & ->). inversion H as [|? ? ? ? T2 N|? ? ? ts' u' y T2 N R' H'|? x' ? ? ? N N2|? x' ? ? ts' u' y N N2 R' H']; subst; try contradiction.
                   --- apply attr_no in N2. congruence.
                   --- apply name_ok in N. rewrite Nm in N. injection N as <-. apply attr_has in N2. rewrite A in N2. injection N2 as <-. apply ref_ok in R'. rewrite R in R'. injection R' as <-. exists ts'. auto.
             ++ split; [discriminate|]. intros (ts & H & _). exfalso. inversion H as [|? ? ? ? T2 N|? ? ? ts' u' y T2 N R' H'|? x' ? ? ? N N2|? x' ? ? ts' u' y N N2 R' H']; subst; try contradiction.
                ** apply attr_no in N2. congruence.
                ** apply attr_has in N2. apply ref_ok in R'. congruence.
          -- rewrite IH. split.
             ++ intros (ts & H & ->). exists ts. split; [|reflexivity]. apply po_name with x; auto. now apply attr_no.
             ++ intros (ts & H & ->). inversion H as [|? ? ? ? T2 N|? ? ? ts' u' y T2 N R' H'|? x' ? ? ? N N2|? x' ? ? ts' u' y N N2 R' H']; subst; try contradiction.
                ** apply name_ok in N. rewrite Nm in N. injection N as <-. eauto.
                ** apply attr_has in N2. congruence.
        * split; [discriminate|]. intros (ts & H & _). exfalso. inversion H as [|? ? ? ? T2 N|? ? ? ts' u' y T2 N R' H'|? x' ? ? ? N N2|? x' ? ? ts' u' y N N2 R' H']; subst; try contradiction.
          -- apply name_ok in N. congruence.
          -- apply name_ok in N. congruence.
  Qed.
  Lemma handle_exactly : forall n m g e n' m' g' s, handle_resource uj (mkB n m) g e = (mkB n' m', g', Ok s) <->
    subject_of uj n m e n' m' s /\ exists t ts, type_of uj s e t /\ props_of uj s None (el_children e) ts /\ g' = g_addAll g (t ++ ts).
  Proof.
    intros n m g e n' m' g' s. unfold handle_resource. change (clark "Description") with (rdf "Description"). split.
    - destruct (determine_subject uj (mkB n m) e) as [[n1 m1] [s'|x]] eqn:D; [|discriminate]. destruct (tag_eq e (rdf "Description")) eqn:T.
      + apply tag_eq_iff in T. destruct (properties uj g s' None (el_children e)) as [g1 [[]|x]] eqn:P; [|discriminate]. intros [= <- <- <- <-]. split; [now apply subject_ok|].
        apply props_ok in P. destruct P as (ts & P & ->). exists [], ts. split; [now apply ty_none|auto].
      + destruct (resolve_tag uj e) as [x|x] eqn:Nm; [|discriminate]. cbn [bind]. destruct (properties uj _ s' None (el_children e)) as [g1 [[]|y]] eqn:P; [|discriminate].
        intros [= <- <- <- <-]. split; [now apply subject_ok|]. apply props_ok in P. destruct P as (ts & P & ->). eexists. exists ts.
        split; [apply (ty_name uj s' e x); apply name_ok; exact Nm|]. split; [assumption|]. reflexivity.
    - intros (S & t & ts & T & P & ->). apply subject_ok in S. rewrite S. assert (P' : forall g0, properties uj g0 s None (el_children e) = (g_addAll g0 ts, Ok tt)) by (intro g0; apply props_ok; eauto).
      destruct T as [T|x T].
      + apply tag_eq_iff in T. rewrite T, P'. reflexivity.
      + assert (F : tag_eq e (rdf "Description") = false).
        { destruct (tag_eq e (rdf "Description")) eqn:F; auto. apply tag_eq_iff in F. destruct T as (c & r & T & N & _). rewrite F in T. injection T as <- _. now destruct N. }
        rewrite F. apply name_ok in T. rewrite T. cbn [bind]. rewrite P'. reflexivity.
  Qed.
  Lemma foreign_name : forall e t, el_tag e = Some t -> namespaced t -> resolve_tag uj e = Err AttributeError.
  Proof. intros e t T (ns & l & ->). unfold resolve_tag. rewrite T. reflexivity. Qed.
  Lemma foreign_not_name : forall e t x, el_tag e = Some t -> namespaced t -> ~ name_of uj e x.
  Proof. intros e t x T N H. apply name_ok in H. rewrite (foreign_name e t T N) in H. discriminate. Qed.
  Lemma foreign_property : forall s c t r, el_tag c = Some t -> namespaced t -> t <> rdf "li" ->
    forall pre p ts g, props_of uj s p pre ts -> properties uj g s p (pre ++ c :: r) = (g_addAll g ts, Err AttributeError).
  Proof.
    intros s c t r T N L pre p ts g H. revert g. induction H as [p|p d q ts T' A H IH|x d q ts u y T' A R H IH|p x d q ts Nm A H IH|p x d q ts u y Nm A R H IH]; intro g; cbn [app properties].
    - change (clark "li") with (rdf "li"). destruct (tag_eq c (rdf "li")) eqn:F; [apply tag_eq_iff in F; congruence|]. rewrite (foreign_name c t T N). reflexivity.
    - change (clark "li") with (rdf "li"). change (clark "resource") with (rdf "resource"). apply tag_eq_iff in T'. apply attr_no in A. rewrite T', A. apply IH.
    - change (clark "li") with (rdf "li"). change (clark "resource") with (rdf "resource"). apply tag_eq_iff in T'. apply attr_has in A. apply ref_ok in R. rewrite T', A, R. apply IH.
    - change (clark "li") with (rdf "li"). change (clark "resource") with (rdf "resource"). apply attr_no in A.
      destruct (tag_eq d (rdf "li")) eqn:F; [apply tag_eq_iff in F; destruct Nm as (k & w & E & K & _); rewrite F in E; injection E as <- _; now destruct K|].
      apply name_ok in Nm. rewrite Nm. cbn [bind]. rewrite A. apply IH.
    - change (clark "li") with (rdf "li"). change (clark "resource") with (rdf "resource"). apply attr_has in A. apply ref_ok in R.
      destruct (tag_eq d (rdf "li")) eqn:F; [apply tag_eq_iff in F; destruct Nm as (k & w & E & K & _); rewrite F in E; injection E as <- _; now destruct K|].
      apply name_ok in Nm. rewrite Nm. cbn [bind]. rewrite A, R. apply IH.
  Qed.
  Lemma foreign_resource : forall n m g e n' m' s t, subject_of uj n m e n' m' s -> el_tag e = Some t -> namespaced t -> t <> rdf "Description" ->
    handle_resource uj (mkB n m) g e = (mkB n' m', g, Err AttributeError).
  Proof.
    intros n m g e n' m' s t S T N D. unfold handle_resource. apply subject_ok in S. rewrite S. change (clark "Description") with (rdf "Description").
    destruct (tag_eq e (rdf "Description")) eqn:F; [apply tag_eq_iff in F; congruence|]. rewrite (foreign_name e t T N). reflexivity.
  Qed.
  Lemma foreign_child : forall n m g e n' m' s ty pre c t r ts, subject_of uj n m e n' m' s -> type_of uj s e ty -> el_children e = pre ++ c :: r ->
    props_of uj s None pre ts -> el_tag c = Some t -> namespaced t -> t <> rdf "li" ->
    handle_resource uj (mkB n m) g e = (mkB n' m', g_addAll g (ty ++ ts), Err AttributeError).
  Proof.
    intros n m g e n' m' s ty pre c t r ts S Y C P T N L. unfold handle_resource. apply subject_ok in S. rewrite S. change (clark "Description") with (rdf "Description"). rewrite C.
    destruct Y as [Y|x Y].
    - apply tag_eq_iff in Y. rewrite Y, (foreign_property s c t r T N L pre None ts g P). reflexivity.
    - destruct (tag_eq e (rdf "Description")) eqn:F; [apply tag_eq_iff in F; destruct Y as (k & w & E & K & _); rewrite F in E; injection E as <- _; now destruct K|].
      apply name_ok in Y. rewrite Y. cbn [bind]. rewrite (foreign_property s c t r T N L pre None ts _ P). reflexivity.
  Qed.
End Exact.
