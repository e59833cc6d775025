(** Transformer, whole parse calls, and the round trip. *)
From Verif Require Import Model.Py Model.Terms Model.Graph Model.Codec Model.NTriples Spec.CodecSpec Spec.NTSpec Spec.GraphSpec
  Proofs.DictLemmas Proofs.CodecLemmas Proofs.Utf8 Proofs.IriLemmas Proofs.NTLex Proofs.CodecMore Proofs.NTDoc
  Proofs.GraphInv Proofs.ThreadLemmas.
Open Scope N_scope.

(** ** Blank node tables *)
Definition binv (n : N) (b : bstate) : Prop :=
  n <= bs_next b /\
  (forall l a, sget (bs_map b) l = Some a -> n <= a < bs_next b) /\
  (forall l l' a, sget (bs_map b) l = Some a -> sget (bs_map b) l' = Some a -> l = l').
Definition bext (b b' : bstate) : Prop :=
  bs_next b <= bs_next b' /\ forall l a, sget (bs_map b) l = Some a -> sget (bs_map b') l = Some a.

Lemma bext_refl : forall b, bext b b.
Proof. intro b. split; [lia|auto]. Qed.
Lemma bext_trans : forall a b c, bext a b -> bext b c -> bext a c.
Proof. intros a b c [L H] [L' H']. split; [lia|auto]. Qed.
Lemma prepare_inv : forall n, binv n (prepare n).
Proof. intro n. split; [cbn; lia|]. split; intros; discriminate. Qed.

Lemma make_bnode_spec : forall n b l b' t, binv n b -> make_bnode b l = (b', t) ->
  binv n b' /\ bext b b' /\ exists a, t = BNode a /\ sget (bs_map b') l = Some a.
Proof.
  intros n b l b' t (L & R & J) H. destruct (make_bnode_cases b l) as [(a & E & M)|(E & M)]; rewrite M in H; inversion H; subst; clear H.
  - split; [split; [assumption|split; assumption]|]. split; [apply bext_refl|]. eauto.
  - split; [split; [cbn [bs_next]; lia|split]|split].
    + cbn [bs_next bs_map]. intros l' a G. rewrite dget_dset in G. destruct (str_eq_dec l l'); [inversion G; lia|].
      apply R in G. lia.
    + cbn [bs_map]. intros l1 l2 a G1 G2. rewrite dget_dset in G1, G2.
      destruct (str_eq_dec l l1), (str_eq_dec l l2); try congruence.
      * inversion G1; subst. apply R in G2. lia.
      * inversion G2; subst. apply R in G1. lia.
      * eauto.
    + split; cbn [bs_next bs_map]; [lia|]. intros l' a G. rewrite dget_dset_neq; [assumption|]. intros ->. congruence.
    + eexists. split; [reflexivity|]. cbn [bs_map]. apply dget_dset_eq.
Qed.
Lemma tr_term_inv : forall n b x b' r, binv n b -> tr_term b x = (b', r) -> binv n b' /\ bext b b'.
Proof.
  intros n b [s|l|v k] b' r I H; cbn [tr_term] in H.
  - inversion H; subst. split; [assumption|apply bext_refl].
  - destruct (make_bnode b l) as [b1 t] eqn:M. inversion H; subst. apply (make_bnode_spec n) in M; [|assumption]. tauto.
  - inversion H; subst. split; [assumption|apply bext_refl].
Qed.

(** ** Transforming what the serializer wrote *)
(** the renaming that a final table gives *)
Definition fren (b : bstate) (a : N) : N := match sget (bs_map b) (bnode_str a) with Some x => x | None => 0 end.

Lemma quoted_no_bs : forall s, py_str s -> ~ In 92 (quoted s).
Proof.
  intros s H X. pose proof (quoted_uri s H) as F. rewrite Forall_forall in F. apply F in X. discriminate X.
Qed.
Lemma decode_quoted : forall s, py_str s -> decode_literal (quoted s) = Ok (quoted s).
Proof. intros s H. apply decode_no_backslash. now apply quoted_no_bs. Qed.

Lemma tr_term_raw : forall n t b, nt_object t -> binv n b ->
  exists b' x, tr_term b (raw_of t) = (b', Ok x) /\ binv n b' /\ bext b b' /\
    (forall a, t = BNode a -> sget (bs_map b') (bnode_str a) <> None) /\
    forall bf, bext b' bf -> x = rename (fren bf) (nt_image t).
Proof.
  intros n t b Ht I. destruct t as [s|a|v l d].
  - destruct Ht as [Hp Hs]. exists b. exists (Iri (quoted s)). cbn [raw_of tr_term]. rewrite (decode_quoted s Hp). cbn [bind].
    split; [reflexivity|]. split; [assumption|]. split; [apply bext_refl|]. split; [discriminate|]. reflexivity.
  - cbn [raw_of tr_term]. destruct (make_bnode b (bnode_str a)) as [b' t] eqn:M.
    destruct (make_bnode_spec n b _ b' t I M) as (I' & E & x & -> & G). exists b', (BNode x).
    split; [reflexivity|]. split; [assumption|]. split; [assumption|]. split.
    + intros a' [= <-]. congruence.
    + intros bf [_ Hf]. cbn [nt_image rename]. unfold fren. now rewrite (Hf _ _ G).
  - destruct Ht as (Hv & Hl & Hd). exists b. pose proof (escape_round_trip v Hv) as RT. fold (undropped v) in RT.
    assert (T : forall x, tr_term b (raw_of (Lit v l d)) = (b, Ok x) ->
      (forall bf, x = rename (fren bf) (nt_image (Lit v l d))) ->
      exists x, tr_term b (raw_of (Lit v l d)) = (b, Ok x) /\ binv n b /\ bext b b /\
        (forall a, Lit v l d = BNode a -> sget (bs_map b) (bnode_str a) <> None) /\
        forall bf, bext b bf -> x = rename (fren bf) (nt_image (Lit v l d))).
    { intros x E Im. exists x. split; [assumption|]. split; [assumption|]. split; [apply bext_refl|]. split; [discriminate|]. auto. }
    destruct l as [[|lc lr]|].
    + destruct d as [[|dc dr]|]; cbn [raw_of nt_image] in *.
      * apply (T (Lit (undropped v) None None)); [cbn [tr_term]; now rewrite RT|reflexivity].
      * assert (C : clean_iri (dc :: dr)) by (apply (Hd _ eq_refl); simpl; tauto). destruct C as [C _].
        apply (T (Lit (undropped v) None (Some (quoted (dc :: dr))))); [|reflexivity].
        cbn [tr_term]. rewrite (decode_quoted _ C). cbn [bind]. now rewrite RT.
      * apply (T (Lit (undropped v) None None)); [cbn [tr_term]; now rewrite RT|reflexivity].
    + apply (T (Lit (undropped v) (Some (lc :: lr)) None)); [cbn [raw_of tr_term]; now rewrite RT|reflexivity].
    + destruct d as [[|dc dr]|]; cbn [raw_of nt_image] in *.
      * apply (T (Lit (undropped v) None None)); [cbn [tr_term]; now rewrite RT|reflexivity].
      * assert (C : clean_iri (dc :: dr)) by (apply (Hd _ eq_refl); simpl; tauto). destruct C as [C _].
        apply (T (Lit (undropped v) None (Some (quoted (dc :: dr))))); [|reflexivity].
        cbn [tr_term]. rewrite (decode_quoted _ C). cbn [bind]. now rewrite RT.
      * apply (T (Lit (undropped v) None None)); [cbn [tr_term]; now rewrite RT|reflexivity].
Qed.

Lemma nt_subject_object : forall t, nt_subject t -> nt_object t.
Proof. intros [| |] H; [exact H|exact I|destruct H]. Qed.
Lemma nt_predicate_object : forall t, nt_predicate t -> nt_object t.
Proof. intros [| |] H; [exact H|destruct H|destruct H]. Qed.

Definition labelled (b : bstate) (a : N) : Prop := sget (bs_map b) (bnode_str a) <> None.
Lemma labelled_ext : forall b b' a, bext b b' -> labelled b a -> labelled b' a.
Proof.
  intros b b' a [_ H] L. unfold labelled in *. destruct (sget (bs_map b) (bnode_str a)) eqn:E; [|congruence].
  rewrite (H _ _ E). discriminate.
Qed.

Lemma tr_stmt_raw : forall n t b, nt_triple t -> binv n b ->
  exists b' x, tr_stmt b (raw_stmt t) = (b', Ok x) /\ binv n b' /\ bext b b' /\
    (forall a, In a (bnodes_of t) -> labelled b' a) /\
    forall bf, bext b' bf -> x = back (fren bf) t.
Proof.
  intros n [s p o g] b (Hs & Hp & Ho & Hg) I. cbn [st_s st_p st_o st_graph] in *. subst g.
  destruct (tr_term_raw n s b (nt_subject_object s Hs) I) as (b1 & s' & E1 & I1 & X1 & L1 & R1).
  destruct (tr_term_raw n p b1 (nt_predicate_object p Hp) I1) as (b2 & p' & E2 & I2 & X2 & L2 & R2).
  destruct (tr_term_raw n o b2 Ho I2) as (b3 & o' & E3 & I3 & X3 & L3 & R3).
  exists b3, (St s' p' o' None). unfold tr_stmt, raw_stmt. cbn [r_s r_p r_o r_g st_s st_p st_o].
  rewrite E1, E2, E3. cbn [tr_graph bind]. split; [reflexivity|]. split; [assumption|].
  split; [eapply bext_trans; [exact X1|]; eapply bext_trans; [exact X2|exact X3]|]. split.
  - intros a Ha. unfold bnodes_of in Ha. cbn [map concat st_s st_p st_o app] in Ha.
    apply in_app_or in Ha. destruct Ha as [Ha|Ha].
    { destruct s; cbn [In] in Ha; try tauto. destruct Ha as [<-|[]]. eapply labelled_ext; [eapply bext_trans; [exact X2|exact X3]|]. now apply L1. }
    apply in_app_or in Ha. destruct Ha as [Ha|Ha].
    { destruct p; cbn [In] in Ha; try tauto. destruct Ha as [<-|[]]. eapply labelled_ext; [exact X3|]. now apply L2. }
    rewrite app_nil_r in Ha. destruct o; cbn [In] in Ha; try tauto. destruct Ha as [<-|[]]. now apply L3.
  - intros bf Hf. unfold back, on_terms. cbn [st_s st_p st_o st_graph].
    rewrite <- (R3 bf Hf). rewrite <- (R2 bf) by (eapply bext_trans; eassumption).
    rewrite <- (R1 bf) by (eapply bext_trans; [exact X2|]; eapply bext_trans; eassumption). reflexivity.
Qed.

Lemma tr_doc_raw : forall n ts b, Forall nt_triple ts -> binv n b ->
  exists b' xs, tr_doc b (map raw_stmt ts) = (b', Ok xs) /\ binv n b' /\ bext b b' /\
    (forall a, In a (concat (map bnodes_of ts)) -> labelled b' a) /\
    forall bf, bext b' bf -> xs = map (back (fren bf)) ts.
Proof.
  intros n ts. induction ts as [|t ts IH]; intros b F I.
  - exists b, []. cbn [map tr_doc]. split; [reflexivity|]. split; [assumption|]. split; [apply bext_refl|]. split; [intros a []|reflexivity].
  - inversion F; subst. destruct (tr_stmt_raw n t b H1 I) as (b1 & x & E1 & I1 & X1 & L1 & R1).
    destruct (IH b1 H2 I1) as (b2 & xs & E2 & I2 & X2 & L2 & R2).
    exists b2, (x :: xs). cbn [map tr_doc]. rewrite E1, E2. cbn [bind]. split; [reflexivity|]. split; [assumption|].
    split; [eapply bext_trans; eassumption|]. split.
    + intros a Ha. cbn [map concat] in Ha. apply in_app_or in Ha. destruct Ha as [Ha|Ha]; [|auto].
      eapply labelled_ext; [exact X2|]. auto.
    + intros bf Hf. rewrite <- (R2 bf Hf). rewrite <- (R1 bf) by (eapply bext_trans; eassumption). reflexivity.
Qed.

(** ** Lines of serialized triples *)
Definition lang_clean (t : term) : Prop :=
  match t with Lit _ (Some l) _ => no_eol l | _ => True end.
Lemma printable_no_eol : forall s, Forall printable_ascii s -> no_eol s.
Proof. intros s H. eapply Forall_impl; [|exact H]. intros c Hc. unfold printable_ascii in Hc. apply not_eol; lia. Qed.
Lemma no_eol_app : forall a b, no_eol a -> no_eol b -> no_eol (a ++ b).
Proof. intros. apply Forall_app; auto. Qed.
Lemma no_eol_b : forall s, forallb (fun c => negb (is_eol c)) s = true -> no_eol s.
Proof.
  intros s H. rewrite forallb_forall in H. apply Forall_forall. intros c Hc. apply H in Hc. now destruct (is_eol c).
Qed.
Lemma iri_toNT_no_eol : forall s x, iri_toNT s = Ok x -> no_eol x.
Proof.
  intros s x H. unfold iri_toNT in H. apply bind_ok in H. destruct H as (q & _ & H). apply Ok_inj in H. subst x.
  apply no_eol_app; [now apply no_eol_b|]. apply no_eol_app; [|now apply no_eol_b]. apply printable_no_eol, escape_printable.
Qed.
Lemma toNT_no_eol : forall t x, lang_clean t -> term_toNT t = Ok x -> no_eol x.
Proof.
  intros [s|a|v l d] x C H; cbn [term_toNT] in H.
  - eapply iri_toNT_no_eol; eassumption.
  - apply Ok_inj in H. subst x. apply no_eol_app; [now apply no_eol_b|]. destruct (bnode_value_chars a) as [F _].
    eapply Forall_impl; [|exact F]. intros c [_ Hc]. cbn beta in Hc. unfold ascii_letter in Hc.
    apply not_eol; intros ->; discriminate.
  - assert (Q : no_eol ([34] ++ nt_escape v ++ [34])).
    { apply no_eol_app; [now apply no_eol_b|]. apply no_eol_app; [|now apply no_eol_b]. apply printable_no_eol, escape_printable. }
    unfold lit_toNT in H. destruct l as [[|lc lr]|].
    + destruct d as [[|dc dr]|]; try (apply Ok_inj in H; subst x; exact Q).
      apply bind_ok in H. destruct H as (y & Hy & H). apply Ok_inj in H. subst x. apply no_eol_app; [exact Q|].
      apply no_eol_app; [now apply no_eol_b|]. eapply iri_toNT_no_eol; eassumption.
    + apply Ok_inj in H. subst x. apply no_eol_app; [exact Q|]. apply no_eol_app; [now apply no_eol_b|]. exact C.
    + destruct d as [[|dc dr]|]; try (apply Ok_inj in H; subst x; exact Q).
      apply bind_ok in H. destruct H as (y & Hy & H). apply Ok_inj in H. subst x. apply no_eol_app; [exact Q|].
      apply no_eol_app; [now apply no_eol_b|]. eapply iri_toNT_no_eol; eassumption.
Qed.
Lemma no_eol_In : forall s, no_eol s -> ~ In 10 s /\ ~ In 13 s.
Proof. intros s H. unfold no_eol in H. rewrite Forall_forall in H. split; intro X; apply H in X; discriminate X. Qed.
Lemma no_eol_iff : forall s, no_eol s <-> ~ In 10 s /\ ~ In 13 s.
Proof.
  intro s. split; [apply no_eol_In|]. intros [A B]. apply Forall_forall. intros c Hc. apply not_eol; intros ->; tauto.
Qed.

(** C26 *)
Lemma one_line_per_triple : forall t x, lang_clean (st_s t) -> lang_clean (st_p t) -> lang_clean (st_o t) ->
  triple_str t = Ok x -> exists body, x = body ++ [10] /\ no_eol body.
Proof.
  intros [s p o g] x Cs Cp Co H. cbn [st_s st_p st_o] in *. unfold triple_str in H. cbn [st_s st_p st_o] in H.
  apply bind_ok in H. destruct H as (a & Ha & H). apply bind_ok in H. destruct H as (b & Hb & H).
  apply bind_ok in H. destruct H as (c & Hc & H). apply Ok_inj in H. subst x.
  exists (a ++ [32] ++ b ++ [32] ++ c ++ s2l " ."). split; [rewrite <- !app_assoc; reflexivity|].
  apply no_eol_app; [eapply toNT_no_eol; [|eassumption]; assumption|]. apply no_eol_app; [now apply no_eol_b|]. apply no_eol_app; [eapply toNT_no_eol; [|eassumption]; assumption|].
  apply no_eol_app; [now apply no_eol_b|]. apply no_eol_app; [eapply toNT_no_eol; [|eassumption]; assumption|now apply no_eol_b].
Qed.

Lemma nt_lang_clean : forall t, nt_object t -> lang_clean t.
Proof.
  intros [s|a|v [l|] d] H; try exact I. destruct H as (_ & Hl & _). cbn [lang_clean]. destruct l as [|c l]; [constructor|].
  assert (L : langtag_ok (c :: l)) by (apply (Hl _ eq_refl); discriminate). apply langtag_chars in L. destruct L as [F _].
  eapply Forall_impl; [|exact F]. intros x Hx. cbn beta in Hx. apply not_eol; intros ->; destruct Hx as [Hx|Hx]; try discriminate; lia.
Qed.

Lemma triple_line : forall t, nt_triple t ->
  exists body, triple_str t = Ok (body ++ [10]) /\ clean_line body /\ line false body = Some (raw_stmt t).
Proof.
  intros t H. destruct (triple_text t [] H) as (body & E & P & c & y & Eb & W & _).
  exists body. split; [assumption|].
  assert (NE : no_eol body).
  { destruct H as (Hs & Hp & Ho & _).
    destruct (one_line_per_triple t _ (nt_lang_clean _ (nt_subject_object _ Hs)) (nt_lang_clean _ (nt_predicate_object _ Hp)) (nt_lang_clean _ Ho) E)
      as (b' & Eb' & N). apply app_inj_tail in Eb'. destruct Eb' as [-> _]. assumption. }
  split; [split; [assumption|]|].
  - rewrite Eb. intro B. inversion B. congruence.
  - rewrite p_stmt_ext in P by reflexivity. unfold line. destruct (p_stmt false body) as [[x t']|]; [|discriminate].
    cbn [ext] in P. inversion P. destruct t' as [|d t']; [reflexivity|]. exfalso. cbn [app] in H2. inversion H2.
    destruct t'; discriminate.
Qed.

Lemma serialize_lines : forall ts, Forall nt_triple ts ->
  exists bodies, serialize_ntriples ts = (text bodies, Ok tt) /\ Forall clean_line bodies /\
    seq_lines false bodies = Ok (map raw_stmt ts) /\ length bodies = length ts.
Proof.
  induction 1 as [|t ts Ht Hts IH].
  - exists []. repeat split; constructor.
  - destruct IH as (bs & E & C & S & L). destruct (triple_line t Ht) as (b & Eb & Cb & Lb).
    exists (b :: bs). cbn [serialize_ntriples]. rewrite Eb, E. split; [|split; [now constructor|split]].
    + rewrite text_cons. rewrite <- app_assoc. reflexivity.
    + cbn [seq_lines map]. rewrite Lb, S. reflexivity.
    + simpl. now rewrite L.
Qed.


(** C25 *)
Lemma round_trip : forall ts n g, Forall nt_triple ts ->
  exists text n' f, serialize_ntriples ts = (text, Ok tt) /\
    injective_on f (concat (map bnodes_of ts)) /\ fresh_for n n' f (concat (map bnodes_of ts)) /\
    parse_string false n g text = (n', g_addAll g (map (back f) ts), Ok tt).
Proof.
  intros ts n g F. destruct (serialize_lines ts F) as (bs & E & C & S & _).
  destruct (tr_doc_raw n ts (prepare n) F (prepare_inv n)) as (b' & xs & T & I & _ & L & R).
  exists (text bs), (bs_next b'), (fren b'). split; [assumption|].
  destruct I as (_ & Rg & J). split; [|split].
  - intros x y Hx Hy Exy. apply L in Hx. apply L in Hy. unfold labelled in *. unfold fren in Exy.
    destruct (sget (bs_map b') (bnode_str x)) as [u|] eqn:Ux; [|congruence].
    destruct (sget (bs_map b') (bnode_str y)) as [v|] eqn:Uy; [|congruence]. subst v.
    pose proof (J _ _ _ Ux Uy) as K. apply app_inv_head in K. now apply bnode_value_inj.
  - intros x Hx. apply L in Hx. unfold labelled in Hx. unfold fren.
    destruct (sget (bs_map b') (bnode_str x)) as [u|] eqn:Ux; [|congruence]. eauto.
  - unfold parse_string, lark_run. rewrite parse_text, S by assumption. rewrite T.
    now rewrite (R b' (bext_refl b')).
Qed.

Lemma stable_image : forall t, stable_term t -> nt_image t = t.
Proof.
  intros [s|a|v l d] H; cbn [nt_image stable_term] in *.
  - f_equal. now apply quoted_id.
  - reflexivity.
  - destruct H as (Hv & Hl & Hd).
    assert (U : undropped v = v).
    { unfold undropped. apply filter_id. eapply Forall_impl; [|exact Hv]. intros c Hc. cbn beta in Hc.
      destruct (droppedb c) eqn:E; [apply droppedb_spec in E; contradiction|reflexivity]. }
    destruct Hl as [->|(c & r & -> & ->)]; [|now rewrite U].
    destruct Hd as [->|(c & r & -> & Q)]; rewrite U; [reflexivity|]. now rewrite (quoted_id _ Q).
Qed.
Lemma stable_back : forall f t, stable t -> st_graph t = None -> back f t = on_terms (rename f) t.
Proof.
  intros f [s p o g] (A & B & C) D. cbn [st_s st_p st_o st_graph] in *. subst g. unfold back, on_terms.
  cbn [st_s st_p st_o st_graph]. now rewrite !stable_image.
Qed.
Lemma round_trip_stable : forall ts n g, Forall nt_triple ts -> Forall stable ts ->
  exists text n' f, serialize_ntriples ts = (text, Ok tt) /\
    injective_on f (concat (map bnodes_of ts)) /\ fresh_for n n' f (concat (map bnodes_of ts)) /\
    parse_string false n g text = (n', g_addAll g (map (on_terms (rename f)) ts), Ok tt).
Proof.
  intros ts n g F S. destruct (round_trip ts n g F) as (tx & n' & f & A & B & C & D).
  exists tx, n', f. repeat (split; [assumption|]). rewrite D. f_equal. f_equal. f_equal.
  apply map_ext_in. intros t Ht. rewrite Forall_forall in F, S. apply stable_back; [auto|]. apply F in Ht. apply Ht.
Qed.

(** the reparsed graph as a set; for graphs it has as many triples as the original *)
Lemma rename_inj : forall f l t u, injective_on f l ->
  (forall a, t = BNode a -> In a l) -> (forall a, u = BNode a -> In a l) -> rename f t = rename f u -> t = u.
Proof.
  intros f l t u J A B H. destruct t, u; cbn [rename] in H; try congruence. inversion H. f_equal. apply J; auto.
Qed.
Lemma on_terms_inj : forall f l t u, injective_on f l -> st_graph t = None -> st_graph u = None ->
  (forall a, In a (bnodes_of t) -> In a l) -> (forall a, In a (bnodes_of u) -> In a l) ->
  on_terms (rename f) t = on_terms (rename f) u -> t = u.
Proof.
  intros f l [s p o g] [s' p' o' g'] J G G' A B H. cbn [st_graph] in *. subst g g'. unfold on_terms in H. cbn [st_s st_p st_o st_graph] in H.
  inversion H. unfold bnodes_of in A, B. cbn [map concat st_s st_p st_o] in A, B.
  assert (s = s').
  { eapply (rename_inj f l); eauto; intros a ->; [apply A|apply B]; apply in_or_app; left; now left. }
  assert (p = p').
  { eapply (rename_inj f l); eauto; intros a ->; [apply A|apply B]; apply in_or_app; right; apply in_or_app; left; now left. }
  assert (o = o').
  { eapply (rename_inj f l); eauto; intros a ->; [apply A|apply B]; apply in_or_app; right; apply in_or_app; right; now left. }
  congruence.
Qed.
Lemma NoDup_map_inj : forall {A B} (f : A -> B) l, (forall x y, In x l -> In y l -> f x = f y -> x = y) -> NoDup l -> NoDup (map f l).
Proof.
  induction l as [|a l IH]; intros J N; [constructor|]. inversion N; subst. cbn [map]. constructor.
  - intro X. apply in_map_iff in X. destruct X as (y & E & Hy). apply J in E; [|now right|now left]. subst y. contradiction.
  - apply IH; [|assumption]. intros. apply J; auto; now right.
Qed.
Lemma addAll_triples_nodup : forall ts g, NoDup ts -> (forall t, In t ts -> ~ In t (g_triples g)) ->
  g_triples (g_addAll g ts) = g_triples g ++ ts.
Proof.
  induction ts as [|t ts IH]; intros g N D; [cbn; now rewrite app_nil_r|]. inversion N; subst.
  cbn [g_addAll fold_left]. change (g_triples (g_addAll (g_add g t) ts) = g_triples g ++ t :: ts).
  assert (E : g_triples (g_add g t) = g_triples g ++ [t]).
  { cbn [g_add g_triples]. unfold set_add. destruct (in_dec stmt_eq_dec t (g_triples g)) as [i|]; [|reflexivity].
    exfalso. apply (D t); [now left|assumption]. }
  rewrite IH; [rewrite E, <- app_assoc; reflexivity|assumption|].
  intros u Hu X. rewrite E in X. apply in_app_or in X. destruct X as [X|[<-|[]]]; [apply (D u); [now right|assumption]|contradiction].
Qed.
Lemma round_trip_graph : forall g n, wf g -> Forall nt_triple (g_iter g) -> Forall stable (g_iter g) ->
  exists text n' f g', serialize_ntriples (g_iter g) = (text, Ok tt) /\
    injective_on f (concat (map bnodes_of (g_iter g))) /\
    parse_string_new false n text = (n', g', Ok tt) /\ wf g' /\
    g_iter g' = map (on_terms (rename f)) (g_iter g) /\ g_len g' = g_len g.
Proof.
  intros g n W F S. destruct (round_trip_stable (g_iter g) n (graph_new None) F S) as (tx & n' & f & A & B & C & D).
  exists tx, n', f. eexists. split; [exact A|]. split; [exact B|]. split; [exact D|].
  assert (N : NoDup (map (on_terms (rename f)) (g_iter g))).
  { apply NoDup_map_inj; [|apply W]. intros x y Hx Hy E. rewrite Forall_forall in F.
    eapply (on_terms_inj f); [exact B| | | | |exact E].
    - apply F in Hx. apply Hx.
    - apply F in Hy. apply Hy.
    - intros a Ha. apply in_concat. eexists. split; [apply in_map; exact Hx|exact Ha].
    - intros a Ha. apply in_concat. eexists. split; [apply in_map; exact Hy|exact Ha]. }
  assert (G : g_iter (g_addAll (graph_new None) (map (on_terms (rename f)) (g_iter g))) = map (on_terms (rename f)) (g_iter g)).
  { unfold g_iter at 1. rewrite addAll_triples_nodup; [reflexivity|assumption|]. intros t _ []. }
  split; [|split].
  - apply g_addAll_wf; [apply graph_new_wf|]. intros t Ht. apply in_map_iff in Ht. destruct Ht as (u & <- & Hu).
    rewrite Forall_forall in F. apply F in Hu. destruct Hu as (_ & _ & _ & Hu). unfold is_triple, on_terms. cbn [st_graph]. now rewrite Hu.
  - exact G.
  - unfold g_len. change (g_triples (g_addAll (graph_new None) (map (on_terms (rename f)) (g_iter g)))) with
      (g_iter (g_addAll (graph_new None) (map (on_terms (rename f)) (g_iter g)))). rewrite G, map_length. reflexivity.
Qed.

(** bytes: the text is ASCII *)
Lemma ascii_utf8_decode : forall s, Forall (fun c => c < 128) s -> utf8_decode s = Ok s.
Proof.
  induction 1 as [|c s Hc Hs IH]; [reflexivity|]. cbn [utf8_decode]. rewrite (proj2 (N.ltb_lt c 128) Hc). now rewrite IH.
Qed.
Definition ascii (s : str) : Prop := Forall (fun c => c < 128) s.
Lemma printable_ascii_str : forall s, Forall printable_ascii s -> ascii s.
Proof. intros s H. eapply Forall_impl; [|exact H]. intros c Hc. unfold printable_ascii in Hc. lia. Qed.
Lemma ascii_app : forall a b, ascii a -> ascii b -> ascii (a ++ b).
Proof. intros. apply Forall_app; auto. Qed.
Lemma iri_toNT_ascii : forall s x, iri_toNT s = Ok x -> ascii x.
Proof.
  intros s x H. unfold iri_toNT in H. apply bind_ok in H. destruct H as (q & _ & H). apply Ok_inj in H. subst x.
  apply ascii_app; [repeat constructor|]. apply ascii_app; [|repeat constructor]. apply printable_ascii_str, escape_printable.
Qed.
Lemma toNT_ascii : forall t x, nt_object t -> term_toNT t = Ok x -> ascii x.
Proof.
  intros [s|a|v l d] x C H; cbn [term_toNT] in H.
  - eapply iri_toNT_ascii; eassumption.
  - apply Ok_inj in H. subst x. apply ascii_app; [repeat constructor|]. destruct (bnode_value_chars a) as [F _].
    eapply Forall_impl; [|exact F]. intros c [_ Hc]. cbn beta in Hc. unfold ascii_letter in Hc.
    apply orb_true_iff in Hc. rewrite !andb_true_iff, !N.leb_le in Hc. lia.
  - assert (Q : ascii ([34] ++ nt_escape v ++ [34])).
    { apply ascii_app; [repeat constructor|]. apply ascii_app; [|repeat constructor]. apply printable_ascii_str, escape_printable. }
    destruct C as (_ & Hl & _).
    unfold lit_toNT in H. destruct l as [[|lc lr]|].
    + destruct d as [[|dc dr]|]; try (apply Ok_inj in H; subst x; exact Q).
      apply bind_ok in H. destruct H as (y & Hy & H). apply Ok_inj in H. subst x. apply ascii_app; [exact Q|].
      apply ascii_app; [repeat constructor|]. eapply iri_toNT_ascii; eassumption.
    + apply Ok_inj in H. subst x. apply ascii_app; [exact Q|]. apply ascii_app; [repeat constructor|].
      assert (L : langtag_ok (lc :: lr)) by (apply (Hl _ eq_refl); discriminate). apply langtag_chars in L. destruct L as [F _].
      eapply Forall_impl; [|exact F]. intros c Hc. cbn beta in Hc. unfold ascii_letter in Hc.
      rewrite orb_true_iff, !andb_true_iff, !N.leb_le in Hc. lia.
    + destruct d as [[|dc dr]|]; try (apply Ok_inj in H; subst x; exact Q).
      apply bind_ok in H. destruct H as (y & Hy & H). apply Ok_inj in H. subst x. apply ascii_app; [exact Q|].
      apply ascii_app; [repeat constructor|]. eapply iri_toNT_ascii; eassumption.
Qed.
Lemma serialize_ascii : forall ts, Forall nt_triple ts -> ascii (fst (serialize_ntriples ts)).
Proof.
  induction 1 as [|t ts Ht Hts IH]; [constructor|]. cbn [serialize_ntriples].
  destruct (triple_str t) as [x|] eqn:E; [|constructor]. destruct (serialize_ntriples ts) as [out r]. cbn [fst] in *.
  apply ascii_app; [|assumption]. destruct Ht as (Hs & Hp & Ho & _).
  unfold triple_str in E. apply bind_ok in E. destruct E as (a & Ha & E). apply bind_ok in E. destruct E as (b & Hb & E).
  apply bind_ok in E. destruct E as (c & Hc & E). apply Ok_inj in E. subst x.
  repeat apply ascii_app; first [solve [repeat constructor]|eapply toNT_ascii; [|eassumption]].
  - now apply nt_subject_object.
  - now apply nt_predicate_object.
  - assumption.
Qed.
Lemma serialize_bytes : forall ts n g, Forall nt_triple ts ->
  let out := fst (serialize_ntriples ts) in
  utf8_text out = out /\ parse_bytes false n g out = parse_string false n g out.
Proof.
  intros ts n g F out. pose proof (serialize_ascii ts F) as A. fold out in A. split.
  - unfold utf8_text. clear F. induction A as [|c s Hc Hs IH]; [reflexivity|]. cbn [map concat]. rewrite IH.
    now rewrite utf8_ascii.
  - unfold parse_bytes. now rewrite ascii_utf8_decode.
Qed.
