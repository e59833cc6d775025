(** Proofs for C96 and C97: N-Triples documents read by both parsers. *)
From Verif Require Import Model.Py Model.Terms Model.Graph Model.Codec Model.NTriples Model.Curie Model.TurtleTree Model.Turtle Model.TurtleParse
  Spec.CodecSpec Spec.GraphSpec Spec.NTSpec Spec.TurtleSpec Spec.TurtleTextSpec Spec.TurtleOutSpec Spec.NTTextSpec Proofs.CodecLemmas Proofs.IriLemmas Proofs.CodecMore Proofs.NTLex
  Proofs.NTDoc Proofs.NTRun Proofs.GraphInv Proofs.NTGrammar Proofs.NTMeans Proofs.NTTurtle Proofs.TurtleRound Properties.TurtleTextProps.
Open Scope N_scope.

Lemma denotes_fun : forall s v w, denotes s v -> denotes s w -> v = w.
Proof. intros s v w A B. apply denotes_decode in A, B. congruence. Qed.

(** ** the same document with other blank nodes *)
Lemma node_rename : forall f L L' x t t', node_means L x t -> node_means L' x t' -> (forall l, In l (node_labels x) -> f (L l) = L' l) -> t' = rename f t.
Proof.
  intros f L L' x t t' M M' H. destruct M; inversion M'; subst; cbn [rename];
    repeat match goal with A : denotes ?s ?v, B : denotes ?s ?w |- _ => pose proof (denotes_fun s v w A B); subst w; clear B end; auto.
  rewrite H; auto. now left.
Qed.
Lemma line_rename : forall f L L' x t t', line_means L x t -> line_means L' x t' -> (forall l, In l (line_labels x) -> f (L l) = L' l) -> t' = on_terms (rename f) t.
Proof.
  intros f L L' x t t' M M' H. unfold line_labels in H. destruct M as [s p o s1 p1 o1 A B C|s p o g s1 p1 o1 g1 A B C D]; inversion M'; subst; unfold on_terms; cbn [st_s st_p st_o st_graph Tr Qd r_s r_p r_o r_g] in *.
  - unfold Tr. f_equal; eapply node_rename; eauto; intros l J; apply H; rewrite !in_app_iff; auto.
  - unfold Qd. f_equal; [| | |f_equal; f_equal]; eapply node_rename; eauto; intros l J; apply H; rewrite !in_app_iff; auto.
Qed.
Lemma lines_rename : forall f L L' l ts, Forall2 (line_means L) l ts -> forall ts', Forall2 (line_means L') l ts' -> (forall x, In x (labels_of l) -> f (L x) = L' x) ->
  ts' = map (on_terms (rename f)) ts.
Proof.
  induction 1 as [|x t l ts M _ IH]; intros ts' F H; inversion F; subst; [reflexivity|]. cbn [map]. f_equal.
  - eapply line_rename; eauto. intros zz J. apply H. unfold labels_of. cbn [map concat]. apply in_or_app. auto.
  - apply IH; auto. intros zz J. apply H. unfold labels_of. cbn [map concat]. apply in_or_app. auto.
Qed.
Lemma node_bnodes : forall L x t a, node_means L x t -> t = BNode a -> exists l, In l (node_labels x) /\ L l = a.
Proof. intros L x t a M ->. inversion M; subst. eexists. split; [now left|reflexivity]. Qed.
Lemma lines_bnodes : forall L l ts, Forall2 (line_means L) l ts -> forall a, In a (concat (map bnodes_of ts)) -> exists x, In x (labels_of l) /\ L x = a.
Proof.
  induction 1 as [|x t l ts M _ IH]; intros a H; [destruct H|]. cbn [map concat] in H. unfold labels_of. cbn [map concat]. apply in_app_or in H. destruct H as [H|H].
  - assert (K : exists y, In y (line_labels x) /\ L y = a).
    { unfold bnodes_of in H. cbn [map concat] in H. rewrite app_nil_r in H. unfold line_labels.
      assert (Z : forall u, In a (match u with BNode b => [b] | _ => [] end) -> u = BNode a) by (intros [] K; cbn in K; intuition congruence).
      rewrite !in_app_iff in H. destruct H as [H|[H|H]]; apply Z in H;
        destruct M as [s p o s1 p1 o1 A B C|s p o g s1 p1 o1 g1 A B C D]; cbn [st_s st_p st_o Tr Qd r_s r_p r_o r_g] in *;
        match goal with E : ?u = BNode a, K : node_means L ?y ?u |- _ => destruct (node_bnodes _ _ _ _ K E) as (z & J & <-) end;
        exists z; rewrite !in_app_iff; auto. }
    destruct K as (y & J & <-). exists y. rewrite in_app_iff. auto.
  - destruct (IH a H) as (y & J & <-). exists y. rewrite in_app_iff. auto.
Qed.
Lemma node_iris : forall L L' x t t', node_means L x t -> node_means L' x t' -> term_iris t = term_iris t'.
Proof.
  intros L L' x t t' M M'. destruct M; inversion M'; subst; cbn [term_iris]; auto;
    repeat match goal with A : denotes ?s ?v, B : denotes ?s ?w |- _ => pose proof (denotes_fun s v w A B); subst w; clear B end; auto.
Qed.
Lemma line_iris : forall L L' x t t', line_means L x t -> line_means L' x t' -> stmt_iris t = stmt_iris t'.
Proof.
  intros L L' x t t' M M'. unfold stmt_iris. destruct M; inversion M'; subst; cbn [st_s st_p st_o Tr Qd];
    repeat match goal with A : node_means L ?x ?t, B : node_means L' ?x ?t' |- _ => rewrite (node_iris L L' x t t' A B); clear A end; reflexivity.
Qed.
Lemma lines_iris : forall L L' l ts, Forall2 (line_means L) l ts -> forall ts', Forall2 (line_means L') l ts' ->
  forall t i, In t ts -> In i (stmt_iris t) -> exists t', In t' ts' /\ In i (stmt_iris t').
Proof.
  induction 1 as [|x t l ts M _ IH]; intros ts' F u i J K; [destruct J|]. inversion F; subst. destruct J as [<-|J].
  - eexists. split; [now left|]. erewrite line_iris; eauto.
  - destruct (IH _ H3 u i J K) as (t' & A & B). exists t'. split; auto. now right.
Qed.

(** ** what the Turtle parser makes of it *)
Definition shaped (x : rstmt) : Prop :=
  (exists i, r_p x = RIri i) /\ r_g x = None /\ match r_s x with RLit _ _ => False | _ => True end.
Lemma shaped_line : forall x t, line_at in_turtle false x t -> shaped x.
Proof.
  intros x t H. inversion H as [w0 s a w1 p b w2 o c w3 E B0 S A1 P A2 O B3|w0 s a w1 p b w2 o c w3 g d w4 E]; subst; [|discriminate].
  destruct (t_iri _ _ P) as (i & -> & _). split; [now exists i|]. split; [reflexivity|]. cbn [r_s]. inversion S as [? ? Z|]; subst; [inversion Z|]; exact I.
Qed.
Lemma shaped_lines : forall q l s, lines_at in_turtle q l s -> q = false -> Forall shaped l.
Proof. induction 1; intros ->; constructor; eauto using shaped_line. Qed.
Lemma shaped_doc : forall l s, nt_doc in_turtle false l s -> Forall shaped l.
Proof. intros l s H. inversion H; subst; [now apply shaped_lines with false s|]. constructor; [now apply shaped_line with t|now apply shaped_lines with false r]. Qed.
Lemma shaped_labels : forall l, Forall shaped l -> doc_labels (map turtle_line l) = labels_of l.
Proof.
  induction 1 as [|x l ((i & P) & G & S) _ IH]; [reflexivity|]. cbn [map doc_labels turtle_line]. rewrite IH. unfold labels_of. cbn [map concat]. unfold line_labels. rewrite P, G.
  cbn [node_labels app pol_labels objs_labels]. rewrite !app_nil_r, <- app_assoc. f_equal; [destruct (r_s x) as [| |? []]; reflexivity|]. f_equal. destruct (r_o x) as [| |? []]; reflexivity.
Qed.
Section Back.
  Variable uj : str -> str -> res str. Variable e : tenv.
  Let R := resolves_by uj.
  Lemma ref_same : forall b v u, ref_means R e b u -> denotes b v -> R (e_base e) v v -> u = v.
  Proof. intros b v u (x & D & _ & K) D' K'. rewrite (denotes_fun _ _ _ D D') in K. now apply (resolves_fun uj (e_base e) v). Qed.
  Lemma node_back : forall L L0 x t t0 ts bs, obj_means R e L (turtle_node x) t ts bs -> node_means L0 x t0 -> (forall i, In i (term_iris t0) -> R (e_base e) i i) ->
    ts = [] /\ exists t1, node_means L x t1 /\ t = plain_as_string t1.
  Proof.
    intros L L0 x t t0 ts bs M M0 K. destruct M0 as [i v D|l|b v D|b v l D|b v i d D D']; cbn [turtle_node] in M; inversion M as [i0 s0 I0|l0| |x0 t1 LM| | |]; subst; (split; [reflexivity|]).
    - inversion I0 as [? ? RM|]; subst. rewrite (ref_same i v s0 RM D) by (apply K; now left). exists (Iri v). split; [now constructor|reflexivity].
    - eexists. split; [apply nm_label|reflexivity].
    - inversion LM; subst. exists (Lit v0 None None). split; [now constructor|reflexivity].
    - inversion LM; subst. exists (Lit v0 (Some l) None). split; [now constructor|reflexivity].
    - inversion LM as [| |? v0 ? d0 D0 I1| | | |]; subst. inversion I1 as [? ? RM|]; subst. rewrite (ref_same i d d0 RM D') by (apply K; now left).
      exists (Lit v0 None (Some d)). split; [now constructor|reflexivity].
  Qed.
  Lemma doc_back : forall L L0 l ts0, Forall2 (line_means L0) l ts0 -> Forall shaped l -> (forall t i, In t ts0 -> In i (stmt_iris t) -> R (e_base e) i i) ->
    forall ts bs, doc_means R L e (map turtle_line l) ts bs -> exists ts1, Forall2 (line_means L) l ts1 /\ ts = map (on_terms plain_as_string) ts1.
  Proof.
    induction 1 as [|x t l ts0 M F IH]; intros Sh K ts bs D.
    - inversion D; subst. exists []. split; [constructor|reflexivity].
    - inversion Sh as [|? ? ((i & P) & G & S) Sh']; subst. destruct x as [s p o g]. cbn [r_s r_p r_o r_g map] in *. subst p g.
      inversion M as [? ? ? s' p' o' Ms Mp Mo|]; subst. inversion D as [| | |? ? ? ? y ts1 ts2 ts3 bs1 bs2 bs3 Os Ps Ds]; subst.
      assert (K0 : forall j, In j (stmt_iris (Tr s' p' o')) -> R (e_base e) j j) by (intros j J; eapply K; eauto; now left).
      unfold stmt_iris in K0. cbn [st_s st_p st_o Tr] in K0.
      destruct (IH Sh' (fun u j U J => K u j (or_intror U) J) _ _ Ds) as (r1 & F1 & ->).
      cbn [r_s r_o r_p turtle_verb] in *.
      destruct (node_back L L0 s y s' ts1 bs1 Os Ms) as [-> (s1 & Ns & ->)]; [intros j J; apply K0; rewrite !in_app_iff; auto|].
      inversion Ps as [| |? ? p1 ? ? ? x1 ts4 ts5 bs4 bs5 V Oo Pr]; subst.
      destruct (node_back L L0 o x1 o' ts4 bs4 Oo Mo) as [-> (o1 & No & ->)]; [intros j J; apply K0; rewrite !in_app_iff; auto|].
      inversion Pr as [|? ? ? ? ? Pn|]; subst. inversion Pn; subst. inversion V as [|? v Iv]; subst. inversion Iv as [? ? RM|]; subst.
      inversion Mp as [? v0 Dv| | | |]; subst. rewrite (ref_same i v0 v RM Dv) by (apply K0; rewrite !in_app_iff; right; left; now left).
      exists (Tr s1 (Iri v0) o1 :: r1). split; [constructor; auto; constructor; auto; now constructor|].
      reflexivity.
  Qed.
End Back.
Lemma on_terms_comp : forall f g t, on_terms f (on_terms g t) = on_terms (fun x => f (g x)) t.
Proof. intros f g [s p o [[y|]|]]; reflexivity. Qed.
Lemma on_terms_ext : forall f g t, (forall x, f x = g x) -> on_terms f t = on_terms g t.
Proof. intros f g [s p o [[y|]|]] H; unfold on_terms; cbn [st_s st_p st_o st_graph]; now rewrite !H. Qed.
Lemma plain_rename : forall f t, plain_as_string (rename f t) = rename f (plain_as_string t).
Proof. intros f [s|a|v [l|] [d|]]; reflexivity. Qed.

(** from one assignment of blank nodes to another *)
Definition transfer (L L' : str -> N) (ls : list str) (a : N) : N := match find (fun x => L x =? a) ls with Some x => L' x | None => 0 end.
Lemma transfer_ok : forall L L' ls x, (forall x y, In x ls -> In y ls -> L x = L y -> x = y) -> In x ls -> transfer L L' ls (L x) = L' x.
Proof.
  intros L L' ls x J I. unfold transfer. destruct (find (fun y => L y =? L x) ls) as [y|] eqn:F.
  - apply find_some in F. destruct F as [A B]. apply N.eqb_eq in B. now rewrite (J y x A I B).
  - exfalso. apply (find_none _ _ F x) in I. rewrite N.eqb_refl in I. discriminate.
Qed.

Lemma turtle_half : forall uj m base h l s L0 ts0, uj_clean uj -> ~ In 60 base -> nt_doc in_turtle false l s -> Forall2 (line_means L0) l ts0 ->
  (forall t i, In t ts0 -> In i (stmt_iris t) -> legal_text i /\ resolves_by uj base i i) ->
  exists m' h' L' ts1, turtle_parse uj m base h (SrcStr s) = Some (m', h', Ok tt) /\ Forall2 (line_means L') l ts1 /\ fresh_labels m m' l L' /\
    forall t, In t (g_iter h') <-> In t (g_iter h) \/ In t (map (on_terms plain_as_string) ts1).
Proof.
  intros uj m base h l s L0 ts0 U B D M0 K. assert (Sh := shaped_doc l s D).
  pose proof (doc_turtle (resolves_by uj) (env0 base) l s D L0 ts0 M0 K) as DM0.
  destruct (C83_adds_the_triples_of_the_text uj m base h (map turtle_line l) s L0 _ [] U B (t_doc l s D) (t_flat l) DM0)
    as (m' & h' & L' & ts' & bs & E' & DM & _ & _ & FR & IN & H).
  rewrite (shaped_labels l Sh) in FR, IN.
  destruct (doc_back uj (env0 base) L' L0 l ts0 M0 Sh (fun t i A C => proj2 (K t i A C)) ts' bs DM) as (ts1 & M1 & ->).
  exists m', h', L', ts1. split; [exact E'|]. split; [exact M1|]. split; [|exact H]. split; [intros x J; now apply FR|exact IN].
Qed.
Lemma both_parsers : forall uj n m base g h l s L0 ts0, uj_clean uj -> ~ In 60 base -> nt_doc in_turtle false l s -> Forall2 (line_means L0) l ts0 ->
  (forall t i, In t ts0 -> In i (stmt_iris t) -> legal_text i /\ resolves_by uj base i i) ->
  exists n' g' ts m' h' f, parse_string false n g s = (n', g', Ok tt) /\ turtle_parse uj m base h (SrcStr s) = Some (m', h', Ok tt) /\
    fresh_for n n' (fun a => a) (concat (map bnodes_of ts)) /\ injective_on f (concat (map bnodes_of ts)) /\ fresh_for m m' f (concat (map bnodes_of ts)) /\
    (forall t, In t (g_iter g') <-> In t (g_iter g) \/ In t ts) /\
    forall t, In t (g_iter h') <-> In t (g_iter h) \/ exists u, In u ts /\ t = on_terms (fun x => rename f (plain_as_string x)) u.
Proof.
  intros uj n m base g h l s L0 ts0 U B D M0 K. destruct (run_cases false n g s) as (n' & _ & [(l1 & L & ts & D1 & E & M & FL)|[(l1 & e & D1 & E & _ & NM)|(e1 & E & _ & ND)]]).
  2:{ exfalso. rewrite (doc_unique false l1 l s D1 (turtle_own _ _ _ D)) in NM. eapply NM; eauto. }
  2:{ exfalso. apply (ND l). now apply turtle_own. }
  assert (l1 = l) by (eapply doc_unique; eauto; now apply turtle_own). subst l1.
  destruct (turtle_half uj m base h l s L0 ts0 U B D M0 K) as (m' & h' & L' & ts1 & E' & M1 & [FR IN] & H).
  set (f := transfer L L' (labels_of l)). destruct FL as [FL1 FL2].
  assert (TR : forall x, In x (labels_of l) -> f (L x) = L' x) by (intros x J; now apply transfer_ok).
  assert (E1 := lines_rename f L L' l ts M ts1 M1 TR).
  exists n', (g_addAll g ts), ts, m', h', f. split; [exact E|]. split; [exact E'|]. split; [|split; [|split; [|split]]].
  - intros a Ja. destruct (lines_bnodes L l ts M a Ja) as (x & Jx & <-). now apply FL1.
  - intros a b Ja Jb Q. destruct (lines_bnodes L l ts M a Ja) as (x & Jx & <-). destruct (lines_bnodes L l ts M b Jb) as (y & Jy & <-).
    rewrite !TR in Q by auto. f_equal. now apply IN.
  - intros a Ja. destruct (lines_bnodes L l ts M a Ja) as (x & Jx & <-). rewrite TR by auto. now apply FR.
  - intro t. unfold g_iter. rewrite g_addAll_In. tauto.
  - intro t. rewrite H, E1, map_map. split; (intros [J|J]; [now left|right]).
    + apply in_map_iff in J. destruct J as (u & <- & J). exists u. split; auto. rewrite on_terms_comp. apply on_terms_ext. apply plain_rename.
    + destruct J as (u & J & ->). apply in_map_iff. exists u. split; auto. rewrite on_terms_comp. apply on_terms_ext. apply plain_rename.
Qed.

(** ** the output of the serializer *)
Lemma uri_units : forall q, Forall (fun c => uri_char c = true) q -> TurtleTextSpec.units (fun c => ~ iri_illegal c) false q.
Proof.
  induction 1 as [|c q C _ IH]; [apply TurtleTextSpec.us_nil|]. destruct (uri_iri_char c C) as (A & _ & _ & D & _). apply legal_iri_char in A.
  apply (TurtleTextSpec.us_cons _ _ [c]); auto. now apply un_char.
Qed.
Lemma out_iri : forall s, clean_iri s -> iri_at in_turtle (RIri (quoted s)) (60 :: quoted s ++ [62]).
Proof. intros s [P _]. constructor. split; auto. apply uri_units. now apply quoted_uri. Qed.
Lemma out_label : forall a, label (bnode_str a) /\ wide_label (bnode_str a).
Proof.
  intros a. destruct (bnode_value_chars a) as [F NE]. change (bnode_str a) with ([95; 58] ++ bnode_value a). destruct (bnode_value a) as [|c r]; [contradiction|].
  inversion F as [|? ? [C C'] F']; subst.
  assert (LE : forall x, NTSpec.ascii_letter x = true -> TurtleTextSpec.letter x).
  { intros x X. unfold NTSpec.ascii_letter in X. unfold TurtleTextSpec.letter, between. rewrite orb_true_iff, !andb_true_iff, !N.leb_le in X. tauto. }
  assert (ND : ~ ends_in 46 r).
  { intros [y ->]. apply Forall_app in F'. destruct F' as [_ F']. inversion F' as [|? ? [_ Z] _]. discriminate Z. }
  split; exists c, r; (split; [reflexivity|]); (split; [|split; [|exact ND]]).
  - left. left. left. auto.
  - eapply Forall_impl; [|exact F']. intros x [_ X]. left. left. left. left. auto.
  - now apply wide_spec.
  - eapply Forall_impl; [|exact F']. intros x [X _]. left. now apply wide_spec.
Qed.
Lemma out_body : forall v, quoted_body (nt_escape v).
Proof. intros v. destruct (lex_string_sound _ _ _ _ (le_n _) (lex_string_escape v [])) as [_ H]. exact H. Qed.
Lemma out_subject : forall t, nt_subject t -> exists x, term_toNT t = Ok x /\ subject_at in_turtle (NTLex.raw_of t) x.
Proof.
  intros [s|a|v l d] H; [| |destruct H].
  - eexists. split; [now apply iri_toNT_ok|]. apply sa_iri. now apply out_iri.
  - eexists. split; [reflexivity|]. apply sa_label. apply out_label.
Qed.
Lemma out_object : forall t, nt_object t -> (forall v c r d, t = Lit v (Some (c :: r)) d -> lang_tag (c :: r)) -> exists x, term_toNT t = Ok x /\ object_at in_turtle (NTLex.raw_of t) x.
Proof.
  intros [s|a|v l d] H T.
  - destruct (out_subject (Iri s) H) as (x & E & A). exists x. split; auto. now apply oa_node.
  - destruct (out_subject (BNode a) H) as (x & E & A). exists x. split; auto. now apply oa_node.
  - destruct H as (Hv & Hl & Hd).
    assert (P : exists x, Ok (34 :: nt_escape v ++ [34]) = Ok x /\ object_at in_turtle (RLit (nt_escape v) RPlain) x) by (eexists; split; [reflexivity|]; apply oa_plain, out_body).
    assert (Q : forall c r, clean_iri (c :: r) -> exists x, (do y <- iri_toNT (c :: r) ; Ok (([34] ++ nt_escape v ++ [34]) ++ [94; 94] ++ y)) = Ok x /\
      object_at in_turtle (RLit (nt_escape v) (RType (quoted (c :: r)))) x).
    { intros c r C. rewrite (iri_toNT_ok _ C). cbn [bind]. eexists. split; [reflexivity|].
      replace (([34] ++ nt_escape v ++ [34]) ++ [94; 94] ++ 60 :: quoted (c :: r) ++ [62]) with (34 :: nt_escape v ++ [34] ++ [] ++ [94; 94] ++ [] ++ 60 :: quoted (c :: r) ++ [62]) by (lnorm; reflexivity).
      destruct C as [C _]. apply oa_type; auto using out_body; [constructor|constructor|]. split; auto. apply uri_units. now apply quoted_uri. }
    destruct l as [[|lc lr]|].
    + destruct d as [[|dc dr]|]; [exact P| |exact P]. apply Q. apply (Hd _ eq_refl). cbn. tauto.
    + eexists. split; [reflexivity|]. cbn [NTLex.raw_of]. replace (([34] ++ nt_escape v ++ [34]) ++ [64] ++ lc :: lr) with (34 :: nt_escape v ++ [34] ++ [] ++ 64 :: lc :: lr) by (lnorm; reflexivity).
      apply oa_lang; auto using out_body; [constructor|]. split; [eapply T; eauto|]. apply (Hl _ eq_refl). discriminate.
    + destruct d as [[|dc dr]|]; [exact P| |exact P]. apply Q. apply (Hd _ eq_refl). cbn. tauto.
Qed.
Lemma out_line : forall t, nt_triple t -> turtle_tags t -> exists body, triple_str t = Ok (body ++ [10]) /\ line_at in_turtle false (raw_stmt t) body.
Proof.
  intros [s p o g] (Hs & Hp & Ho & Hg) T. unfold turtle_tags in T. cbn [st_s st_p st_o st_graph] in *. subst g. destruct p as [i| |]; try contradiction. cbn [nt_predicate] in Hp.
  destruct (out_subject s Hs) as (a & Ea & Sa).
  destruct (out_object o Ho) as (c & Ec & Oc). { intros v k r d ->. exact T. }
  exists ([] ++ a ++ [32] ++ (60 :: quoted i ++ [62]) ++ [32] ++ c ++ [32] ++ [46]). split.
  - unfold triple_str. cbn [st_s st_p st_o]. rewrite Ea. cbn [bind]. change (term_toNT (Iri i)) with (iri_toNT i). rewrite (iri_toNT_ok i Hp). cbn [bind]. rewrite Ec. cbn [bind]. f_equal.
    change (s2l " .") with [32; 46]. lnorm. reflexivity.
  - assert (SP : blanks [32]) by (constructor; [now left|constructor]). unfold raw_stmt. cbn [st_s st_p st_o NTLex.raw_of].
    apply la_triple; auto; [constructor|split; [exact SP|discriminate]|now apply out_iri|split; [exact SP|discriminate]].
Qed.
Lemma out_lines : forall ts, Forall nt_triple ts -> Forall turtle_tags ts -> exists bodies, serialize_ntriples ts = (text bodies, Ok tt) /\ Forall2 (fun t b => line_at in_turtle false (raw_stmt t) b) ts bodies.
Proof.
  induction 1 as [|t ts Ht Hts IH]; intros T.
  - exists []. split; [reflexivity|constructor].
  - inversion T; subst. destruct IH as (bs & E & F); auto. destruct (out_line t Ht) as (b & Eb & Lb); auto.
    exists (b :: bs). cbn [serialize_ntriples]. rewrite Eb, E. split; [|now constructor]. rewrite text_cons. rewrite <- app_assoc. reflexivity.
Qed.
Lemma out_rest : forall ts bs, Forall2 (fun t b => line_at in_turtle false (raw_stmt t) b) ts bs -> lines_at in_turtle false (map raw_stmt ts) (10 :: text bs).
Proof.
  induction 1 as [|t b ts bs L _ IH].
  - cbn [map]. apply (ls_eol _ _ [] [10] []); [constructor| |constructor]. split; [discriminate|]. constructor; [now left|constructor].
  - cbn [map]. rewrite text_cons. apply (ls_cons _ _ [] [10] _ b _ (10 :: text bs)); auto; [constructor|]. split; [discriminate|]. constructor; [now left|constructor].
Qed.
Lemma out_doc : forall ts, Forall nt_triple ts -> Forall turtle_tags ts -> exists s, serialize_ntriples ts = (s, Ok tt) /\ nt_doc in_turtle false (map raw_stmt ts) s.
Proof.
  intros ts F T. destruct (out_lines ts F T) as (bs & E & L). exists (text bs). split; auto. destruct L as [|t b ts bs L Ls].
  - apply nd_none. apply ls_end. constructor.
  - cbn [map]. rewrite text_cons. apply nd_first; auto. now apply out_rest.
Qed.

Lemma esc_denotes : forall v, py_str v -> denotes (nt_escape v) (undropped v).
Proof.
  intros v P. pose proof (escape_round_trip v P) as RT. fold (undropped v) in RT. assert (W : node_wf (RLit (nt_escape v) RPlain)).
  { eapply object_at_wf. apply oa_plain. apply out_body. }
  destruct (body_cases (nt_escape v) W) as [(w & D & E)|(_ & [E|E])]; congruence.
Qed.
Lemma quoted_denotes : forall s, py_str s -> denotes (quoted s) (quoted s).
Proof. intros s P. apply TurtleEsc.plain_denotes. now apply quoted_no_bs. Qed.
Lemma raw_means : forall L t, nt_object t -> node_means L (NTLex.raw_of t) (rename (fun a => L (bnode_str a)) (nt_image t)).
Proof.
  intros L [s|a|v l d] H.
  - destruct H as [P _]. constructor. now apply quoted_denotes.
  - constructor.
  - destruct H as (Hv & Hl & Hd). apply esc_denotes in Hv. destruct l as [[|lc lr]|].
    + destruct d as [[|dc dr]|]; cbn [NTLex.raw_of nt_image rename]; constructor; auto. apply quoted_denotes. apply (Hd _ eq_refl). cbn. tauto.
    + cbn [NTLex.raw_of nt_image rename]; constructor; auto.
    + destruct d as [[|dc dr]|]; cbn [NTLex.raw_of nt_image rename]; constructor; auto. apply quoted_denotes. apply (Hd _ eq_refl). cbn. tauto.
Qed.
Lemma raws_mean : forall L ts, Forall nt_triple ts -> Forall2 (line_means L) (map raw_stmt ts) (map (back (fun a => L (bnode_str a))) ts).
Proof.
  induction 1 as [|[s p o g] ts (Hs & Hp & Ho & Hg) _ IH]; constructor; auto. cbn [st_s st_p st_o st_graph] in *. subst g. unfold raw_stmt, back, on_terms. cbn [st_s st_p st_o st_graph].
  apply (lm_triple L); apply raw_means; auto using nt_subject_object, nt_predicate_object.
Qed.
Lemma image_legal : forall t i, nt_object t -> In i (term_iris (nt_image t)) -> legal_text i.
Proof.
  assert (Q : forall s, py_str s -> legal_text (quoted s)).
  { intros s P. eapply Forall_impl; [|apply quoted_uri; exact P]. intros c C. apply legal_iri_char. apply uri_iri_char in C. tauto. }
  intros [s|a|v l d] i H J.
  - destruct H as [P _]. destruct J as [<-|[]]. auto.
  - destruct J.
  - destruct H as (Hv & Hl & Hd). destruct l as [[|lc lr]|]; [| |]; destruct d as [[|dc dr]|]; cbn [nt_image term_iris In] in J; try contradiction; destruct J as [<-|[]]; apply Q; apply (Hd _ eq_refl); cbn; tauto.
Qed.
Lemma iris_rename : forall f t, term_iris (rename f t) = term_iris t.
Proof. intros f [| |]; reflexivity. Qed.
Lemma back_iris : forall f t, stmt_iris (back f t) = stmt_iris (on_terms nt_image t).
Proof. intros f [s p o g]. unfold stmt_iris, back, on_terms. cbn [st_s st_p st_o]. now rewrite !iris_rename. Qed.
Lemma raw_labels : forall t, nt_triple t -> forall a, In a (bnodes_of t) -> In (bnode_str a) (line_labels (raw_stmt t)).
Proof.
  intros [s p o g] _ a H. unfold bnodes_of in H. cbn [map concat st_s st_p st_o] in H. rewrite app_nil_r in H. unfold line_labels, raw_stmt. cbn [r_s r_p r_o r_g st_s st_p st_o].
  assert (Z : forall u, In a (match u with BNode b => [b] | _ => [] end) -> In (bnode_str a) (node_labels (NTLex.raw_of u))).
  { intros [|b|] K; cbn in K; try tauto. destruct K as [<-|[]]. now left. }
  rewrite !in_app_iff in *. destruct H as [H|[H|H]]; apply Z in H; auto.
Qed.
Lemma raws_labels : forall ts, Forall nt_triple ts -> forall a, In a (concat (map bnodes_of ts)) -> In (bnode_str a) (labels_of (map raw_stmt ts)).
Proof.
  induction 1 as [|t ts H _ IH]; intros a J; [destruct J|]. cbn [map concat] in J. unfold labels_of. cbn [map concat]. rewrite in_app_iff in *. destruct J as [J|J]; [left; now apply raw_labels|right; now apply IH].
Qed.
Lemma output_as_turtle : forall uj m base h ts, uj_clean uj -> ~ In 60 base -> Forall nt_triple ts -> Forall turtle_tags ts ->
  (forall t i, In t ts -> In i (stmt_iris (on_terms nt_image t)) -> resolves_by uj base i i) ->
  exists s m' h' f, serialize_ntriples ts = (s, Ok tt) /\ turtle_parse uj m base h (SrcStr s) = Some (m', h', Ok tt) /\
    injective_on f (concat (map bnodes_of ts)) /\ fresh_for m m' f (concat (map bnodes_of ts)) /\
    forall t, In t (g_iter h') <-> In t (g_iter h) \/ exists u, In u ts /\ t = on_terms plain_as_string (back f u).
Proof.
  intros uj m base h ts U B F T K. destruct (out_doc ts F T) as (s & E & D).
  assert (K' : forall t i, In t (map (back (fun a => (fun _ : str => 0) (bnode_str a))) ts) -> In i (stmt_iris t) -> legal_text i /\ resolves_by uj base i i).
  { intros t i J I. apply in_map_iff in J. destruct J as (u & <- & J). rewrite back_iris in I. split; [|now apply (K u)].
    rewrite Forall_forall in F. destruct (F u J) as (Hs & Hp & Ho & _). unfold stmt_iris, on_terms in I. cbn [st_s st_p st_o] in I. rewrite !in_app_iff in I.
    destruct I as [I|[I|I]]; (eapply image_legal; [|exact I]); auto using nt_subject_object, nt_predicate_object. }
  destruct (turtle_half uj m base h _ s (fun _ => 0) _ U B D (raws_mean _ ts F) K') as (m' & h' & L & ts1 & E' & M & [FR IN] & H).
  assert (Q : ts1 = map (back (fun a => L (bnode_str a))) ts).
  { rewrite (lines_rename (fun a => a) L L _ _ (raws_mean L ts F) ts1 M (fun x _ => eq_refl)).
    assert (RI : forall x, rename (fun a : N => a) x = x) by (intros []; reflexivity).
    rewrite map_map. apply map_ext. intros [a b c [[d|]|]]; unfold back, on_terms; cbn [st_s st_p st_o st_graph]; rewrite !RI; reflexivity. }
  subst ts1. exists s, m', h', (fun a => L (bnode_str a)). split; [exact E|]. split; [exact E'|]. split; [|split].
  - intros a b Ja Jb Q. apply IN in Q; [|now apply raws_labels|now apply raws_labels]. apply app_inv_head in Q. now apply bnode_value_inj.
  - intros a Ja. apply FR. now apply raws_labels.
  - intros t. rewrite H, map_map. split; (intros [J|J]; [now left|right]).
    + apply in_map_iff in J. destruct J as (u & <- & J). eauto.
    + destruct J as (u & J & ->). apply in_map_iff. eauto.
Qed.
