(** Whatever the parser accepts is a text of its result in the loose reading, and the fuel suffices (C82). *)
From Verif Require Import Model.Py Model.Terms Model.Codec Model.NTriples Model.TurtleTree Model.Turtle Model.TurtleParse
  Spec.CodecSpec Spec.TurtleSpec Spec.TurtleTextSpec Proofs.CodecLemmas Proofs.CurieLemmas Proofs.TurtleScan Proofs.TurtleTok Proofs.TurtleStr Proofs.TurtleAccept.
Open Scope N_scope.

Lemma head_cons : forall c s, head_is c s = true -> s = c :: tl s.
Proof. intros c [|d s] H; [discriminate|]. cbn in H. apply N.eqb_eq in H. now subst. Qed.
Lemma skip_at : forall c s, head_is c (skip false s) = true -> exists w, gap w /\ s = w ++ c :: tl (skip false s).
Proof. intros c s H. apply head_cons in H. now apply skip_cons in H. Qed.
Lemma skip_ne : forall s, skip false s <> [] -> exists w, gap w /\ s = w ++ skip false s.
Proof. intros s N. destruct (skip false s) as [|c r] eqn:E; [congruence|]. now apply skip_cons in E. Qed.
Lemma bind_ok : forall A B (x : res A) (f : A -> res B) v, bind x f = Ok v -> exists y, x = Ok y /\ f y = Ok v.
Proof. intros A B [y|e] f v E; [eauto|discriminate]. Qed.
Lemma t_ok_inv : forall A (x : option (A * str)) v, t_ok x = Ok v -> x = Some v.
Proof. intros A [y|] v E; [|discriminate]. cbn in E. congruence. Qed.

Lemma p_ref_inv : forall s b k, p_ref s = Some (b, k) -> exists w, gap w /\ iri_text (TRef b) ([60] ++ b ++ [62]) /\ s = w ++ 60 :: b ++ 62 :: k.
Proof.
  intros s b k E. unfold p_ref in E. destruct (head_is 60 (skip false s)) eqn:H; [|discriminate]. apply skip_at in H. destruct H as (w & G & S).
  apply (lex_ref_inv _ _ _ _ (le_n _)) in E. destruct E as [U E]. rewrite E in S. exists w. repeat split; auto. now constructor.
Qed.
Lemma p_tiri_inv : forall s i k, p_tiri s = Some (i, k) -> exists w t, gap w /\ iri_text i t /\ s = w ++ t ++ k.
Proof.
  intros s i k E. unfold p_tiri in E. destruct (head_is 60 (skip false s)) eqn:H.
  - apply skip_at in H. destruct H as (w & G & S). destruct (lex_ref LNormal (tl (skip false s))) as [[b t]|] eqn:L; [|discriminate]. injection E as <- <-.
    apply (lex_ref_inv _ _ _ _ (le_n _)) in L. destruct L as [U L]. rewrite L in S. exists w, ([60] ++ b ++ [62]). split; auto.
    split; [now constructor|]. cbn [app]. rewrite <- app_assoc. exact S.
  - destruct (lex_pname (skip false s)) as [[tok t]|] eqn:L; [|discriminate]. injection E as <- <-.
    destruct (skip_ne s) as (w & G & S). { intro Z. rewrite Z in L. discriminate. }
    apply lex_pname_inv in L. destruct L as (ns & ln & P & Q & -> & L). rewrite L in S. exists w, (ns ++ 58 :: ln). repeat split; auto. now constructor.
Qed.
Lemma p_verb_inv : forall s v k, p_verb s = Some (v, k) -> exists w t, gap w /\ verb_text v t /\ s = w ++ t ++ k.
Proof.
  intros s v k E. unfold p_verb in E. destruct (p_tiri s) as [[i t]|] eqn:T.
  - injection E as <- <-. apply p_tiri_inv in T. destruct T as (w & x & G & I & ->). exists w, x. repeat split; auto. now constructor.
  - cbv zeta in E. destruct (head_is 97 (skip false s)) eqn:H; [|discriminate]. apply skip_at in H. destruct H as (w & G & S). injection E as <- <-.
    exists w, [97]. repeat split; auto. constructor.
Qed.
Lemma p_rdf_literal_inv : forall q s x k, q = 34 \/ q = 39 -> head_is q s = true -> p_rdf_literal q s = Some (x, k) ->
  exists t, lit_text gap x t /\ s = t ++ k.
Proof.
  intros q s x k Q H E. unfold p_rdf_literal in E. destruct (lex_string_tok q s) as [[b t]|] eqn:L; [|discriminate].
  apply lex_string_inv in L; auto. destruct L as (y & Y & ->). cbv zeta in E.
  destruct (head_is 64 (skip false t)) eqn:H64.
  - apply skip_at in H64. destruct H64 as (w & G & S). destruct (lex_tag (tl (skip false t))) as [[g t2]|] eqn:T; [|discriminate]. injection E as <- <-.
    apply lex_tag_inv in T. destruct T as [T E]. rewrite E in S. exists (y ++ w ++ [64] ++ g). split; [now constructor|].
    rewrite S, <- !app_assoc. reflexivity.
  - destruct (startswith (skip false t) [94; 94]) eqn:H94; [|injection E as <- <-; exists y; split; [now constructor|auto]].
    apply startswith_spec in H94. destruct H94 as [r R]. destruct (skip_ne t) as (w & G & S); [rewrite R; discriminate|]. rewrite R in *.
    cbn [app skipn] in E. destruct (p_tiri r) as [[i t2]|] eqn:T; [|discriminate]. injection E as <- <-. apply p_tiri_inv in T.
    destruct T as (w' & z & G' & I & ->). exists (y ++ w ++ [94; 94] ++ w' ++ z). split; [now constructor|]. rewrite S, <- !app_assoc. reflexivity.
Qed.
Lemma p_bool_inv : forall s x k, p_bool s = Some (x, k) -> exists t, lit_text gap x t /\ s = t ++ k.
Proof.
  intros s x k E. unfold p_bool in E. destruct (startswith s (s2l "true")) eqn:H.
  - apply startswith_spec in H. destruct H as [r ->]. injection E as <- <-. exists (s2l "true"). split; [constructor; now left|reflexivity].
  - destruct (startswith s (s2l "false")) eqn:H2; [|discriminate]. apply startswith_spec in H2. destruct H2 as [r ->]. injection E as <- <-.
    exists (s2l "false"). split; [constructor; now right|reflexivity].
Qed.

(** semicolons at the end of a property list *)
Inductive tsemis : str -> Prop :=
| ts_nil : tsemis []
| ts_cons : forall w m, gap w -> tsemis m -> tsemis (w ++ [59] ++ m).
Lemma pol_tsemis : forall b m, tsemis m -> forall p s, pol_text b p s -> pol_text b p (s ++ m).
Proof.
  induction 1 as [|w m G _ IH]; intros p s T; [now rewrite app_nil_r|]. replace (s ++ w ++ [59] ++ m) with ((s ++ w ++ [59]) ++ m) by now rewrite <- !app_assoc.
  apply IH. now apply pt_semi.
Qed.
Definition more_text (p : tpol) (s k : str) : Prop :=
  (p = PNil /\ exists m, tsemis m /\ s = m ++ k) \/ (exists m t, semis m /\ pol_text false p t /\ s = m ++ t ++ k).
Lemma all_inv : forall n,
  (forall s o k, p_obj n s = Ok (o, k) -> exists w t, gap w /\ obj_text false o t /\ s = w ++ t ++ k) /\
  (forall s l k, p_items n s = Ok (l, k) -> exists w t, gap w /\ items_text false l t /\ s = w ++ t ++ 41 :: k) /\
  (forall s l k, p_objs n s = Ok (l, k) -> exists w t, gap w /\ objs_text false l t /\ s = w ++ t ++ k) /\
  (forall s p k, p_pol n s = Ok (p, k) -> exists w t, gap w /\ pol_text false p t /\ s = w ++ t ++ k) /\
  (forall s p k, p_more n s = Ok (p, k) -> more_text p s k).
Proof.
  induction n as [|n (IHo & IHi & IHl & IHp & IHm)]; [repeat split; intros; discriminate|]. repeat split.
  - intros s o k E. rewrite p_obj_eq in E. cbv zeta in E. destruct (skip false s) as [|c r] eqn:K; [discriminate|].
    apply skip_cons in K. destruct K as (w & G & ->). destruct (c =? 60) eqn:C1; [|destruct (c =? 95) eqn:C2; [|destruct (c =? 40) eqn:C3; [|destruct (c =? 91) eqn:C4; [|destruct ((c =? 34) || (c =? 39)) eqn:C5]]]].
    + apply bind_ok in E. destruct E as ((i & t) & E & F). apply t_ok_inv in E. injection F as <- <-. apply p_tiri_inv in E.
      destruct E as (w' & t' & G' & I & E). rewrite E. exists (w ++ w'), t'. split; [now apply gap_app|]. split; [now constructor|]. cbn [snd]. now rewrite <- app_assoc.
    + apply N.eqb_eq in C2. subst c. destruct r as [|d r]; [discriminate|]. destruct (d =? 58) eqn:D; [|discriminate]. apply N.eqb_eq in D. subst d.
      apply bind_ok in E. destruct E as ((l & t) & E & F). apply t_ok_inv in E. injection F as <- <-. apply lex_blabel_inv in E. destruct E as [L ->].
      cbn [fst snd]. exists w, (95 :: 58 :: l). repeat split; auto. now constructor.
    + apply N.eqb_eq in C3. subst c. apply bind_ok in E. destruct E as ((l & t) & E & F). injection F as <- <-. apply IHi in E.
      destruct E as (w' & t' & G' & I & ->). cbn [fst snd]. exists w, ([40] ++ w' ++ t' ++ [41]). repeat split; auto; [now constructor|].
      cbn [app]. now rewrite <- !app_assoc.
    + apply N.eqb_eq in C4. subst c. destruct (head_is 93 (skip_tws r)) eqn:H.
      * injection E as <- <-. destruct (skip_tws_split r) as (v & V & R). apply head_cons in H. rewrite H in R. remember (tl (skip_tws r)) as k0 eqn:HK. clear HK H. subst r.
        exists w, ([91] ++ v ++ [93]). repeat split; auto; [now constructor|]. cbn [app]. now rewrite <- app_assoc.
      * apply bind_ok in E. destruct E as ((p & t) & E & F). cbn [fst snd] in F. cbv zeta in F. destruct (head_is 93 (skip false t)) eqn:H2; [|discriminate].
        injection F as <- <-. apply IHp in E. destruct E as (w' & t' & G' & T & ->). apply skip_at in H2. destruct H2 as (w2 & G2 & S). remember (tl (skip false t)) as k0 eqn:HK. clear HK. subst t.
        exists w, ([91] ++ w' ++ t' ++ w2 ++ [93]). repeat split; auto; [now constructor|]. cbn [app]. now rewrite <- !app_assoc.
    + apply bind_ok in E. destruct E as ((x & t) & E & F). apply t_ok_inv in E. injection F as <- <-. cbn [fst snd].
      apply p_rdf_literal_inv in E; [|rewrite orb_true_iff, !N.eqb_eq in C5; exact C5|cbn; apply N.eqb_refl]. destruct E as (y & Y & E). rewrite E.
      exists w, y. repeat split; auto. now constructor.
    + destruct (lex_pname (c :: r)) as [[tok t]|] eqn:L.
      { injection E as <- <-. apply lex_pname_inv in L. destruct L as (ns & ln & P & Q & -> & L). rewrite L. exists w, (ns ++ 58 :: ln). repeat split; auto.
        now apply ot_iri, it_pn. }
      destruct (lex_number (c :: r)) as [[x t]|] eqn:M.
      { injection E as <- <-. apply lex_number_inv in M. destruct M as (m & tok & -> & T & ->). exists w, tok. repeat split; auto. now apply ot_lit, lt_num. }
      apply bind_ok in E. destruct E as ((x & t) & E & F). apply t_ok_inv in E. injection F as <- <-. apply p_bool_inv in E. destruct E as (y & Y & ->).
      exists w, y. repeat split; auto. now constructor.
  - intros s l k E. rewrite p_items_eq in E. cbv zeta in E. destruct (head_is 41 (skip false s)) eqn:H.
    + injection E as <- <-. apply skip_at in H. destruct H as (w & G & S). exists w, []. repeat split; auto. constructor.
    + apply bind_ok in E. destruct E as ((o & t) & E & F). apply bind_ok in F. cbn [snd fst] in F. destruct F as ((r & t2) & F & R). injection R as <- <-. cbn [fst snd].
      apply IHo in E. destruct E as (w & x & G & O & E). apply IHi in F. destruct F as (w2 & y & G2 & T & ->).
      destruct (skip_ne s) as (w0 & G0 & S). { intro Z. rewrite Z in E. symmetry in E. apply app_eq_nil in E. destruct E as [_ E]. apply app_eq_nil in E.
        destruct E as [-> _]. apply obj_starts in O. destruct O as (? & ? & O & _). discriminate. }
      rewrite E in S. exists (w0 ++ w). destruct r as [|o2 r].
      * assert (y = []) by (inversion T; reflexivity). subst y. exists (x ++ w2). split; [now apply gap_app|]. split; [now constructor|]. rewrite S. now rewrite <- !app_assoc.
      * exists (x ++ w2 ++ y). split; [now apply gap_app|]. split; [|rewrite S; now rewrite <- !app_assoc]. constructor; auto; [|discriminate].
        split; [auto|discriminate].
  - intros s l k E. rewrite p_objs_eq in E. apply bind_ok in E. destruct E as ((o & t) & E & F). cbn [fst snd] in F. cbv zeta in F.
    apply IHo in E. destruct E as (w & x & G & O & ->). destruct (head_is 44 (skip false t)) eqn:H.
    + apply skip_at in H. destruct H as (w2 & G2 & S). apply bind_ok in F. destruct F as ((r & t2) & F & R). injection R as <- <-. cbn [fst snd] in *.
      apply IHl in F. destruct F as (w3 & y & G3 & T & F). rewrite F in S. rewrite S. exists w, (x ++ w2 ++ [44] ++ w3 ++ y). repeat split; auto; [now constructor|].
      rewrite <- !app_assoc. cbn [app]. reflexivity.
    + injection F as <- <-. exists w, x. repeat split; auto. now constructor.
  - intros s p k E. rewrite p_pol_eq in E. apply bind_ok in E. destruct E as ((v & t) & E & F). apply t_ok_inv in E. cbn [fst snd] in F.
    apply bind_ok in F. destruct F as ((os & t2) & F & R). cbn [fst snd] in R. apply bind_ok in R. destruct R as ((p' & t3) & R & Z). injection Z as <- <-. cbn [fst snd].
    apply p_verb_inv in E. destruct E as (w & x & G & V & ->). apply IHl in F. destruct F as (w2 & y & G2 & T & ->). apply IHm in R.
    assert (A : apart false w2 y) by (split; [auto|discriminate]).
    destruct R as [(-> & m & M & ->)|(m & z & M & T2 & ->)].
    + exists w, ((x ++ w2 ++ y) ++ m). repeat split; auto; [|now rewrite <- !app_assoc]. apply pol_tsemis; auto. now constructor.
    + exists w, (x ++ w2 ++ y ++ m ++ z). repeat split; auto; [|now rewrite <- !app_assoc]. now constructor.
  - intros s p k E. rewrite p_more_eq in E. cbv zeta in E. destruct (head_is 59 (skip false s)) eqn:H.
    + apply skip_at in H. destruct H as (w & G & S). set (r := tl (skip false s)) in *. destruct (head_is 46 (skip false r) || head_is 93 (skip false r) || head_is 59 (skip false r)).
      * apply IHm in E. destruct E as [(-> & m & M & E)|(m & t & M & T & E)].
        -- left. split; auto. exists (w ++ [59] ++ m). split; [now constructor|]. rewrite S, E, <- !app_assoc. reflexivity.
        -- right. exists (w ++ [59] ++ m), t. split; [now apply sm_cons|]. split; auto. rewrite S, E, <- !app_assoc. reflexivity.
      * apply IHp in E. destruct E as (w2 & t & G2 & T & E). right. exists (w ++ [59] ++ w2), t. split; [now apply sm_one|]. split; auto. rewrite S, E, <- !app_assoc. reflexivity.
    + injection E as <- <-. left. split; auto. exists []. split; [constructor|reflexivity].
Qed.

(** ** Statements and documents *)
Lemma p_end_inv : forall s k, p_end s = Some k -> exists w, gap w /\ s = w ++ 46 :: k.
Proof.
  intros s k E. unfold p_end in E. cbv zeta in E. destruct (head_is 46 (skip false s)) eqn:H; [|discriminate]. injection E as <-. now apply skip_at.
Qed.
Lemma p_prefix_inv : forall dot s x k, p_prefix dot s = Some (x, k) -> exists w1 ns w2 b w3,
  x = SPrefix ns b /\ pn_prefix ns /\ gap w1 /\ gap w2 /\ iri_text (TRef b) ([60] ++ b ++ [62]) /\ gap w3 /\
  s = w1 ++ ns ++ 58 :: w2 ++ 60 :: b ++ 62 :: (if dot then w3 ++ 46 :: k else k).
Proof.
  intros dot s x k E. unfold p_prefix in E. destruct (lex_ns (skip false s)) as [[ns t]|] eqn:L; [|discriminate].
  destruct (skip_ne s) as (w1 & G1 & S). { intro Z. rewrite Z in L. discriminate. }
  apply lex_ns_inv in L. destruct L as [P L]. rewrite L in S. destruct (p_ref t) as [[b t1]|] eqn:R; [|discriminate]. apply p_ref_inv in R.
  destruct R as (w2 & G2 & I & ->). destruct dot.
  - destruct (p_end t1) as [t2|] eqn:F; [|discriminate]. injection E as <- <-. apply p_end_inv in F. destruct F as (w3 & G3 & ->).
    exists w1, ns, w2, b, w3. auto 10.
  - injection E as <- <-. exists w1, ns, w2, b, []. repeat split; auto. constructor.
Qed.
Lemma p_base_inv : forall dot s x k, p_base dot s = Some (x, k) -> exists w1 b w3,
  x = SBase b /\ gap w1 /\ iri_text (TRef b) ([60] ++ b ++ [62]) /\ gap w3 /\ s = w1 ++ 60 :: b ++ 62 :: (if dot then w3 ++ 46 :: k else k).
Proof.
  intros dot s x k E. unfold p_base in E. destruct (p_ref s) as [[b t1]|] eqn:R; [|discriminate]. apply p_ref_inv in R.
  destruct R as (w2 & G2 & I & ->). destruct dot.
  - destruct (p_end t1) as [t2|] eqn:F; [|discriminate]. injection E as <- <-. apply p_end_inv in F. destruct F as (w3 & G3 & ->).
    exists w2, b, w3. auto 10.
  - injection E as <- <-. exists w2, b, []. repeat split; auto. constructor.
Qed.
Lemma p_directive_inv : forall s x k, p_directive s = Some (x, k) -> exists y, stmt_text false x false y /\ s = y ++ k.
Proof.
  intros s x k E. unfold p_directive in E. destruct (startswith s (s2l "@prefix")) eqn:H.
  { apply startswith_spec in H. destruct H as [r ->]. change (skipn 7 (s2l "@prefix" ++ r)) with r in E. apply p_prefix_inv in E.
    destruct E as (w1 & ns & w2 & b & w3 & -> & P & G1 & G2 & I & G3 & ->). eexists. split; [apply (sx_prefix false ns w1 w2 b w3); auto; discriminate|].
    now rewrite <- !app_assoc. }
  destruct (startswith s (s2l "@base")) eqn:H2.
  { apply startswith_spec in H2. destruct H2 as [r ->]. change (skipn 5 (s2l "@base" ++ r)) with r in E. apply p_base_inv in E.
    destruct E as (w1 & b & w3 & -> & G1 & I & G3 & ->). eexists. split; [apply (sx_base false w1 b w3); auto|]. now rewrite <- !app_assoc. }
  destruct (keyword (s2l "PREFIX") s) as [t|] eqn:K.
  { apply keyword_inv in K. destruct K as (kw & KW & ->). apply p_prefix_inv in E. destruct E as (w1 & ns & w2 & b & w3 & -> & P & G1 & G2 & I & G3 & ->).
    eexists. split; [apply (sx_sparql_prefix false kw ns w1 w2 b); auto; discriminate|]. now rewrite <- !app_assoc. }
  destruct (keyword (s2l "BASE") s) as [t|] eqn:K2; [|discriminate]. apply keyword_inv in K2. destruct K2 as (kw & KW & ->).
  apply p_base_inv in E. destruct E as (w1 & b & w3 & -> & G1 & I & G3 & ->).
  eexists. split; [apply (sx_sparql_base false kw w1 b); auto|]. now rewrite <- !app_assoc.
Qed.
Lemma p_triples_inv : forall n s x k, p_triples n s = Ok (x, k) -> exists w y, gap w /\ stmt_text false x false y /\ s = w ++ y ++ k.
Proof.
  intros n s x k E. unfold p_triples in E. apply bind_ok in E. destruct E as ((o & t) & E & F). cbn [fst snd] in F. cbv zeta in F.
  apply (proj1 (all_inv n)) in E. destruct E as (w & t1 & G & O & ->).
  assert (R : forall v, subject_form o -> (do y <- p_pol n t ;
        do e <- t_ok (match p_end (snd y) with Some t' => Some (tt, t') | None => None end) ; Ok (STriples o (fst y), snd e)) = Ok v ->
     exists w y, gap w /\ stmt_text false (fst v) false y /\ w ++ y ++ snd v = w ++ y ++ snd v /\ forall z, z ++ t1 ++ t = z ++ y ++ snd v).
  { intros (x' & k') SF E. apply bind_ok in E. destruct E as ((p & t2) & E & H). apply bind_ok in H. cbn [fst snd] in H.
    destruct H as ((u & t3) & H & Z). injection Z as <- <-. apply t_ok_inv in H. destruct (p_end t2) as [t4|] eqn:PE; [|discriminate].
    injection H as <- <-. apply p_end_inv in PE. destruct PE as (w2 & G2 & ->). apply (all_inv n) in E. destruct E as (w1 & y & G1 & T & ->).
    exists [], (t1 ++ w1 ++ y ++ w2 ++ [46]). split; [constructor|]. cbn [fst snd]. split; [|split; auto; intro z; now rewrite <- !app_assoc].
    apply sx_triples; auto; try discriminate. split; [auto|discriminate]. }
  assert (Q : forall v, subject_form o -> (do y <- p_pol n t ;
        do e <- t_ok (match p_end (snd y) with Some t' => Some (tt, t') | None => None end) ; Ok (STriples o (fst y), snd e)) = Ok v ->
     exists w0 y, gap w0 /\ stmt_text false (fst v) false y /\ w ++ t1 ++ t = w0 ++ y ++ snd v).
  { intros v SF E. destruct (R v SF E) as (_ & y & _ & T & _ & Z). exists w, y. auto. }
  destruct o; try (apply (Q (x, k) Logic.I F)); [|discriminate].
  destruct (head_is 46 (skip false t)) eqn:H; [|apply (Q (x, k) Logic.I F)]. injection F as <- <-. apply skip_at in H. destruct H as (w2 & G2 & S). remember (tl (skip false t)) as k0 eqn:HK. clear - G2 S G O. subst t.
  exists w, (t1 ++ w2 ++ [46]). split; auto. split; [now apply sx_props|]. now rewrite <- !app_assoc.
Qed.
Lemma p_tstmt_inv : forall n s x k, p_tstmt n s = Ok (x, k) -> exists w y, gap w /\ stmt_text false x false y /\ s = w ++ y ++ k.
Proof.
  intros n s x k E. unfold p_tstmt in E. cbv zeta in E. destruct (skip false s) as [|c r] eqn:K; [discriminate|].
  apply skip_cons in K. destruct K as (w & G & ->). destruct (starts_subject (c :: r)).
  - apply p_triples_inv in E. destruct E as (w2 & y & G2 & T & ->). exists (w ++ w2), y. split; [now apply gap_app|]. split; auto. now rewrite <- app_assoc.
  - apply t_ok_inv in E. apply p_directive_inv in E. destruct E as (y & T & ->). exists w, y. auto.
Qed.
Lemma p_tdoc_inv : forall k n s d, p_tdoc k n s = Ok d -> doc_text false d s.
Proof.
  induction k as [|k IH]; intros n s d E; rewrite p_tdoc_eq in E; (destruct (skip false s) as [|c r] eqn:K; [injection E as <-; constructor; now apply skip_nil|]).
  - discriminate.
  - apply bind_ok in E. destruct E as ((x & t) & E & F). cbn [fst snd] in F. apply bind_ok in F. destruct F as (l & F & Z). injection Z as <-.
    apply p_tstmt_inv in E. destruct E as (w & y & G & T & ->). apply dx_gap; auto. apply (dx_first false x false); auto; try discriminate. eapply IH; eauto.
Qed.

(** ** The fuel *)
Lemma obj_len : forall b o t, obj_text b o t -> (1 <= length t)%nat.
Proof. intros b o t T. apply obj_starts in T. destruct T as (c & r & -> & _). cbn. lia. Qed.
Lemma verb_len : forall v t, verb_text v t -> (1 <= length t)%nat.
Proof. intros v t T. apply verb_starts in T. destruct T as (c & r & -> & _). cbn. lia. Qed.
Definition nof {A} (x : res A) : Prop := x <> Err OutOfFuel.
Lemma nof_bind : forall A B (x : res A) (f : A -> res B), nof x -> (forall v, x = Ok v -> nof (f v)) -> nof (bind x f).
Proof. intros A B [v|e] f N F; cbn; [now apply F|]. intro H. apply N. congruence. Qed.
Lemma nof_ok : forall A (v : A), nof (Ok v).
Proof. intros A v. discriminate. Qed.
Lemma nof_lark : forall A, nof (A := A) (Err LarkError).
Proof. intro A. discriminate. Qed.
Lemma nof_t_ok : forall A (x : option (A * str)), nof (t_ok x).
Proof. intros A [y|]; discriminate. Qed.
Lemma obj_shorter : forall n s o k, p_obj n s = Ok (o, k) -> (length k < length s)%nat.
Proof.
  intros n s o k E. apply (proj1 (all_inv n)) in E. destruct E as (w & t & _ & T & ->). apply obj_len in T. rewrite !app_length. lia.
Qed.
Lemma tl_len : forall (s : str), (length (tl s) <= length s)%nat.
Proof. intros [|c s]; cbn; lia. Qed.
Lemma skip_tl_len : forall c s, head_is c (skip false s) = true -> (length (tl (skip false s)) < length s)%nat.
Proof. intros c s H. apply skip_at in H. destruct H as (w & _ & S). rewrite S at 2. rewrite app_length. cbn. lia. Qed.
Lemma fuel_ok : forall n,
  (forall s, (2 * length s + 1 <= n)%nat -> nof (p_obj n s)) /\
  (forall s, (2 * length s + 2 <= n)%nat -> nof (p_items n s)) /\
  (forall s, (2 * length s + 2 <= n)%nat -> nof (p_objs n s)) /\
  (forall s, (2 * length s + 1 <= n)%nat -> nof (p_pol n s)) /\
  (forall s, (2 * length s + 1 <= n)%nat -> nof (p_more n s)).
Proof.
  induction n as [|n (IHo & IHi & IHl & IHp & IHm)]; [repeat split; intros; lia|]. repeat split; intros s LE.
  - rewrite p_obj_eq. cbv zeta. assert (SL := skip_len s). destruct (skip false s) as [|c r]; [apply nof_lark|]. cbn [length] in SL.
    destruct (c =? 60); [|destruct (c =? 95); [|destruct (c =? 40); [|destruct (c =? 91); [|destruct ((c =? 34) || (c =? 39))]]]].
    + apply nof_bind; [apply nof_t_ok|]. intros; apply nof_ok.
    + destruct r as [|d r]; [apply nof_lark|]. destruct (d =? 58); [|apply nof_lark]. apply nof_bind; [apply nof_t_ok|]. intros; apply nof_ok.
    + apply nof_bind; [apply IHi; lia|]. intros; apply nof_ok.
    + destruct (head_is 93 (skip_tws r)); [apply nof_ok|]. apply nof_bind; [apply IHp; lia|]. intros v _. destruct (head_is 93 _); [apply nof_ok|apply nof_lark].
    + apply nof_bind; [apply nof_t_ok|]. intros; apply nof_ok.
    + destruct (lex_pname (c :: r)) as [[]|]; [apply nof_ok|]. destruct (lex_number (c :: r)) as [[]|]; [apply nof_ok|].
      apply nof_bind; [apply nof_t_ok|]. intros; apply nof_ok.
  - rewrite p_items_eq. cbv zeta. assert (SL := skip_len s). destruct (head_is 41 (skip false s)); [apply nof_ok|]. apply nof_bind; [apply IHo; lia|].
    intros (o & t) E. apply obj_shorter in E. apply nof_bind; [apply IHi; cbn [snd]; lia|]. intros; apply nof_ok.
  - rewrite p_objs_eq. apply nof_bind; [apply IHo; lia|]. intros (o & t) E. apply obj_shorter in E. cbn [fst snd]. cbv zeta.
    destruct (head_is 44 (skip false t)) eqn:H; [|apply nof_ok]. apply skip_tl_len in H. apply nof_bind; [apply IHl; lia|]. intros; apply nof_ok.
  - rewrite p_pol_eq. apply nof_bind; [apply nof_t_ok|]. intros (v & t) E. apply t_ok_inv in E. apply p_verb_inv in E. destruct E as (w & x & _ & V & ->).
    apply verb_len in V. rewrite !app_length in LE. apply nof_bind; [apply IHl; cbn [snd]; lia|]. cbn [snd]. intros (os & t2) E.
    apply (all_inv n) in E. destruct E as (w2 & y & _ & T & ->). rewrite !app_length in LE. apply nof_bind; [apply IHm; cbn [snd]; lia|]. intros; apply nof_ok.
  - rewrite p_more_eq. cbv zeta. destruct (head_is 59 (skip false s)) eqn:H; [|apply nof_ok]. apply skip_tl_len in H.
    destruct (_ || _); [apply IHm; lia|apply IHp; lia].
Qed.
Lemma stmt_shorter : forall n s x k, p_tstmt n s = Ok (x, k) -> (length k < length s)%nat.
Proof.
  intros n s x k E. apply p_tstmt_inv in E. destruct E as (w & y & _ & T & ->). assert (1 <= length y)%nat; [|rewrite !app_length; lia].
  destruct T; rewrite ?app_length; cbn [length]; try lia.
Qed.
Lemma stmt_fuel : forall n s, (2 * length s + 2 <= n)%nat -> nof (p_tstmt n s).
Proof.
  intros n s LE. unfold p_tstmt. cbv zeta. assert (SL := skip_len s). destruct (starts_subject (skip false s)); [|apply nof_t_ok].
  unfold p_triples. apply nof_bind; [apply fuel_ok; lia|]. intros (o & t) E. apply obj_shorter in E. cbn [fst snd]. cbv zeta.
  assert (R : nof (do y <- p_pol n t ; do e <- t_ok (match p_end (snd y) with Some t' => Some (tt, t') | None => None end) ; Ok (STriples o (fst y), snd e))).
  { apply nof_bind; [apply fuel_ok; lia|]. intros v _. apply nof_bind; [apply nof_t_ok|]. intros; apply nof_ok. }
  destruct o; try exact R; [|apply nof_lark]. destruct (head_is 46 (skip false t)); [apply nof_ok|exact R].
Qed.
Lemma doc_fuel : forall k n s, (length s <= k)%nat -> (2 * length s + 2 <= n)%nat -> nof (p_tdoc k n s).
Proof.
  induction k as [|k IH]; intros n s L1 L2; rewrite p_tdoc_eq; (destruct (skip false s) as [|c r] eqn:K; [apply nof_ok|]).
  - assert (SL := skip_len s). rewrite K in SL. cbn in SL. lia.
  - apply nof_bind; [now apply stmt_fuel|]. intros (x & t) E. apply stmt_shorter in E. cbn [snd]. apply nof_bind; [apply IH; lia|]. intros; apply nof_ok.
Qed.

Theorem turtle_text_accepts : forall d s, doc_text true d s -> turtle_text s = Ok d.
Proof.
  intros d s T. unfold turtle_text. destruct (doc_runs d s T (length s) (2 * length s + 2)) as [E|E]; auto.
  exfalso. revert E. apply doc_fuel; lia.
Qed.
Theorem turtle_text_sound : forall d s, turtle_text s = Ok d -> doc_text false d s.
Proof. intros d s E. eapply p_tdoc_inv; exact E. Qed.

(** ** The only error *)
Definition lark {A} (x : res A) : Prop := forall e, x = Err e -> e = LarkError \/ e = OutOfFuel.
Lemma lark_bind : forall A B (x : res A) (f : A -> res B), lark x -> (forall v, lark (f v)) -> lark (bind x f).
Proof. intros A B [v|e] f N F e' H; cbn in H; [now apply (F v)|]. apply N. congruence. Qed.
Lemma lark_ok : forall A (v : A), lark (Ok v).
Proof. intros A v e H. discriminate. Qed.
Lemma lark_lark : forall A, lark (A := A) (Err LarkError).
Proof. intros A e H. left. congruence. Qed.
Lemma lark_fuel : forall A, lark (A := A) (Err OutOfFuel).
Proof. intros A e H. right. congruence. Qed.
Lemma lark_t_ok : forall A (x : option (A * str)), lark (t_ok x).
Proof. intros A [y|]; [apply lark_ok|apply lark_lark]. Qed.
Lemma all_lark : forall n, (forall s, lark (p_obj n s)) /\ (forall s, lark (p_items n s)) /\ (forall s, lark (p_objs n s)) /\
  (forall s, lark (p_pol n s)) /\ (forall s, lark (p_more n s)).
Proof.
  induction n as [|n (IHo & IHi & IHl & IHp & IHm)]; [repeat split; intros; apply lark_fuel|]. repeat split; intro s.
  - rewrite p_obj_eq. cbv zeta. destruct (skip false s) as [|c r]; [apply lark_lark|].
    destruct (c =? 60); [|destruct (c =? 95); [|destruct (c =? 40); [|destruct (c =? 91); [|destruct ((c =? 34) || (c =? 39))]]]].
    + apply lark_bind; [apply lark_t_ok|]. intros; apply lark_ok.
    + destruct r as [|d r]; [apply lark_lark|]. destruct (d =? 58); [|apply lark_lark]. apply lark_bind; [apply lark_t_ok|]. intros; apply lark_ok.
    + apply lark_bind; [apply IHi|]. intros; apply lark_ok.
    + destruct (head_is 93 (skip_tws r)); [apply lark_ok|]. apply lark_bind; [apply IHp|]. intros v. destruct (head_is 93 _); [apply lark_ok|apply lark_lark].
    + apply lark_bind; [apply lark_t_ok|]. intros; apply lark_ok.
    + destruct (lex_pname (c :: r)) as [[]|]; [apply lark_ok|]. destruct (lex_number (c :: r)) as [[]|]; [apply lark_ok|].
      apply lark_bind; [apply lark_t_ok|]. intros; apply lark_ok.
  - rewrite p_items_eq. cbv zeta. destruct (head_is 41 (skip false s)); [apply lark_ok|]. apply lark_bind; [apply IHo|].
    intros v. apply lark_bind; [apply IHi|]. intros; apply lark_ok.
  - rewrite p_objs_eq. apply lark_bind; [apply IHo|]. intros v. cbv zeta.
    destruct (head_is 44 _); [|apply lark_ok]. apply lark_bind; [apply IHl|]. intros; apply lark_ok.
  - rewrite p_pol_eq. apply lark_bind; [apply lark_t_ok|]. intro v. apply lark_bind; [apply IHl|]. intro x. apply lark_bind; [apply IHm|]. intros; apply lark_ok.
  - rewrite p_more_eq. cbv zeta. destruct (head_is 59 (skip false s)); [|apply lark_ok]. destruct (_ || _); [apply IHm|apply IHp].
Qed.
Lemma stmt_lark : forall n s, lark (p_tstmt n s).
Proof.
  intros n s. unfold p_tstmt. cbv zeta. destruct (starts_subject (skip false s)); [|apply lark_t_ok].
  unfold p_triples. apply lark_bind; [apply all_lark|]. intros (o & t). cbn [fst snd]. cbv zeta.
  assert (R : lark (do y <- p_pol n t ; do e <- t_ok (match p_end (snd y) with Some t' => Some (tt, t') | None => None end) ; Ok (STriples o (fst y), snd e))).
  { apply lark_bind; [apply all_lark|]. intros v. apply lark_bind; [apply lark_t_ok|]. intros; apply lark_ok. }
  destruct o; try exact R; [|apply lark_lark]. destruct (head_is 46 (skip false t)); [apply lark_ok|exact R].
Qed.
Lemma doc_lark : forall k n s, lark (p_tdoc k n s).
Proof.
  induction k as [|k IH]; intros n s; rewrite p_tdoc_eq; (destruct (skip false s); [apply lark_ok|]); [apply lark_fuel|].
  apply lark_bind; [apply stmt_lark|]. intro x. apply lark_bind; [apply IH|]. intros; apply lark_ok.
Qed.
Theorem turtle_text_total : forall s, (exists d, turtle_text s = Ok d) \/ turtle_text s = Err LarkError.
Proof.
  intro s. unfold turtle_text. destruct (p_tdoc (length s) (2 * length s + 2) s) as [d|e] eqn:E; [eauto|right]. f_equal.
  destruct (doc_lark _ _ _ e E) as [H|H]; auto. subst e. exfalso. revert E. apply doc_fuel; lia.
Qed.
