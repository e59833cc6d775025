(** Texts of documents have well-formed tokens (C83). *)
From Verif Require Import Model.Py Model.Terms Model.Codec Model.NTriples Model.TurtleTree Model.Turtle Model.TurtleParse
  Spec.CodecSpec Spec.TurtleSpec Spec.TurtleTextSpec Proofs.CodecLemmas Proofs.TurtleScan.
Open Scope N_scope.

Definition clean (s : str) : Prop := ~ newline_escape s.
Lemma clean_app : forall a b, clean (a ++ b) -> clean a /\ clean b.
Proof.
  intros a b C. split; intros (x & k & h & y & E & H); apply C.
  - exists x, k, h, (y ++ b). split; auto. rewrite E, <- !app_assoc. cbn [app]. now rewrite <- app_assoc.
  - exists (a ++ x), k, h, y. split; auto. rewrite E, <- !app_assoc. reflexivity.
Qed.
Lemma clean_cons : forall c s, clean (c :: s) -> clean s.
Proof. intros c s C. now apply (clean_app [c]) in C. Qed.

(** ** Bodies *)
Lemma units_escaped : forall ok e s, units ok e s -> escaped_text s.
Proof.
  induction 1 as [|u s U _ IH]; [constructor|]. destruct U as [c _ C|k c _ E|h L F|h L F]; cbn [app].
  - now constructor.
  - eapply et_echar; eauto.
  - now apply et_u.
  - now apply et_U.
Qed.
Lemma long_escaped : forall q s, q = 34 \/ q = 39 -> long_units q s -> escaped_text s.
Proof.
  intros q s Q L. assert (Q92 : q <> 92) by (destruct Q; subst; discriminate). induction L as [|x u s X U _ IH]; [constructor|].
  assert (Y : escaped_text (u ++ s)).
  { destruct U as [c _ C|k c _ E|h L F|h L F]; cbn [app].
    - now constructor.
    - eapply et_echar; eauto.
    - now apply et_u.
    - now apply et_U. }
  destruct X as [->|[->| ->]]; cbn [app]; auto; repeat constructor; auto.
Qed.
Lemma string_escaped : forall b s, string_text b s -> escaped_text b.
Proof. intros b s [q b' Q U|q b' Q U]; [eapply units_escaped; eauto|eapply long_escaped; eauto]. Qed.
Lemma app_same_len : forall (a b c d : str), length a = length b -> a ++ c = b ++ d -> a = b /\ c = d.
Proof.
  induction a as [|x a IH]; intros [|y b] c d L E; try discriminate; auto. injection E as -> E. cbn in L. injection L as L.
  destruct (IH b c d L E). subst. auto.
Qed.
Lemma body_newline : forall b, units (fun c => ~ iri_illegal c) false b -> forall u u', denotes b u -> u = u' ++ [10] -> newline_escape b.
Proof.
  induction 1 as [|x s U _ IH]; intros u u' D E.
  - inversion D; subst. destruct u'; discriminate.
  - assert (N : forall v, denotes s v -> forall c, u = c :: v -> u' <> [] -> newline_escape (x ++ s)).
    { intros v DV c EU NE. destruct u' as [|c' u']; [congruence|]. rewrite EU in E. injection E as _ E. destruct (IH v u' DV E) as (a & k & h & y & -> & H).
      exists (x ++ a), k, h, y. split; auto. now rewrite <- app_assoc. }
    destruct U as [c C C92|k c X EC|h L F|h L F]; [|discriminate X|..]; cbn [app] in *; subst u; remember (u' ++ [10]) as u eqn:E.
    + inversion D as [|c' s' v C' DV|? ? ? ? ?|? ? ? ? ? ? ?|? ? ? ? ? ? ? ?]; try congruence.
      destruct u' as [|c'' u']; [|eapply N; eauto; discriminate]. exfalso. apply C. left. assert (c = 10) by (cbn in E; congruence). lia.
    + inversion D as [|c' s' v C' DV|k' c' s' v EC DV|h' c' s' v L' HN DV EQ|h' c' s' v L' HN LE DV EQ]; try congruence; [subst k'; inversion EC|].
      destruct (app_same_len h' h s' s ltac:(congruence) EQ) as [-> ->]. destruct u' as [|d u'].
      * exists [], 117, h, s. split; auto. split; [|auto]. assert (c' = 10) by (cbn in E; congruence). now subst c'.
      * eapply N; eauto. discriminate.
    + inversion D as [|c' s' v C' DV|k' c' s' v EC DV|h' c' s' v L' HN DV EQ|h' c' s' v L' HN LE DV EQ]; try congruence; [subst k'; inversion EC|].
      destruct (app_same_len h' h s' s ltac:(congruence) EQ) as [-> ->]. destruct u' as [|d u'].
      * exists [], 85, h, s. split; auto. split; [|auto]. assert (c' = 10) by (cbn in E; congruence). now subst c'.
      * eapply N; eauto. discriminate.
Qed.
Lemma ref_ok : forall b, units (fun c => ~ iri_illegal c) false b -> clean b -> ref_token b.
Proof.
  intros b U C. split; [eapply units_escaped; eauto|]. intros u D u' E. apply C. eapply body_newline; eauto.
Qed.

(** ** Names *)
Lemma prefix_colon : forall ns, pn_prefix ns -> ~ In 58 ns.
Proof.
  intros ns [->|(c & r & -> & B & F & _)]; [intros []|]. intros [->|J]; [cls; lia|]. rewrite Forall_forall in F. apply F in J. cls. lia.
Qed.
Lemma hex_char : forall c, hexdigit c = true -> c <> 92 /\ c <> 60.
Proof. intros c H. split; intros ->; discriminate. Qed.
Lemma rest_denotes : forall l, local_rest l -> exists v, local_denotes l v.
Proof.
  induction 1 as [|c r C _ (v & V)|r _ _ (v & V)|x r X _ (v & V)].
  - exists []. constructor.
  - exists (c :: v). apply ld_char; auto; cls; lia.
  - exists (46 :: v). apply ld_char; auto; discriminate.
  - destruct X as [a b A B|c C]; cbn [app].
    + apply hex_char in A, B. destruct A, B. exists (37 :: a :: b :: v). repeat apply ld_char; auto; discriminate.
    + exists (c :: v). now apply ld_esc.
Qed.
Lemma local_ok : forall l, pn_local l -> exists v, local_denotes l v.
Proof.
  intros l [|c r C R|x r X R].
  - exists []. constructor.
  - apply rest_denotes. constructor; auto. unfold pn_char. tauto.
  - apply rest_denotes. now constructor.
Qed.
Lemma iri_ok : forall i s, iri_text i s -> clean s -> iri_token i.
Proof.
  intros i s [b U|ns ln P L] C.
  - apply ref_ok; auto. apply clean_cons in C. now apply clean_app in C.
  - destruct (local_ok ln L) as [v V]. exists ns, ln, v. repeat split; auto. now apply prefix_colon.
Qed.
Lemma lit_ok : forall g x s, lit_text g x s -> clean s -> lit_token x.
Proof.
  intros g x s [b t S|b t w tag S _ T|b t w w' i u S _ _ I|k t _|t _] C; cbn; auto.
  - split; auto. eapply string_escaped; eauto.
  - split; [eapply string_escaped; eauto|]. destruct T as (a & r & -> & _ & N & _). destruct a; [congruence|discriminate].
  - split; [eapply string_escaped; eauto|]. apply (iri_ok i u I). apply clean_app in C. destruct C as [_ C]. apply clean_app in C. destruct C as [_ C].
    do 2 apply clean_cons in C. now apply clean_app in C.
Qed.
Lemma verb_ok : forall v s, verb_text v s -> clean s -> verb_token v.
Proof. intros v s [|i t I] C; cbn; auto. eapply iri_ok; eauto. Qed.

(** ** Trees *)
Ltac parts := repeat match goal with H : clean (_ ++ _) |- _ => apply clean_app in H; destruct H end.
Lemma all_tokens : forall b,
  (forall o s, obj_text b o s -> clean s -> obj_tokens o) /\ (forall l s, items_text b l s -> clean s -> objs_tokens l) /\
  (forall l s, objs_text b l s -> clean s -> objs_tokens l /\ l <> ONil) /\ (forall p s, pol_text b p s -> clean s -> pol_tokens p).
Proof.
  intro b. set (PO := fun o s => clean s -> obj_tokens o). set (PI := fun l s => clean s -> objs_tokens l).
  set (PL := fun l s => clean s -> objs_tokens l /\ l <> ONil). set (PP := fun p s => clean s -> pol_tokens p).
  assert (H1 : forall i s, iri_text i s -> PO (TIri i) s) by (intros i s I C; eapply iri_ok; eauto).
  assert (H2 : forall s, label s -> PO (TLabel s) s) by (intros s L C; exact Logic.I).
  assert (H3 : forall w, ws0 w -> PO TAnon ([91] ++ w ++ [93])) by (intros w W C; exact Logic.I).
  assert (H4 : forall l w s, gap w -> items_text b l s -> PI l s -> PO (TColl l) ([40] ++ w ++ s ++ [41])).
  { intros l w s _ _ IH C. parts. cbn. apply IH. auto. }
  assert (H5 : forall p w s w', gap w -> pol_text b p s -> PP p s -> gap w' -> PO (TProps p) ([91] ++ w ++ s ++ w' ++ [93])).
  { intros p w s w' _ _ IH _ C. parts. cbn. apply IH. auto. }
  assert (H6 : forall x s, lit_text gap x s -> PO (TLit x) s) by (intros x s L C; eapply lit_ok; eauto).
  assert (I1 : PI ONil []) by (intro C; exact Logic.I).
  assert (I2 : forall o s w, obj_text b o s -> PO o s -> gap w -> PI (OCons o ONil) (s ++ w)).
  { intros o s w _ IH _ C. parts. split; [apply IH; auto|exact Logic.I]. }
  assert (I3 : forall o s w r t, obj_text b o s -> PO o s -> apart b w t -> items_text b r t -> PI r t -> r <> ONil -> PI (OCons o r) (s ++ w ++ t)).
  { intros o s w r t _ IH _ _ IHI _ C. parts. split; auto. }
  assert (L1 : forall o s, obj_text b o s -> PO o s -> PL (OCons o ONil) s).
  { intros o s _ IH C. split; [split; [apply IH; auto|exact Logic.I]|discriminate]. }
  assert (L2 : forall o s w w' r t, obj_text b o s -> PO o s -> gap w -> gap w' -> objs_text b r t -> PL r t -> PL (OCons o r) (s ++ w ++ [44] ++ w' ++ t)).
  { intros o s w w' r t _ IH _ _ _ IHL C. parts. split; [|discriminate]. split; [auto|apply IHL; auto]. }
  assert (P1 : forall v s w os t, verb_text v s -> apart b w t -> objs_text b os t -> PL os t -> PP (PCons v os PNil) (s ++ w ++ t)).
  { intros v s w os t V _ _ IH C. parts. destruct IH as [X Y]; auto. cbn. repeat split; auto. eapply verb_ok; eauto. }
  assert (P2 : forall p s w, pol_text b p s -> PP p s -> gap w -> PP p (s ++ w ++ [59])).
  { intros p s w _ IH _ C. parts. auto. }
  assert (P3 : forall v s w os t m p t2, verb_text v s -> apart b w t -> objs_text b os t -> PL os t -> semis m -> pol_text b p t2 -> PP p t2 ->
    PP (PCons v os p) (s ++ w ++ t ++ m ++ t2)).
  { intros v s w os t m p t2 V _ _ IH _ _ IHP C. parts. destruct IH as [X Y]; auto. cbn. split; [eapply verb_ok; eauto|]. repeat split; auto. }
  repeat split; intros.
  - eapply (obj_text_i b PO PI PL PP); eauto.
  - eapply (items_text_i b PO PI PL PP); eauto.
  - eapply (objs_text_i b PO PI PL PP); eauto.
  - eapply (objs_text_i b PO PI PL PP); eauto.
  - eapply (pol_text_i b PO PI PL PP); eauto.
Qed.
Lemma ref_text : forall body, iri_text (TRef body) ([60] ++ body ++ [62]) -> clean body -> ref_token body.
Proof. intros body I C. apply ref_ok; auto. inversion I; auto. Qed.
Lemma stmt_ok : forall b x tight s, stmt_text b x tight s -> clean s -> stmt_tokens x.
Proof.
  intros b x tight s T C. destruct (all_tokens b) as (TO & _ & _ & TP).
  destruct T as [ns w1 w2 body w3 P G1 N1 G2 I G3|w1 body w3 G1 I G3|kw ns w1 w2 body KW P G1 N1 G2 I|kw w1 body KW G1 I|s t w p t2 w2 tight SF O A L G2 TI|q t w2 O G2]; parts; cbn [stmt_tokens].
  - eapply ref_text; eauto.
  - eapply ref_text; eauto.
  - eapply ref_text; eauto.
  - eapply ref_text; eauto.
  - split; eauto.
  - split; [eauto|exact Logic.I].
Qed.
Lemma doc_tokens : forall b d s, doc_text b d s -> clean s -> Forall stmt_tokens d.
Proof.
  induction 1 as [w G|x tight s r t T D IH ST|w d t G D IH]; intro C; parts; auto. constructor; auto. eapply stmt_ok; eauto.
Qed.

(** ** Documents with a meaning: escapes need no proviso *)
Section Meaning.
  Variable resolves : str -> str -> str -> Prop.
  Lemma ref_means_token : forall e b x, units (fun c => ~ iri_illegal c) false b -> ref_means resolves e b x -> ref_token b.
  Proof.
    intros e b x U (u & D & F & _). split; [eapply units_escaped; eauto|]. intros u1 D1 u' ->. apply denotes_decode in D, D1. rewrite D in D1. injection D1 as ->.
    apply Forall_app in F. destruct F as [_ F]. inversion F as [|? ? X _]; subst. apply X. left. lia.
  Qed.
  Lemma iri_means_token : forall e i s x, iri_text i s -> iri_means resolves e i x -> iri_token i.
  Proof.
    intros e i s x [b U|ns ln P L] M.
    - inversion M; subst. eapply ref_means_token; eauto.
    - destruct (local_ok ln L) as [v V]. exists ns, ln, v. repeat split; auto. now apply prefix_colon.
  Qed.
  Lemma lit_means_token : forall g e x s t, lit_text g x s -> lit_means resolves e x t -> lit_token x.
  Proof.
    intros g e x s y [b t S|b t w tag S _ T|b t w w' i u S _ _ I|k t _|t _] M; cbn; auto.
    - split; auto. eapply string_escaped; eauto.
    - split; [eapply string_escaped; eauto|]. destruct T as (a & r & -> & _ & N & _). destruct a; [congruence|discriminate].
    - split; [eapply string_escaped; eauto|]. inversion M; subst. eapply iri_means_token; eauto.
  Qed.
  Lemma verb_means_token : forall e v s p, verb_text v s -> verb_means resolves e v p -> verb_token v.
  Proof. intros e v s p [|i t I] M; cbn; auto. inversion M; subst. eapply iri_means_token; eauto. Qed.
  Lemma all_means_tokens : forall b e L,
    (forall o s, obj_text b o s -> forall x ts bs, obj_means resolves e L o x ts bs -> obj_tokens o) /\
    (forall p s, pol_text b p s -> forall x ts bs, pol_means resolves e L x p ts bs -> pol_tokens p).
  Proof.
    intros b e L. set (PO := fun o (_ : str) => forall x ts bs, obj_means resolves e L o x ts bs -> obj_tokens o).
    set (PI := fun l (_ : str) => forall x ts bs, obj_means resolves e L (TColl l) x ts bs -> objs_tokens l).
    set (PL := fun l (_ : str) => forall v r x ts bs, pol_means resolves e L x (PCons v l r) ts bs -> (objs_tokens l /\ l <> ONil) /\
      (exists p, verb_means resolves e v p) /\ exists ts' bs', pol_means resolves e L x r ts' bs').
    set (PP := fun p (_ : str) => forall x ts bs, pol_means resolves e L x p ts bs -> pol_tokens p).
    assert (H1 : forall i s, iri_text i s -> PO (TIri i) s) by (intros i s I x ts bs M; inversion M; subst; eapply iri_means_token; eauto).
    assert (H2 : forall s, label s -> PO (TLabel s) s) by (intros s l x ts bs M; exact Logic.I).
    assert (H3 : forall w, ws0 w -> PO TAnon ([91] ++ w ++ [93])) by (intros w W x ts bs M; exact Logic.I).
    assert (H4 : forall l w s, gap w -> items_text b l s -> PI l s -> PO (TColl l) ([40] ++ w ++ s ++ [41])).
    { intros l w s _ _ IH x ts bs M. eapply IH; eauto. }
    assert (H5 : forall p w s w', gap w -> pol_text b p s -> PP p s -> gap w' -> PO (TProps p) ([91] ++ w ++ s ++ w' ++ [93])).
    { intros p w s w' _ _ IH _ x ts bs M. inversion M; subst. eapply IH; eauto. }
    assert (H6 : forall x s, lit_text gap x s -> PO (TLit x) s) by (intros y s T x ts bs M; inversion M; subst; eapply lit_means_token; eauto).
    assert (I1 : PI ONil []) by (intros x ts bs M; exact Logic.I).
    assert (I2 : forall o s w, obj_text b o s -> PO o s -> gap w -> PI (OCons o ONil) (s ++ w)).
    { intros o s w _ IH _ x ts bs M. inversion M; subst. split; [eapply IH; eauto|exact Logic.I]. }
    assert (I3 : forall o s w r t, obj_text b o s -> PO o s -> apart b w t -> items_text b r t -> PI r t -> r <> ONil -> PI (OCons o r) (s ++ w ++ t)).
    { intros o s w r t _ IH _ _ IHI _ x ts bs M. inversion M; subst. split; [eapply IH; eauto|eapply IHI; eauto]. }
    assert (L1 : forall o s, obj_text b o s -> PO o s -> PL (OCons o ONil) s).
    { intros o s _ IH v r x ts bs M. inversion M as [| |? ? q ? ? ? y t1 t2 b1 b2 V M1 M2]; subst. inversion M2; subst. split; [split; [split; [eapply IH; eauto|exact Logic.I]|discriminate]|eauto]. }
    assert (L2 : forall o s w w' r t, obj_text b o s -> PO o s -> gap w -> gap w' -> objs_text b r t -> PL r t -> PL (OCons o r) (s ++ w ++ [44] ++ w' ++ t)).
    { intros o s w w' r t _ IH _ _ _ IHL v r' x ts bs M. inversion M as [| |? ? q ? ? ? y t1 t2 b1 b2 V M1 M2]; subst. destruct (IHL _ _ _ _ _ M2) as ((A & _) & B & C).
      split; [split; [split; [eapply IH; eauto|exact A]|discriminate]|eauto]. }
    assert (P1 : forall v s w os t, verb_text v s -> apart b w t -> objs_text b os t -> PL os t -> PP (PCons v os PNil) (s ++ w ++ t)).
    { intros v s w os t V _ _ IH x ts bs M. destruct (IH _ _ _ _ _ M) as ((A & A2) & (p & B) & _). cbn. repeat split; auto. eapply verb_means_token; eauto. }
    assert (P2 : forall p s w, pol_text b p s -> PP p s -> gap w -> PP p (s ++ w ++ [59])) by (intros p s w _ IH _; exact IH).
    assert (P3 : forall v s w os t m p t2, verb_text v s -> apart b w t -> objs_text b os t -> PL os t -> semis m -> pol_text b p t2 -> PP p t2 ->
      PP (PCons v os p) (s ++ w ++ t ++ m ++ t2)).
    { intros v s w os t m p t2 V _ _ IH _ _ IHP x ts bs M. destruct (IH _ _ _ _ _ M) as ((A & A2) & (q & B) & ts' & bs' & C). cbn. split; [eapply verb_means_token; eauto|].
      repeat split; auto. eapply IHP; eauto. }
    split; intros o s T.
    - eapply (obj_text_i b PO PI PL PP) in T; eauto.
    - eapply (pol_text_i b PO PI PL PP) in T; eauto.
  Qed.
  Lemma doc_means_tokens : forall b d s, doc_text b d s -> forall L e ts bs, doc_means resolves L e d ts bs -> Forall stmt_tokens d.
  Proof.
    induction 1 as [w G|x tight s r t T D IH ST|w d t G D IH]; intros L e ts bs M; [constructor| |eapply IH; eauto].
    inversion M as [|? ? ? ? ? ? ? R M'|? ? ? ? ? ? R M'|? ? ? ? ? t1 t2 t3 b1 b2 b3 MO MP M']; subst; (constructor; [|eapply IH; exact M']); destruct (all_means_tokens b e L) as (TO & TP).
    - inversion T; subst; cbn [stmt_tokens]; match goal with H : iri_text _ _ |- _ => inversion H; subst end; eapply ref_means_token; eauto.
    - inversion T; subst; cbn [stmt_tokens]; match goal with H : iri_text _ _ |- _ => inversion H; subst end; eapply ref_means_token; eauto.
    - cbn [stmt_tokens]. inversion T; subst; (split; [eapply TO; eauto|]); [eapply TP; eauto|exact Logic.I].
  Qed.
End Meaning.
