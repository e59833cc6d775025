(** The tokens of Turtle texts: what the scanners of Model/TurtleParse.v accept (C82). *)
From Verif Require Import Model.Py Model.Terms Model.Codec Model.NTriples Model.TurtleTree Model.Turtle Model.TurtleParse
  Spec.CodecSpec Spec.TurtleSpec Spec.TurtleTextSpec Proofs.CodecLemmas Proofs.NTLex Proofs.TurtleLemmas.
Open Scope N_scope.

(** ** Characters *)
Lemma range_iff : forall a b c, in_range a b c = true <-> between a b c.
Proof. intros a b c. unfold in_range, between. rewrite andb_true_iff, !N.leb_le. tauto. Qed.
Ltac brefl := repeat (rewrite orb_true_iff || rewrite andb_true_iff || rewrite range_iff || rewrite N.eqb_eq).
Lemma t_digit_iff : forall c, t_digit c = true <-> digit10 c.
Proof. intro c. apply range_iff. Qed.
Lemma letter_iff : forall c, NTriples.letter c = true <-> TurtleTextSpec.letter c.
Proof. intro c. unfold NTriples.letter, TurtleTextSpec.letter. brefl. tauto. Qed.
Lemma t_base_iff : forall c, t_base c = true <-> pn_base c.
Proof. intro c. unfold t_base, pn_base, TurtleTextSpec.letter. brefl. tauto. Qed.
Lemma t_u_iff : forall c, t_u c = true <-> pn_u c.
Proof. intro c. unfold t_u, pn_u. brefl. rewrite t_base_iff. tauto. Qed.
Lemma t_char_iff : forall c, t_char c = true <-> pn_char c.
Proof. intro c. unfold t_char, pn_char. brefl. rewrite t_u_iff, t_digit_iff. tauto. Qed.
Lemma t_alnum_iff : forall c, t_alnum c = true <-> alnum c.
Proof. intro c. unfold t_alnum, alnum. brefl. rewrite letter_iff, t_digit_iff. tauto. Qed.
Lemma t_esc_iff : forall c, t_local_esc c = true <-> local_esc c.
Proof.
  intro c. unfold t_local_esc, local_esc. rewrite existsb_exists. split.
  - intros (x & J & E). apply N.eqb_eq in E. now subst x.
  - intro J. exists c. split; auto. apply N.eqb_refl.
Qed.
Lemma is_tws_iff : forall c, is_tws c = true <-> ws c.
Proof. intro c. unfold is_tws, ws. brefl. tauto. Qed.
Lemma iff_false : forall b P, (b = true <-> P) -> ~ P -> b = false.
Proof. intros [|] P H N; auto. exfalso. apply N, H. reflexivity. Qed.
Lemma false_iff : forall b P, (b = true <-> P) -> b = false -> ~ P.
Proof. intros b P H E X. apply H in X. congruence. Qed.
Ltac cls := unfold digit10, alnum, TurtleTextSpec.letter, pn_char, pn_u, pn_base, TurtleTextSpec.letter, digit10, between, ws in *.
Lemma iri_char_iff : forall c, iri_char c = true <-> ~ iri_illegal c.
Proof.
  intro c. rewrite iri_char_spec. unfold iri_illegal. cbn. split.
  - intros H J. assert (c <= 32 \/ 32 < c) by lia. intuition (subst; try congruence; try lia).
  - intro H. assert (L : 32 < c) by (destruct (N.le_gt_cases c 32); auto; exfalso; apply H; left; auto).
    repeat split; auto; intro; subst c; apply H; cbn; tauto.
Qed.
Lemma is_hex_iff : forall c, is_hex c = true <-> hexdigit c = true.
Proof. intro c. now rewrite hexdigit_is_hex. Qed.

(** ** White space and comments *)
Lemma skip_gap : forall w, gap w -> forall k, skip false (w ++ k) = skip false k.
Proof.
  induction 1 as [|c s W _ IH|x s N _ IH]; intro k; auto.
  - cbn [app skip]. apply is_tws_iff in W. now rewrite W.
  - cbn [app skip]. change (is_tws 35) with false. change (35 =? 35) with true. cbv iota. rewrite <- app_assoc. cbn [app].
    rewrite <- IH. induction x as [|c x IX]; [reflexivity|]. cbn [app skip]. assert (c <> 10) by (intro; subst; apply N; now left).
    rewrite (proj2 (N.eqb_neq c 10)) by auto. cbn [negb]. apply IX. intro J. apply N. now right.
Qed.
Lemma skip_last : forall w, last_gap w -> skip false w = [].
Proof.
  intros w [G|(a & x & -> & G & N)].
  - rewrite <- (app_nil_r w), skip_gap by auto. reflexivity.
  - rewrite skip_gap by auto. cbn [skip]. change (is_tws 35) with false. change (35 =? 35) with true. cbv iota.
    induction x as [|c x IX]; [reflexivity|]. cbn [skip]. assert (c <> 10) by (intro; subst; apply N; now left).
    rewrite (proj2 (N.eqb_neq c 10)) by auto. cbn [negb]. apply IX. intro J. apply N. now right.
Qed.
Lemma skip_split : forall s,
  ((exists w, gap w /\ s = w ++ skip false s) \/ skip false s = [] /\ last_gap s) /\
  ((exists x w, ~ In 10 x /\ gap w /\ s = x ++ 10 :: w ++ skip true s) \/
   skip true s = [] /\ (~ In 10 s \/ exists x w, s = x ++ 10 :: w /\ ~ In 10 x /\ last_gap w)).
Proof.
  induction s as [|c s [IH1 IH2]].
  - split; [left; exists []; split; [constructor|reflexivity]|]. right. split; auto.
  - split.
    + cbn [skip]. destruct (is_tws c) eqn:W; [|destruct (c =? 35) eqn:C].
      * apply is_tws_iff in W. destruct IH1 as [(w & G & E)|(E & [G|(a & x & F & G & N)])].
        -- left. exists (c :: w). split; [now constructor|]. cbn. now rewrite <- E.
        -- right. split; auto. left. now constructor.
        -- right. split; auto. right. exists (c :: a), x. split; [now rewrite F|]. split; auto. now constructor.
      * apply N.eqb_eq in C. subst c. destruct IH2 as [(x & w & N & G & E)|(E & [N|(x & w & F & N & G)])].
        -- left. exists (35 :: x ++ 10 :: w). split; [now constructor|]. cbn. rewrite <- app_assoc. cbn. now rewrite <- E.
        -- right. split; auto. right. exists [], s. repeat split; auto. constructor.
        -- right. split; auto. destruct G as [G|(a & y & H & G & M)].
           ++ left. rewrite F. now apply gap_comment.
           ++ right. exists (35 :: x ++ 10 :: a), y. split; [rewrite F, H; cbn; now rewrite <- app_assoc|]. split; auto. now constructor.
      * left. exists []. split; [constructor|reflexivity].
    + cbn [skip]. destruct (c =? 10) eqn:C; cbn [negb].
      * apply N.eqb_eq in C. subst c. destruct IH1 as [(w & G & E)|(E & G)].
        -- left. exists [], w. repeat split; auto. cbn. now rewrite <- E.
        -- right. split; auto. right. exists [], s. auto.
      * apply N.eqb_neq in C. destruct IH2 as [(x & w & N & G & E)|(E & [N|(x & w & F & N & G)])].
        -- left. exists (c :: x), w. split; [intros [J|J]; auto|]. split; auto. cbn. now rewrite <- E.
        -- right. split; auto. left. intros [J|J]; auto.
        -- right. split; auto. right. exists (c :: x), w. split; [now rewrite F|]. split; auto. intros [J|J]; auto.
Qed.
Lemma skip_cons : forall s c r, skip false s = c :: r -> exists w, gap w /\ s = w ++ c :: r.
Proof.
  intros s c r E. destruct (skip_split s) as [[(w & G & F)|(F & _)] _]; [|congruence]. exists w. rewrite E in F. auto.
Qed.
Lemma skip_nil : forall s, skip false s = [] -> last_gap s.
Proof.
  intros s E. destruct (skip_split s) as [[(w & G & F)|(_ & F)] _]; auto. rewrite E, app_nil_r in F. subst. now left.
Qed.
(** the first character of what is left *)
Lemma skip_head : forall s c r, skip false s = c :: r -> is_tws c = false /\ c <> 35.
Proof.
  assert (X : forall s b c r, skip b s = c :: r -> is_tws c = false /\ c <> 35).
  { induction s as [|d s IH]; intros b c r E; [destruct b; discriminate|]. destruct b; cbn [skip] in E.
    - eapply IH; eauto.
    - destruct (is_tws d) eqn:W; [eapply IH; eauto|]. destruct (d =? 35) eqn:C; [eapply IH; eauto|]. apply N.eqb_neq in C.
      injection E as <- <-. auto. }
  intros s. apply X.
Qed.
Definition solid (s : str) : Prop := exists c r, s = c :: r /\ is_tws c = false /\ c <> 35.
Lemma skip_solid : forall s k, solid s -> skip false (s ++ k) = s ++ k.
Proof. intros s k (c & r & -> & W & C). cbn [app skip]. rewrite W. apply N.eqb_neq in C. now rewrite C. Qed.
Lemma skip_idem : forall s, skip false (skip false s) = skip false s.
Proof.
  intro s. destruct (skip false s) as [|c r] eqn:E; auto. apply skip_head in E. destruct E as [W C]. cbn [skip]. rewrite W.
  apply N.eqb_neq in C. now rewrite C.
Qed.
Lemma skip_len : forall s, (length (skip false s) <= length s)%nat.
Proof.
  intro s. destruct (skip_split s) as [[(w & _ & F)|(F & _)] _]; [|rewrite F; cbn; lia].
  rewrite F at 2. rewrite app_length. lia.
Qed.

Lemma skip_tws_ws : forall w k, ws0 w -> skip_tws (w ++ k) = skip_tws k.
Proof. induction 1 as [|c w W _ IH]; auto. cbn [app skip_tws]. apply is_tws_iff in W. now rewrite W. Qed.
Lemma skip_tws_split : forall s, exists w, ws0 w /\ s = w ++ skip_tws s.
Proof.
  induction s as [|c s (w & W & E)]; [exists []; split; [constructor|auto]|]. cbn [skip_tws]. destruct (is_tws c) eqn:C.
  - exists (c :: w). split; [constructor; [now apply is_tws_iff|auto]|]. cbn. now rewrite <- E.
  - exists []. split; [constructor|auto].
Qed.
Lemma ws0_gap : forall w, ws0 w -> gap w.
Proof. induction 1; constructor; auto. Qed.
Lemma gap_app : forall a b, gap a -> gap b -> gap (a ++ b).
Proof.
  induction 1 as [|c s W _ IH|x s N _ IH]; intro G; cbn [app]; auto.
  - constructor; auto.
  - rewrite <- app_assoc. cbn [app]. apply gap_comment; auto.
Qed.

(** ** What follows a name, number or label *)
Definition brk (k : str) : Prop := k = [] \/ exists c r, k = c :: r /\ (ws c \/ In c [35; 60; 40; 91; 64; 41; 93; 44; 59]).
Definition fol (k : str) : Prop := brk k \/ exists r, k = 46 :: r /\ brk r.
Lemma stops_brk : forall k, stops k -> brk k.
Proof. intros k [->|(c & r & -> & [W|J])]; [left; auto|right..]; exists c, r; split; auto. right. cbn in *. tauto. Qed.
(** characters that end everything *)
Definition ender (c : char) : Prop := ws c \/ In c [35; 60; 40; 91; 64; 41; 93; 44; 59].
Lemma ender_not : forall c, ender c -> t_char c = false /\ t_base c = false /\ t_digit c = false /\ t_alnum c = false /\ NTriples.letter c = false /\
  c <> 58 /\ c <> 46 /\ c <> 37 /\ c <> 92 /\ c <> 45 /\ c <> 43 /\ c <> 101 /\ c <> 69 /\ c <> 95 /\ c <> 34 /\ c <> 39.
Proof.
  intros c E. assert (R : c <= 128) by (unfold ender, ws in E; cbn in E; lia).
  assert (X : ender c -> t_char c = false /\ t_base c = false /\ t_digit c = false /\ t_alnum c = false /\ NTriples.letter c = false).
  { intro J. repeat split; (eapply iff_false; [first [apply t_char_iff|apply t_base_iff|apply t_digit_iff|apply t_alnum_iff|apply letter_iff]|]);
      cls; unfold ender, ws in J; cbn in J; lia. }
  apply X in E as Y. unfold ender, ws in E. cbn in E. intuition lia.
Qed.
