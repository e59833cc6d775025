(** Lemmas behind C49-C53, C70, C71. *)
From Coq Require Import Permutation.
From Verif Require Import Model.Py Model.Terms Model.Graph Model.Codec Model.NTriples Model.Curie Model.TurtleTree
  Model.Turtle Spec.CodecSpec Spec.CurieSpec Spec.TurtleSpec Proofs.DictLemmas Proofs.CodecLemmas Proofs.CurieLemmas.
Open Scope N_scope.

Scheme tobj_mind := Induction for tobj Sort Prop
  with tobjs_mind := Induction for tobjs Sort Prop
  with tpol_mind := Induction for tpol Sort Prop.
Combined Scheme tree_ind3 from tobj_mind, tobjs_mind, tpol_mind.

(** ** tokens *)
Lemma hexnum_all : forall h, Forall (fun c => hexdigit c = true) h -> hexnum h (int16 h).
Proof. intros h F. apply int16_hexnum. eapply Forall_impl; [|exact F]. intros a H. rewrite hexdigit_is_hex. exact H. Qed.
Lemma bind_ok : forall {A B} (x : res A) (f : A -> res B) y, bind x f = Ok y -> exists a, x = Ok a /\ f a = Ok y.
Proof. intros A B [a|e] f y H; cbn [bind] in H; [eauto|discriminate H]. Qed.
Lemma chr_inv : forall n c, chr n = Ok c -> c = n /\ n <= 0x10FFFF.
Proof.
  intros n c H. unfold chr in H. destruct (n <=? 1114111) eqn:E; [apply N.leb_le in E; inversion H; subst; auto|].
  destruct (n <=? 2147483647); discriminate H.
Qed.
Lemma decode_denotes : forall s, escaped_text s -> forall v, decode_literal s = Ok v -> denotes s v.
Proof.
  induction 1 as [|c s Hc Hs IH|k c s Hk Hs IH|h s L F Hs IH|h s L F Hs IH]; intros v E.
  - inversion E. constructor.
  - rewrite decode_plain in E by auto. apply bind_ok in E. destruct E as (y & E & X). inversion X; subst. constructor; auto.
  - assert (k <> 117 /\ k <> 85 /\ escape_get k = c) as (A & B & C)
      by (inversion Hk; subst; vm_compute; repeat split; discriminate).
    rewrite decode_short in E by auto. apply bind_ok in E. destruct E as (y & E & X). inversion X; subst.
    constructor; auto.
  - rewrite decode_u in E; [|auto|eapply Forall_impl; [|exact F]; intros a Ha; rewrite hexdigit_is_hex; auto].
    apply bind_ok in E. destruct E as (x & E1 & E). apply bind_ok in E. destruct E as (y & E & X). inversion X; subst.
    apply chr_inv in E1. destruct E1 as [-> B]. apply den_u; auto. apply hexnum_all; auto.
  - rewrite decode_U in E; [|auto|eapply Forall_impl; [|exact F]; intros a Ha; rewrite hexdigit_is_hex; auto].
    apply bind_ok in E. destruct E as (x & E1 & E). apply bind_ok in E. destruct E as (y & E & X). inversion X; subst.
    apply chr_inv in E1. destruct E1 as [-> B]. apply den_U; auto. apply hexnum_all; auto.
Qed.
Lemma local_decode : forall s v, local_denotes s v -> decode_literal s = Ok v.
Proof.
  induction 1 as [|c s v N1 N2 H IH|c s v E H IH].
  - reflexivity.
  - rewrite decode_plain, IH by auto. reflexivity.
  - assert (c <> 117 /\ c <> 85 /\ escape_get c = c) as (A & B & C).
    { unfold local_esc in E. simpl in E. repeat (destruct E as [E|E]; [subst c; vm_compute; repeat split; discriminate|]). destruct E. }
    rewrite decode_short, IH, C by auto. reflexivity.
Qed.
Lemma local_no_lt : forall s v, local_denotes s v -> ~ In 60 v.
Proof.
  induction 1 as [|c s v N1 N2 H IH|c s v E H IH]; [intros []| |]; intros [X|X]; subst; auto.
  unfold local_esc in E. simpl in E. repeat (destruct E as [E|E]; [discriminate|]). destruct E.
Qed.

(** ** IRIs *)
Lemma iri_char_legal : forall c, iri_char c = true <-> ~ iri_illegal c.
Proof.
  intro c. unfold iri_char, iri_illegal. rewrite andb_true_iff, !negb_true_iff. rewrite N.leb_gt. split.
  - intros [A B] [C|[C|C]]; [lia| |].
    + rewrite <- not_true_iff_false, existsb_exists in B. apply B. exists c. split; [|apply N.eqb_refl].
      simpl in C |- *. tauto.
    + subst c. vm_compute in B. discriminate.
  - intro H. split; [destruct (N.lt_ge_cases 32 c); auto; exfalso; apply H; left; lia|].
    apply not_true_iff_false. rewrite existsb_exists. intros (x & I & E). apply N.eqb_eq in E. subst x.
    apply H. right. simpl in I |- *. intuition.
Qed.
Lemma legal_iri_spec : forall s, legal_iri s = true <->
  Forall (fun c => ~ iri_illegal c) s \/ exists r, s = r ++ [10] /\ Forall (fun c => ~ iri_illegal c) r.
Proof.
  induction s as [|c r IH]; cbn [legal_iri].
  - split; auto.
  - destruct (iri_char c) eqn:E.
    + rewrite IH. apply iri_char_legal in E. split.
      * intros [H|(x & -> & H)]; [left; auto|right; exists (c :: x); auto].
      * intros [H|(x & A & H)]; [left; inversion H; auto|]. destruct x as [|y x]; cbn [app] in A.
        -- inversion A; subst. exfalso. apply E. left. lia.
        -- inversion A; subst. right. exists x. split; auto. inversion H; auto.
    + assert (I : ~ ~ iri_illegal c) by (intro X; apply iri_char_legal in X; congruence).
      rewrite andb_true_iff, N.eqb_eq. split.
      * intros [-> B]. destruct r; [|discriminate]. right. exists []. auto.
      * intros [H|(x & A & H)]; [inversion H; contradiction|]. destruct x as [|y x]; cbn [app] in A; inversion A; subst; auto.
        inversion H; contradiction.
Qed.
Lemma smart_resolves : forall uj b u s, smart_urljoin uj b u = Ok s <-> resolves_by uj b u s.
Proof.
  intros uj b u s. unfold smart_urljoin, resolves_by. unfold ends_in. split.
  - intro H. apply bind_ok in H. destruct H as (j & E & H). exists j. split; auto. inversion H; subst. clear H.
    destruct (endswith_char u 35) eqn:A, (endswith_char j 35) eqn:B; cbn [andb negb].
    + right. split; auto. right. apply ends_app in B. auto.
    + left. apply ends_app in A. split; auto. split; auto. intro X. apply ends_app in X. congruence.
    + right. split; auto. left. intro X. apply ends_app in X. congruence.
    + right. split; auto. left. intro X. apply ends_app in X. congruence.
  - intros (j & E & H). rewrite E. cbn [bind]. f_equal. destruct H as [(A & B & ->)|(A & ->)].
    + apply ends_app in A. rewrite A. destruct (endswith_char j 35) eqn:C; auto. exfalso. apply B. apply ends_app. auto.
    + destruct A as [A|A].
      * destruct (endswith_char u 35) eqn:C; auto. exfalso. apply A. apply ends_app. auto.
      * apply ends_app in A. rewrite A. rewrite andb_false_r. auto.
Qed.

Lemma ref_sound : forall uj e body s, ref_token body ->
  (do x <- decode_iriref body ; smart_urljoin uj (e_base e) x) = Ok s -> ref_means (resolves_by uj) e body s.
Proof.
  intros uj e body s [T NL] H. apply bind_ok in H. destruct H as (u & H & R). unfold decode_iriref in H.
  apply bind_ok in H. destruct H as (u' & D & V). unfold validate_iri in V. destruct (legal_iri u') eqn:Lg; inversion V; subst u'.
  apply decode_denotes in D; auto. exists u. split; auto. split; [|apply smart_resolves; auto].
  apply legal_iri_spec in Lg. destruct Lg as [Lg|(r & E & _)]; auto. exfalso. exact (NL u D r E).
Qed.
Lemma ref_complete : forall uj e body s, ref_means (resolves_by uj) e body s ->
  (do x <- decode_iriref body ; smart_urljoin uj (e_base e) x) = Ok s.
Proof.
  intros uj e body s (u & D & F & R). unfold decode_iriref. rewrite (denotes_decode _ _ D). cbn [bind]. unfold validate_iri.
  rewrite (proj2 (legal_iri_spec u)) by auto. cbn [bind]. apply smart_resolves. auto.
Qed.
Lemma legal_no_lt : forall u, Forall (fun c => ~ iri_illegal c) u -> ~ In 60 u.
Proof. intros u F I. rewrite Forall_forall in F. apply (F _ I). right. left. simpl. auto. Qed.
Lemma resolves_no_lt : forall uj b u s, uj_clean uj -> ~ In 60 b -> Forall (fun c => ~ iri_illegal c) u ->
  resolves_by uj b u s -> ~ In 60 s.
Proof.
  intros uj b u s C B F (j & E & H). assert (X := C b u j B (legal_no_lt u F) E).
  destruct H as [(_ & _ & ->)|(_ & ->)]; auto. intro I. apply in_app_or in I. destruct I as [I|[I|[]]]; auto. discriminate.
Qed.
Lemma ref_means_no_lt : forall uj e body s, uj_clean uj -> ~ In 60 (e_base e) -> ref_means (resolves_by uj) e body s -> ~ In 60 s.
Proof. intros uj e body s C B (u & D & F & R). eapply resolves_no_lt; eauto. Qed.

(** the environment a transformer state stands for *)
Definition env_is (e : tenv) (pm : dict str str) (base : str) : Prop :=
  (forall x, e_pfx e x = dget str_eq_dec pm x) /\ e_base e = base.
Definition env_no_lt (e : tenv) : Prop := ~ In 60 (e_base e) /\ forall ns p, e_pfx e ns = Some p -> ~ In 60 p.

Lemma no_lt_start : forall s, ~ In 60 s -> startswith s [60] = false.
Proof.
  intros [|c s] H; [reflexivity|]. cbn [startswith]. destruct (60 =? c) eqn:E; [|reflexivity].
  exfalso. apply N.eqb_eq in E. subst. apply H. now left.
Qed.
Lemma iri_complete : forall uj e pm base i s, env_is e pm base -> env_no_lt e -> iri_means (resolves_by uj) e i s ->
  e_iri uj pm base i = Ok s.
Proof.
  intros uj e pm base i s [P B] [_ N] H. destruct H as [body s H|ns ln p l N1 E D]; cbn [e_iri].
  - subst base. apply ref_complete. auto.
  - unfold prefixed_name. destruct (partition (ns ++ 58 :: ln) 58) as [[a b] d] eqn:Q.
    apply partition_splits in Q. destruct Q as [N2 [Q|[Q Q2]]].
    + apply split_unique in Q; auto. destruct Q as [<- <-]. rewrite <- P, E. rewrite (local_decode _ _ D). cbn [bind].
      rewrite no_lt_start; auto. intro X. apply in_app_or in X. destruct X as [X|X].
      * exact (N _ _ E X).
      * exact (local_no_lt _ _ D X).
    + exfalso. apply N2. rewrite <- Q. apply in_or_app. right. now left.
Qed.
Lemma iri_sound : forall uj e pm base i s, env_is e pm base -> env_no_lt e -> iri_token i ->
  e_iri uj pm base i = Ok s -> iri_means (resolves_by uj) e i s.
Proof.
  intros uj e pm base i s [P B] [_ N] T H. destruct i as [body|tok]; cbn [e_iri iri_token] in *.
  - constructor. subst base. apply ref_sound; auto.
  - destruct T as (ns & ln & l & -> & N1 & D). unfold prefixed_name in H.
    destruct (partition (ns ++ 58 :: ln) 58) as [[a b] d] eqn:Q.
    apply partition_splits in Q. destruct Q as [N2 [Q|[Q Q2]]].
    + apply split_unique in Q; auto. destruct Q as [<- <-]. destruct (dget str_eq_dec pm ns) as [p|] eqn:E; [|discriminate].
      rewrite (local_decode _ _ D) in H. cbn [bind] in H. rewrite <- P in E.
      rewrite no_lt_start in H; [inversion H; constructor; auto|].
      intro X. apply in_app_or in X. destruct X as [X|X].
      * exact (N _ _ E X).
      * exact (local_no_lt _ _ D X).
    + exfalso. apply N2. rewrite <- Q. apply in_or_app. right. now left.
Qed.
Lemma lit_sound : forall uj e pm base x t, env_is e pm base -> env_no_lt e -> lit_token x ->
  e_lit uj pm base x = Ok t -> lit_means (resolves_by uj) e x t.
Proof.
  intros uj e pm base x t E N T H. destruct x as [body sf|k tok|tok]; cbn [e_lit lit_token] in *.
  - destruct T as [T T2]. apply bind_ok in H. destruct H as (v & D & H). apply decode_denotes in D; auto.
    destruct sf as [|tag|i].
    + inversion H. constructor. auto.
    + destruct tag; [contradiction|]. inversion H. constructor; auto.
    + apply bind_ok in H. destruct H as (d & I & H). inversion H. constructor; auto. eapply iri_sound; eauto.
  - inversion H. destruct k; constructor.
  - inversion H. constructor.
Qed.
Lemma lit_complete : forall uj e pm base x t, env_is e pm base -> env_no_lt e ->
  lit_means (resolves_by uj) e x t -> e_lit uj pm base x = Ok t.
Proof.
  intros uj e pm base x t E N H. destruct H; cbn [e_lit]; try reflexivity; rewrite (denotes_decode _ _ H); cbn [bind]; try reflexivity.
  - destruct tag; [contradiction|]. reflexivity.
  - rewrite (iri_complete uj e pm base _ _ E N H0). reflexivity.
Qed.
Lemma verb_sound : forall uj e pm base v t, env_is e pm base -> env_no_lt e -> verb_token v ->
  e_verb uj pm base v = Ok t -> verb_means (resolves_by uj) e v t.
Proof.
  intros uj e pm base v t E N T H. destruct v as [|i]; cbn [e_verb verb_token] in *.
  - inversion H. constructor.
  - apply bind_ok in H. destruct H as (s & I & H). inversion H. constructor. eapply iri_sound; eauto.
Qed.
Lemma verb_complete : forall uj e pm base v t, env_is e pm base -> env_no_lt e ->
  verb_means (resolves_by uj) e v t -> e_verb uj pm base v = Ok t.
Proof.
  intros uj e pm base v t E N H. destruct H as [|i s I]; cbn [e_verb]; auto. rewrite (iri_complete uj e pm base _ _ E N I). reflexivity.
Qed.
