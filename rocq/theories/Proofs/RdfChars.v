(** What is read from texts without surrogates has none (C99). *)
From Verif Require Import Model.Py Model.Terms Model.Graph Model.Codec Model.NTriples Model.Curie Model.TurtleTree Model.UrlJoin
  Model.Turtle Model.TurtleParse Spec.CodecSpec Spec.NTSpec Spec.TurtleSpec Spec.TurtleTextSpec Spec.NTTextSpec Spec.RdfSpec
  Proofs.CodecLemmas Proofs.TurtleLemmas Proofs.TurtleSem Proofs.TurtleMore Proofs.GraphInv Proofs.TurtleReject Proofs.TurtleTokens Proofs.UriAbs Proofs.RdfShape.
Open Scope N_scope.

Lemma clean_scalar : forall s, clean_iri s <-> Forall scalar s.
Proof.
  intro s. unfold clean_iri, py_str. rewrite !Forall_forall. split.
  - intros [A B] c J. split; auto.
  - intro H. split; intros c J; apply (H c J).
Qed.
Lemma unicode_app : forall a b, unicode (a ++ b) -> unicode a /\ unicode b.
Proof.
  intros a b [F C]. rewrite Forall_app in F. destruct F as [F1 F2]. split; split; auto; intros (x & k & h & y & c & E & H); apply C.
  - exists x, k, h, (y ++ b), c. split; auto. rewrite E, <- !app_assoc. cbn [app]. now rewrite <- app_assoc.
  - exists (a ++ x), k, h, y, c. split; auto. rewrite E, <- !app_assoc. reflexivity.
Qed.
Lemma ascii_scalar : forall c, c < 128 -> scalar c.
Proof. intros c H. unfold scalar, surrogate. lia. Qed.
Lemma echar_scalar : forall k c, echar k c -> scalar c.
Proof. intros k c E. apply ascii_scalar. inversion E; lia. Qed.
Lemma hexnum_bound : forall h n, hexnum h n -> n < 16 ^ N.of_nat (length h).
Proof.
  induction 1 as [|ds d n v H IH D]; [reflexivity|]. rewrite app_length. cbn [length]. rewrite Nat.add_1_r, Nnat.Nat2N.inj_succ, N.pow_succ_r'.
  assert (v <= 15) by (inversion D; lia). lia.
Qed.
Lemma denotes_scalar : forall s v, denotes s v -> unicode s -> Forall scalar v.
Proof.
  induction 1 as [|c s v C D IH|k c s v E D IH|h c s v L H D IH|h c s v L H B D IH]; intro U; constructor.
  - destruct U as [F _]. now inversion F.
  - apply IH. now apply (unicode_app [c]) in U.
  - eapply echar_scalar; eauto.
  - apply IH. now apply (unicode_app [92; k]) in U.
  - split.
    + apply hexnum_bound in H. rewrite L in H. change (16 ^ N.of_nat 4) with 65536 in H. lia.
    + intro S. destruct U as [_ U]. apply U. exists [], 117, h, s, c. split; [reflexivity|]. split; [exact H|]. split; [exact S|]. left. auto.
  - apply IH. apply (unicode_app (92 :: 117 :: h)) in U. apply U.
  - split; auto. intro S. destruct U as [_ U]. apply U. exists [], 85, h, s, c. split; [reflexivity|]. split; [exact H|]. split; [exact S|]. right. auto.
  - apply IH. apply (unicode_app (92 :: 85 :: h)) in U. apply U.
Qed.
Lemma local_scalar : forall s v, local_denotes s v -> Forall scalar s -> Forall scalar v.
Proof.
  induction 1 as [|c s v C C' D IH|c s v E D IH]; intro F; auto.
  - inversion_clear F. constructor; auto.
  - inversion_clear F as [|? ? _ F']. inversion_clear F'. constructor; auto.
Qed.

(** ** reference resolution *)
Definition uj_scalar (uj : str -> str -> res str) : Prop := forall b u j, Forall scalar b -> Forall scalar u -> uj b u = Ok j -> Forall scalar j.
Lemma scalar_or : forall c, scalar c \/ (~ scalar c /\ 128 <= c).
Proof. intro c. unfold scalar, surrogate. lia. Qed.
Lemma urljoin_scalar : forall bo nk, uj_scalar (urljoin bo nk).
Proof.
  intros bo nk b u j B U E. apply Forall_forall. intros c J. destruct (scalar_or c) as [S|[S K]]; auto. exfalso. rewrite Forall_forall in B, U.
  apply (urljoin_nochar c (or_intror K) bo nk b u j); auto.
Qed.
Lemma resolves_scalar : forall uj b u s, uj_scalar uj -> Forall scalar b -> Forall scalar u -> resolves_by uj b u s -> Forall scalar s.
Proof.
  intros uj b u s H B U (j & E & [(_ & _ & ->)|(_ & ->)]); [|exact (H _ _ _ B U E)]. apply Forall_app. split; [exact (H _ _ _ B U E)|].
  constructor; [apply ascii_scalar; lia|constructor].
Qed.

(** ** documents *)
Definition iri_uni (i : tiri) : Prop := match i with TRef b => unicode b | TPn t => unicode t end.
Definition lit_uni (x : tlit) : Prop :=
  match x with
  | TStr b sf => unicode b /\ match sf with SfType i => iri_uni i | _ => True end
  | TNum _ t | TBool t => unicode t
  end.
Lemma iri_text_uni : forall i s, iri_text i s -> unicode s -> iri_uni i.
Proof.
  intros i s [b U|ns ln P L] H; cbn; auto. apply (unicode_app [60]) in H. destruct H as [_ H]. now apply unicode_app in H.
Qed.
Lemma string_uni : forall b s, string_text b s -> unicode s -> unicode b.
Proof.
  intros b s [q b' Q U|q b' Q U] H; [apply (unicode_app [q]) in H|apply (unicode_app [q; q; q]) in H]; destruct H as [_ H]; now apply unicode_app in H.
Qed.
Ltac uparts := repeat match goal with H : unicode (_ ++ _) |- _ => apply unicode_app in H; destruct H end.
Lemma lit_text_uni : forall g x s, lit_text g x s -> unicode s -> lit_uni x.
Proof.
  intros g x s [b t S|b t w tag S _ T|b t w w' i u S _ _ I|k t _|t _] H; cbn; auto; uparts; split; auto; try (eapply string_uni; eauto).
  eapply iri_text_uni; eauto.
Qed.
Lemma doc_uni : forall b d s, doc_text b d s -> unicode s -> Forall (stmt_all iri_uni lit_uni) d.
Proof.
  intros b d s T U. apply (doc_all_text _ _ unicode) with (b := b) (s := s); auto.
  - exact unicode_app.
  - exact iri_text_uni.
  - exact (lit_text_uni gap).
Qed.

Definition term_scalar (t : term) : Prop :=
  match t with Iri s => Forall scalar s | BNode _ => True | Lit v _ d => Forall scalar v /\ forall x, d = Some x -> Forall scalar x end.
Definition stmt_scalar (t : stmt) : Prop := term_scalar (st_s t) /\ term_scalar (st_p t) /\ term_scalar (st_o t).
Definition env_scalar (e : tenv) : Prop := Forall scalar (e_base e) /\ forall p i, e_pfx e p = Some i -> Forall scalar i.
Lemma ascii_text : forall s, forallb (fun c => c <? 128) s = true -> Forall scalar s.
Proof.
  intros s H. apply Forall_forall. intros c J. rewrite forallb_forall in H. apply ascii_scalar. specialize (H c J). cbv beta in H. now apply N.ltb_lt.
Qed.
Section Doc.
  Variable uj : str -> str -> res str.
  Hypothesis HU : uj_scalar uj.
  Notation R := (resolves_by uj).
  Lemma ref_scalar : forall e b i, env_scalar e -> unicode b -> ref_means R e b i -> Forall scalar i.
  Proof. intros e b i [EB _] U (u & D & _ & RS). exact (resolves_scalar uj _ _ _ HU EB (denotes_scalar _ _ D U) RS). Qed.
  Lemma iri_scalar : forall e i s, env_scalar e -> iri_uni i -> iri_means R e i s -> Forall scalar s.
  Proof.
    intros e i s E U M. destruct M as [b s M|ns ln p l N P L].
    - eapply ref_scalar; eauto.
    - apply Forall_app. split; [eapply E; eauto|]. eapply local_scalar; eauto. cbn in U. destruct U as [U _]. apply Forall_app in U. destruct U as [_ U]. now inversion U.
  Qed.
  Lemma lit_scalar : forall e x t, env_scalar e -> lit_uni x -> lit_means R e x t -> term_scalar t.
  Proof.
    intros e x t E U M.
    destruct M as [b v D|b v tag D T|b v i d D I|tok|tok|tok|tok]; cbn [lit_uni] in U; cbn [term_scalar];
      (split; [first [apply U | eapply denotes_scalar; [exact D|apply U]] | intros y Y; try discriminate; injection Y as <-; try (apply ascii_text; reflexivity)]).
    eapply iri_scalar; eauto. apply U.
  Qed.
  Lemma verb_scalar : forall e v t, env_scalar e -> verb_all iri_uni v -> verb_means R e v t -> term_scalar t.
  Proof. intros e v t E U M. destruct M as [|i s M]; cbn; [apply ascii_text; reflexivity|]. eapply iri_scalar; eauto. Qed.
  Lemma means_scalar : forall e L, env_scalar e ->
    (forall o, obj_all iri_uni lit_uni o -> forall x ts bs, obj_means R e L o x ts bs -> term_scalar x /\ Forall stmt_scalar ts) /\
    (forall l, objs_all iri_uni lit_uni l -> (forall x ts bs, obj_means R e L (TColl l) x ts bs -> term_scalar x /\ Forall stmt_scalar ts) /\
       (forall v r s ts bs, verb_all iri_uni v -> term_scalar s -> (forall ts bs, pol_means R e L s r ts bs -> Forall stmt_scalar ts) ->
          pol_means R e L s (PCons v l r) ts bs -> Forall stmt_scalar ts)) /\
    (forall p, pol_all iri_uni lit_uni p -> forall s ts bs, term_scalar s -> pol_means R e L s p ts bs -> Forall stmt_scalar ts).
  Proof.
    intros e L E. apply tree_ind3.
    - intros i U x ts bs M. inversion M; subst. split; [|constructor]. cbn. eapply iri_scalar; eauto.
    - intros l U x ts bs M. inversion M; subst. cbn. auto.
    - intros U x ts bs M. inversion M; subst. cbn. auto.
    - intros l IH U x ts bs M. cbn in U. destruct (IH U) as [H _]. eauto.
    - intros p IH U x ts bs M. inversion M; subst. split; [exact I|]. eapply IH; eauto. exact I.
    - intros x U t ts bs M. inversion M; subst. split; [|constructor]. eapply lit_scalar; eauto.
    - intros _. split.
      + intros x ts bs M. inversion M; subst. split; [apply ascii_text; reflexivity|constructor].
      + intros v r s ts bs V S H M. inversion M; subst. eauto.
    - intros o IHo r IHr [U1 U2]. destruct (IHr U2) as [IHc IHp]. split.
      + intros x ts bs M. inversion M; subst. match goal with A : obj_means _ _ _ o _ _ _, B : obj_means _ _ _ (TColl r) _ _ _ |- _ => destruct (IHo U1 _ _ _ A) as [X1 X2]; destruct (IHc _ _ _ B) as [Y1 Y2] end.
        split; [exact I|]. constructor; [|constructor].
        * split; [exact I|]. split; [apply ascii_text; reflexivity|exact X1].
        * split; [exact I|]. split; [apply ascii_text; reflexivity|exact Y1].
        * apply Forall_app. auto.
      + intros v r0 s ts bs V S H M. inversion M; subst. match goal with A : obj_means _ _ _ o _ _ _ |- _ => destruct (IHo U1 _ _ _ A) as [X1 X2] end.
        constructor; [|apply Forall_app; split; eauto]. split; [exact S|]. split; [eapply verb_scalar; eauto|exact X1].
    - intros U s ts bs S M. inversion M; subst. constructor.
    - intros v os IHo r IHr (U1 & U2 & U3) s ts bs S M. destruct (IHo U2) as [_ H]. eapply H; eauto.
  Qed.
  Lemma doc_scalar : forall L d e ts bs, env_scalar e -> Forall (stmt_all iri_uni lit_uni) d -> doc_means R L e d ts bs -> Forall stmt_scalar ts.
  Proof.
    intros L d e ts bs E U M. induction M as [e|e ns body iri r ts bs RM M IH|e body iri r ts bs RM M IH|e s p r x ts1 ts2 ts3 bs1 bs2 bs3 MO MP M IH]; [constructor|..]; inversion_clear U as [|? ? U1 U2].
    - apply IH; auto. assert (S : Forall scalar iri) by (eapply ref_scalar; eauto). destruct E as [E1 E2]. split; auto.
      intros q i. cbn [bind_prefix e_pfx]. destruct (str_eq_dec q ns); [intros [= <-]; auto|apply E2].
    - apply IH; auto. assert (S : Forall scalar iri) by (eapply ref_scalar; eauto). destruct E as [E1 E2]. split; auto.
    - destruct U1 as (_ & US & UP). destruct (means_scalar e L E) as (HO & _ & HP). destruct (HO s US _ _ _ MO) as [X1 X2].
      rewrite !Forall_app. split; auto. split; eauto.
  Qed.
  Lemma env0_scalar : forall base, Forall scalar base -> env_scalar (env0 base).
  Proof.
    intros base B. split; auto. intros p i. cbn [env0 e_pfx]. destruct (str_eq_dec p _); [intros [= <-]; apply ascii_text; reflexivity|].
    destruct (str_eq_dec p _); [intros [= <-]; apply ascii_text; reflexivity|discriminate].
  Qed.
End Doc.
