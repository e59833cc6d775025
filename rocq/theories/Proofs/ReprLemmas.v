(** Lemmas for C104. *)
From Verif Require Import Model.Py Model.Terms Model.Codec Model.Repr Spec.CodecSpec Spec.ReprSpec Proofs.CodecLemmas Proofs.IriLemmas Proofs.CodecMore Proofs.NTLex Proofs.CurieLemmas.
Open Scope N_scope.
Lemma fmtx_length : forall k n, length (fmtx k n) = k.
Proof. induction k; intros; simpl; [reflexivity|]. rewrite app_length, IHk. simpl. lia. Qed.
Lemma fmtx_hex : forall k n, Forall (fun c => is_hex c = true) (fmtx k n).
Proof.
  induction k; intros; simpl; [constructor|]. apply Forall_app. split; [auto|].
  constructor; [|constructor]. unfold is_hex. rewrite hexL_val by lia. reflexivity.
Qed.
Lemma int16_fmtx : forall k n, n < 16 ^ N.of_nat k -> int16 (fmtx k n) = n.
Proof.
  induction k; intros n H.
  - simpl in *. change (int16 []) with 0. lia.
  - replace (N.of_nat (S k)) with (N.succ (N.of_nat k)) in H by lia. rewrite N.pow_succ_r' in H.
    simpl. rewrite int16_snoc, IHk.
    + rewrite hexL_val by lia. lia.
    + apply N.div_lt_upper_bound; lia.
Qed.
Lemma fmtx_num : forall k n, n < 16 ^ N.of_nat k -> hexnum (fmtx k n) n.
Proof. intros k n H. rewrite <- (int16_fmtx k n H) at 2. apply int16_hexnum, fmtx_hex. Qed.

Lemma ok_inj : forall {A} (a b : A), Ok a = Ok b -> b = a.
Proof. intros A a b H. now injection H. Qed.

Section R.
  Variable isp : char -> bool.
  Lemma repr_char_body : forall q c s v r, q = 39 \/ q = 34 -> c <= 0x10FFFF -> lit_body q s v r -> lit_body q (repr_char isp q c ++ s) (c :: v) r.
  Proof.
    intros q c s v r Q C H. unfold repr_char.
    destruct ((c =? q) || (c =? 92)) eqn:E1.
    { apply orb_true_iff in E1. rewrite !N.eqb_eq in E1. cbn [app]. apply lb_esc; auto. destruct E1 as [-> | ->]; [destruct Q as [-> | ->]; constructor|constructor]. }
    apply orb_false_iff in E1. rewrite !N.eqb_neq in E1. destruct E1 as [E1 E1'].
    destruct (c =? 9) eqn:E2; [apply N.eqb_eq in E2; subst; cbn [app]; apply lb_esc; [constructor|auto]|].
    destruct (c =? 10) eqn:E3; [apply N.eqb_eq in E3; subst; cbn [app]; apply lb_esc; [constructor|auto]|].
    destruct (c =? 13) eqn:E4; [apply N.eqb_eq in E4; subst; cbn [app]; apply lb_esc; [constructor|auto]|].
    apply N.eqb_neq in E2, E3, E4.
    assert (P : lit_body q ([c] ++ s) (c :: v) r) by (cbn [app]; apply lb_char; auto).
    assert (X : c < 256 -> lit_body q (([92; 120] ++ fmtx 2 c) ++ s) (c :: v) r).
    { intro B. cbn [app]. apply lb_x; [apply fmtx_length|apply fmtx_num; exact B|exact H]. }
    destruct ((c <? 32) || (c =? 127)) eqn:E5.
    { apply X. apply orb_true_iff in E5. rewrite N.ltb_lt, N.eqb_eq in E5. lia. }
    destruct (c <? 127); [exact P|]. destruct (isp c); [exact P|].
    destruct (c <? 256) eqn:E6; [apply X; now apply N.ltb_lt|].
    destruct (c <? 65536) eqn:E7.
    - cbn [app]. apply lb_u; [apply fmtx_length|apply fmtx_num; apply N.ltb_lt in E7; exact E7|exact H].
    - cbn [app]. apply lb_U; [apply fmtx_length|apply fmtx_num; change (16 ^ N.of_nat 8) with 4294967296; lia|exact C|exact H].
  Qed.
  Lemma repr_body : forall q s r, q = 39 \/ q = 34 -> py_str s -> lit_body q (concat (map (repr_char isp q) s) ++ q :: r) s r.
  Proof.
    intros q s r Q P. induction P as [|c s C P IH]; cbn [map concat app]; [constructor|]. rewrite <- app_assoc. now apply repr_char_body.
  Qed.
  Lemma repr_quote_cases : forall s, repr_quote s = 39 \/ repr_quote s = 34.
  Proof. intro s. unfold repr_quote. destruct (_ && _); auto. Qed.
  Lemma py_repr_app : forall s r, py_repr isp s ++ r = repr_quote s :: concat (map (repr_char isp (repr_quote s)) s) ++ repr_quote s :: r.
  Proof. intros. unfold py_repr. cbn [app]. rewrite <- app_assoc. reflexivity. Qed.
  Lemma repr_literal : forall s r, py_str s -> py_literal (py_repr isp s ++ r) s r.
  Proof.
    intros s r P. rewrite py_repr_app. eexists. eexists. split; [apply repr_quote_cases|]. split; [reflexivity|]. now apply repr_body; [apply repr_quote_cases|].
  Qed.

  (** a text starts with at most one literal *)
  Lemma hex_app : forall h h' n n' s s', length h = length h' -> hexnum h n -> hexnum h' n' -> h ++ s = h' ++ s' -> n = n' /\ s = s'.
  Proof.
    intros h h' n n' s s' L H H' E. assert (A : h = h' /\ s = s').
    { clear H H'. revert h' L E. induction h as [|a h IH]; intros [|b h'] L E; try discriminate; auto. cbn [app] in E. injection E as -> E. injection L as L. destruct (IH h' L E) as [-> ->]. auto. }
    destruct A as [-> ->]. split; auto. apply hexnum_int16 in H, H'. destruct H as [_ <-], H' as [_ <-]. reflexivity.
  Qed.
  Lemma lit_body_fun : forall q t v r, q = 39 \/ q = 34 -> lit_body q t v r -> forall v' r', lit_body q t v' r' -> v = v' /\ r = r'.
  Proof.
    intros q t v r Q H. induction H as [r|c s v r N1 N2 N3 N4 H IH|k c s v r K H IH|h c s v r L X H IH|h c s v r L X H IH|h c s v r L X B H IH]; intros v' r' H'.
    - inversion H' as [? E|? ? ? ? M1|? ? ? ? ? K' H2 E|h' ? ? ? ? L' X' H2 E|h' ? ? ? ? L' X' H2 E|h' ? ? ? ? L' X' B' H2 E]; subst; auto; try (destruct Q; discriminate). now destruct M1.
    - inversion H' as [? E|? ? ? ? M1 M2 M3 M4 H2|? ? ? ? ? K' H2 E|h' ? ? ? ? L' X' H2 E|h' ? ? ? ? L' X' H2 E|h' ? ? ? ? L' X' B' H2 E]; subst; try (now destruct N1); try (now destruct N2).
      destruct (IH _ _ H2) as [-> ->]. auto.
    - inversion H' as [? E|? ? ? ? M1 M2 M3 M4 H2|? c' ? ? ? K' H2 E|h' ? ? ? ? L' X' H2 E|h' ? ? ? ? L' X' H2 E|h' ? ? ? ? L' X' B' H2 E]; subst; try (destruct Q; discriminate); try contradiction; try (inversion K; fail).
      destruct (IH _ _ H2) as [-> ->]. split; [|reflexivity]. f_equal. inversion K; subst; inversion K'; reflexivity.
    - inversion H' as [? E|? ? ? ? M1 M2 M3 M4 H2|? c' ? ? ? K' H2 E|h' ? s' ? ? L' X' H2 E|h' ? ? ? ? L' X' H2 E|h' ? ? ? ? L' X' B' H2 E]; subst; try (destruct Q; discriminate); try contradiction; try (inversion K'; fail).
      destruct (hex_app h h' c c0 s s') as [-> ->]; auto; [congruence|]. destruct (IH _ _ H2) as [-> ->]. auto.
    - inversion H' as [? E|? ? ? ? M1 M2 M3 M4 H2|? c' ? ? ? K' H2 E|h' ? s' ? ? L' X' H2 E|h' ? s' ? ? L' X' H2 E|h' ? ? ? ? L' X' B' H2 E]; subst; try (destruct Q; discriminate); try contradiction; try (inversion K'; fail).
      destruct (hex_app h h' c c0 s s') as [-> ->]; auto; [congruence|]. destruct (IH _ _ H2) as [-> ->]. auto.
    - inversion H' as [? E|? ? ? ? M1 M2 M3 M4 H2|? c' ? ? ? K' H2 E|h' ? s' ? ? L' X' H2 E|h' ? s' ? ? L' X' H2 E|h' ? s' ? ? L' X' B' H2 E]; subst; try (destruct Q; discriminate); try contradiction; try (inversion K'; fail).
      destruct (hex_app h h' c c0 s s') as [-> ->]; auto; [congruence|]. destruct (IH _ _ H2) as [-> ->]. auto.
  Qed.
  Lemma py_literal_fun : forall t v r v' r', py_literal t v r -> py_literal t v' r' -> v = v' /\ r = r'.
  Proof.
    intros t v r v' r' (q & s & Q & -> & H) (q' & s' & _ & E & H'). injection E as <- <-. eapply lit_body_fun; eauto.
  Qed.
  Lemma py_repr_prefix : forall a b r r', py_str a -> py_str b -> py_repr isp a ++ r = py_repr isp b ++ r' -> a = b /\ r = r'.
  Proof.
    intros a b r r' A B E. apply (py_literal_fun (py_repr isp a ++ r)); [now apply repr_literal|rewrite E; now apply repr_literal].
  Qed.

  (** ** Representations that can be encoded *)
  Lemma fmtx_ascii : forall k n, Forall (fun c => ~ surrogate c) (fmtx k n).
  Proof.
    intros k n. eapply Forall_impl; [|apply fmtx_hex]. intros c H. cbn beta in H. unfold is_hex, hexval in H. unfold surrogate.
    destruct ((48 <=? c) && (c <=? 57)) eqn:A; [apply andb_true_iff in A; rewrite !N.leb_le in A; lia|].
    destruct ((65 <=? c) && (c <=? 70)) eqn:B; [apply andb_true_iff in B; rewrite !N.leb_le in B; lia|].
    destruct ((97 <=? c) && (c <=? 102)) eqn:C; [apply andb_true_iff in C; rewrite !N.leb_le in C; lia|]. discriminate.
  Qed.
  Lemma repr_char_encodable : (forall c, surrogate c -> isp c = false) -> forall q c, ~ surrogate q -> Forall (fun c => ~ surrogate c) (repr_char isp q c).
  Proof.
    intros P q c Q. assert (K : forall n, n < 55296 -> ~ surrogate n) by (unfold surrogate; lia). unfold repr_char.
    destruct ((c =? q) || (c =? 92)) eqn:E1.
    { apply orb_true_iff in E1. rewrite !N.eqb_eq in E1. constructor; [apply K; reflexivity|constructor; [|constructor]]. destruct E1 as [-> | ->]; [assumption|apply K; reflexivity]. }
    destruct (c =? 9); [repeat constructor; apply K; reflexivity|]. destruct (c =? 10); [repeat constructor; apply K; reflexivity|]. destruct (c =? 13); [repeat constructor; apply K; reflexivity|].
    assert (X : forall x k, x < 55296 -> Forall (fun c => ~ surrogate c) ([92; x] ++ fmtx k c)).
    { intros x k B. apply Forall_app. split; [constructor; [apply K; reflexivity|constructor; [now apply K|constructor]]|apply fmtx_ascii]. }
    destruct ((c <? 32) || (c =? 127)); [now apply X|]. destruct (c <? 127) eqn:L; [constructor; [apply K; apply N.ltb_lt in L; lia|constructor]|].
    destruct (isp c) eqn:I; [constructor; [intro S; rewrite (P c S) in I; discriminate|constructor]|].
    destruct (c <? 256); [now apply X|]. destruct (c <? 65536); now apply X.
  Qed.
  Lemma py_repr_encodable : (forall c, surrogate c -> isp c = false) -> forall s, Forall (fun c => ~ surrogate c) (py_repr isp s).
  Proof.
    intros P s. unfold py_repr. assert (Q : ~ surrogate (repr_quote s)) by (unfold surrogate; destruct (repr_quote_cases s) as [-> | ->]; lia).
    constructor; [assumption|]. apply Forall_app. split; [|constructor; [assumption|constructor]]. apply Forall_concat. apply Forall_map. apply Forall_forall.
    intros c _. now apply repr_char_encodable.
  Qed.

  (** ** Terms *)
  Lemma surr_cases : forall s, Forall (fun c => ~ surrogate c) s \/ Exists surrogate s.
  Proof.
    induction s as [|c s [IH|IH]]; [now left| |right; now right].
    destruct ((55296 <=? c) && (c <=? 57343)) eqn:E.
    - right. left. apply andb_true_iff in E. rewrite !N.leb_le in E. exact E.
    - left. constructor; [|assumption]. intros [A B]. apply N.leb_le in A, B. rewrite A, B in E. discriminate.
  Qed.
  Lemma iri_repr_cases : forall s, py_str s ->
    (Forall (fun c => ~ surrogate c) s /\ iri_repr s = Ok (s2l "NamedNode(<" ++ quoted s ++ s2l ">)")) \/ (Exists surrogate s /\ iri_repr s = Err UnicodeEncodeError).
  Proof.
    intros s P. destruct (iri_toNT_outcome s P) as [A B]. cbn [term_toNT] in A, B. unfold iri_repr. destruct (surr_cases s) as [H|H].
    - left. split; [assumption|]. rewrite (B H). cbn [bind]. f_equal. change (s2l "NamedNode(<") with (s2l "NamedNode(" ++ [60]). rewrite <- app_assoc. f_equal. cbn [app]. f_equal. rewrite <- app_assoc. reflexivity.
    - right. split; [assumption|]. apply A in H. now rewrite H.
  Qed.
  Lemma no_gt : forall s, py_str s -> ~ In 62 (quoted s).
  Proof. intros s P H. assert (Q := quoted_uri s P). rewrite Forall_forall in Q. apply Q in H. discriminate H. Qed.
  Lemma iri_repr_prefix : forall a b x y r r', py_str a -> py_str b -> iri_repr a = Ok x -> iri_repr b = Ok y -> x ++ r = y ++ r' -> quoted a = quoted b /\ r = r'.
  Proof.
    intros a b x y r r' A B X Y E. destruct (iri_repr_cases a A) as [[_ H]|[_ H]]; rewrite H in X; [|discriminate]. destruct (iri_repr_cases b B) as [[_ H']|[_ H']]; rewrite H' in Y; [|discriminate].
    apply ok_inj in X, Y. subst x y. rewrite <- !app_assoc in E. apply app_inv_head in E.
    change (s2l ">)" ++ r) with (62 :: 41 :: r) in E. change (s2l ">)" ++ r') with (62 :: 41 :: r') in E.
    apply split_unique in E; [|now apply no_gt|now apply no_gt]. destruct E as [E1 E2]. injection E2 as E2. auto.
  Qed.
  Lemma iri_repr_head : forall a x r, py_str a -> iri_repr a = Ok x -> exists t, x ++ r = s2l "NamedNode(<" ++ t.
  Proof.
    intros a x r A X. destruct (iri_repr_cases a A) as [[_ H]|[_ H]]; rewrite H in X; [|discriminate]. apply ok_inj in X. subst x. rewrite <- app_assoc. eauto.
  Qed.
  Lemma py_repr_head : forall s r, exists t, py_repr isp s ++ r = 39 :: t \/ py_repr isp s ++ r = 34 :: t.
  Proof. intros s r. rewrite py_repr_app. destruct (repr_quote_cases s) as [-> | ->]; eauto. Qed.
  Lemma opt_repr_prefix : forall a b r r', Forall py_str (match a with Some a => [a] | None => [] end) -> Forall py_str (match b with Some b => [b] | None => [] end) ->
    opt_repr isp a ++ r = opt_repr isp b ++ r' -> a = b /\ r = r'.
  Proof.
    intros [a|] [b|] r r' A B E; cbn [opt_repr] in E.
    - inversion A; inversion B; subst. apply py_repr_prefix in E; auto. destruct E as [-> ->]. auto.
    - exfalso. destruct (py_repr_head a r) as (t & [H|H]); rewrite H in E; discriminate E.
    - exfalso. destruct (py_repr_head b r') as (t & [H|H]); rewrite H in E; discriminate E.
    - apply app_inv_head in E. auto.
  Qed.
  Lemma dt_repr_prefix : forall a b x y r r', Forall py_str (match a with Some a => [a] | None => [] end) -> Forall py_str (match b with Some b => [b] | None => [] end) ->
    dt_repr a = Ok x -> dt_repr b = Ok y -> x ++ r = y ++ r' -> alike_iri a b /\ r = r'.
  Proof.
    intros [a|] [b|] x y r r' A B X Y E; cbn [dt_repr alike_iri] in *.
    - inversion A; inversion B; subst. eapply iri_repr_prefix; eauto.
    - exfalso. inversion A; subst. apply ok_inj in Y; subst y. destruct (iri_repr_head a x r) as [t H]; auto. rewrite H in E. discriminate E.
    - exfalso. inversion B; subst. apply ok_inj in X; subst x. destruct (iri_repr_head b y r') as [t H]; auto. rewrite H in E. discriminate E.
    - apply ok_inj in X; subst x. apply ok_inj in Y; subst y. apply app_inv_head in E. auto.
  Qed.
  Lemma term_repr_prefix : forall a b x y r r', py_term a -> py_term b -> term_repr isp a = Ok x -> term_repr isp b = Ok y -> x ++ r = y ++ r' -> alike a b /\ r = r'.
  Proof.
    intros [s|n|v l d] [s'|n'|v' l' d'] x y r r' A B X Y E; unfold py_term, texts_of in A, B; cbn [term_repr alike] in *.
    - inversion A; inversion B; subst. eapply iri_repr_prefix; eauto.
    - exfalso. inversion A; subst. apply ok_inj in Y; subst y. destruct (iri_repr_head s x r) as [t H]; auto. rewrite H in E. discriminate E.
    - exfalso. inversion A; subst. destruct (iri_repr_head s x r) as [t H]; auto. rewrite H in E. destruct (dt_repr d'); [|discriminate]. apply ok_inj in Y; subst y. discriminate E.
    - exfalso. inversion B; subst. apply ok_inj in X; subst x. destruct (iri_repr_head s' y r') as [t H]; auto. rewrite H in E. discriminate E.
    - apply ok_inj in X; subst x. apply ok_inj in Y; subst y. apply app_inv_head in E. auto.
    - exfalso. apply ok_inj in X; subst x. destruct (dt_repr d'); [|discriminate]. apply ok_inj in Y; subst y. discriminate E.
    - exfalso. inversion B; subst. destruct (iri_repr_head s' y r') as [t H]; auto. rewrite H in E. destruct (dt_repr d); [|discriminate]. apply ok_inj in X; subst x. discriminate E.
    - exfalso. apply ok_inj in Y; subst y. destruct (dt_repr d); [|discriminate]. apply ok_inj in X; subst x. discriminate E.
    - destruct (dt_repr d) as [dx|] eqn:D; [|discriminate]. destruct (dt_repr d') as [dy|] eqn:D'; [|discriminate]. apply ok_inj in X; subst x. apply ok_inj in Y; subst y.
      inversion A as [|? ? Av Ar]; inversion B as [|? ? Bv Br]; subst. apply Forall_app in Ar, Br. destruct Ar as [Al Ad], Br as [Bl Bd].
      rewrite <- !app_assoc in E. apply app_inv_head in E. apply py_repr_prefix in E; auto. destruct E as [-> E]. apply app_inv_head in E.
      apply opt_repr_prefix in E; auto. destruct E as [-> E]. apply app_inv_head in E. apply (dt_repr_prefix d d' dx dy) in E; auto. destruct E as [F E]. apply app_inv_head in E. auto.
  Qed.
  Lemma alike_same : forall a b, py_term a -> py_term b -> encodable a -> encodable b -> alike a b -> term_repr isp a = term_repr isp b.
  Proof.
    assert (K : forall a b, py_str a -> py_str b -> Forall (fun c => ~ surrogate c) a -> Forall (fun c => ~ surrogate c) b -> quoted a = quoted b -> iri_repr a = iri_repr b).
    { intros a b A B SA SB Q. destruct (iri_repr_cases a A) as [[_ H]|[H _]].
      - destruct (iri_repr_cases b B) as [[_ H']|[H' _]]; [now rewrite H, H', Q|]. exfalso. rewrite Exists_exists in H'. destruct H' as (c & I & S). rewrite Forall_forall in SB. exact (SB c I S).
      - exfalso. rewrite Exists_exists in H. destruct H as (c & I & S). rewrite Forall_forall in SA. exact (SA c I S). }
    intros [s|n|v l d] [s'|n'|v' l' d'] A B SA SB H; unfold py_term, encodable, texts_of, iris_of in *; cbn [term_repr alike] in *; try contradiction; auto.
    - inversion A; inversion B; inversion SA; inversion SB; subst. auto.
    - destruct H as (-> & -> & H). inversion A as [|? ? Av Ar]; inversion B as [|? ? Bv Br]; subst. apply Forall_app in Ar, Br. destruct Ar as [Al Ad], Br as [Bl Bd].
      enough (dt_repr d = dt_repr d') as -> by reflexivity. destruct d as [d|], d' as [d'|]; cbn [dt_repr alike_iri] in *; try contradiction; auto.
      inversion Ad; inversion Bd; inversion SA; inversion SB; subst. auto.
  Qed.
  Lemma term_repr_ok : forall a, py_term a -> ((exists x, term_repr isp a = Ok x) <-> encodable a) /\ (~ encodable a -> term_repr isp a = Err UnicodeEncodeError).
  Proof.
    assert (K : forall s, Forall (fun c => ~ surrogate c) s -> Exists surrogate s -> False).
    { intros s F X. rewrite Exists_exists in X. destruct X as (c & I & S). rewrite Forall_forall in F. exact (F c I S). }
    intros [s|n|v l d] A; unfold py_term, encodable, texts_of, iris_of in *; cbn [term_repr].
    - inversion A; subst. destruct (iri_repr_cases s) as [[H E]|[H E]]; auto; rewrite E.
      + split; [split; [intros _; auto|intros _; eauto]|]. intro N. destruct N. auto.
      + split; [|auto]. split; [intros [x X]; discriminate|]. intro F. inversion F; subst. exfalso. eauto.
    - split; [split; [auto|eauto]|]. intro N. destruct N. constructor.
    - inversion A as [|? ? Av Ar]; subst. apply Forall_app in Ar. destruct Ar as [_ Ad]. destruct d as [d|]; cbn [dt_repr bind].
      + inversion Ad; subst. destruct (iri_repr_cases d) as [[H E]|[H E]]; auto; rewrite E; cbn [bind].
        * split; [split; [intros _; auto|intros _; eauto]|]. intro N. destruct N. auto.
        * split; [|auto]. split; [intros [x X]; discriminate|]. intro F. inversion F; subst. exfalso. eauto.
      + split; [split; [auto|eauto]|]. intro N. destruct N. constructor.
  Qed.

  (** ** Statements *)
  Lemma stmt_repr_raises : forall t, Forall py_term (terms_of t) ->
    ((exists x, stmt_repr isp t = Ok x) <-> Forall encodable (terms_of t)) /\ (~ Forall encodable (terms_of t) -> stmt_repr isp t = Err UnicodeEncodeError).
  Proof.
    intros [s p o g] P. unfold terms_of in *. cbn [st_s st_p st_o st_graph app] in *. inversion P as [|? ? Ps P1]; subst. inversion P1 as [|? ? Pp P2]; subst. inversion P2 as [|? ? Po Pg]; subst. clear P P1 P2.
    unfold stmt_repr. cbn [st_s st_p st_o st_graph].
    destruct (term_repr_ok s Ps) as [[S1 S2] S3]. destruct (term_repr_ok p Pp) as [[P1 P2] P3]. destruct (term_repr_ok o Po) as [[O1 O2] O3].
    assert (D : forall a, py_term a -> (exists x, term_repr isp a = Ok x) \/ (term_repr isp a = Err UnicodeEncodeError /\ ~ encodable a)).
    { intros a A. destruct (term_repr_ok a A) as [[A1 A2] A3]. destruct (term_repr isp a) as [x|e] eqn:E; [eauto|]. right. assert (N : ~ encodable a) by (intro N; destruct (A2 N); discriminate). split; [rewrite <- A3; auto|assumption]. }
    destruct (D s Ps) as [[sx E]|[E N]]; rewrite E; cbn [bind]; [|split; [split; [intros [x X]; discriminate|intro F; inversion F; subst; contradiction]|reflexivity]].
    assert (Es : encodable s) by eauto.
    destruct (D p Pp) as [[px E']|[E' N]]; rewrite E'; cbn [bind]; [|split; [split; [intros [x X]; discriminate|intro F; inversion F as [|? ? _ F1]; inversion F1; subst; contradiction]|reflexivity]].
    assert (Ep : encodable p) by eauto.
    destruct (D o Po) as [[ox E2]|[E2 N]]; rewrite E2; cbn [bind]; [|split; [split; [intros [x X]; discriminate|intro F; inversion F as [|? ? _ F1]; inversion F1 as [|? ? _ F2]; inversion F2; subst; contradiction]|reflexivity]].
    assert (Eo : encodable o) by eauto.
    destruct g as [[g|]|]; cbn [oterm_repr bind].
    - inversion Pg as [|? ? Pg' _]; subst. destruct (D g Pg') as [[gx E3]|[E3 N]]; rewrite E3; cbn [bind].
      + assert (Eg : encodable g) by (apply (term_repr_ok g Pg'); eauto). split; [split; [auto|eauto]|]. intro N. destruct N. auto.
      + split; [|reflexivity]. split; [intros [x X]; discriminate|]. intro F. rewrite Forall_forall in F. exfalso. apply N, F. cbn. auto.
    - split; [split; [auto|eauto]|]. intro N. destruct N. auto.
    - split; [split; [auto|eauto]|]. intro N. destruct N. auto.
  Qed.
  Lemma stmt_repr_alike : forall a b x, Forall py_term (terms_of a) -> Forall py_term (terms_of b) -> stmt_repr isp a = Ok x -> stmt_repr isp b = Ok x -> alike_stmt a b.
  Proof.
    intros [s p o g] [s' p' o' g'] x A B X Y. unfold terms_of, alike_stmt, stmt_repr in *. cbn [st_s st_p st_o st_graph app] in *.
    inversion A as [|? ? As A1]; subst. inversion A1 as [|? ? Ap A2]; subst. inversion A2 as [|? ? Ao Ag]; subst. clear A A1 A2.
    inversion B as [|? ? Bs B1]; subst. inversion B1 as [|? ? Bp B2]; subst. inversion B2 as [|? ? Bo Bg]; subst. clear B B1 B2.
    destruct (term_repr isp s) as [sx|] eqn:Es; [|discriminate]. destruct (term_repr isp p) as [px|] eqn:Ep; [|discriminate]. destruct (term_repr isp o) as [ox|] eqn:Eo; [|discriminate].
    destruct (term_repr isp s') as [sy|] eqn:Fs; [|discriminate]. destruct (term_repr isp p') as [py|] eqn:Fp; [|discriminate]. destruct (term_repr isp o') as [oy|] eqn:Fo; [|discriminate].
    cbn [bind] in X, Y.
    assert (K : forall r r', sx ++ s2l ", predicate=" ++ px ++ s2l ", object=" ++ ox ++ r = sy ++ s2l ", predicate=" ++ py ++ s2l ", object=" ++ oy ++ r' ->
      (alike s s' /\ alike p p' /\ alike o o') /\ r = r').
    { intros r r' E. apply (term_repr_prefix s s' sx sy) in E; auto. destruct E as [H1 E]. apply app_inv_head in E. apply (term_repr_prefix p p' px py) in E; auto. destruct E as [H2 E]. apply app_inv_head in E.
      apply (term_repr_prefix o o' ox oy) in E; auto. destruct E as [H3 E]. auto. }
    destruct g as [g|], g' as [g'|].
    - destruct (oterm_repr isp g) as [gx|] eqn:Eg; [|discriminate]. destruct (oterm_repr isp g') as [gy|] eqn:Fg; [|discriminate]. cbn [bind] in X, Y.
      assert (E := eq_trans X (eq_sym Y)). apply (f_equal (fun r => match r with Ok t => t | _ => [] end)) in E. apply app_inv_head in E. apply K in E. destruct E as [(H1 & H2 & H3) E]. apply app_inv_head in E.
      split; [assumption|]. split; [assumption|]. split; [assumption|]. cbn [alike_graph]. destruct g as [g|], g' as [g'|]; cbn [oterm_repr] in Eg, Fg.
      + inversion Ag; inversion Bg; subst. apply (term_repr_prefix g g' gx gy) in E; auto. tauto.
      + exfalso. apply ok_inj in Fg; subst gy. assert (E9 := E). destruct g as [u|u|u l d]; cbn [term_repr] in Eg.
        * inversion Ag as [|? ? U _]; inversion U; subst. destruct (iri_repr_head u gx (s2l ")")) as [t Hh]; auto. rewrite Hh in E. discriminate E.
        * apply ok_inj in Eg; subst gx. discriminate E.
        * destruct (dt_repr d); [|discriminate]. apply ok_inj in Eg; subst gx. discriminate E.
      + exfalso. apply ok_inj in Eg; subst gx. destruct g' as [u|u|u l d]; cbn [term_repr] in Fg.
        * inversion Bg as [|? ? U _]; inversion U; subst. destruct (iri_repr_head u gy (s2l ")")) as [t Hh]; auto. rewrite Hh in E. discriminate E.
        * apply ok_inj in Fg; subst gy. discriminate E.
        * destruct (dt_repr d); [|discriminate]. apply ok_inj in Fg; subst gy. discriminate E.
      + exact Logic.I.
    - exfalso. destruct (oterm_repr isp g); [|discriminate]. cbn [bind] in X. assert (E := eq_trans X (eq_sym Y)). apply (f_equal (fun r => match r with Ok (c :: t) => c | _ => 0 end)) in E. discriminate E.
    - exfalso. destruct (oterm_repr isp g'); [|discriminate]. cbn [bind] in Y. assert (E := eq_trans X (eq_sym Y)). apply (f_equal (fun r => match r with Ok (c :: t) => c | _ => 0 end)) in E. discriminate E.
    - assert (E := eq_trans X (eq_sym Y)). apply (f_equal (fun r => match r with Ok t => t | _ => [] end)) in E. apply app_inv_head in E. apply K in E. cbn [alike_graph]. tauto.
  Qed.
  Lemma alike_stmt_same : forall a b, Forall py_term (terms_of a) -> Forall py_term (terms_of b) -> Forall encodable (terms_of a) -> Forall encodable (terms_of b) ->
    alike_stmt a b -> stmt_repr isp a = stmt_repr isp b.
  Proof.
    intros [s p o g] [s' p' o' g'] A B EA EB (H1 & H2 & H3 & H4). unfold terms_of, stmt_repr in *. cbn [st_s st_p st_o st_graph app] in *.
    inversion A as [|? ? As A1]; subst. inversion A1 as [|? ? Ap A2]; subst. inversion A2 as [|? ? Ao Ag]; subst. clear A A1 A2.
    inversion B as [|? ? Bs B1]; subst. inversion B1 as [|? ? Bp B2]; subst. inversion B2 as [|? ? Bo Bg]; subst. clear B B1 B2.
    inversion EA as [|? ? As' A1]; subst. inversion A1 as [|? ? Ap' A2]; subst. inversion A2 as [|? ? Ao' Ag']; subst. clear EA A1 A2.
    inversion EB as [|? ? Bs' B1]; subst. inversion B1 as [|? ? Bp' B2]; subst. inversion B2 as [|? ? Bo' Bg']; subst. clear EB B1 B2.
    rewrite (alike_same s s'), (alike_same p p'), (alike_same o o') by assumption.
    destruct g as [[g|]|], g' as [[g'|]|]; cbn [alike_graph] in H4; try contradiction; auto. inversion Ag; inversion Bg; inversion Ag'; inversion Bg'; subst.
    cbn [oterm_repr]. rewrite (alike_same g g') by assumption. reflexivity.
  Qed.

  (** ** Control characters are not shown *)
  Lemma fmtx_shown : forall k n, Forall (fun c => 32 <= c /\ c <> 127) (fmtx k n).
  Proof.
    intros k n. eapply Forall_impl; [|apply fmtx_hex]. intros c H. cbn beta in H. unfold is_hex, hexval in H.
    destruct ((48 <=? c) && (c <=? 57)) eqn:A; [apply andb_true_iff in A; rewrite !N.leb_le in A; lia|].
    destruct ((65 <=? c) && (c <=? 70)) eqn:B; [apply andb_true_iff in B; rewrite !N.leb_le in B; lia|].
    destruct ((97 <=? c) && (c <=? 102)) eqn:C; [apply andb_true_iff in C; rewrite !N.leb_le in C; lia|]. discriminate.
  Qed.
  Lemma repr_char_shown : forall q c, q = 39 \/ q = 34 -> Forall (fun c => 32 <= c /\ c <> 127) (repr_char isp q c).
  Proof.
    intros q c Q. unfold repr_char.
    destruct ((c =? q) || (c =? 92)) eqn:E1.
    { apply orb_true_iff in E1. rewrite !N.eqb_eq in E1. repeat constructor; lia. }
    destruct (c =? 9); [repeat constructor; lia|]. destruct (c =? 10); [repeat constructor; lia|]. destruct (c =? 13); [repeat constructor; lia|].
    assert (X : forall x k, 32 <= x -> x <> 127 -> Forall (fun c => 32 <= c /\ c <> 127) ([92; x] ++ fmtx k c)).
    { intros x k B B'. apply Forall_app. split; [repeat constructor; lia|apply fmtx_shown]. }
    destruct ((c <? 32) || (c =? 127)) eqn:E5; [apply X; lia|]. apply orb_false_iff in E5. rewrite N.ltb_ge, N.eqb_neq in E5.
    destruct (c <? 127); [repeat constructor; lia|]. destruct (isp c); [repeat constructor; lia|]. destruct (c <? 256); [apply X; lia|]. destruct (c <? 65536); apply X; lia.
  Qed.
  Lemma py_repr_shown : forall s, Forall (fun c => 32 <= c /\ c <> 127) (py_repr isp s).
  Proof.
    intro s. unfold py_repr. assert (Q := repr_quote_cases s). constructor; [lia|]. apply Forall_app. split; [|constructor; [lia|constructor]].
    apply Forall_concat, Forall_map, Forall_forall. intros c _. now apply repr_char_shown.
  Qed.
  Lemma iri_repr_shown : forall s x, py_str s -> iri_repr s = Ok x -> Forall (fun c => 32 <= c /\ c <> 127) x.
  Proof.
    intros s x P H. destruct (iri_repr_cases s P) as [[_ E]|[_ E]]; rewrite E in H; [|discriminate]. apply ok_inj in H. subst x.
    apply Forall_app. split; [vm_compute; repeat constructor; discriminate|]. apply Forall_app. split; [|vm_compute; repeat constructor; discriminate].
    eapply Forall_impl; [|apply quoted_uri; exact P]. intros c H. cbn beta in H. apply uri_char_ascii in H. revert H. clear. unfold printable_ascii. lia.
  Qed.
  Lemma term_repr_shown : forall t x, py_term t -> term_repr isp t = Ok x -> Forall (fun c => 32 <= c /\ c <> 127) x.
  Proof.
    intros [s|n|v l d] x P H; unfold py_term, texts_of in P; cbn [term_repr] in H.
    - inversion P; subst. eapply iri_repr_shown; eauto.
    - apply ok_inj in H. subst x. vm_compute. repeat constructor; discriminate.
    - inversion P as [|? ? Pv Pr]; subst. apply Forall_app in Pr. destruct Pr as [Pl Pd].
      assert (D : forall y, dt_repr d = Ok y -> Forall (fun c => 32 <= c /\ c <> 127) y).
      { intros y Y. destruct d as [d|]; cbn [dt_repr] in Y; [inversion Pd; subst; eapply iri_repr_shown; eauto|]. apply ok_inj in Y. subst y. vm_compute. repeat constructor; discriminate. }
      destruct (dt_repr d) as [y|]; [|discriminate]. apply ok_inj in H. subst x. specialize (D y eq_refl).
      rewrite !Forall_app; repeat match goal with |- _ /\ _ => split end; auto using py_repr_shown; try (vm_compute; repeat constructor; discriminate).
      destruct l as [l|]; cbn [opt_repr]; [apply py_repr_shown|vm_compute; repeat constructor; discriminate].
  Qed.
  Lemma stmt_repr_shown : forall t x, Forall py_term (terms_of t) -> stmt_repr isp t = Ok x -> Forall (fun c => 32 <= c /\ c <> 127) x.
  Proof.
    intros [s p o g] x P H. unfold terms_of, stmt_repr in *. cbn [st_s st_p st_o st_graph app] in *.
    inversion P as [|? ? Ps P1]; subst. inversion P1 as [|? ? Pp P2]; subst. inversion P2 as [|? ? Po Pg]; subst.
    destruct (term_repr isp s) as [sx|] eqn:Es; [|discriminate]. destruct (term_repr isp p) as [px|] eqn:Ep; [|discriminate]. destruct (term_repr isp o) as [ox|] eqn:Eo; [|discriminate]. cbn [bind] in H.
    apply term_repr_shown in Es, Ep, Eo; auto. destruct g as [g|].
    - assert (G : forall y, oterm_repr isp g = Ok y -> Forall (fun c => 32 <= c /\ c <> 127) y).
      { intros y Y. destruct g as [g|]; cbn [oterm_repr] in Y; [inversion Pg; subst; eapply term_repr_shown; eauto|]. apply ok_inj in Y. subst y. vm_compute. repeat constructor; discriminate. }
      destruct (oterm_repr isp g) as [y|]; [|discriminate]. specialize (G y eq_refl). apply ok_inj in H. subst x.
      rewrite !Forall_app; repeat match goal with |- _ /\ _ => split end; auto; vm_compute; repeat constructor; discriminate.
    - apply ok_inj in H. subst x. rewrite !Forall_app; repeat match goal with |- _ /\ _ => split end; auto; vm_compute; repeat constructor; discriminate.
  Qed.
End R.
Lemma repr_quote_spec : forall s, (In 39 s /\ ~ In 34 s -> repr_quote s = 34) /\ (~ (In 39 s /\ ~ In 34 s) -> repr_quote s = 39).
Proof.
  assert (K : forall c s, existsb (N.eqb c) s = true <-> In c s).
  { intros c s. rewrite existsb_exists. split; [intros (x & I & E); apply N.eqb_eq in E; now subst|intro I; exists c; split; [assumption|apply N.eqb_refl]]. }
  intro s. unfold repr_quote. assert (A := K 39 s). assert (B := K 34 s). destruct (existsb (N.eqb 39) s), (existsb (N.eqb 34) s); cbn [andb negb]; split; intro H; auto; exfalso.
  - destruct H as [_ H]. apply H. now apply B.
  - apply H. split; [now apply A|]. intro X. apply B in X. discriminate.
  - destruct H as [_ H]. apply H. now apply B.
  - destruct H as [H _]. apply A in H. discriminate.
Qed.
Lemma quoted_same : forall a b, Forall (fun c => uri_char c = true) a -> Forall (fun c => uri_char c = true) b -> quoted a = quoted b -> a = b.
Proof. intros a b A B H. rewrite (quoted_id a A), (quoted_id b B) in H. exact H. Qed.
