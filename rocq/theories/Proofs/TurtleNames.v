(** IRIs in the Turtle output (C85). *)
From Verif Require Import Model.Py Model.Terms Model.Codec Model.Curie Model.Resource Model.TurtleTree Model.TurtleOut
  Spec.CodecSpec Spec.CurieSpec Spec.TurtleSpec Spec.TurtleTextSpec Spec.TurtleOutSpec
  Proofs.CurieLemmas Proofs.CurieMore Proofs.TurtleEsc Proofs.TurtleRepr Proofs.TurtleTokens Proofs.TurtleTrip.
Open Scope N_scope.

Lemma pm_env : forall pm B, env_with pm B (mkEnv (sget pm) B).
Proof. intros pm B. split; [|reflexivity]. intros p ns L. cbn. now apply lookup_sget. Qed.
Lemma plain_denotes : forall s u, denotes s u -> ~ In 92 s -> u = s.
Proof.
  intros s u D. induction D as [|c r v C D IH|k c r v E D IH|h r v n L H D IH|h r v n L H D IH]; intro N.
  - reflexivity.
  - f_equal. apply IH. intro J. apply N. now right.
  - destruct N. now left.
  - destruct N. now left.
  - destruct N. now left.
Qed.
Lemma units_plain : forall ok s, units ok false s -> ~ In 92 s -> Forall ok s.
Proof.
  induction 1 as [|u s U _ IH]; intro N; [constructor|]. apply Forall_app. split.
  - destruct U as [c C _|k c E _|h _ _|h _ _]; [constructor; auto|discriminate|destruct N; now left|destruct N; now left].
  - apply IH. intro J. apply N. apply in_or_app. now right.
Qed.
Lemma pn_first : forall ns c r ln, pn_prefix ns -> ns ++ 58 :: ln = c :: r -> c <> 60.
Proof.
  intros ns c r ln [->|(x & y & -> & B & _)] E.
  - injection E as <- _. discriminate.
  - injection E as -> _. unfold pn_base, letter, between in B. lia.
Qed.
Lemma ref_inv : forall i s, iri_text i ([60] ++ s ++ [62]) -> i = TRef s /\ units (fun c => ~ iri_illegal c) false s.
Proof.
  intros i s T. remember ([60] ++ s ++ [62]) as t eqn:E. destruct T as [b U|ns ln P L].
  - injection E as E. apply app_inj_tail in E. destruct E as [-> _]. auto.
  - exfalso. exact (pn_first _ _ _ _ P E eq_refl).
Qed.
Lemma pn_inv : forall i p r, pn_prefix p -> iri_text i (p ++ 58 :: r) -> i = TPn (p ++ 58 :: r) /\ pn_local r.
Proof.
  intros i p r P T. remember (p ++ 58 :: r) as t eqn:E. destruct T as [b U|ns ln P' L].
  - exfalso. exact (pn_first p 60 (b ++ [62]) r P (eq_sym E) eq_refl).
  - assert (A := prefix_colon _ P). assert (A' := prefix_colon _ P'). destruct (split_unique 58 ns ln p r A' A E) as [-> ->]. auto.
Qed.
Section Names.
  Variable resolves : str -> str -> str -> Prop.
  (** a reference *)
  Lemma ref_reads : forall pm B s x, ~ In 92 s -> text_is_iri resolves pm B ([60] ++ s ++ [62]) x <-> legal_text s /\ resolves B s x.
  Proof.
    intros pm B s x N. split.
    - intros (i & T & M). apply ref_inv in T. destruct T as [-> U]. assert (M' := M _ (pm_env pm B)). inversion M' as [? ? (u & D & F & R)|]; subst.
      apply plain_denotes in D; auto. subst u. auto.
    - intros [L R]. exists (TRef s). split; [now apply legal_ref|]. intros e [_ <-]. constructor. exists s. split; [now apply legal_denotes|]. auto.
  Qed.
  Lemma local_same : forall r l, local_denotes r l -> (l = r <-> ~ In 92 r) /\ (length l <= length r)%nat.
  Proof.
    induction 1 as [|c s v N N' D [IH IL]|c s v E D [IH IL]].
    - repeat split; auto.
    - split; [|cbn; lia]. split.
      + intros X [J|J]; [congruence|]. injection X as X. now apply IH in X.
      + intro X. f_equal. apply IH. intro J. apply X. now right.
    - split; [|cbn; lia]. split; [|intro X; destruct X; now left]. intro X. exfalso. apply (f_equal (@length _)) in X. cbn in X. lia.
  Qed.
  (** a prefixed name *)
  Lemma pn_reads : forall pm B p ns r, pn_prefix p -> lookup pm p ns -> text_is_iri resolves pm B (p ++ 58 :: r) (ns ++ r) <-> pn_local r /\ ~ In 92 r.
  Proof.
    intros pm B p ns r P L. split.
    - intros (i & T & M). apply pn_inv in T; auto. destruct T as [-> PL]. split; auto. assert (M' := M _ (pm_env pm B)). inversion M' as [|ns' ln' p' l A X D E Y]; subst.
      assert (A' := prefix_colon _ P). destruct (split_unique 58 ns' ln' p r A A' E) as [-> ->]. cbn in X. apply lookup_sget in L. rewrite L in X. injection X as <-.
      apply app_inv_head in Y. subst l. now apply (proj1 (local_same _ _ D)).
    - intros [PL N]. exists (TPn (p ++ 58 :: r)). split; [now constructor|]. intros e [EP _]. destruct (local_ok r PL) as [v V].
      assert (v = r) by now apply (proj1 (local_same _ _ V)). subst v. constructor; auto. now apply prefix_colon.
  Qed.
  Lemma shrink_none : forall pm s, (forall p ns, In (p, ns) pm -> ~ prefix_of ns s) -> pm_shrink pm s = s.
  Proof.
    intros pm s N. unfold pm_shrink. destruct (to_curie_choice s pm (s2l ":") false) as [[E _]|(m1 & p & ns & m2 & -> & P & _)]; auto.
    exfalso. apply (N p ns); auto. apply in_elt.
  Qed.
  Lemma shrink_chosen : forall pm p ns r, chosen pm (ns ++ r) p ns -> ns <> [] -> ~ occurs_in ns r -> pm_shrink pm (ns ++ r) = p ++ 58 :: r.
  Proof.
    intros pm p ns r C N O. unfold pm_shrink. rewrite (to_curie_chosen _ _ _ _ _ _ C). cbn match. rewrite replace_once by assumption. now rewrite <- app_assoc.
  Qed.
  Lemma repr_unbased : forall pm base s, not_based base (pm_shrink pm s) -> repr_iri pm base s = (if str_eqb (pm_shrink pm s) s then [60] ++ s ++ [62] else pm_shrink pm s).
  Proof.
    intros pm base s NB. unfold repr_iri.
    replace (match base with Some (c :: b) => _ | _ => pm_shrink pm s end) with (pm_shrink pm s).
    - unfold str_eqb. destruct (str_eq_dec (pm_shrink pm s) s) as [E|]; [now rewrite E|reflexivity].
    - destruct base as [[|c b]|]; auto. destruct (startswith (pm_shrink pm s) (c :: b)) eqn:S; auto. apply startswith_spec in S.
      exfalso. exact (NB _ eq_refl ltac:(discriminate) S).
  Qed.
  Lemma full_text : forall pm base s, (forall p ns, In (p, ns) pm -> ~ prefix_of ns s) -> not_based base s -> turtle_repr pm base (Iri s) = Ok ([60] ++ s ++ [62]).
  Proof.
    intros pm base s N NB. assert (E := shrink_none pm s N). unfold turtle_repr. rewrite repr_unbased; rewrite E; auto. unfold str_eqb. now destruct (str_eq_dec s s).
  Qed.
  Lemma short_text : forall pm base p ns r, chosen pm (ns ++ r) p ns -> ns <> [] -> ~ occurs_in ns r -> p ++ 58 :: r <> ns ++ r -> not_based base (p ++ 58 :: r) ->
    turtle_repr pm base (Iri (ns ++ r)) = Ok (p ++ 58 :: r).
  Proof.
    intros pm base p ns r C N O D NB. assert (E := shrink_chosen pm p ns r C N O). unfold turtle_repr. rewrite repr_unbased; rewrite E; auto. unfold str_eqb. now destruct (str_eq_dec _ _).
  Qed.
  Lemma based_text : forall pm b r, (forall p ns, In (p, ns) pm -> ~ prefix_of ns (b ++ r)) -> b <> [] -> ~ occurs_in b r -> legal_text b ->
    (ends_in 35 b -> turtle_repr pm (Some b) (Iri (b ++ r)) = Ok ([60] ++ (35 :: r) ++ [62])) /\
    (~ ends_in 35 b -> turtle_repr pm (Some b) (Iri (b ++ r)) = Ok ([60] ++ r ++ [62])).
  Proof.
    intros pm b r N NE O LB. assert (E := shrink_none pm (b ++ r) N). unfold turtle_repr, repr_iri. rewrite E. destruct b as [|c b]; [congruence|].
    assert (S : startswith ((c :: b) ++ r) (c :: b) = true) by (apply startswith_spec; now exists r). rewrite S, !replace_once by assumption.
    assert (C : c <> 60) by (inversion LB as [|? ? X _]; intros ->; apply X; right; left; now left).
    assert (NQ : forall t, str_eqb ([60] ++ t ++ [62]) ((c :: b) ++ r) = false).
    { intro t. unfold str_eqb. destruct (str_eq_dec _ _) as [X|]; auto. injection X as X _. congruence. }
    split; intro EN.
    - assert (X : endswith_char (c :: b) 35 = true) by (apply ends_app; exact EN). rewrite X, NQ. reflexivity.
    - assert (X : endswith_char (c :: b) 35 = false) by (destruct (endswith_char (c :: b) 35) eqn:Y; auto; apply ends_app in Y; contradiction). rewrite X, NQ. reflexivity.
  Qed.

  (** ** Literals *)
  Lemma esc_shape : forall v, exists m, turtle_string_escape v = 34 :: m ++ [34].
  Proof. intro v. rewrite escape_exact. now exists (raw_after_backslash false v). Qed.
  Lemma string_shape : forall b s, string_text b s -> (length b < length s)%nat /\ s <> [].
  Proof. intros b s [q b' Q U|q b' Q U]; (split; [rewrite !app_length; cbn; lia|discriminate]). Qed.
  Lemma iri_text_last : forall i t, iri_text i t -> forall x, t <> x ++ [34] /\ t <> [].
  Proof.
    intros i t T x. assert (N := proj2 (iri_text_not _ _ T)). split; [intros ->; apply N, in_elt|]. destruct T as [b U|[|c ns] ln P L]; discriminate.
  Qed.
  Lemma last_app : forall (a t m : str) c, a ++ t = m ++ [c] -> t <> [] -> exists x, t = x ++ [c].
  Proof.
    intros a t m c E N. destruct (exists_last N) as (x & y & ->). rewrite app_assoc in E. apply app_inj_tail in E. destruct E as [_ ->]. now exists x.
  Qed.
  Lemma lit_type_inv : forall g b i T, lit_text g (TStr b (SfType i)) T -> exists s w w' t, string_text b s /\ g w /\ g w' /\ iri_text i t /\ T = s ++ w ++ [94; 94] ++ w' ++ t.
  Proof. intros g b i T H. inversion H; subst. eexists _, _, _, _. repeat split; eauto. Qed.
  Lemma lit_lang_inv : forall g b tg T, lit_text g (TStr b (SfLang tg)) T -> exists s w, string_text b s /\ g w /\ lang_tag tg /\ T = s ++ w ++ [64] ++ tg.
  Proof. intros g b tg T H. inversion H; subst. eexists _, _. repeat split; eauto. Qed.
  Lemma plain_reads : forall pm B v, text_is_lit resolves pm B (turtle_string_escape v) (Lit v None (Some (xsd_iri "string"))) <-> Forall plain_char v.
  Proof.
    intros pm B v. split.
    - intros (x & T & M). assert (M' := M _ (pm_env pm B)). apply escape_round_trip.
      inversion M' as [b v' D|b v' tg D|b v' i d D I|tok|tok|tok|tok]; subst.
      + inversion T; subst. now exists b.
      + exfalso. apply lit_type_inv in T. destruct T as (s & w & w' & t & S & W & W' & IT & E). destruct (esc_shape v) as [m X]. rewrite X in E. symmetry in E.
        assert (NE := proj2 (iri_text_last _ _ IT [])). change (34 :: m ++ [34]) with ((34 :: m) ++ [34]) in E.
        rewrite !app_assoc in E. apply last_app in E; auto. destruct E as [y ->]. exact (proj1 (iri_text_last _ _ IT y) eq_refl).
    - intro F. apply escape_round_trip in F. destruct F as (b & S & D). exists (TStr b SfNone). split; [now constructor|]. intros e _. now constructor.
  Qed.
  Lemma lang_reads : forall pm B v c t, text_is_lit resolves pm B (turtle_string_escape v ++ 64 :: c :: t) (Lit v (Some (c :: t)) None) <-> Forall plain_char v /\ lang_tag (c :: t).
  Proof.
    intros pm B v c t. split.
    - intros (x & T & M). assert (M' := M _ (pm_env pm B)). inversion M' as [|b v' tg D NT| | | | |]; subst.
      apply lit_lang_inv in T. destruct T as (s & w & S & W & LT & E). split; auto. apply escape_round_trip. change (64 :: c :: t) with ([64] ++ c :: t) in E. rewrite !app_assoc in E.
      apply app_inv_tail in E. apply app_inv_tail in E. destruct (esc_shape v) as [m X]. destruct w as [|y w].
      + rewrite app_nil_r in E. subst s. now exists b.
      + exfalso. rewrite X in E. symmetry in E. change (34 :: m ++ [34]) with ((34 :: m) ++ [34]) in E. apply last_app in E; [|discriminate]. destruct E as [z E].
        assert (J : In 34 (y :: w)) by (rewrite E; apply in_elt). apply (ws_not (y :: w) 34) in J; auto.
    - intros [F LT]. apply escape_round_trip in F. destruct F as (b & S & D). exists (TStr b (SfLang (c :: t))). split.
      + exact (lt_lang ws0 b _ [] (c :: t) S ltac:(constructor) LT).
      + intros e _. constructor; auto. discriminate.
  Qed.
  Lemma type_long : forall b i v, lit_text ws0 (TStr b (SfType i)) v -> denotes b v -> False.
  Proof.
    intros b i v T D. apply lit_type_inv in T. destruct T as (s & w & w' & t & S & W & W' & IT & ->). apply denotes_length in D. destruct D as [D _]. apply string_shape in S. rewrite app_length in D. lia.
  Qed.
  Definition lex_of (x : term) : str := match x with Lit v _ _ => v | _ => [] end.
  Lemma num_reads : forall pm B v k n, (k = NInteger /\ n = "integer" \/ k = NDecimal /\ n = "decimal" \/ k = NDouble /\ n = "double")%string ->
    text_is_lit resolves pm B v (Lit v None (Some (xsd_iri n))) <-> num_text k v.
  Proof.
    intros pm B v k n K. split.
    - intros (x & T & M). assert (M' := M _ (pm_env pm B)). clear M. remember (Lit v None (Some (xsd_iri n))) as y eqn:Y. assert (Z := f_equal lex_of Y).
      destruct M' as [b v' D|b v' tg D|b v' i d D I|tok|tok|tok|tok]; cbn in Z; subst; destruct K as [[-> ->]|[[-> ->]|[-> ->]]]; try discriminate Y;
        try (exfalso; eapply type_long; eauto; fail); inversion T; subst; assumption.
    - intro NT. exists (TNum k v). split; [now constructor|]. intros e _. destruct K as [[-> ->]|[[-> ->]|[-> ->]]]; constructor.
  Qed.
  Lemma bool_reads : forall pm B v, text_is_lit resolves pm B v (Lit v None (Some (xsd_iri "boolean"))) <-> v = s2l "true" \/ v = s2l "false".
  Proof.
    intros pm B v. split.
    - intros (x & T & M). assert (M' := M _ (pm_env pm B)). clear M. remember (Lit v None (Some (xsd_iri "boolean"))) as y eqn:Y. assert (Z := f_equal lex_of Y).
      destruct M' as [b v' D|b v' tg D|b v' i d D I|tok|tok|tok|tok]; cbn in Z; subst; try discriminate Y; [exfalso; eapply type_long; eauto|]. inversion T; subst; assumption.
    - intro NT. exists (TBool v). split; [now constructor|]. intros e _. constructor.
  Qed.
  Lemma lit_readable : forall pm base B v l d, lookup pm (s2l "xsd") (xsd_iri "") -> (forall p ns, In (p, ns) pm -> pn_prefix p) -> (forall dt, d = Some dt -> legal_text dt) ->
    readable resolves pm base B (Lit v l d) <-> legal_literal v l d.
  Proof.
    intros pm base B v l d LX PP LD. unfold readable, legal_literal. destruct (repr_lit pm base _ v l LX) as (R1 & R2 & R3 & R4). destruct d as [dt|].
    - assert (RB : read_back (Lit v l (Some dt)) = Lit v None (Some dt)) by (destruct l as [[|c t]|]; reflexivity). rewrite RB.
      assert (NM : forall n, In n ["integer"; "decimal"; "double"; "boolean"]%string -> turtle_repr pm base (Lit v l (Some (xsd_iri n))) = Ok v).
      { intros n J. apply (R3 (s2l n)). now apply in_map. }
      assert (TS : turtle_repr pm base (Lit v l (Some (xsd_iri "string"))) = Ok (turtle_string_escape v)) by exact R2.
      split.
      + intro R. destruct (str_eq_dec dt (xsd_iri "string")) as [->|N1]; [left; split; auto; eapply plain_reads; eapply R; exact TS|right].
        destruct (str_eq_dec dt (xsd_iri "integer")) as [->|N2]; [left; split; auto; eapply num_reads; [|eapply R; apply NM; cbn; tauto]; tauto|right].
        destruct (str_eq_dec dt (xsd_iri "decimal")) as [->|N3]; [left; split; auto; eapply num_reads; [|eapply R; apply NM; cbn; tauto]; tauto|right].
        destruct (str_eq_dec dt (xsd_iri "double")) as [->|N4]; [left; split; auto; eapply num_reads; [|eapply R; apply NM; cbn; tauto]; tauto|right].
        destruct (str_eq_dec dt (xsd_iri "boolean")) as [->|N5]; [split; auto; eapply bool_reads; eapply R; apply NM; cbn; tauto|exfalso].
        assert (E : turtle_repr pm base (Lit v l (Some dt)) = Ok (repr_typed pm v dt)).
        { apply R4; [exact N1|]. intros n J. unfold xsd_names in J. apply in_map_iff in J. destruct J as (m & <- & J). cbn in J.
          destruct J as [<-|[<-|[<-|[<-|[]]]]]; assumption. }
        destruct (R _ E) as (x & T & _). apply (typed_unreadable pm v dt); auto; [now apply LD|now exists x].
      + intros H t E. destruct H as [[-> F]|[[-> F]|[[-> F]|[[-> F]|[-> F]]]]].
        * rewrite TS in E. injection E as <-. now apply plain_reads.
        * rewrite NM in E by (cbn; tauto). injection E as <-. eapply num_reads; [|exact F]. tauto.
        * rewrite NM in E by (cbn; tauto). injection E as <-. eapply num_reads; [|exact F]. tauto.
        * rewrite NM in E by (cbn; tauto). injection E as <-. eapply num_reads; [|exact F]. tauto.
        * rewrite NM in E by (cbn; tauto). injection E as <-. now apply bool_reads.
    - destruct l as [[|c t]|].
      + rewrite app_nil_r in R1. rewrite R1. cbn [read_back]. split.
        * intro R. split; [|discriminate]. eapply plain_reads; now apply R.
        * intros [F _] t E. injection E as <-. now apply plain_reads.
      + rewrite R1. cbn [read_back]. split.
        * intro R. destruct (proj1 (lang_reads pm B v c t) (R _ eq_refl)) as [F LT]. split; auto. intros c' t' E. now injection E as -> ->.
        * intros [F LT] y E. injection E as <-. apply lang_reads. split; auto.
      + rewrite app_nil_r in R1. rewrite R1. cbn [read_back]. split.
        * intro R. split; [|discriminate]. eapply plain_reads; now apply R.
        * intros [F _] t E. injection E as <-. now apply plain_reads.
  Qed.
End Names.
