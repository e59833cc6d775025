(** Resource: which assignments succeed (C56); text written to a scalar property is read back (C57). *)
From Coq Require Import Permutation.
From Verif Require Import Model.Py Model.Terms Model.Graph Model.GraphRun Model.Codec Model.Curie Model.Resource Model.ResourceRun
  Spec.GraphSpec Spec.CurieSpec Spec.ResourceSpec
  Proofs.DictLemmas Proofs.GraphInv Proofs.GraphHist Proofs.CurieLemmas Proofs.CurieMore Proofs.LangLemmas Proofs.ResourceLemmas Proofs.ClassLemmas Proofs.ResourceRead Proofs.ResourceWrite Proofs.ResourceSet.
Open Scope N_scope.

Definition lvals (v : lval) : list rval := match v with LOne x => [x] | LSet l => l end.
Lemma lang_term : forall l b x d, lang_match b (Some l) = true <-> in_lang l (Lit x b d).
Proof. intros l b x d. rewrite lang_match_sym. exact (lang_filter_spec l (Lit x b d)). Qed.
Lemma check_lang : forall w lv l, l <> [] -> (check_objects w lv (Some l) None None = Ok true <->
  forall x, In x (lvals lv) -> exists t, x = RLit t /\ in_lang l t).
Proof.
  intros w lv [|ch l] N; [congruence|]. destruct lv as [x|xs]; cbn [check_objects lvals].
  - unfold check_one. cbn [ostr_truthy bind]. split.
    + intros H y [<-|[]]. destruct x as [|[a|n|a b d]|k s]; cbn [bind] in H; try discriminate.
      exists (Lit a b d). split; [reflexivity|]. apply lang_term. destruct (lang_match b _); [reflexivity|discriminate].
    + intro H. destruct (H x (or_introl eq_refl)) as (t & -> & L). destruct t as [a|n|a b d]; [destruct L as (? & ? & ? & ? & _); discriminate|destruct L as (? & ? & ? & ? & _); discriminate|].
      apply lang_term in L. rewrite L. reflexivity.
  - induction xs as [|x xs IH]; cbn [check_set]; [split; [intros _ x []|reflexivity]|]. cbn [ostr_truthy andb bind]. split.
    + intros H y [<-|J].
      * destruct x as [|[a|n|a b d]|k s]; cbn [negb] in H; try discriminate. exists (Lit a b d). split; [reflexivity|]. apply lang_term.
        destruct (lang_match b _); [reflexivity|discriminate].
      * apply IH; [|exact J]. destruct (negb _); [discriminate|exact H].
    + intro H. destruct (H x (or_introl eq_refl)) as (t & -> & L). destruct t as [a|n|a b d]; [destruct L as (? & ? & ? & ? & _); discriminate|destruct L as (? & ? & ? & ? & _); discriminate|].
      apply lang_term in L. rewrite L. cbn [negb]. apply IH. intros y J. apply H. now right.
Qed.
Lemma dt_term : forall d x b d', typed_as d (Lit x b d') <-> d' = Some d.
Proof. intros. unfold typed_as. split; [intros (v & l & [= _ _ ->]); reflexivity|intros ->; eauto]. Qed.
Lemma check_dt : forall w lv d, d <> [] -> (check_objects w lv None (Some d) None = Ok true <->
  forall x, In x (lvals lv) -> exists t, x = RLit t /\ typed_as d t).
Proof.
  intros w lv [|ch l] N; [congruence|]. destruct lv as [x|xs]; cbn [check_objects lvals].
  - unfold check_one. cbn [ostr_truthy bind]. split.
    + intros H y [<-|[]]. destruct x as [|[a|n|a b d]|k s]; cbn [bind] in H; try discriminate.
      exists (Lit a b d). split; [reflexivity|]. apply dt_term. destruct (ostr_eq_dec _ _); [assumption|discriminate].
    + intro H. destruct (H x (or_introl eq_refl)) as (t & -> & (a & b & ->)). destruct (ostr_eq_dec _ _); [reflexivity|congruence].
  - induction xs as [|x xs IH]; cbn [check_set]; [split; [intros _ x []|reflexivity]|]. cbn [ostr_truthy andb bind]. split.
    + intros H y [<-|J].
      * destruct x as [|[a|n|a b d]|k s]; cbn [bind] in H; try discriminate. exists (Lit a b d). split; [reflexivity|]. apply dt_term.
        destruct (ostr_eq_dec _ _); [assumption|discriminate].
      * apply IH; [|exact J]. destruct x as [|[a|n|a b d]|k s]; cbn [bind] in H; try discriminate.
        destruct (ostr_eq_dec _ _); cbn [bind] in H; [exact H|discriminate].
    + intro H. destruct (H x (or_introl eq_refl)) as (t & -> & (a & b & ->)). cbn [bind]. destruct (ostr_eq_dec _ _); [|congruence]. apply IH.
      intros y J. apply H. now right.
Qed.
Lemma check_cls : forall w lv k, (check_objects w lv None None (Some k) = Ok true <->
  forall x, In x (lvals lv) -> exists c s, x = RRes c s /\ is_subclass w c k = true).
Proof.
  intros w lv kk. destruct lv as [x|xs]; cbn [check_objects lvals].
  - unfold check_one. cbn [ostr_truthy bind]. split.
    + intros H y [<-|[]]. destruct x as [|t|k s]; try discriminate. exists k, s. split; [reflexivity|]. now injection H.
    + intro H. destruct (H x (or_introl eq_refl)) as (k & s & -> & E). now rewrite E.
  - induction xs as [|x xs IH]; cbn [check_set]; [split; [intros _ x []|reflexivity]|]. cbn [ostr_truthy andb bind]. split.
    + intros H y [<-|J].
      * destruct x as [|t|k s]; try discriminate. exists k, s. split; [reflexivity|]. destruct (is_subclass w k kk); [reflexivity|discriminate].
      * apply IH; [|exact J]. destruct x as [|t|k s]; try discriminate. destruct (is_subclass w k kk); [exact H|discriminate].
    + intro H. destruct (H x (or_introl eq_refl)) as (k & s & -> & E). rewrite E. apply IH. intros y J. apply H. now right.
Qed.
Lemma check_falsy : forall w lv lang dt, ostr_truthy lang = false -> ostr_truthy dt = false ->
  (check_objects w lv lang dt None = Ok true <-> exists l, lv = LSet l).
Proof.
  intros w lv lang dt TL TD. destruct lv as [x|xs]; cbn [check_objects].
  - unfold check_one. rewrite TL, TD. cbn [bind]. split; [discriminate|intros (l & [=])].
  - split; [eauto|]. intros _. induction xs as [|x xs IH]; cbn [check_set]; [reflexivity|]. rewrite TL, TD. cbn [andb bind]. exact IH.
Qed.

(** ** what becomes of each value *)
Definition class_fit (w : world) (inst : nat -> term -> Prop) (kc : nat) (a : aval) : Prop :=
  match a with ARes c _ => In kc (c_mro (class_at w c)) | ATerm t => inst kc t | APy _ => False end.
Definition made (w w' : world) (inst : nat -> term -> Prop) (lang dt : option str) (a : aval) (v : rval) : Prop :=
  (forall t, one_value lang dt a t <-> rval_term v = Some t) /\
  (forall kc, written w kc -> ((exists c s, v = RRes c s /\ is_subclass w' c kc = true) <-> class_fit w inst kc a)) /\
  (forall c s, v = RRes c s -> valid w' c /\ node s) /\ v <> RNone.
Lemma is_subclass_spec : forall w c k, is_subclass w c k = true <-> In k (c_mro (class_at w c)).
Proof. intros w c k. unfold is_subclass. destruct (in_dec _ _ _); split; congruence. Qed.
Lemma is_subclass_extends : forall w w' c k, extends w w' -> valid w c -> is_subclass w' c k = is_subclass w c k.
Proof. intros w w' c k (_ & C & _) V. unfold is_subclass. now rewrite C. Qed.
Section Made.
  Variables (ord : list term -> list term) (g : graph) (tp0 : str) (lang dt : option str).
  Hypothesis SH : shuffle ord.
  Hypothesis W : wf g.
  Lemma objectify_made : forall w a w' v, winv w -> cached w -> key_means w 0 (s2l "rdf:type") tp0 -> usable w a ->
    objectify ord w g a lang dt = (w', Ok v) -> made w w' (instance w (g_triples g) tp0) lang dt a v.
  Proof.
    intros w a w' v I CA MT GV H. destruct (objectify_spec _ _ _ _ _ _ _ _ I SH H) as (G & OV & SP). split; [exact OV|].
    destruct (rdf_type_means _ _ _ I (i_zero _ I) MT) as [RT NT].
    assert (CLS : forall t, node t -> usable w (ATerm t) -> classify ord w 0 g t = (w', Ok v) ->
      (forall kc, written w kc -> ((exists c s, v = RRes c s /\ is_subclass w' c kc = true) <-> class_fit w (instance w (g_triples g) tp0) kc (ATerm t))) /\
      (forall c s, v = RRes c s -> valid w' c /\ node s) /\ v <> RNone).
    { intros t N GT E. destruct (classify_spec _ _ _ _ _ _ _ I SH (i_zero _ I) E) as (I' & X & RS & C & M).
      destruct v as [|t'|k s]; [destruct M|destruct M as (_ & M & _); contradiction|]. destruct M as (-> & _ & VK & M). split.
      - intros kc WK. cbn [class_fit]. rewrite <- (instance_types w g tp0 t kc W GT NT N), <- (M CA tp0 RT kc WK). split.
        + intros (c & s & [= <- <-] & S). now apply is_subclass_spec in S.
        + intro J. exists k, t. split; [reflexivity|]. now apply is_subclass_spec.
      - split; [intros c s [= <- <-]; auto|discriminate]. }
    destruct a as [t|c s|x]; cbn [objectify] in H.
    - destruct t as [x|n|x l d].
      + exact (CLS (Iri x) Logic.I GV H).
      + exact (CLS (BNode n) Logic.I GV H).
      + injection H as <- <-. split.
        * intros kc WK. split; [intros (c & s & [=] & _)|]. intros [[] _].
        * split; [intros c s [=]|discriminate].
    - injection H as <- <-. split.
      + intros kc WK. cbn [class_fit]. split.
        * intros (c' & s' & [= <- <-] & S). now apply is_subclass_spec in S.
        * intro J. exists c, s. split; [reflexivity|]. now apply is_subclass_spec.
      + split; [intros c' s' [= <- <-]; exact GV|discriminate].
    - destruct SP as (t & ->). split; [intros kc WK; split; [intros (c & s & [=] & _)|intros []]|split; [intros c s [=]|discriminate]].
  Qed.
  Lemma usable_extends : forall w w' a, extends w w' -> usable w a -> usable w' a.
  Proof. intros w w' [t|c s|v] X; cbn; auto. intros [A B]. split; [exact (extends_valid _ _ _ X A)|exact B]. Qed.
  Lemma made_later : forall w w' w2 inst a v, extends w' w2 -> made w w' inst lang dt a v -> made w w2 inst lang dt a v.
  Proof.
    intros w w' w2 inst a v X (A & B & C & D). split; [exact A|]. split; [|split; [|exact D]].
    - intros kc WK. rewrite <- (B kc WK). split; intros (c & s & E & S); exists c, s; (split; [exact E|]).
      + now rewrite <- (is_subclass_extends _ _ _ _ X (proj1 (C _ _ E))).
      + now rewrite (is_subclass_extends _ _ _ _ X (proj1 (C _ _ E))).
    - intros c s E. destruct (C _ _ E) as [C1 C2]. split; [exact (extends_valid _ _ _ X C1)|exact C2].
  Qed.
  Lemma made_earlier : forall w w1 w2 a v, winv w -> grows w w1 -> usable w a ->
    made w1 w2 (instance w1 (g_triples g) tp0) lang dt a v -> made w w2 (instance w (g_triples g) tp0) lang dt a v.
  Proof.
    intros w w1 w2 a v I (I1 & X & WR & _) GV (A & B & C). split; [exact A|]. split; [|exact C].
    intros kc WK. rewrite (B kc (WR _ WK)). destruct a as [t|c s|x]; cbn [class_fit]; [now apply instance_grows| |tauto].
    destruct X as (_ & XC & _). now rewrite (XC _ (proj1 GV)).
  Qed.
  Lemma objectify_all_made : forall l w w' vs, winv w -> cached w -> key_means w 0 (s2l "rdf:type") tp0 -> (forall a, In a l -> usable w a) ->
    objectify_all ord w g l lang dt = (w', Ok vs) -> Forall2 (made w w' (instance w (g_triples g) tp0) lang dt) l vs.
  Proof.
    induction l as [|a l IH]; intros w w' vs I CA MT GV H; cbn [objectify_all] in H; [inversion H; constructor|].
    destruct (objectify ord w g a lang dt) as [w1 [v|e]] eqn:E; [|discriminate].
    destruct (objectify_all ord w1 g l lang dt) as [w2 [xs|e]] eqn:E2; cbn [bind] in H; [|discriminate]. injection H as <- <-.
    destruct (objectify_spec _ _ _ _ _ _ _ _ I SH E) as (G1 & _). pose proof G1 as (I1 & X1 & WR1 & C1).
    destruct (objectify_all_spec _ _ _ _ _ _ _ _ I1 SH E2) as (G2 & _). pose proof G2 as (I2 & X2 & _).
    constructor.
    - eapply made_later; [exact X2|]. apply objectify_made; auto. apply GV. now left.
    - assert (F : Forall2 (made w1 w2 (instance w1 (g_triples g) tp0) lang dt) l xs).
      { apply IH; [exact I1|now apply C1|exact (key_extends _ _ _ _ _ X1 (i_zero _ I) MT)| |exact E2].
        intros b J. apply (usable_extends _ _ _ X1). apply GV. now right. }
      assert (GV' : forall b, In b l -> usable w b) by (intros b J; apply GV; now right).
      clear -F I G1 GV'. induction F as [|b v l xs M F IH]; constructor.
      + eapply made_earlier; [exact I|exact G1|apply GV'; now left|exact M].
      + apply IH. intros b' J. apply GV'. now right.
  Qed.
End Made.
Lemma literalize_made : forall ord g tp0 lang dt v w w' lv, shuffle ord -> wf g -> winv w -> cached w -> key_means w 0 (s2l "rdf:type") tp0 ->
  (forall a, In a (values v) -> usable w a) -> literalize ord w g v lang dt = (w', Ok lv) ->
  (forall x, In x (lvals lv) -> exists a, In a (values v) /\ made w w' (instance w (g_triples g) tp0) lang dt a x) /\
  (forall a, In a (values v) -> exists x, made w w' (instance w (g_triples g) tp0) lang dt a x).
Proof.
  intros ord g tp0 lang dt v w w' lv SH W I CA MT GV H. destruct v as [a|l]; cbn [literalize values] in *.
  - destruct (objectify ord w g a lang dt) as [w1 [x|e]] eqn:E; cbn [bind] in H; [|discriminate]. injection H as <- <-. cbn [lvals].
    assert (M : made w w1 (instance w (g_triples g) tp0) lang dt a x) by (eapply objectify_made; eauto; apply GV; now left).
    split; [intros y [<-|[]]; exists a; split; [now left|exact M]|intros b [<-|[]]; eauto].
  - destruct (objectify_all ord w g l lang dt) as [w1 [xs|e]] eqn:E; cbn [bind] in H; [|discriminate]. injection H as <- <-. cbn [lvals].
    pose proof (objectify_all_made ord g tp0 lang dt SH W _ _ _ _ I CA MT GV E) as F. split.
    + intros x J. apply dedup_sub in J. clear -F J. induction F as [|b v l xs M F IH]; [destruct J|].
      destruct J as [<-|J]; [exists b; split; [now left|exact M]|]. destruct (IH J) as (a & Ja & Ma). exists a. split; [now right|exact Ma].
    + intros a J. clear -F J. induction F as [|b v l xs M F IH]; [destruct J|].
      destruct J as [<-|J]; [eauto|auto].
Qed.

Lemma falsy_dec : forall f, falsy f \/ ~ falsy f.
Proof.
  intro f. unfold falsy. destruct f as [|l|d|k].
  - left. now left.
  - destruct l; [left; auto|right; intros [H|[H|[H|H]]]; discriminate].
  - destruct d as [|ch d]; [left; auto|]. destruct (str_eq_dec (ch :: d) (w3_xsd ++ s2l "string")) as [E|N]; [left; right; right; right; now rewrite E|].
    right. intros [H|[H|[H|H]]]; try discriminate. injection H. intros. apply N. congruence.
  - right. intros [H|[H|[H|H]]]; discriminate.
Qed.
Lemma falsy_filters : forall sc ln t f, falsy f <->
  (ostr_truthy (text_lang sc ln (KPair t f)) = false /\ ostr_truthy (text_type (KPair t f)) = false /\ class_key (KPair t f) = None).
Proof.
  intros sc ln t f. destruct f as [|l|d|k]; cbn [text_lang text_type class_key].
  - split; [auto|intros _; now left].
  - destruct l as [|ch l]; split; auto.
    + intros _. right. now left.
    + intros [H|[H|[H|H]]]; discriminate.
    + intros (H & _). discriminate.
  - destruct (str_eq_dec d (w3_xsd ++ s2l "string")) as [->|N].
    + split; [auto|]. intros _. right. right. now right.
    + split.
      * intros [H|[H|[H|H]]]; try discriminate; [injection H as ->; auto|congruence].
      * intros (_ & H & _). destruct d; [|discriminate]. right. right. now left.
  - split; [intros [H|[H|[H|H]]]; discriminate|intros (_ & _ & H); discriminate].
Qed.

Section Accept.
  Variables (ord : list term -> list term) (w : world) (c : nat) (g : graph) (s : term) (k : rkey) (p : str) (v : sval) (tp tp0 : str).
  Variables (w' : world) (g' : graph) (r : res unit).
  Hypothesis RG : reachable g.
  Hypothesis Hs : honoured (Some s).
  Hypothesis Hp : p <> [].
  Hypothesis M : key_means w c (key_text k) p.
  Hypothesis I : winv w.
  Hypothesis CA : cached w.
  Hypothesis SH : shuffle ord.
  Hypothesis V : valid w c.
  Hypothesis MT : key_means w c (s2l "rdf:type") tp.
  Hypothesis MT0 : key_means w 0 (s2l "rdf:type") tp0.
  Hypothesis HC : forall kc, class_key k = Some kc -> written w kc /\ ~ has (g_triples g) s p empty_iri.
  Hypothesis GV : forall a, In a (values v) -> usable w a.
  Hypothesis H : setitem ord w c g s k v = (w', g', r).
  Let lang := text_lang (in_scalars w c (Some p)) (lang_of w c) k.
  Let dt := text_type k.
  Let fit := value_fits w (instance w (g_iter g) tp0).
  Lemma set_only_if : r = Ok tt -> form_ok (scalar w c p) k v /\
    forall t f, k = KPair t f -> ~ falsy f -> forall o, new_value lang dt v o -> exists a, In a (values v) /\ one_value lang dt a o /\ fit f a o.
  Proof.
    intro R. destruct (set_spec _ _ _ _ _ _ _ _ _ _ _ tp RG Hs Hp M I CA SH V MT HC H) as (_ & _ & _ & w1 & x & EL & G1 & X).
    destruct x as [lv|e]; [|congruence]. destruct X as [X _]. specialize (X R).
    destruct (literalize_spec _ _ _ _ _ _ _ _ I SH EL) as (_ & NV & SHP).
    destruct (literalize_made ord g tp0 _ _ v w w1 lv SH (reachable_wf _ RG) I CA MT0 GV EL) as [MD _].
    clear H. subst lang dt fit. destruct k as [t|t f]; cbn [is_pair] in X.
    - split; [exact X|]. intros t' f [=].
    - destruct X as [CK TR]. split.
      + cbn [form_ok]. intro F. apply (falsy_filters (in_scalars w c (Some p)) (lang_of w c) t) in F. destruct F as (F1 & F2 & F3).
        rewrite F3 in *. apply (check_falsy _ _ _ _ F1 F2) in CK. destruct CK as (l & ->). split.
        * destruct (in_dec str_eq_dec p (c_scalars (class_at w c))) as [i|n]; [exact i|]. exfalso. exact (TR F1 n F2 eq_refl).
        * destruct v as [a|l']; [destruct SHP|eauto].
      + intros t' f' [= <- <-] NF o NO. apply NV in NO. apply lval_terms_in in NO. destruct NO as (x & Jx & Rx).
        destruct (MD x Jx) as (a & Ja & (M1 & M2 & _)). exists a. split; [exact Ja|]. split; [now apply M1|].
        destruct f as [|l|d|kc]; cbn [text_lang text_type class_key value_fits] in *.
        * exfalso. apply NF. now left.
        * destruct l as [|ch l]; [exfalso; apply NF; right; now left|].
          destruct (proj1 (check_lang _ _ (ch :: l) ltac:(discriminate)) CK x Jx) as (t' & -> & L). cbn in Rx. injection Rx as <-. exact L.
        * destruct (str_eq_dec d (w3_xsd ++ s2l "string")) as [->|N]; [exfalso; apply NF; right; right; now right|].
          destruct d as [|ch d]; [exfalso; apply NF; right; right; now left|].
          destruct (proj1 (check_dt _ _ (ch :: d) ltac:(discriminate)) CK x Jx) as (t' & -> & L). cbn in Rx. injection Rx as <-. exact L.
        * destruct (HC kc eq_refl) as [WK _]. pose proof (proj1 (check_cls _ _ _) CK x Jx) as Y. exact (proj1 (M2 kc WK) Y).
  Qed.
  Lemma set_if : sane_literals (g_iter g) -> (forall a, In a (values v) -> a <> APy VOther) -> form_ok (scalar w c p) k v ->
    (forall t f, k = KPair t f -> ~ falsy f -> forall a o, In a (values v) -> one_value lang dt a o -> fit f a o) ->
    r = Ok tt \/ (r = Err TypeError /\ (class_key k <> None \/ exists t, In (ATerm t) (values v) /\ node t)).
  Proof.
    intros SN NO FO FT. destruct (set_spec _ _ _ _ _ _ _ _ _ _ _ tp RG Hs Hp M I CA SH V MT HC H) as (_ & _ & NK & w1 & x & EL & G1 & X).
    specialize (NK SN NO). destruct x as [lv|e].
    2:{ right. subst r. clear -EL I SH NK. unfold literalize in EL. destruct v as [a|l].
        - destruct (objectify ord w g a _ _) as [w2 x] eqn:E. destruct (objectify_spec _ _ _ _ _ _ _ _ I SH E) as (_ & M & _).
          destruct x; cbn [bind] in EL; [discriminate|]. injection EL as -> ->. destruct M as [[-> _]|(-> & t & -> & N)]; [congruence|].
          split; [reflexivity|]. right. exists t. split; [now left|exact N].
        - destruct (objectify_all ord w g l _ _) as [w2 x] eqn:E. destruct (objectify_all_spec _ _ _ _ _ _ _ _ I SH E) as (_ & M).
          destruct x; cbn [bind] in EL; [discriminate|]. injection EL as -> ->. destruct M as [[-> _]|(-> & t & J & N)]; [congruence|].
          split; [reflexivity|]. right. exists t. split; [exact J|exact N]. }
    destruct X as [_ X]. destruct (literalize_spec _ _ _ _ _ _ _ _ I SH EL) as (_ & NV & SHP).
    destruct (literalize_made ord g tp0 _ _ v w w1 lv SH (reachable_wf _ RG) I CA MT0 GV EL) as [MD _].
    assert (Y : r = Ok tt \/ class_key k <> None /\ r = Err TypeError); [|destruct Y as [Y|[Y1 Y2]]; [now left|right; split; [exact Y2|now left]]].
    apply (X SN). clear X H NK. subst lang dt fit. destruct k as [t|t f]; cbn [is_pair form_ok] in *; [exact FO|].
    destruct (falsy_dec f) as [F|NF].
    - destruct (FO F) as [SC (l & ->)]. apply (falsy_filters (in_scalars w c (Some p)) (lang_of w c) t) in F. destruct F as (F1 & F2 & F3).
      rewrite F3. split; [|intros _ N; contradiction]. apply (check_falsy _ _ _ _ F1 F2). destruct lv as [x|l']; [destruct SHP|eauto].
    - split; [|intros A _ B; intro C; apply NF; now apply (falsy_filters (in_scalars w c (Some p)) (lang_of w c) t)].
      specialize (FT t f eq_refl NF).
      destruct f as [|l|d|kc]; cbn [text_lang text_type class_key value_fits] in *.
      + exfalso. apply NF. now left.
      + destruct l as [|ch l]; [exfalso; apply NF; right; now left|]. apply check_lang; [discriminate|]. intros x J.
        destruct (MD x J) as (a & Ja & (M1 & _ & M3 & M4)). destruct x as [|t'|c' s']; [congruence|exists t'; split; [reflexivity|]; apply (FT a); [exact Ja|now apply M1]|].
        exfalso. apply (lit_not_node (ch :: l) s'); [apply (FT a); [exact Ja|now apply M1]|exact (proj2 (M3 _ _ eq_refl))].
      + destruct (str_eq_dec d (w3_xsd ++ s2l "string")) as [->|N]; [exfalso; apply NF; right; right; now right|].
        destruct d as [|ch d]; [exfalso; apply NF; right; right; now left|]. apply check_dt; [discriminate|]. intros x J.
        destruct (MD x J) as (a & Ja & (M1 & _ & M3 & M4)). destruct x as [|t'|c' s']; [congruence|exists t'; split; [reflexivity|]; apply (FT a); [exact Ja|now apply M1]|].
        exfalso. apply (typed_not_node (ch :: d) s'); [apply (FT a); [exact Ja|now apply M1]|exact (proj2 (M3 _ _ eq_refl))].
      + destruct (HC kc eq_refl) as [WK _]. apply check_cls. intros x J. destruct (MD x J) as (a & Ja & (M1 & M2 & M3 & M4)). apply (M2 kc WK).
        assert (O : exists o, one_value None None a o).
        { destruct x as [|t'|c' s']; [congruence|exists t'; now apply M1|exists s'; now apply M1]. }
        destruct O as (o & O). exact (FT a o Ja O).
  Qed.
End Accept.
