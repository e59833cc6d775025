(** The method resolution order: it exists iff the orders of the bases can be
    reconciled. *)
From Coq Require Import Permutation.
From Verif Require Import Model.Py Model.Terms Model.Graph Model.GraphRun Model.Codec Model.Curie Model.Resource Model.ResourceRun
  Spec.GraphSpec Spec.CurieSpec Spec.ResourceSpec Spec.MroSpec
  Proofs.DictLemmas Proofs.GraphInv Proofs.GraphHist Proofs.CurieLemmas Proofs.CurieMore Proofs.LangLemmas Proofs.ResourceLemmas
  Proofs.ClassLemmas Proofs.ResourceRead Proofs.ResourceMore.
Local Open Scope nat_scope.

Lemma before_cons : forall x l a b, before (x :: l) a b <-> (x = a /\ In b l) \/ before l a b.
Proof.
  intros x l a b. split.
  - intros ([|y l1] & l2 & l3 & E); injection E as -> ->; [left; split; [reflexivity|apply in_elt]|right; now exists l1, l2, l3].
  - intros [[-> J]|(l1 & l2 & l3 & ->)]; [|now exists (x :: l1), l2, l3].
    apply in_split in J. destruct J as (l2 & l3 & ->). now exists [], l2, l3.
Qed.
Lemma before_nil : forall a b, ~ before [] a b.
Proof. intros a b ([|x l1] & l2 & l3 & E); discriminate. Qed.
Lemma before_in : forall l a b, before l a b -> In a l /\ In b l.
Proof. intros l a b (l1 & l2 & l3 & ->). split; [apply in_elt|]. rewrite in_app_iff. right. right. apply in_elt. Qed.
Lemma before_split : forall l1 x l2 y, NoDup (l1 ++ x :: l2) -> before (l1 ++ x :: l2) y x -> In y l1.
Proof.
  induction l1 as [|z l1 IH]; intros x l2 y ND B; cbn [app] in *; apply before_cons in B; inversion ND as [|? ? N ND']; subst.
  - destruct B as [[-> J]|B]; [contradiction|]. apply before_in in B. tauto.
  - destruct B as [[-> J]|B]; [now left|right; eauto].
Qed.
Lemma before_irr : forall l a, NoDup l -> ~ before l a a.
Proof.
  induction l as [|x l IH]; intros a ND B; [now apply before_nil in B|]. inversion ND as [|? ? N ND']; subst.
  apply before_cons in B. destruct B as [[-> J]|B]; [contradiction|]. now apply IH in B.
Qed.
Lemma agrees_nodup : forall s L, NoDup L -> agrees s L -> NoDup s.
Proof.
  induction s as [|x s IH]; intros L ND [A B]; constructor.
  - intro J. apply (before_irr L x ND). apply B. apply before_cons. now left.
  - apply (IH L ND). split; [intros k J; apply A; now right|]. intros a b C. apply B. apply before_cons. now right.
Qed.
Lemma agrees_tl : forall x s L, agrees (x :: s) L -> agrees s L.
Proof. intros x s L [A B]. split; [intros k J; apply A; now right|]. intros a b C. apply B. apply before_cons. now right. Qed.
Lemma agrees_drop : forall h s L, agrees s L -> agrees (drop_head h s) L.
Proof. intros h [|x s] L A; cbn [drop_head]; [exact A|]. destruct (Nat.eqb x h); [now apply agrees_tl in A|exact A]. Qed.
Lemma agrees_refl : forall s, agrees s s.
Proof. intros s. split; auto. Qed.

(** ** what is returned agrees with all the lists *)
Lemma c3_good_spec : forall seqs h, c3_good seqs h = true <-> forall s, In s seqs -> ~ In h (tl s).
Proof.
  intros seqs h. unfold c3_good. rewrite forallb_forall. split; intros H s J; specialize (H s J); destruct (in_dec Nat.eq_dec h (tl s)); cbn in *; congruence.
Qed.
Lemma c3_pick_good : forall seqs all h, c3_pick seqs all = Some h -> c3_good all h = true.
Proof.
  induction seqs as [|[|x s] seqs IH]; intros all h H; cbn [c3_pick] in H; [discriminate|eauto|].
  destruct (c3_good all x) eqn:G; [injection H as <-; exact G|eauto].
Qed.
Lemma c3_merge_agrees : forall fuel seqs l, c3_merge fuel seqs = Some l -> NoDup l /\ forall s, In s seqs -> agrees s l.
Proof.
  induction fuel as [|fuel IH]; intros seqs l H; cbn [c3_merge] in H; [discriminate|].
  destruct (forallb _ seqs) eqn:F.
  - injection H as <-. split; [constructor|]. intros s J. rewrite forallb_forall in F. specialize (F s J). destruct s; [apply agrees_refl|discriminate].
  - destruct (c3_pick seqs seqs) as [h|] eqn:P; [|discriminate]. fold (drop_head h) in H.
    destruct (c3_merge fuel (map (drop_head h) seqs)) as [l'|] eqn:M; [|discriminate]. cbn in H. injection H as <-.
    destruct (IH _ _ M) as [ND AG]. pose proof (c3_merge_elems _ _ _ M) as EL.
    pose proof (proj1 (c3_good_spec _ _) (c3_pick_good _ _ _ P)) as GO. split.
    + constructor; [|exact ND]. rewrite EL, in_concat. intros (s & J & K). apply in_map_iff in J. destruct J as (u & <- & J).
      specialize (GO u J). destruct u as [|x u]; cbn [drop_head tl] in *; [destruct K|].
      destruct (Nat.eqb_spec x h) as [->|N]; [contradiction|]. destruct K as [K|K]; contradiction.
    + intros s J. pose proof (AG (drop_head h s) (in_map _ _ _ J)) as [A B]. specialize (GO s J).
      destruct s as [|x s]; [split; [intros k []|intros a b C; now apply before_nil in C]|]. cbn [drop_head tl] in *.
      destruct (Nat.eqb_spec x h) as [->|N].
      * split; [intros k [->|K]; [now left|right; auto]|]. intros a b C. apply before_cons in C. apply before_cons.
        destruct C as [[-> C]|C]; [left; auto|right; auto].
      * split; [intros k K; right; auto|]. intros a b C. apply before_cons. right. auto.
Qed.

(** ** it is found whenever there is one *)
Lemma c3_pick_some : forall seqs all h t, In (h :: t) seqs -> c3_good all h = true -> c3_pick seqs all <> None.
Proof.
  induction seqs as [|[|x s] seqs IH]; intros all h t J G; cbn [c3_pick]; [destruct J| |].
  - destruct J as [J|J]; [discriminate|eauto].
  - destruct (c3_good all x) eqn:E; [discriminate|]. destruct J as [J|J]; [injection J as -> ->; congruence|eauto].
Qed.
Lemma first_of : forall (P : nat -> Prop), (forall x, {P x} + {~ P x}) -> forall L x, In x L -> P x ->
  exists l1 y l2, L = l1 ++ y :: l2 /\ P y /\ forall z, In z l1 -> ~ P z.
Proof.
  intros P D. induction L as [|a L IH]; intros x J Px; [destruct J|]. destruct (D a) as [Y|N].
  - exists [], a, L. split; [reflexivity|]. split; [exact Y|intros z []].
  - destruct J as [->|J]; [contradiction|]. destruct (IH x J Px) as (l1 & y & l2 & -> & Y & Z). exists (a :: l1), y, l2.
    split; [reflexivity|]. split; [exact Y|]. intros z [<-|K]; [exact N|auto].
Qed.
Lemma c3_merge_some : forall fuel seqs L, length (concat seqs) < fuel -> NoDup L -> (forall s, In s seqs -> agrees s L) -> c3_merge fuel seqs <> None.
Proof.
  induction fuel as [|fuel IH]; intros seqs L HF ND AG; [lia|]. cbn [c3_merge]. destruct (forallb _ seqs) eqn:F; [discriminate|].
  assert (X : exists x, In x (concat seqs)).
  { destruct (concat seqs) as [|x r] eqn:C; [|exists x; now left]. exfalso.
    assert (K : forallb (fun s : list nat => match s with [] => true | _ => false end) seqs = true); [|congruence].
    apply forallb_forall. intros [|y s] J; [reflexivity|]. assert (Y : In y (concat seqs)) by (apply in_concat; exists (y :: s); split; [exact J|now left]).
    rewrite C in Y. destruct Y. }
  assert (P : c3_pick seqs seqs <> None).
  { destruct X as (x & X). assert (XL : In x L) by (apply in_concat in X; destruct X as (s & J & K); now apply (AG s J)).
    destruct (first_of (fun y => In y (concat seqs)) (fun y => in_dec Nat.eq_dec y _) L x XL X) as (l1 & y & l2 & -> & Y & Z).
    assert (HD : forall s, In s seqs -> ~ In y (tl s)).
    { intros s J K. destruct s as [|z s]; [destruct K|]. cbn [tl] in K. apply (Z z).
      - apply (before_split l1 y l2 z ND). apply (proj2 (AG _ J)). apply before_cons. now left.
      - apply in_concat. exists (z :: s). split; [exact J|now left]. }
    apply in_concat in Y. destruct Y as ([|z s] & J & K); [destruct K|]. destruct K as [->|K]; [|exfalso; exact (HD _ J K)].
    apply (c3_pick_some _ _ y s J). now apply c3_good_spec. }
  destruct (c3_pick seqs seqs) as [h|] eqn:E; [|congruence]. fold (drop_head h). destruct (c3_pick_in _ _ _ E) as (t & J).
  pose proof (length_drop_lt _ _ _ J). assert (N : c3_merge fuel (map (drop_head h) seqs) <> None).
  { apply (IH _ L); [lia|exact ND|]. intros s K. apply in_map_iff in K. destruct K as (u & <- & K). apply agrees_drop. auto. }
  destruct (c3_merge fuel _); [discriminate|congruence].
Qed.
Lemma nodup_length : forall l, length (nodup Nat.eq_dec l) = length l <-> NoDup l.
Proof.
  intro l. split; [|intro H; now rewrite (nodup_fixed_point Nat.eq_dec H)].
  assert (LE : forall l, length (nodup Nat.eq_dec l) <= length l).
  { induction l0 as [|x l0 IH]; cbn [nodup length]; [lia|]. destruct (in_dec _ _ _); cbn [length]; lia. }
  induction l as [|x l IH]; cbn [nodup length]; [constructor|]. pose proof (LE l). destruct (in_dec _ _ _) as [J|J]; cbn [length]; intro E; [lia|].
  constructor; [exact J|apply IH; lia].
Qed.
Lemma mro_order : forall w me bases l, mro_of w me bases = Some l -> exists L, l = me :: L /\ linear w bases L.
Proof.
  intros w me bases l H. unfold mro_of in H. destruct (_ =? _) eqn:E; [|discriminate].
  destruct (c3_merge _ _) as [L|] eqn:M; [|discriminate]. cbn in H. injection H as <-. exists L. split; [reflexivity|].
  destruct (c3_merge_agrees _ _ _ M) as [ND AG]. split; [exact ND|]. split.
  - apply AG. apply in_or_app. right. now left.
  - intros b J. apply AG. apply in_or_app. left. apply in_map_iff. eauto.
Qed.
Lemma mro_none : forall w me bases, mro_of w me bases = None <-> ~ exists L, linear w bases L.
Proof.
  intros w me bases. split.
  - intros H (L & ND & A & B). unfold mro_of in H. apply (agrees_nodup _ _ ND) in A as NB. apply nodup_length in NB. rewrite NB, Nat.eqb_refl in H.
    match type of H with option_map _ ?m = None => assert (N : m <> None) end.
    { apply (c3_merge_some _ _ L); [lia|exact ND|]. intros s J. apply in_app_iff in J. destruct J as [J|[<-|[]]]; [|exact A].
      apply in_map_iff in J. destruct J as (b & <- & J). auto. }
    destruct (c3_merge _ _); [discriminate|congruence].
  - intro N. destruct (mro_of w me bases) as [l|] eqn:E; [|reflexivity]. destruct (mro_order _ _ _ _ E) as (L & _ & X). exfalso. eauto.
Qed.

(** ** class statements *)
Lemma parse_scalars_iff : forall ss m, (exists xs, parse_scalars ss m = Ok xs) <-> forall a, In a ss -> exists p, curie_means schemes m a p.
Proof.
  induction ss as [|a ss IH]; intro m; cbn [parse_scalars].
  - split; [intros _ a []|eauto].
  - split.
    + intros (xs & H) b J. destruct (parse_curie a m) as [y|e] eqn:E; [|discriminate]. cbn [bind] in H.
      destruct (parse_scalars ss m) as [ys|e] eqn:E2; [|discriminate]. destruct J as [<-|J]; [exists y; now apply parse_curie_ok|].
      apply (proj1 (IH m)); eauto.
    + intro H. destruct (H a (or_introl eq_refl)) as (p & P). apply parse_curie_ok in P. rewrite P. cbn [bind].
      destruct (proj2 (IH m)) as (xs & ->); [intros b J; apply H; now right|]. cbn. eauto.
Qed.
Lemma parse_scalars_err : forall ss m e, parse_scalars ss m = Err e -> e = IndexError \/ e = ValueError.
Proof.
  induction ss as [|a ss IH]; intros m e H; cbn [parse_scalars] in H; [discriminate|].
  destruct (parse_curie a m) as [y|e'] eqn:E; cbn [bind] in H.
  - destruct (parse_scalars ss m) as [ys|e'] eqn:E2; [discriminate|]. injection H as <-. eauto.
  - injection H as <-. apply parse_curie_err in E. destruct E as [[_ ->]|(_ & -> & _)]; auto.
Qed.
(** the meaning of a CURIE depends on the bindings only *)
Lemma unbound_lookup : forall m k, unbound m k <-> forall v, ~ lookup m k v.
Proof.
  intros m k. rewrite <- sget_unbound. split.
  - intros E v L. apply sget_lookup in L. congruence.
  - intro N. destruct (sget m k) as [v|] eqn:E; [|reflexivity]. exfalso. apply (N v). now apply sget_lookup.
Qed.
Lemma means_ext : forall m m' c iri, (forall k v, lookup m k v <-> lookup m' k v) -> curie_means schemes m c iri -> curie_means schemes m' c iri.
Proof.
  intros m m' c iri L H.
  assert (U : forall k, unbound m k -> unbound m' k) by (intros k X; rewrite unbound_lookup in *; intros v Y; apply (X v); now apply L).
  assert (B : forall b, body_means m b iri -> body_means m' b iri).
  { intros b [p ns S K E|p r ns S D K E].
    - apply (MeansDefault _ _ _ p ns); auto. now apply L.
    - apply (MeansPrefix _ _ _ p r ns); auto; [destruct D; auto|now apply L]. }
  destruct H as [inner X Y|p r X Y Z W V|p r X Y Z W V].
  - apply (MeansBracketed _ _ _ _ inner); auto.
  - now apply (MeansAbsolute _ _ _ _ p r).
  - apply (MeansPlain _ _ _ _ p r); auto.
Qed.
Lemma class_bindings : forall early w bases own, wreach_if early w -> NoDup (map fst own) ->
  forall k v, lookup (dupdate str_eq_dec (base_prefixes w bases) own) k v <-> inherits w bases own k v.
Proof.
  intros early w bases own WR ND k v. pose proof (wreach_tidy _ _ WR) as T.
  rewrite <- sget_lookup, (dupdate_get str_eq_dec _ _ _ ND). destruct (sget own k) as [x|] eqn:E.
  - split; [intros [= ->]; apply from_body; now apply sget_lookup|]. intros [L|b1 b b2 U _ _ _]; [apply sget_lookup in L; congruence|].
    apply sget_unbound in U. congruence.
  - unfold base_prefixes. rewrite (base_lookup w T bases [] k v). split.
    + intros [(b1 & b & b2 & EQ & A & B)|[A _]]; [|discriminate A].
      apply (from_base _ _ _ _ _ b1 b b2); [now apply sget_unbound|exact EQ|now apply sget_lookup|]. intros b' J. apply sget_unbound. now apply B.
    + intros [L|b1 b b2 U EQ A B]; [apply sget_lookup in L; congruence|]. left. exists b1, b, b2. split; [exact EQ|]. split; [now apply sget_lookup|].
      intros b' J. apply sget_unbound. now apply B.
Qed.
Lemma class_cases : forall early w name bases own scalars lang rdfs D, wreach_if early w -> NoDup (map fst own) ->
  (forall k v, lookup D k v <-> inherits w bases own k v) ->
  let curies := forall a, In a scalars -> exists p, curie_means schemes D a p in
  (curies -> (exists L, linear w bases L) -> exists w', make_class w name bases own scalars lang rdfs = (w', Ok (length (w_classes w)))) /\
  (curies -> ~ (exists L, linear w bases L) -> make_class w name bases own scalars lang rdfs = (w, Err TypeError)) /\
  (~ curies -> exists e, make_class w name bases own scalars lang rdfs = (w, Err e) /\ (e = IndexError \/ e = ValueError)).
Proof.
  intros early w name bases own scalars lang rdfs D WR ND HD curies.
  assert (C : curies <-> exists xs, parse_scalars scalars (dupdate str_eq_dec (base_prefixes w bases) own) = Ok xs).
  { rewrite parse_scalars_iff. unfold curies. split; intros H a J; destruct (H a J) as (p & P); exists p; revert P; apply means_ext;
      intros k v; rewrite HD, (class_bindings _ _ _ _ WR ND); reflexivity. }
  unfold make_class. cbv zeta. split; [|split].
  - intros X Y. apply C in X. destruct X as (xs & ->). destruct (mro_of w _ bases) as [l|] eqn:M; [eauto|]. apply mro_none in M. contradiction.
  - intros X Y. apply C in X. destruct X as (xs & ->). apply (mro_none w (length (w_classes w))) in Y. rewrite Y. reflexivity.
  - intro X. destruct (parse_scalars _ _) as [xs|e] eqn:P; [exfalso; apply X, C; eauto|]. exists e. split; [reflexivity|]. now apply parse_scalars_err in P.
Qed.
Lemma class_order : forall w name bases own scalars lang rdfs w' me, winv w -> Forall (valid w) bases ->
  make_class w name bases own scalars lang rdfs = (w', Ok me) ->
  ~ valid w me /\ valid w' me /\ exists L, c_mro (class_at w' me) = me :: L /\ linear w bases L /\
    (forall k, In k L <-> exists b, In b bases /\ In k (c_mro (class_at w b))).
Proof.
  intros w name bases own scalars lang rdfs w' me I VB H. apply make_class_spec in H. destruct H as (-> & c & -> & _ & _ & _ & _ & M).
  split; [unfold valid; lia|]. split; [apply valid_new; now right|]. rewrite class_at_new.
  destruct (mro_order _ _ _ _ M) as (L & E & X). exists L. split; [exact E|]. split; [exact X|]. rewrite Forall_forall in VB.
  intro k. pose proof (mro_elems _ _ _ _ M k) as Q. rewrite E in Q. cbn [In] in Q. split.
  - intro J. destruct (proj1 Q (or_intror J)) as [->|[B|B]]; [|exists k; split; [exact B|apply (i_self _ I); auto]|exact B].
    exfalso. destruct X as (NDL & AB & AM). unfold mro_of in M. destruct (_ =? _); [|discriminate].
    destruct (c3_merge _ _) as [l'|] eqn:MM; [|discriminate]. cbn in M. injection M as M. rewrite E in M. injection M as ->.
    apply (c3_merge_elems _ _ _ MM) in J. rewrite concat_app, in_app_iff in J. cbn [concat] in J. rewrite app_nil_r in J. destruct J as [J|J].
    + apply in_concat in J. destruct J as (s & J & K). apply in_map_iff in J. destruct J as (b & <- & J). pose proof (i_below _ I _ _ (VB _ J) K) as V. unfold valid in V. lia.
    + specialize (VB _ J). unfold valid in VB. lia.
  - intros (b & J & K). apply X in J as A. apply (proj1 A). exact K.
Qed.
Lemma agrees_same : forall s L, NoDup L -> agrees s L -> (forall k, In k L -> In k s) -> L = s.
Proof.
  induction s as [|x s IH]; intros L ND A E.
  - destruct L as [|y L]; [reflexivity|]. destruct (E y (or_introl eq_refl)).
  - pose proof (agrees_nodup _ _ ND A) as NS. destruct L as [|y L]; [destruct (proj1 A x (or_introl eq_refl))|].
    inversion ND as [|? ? NY ND']; subst. inversion NS as [|? ? NX NS']; subst.
    assert (x = y).
    { destruct (E y (or_introl eq_refl)) as [|J]; [assumption|]. exfalso.
      assert (B : before (y :: L) x y) by (apply (proj2 A); apply before_cons; now left). apply before_cons in B.
      destruct B as [[-> B]|B]; [contradiction|]. apply before_in in B. tauto. }
    subst y. f_equal. apply IH; [exact ND'| |].
    + destruct A as [A1 A2]. split.
      * intros k J. destruct (A1 k (or_intror J)) as [->|K]; [contradiction|exact K].
      * intros a b B. assert (C : before (x :: L) a b) by (apply A2; apply before_cons; now right). apply before_cons in C.
        destruct C as [[-> _]|C]; [apply before_in in B; tauto|exact C].
    + intros k J. destruct (E k (or_intror J)) as [->|K]; [contradiction|exact K].
Qed.
Lemma class_one_base : forall w name b own scalars lang rdfs w' me, winv w -> valid w b ->
  make_class w name [b] own scalars lang rdfs = (w', Ok me) ->
  c_mro (class_at w' me) = me :: c_mro (class_at w b) /\
  lang_of w' me = (match lang with Some l => l | None => lang_of w b end) /\
  rdf_classes_of w' me = (match rdfs with Some l => l | None => rdf_classes_of w b end).
Proof.
  intros w name b own scalars lang rdfs w' me I V H. assert (VB : Forall (valid w) [b]) by (repeat constructor; exact V).
  destruct (class_order _ _ _ _ _ _ _ _ _ I VB H) as (NV & _ & L & E & (ND & _ & AG) & EL).
  assert (L = c_mro (class_at w b)) as ->.
  { apply agrees_same; [exact ND|apply AG; now left|]. intros k J. apply EL in J. destruct J as (b' & [<-|[]] & J). exact J. }
  split; [exact E|]. pose proof (make_class_extends _ _ _ _ _ _ _ _ _ H) as (_ & OLD & _).
  apply make_class_spec in H. destruct H as (-> & c & -> & _ & _ & Hl & Hr & _).
  assert (OV : forall j, In j (c_mro (class_at w b)) -> class_at (mkW (w_classes w ++ [c]) (w_reg w) (w_gp w) (w_gt w)) j = class_at w j).
  { intros j J. apply OLD. exact (i_below _ I _ _ V J). }
  unfold lang_of, rdf_classes_of. rewrite E. cbn [map]. rewrite class_at_new, Hl, Hr.
  rewrite (map_ext_in _ (fun b => c_lang (class_at w b)) (c_mro (class_at w b))) by (intros j J; now rewrite OV).
  rewrite (map_ext_in _ (fun b => c_rdf (class_at w b)) (c_mro (class_at w b))) by (intros j J; now rewrite OV).
  cbn [first_some]. split; [destruct lang|destruct rdfs]; reflexivity.
Qed.

(** ** classify *)
Lemma found_classes : forall w ts, NoDup ts ->
  exists us, NoDup us /\ (forall u, In u us <-> In (Iri u) ts /\ exists k, registered w u k) /\ Forall2 (registered w) us (found w ts).
Proof.
  intros w. induction ts as [|t ts IH]; intro ND.
  - exists []. split; [constructor|]. split; [|constructor]. intro u. cbn [In]. tauto.
  - inversion ND as [|? ? N ND']; subst. destruct (IH ND') as (us & NU & EU & FU).
    unfold found in *. cbn [flat_map]. destruct (reg_type (w_reg w) t) as [k|] eqn:E.
    + apply reg_type_registered in E. destruct E as (iri & -> & E). exists (iri :: us). split; [|split; [|constructor; assumption]].
      * constructor; [|exact NU]. intro J. apply EU in J. tauto.
      * intro u. cbn [In]. rewrite EU. split.
        -- intros [->|[A B]]; [split; [now left|eauto]|auto].
        -- intros [[[= ->]|A] B]; [now left|auto].
    + exists us. split; [exact NU|]. split; [|exact FU]. intro u. cbn [In]. rewrite EU. split; [tauto|].
      intros [[->|A] (k & B)]; [|split; eauto]. exfalso. assert (reg_type (w_reg w) (Iri u) = Some k) by (apply reg_type_registered; eauto). congruence.
Qed.
Lemma found_of : forall ord w g tp o, wf g -> honoured (Some o) -> tp <> [] -> shuffle ord -> classes_of w (g_iter g) tp o (found w (ord (node_types g tp o))).
Proof.
  intros ord w g tp o W Ho NT SH. destruct (found_classes w (ord (node_types g tp o))) as (us & A & B & C).
  { eapply Permutation_NoDup; [apply Permutation_sym, SH|apply NoDup_nodup]. }
  exists us. split; [exact A|]. split; [|exact C]. intro u. rewrite B. unfold has_type. rewrite <- (types_has g tp o (Iri u) W Ho NT).
  split; intros [X Y]; (split; [|exact Y]); (eapply Permutation_in; [|exact X]); [apply SH|apply Permutation_sym, SH].
Qed.
Lemma classify_refuses : forall early ord w c g o tp w' e, reachable g -> wreach_if early w -> shuffle ord -> valid w c ->
  key_means w c (s2l "rdf:type") tp -> node o -> honoured (Some o) -> classify ord w c g o = (w', Err e) ->
  w' = w /\ e = TypeError /\ exists ks, classes_of w (g_iter g) tp o ks /\ ~ exists L, linear w ks L.
Proof.
  intros early ord w c g o tp w' e RG WR SH V MT N Ho H. pose proof (reachable_wf _ RG) as W. pose proof (wreach_if_inv _ _ WR) as I.
  destruct (rdf_type_means _ _ _ I V MT) as [RT NT]. rewrite (classify_unfold _ _ _ _ _ _ RT N) in H.
  pose proof (found_of ord w g tp o W Ho NT SH) as CO. set (ks := found w (ord (node_types g tp o))) in *. clearbody ks.
  assert (K : match reg_types (w_reg w) (node_types g tp o) with
            | Some k => (w, Ok (RRes k o))
            | None => match make_class w (concat (map (fun k => c_name (class_at w k)) ks)) ks [] [] None (Some (node_types g tp o)) with
                      | (w1, Ok k) => (set_reg w1 (KTypes (node_types g tp o)) k, Ok (RRes k o))
                      | (w1, Err e) => (w1, Err e)
                      end
            end = (w', Err e)) by (destruct ks as [|k1 [|k2 ks]]; [discriminate|discriminate|exact H]).
  destruct (reg_types _ _); [discriminate|]. unfold make_class in K. cbn [parse_scalars] in K.
  destruct (mro_of w (length (w_classes w)) ks) as [l|] eqn:M; [discriminate|]. injection K as <- <-.
  split; [reflexivity|]. split; [reflexivity|]. exists ks. split; [exact CO|]. now apply mro_none in M.
Qed.
Lemma no_cached_types : forall r ts, (forall us k, ~ In (KTypes us, k) r) -> reg_types r ts = None.
Proof.
  induction r as [|[[s|us] k] r IH]; intros ts N; cbn [reg_types]; [reflexivity| |].
  - apply IH. intros us k' J. apply (N us k'). now right.
  - exfalso. apply (N us k). now left.
Qed.
Lemma classify_must_refuse : forall early ord w c g o tp t t' k, reachable g -> wreach_if early w -> no_cached w -> shuffle ord -> valid w c ->
  key_means w c (s2l "rdf:type") tp -> node o -> honoured (Some o) ->
  has_type (g_iter g) tp o t -> has_type (g_iter g) tp o t' -> t <> t' -> registered w t k -> registered w t' k ->
  classify ord w c g o = (w, Err TypeError).
Proof.
  intros early ord w c g o tp t t' k RG WR NC SH V MT N Ho T T' NE R R'. pose proof (reachable_wf _ RG) as W. pose proof (wreach_if_inv _ _ WR) as I.
  destruct (rdf_type_means _ _ _ I V MT) as [RT NT]. rewrite (classify_unfold _ _ _ _ _ _ RT N), (no_cached_types _ _ NC).
  destruct (found_of ord w g tp o W Ho NT SH) as (us & NU & EU & FU). set (ks := found w (ord (node_types g tp o))) in *. clearbody ks.
  assert (D : ~ NoDup ks).
  { assert (A : In t us) by (apply EU; eauto). assert (B : In t' us) by (apply EU; eauto). clear EU. revert A B. induction FU as [|u q us ks U FU IH]; intros A B; [destruct A|].
    assert (FUN : forall x q1 q2, registered w x q1 -> registered w x q2 -> q1 = q2).
    { intros x q1 q2 X Y. assert (E1 : reg_type (w_reg w) (Iri x) = Some q1) by (apply reg_type_registered; eauto).
      assert (E2 : reg_type (w_reg w) (Iri x) = Some q2) by (apply reg_type_registered; eauto). congruence. }
    assert (IN : forall x, In x us -> registered w x k -> In k ks).
    { clear - FU FUN. induction FU as [|u q us ks U FU IH]; intros x J X; [destruct J|]. destruct J as [->|J]; [left; eauto|right; eauto]. }
    inversion NU as [|? ? N1 N2]; subst. intro ND. inversion ND as [|? ? N3 N4]; subst.
    destruct A as [->|A], B as [->|B]; [congruence| | |exact (IH N2 A B N4)].
    - rewrite (FUN _ _ _ U R) in N3. exact (N3 (IN _ B R')).
    - rewrite (FUN _ _ _ U R') in N3. exact (N3 (IN _ A R)). }
  assert (M : mro_of w (length (w_classes w)) ks = None).
  { apply mro_none. intros (L & ND & A & _). exact (D (agrees_nodup _ _ ND A)). }
  destruct ks as [|k1 [|k2 ks]]; [exfalso; apply D; constructor|exfalso; apply D; repeat constructor; intros []|].
  unfold make_class. cbn [parse_scalars]. rewrite M. reflexivity.
Qed.
(** classes that have nothing but Resource in common *)
Lemma linear_independent : forall w ks, NoDup ks -> (forall k, In k ks -> k <> 0 /\ c_mro (class_at w k) = [k; 0]) -> linear w ks (ks ++ [0]).
Proof.
  intros w ks ND H. split; [|split].
  - apply NoDup_rev in ND. rewrite <- (rev_involutive (ks ++ [0])). apply NoDup_rev. rewrite rev_app_distr. cbn. constructor; [|exact ND].
    intro J. apply in_rev in J. apply H in J. tauto.
  - split; [intros k J; apply in_or_app; now left|]. intros a b (l1 & l2 & l3 & ->). exists l1, l2, (l3 ++ [0]).
    rewrite <- !app_assoc. cbn. rewrite <- app_assoc. reflexivity.
  - intros b J. destruct (H b J) as [_ ->]. split.
    + intros k [<-|[<-|[]]]; apply in_or_app; [now left|right; now left].
    + intros x y B. apply before_cons in B. destruct B as [[-> [<-|[]]]|B].
      * apply in_split in J. destruct J as (l1 & l2 & ->). exists l1, l2, []. now rewrite <- app_assoc.
      * apply before_cons in B. destruct B as [[_ []]|B]. now apply before_nil in B.
Qed.
Lemma classify_independent : forall early ord w c g o tp, reachable g -> wreach_if early w -> shuffle ord -> valid w c ->
  key_means w c (s2l "rdf:type") tp -> node o -> honoured (Some o) ->
  (forall t k, has_type (g_iter g) tp o t -> registered w t k -> k <> 0 /\ c_mro (class_at w k) = [k; 0]) ->
  (forall t t' k, has_type (g_iter g) tp o t -> has_type (g_iter g) tp o t' -> registered w t k -> registered w t' k -> t = t') ->
  exists w' k, classify ord w c g o = (w', Ok (RRes k o)).
Proof.
  intros early ord w c g o tp RG WR SH V MT N Ho H1 H2. destruct (classify ord w c g o) as [w' [v|e]] eqn:E.
  - destruct (classify_spec _ _ _ _ _ _ _ (wreach_if_inv _ _ WR) SH V E) as (_ & _ & _ & _ & X).
    destruct v as [|x|k x]; [destruct X|destruct X as (_ & X & _); contradiction|]. destruct X as (-> & _). eauto.
  - exfalso. destruct (classify_refuses _ _ _ _ _ _ _ _ _ RG WR SH V MT N Ho E) as (_ & _ & ks & (us & NU & EU & FU) & NL). apply NL.
    exists (ks ++ [0]). assert (K : forall k, In k ks -> exists t, In t us /\ registered w t k).
    { clear - FU. induction FU as [|u q us ks U FU IH]; intros k J; [destruct J|]. destruct J as [->|J]; [exists u; split; [now left|exact U]|].
      destruct (IH k J) as (t & A & B). exists t. split; [now right|exact B]. }
    apply linear_independent.
    + assert (S : forall t, In t us -> has_type (g_iter g) tp o t) by (intros t J; now apply EU in J). clear EU NL K.
      induction FU as [|u q us ks U FU IH]; [constructor|]. inversion NU as [|? ? N1 N2]; subst. constructor; [|apply IH; [exact N2|intros t J; apply S; now right]].
      intro J. assert (X : exists t, In t us /\ registered w t q).
      { clear - FU J. induction FU as [|u q' us ks U FU IH]; [destruct J|]. destruct J as [->|J]; [exists u; split; [now left|exact U]|].
        destruct (IH J) as (t & A & B). exists t. split; [now right|exact B]. }
      destruct X as (t & A & B). apply N1. rewrite (H2 u t q); auto. apply S. now left. apply S. now right.
    + intros k J. destruct (K k J) as (t & A & B). apply EU in A. destruct A as [A _]. eauto.
Qed.
