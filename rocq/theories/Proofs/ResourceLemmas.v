(** Resource: keys, selections. *)
From Verif Require Import Model.Py Model.Terms Model.Graph Model.GraphRun Model.Codec Model.Curie Model.Resource
  Spec.GraphSpec Spec.CurieSpec Spec.ResourceSpec
  Proofs.DictLemmas Proofs.GraphInv Proofs.GraphHist Proofs.CurieLemmas Proofs.CurieMore Proofs.LangLemmas.
Open Scope N_scope.

(** ** resolve *)
Lemma str_in_char_spec : forall c s, str_in_char c s = true <-> In c s.
Proof.
  intros c s. unfold str_in_char. rewrite existsb_exists. split.
  - intros (x & I & E). apply N.eqb_eq in E. now subst.
  - intro I. exists c. split; [exact I|apply N.eqb_refl].
Qed.
Lemma sget_lookup : forall m k v, sget m k = Some v <-> lookup m k v.
Proof.
  induction m as [|[k' v'] m IH]; intros k v; cbn [dget].
  - split; [discriminate|]. intros (m1 & m2 & E & _). destruct m1; discriminate.
  - destruct (str_eq_dec k k') as [->|N].
    + split.
      * intros [= ->]. exists [], m. split; [reflexivity|intros []].
      * intros (m1 & m2 & E & F). destruct m1 as [|[a b] m1]; cbn in E; inversion E; subst; [reflexivity|].
        exfalso. apply F. now left.
    + rewrite IH. split.
      * intros (m1 & m2 & -> & F). exists ((k', v') :: m1), m2. split; [reflexivity|]. intros [X|X]; [now apply N|auto].
      * intros (m1 & m2 & E & F). destruct m1 as [|[a b] m1]; cbn in E; inversion E; subst; [congruence|].
        exists m1, m2. split; [reflexivity|]. intro X. apply F. now right.
Qed.
Lemma sget_unbound : forall (m : dict str str) k, sget m k = None <-> unbound m k.
Proof.
  intros m k. unfold unbound. induction m as [|[k' v'] m IH]; cbn [dget map fst].
  - split; [intros _ []|auto].
  - destruct (str_eq_dec k k') as [->|N]; split; try discriminate.
    + intro F. exfalso. apply F. now left.
    + rewrite IH. intros F [X|X]; [now apply N|auto].
    + intro F. apply IH. intro X. apply F. now right.
Qed.
Lemma tm_resolve_means : forall m t iri, tm_resolve m t = Some iri <-> term_means m t iri.
Proof.
  intros m t iri. rewrite tm_resolve_spec. unfold term_means. destruct (sget (tm_items m) t) as [v|] eqn:E.
  - split.
    + intros [= ->]. left. now apply sget_lookup.
    + intros [L|[U _]]; [apply sget_lookup in L; congruence|]. apply sget_unbound in U. congruence.
  - split.
    + intro H. right. split; [now apply sget_unbound|]. destruct (tm_default m) as [d|]; [|discriminate]. cbn in H. exists d. split; congruence.
    + intros [L|[U (d & -> & ->)]]; [apply sget_lookup in L; congruence|reflexivity].
Qed.
Lemma resolve_means : forall w c key iri, resolve w c key = Ok (Some iri) <-> key_means w c key iri.
Proof.
  intros w c key iri. unfold resolve, key_means. cbv zeta.
  set (own := c_prefixes (class_at w c)).
  destruct (parse_curie key own) as [x|e] eqn:E.
  - pose proof (proj1 (parse_curie_ok _ _ _) E) as M. split.
    + intros [= <-]. now left.
    + intros [H|(N & _)]; [|exfalso; exact (N _ M)]. apply parse_curie_ok in H. congruence.
  - assert (N : forall q, ~ curie_means schemes own key q).
    { intros q H. apply parse_curie_ok in H. congruence. }
    pose proof (proj1 (parse_curie_err _ _ _) E) as Er.
    destruct Er as [[K ->]|(K & -> & _)].
    + split; [discriminate|]. intros [H|(_ & X & _)]; [exfalso; exact (N _ H)|congruence].
    + destruct (str_in_char 58 key) eqn:C.
      * apply str_in_char_spec in C. unfold pm_resolve. split.
        -- destruct (parse_curie key (w_gp w)) as [y|] eqn:P; [|discriminate]. cbn. intros [= <-].
           right. split; [exact N|]. split; [exact K|]. left. split; [exact C|]. now apply parse_curie_ok.
        -- intros [H|(_ & _ & [[_ H]|[X _]])]; [exfalso; exact (N _ H)| |contradiction].
           apply parse_curie_ok in H. rewrite H. reflexivity.
      * assert (C' : ~ In 58 key) by (intro X; apply str_in_char_spec in X; congruence). split.
        -- intros [= H]. right. split; [exact N|]. split; [exact K|]. right. split; [exact C'|]. now apply tm_resolve_means.
        -- intros [H|(_ & _ & [[X _]|[_ H]])]; [exfalso; exact (N _ H)|contradiction|].
           apply tm_resolve_means in H. now rewrite H.
Qed.

(** ** objects of a subject and a predicate *)
Lemma lists_map_inj {A B} : forall (f : A -> B) (l : list A) (P : A -> Prop) (Q : B -> Prop),
  lists l P -> (forall x y, P x -> P y -> f x = f y -> x = y) -> (forall y, Q y <-> exists x, P x /\ f x = y) -> lists (map f l) Q.
Proof.
  intros f l P Q [ND H] I E. split.
  - assert (HP : forall x, In x l -> P x) by (intros x; apply H). clear H E. induction l as [|a l IH]; cbn [map]; constructor.
    + intro X. apply in_map_iff in X. destruct X as (b & Eb & Ib). inversion ND; subst.
      assert (a = b) by (apply I; [apply HP; now left|apply HP; now right|congruence]). subst. contradiction.
    + inversion ND; subst. apply IH; [assumption|]. intros x Hx. apply HP. now right.
  - intro y. rewrite E, in_map_iff. split; intros (x & A1 & A2); exists x; split; try tauto; now apply H.
Qed.
Lemma objs_lists : forall g s p, wf g -> honoured (Some s) -> p <> [] ->
  lists (objs g s (Some p)) (fun o => In (Tr s (Iri p) o) (g_triples g)).
Proof.
  intros g s p W Hs Hp. unfold objs. cbn [Resource.pred option_map].
  eapply lists_map_inj; [apply g_match_lists; exact W| |].
  - intros [a1 a2 a3 a4] [b1 b2 b3 b4] [I (A & B & _)] [I' (A' & B' & _)] E. cbn in *.
    rewrite as_wildcard_honoured in A, A' by exact Hs.
    rewrite as_wildcard_honoured in B, B' by (unfold honoured, empty_iri; congruence).
    destruct A as [A|A], A' as [A'|A'], B as [B|B], B' as [B'|B']; try discriminate.
    pose proof (wf_triples _ _ W I) as T. pose proof (wf_triples _ _ W I') as T'. unfold is_triple in *. cbn in *. congruence.
  - intro o. split.
    + intro I. exists (Tr s (Iri p) o). split; [|reflexivity]. split; [exact I|].
      rewrite !as_wildcard_honoured by (try exact Hs; unfold honoured, empty_iri; congruence).
      split; [now right|]. split; [now right|now left].
    + intros ([a1 a2 a3 a4] & [I (A & B & _)] & E). cbn in *. subst a3.
      rewrite as_wildcard_honoured in A by exact Hs.
      rewrite as_wildcard_honoured in B by (unfold honoured, empty_iri; congruence).
      destruct A as [A|A], B as [B|B]; try discriminate.
      pose proof (wf_triples _ _ W I) as T. unfold is_triple in T. cbn in T. subst. injection A as ->. injection B as ->. exact I.
Qed.
Lemma lists_filter {A} : forall (f : A -> bool) l P Q, lists l P -> (forall x, P x -> (f x = true <-> Q x)) ->
  lists (filter f l) (fun x => P x /\ Q x).
Proof.
  intros f l P Q [ND H] E. split; [now apply NoDup_filter|]. intro x. rewrite filter_In, H. split.
  - intros [A1 B1]. split; [exact A1|]. now apply E.
  - intros [A1 B1]. split; [exact A1|]. now apply E.
Qed.
Lemma NoDup_app_intro {A} : forall (a b : list A), NoDup a -> NoDup b -> (forall x, In x a -> In x b -> False) -> NoDup (a ++ b).
Proof.
  induction a as [|x a IH]; intros b NA NB D; [exact NB|]. inversion NA; subst. cbn [app]. constructor.
  - intro X. apply in_app_iff in X. destruct X as [X|X]; [contradiction|]. apply (D x); [now left|exact X].
  - apply IH; auto. intros y Y Z. apply (D y); [now right|exact Z].
Qed.
Lemma lists_app {A} : forall (a b : list A) P Q, lists a P -> lists b Q -> (forall x, P x -> Q x -> False) ->
  lists (a ++ b) (fun x => P x \/ Q x).
Proof.
  intros a b P Q [NA HA] [NB HB] D. split.
  - apply NoDup_app_intro; auto. intros x X Y. apply (D x); [now apply HA|now apply HB].
  - intro x. rewrite in_app_iff, HA, HB. tauto.
Qed.

(** ** kinds *)
Lemma is_bare_spec : forall t, is_bare t = true <-> bare t.
Proof.
  intros [x|a|v [l|] [d|]]; cbn; split; try discriminate; try (intros (y & E); discriminate); [|reflexivity].
  intros _. now exists v.
Qed.
Lemma is_node_spec : forall t, is_node t = true <-> node t.
Proof. intros [x|a|v l d]; cbn; split; auto; try discriminate; contradiction. Qed.
Lemma lang_filter_spec : forall l t, match t with Lit _ tl _ => lang_match (Some l) tl | _ => false end = true <-> in_lang l t.
Proof.
  intros l [x|a|v [l'|] d]; unfold in_lang; split; try discriminate; try (intros (v' & l2 & d' & E & _); discriminate).
  - intro H. apply lang_match_spec in H. exists v, l', d. split; [reflexivity|exact H].
  - intros (v' & l2 & d' & [= -> -> ->] & H). now apply lang_match_spec.
Qed.
Lemma dt_filter_spec : forall d t, match t with Lit _ _ (Some d') => str_eqb d' d | _ => false end = true <-> typed_as d t.
Proof.
  intros d [x|a|v l [d'|]]; unfold typed_as; split; try discriminate; try (intros (v' & l2 & E); discriminate).
  - intro H. apply str_eqb_spec in H. subst. eauto.
  - intros (v' & l2 & [= -> -> ->]). now apply str_eqb_spec.
Qed.
Lemma typed_filter_spec : forall t, match t with Lit _ _ (Some _) => true | _ => false end = true <-> typed t.
Proof.
  intros [x|a|v l [d'|]]; unfold typed; split; try discriminate; try (intros (v' & l2 & d2 & E); discriminate); [|reflexivity].
  intros _. eauto.
Qed.

Section Reads.
  Variables (g : graph) (s : term) (p : str).
  Hypothesis W : wf g.
  Hypothesis Hs : honoured (Some s).
  Hypothesis Hp : p <> [].
  Let hs := has (g_triples g) s p.
  Lemma all_lists : lists (objs g s (Some p)) hs.
  Proof. now apply objs_lists. Qed.
  Lemma bare_lists : lists (bare_literals g s (Some p)) (fun o => hs o /\ bare o).
  Proof. eapply lists_filter; [apply all_lists|]. intros x _. apply is_bare_spec. Qed.
  Lemma node_lists : lists (filter is_node (objs g s (Some p))) (fun o => hs o /\ node o).
  Proof. eapply lists_filter; [apply all_lists|]. intros x _. apply is_node_spec. Qed.
  Lemma lang_lists : forall ch l, lists (objects_by_lang g s (Some p) (Some (ch :: l))) (fun o => hs o /\ in_lang (ch :: l) o).
  Proof. intros. eapply lists_filter; [apply all_lists|]. intros x _. apply lang_filter_spec. Qed.
  Lemma dt_lists : forall ch d, lists (objects_by_datatype g s (Some p) (Some (ch :: d))) (fun o => hs o /\ typed_as (ch :: d) o).
  Proof. intros. eapply lists_filter; [apply all_lists|]. intros x _. apply dt_filter_spec. Qed.
  Lemma typed_lists : lists (objects_by_datatype g s (Some p) None) (fun o => hs o /\ typed o).
  Proof. eapply lists_filter; [apply all_lists|]. intros x _. apply typed_filter_spec. Qed.

  Definition or_else (a b : list term) : list term := match a with [] => b | _ => a end.
  Lemma or_else_lists : forall a b K Q, lists a (fun o => hs o /\ K o) -> lists b (fun o => hs o /\ Q o) ->
    lists (or_else a b) (fun o => hs o /\ (K o \/ ((forall x, hs x -> ~ K x) /\ Q o))).
  Proof.
    intros a b K Q HA HB. destruct a as [|x a]; cbn [or_else].
    - assert (E : forall y, hs y -> ~ K y). { intros y X Y. destruct HA as [_ HA]. now apply (HA y). }
      eapply lists_iff; [exact HB|]. intro y. split; [intros [A B]; auto|]. intros [A [B|[_ B]]]; [exfalso; exact (E y A B)|auto].
    - eapply lists_iff; [exact HA|]. intro y. split; [tauto|]. intros [A [B|[B _]]]; [auto|].
      exfalso. assert (X : In x (x :: a)) by now left. apply HA in X. destruct X as [X1 X2]. exact (B x X1 X2).
  Qed.
End Reads.

Lemma in_scalars_spec : forall w c p, in_scalars w c (Some p) = true <-> scalar w c p.
Proof. intros w c p. unfold in_scalars, scalar. destruct (in_dec _ _ _); split; congruence. Qed.
Lemma in_scalars_false : forall w c p, in_scalars w c (Some p) = false <-> ~ scalar w c p.
Proof. intros w c p. unfold in_scalars, scalar. destruct (in_dec _ _ _); split; congruence. Qed.

Lemma lit_not_node : forall l t, in_lang l t -> node t -> False.
Proof. intros l t (v & l' & d & -> & _) []. Qed.
Lemma typed_not_node : forall l t, typed_as l t -> node t -> False.
Proof. intros l t (v & l' & ->) []. Qed.

Lemma interpret_ok : forall w c k p, key_means w c (key_text k) p -> interpret_key w c k =
  Ok (match k with
      | KName _ => (Some p, if in_scalars w c (Some p) then Some (lang_of w c) else None, None, None)
      | KPair _ FNone => (Some p, None, None, None)
      | KPair _ (FLang l) => (Some p, Some l, None, None)
      | KPair _ (FType d) => (Some p, None, Some (interpret_datatype d), None)
      | KPair _ (FClass k) => (Some p, None, None, Some k)
      end).
Proof.
  intros w c k p H. apply resolve_means in H. destruct k as [t|t f]; cbn [key_text] in H; unfold interpret_key; rewrite H; cbn [bind]; [reflexivity|].
  destruct f; reflexivity.
Qed.
Lemma select_plain : forall ord w c g s k p inst, wf g -> honoured (Some s) -> p <> [] -> key_means w c (key_text k) p ->
  class_key k = None ->
  exists os, objects_for_key ord w c g s k = (w, Ok (Some p, os)) /\
    lists os (selected (g_triples g) s p (scalar w c p) (lang_of w c) inst k).
Proof.
  intros ord w c g s k p inst W Hs Hp M CK. unfold objects_for_key. rewrite (interpret_ok _ _ _ _ M).
  destruct k as [t|t f].
  - destruct (in_scalars w c (Some p)) eqn:E.
    + pose proof (proj1 (in_scalars_spec _ _ _) E) as E'. destruct (lang_of w c) as [|ch l] eqn:L.
      * eexists. split; [reflexivity|]. eapply lists_iff; [now apply bare_lists|]. intro o. unfold selected, fits_key. split; [tauto|].
        intros [A [B|[[_ B]|[B _]]]]; [contradiction|auto|congruence].
      * cbn [is_pair negb andb].
        exists (or_else (objects_by_lang g s (Some p) (Some (ch :: l)))
          (or_else (filter is_node (objs g s (Some p))) (or_else (objects_by_datatype g s (Some p) None) (bare_literals g s (Some p))))).
        split. { unfold or_else. destruct (objects_by_lang g s (Some p) (Some (ch :: l))); [|reflexivity].
          destruct (filter is_node (objs g s (Some p))); [|reflexivity]. destruct (objects_by_datatype g s (Some p) None); reflexivity. }
        eapply lists_iff.
        -- apply or_else_lists; [now apply lang_lists|]. apply or_else_lists; [now apply node_lists|].
           apply or_else_lists; [now apply typed_lists|now apply bare_lists].
        -- intro o. unfold selected, fits_key, first_kind. fold (has (g_triples g) s p). split.
           ++ intros [A B]. split; [exact A|]. right. right. split; [discriminate|].
              destruct B as [B|[B1 [B|[B2 [B|[B3 B]]]]]]; auto.
              ** right. split; [exact B1|]. right. split; [exact B2|]. now left.
              ** right. split; [exact B1|]. right. split; [exact B2|]. right. split; [exact B3|]. now left.
           ++ intros [A [B|[[B _]|[_ B]]]]; [contradiction|discriminate|]. split; [exact A|].
              destruct B as [B|[B1 [B|[B2 [B|[B3 [B|[_ []]]]]]]]]; tauto.
    + pose proof (proj1 (in_scalars_false _ _ _) E) as E'.
      eexists. split; [reflexivity|]. eapply lists_iff; [now apply all_lists|]. intro o. unfold selected, fits_key. tauto.
  - destruct f as [|l|d|cl]; [| | |discriminate].
    + eexists. split; [reflexivity|]. eapply lists_iff; [now apply all_lists|]. intro o. unfold selected, fits_key. tauto.
    + destruct l as [|ch l].
      * eexists. split; [reflexivity|]. eapply lists_iff; [now apply bare_lists|]. intro o. unfold selected, fits_key. split; [tauto|].
        intros [A [[_ B]|[B _]]]; [auto|congruence].
      * cbn [is_pair negb andb]. eexists. split; [reflexivity|]. destruct (in_scalars w c (Some p)) eqn:E.
        -- pose proof (proj1 (in_scalars_spec _ _ _) E) as E'. eapply lists_iff; [now apply lang_lists|]. intro o. unfold selected, fits_key.
           split; [intros [A B]; split; [exact A|]; right; split; [discriminate|now left]|].
           intros [A [[B _]|[_ [B|[B _]]]]]; [discriminate|auto|contradiction].
        -- pose proof (proj1 (in_scalars_false _ _ _) E) as E'.
           eapply lists_iff; [apply lists_app; [now apply lang_lists|now apply node_lists|]|].
           ++ intros x [_ A] [_ B]. exact (lit_not_node _ _ A B).
           ++ intro o. unfold selected, fits_key. split.
              ** intros [[A B]|[A B]]; (split; [exact A|]; right; split; [discriminate|tauto]).
              ** intros [A [[B _]|[_ [B|[_ B]]]]]; [discriminate|auto|auto].
    + unfold interpret_datatype, str_eqb. change (xsd "string") with (w3_xsd ++ s2l "string"). destruct (str_eq_dec d (w3_xsd ++ s2l "string")) as [->|N].
      * eexists. split; [reflexivity|]. eapply lists_iff; [now apply bare_lists|]. intro o. unfold selected, fits_key. split; [tauto|].
        intros [A [[_ B]|[B _]]]; [auto|exfalso; apply B; now right].
      * destruct d as [|ch d].
        -- eexists. split; [reflexivity|]. eapply lists_iff; [now apply bare_lists|]. intro o. unfold selected, fits_key. split; [tauto|].
           intros [A [[_ B]|[B _]]]; [auto|exfalso; apply B; now left].
        -- assert (NP : ~ (ch :: d = [] \/ ch :: d = w3_xsd ++ s2l "string")) by (intros [X|X]; [discriminate|contradiction]).
           eexists. split; [reflexivity|]. destruct (in_scalars w c (Some p)) eqn:E.
           ++ pose proof (proj1 (in_scalars_spec _ _ _) E) as E'. eapply lists_iff; [now apply dt_lists|]. intro o. unfold selected, fits_key. cbv zeta.
              split; [intros [A B]; split; [exact A|]; right; split; [exact NP|now left]|].
              intros [A [[B _]|[_ [B|[B _]]]]]; [contradiction|auto|contradiction].
           ++ pose proof (proj1 (in_scalars_false _ _ _) E) as E'.
              eapply lists_iff; [apply lists_app; [now apply dt_lists|now apply node_lists|]|].
              ** intros x [_ A] [_ B]. exact (typed_not_node _ _ A B).
              ** intro o. unfold selected, fits_key. cbv zeta. split.
                 --- intros [[A B]|[A B]]; (split; [exact A|]; right; split; [exact NP|tauto]).
                 --- intros [A [[B _]|[_ [B|[_ B]]]]]; [contradiction|auto|auto].
Qed.
