(** Resource: assignment (C56, C57), continued. *)
From Coq Require Import Permutation.
From Verif Require Import Model.Py Model.Terms Model.Graph Model.GraphRun Model.Codec Model.Curie Model.Resource Model.ResourceRun
  Spec.GraphSpec Spec.CurieSpec Spec.ResourceSpec
  Proofs.DictLemmas Proofs.GraphInv Proofs.GraphHist Proofs.CurieLemmas Proofs.CurieMore Proofs.LangLemmas Proofs.ResourceLemmas Proofs.ClassLemmas Proofs.ResourceRead Proofs.ResourceWrite.
Open Scope N_scope.

(** ** frame: whatever happens, only triples of the subject and predicate change *)
Lemma set_frame : forall ord w c g s k p v w' g' r, reachable g -> key_means w c (key_text k) p ->
  setitem ord w c g s k v = (w', g', r) ->
  reachable g' /\
  (forall t, ~ (st_s t = s /\ st_p t = Iri p) -> (In t (g_iter g') <-> In t (g_iter g))) /\
  (forall e, r = Err e -> (forall t, In t (g_iter g') -> In t (g_iter g)) /\ (e <> KeyError -> g' = g)).
Proof.
  intros ord w c g s k p v w' g' r RG M H. unfold setitem in H. rewrite (interpret_ok _ _ _ _ M) in H.
  assert (SAME : reachable g /\ (forall t, ~ (st_s t = s /\ st_p t = Iri p) -> (In t (g_iter g) <-> In t (g_iter g))) /\
    (forall e, r = Err e -> (forall t, In t (g_iter g) -> In t (g_iter g)) /\ (e <> KeyError -> g = g))).
  { split; [exact RG|]. split; [tauto|]. auto. }
  set (ik := match k with KName _ => _ | _ => _ end) in H.
  assert (EP : exists lang dt rc, ik = (Some p, lang, dt, rc)).
  { subst ik. destruct k as [t|t [|l|d|n]]; eauto. }
  destruct EP as (lang & dt & rc & EP). rewrite EP in H. clear ik EP.
  destruct (literalize ord w g v lang dt) as [w1 [lv|e]]; [|injection H as <- <- <-; exact SAME].
  destruct (if is_pair k then _ else _) as [w2 [os|e]]; [|injection H as <- <- <-; exact SAME].
  destruct (remove_objs g s (Some p) os) as [g1 r1] eqn:Q. destruct (remove_objs_spec _ _ _ _ _ _ RG Q) as (R1 & T1 & S1 & S2 & _ & _).
  assert (FR : forall t, ~ (st_s t = s /\ st_p t = Iri p) -> (In t (g_iter g1) <-> In t (g_iter g))).
  { intros t N. split; [apply S1|]. intro J. destruct (in_dec stmt_eq_dec t (g_iter g1)) as [i|n]; [exact i|].
    exfalso. destruct (S2 t J n) as (o & _ & ->). apply N. split; reflexivity. }
  destruct r1 as [[]|e].
  - injection H as <- <- <-. split.
    + apply (reach_step g1 (OpAddAll (map (fun t => Tr s (Iri p) t) (lval_terms lv)))); [exact R1|].
      cbn. intros t J. apply in_map_iff in J. destruct J as (o & <- & _). reflexivity.
    + split; [|intros e; discriminate]. intros t N. unfold g_iter. rewrite g_addAll_In. fold (g_iter g1). rewrite <- (FR t N). split; [|auto].
      intros [J|J]; [|exact J]. exfalso. apply in_map_iff in J. destruct J as (o & <- & _). apply N. split; reflexivity.
  - injection H as <- <- <-. split; [exact R1|]. split; [exact FR|]. intros e' E'. destruct T1 as [T1|T1]; [discriminate|].
    injection E' as <-. injection T1 as ->. split; [exact S1|congruence].
Qed.

(** ** explicit filters *)
Lemma explicit_objects : forall ord w c g s t f p v lang dt rc w' os, wf g -> honoured (Some s) -> p <> [] ->
  winv w -> shuffle ord -> valid w c ->
  (forall kc, f = FClass kc -> ~ scalar w c p -> cached w /\ written w kc /\ ~ has (g_triples g) s p empty_iri) ->
  forall tp, key_means w c (s2l "rdf:type") tp ->
  (lang, dt, rc) = match f with FNone => (None, None, None) | FLang l => (Some l, None, None) | FType d => (None, Some (interpret_datatype d), None) | FClass kc => (None, None, Some kc) end ->
  objects_for_explicit_set ord w c g s (Some p) v lang dt rc = (w', Ok os) ->
  grows w w' /\ exactly g s p os (replaced (instance w (g_triples g) tp) (scalar w c p) None (KPair t f)) /\
  check_objects w v lang dt rc = Ok true /\ (ostr_truthy lang = false -> ~ scalar w c p -> ostr_truthy dt = false -> rc <> None).
Proof.
  intros ord w c g s t f p v lang dt rc w' os W Hs Hp I SH V HC tp MT EK H. unfold objects_for_explicit_set in H.
  destruct (check_objects w v lang dt rc) as [[|]|e]; [|discriminate|discriminate].
  destruct f as [|l|d|kc]; injection EK as -> -> ->; cbn [ostr_truthy] in H.
  - destruct (in_scalars w c (Some p)) eqn:E; [|discriminate]. injection H as <- <-. split; [now apply grows_refl|].
    split; [|split; [reflexivity|intros _ N; apply in_scalars_spec in E; contradiction]].
    eapply exactly_iff; [now apply exactly_all|]. intros o _. cbn [replaced]. tauto.
  - destruct l as [|ch l]; cbn [ostr_truthy] in H.
    + destruct (in_scalars w c (Some p)) eqn:E; [|discriminate]. injection H as <- <-. split; [now apply grows_refl|].
      split; [|split; [reflexivity|intros _ N; apply in_scalars_spec in E; contradiction]].
      eapply exactly_iff; [now apply exactly_all|]. intros o _. cbn [replaced]. tauto.
    + destruct (in_scalars w c (Some p)) eqn:E; injection H as <- <-; (split; [now apply grows_refl|]); (split; [|split; [reflexivity|discriminate]]).
      * pose proof (proj1 (in_scalars_spec _ _ _) E) as SC. eapply exactly_iff.
        -- apply exactly_app; [apply exactly_lists; now apply lang_lists|apply exactly_app; [apply exactly_lists; now apply typed_lists|apply exactly_lists; now apply node_lists|]|].
           ++ intros _ o _ (x & l2 & d & ->) N; exact N.
           ++ intros S o J L [T|N]; [exact (sane_typed g s p S _ _ J L T)|exact (lit_not_node _ _ L N)].
        -- intros o _. cbn [replaced]. split; [|intros K; specialize (K ltac:(discriminate)); tauto]. tauto.
      * pose proof (proj1 (in_scalars_false _ _ _) E) as SC. eapply exactly_iff.
        -- apply exactly_app; [apply exactly_lists; now apply lang_lists|apply exactly_lists; now apply node_lists|].
           intros _ o _ L N. exact (lit_not_node _ _ L N).
        -- intros o _. cbn [replaced]. split; [|intros K; specialize (K ltac:(discriminate)); tauto]. tauto.
  - destruct (in_scalars w c (Some p)) eqn:E.
    + injection H as <- <-. pose proof (proj1 (in_scalars_spec _ _ _) E) as SC. split; [now apply grows_refl|].
      split; [|split; [reflexivity|intros _ N; contradiction]].
      eapply exactly_iff; [now apply exactly_all|]. intros o _. cbn [replaced]. tauto.
    + pose proof (proj1 (in_scalars_false _ _ _) E) as SC. destruct (interpret_datatype d) as [|ch dd] eqn:ED; cbn [ostr_truthy] in H; [discriminate|].
      injection H as <- <-. split; [now apply grows_refl|]. split; [|split; [reflexivity|discriminate]].
      assert (d = ch :: dd) as -> by (unfold interpret_datatype in ED; destruct (str_eqb d (xsd "string")); [discriminate|exact ED]).
      eapply exactly_iff.
      * apply exactly_app; [apply exactly_lists; now apply dt_lists|apply exactly_lists; now apply node_lists|].
        intros _ o _ L N. exact (typed_not_node _ _ L N).
      * intros o _. cbn [replaced]. tauto.
  - destruct (in_scalars w c (Some p)) eqn:E.
    + injection H as <- <-. pose proof (proj1 (in_scalars_spec _ _ _) E) as SC. split; [now apply grows_refl|].
      split; [|split; [reflexivity|discriminate]].
      eapply exactly_iff; [now apply exactly_all|]. intros o _. cbn [replaced]. tauto.
    + pose proof (proj1 (in_scalars_false _ _ _) E) as SC. cbn [objects_by_type] in H.
      destruct (HC _ eq_refl SC) as (CA & WK & NE). destruct (rdf_type_means _ _ _ I V MT) as [RT NT].
      pose proof (all_lists g s p W Hs Hp) as AL.
      assert (HO : forall o, In o (objs g s (Some p)) -> honoured (Some o)).
      { intros o J. apply AL in J. intros [= ->]. exact (NE J). }
      destruct (instances_spec ord c g kc tp SH W NT _ _ _ _ I CA V WK RT HO H) as (I' & C' & X' & [YN _] & Y).
      split; [|split; [|split; [reflexivity|discriminate]]].
      * split; [exact I'|]. split; [exact X'|]. split; [|auto].
        assert (ST : forall l w w' x, winv w -> valid w c -> instances ord w c g kc l = (w', x) -> forall j, written w j -> written w' j).
        { clear -SH. induction l as [|o l IH]; intros w w' x I V H j J; cbn [instances] in H; [inversion H; subst; exact J|].
          destruct (is_node o); [|exact (IH _ _ _ I V H _ J)].
          destruct (classify ord w c g o) as [w1 x1] eqn:E1. destruct (classify_spec _ _ _ _ _ _ _ I SH V E1) as (I1 & X1 & R1 & _).
          pose proof (written_step _ _ _ X1 R1 J) as J1. destruct x1 as [v|e]; [|inversion H; subst; exact J1].
          destruct (instances ord w1 c g kc l) as [w2 x2] eqn:E2. injection H as <- <-.
          exact (IH _ _ _ I1 (extends_valid _ _ _ X1 V) E2 _ J1). }
        exact (ST _ _ _ _ I V H).
      * split; [|intros _; apply YN, AL]. intro o. rewrite Y. cbn [replaced]. destruct AL as [_ AL]. rewrite AL. tauto.
Qed.

(** the value the assignment makes is never NoneType *)
Lemma literalize_shape : forall ord w g v lang dt w' lv, winv w -> shuffle ord -> literalize ord w g v lang dt = (w', Ok lv) -> dt = None ->
    match v, lv with
    | SOne (ATerm (Lit _ _ _ as t)), _ => lv = LOne (RLit t)
    | SOne (APy (VStr x)), _ => lv = LOne (RLit (Lit x lang None))
    | SOne (APy _), _ => exists x d, lv = LOne (RLit (Lit x None d))
    | SOne (ATerm t), _ => exists k, lv = LOne (RRes k t)
    | SOne (ARes c s), _ => lv = LOne (RRes c s)
    | SSet _, LSet _ => True
    | SSet _, LOne _ => False
    end.
Proof.
  intros ord w g v lang dt w' lv I SH H ->. destruct v as [a|l]; cbn [literalize] in H.
  - destruct (objectify ord w g a lang None) as [w1 x] eqn:E. destruct (objectify_spec _ _ _ _ _ _ _ _ I SH E) as (_ & _ & S).
    destruct x as [v|e]; cbn [bind] in H; [|discriminate]. injection H as <- <-.
    destruct a as [[x|n|x l d]|c s|[x|z|x|]].
    + destruct S as (k & ->). eauto.
    + destruct S as (k & ->). eauto.
    + injection S as ->. reflexivity.
    + injection S as ->. reflexivity.
    + cbn in E. injection E as <- <-. reflexivity.
    + cbn in E. injection E as <- <-. eauto.
    + cbn in E. injection E as <- <-. eauto.
    + cbn in E. discriminate.
  - destruct (objectify_all ord w g l lang None) as [w1 [x|e]]; cbn [bind] in H; [|discriminate]. injection H as <- <-. exact Logic.I.
Qed.
Lemma scalar_extends : forall w w' c p, extends w w' -> valid w c -> (scalar w' c p <-> scalar w c p).
Proof. intros w w' c p (_ & C & _) V. unfold scalar. now rewrite C. Qed.
Lemma in_scalars_extends : forall w w' c p, extends w w' -> valid w c -> in_scalars w' c p = in_scalars w c p.
Proof. intros w w' c p (_ & C & _) V. unfold in_scalars. now rewrite C. Qed.
Lemma lang_extends : forall w w' c, winv w -> extends w w' -> valid w c -> lang_of w' c = lang_of w c.
Proof.
  intros w w' c I X V. unfold lang_of. pose proof X as (_ & C & _). rewrite (C c V). f_equal.
  replace (map (fun b => c_lang (class_at w' b)) (c_mro (class_at w c))) with (map (fun b => c_lang (class_at w b)) (c_mro (class_at w c))); [reflexivity|].
  apply map_ext_in. intros b J. now rewrite (C b (i_below _ I _ _ V J)).
Qed.
Lemma key_extends : forall w w' c t p, extends w w' -> valid w c -> key_means w c t p -> key_means w' c t p.
Proof. intros w w' c t p X V M. apply resolve_means. apply resolve_means in M. now rewrite (resolve_extends _ _ _ _ X V). Qed.

Lemma check_errors : forall w v lang dt rc e, check_objects w v lang dt rc = Err e -> e = AttributeError.
Proof.
  intros w [x|l] lang dt rc e H; cbn [check_objects] in H.
  - unfold check_one in H. destruct (ostr_truthy lang), (ostr_truthy dt), x as [|[a|n|a b d]|kk ss]; cbn [bind] in H; try congruence;
      try destruct (lang_match b lang); try destruct (ostr_eq_dec d dt); congruence.
  - induction l as [|x l IH]; cbn [check_set] in H; [discriminate|]. destruct (ostr_truthy lang && _); [discriminate|].
    assert (K : (match rc with Some k => if match x with RRes c' _ => is_subclass w c' k | _ => false end then check_set w l lang dt rc else Ok false | None => check_set w l lang dt rc end) = Err e -> e = AttributeError).
    { destruct rc as [k|]; [|exact IH]. clear H. intro Q. match type of Q with (if ?b then _ else _) = _ => destruct b end; [exact (IH Q)|discriminate]. }
    destruct (ostr_truthy dt); cbn [bind] in H; [|exact (K H)].
    destruct x as [|[a|n|a b d]|kk ss]; cbn [bind] in H; try congruence. destruct (ostr_eq_dec d dt); cbn [bind] in H; [exact (K H)|discriminate].
Qed.
Lemma interpret_text : forall w c k p, key_means w c (key_text k) p ->
  exists rc, interpret_key w c k = Ok (Some p, text_lang (in_scalars w c (Some p)) (lang_of w c) k, text_type k, rc) /\
    rc = class_key k.
Proof.
  intros w c k p M. rewrite (interpret_ok _ _ _ _ M). destruct k as [t|t [|l|d|n]]; cbn [text_lang text_type class_key]; eexists; (split; [|reflexivity]); auto.
  unfold interpret_datatype, str_eqb. change (xsd "string") with (w3_xsd ++ s2l "string"). destruct (str_eq_dec d (w3_xsd ++ s2l "string")); reflexivity.
Qed.

Lemma set_spec : forall ord w c g s k p v w' g' r tp, reachable g -> honoured (Some s) -> p <> [] -> key_means w c (key_text k) p ->
  winv w -> cached w -> shuffle ord -> valid w c -> key_means w c (s2l "rdf:type") tp ->
  (forall kc, class_key k = Some kc -> written w kc /\ ~ has (g_triples g) s p empty_iri) ->
  setitem ord w c g s k v = (w', g', r) ->
  let lang := text_lang (in_scalars w c (Some p)) (lang_of w c) k in
  grows w w' /\
  (r = Ok tt -> forall t, In t (g_iter g') <->
     (In t (g_iter g) /\ ~ (exists o, t = Tr s (Iri p) o /\
        replaced (instance w (g_iter g) tp) (scalar w c p) (value_lang lang (text_type k) v) k o)) \/
     (exists o, t = Tr s (Iri p) o /\ new_value lang (text_type k) v o)) /\
  (sane_literals (g_iter g) -> (forall a, In a (values v) -> a <> APy VOther) -> r <> Err KeyError) /\
  (exists w1 x, literalize ord w g v lang (text_type k) = (w1, x) /\ grows w w1 /\
     match x with
     | Err e => r = Err e
     | Ok lv =>
         (r = Ok tt -> if is_pair k then check_objects w1 lv lang (text_type k) (class_key k) = Ok true /\ (ostr_truthy lang = false -> ~ scalar w c p -> ostr_truthy (text_type k) = false -> class_key k <> None)
                       else scalar w c p -> exists a, v = SOne a) /\
         (sane_literals (g_iter g) ->
          (if is_pair k then check_objects w1 lv lang (text_type k) (class_key k) = Ok true /\ (ostr_truthy lang = false -> ~ scalar w c p -> ostr_truthy (text_type k) = false -> class_key k <> None)
                       else scalar w c p -> exists a, v = SOne a) -> r = Ok tt \/ (class_key k <> None /\ r = Err TypeError))
     end).
Proof.
  intros ord w c g s k p v w' g' r tp RG Hs Hp M I CA SH V MT HC H lang. pose proof (reachable_wf _ RG) as W.
  unfold setitem in H. destruct (interpret_text _ _ _ _ M) as (rc & IK & RC). rewrite IK in H. fold lang in H. subst rc.
  destruct (literalize ord w g v lang (text_type k)) as [w1 x] eqn:EL. destruct (literalize_spec _ _ _ _ _ _ _ _ I SH EL) as (G1 & M1).
  destruct x as [lv|e].
  2:{ injection H as <- <- <-. split; [exact G1|]. split; [discriminate|]. split.
      - intros _ NV X. injection X as ->. clear -EL NV I SH. unfold literalize in EL. destruct v as [a|l].
        + destruct (objectify ord w g a lang (text_type k)) as [w2 x] eqn:E. destruct (objectify_spec _ _ _ _ _ _ _ _ I SH E) as (_ & M & _).
          destruct x; cbn [bind] in EL; [discriminate|]. injection EL as -> ->. destruct M as [[_ ->]|[X _]]; [|discriminate].
          apply (NV (APy VOther)); [now left|reflexivity].
        + destruct (objectify_all ord w g l lang (text_type k)) as [w2 x] eqn:E. destruct (objectify_all_spec _ _ _ _ _ _ _ _ I SH E) as (_ & M).
          destruct x; cbn [bind] in EL; [discriminate|]. injection EL as -> ->. destruct M as [[_ J]|[X _]]; [|discriminate].
          exact (NV (APy VOther) J eq_refl).
      - exists w1, (Err e). auto. }
  destruct M1 as [NVs SHP]. destruct G1 as (I1 & X1 & WR1 & C1). assert (G1 : grows w w1) by (split; auto).
  pose proof (extends_valid _ _ _ X1 V) as V1.
  set (y := if is_pair k then objects_for_explicit_set ord w1 c g s (Some p) lv lang (text_type k) (class_key k) else (w1, objects_for_implicit_set w1 c g s (Some p) lv)) in H.
  destruct y as [w2 x2] eqn:EY. subst y.
  assert (KEY : grows w w2 /\ match x2 with
     | Ok os => exactly g s p os (replaced (instance w (g_iter g) tp) (scalar w c p) (value_lang lang (text_type k) v) k) /\
        (if is_pair k then check_objects w1 lv lang (text_type k) (class_key k) = Ok true /\ (ostr_truthy lang = false -> ~ scalar w c p -> ostr_truthy (text_type k) = false -> class_key k <> None)
                       else scalar w c p -> exists a, v = SOne a)
     | Err e => e <> KeyError /\ ((if is_pair k then check_objects w1 lv lang (text_type k) (class_key k) = Ok true /\ (ostr_truthy lang = false -> ~ scalar w c p -> ostr_truthy (text_type k) = false -> class_key k <> None)
                       else scalar w c p -> exists a, v = SOne a) -> class_key k <> None /\ e = TypeError)
     end).
  { destruct k as [t|t f]; cbn [is_pair] in EY |- *.
    - injection EY as <- <-. split; [exact G1|]. destruct (objects_for_implicit_set w1 c g s (Some p) lv) as [os|e] eqn:EO.
      + assert (EL' : lang = if in_scalars w1 c (Some p) then Some (lang_of w1 c) else None).
        { subst lang. cbn [text_lang]. rewrite (in_scalars_extends _ _ _ _ X1 V), (lang_extends _ _ _ I X1 V). reflexivity. }
        pose proof (literalize_shape _ _ _ _ _ _ _ _ I SH EL eq_refl) as LS.
        pose proof (implicit_objects g s p W Hs Hp w1 c v lang lv os EL' LS EO) as EX. split.
        * eapply exactly_iff; [exact EX|]. intros o _. cbn [replaced text_type]. now rewrite (scalar_extends _ _ _ _ X1 V).
        * intro SC. apply (in_scalars_spec w c p) in SC. unfold objects_for_implicit_set in EO. rewrite (in_scalars_extends _ _ _ _ X1 V), SC in EO.
          destruct v as [a|l]; [eauto|]. destruct lv; [destruct SHP|discriminate].
      + unfold objects_for_implicit_set in EO. destruct (in_scalars w1 c (Some p)) eqn:E; [|discriminate].
        assert (LS : exists l, lv = LSet l /\ e = ValueError).
        { destruct lv as [[|[x|n|x [[|ch l]|] d]|kk ss]|l]; try discriminate. injection EO as <-. eauto. }
        destruct LS as (l & -> & ->). split; [discriminate|]. intro HH. exfalso. destruct HH as (a & ->).
        { apply (in_scalars_spec w c p). rewrite (in_scalars_extends _ _ _ _ X1 V) in E. exact E. }
        destruct SHP.
    - assert (EK : (lang, text_type (KPair t f), class_key (KPair t f)) = match f with FNone => (None, None, None) | FLang l => (Some l, None, None) | FType d => (None, Some (interpret_datatype d), None) | FClass kc => (None, None, Some kc) end).
      { subst lang. destruct f as [|l|d|n]; try reflexivity. cbn [text_lang text_type class_key]. unfold interpret_datatype, str_eqb. change (xsd "string") with (w3_xsd ++ s2l "string"). destruct (str_eq_dec d (w3_xsd ++ s2l "string")); reflexivity. }
      destruct x2 as [os|e].
      + destruct (explicit_objects ord w1 c g s t f p lv lang (text_type (KPair t f)) (class_key (KPair t f)) w2 os W Hs Hp I1 SH V1) with (tp := tp) as (G2 & EX & CK & TR); [| |exact EK|exact EY|].
        * intros kc -> N. destruct (HC kc eq_refl) as [HW HN]. split; [now apply C1|]. split; [now apply WR1|exact HN].
        * exact (key_extends _ _ _ _ _ X1 V MT).
        * split; [exact (grows_trans _ _ _ G1 G2)|]. split.
          -- eapply exactly_iff; [exact EX|]. intros o _.
             pose proof (scalar_extends _ _ _ p X1 V) as SE.
             destruct f as [|l|d|n]; cbn [replaced]; [tauto|now rewrite SE|now rewrite SE|].
             rewrite SE. pose proof (instance_grows w w1 (g_triples g) tp n o I X1) as IG. unfold g_iter. tauto.
          -- split; [exact CK|]. intros A B. apply TR; [exact A|]. now rewrite (scalar_extends _ _ _ _ X1 V).
      + assert (KE : grows w1 w2 /\ e <> KeyError /\ (check_objects w1 lv lang (text_type (KPair t f)) (class_key (KPair t f)) = Ok true /\ (ostr_truthy lang = false -> ~ scalar w c p -> ostr_truthy (text_type (KPair t f)) = false -> class_key (KPair t f) <> None) -> class_key (KPair t f) <> None /\ e = TypeError)).
        { unfold objects_for_explicit_set in EY.
          destruct (check_objects w1 lv lang (text_type (KPair t f)) (class_key (KPair t f))) as [[|]|e2] eqn:CK.
          - destruct (ostr_truthy lang) eqn:T1; [destruct (in_scalars w1 c (Some p)); discriminate|].
            destruct (in_scalars w1 c (Some p)) eqn:SC; [discriminate|].
            destruct (ostr_truthy (text_type (KPair t f))) eqn:T2; [discriminate|].
            destruct (class_key (KPair t f)) as [kc|] eqn:KC.
            + cbn [objects_by_type] in EY.
              destruct (rdf_type_means _ _ _ I1 V1 (key_extends _ _ _ _ _ X1 V MT)) as [RT NT].
              destruct (HC kc eq_refl) as [HW HN].
              assert (HO : forall o, In o (objs g s (Some p)) -> honoured (Some o)).
              { intros o J. apply (all_lists g s p W Hs Hp) in J. intros [= ->]. exact (HN J). }
              destruct (instances_spec ord c g kc tp SH W NT _ _ _ _ I1 (C1 CA) V1 (WR1 _ HW) RT HO EY) as (I2 & C2 & X2 & ->).
              split; [|split; [discriminate|split; [discriminate|reflexivity]]].
              split; [exact I2|]. split; [exact X2|]. split; [|auto].
              assert (ST : forall l w w' x, winv w -> valid w c -> instances ord w c g kc l = (w', x) -> forall j, written w j -> written w' j).
              { clear -SH. induction l as [|o l IH]; intros w w' x I V H j J; cbn [instances] in H; [inversion H; subst; exact J|].
                destruct (is_node o); [|exact (IH _ _ _ I V H _ J)].
                destruct (classify ord w c g o) as [w1 x1] eqn:E1. destruct (classify_spec _ _ _ _ _ _ _ I SH V E1) as (I1 & X1 & R1 & _).
                pose proof (written_step _ _ _ X1 R1 J) as J1. destruct x1 as [v|e]; [|inversion H; subst; exact J1].
                destruct (instances ord w1 c g kc l) as [w2 x2] eqn:E2. injection H as <- <-.
                exact (IH _ _ _ I1 (extends_valid _ _ _ X1 V) E2 _ J1). }
              exact (ST _ _ _ _ I1 V1 EY).
            + injection EY as <- <-. split; [now apply grows_refl|]. split; [discriminate|]. intros [_ TR]. exfalso. apply TR; auto.
              intro SC'. apply (scalar_extends _ _ _ _ X1 V) in SC'. apply in_scalars_spec in SC'. congruence.
          - injection EY as <- <-. split; [now apply grows_refl|]. split; [discriminate|]. intros [X _]. discriminate.
          - injection EY as <- <-. split; [now apply grows_refl|]. split; [|intros [X _]; discriminate].
            rewrite (check_errors _ _ _ _ _ _ CK). discriminate. }
        destruct KE as (G2 & NK & TE). split; [exact (grows_trans _ _ _ G1 G2)|]. split; [exact NK|exact TE]. }
  clear EY. destruct KEY as [G2 KEY]. destruct x2 as [os|e].
  - destruct KEY as [[EX ND] CKS].
    destruct (remove_objs g s (Some p) os) as [g1 r1] eqn:Q. destruct (remove_objs_spec _ _ _ _ _ _ RG Q) as (R1 & T1 & S1 & S2 & S3 & S4).
    assert (SANE : sane_literals (g_iter g) -> r1 = Ok tt).
    { intro S. apply S4; [exact (ND S)|]. intros o J. apply EX in J. apply J. }
    destruct r1 as [[]|e].
    + injection H as <- <- <-. split; [exact G2|]. split; [|split; [discriminate|]].
      * intros _ t. unfold g_iter at 1. rewrite g_addAll_In. fold (g_iter g1). rewrite (S3 eq_refl t), in_map_iff. split.
        -- intros [(o & <- & J)|[A B]].
           ++ right. exists o. split; [reflexivity|]. now apply NVs.
           ++ left. split; [exact A|]. intros (o & -> & RP). apply (B o); [|reflexivity]. apply EX. split; [exact A|exact RP].
        -- intros [[A B]|(o & -> & N)].
           ++ right. split; [exact A|]. intros o J ->. apply B. exists o. split; [reflexivity|]. apply EX in J. apply J.
           ++ left. exists o. split; [reflexivity|]. now apply NVs.
      * exists w1, (Ok lv). split; [reflexivity|]. split; [exact G1|]. split; auto.
    + injection H as <- <- <-. split; [exact G2|]. split; [discriminate|]. split; [intro S; specialize (SANE S); discriminate|].
      exists w1, (Ok lv). split; [reflexivity|]. split; [exact G1|]. split; [discriminate|]. intro S; specialize (SANE S); discriminate.
  - destruct KEY as [NK TE]. injection H as <- <- <-. split; [exact G2|]. split; [discriminate|]. split; [intros _ _ X; congruence|].
    exists w1, (Ok lv). split; [reflexivity|]. split; [exact G1|]. split; [discriminate|]. intros _ HH. right. destruct (TE HH) as [A ->]. auto.
Qed.
