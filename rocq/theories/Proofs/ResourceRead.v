(** Resource: reading (C54), deleting (C55), erase (C58), copy (C59). *)
From Coq Require Import Permutation.
From Verif Require Import Model.Py Model.Terms Model.Graph Model.GraphRun Model.Codec Model.Curie Model.Resource Model.ResourceRun
  Spec.GraphSpec Spec.CurieSpec Spec.ResourceSpec
  Proofs.DictLemmas Proofs.GraphInv Proofs.GraphHist Proofs.CurieLemmas Proofs.CurieMore Proofs.LangLemmas Proofs.ResourceLemmas Proofs.ClassLemmas.
Open Scope N_scope.

(** selecting by class *)
Lemma rdf_type_means : forall w c tp, winv w -> valid w c -> key_means w c (s2l "rdf:type") tp ->
  resolve w c (s2l "rdf:type") = Ok (Some tp) /\ tp <> [].
Proof.
  intros w c tp I V M. apply resolve_means in M. split; [exact M|].
  destruct (resolve_rdf w c 116 (s2l "ype") I V) as (ns & R & _). change (s2l "rdf:" ++ 116 :: s2l "ype") with (s2l "rdf:type") in R.
  rewrite R in M. injection M as <-. intro X. apply app_eq_nil in X. destruct X as [_ X]. discriminate X.
Qed.
Lemma select_class : forall ord w c g s t k p tp, reachable g -> honoured (Some s) -> p <> [] -> key_means w c t p ->
  shuffle ord -> wreach w -> valid w c -> written w k -> key_means w c (s2l "rdf:type") tp ->
  ~ has (g_triples g) s p empty_iri ->
  exists w' x, objects_for_key ord w c g s (KPair t (FClass k)) = (w', x) /\ extends w w' /\
    (x = Err TypeError \/
     exists os, x = Ok (Some p, os) /\
       lists os (selected (g_triples g) s p (scalar w c p) (lang_of w c) (instance w (g_triples g) tp) (KPair t (FClass k)))).
Proof.
  intros ord w c g s t k p tp RG Hs Hp M SH WR V WK MT NE. pose proof (reachable_wf _ RG) as W. pose proof (wreach_if_inv _ _ WR) as I.
  destruct (rdf_type_means _ _ _ I V MT) as [RT NT].
  unfold objects_for_key. rewrite (interpret_ok _ _ (KPair t (FClass k)) p M). cbn [objects_by_type].
  destruct (instances ord w c g k (objs g s (Some p))) as [w' x] eqn:E. pose proof (all_lists g s p W Hs Hp) as AL.
  assert (HO : forall o, In o (objs g s (Some p)) -> honoured (Some o)).
  { intros o J. apply AL in J. intros [= ->]. exact (NE J). }
  destruct (instances_spec ord c g k tp SH W NT _ _ _ _ I (wreach_cached _ WR) V WK RT HO E) as (I' & C' & X' & Y).
  exists w', (do os <- x; Ok (Some p, os)). split; [reflexivity|]. split; [exact X'|].
  destruct x as [os|e]; cbn [bind]; [|left; now rewrite Y]. right. exists os. split; [reflexivity|]. destruct Y as [[YN _] Y].
  split; [apply YN, AL|]. intro o. rewrite Y. unfold selected, fits_key. destruct AL as [_ AL]. now rewrite AL.
Qed.

Lemma lists_nil {A} : forall (P : A -> Prop), lists [] P -> forall x, ~ P x.
Proof. intros P [_ H] x X. apply H in X. destruct X. Qed.
Lemma one_lists {A} : forall (l : list A) P, lists l P ->
  ((forall x, ~ P x) -> one_or_none l = Ok None) /\
  (forall x, P x -> (forall y, P y -> y = x) -> one_or_none l = Ok (Some x)) /\
  (forall x y, P x -> P y -> x <> y -> one_or_none l = Err ValueError).
Proof.
  intros l P [ND H]. split; [|split].
  - intro N. destruct l as [|a l]; [reflexivity|]. exfalso. apply (N a). apply H. now left.
  - intros x X U. destruct l as [|a [|b l]]; cbn.
    + apply H in X. destruct X.
    + rewrite (U a) by (apply H; now left). reflexivity.
    + exfalso. inversion ND as [|? ? N1 N2]; subst. apply N1. rewrite (U a), <- (U b); [now left| |]; apply H; cbn; auto.
  - intros x y X Y N. apply H in X. apply H in Y. destruct l as [|a [|b l]]; cbn; [destruct X| |reflexivity].
    exfalso. destruct X as [<-|[]], Y as [<-|[]]. now apply N.
Qed.
Lemma read_selection : forall ord w c g s k p inst, reachable g -> honoured (Some s) -> p <> [] -> key_means w c (key_text k) p ->
  class_key k = None ->
  let sel := selected (g_triples g) s p (scalar w c p) (lang_of w c) inst k in
  exists os, lists os sel /\
    (exists b, contains ord w c g s k = (w, Ok b) /\ (b = true <-> exists o, sel o)) /\
    (~ scalar w c p \/ unfiltered k -> getitem ord w c g s k = (w, Ok (Many os))) /\
    (scalar w c p -> ~ unfiltered k ->
       ((forall o, ~ sel o) -> getitem ord w c g s k = (w, Ok (One RNone))) /\
       (forall o, sel o -> (forall o', sel o' -> o' = o) ->
          getitem ord w c g s k = let '(w', x) := classify ord w c g o in (w', do v <- x ; Ok (One v))) /\
       (forall o o', sel o -> sel o' -> o <> o' -> getitem ord w c g s k = (w, Err ValueError))) /\
    ((forall o, ~ sel o) -> get_scalar ord w c g s k = (w, Ok RNone)) /\
    (forall o, sel o -> (forall o', sel o' -> o' = o) -> get_scalar ord w c g s k = classify ord w c g o) /\
    (forall o o', sel o -> sel o' -> o <> o' -> get_scalar ord w c g s k = (w, Err ValueError)).
Proof.
  intros ord w c g s k p inst RG Hs Hp M CK sel. pose proof (reachable_wf _ RG) as W.
  destruct (select_plain ord w c g s k p inst W Hs Hp M CK) as (os & E & L). fold sel in L. exists os. split; [exact L|].
  destruct (one_lists _ _ L) as (O1 & O2 & O3).
  assert (U : match k with KPair _ FNone => true | _ => false end = true <-> unfiltered k).
  { unfold unfiltered. destruct k as [t|t [| | |]]; split; try discriminate; eauto; intros (u & X); discriminate X. }
  split; [|split; [|split]].
  - exists (match os with [] => false | _ => true end). split; [unfold contains; rewrite E; reflexivity|]. destruct os as [|o os].
    + split; [discriminate|]. intros (o & X). exfalso. exact (lists_nil _ L o X).
    + split; [|reflexivity]. intros _. exists o. apply L. now left.
  - intros H. unfold getitem. rewrite E. assert (X : negb (in_scalars w c (Some p)) || match k with KPair _ FNone => true | _ => false end = true).
    { apply orb_true_iff. destruct H as [H|H]; [left; apply in_scalars_false in H; now rewrite H|right; now apply U]. }
    now rewrite X.
  - intros H NU. unfold getitem. rewrite E.
    assert (X : negb (in_scalars w c (Some p)) || match k with KPair _ FNone => true | _ => false end = false).
    { apply orb_false_iff. split; [apply in_scalars_spec in H; now rewrite H|]. destruct (match k with KPair _ FNone => true | _ => false end) eqn:Q; [|reflexivity].
      exfalso. apply NU. now apply U. }
    rewrite X. split; [|split].
    + intro N. rewrite (O1 N). reflexivity.
    + intros o A B. rewrite (O2 o A B). reflexivity.
    + intros o o' A B N. now rewrite (O3 _ _ A B N).
  - unfold get_scalar. rewrite E. split; [|split].
    + intro N. rewrite (O1 N). reflexivity.
    + intros o A B. rewrite (O2 o A B). reflexivity.
    + intros o o' A B N. now rewrite (O3 _ _ A B N).
Qed.
Lemma classify_literal : forall ord w c g v l d, classify ord w c g (Lit v l d) = (w, Ok (RLit (Lit v l d))).
Proof. reflexivity. Qed.

(** keys that name no predicate *)
Lemma resolve_none : forall w c key, resolve w c key = Ok None <->
  (key <> [] /\ ~ In 58 key /\ (forall x, ~ key_means w c key x)).
Proof.
  intros w c key. split.
  - intro H. assert (NM : forall x, ~ key_means w c key x) by (intros x X; apply resolve_means in X; congruence).
    unfold resolve in H. destruct (parse_curie key _) as [x|e] eqn:P; [discriminate|].
    pose proof (proj1 (parse_curie_err _ _ _) P) as Er. destruct Er as [[K ->]|(K & -> & _)]; [discriminate|].
    split; [exact K|]. split; [|exact NM]. intro C. apply str_in_char_spec in C. rewrite C in H.
    destruct (pm_resolve _ _); discriminate.
  - intros (K & C & NM). destruct (resolve w c key) as [[x|]|e] eqn:R; [exfalso; apply (NM x); now apply resolve_means|reflexivity|].
    exfalso. unfold resolve in R. destruct (parse_curie key _) as [x|e'] eqn:P; [discriminate|].
    pose proof (proj1 (parse_curie_err _ _ _) P) as Er. destruct Er as [[K' _]|(_ & -> & _)]; [contradiction|].
    destruct (str_in_char 58 key) eqn:Q; [apply str_in_char_spec in Q; contradiction|discriminate].
Qed.
Lemma resolve_error : forall w c key e, resolve w c key = Err e <->
  (key = [] /\ e = IndexError) \/ (In 58 key /\ (forall x, ~ key_means w c key x) /\ e = ValueError).
Proof.
  intros w c key e. split.
  - intro H. assert (NM : forall x, ~ key_means w c key x) by (intros x X; apply resolve_means in X; congruence).
    unfold resolve in H. destruct (parse_curie key _) as [x|e'] eqn:P; [discriminate|].
    pose proof (proj1 (parse_curie_err _ _ _) P) as Er. destruct Er as [[K ->]|(K & -> & _)].
    + left. split; [exact K|]. now injection H.
    + destruct (str_in_char 58 key) eqn:C; [|discriminate]. apply str_in_char_spec in C. right. split; [exact C|]. split; [exact NM|].
      unfold pm_resolve in H. destruct (parse_curie key (w_gp w)) as [y|e2] eqn:P2; [discriminate|]. cbn in H. injection H as <-.
      pose proof (proj1 (parse_curie_err _ _ _) P2) as Er. destruct Er as [[K2 _]|(_ & -> & _)]; [contradiction|reflexivity].
  - intros [[-> ->]|(C & NM & ->)]; [reflexivity|].
    destruct (resolve w c key) as [[x|]|e'] eqn:R.
    + exfalso. apply (NM x). now apply resolve_means.
    + exfalso. apply resolve_none in R. destruct R as (_ & X & _). contradiction.
    + unfold resolve in R. destruct (parse_curie key _) as [x|e2] eqn:P; [discriminate|].
      pose proof (proj1 (parse_curie_err _ _ _) P) as Er. destruct Er as [[K _]|(K & -> & _)]; [subst; destruct C|].
      pose proof (proj2 (str_in_char_spec 58 key) C) as C'. rewrite C' in R. unfold pm_resolve in R.
      destruct (parse_curie key (w_gp w)) as [y|e3] eqn:P2; [discriminate|]. cbn in R. injection R as <-.
      pose proof (proj1 (parse_curie_err _ _ _) P2) as Er. destruct Er as [[K2 _]|(_ & -> & _)]; [contradiction|reflexivity].
Qed.
Lemma key_error : forall ord w c g s k e, resolve w c (key_text k) = Err e ->
  contains ord w c g s k = (w, Err e) /\ getitem ord w c g s k = (w, Err e) /\ get_scalar ord w c g s k = (w, Err e) /\
  delitem ord w c g s k = (w, g, Err e) /\ forall v, setitem ord w c g s k v = (w, g, Err e).
Proof.
  intros ord w c g s k e H. assert (IK : interpret_key w c k = Err e) by (destruct k; cbn [key_text] in H; unfold interpret_key; rewrite H; reflexivity).
  unfold contains, getitem, get_scalar, delitem, setitem, objects_for_key. rewrite IK. cbn. auto 6.
Qed.

(** ** removing *)
Lemma remove_objs_spec : forall os g s p g' r, reachable g -> remove_objs g s (Some p) os = (g', r) ->
  reachable g' /\ (r = Ok tt \/ r = Err KeyError) /\
  (forall t, In t (g_iter g') -> In t (g_iter g)) /\
  (forall t, In t (g_iter g) -> ~ In t (g_iter g') -> exists o, In o os /\ t = Tr s (Iri p) o) /\
  (r = Ok tt -> forall t, In t (g_iter g') <-> In t (g_iter g) /\ forall o, In o os -> t <> Tr s (Iri p) o) /\
  (NoDup os -> (forall o, In o os -> In (Tr s (Iri p) o) (g_iter g)) -> r = Ok tt).
Proof.
  induction os as [|o os IH]; intros g s p g' r R H; cbn [remove_objs] in H.
  - inversion H; subst. split; [exact R|]. split; [now left|]. split; [auto|]. split; [intros; contradiction|]. split; [|auto].
    intros _ t. split; [intro; split; [assumption|intros o []]|tauto].
  - pose proof (remove_outcome g (Tr s (Iri p) o) R) as [A B].
    assert (RR : reachable (fst (g_remove g (Tr s (Iri p) o)))) by (apply (reach_step g (OpRemove (Tr s (Iri p) o)) R); reflexivity).
    destruct (in_dec stmt_eq_dec (Tr s (Iri p) o) (g_iter g)) as [i|n].
    + destruct (A i) as (g1 & E & L1). rewrite E in H, RR. cbn [fst] in RR. destruct (IH g1 s p g' r RR H) as (R' & T & S1 & S2 & S3 & S4).
      destruct L1 as [_ L1]. split; [exact R'|]. split; [exact T|]. split; [|split; [|split]].
      * intros t Q. apply S1 in Q. apply L1 in Q. tauto.
      * intros t Q N. destruct (stmt_eq_dec t (Tr s (Iri p) o)) as [->|NE]; [exists o; split; [now left|reflexivity]|].
        destruct (S2 t) as (o' & J & Eo); [apply L1; auto|exact N|]. exists o'. split; [now right|exact Eo].
      * intros Q t. rewrite (S3 Q t), L1. split.
        -- intros [[U1 U2] U3]. split; [exact U1|]. intros o' [<-|J]; [exact U2|now apply U3].
        -- intros [U1 U2]. split; [split; [exact U1|apply U2; now left]|]. intros o' J. apply U2. now right.
      * intros ND P. inversion ND; subst. apply S4; [assumption|]. intros o' J. apply L1. split; [apply P; now right|].
        intros [= ->]. contradiction.
    + rewrite (B n) in H. inversion H; subst. split; [exact R|]. split; [now right|]. split; [auto|]. split; [intros; contradiction|].
      split; [discriminate|]. intros _ P. exfalso. apply n. apply P. now left.
Qed.
Lemma delete_selection : forall ord w c g s k p inst, reachable g -> honoured (Some s) -> p <> [] -> key_means w c (key_text k) p ->
  class_key k = None ->
  exists g', delitem ord w c g s k = (w, g', Ok tt) /\ reachable g' /\
    forall t, In t (g_iter g') <-> In t (g_iter g) /\
      ~ (exists o, selected (g_iter g) s p (scalar w c p) (lang_of w c) inst k o /\ t = Tr s (Iri p) o).
Proof.
  intros ord w c g s k p inst RG Hs Hp M CK. pose proof (reachable_wf _ RG) as W.
  destruct (select_plain ord w c g s k p inst W Hs Hp M CK) as (os & E & L).
  unfold delitem. rewrite E. destruct (remove_objs g s (Some p) os) as [g' r] eqn:Q.
  destruct (remove_objs_spec _ _ _ _ _ _ RG Q) as (R' & _ & _ & _ & S3 & S4).
  assert (r = Ok tt) as -> by (apply S4; [apply L|intros o J; apply L in J; apply J]).
  exists g'. split; [reflexivity|]. split; [exact R'|]. intro t. rewrite (S3 eq_refl t). split.
  - intros [A B]. split; [exact A|]. intros (o & S & ->). apply (B o); [now apply L|reflexivity].
  - intros [A B]. split; [exact A|]. intros o J ->. apply B. exists o. split; [now apply L|reflexivity].
Qed.
Lemma delete_by_class : forall ord w c g s t k p tp, reachable g -> honoured (Some s) -> p <> [] -> key_means w c t p ->
  shuffle ord -> wreach w -> valid w c -> written w k -> key_means w c (s2l "rdf:type") tp ->
  ~ has (g_triples g) s p empty_iri ->
  exists w' g' r, delitem ord w c g s (KPair t (FClass k)) = (w', g', r) /\
    ((r = Err TypeError /\ g' = g) \/
     (r = Ok tt /\ reachable g' /\
      forall x, In x (g_iter g') <-> In x (g_iter g) /\ ~ (exists o, instance w (g_iter g) tp k o /\ x = Tr s (Iri p) o))).
Proof.
  intros ord w c g s t k p tp RG Hs Hp M SH WR V WK MT NE.
  destruct (select_class ord w c g s t k p tp RG Hs Hp M SH WR V WK MT NE) as (w' & x & E & _ & [->|(os & -> & L)]);
    unfold delitem; rewrite E.
  - exists w', g, (Err TypeError). split; [reflexivity|]. left. auto.
  - destruct (remove_objs g s (Some p) os) as [g' r] eqn:Q.
    destruct (remove_objs_spec _ _ _ _ _ _ RG Q) as (R' & _ & _ & _ & S3 & S4).
    assert (r = Ok tt) as -> by (apply S4; [apply L|intros o J; apply L in J; apply J]).
    exists w', g', (Ok tt). split; [reflexivity|]. right. split; [reflexivity|]. split; [exact R'|]. intro y. rewrite (S3 eq_refl y). split.
    + intros [A B]. split; [exact A|]. intros (o & S & ->). apply (B o); [apply L; split; [exact A|exact S]|reflexivity].
    + intros [A B]. split; [exact A|]. intros o J ->. apply B. exists o. split; [apply L in J; apply J|reflexivity].
Qed.
(** colon-less keys that name nothing *)
Lemma colonless : forall ord w c g s t, t <> [] -> ~ In 58 t -> (forall x, ~ key_means w c t x) ->
  getitem ord w c g s (KName t) = (w, Ok (Many (map st_o (g_match g (Some s) None None)))) /\
  contains ord w c g s (KName t) = (w, Ok (match g_match g (Some s) None None with [] => false | _ => true end)) /\
  delitem ord w c g s (KName t) = (w, g, match g_match g (Some s) None None with [] => Ok tt | _ => Err KeyError end).
Proof.
  intros ord w c g s t K C N. assert (R : resolve w c t = Ok None) by (apply resolve_none; auto).
  assert (IK : interpret_key w c (KName t) = Ok (None, None, None, None)) by (unfold interpret_key; rewrite R; reflexivity).
  unfold getitem, contains, delitem, objects_for_key. rewrite IK. cbn [in_scalars negb orb bind snd]. unfold objects, objs.
  cbn [Resource.pred option_map]. split; [reflexivity|].
  destruct (g_match g (Some s) None None) as [|x l]; cbn [map remove_objs]; auto.
Qed.

(** ** erase *)
Lemma remove_all_spec : forall ts g, reachable g -> NoDup ts -> (forall t, In t ts -> In t (g_iter g)) ->
  exists g', remove_all g ts = (g', Ok tt) /\ reachable g' /\ forall t, In t (g_iter g') <-> In t (g_iter g) /\ ~ In t ts.
Proof.
  induction ts as [|t ts IH]; intros g R ND P; cbn [remove_all].
  - exists g. split; [reflexivity|]. split; [exact R|]. intro t. cbn. tauto.
  - inversion ND; subst. destruct (proj1 (remove_outcome g t R) (P t (or_introl eq_refl))) as (g1 & E & [_ L1]).
    assert (T : is_triple t) by exact (wf_triples _ _ (reachable_wf _ R) (P t (or_introl eq_refl))).
    assert (RR : reachable (fst (g_remove g t))) by exact (reach_step g (OpRemove t) R T).
    rewrite E in *. cbn [fst] in RR. destruct (IH g1 RR) as (g' & E' & R' & L'); [assumption| |].
    + intros u U. apply L1. split; [apply P; now right|]. intros ->. contradiction.
    + exists g'. split; [exact E'|]. split; [exact R'|]. intro u. rewrite L', L1. cbn [In]. split.
      * intros [[A B] C]. split; [exact A|]. intros [->|D]; [now apply B|contradiction].
      * intros [A B]. split; [split; [exact A|]|]; intro; apply B; auto.
Qed.
Lemma erase_spec : forall g s, reachable g ->
  exists g', erase g s = (g', Ok tt) /\ reachable g' /\
    forall t, In t (g_iter g') <-> In t (g_iter g) /\ s <> empty_iri /\ st_s t <> s.
Proof.
  intros g s R. pose proof (reachable_wf _ R) as W. destruct (g_match_lists g (Some s) None None W) as [ND L].
  destruct (remove_all_spec (g_match g (Some s) None None) g R ND) as (g' & E & R' & L').
  { intros t J. apply L in J. apply J. }
  exists g'. split; [exact E|]. split; [exact R'|]. intro t. rewrite L', L. unfold fits, agrees. cbn [as_wildcard].
  assert (AN : as_wildcard None = None) by reflexivity. rewrite AN.
  destruct (term_eq_dec s empty_iri) as [->|N].
  - assert (A : as_wildcard (Some empty_iri) = None) by (unfold as_wildcard; destruct (oterm_eq_dec _ _); congruence). rewrite A.
    split; [|intros (_ & X & _); congruence]. intros [J X]. exfalso. apply X. auto.
  - rewrite as_wildcard_honoured by (unfold honoured; congruence). split.
    + intros [J X]. split; [exact J|]. split; [exact N|]. intros <-. apply X. auto.
    + intros (J & _ & X). split; [exact J|]. intros (_ & [Y|Y] & _); [discriminate|congruence].
Qed.

(** ** copy *)
Lemma copy_spec : forall ord w c g s target, reachable g -> honoured (Some s) -> 
  (exists t, In t (g_iter g) /\ st_s t = s) ->
  exists t g', In t (g_iter g) /\ st_s t = s /\ copy ord w c g s target = (w, g', Err AttributeError) /\
    (forall x, In x (g_iter g') <-> In x (g_iter g) \/ x = Tr target (st_p t) (st_o t)) /\
    (forall a b o, as_wildcard a <> None \/ as_wildcard b <> None \/ as_wildcard o <> None ->
       ~ (as_wildcard a <> None /\ as_wildcard b <> None /\ as_wildcard o <> None) -> g_match g' a b o = g_match g a b o).
Proof.
  intros ord w c g s target R Hs (t0 & J0 & E0). pose proof (reachable_wf _ R) as W.
  destruct (g_match_lists g (Some s) None None W) as [ND L]. unfold copy.
  assert (MT : forall t, In t (g_match g (Some s) None None) <-> In t (g_iter g) /\ st_s t = s).
  { intro t. rewrite L. unfold fits, agrees. assert (AN : as_wildcard None = None) by reflexivity. rewrite AN.
    rewrite as_wildcard_honoured by exact Hs. split; [intros (A & [B|B] & _); [discriminate|]; split; [exact A|congruence]|].
    intros [A <-]. auto 6. }
  destruct (g_match g (Some s) None None) as [|t l]; [exfalso; apply (MT t0); auto|].
  exists t. eexists. destruct (proj1 (MT t) (or_introl eq_refl)) as [Jt Et]. split; [exact Jt|]. split; [exact Et|]. split; [reflexivity|]. split.
  - intro x. cbn. rewrite set_add_In. unfold g_iter. tauto.
  - intros a b o H1 H2. unfold g_match, g_contains. cbn [fst g_add_tuple g_triples g_spo g_pos g_osp].
    assert (TW : forall u, oterm_truthy u = true <-> as_wildcard u <> None).
    { intro u. destruct (oterm_truthy u) eqn:E; split; try discriminate; auto.
      - intros _. rewrite as_wildcard_truthy by exact E. destruct u; [discriminate|discriminate].
      - intro X. apply oterm_truthy_false in E. contradiction. }
    rewrite <- !TW in H1, H2. clear TW. destruct (oterm_truthy a) eqn:Ea, (oterm_truthy b) eqn:Eb, (oterm_truthy o) eqn:Eo;
      try (exfalso; intuition congruence); destruct a as [a|], b as [b|], o as [o|]; try discriminate; rewrite ?Ea, ?Eb, ?Eo; reflexivity.
Qed.
Lemma copy_nothing : forall ord w c g s target, reachable g -> honoured (Some s) -> (forall t, In t (g_iter g) -> st_s t <> s) ->
  copy ord w c g s target = let '(w', x) := classify ord w c g target in (w', g, x).
Proof.
  intros ord w c g s target R Hs N. unfold copy. destruct (g_match_lists g (Some s) None None (reachable_wf _ R)) as [ND L].
  destruct (g_match g (Some s) None None) as [|t l]; [reflexivity|]. exfalso.
  destruct (proj1 (L t) (or_introl eq_refl)) as [A [B _]]. rewrite as_wildcard_honoured in B by exact Hs.
  destruct B as [B|B]; [discriminate|]. apply (N t A). congruence.
Qed.
