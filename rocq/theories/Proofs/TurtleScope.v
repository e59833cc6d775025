(** Scope of prefixes and of the base (C51). *)
From Verif Require Import Model.Py Model.Terms Model.Graph Model.Codec Model.NTriples Model.Curie Model.TurtleTree
  Model.Turtle Spec.CodecSpec Spec.CurieSpec Spec.ProfileSpec Spec.TurtleSpec Proofs.DictLemmas Proofs.CodecLemmas Proofs.CurieLemmas
  Proofs.ProfileLemmas Proofs.TurtleLemmas Proofs.TurtleSem Proofs.TurtleDoc.
Open Scope N_scope.

Lemma e_doc_app : forall uj a b st st1 r1, e_doc uj st a = (st1, Ok r1) ->
  e_doc uj st (a ++ b) = (let '(st2, r2) := e_doc uj st1 b in (st2, bind r2 (fun l => Ok (r1 ++ l)))).
Proof.
  induction a as [|x a IH]; intros b st st1 r1 H; cbn [app e_doc] in *.
  - injection H as <- <-. destruct (e_doc uj st b) as [s [l|]]; reflexivity.
  - destruct (e_stmt uj st x) as [s1 [y|]]; [|discriminate]. destruct (e_doc uj s1 a) as [s2 ys] eqn:E. injection H as -> H.
    apply bind_ok in H. destruct H as (zs & -> & H). rewrite (IH _ _ _ _ E). destruct (e_doc uj st1 b) as [s3 [l|]]; cbn [bind]; [|reflexivity].
    injection H as <-. destruct y; reflexivity.
Qed.
Lemma e_doc_split : forall uj a b st st' r, e_doc uj st (a ++ b) = (st', Ok r) ->
  exists st1 r1 r2, e_doc uj st a = (st1, Ok r1) /\ e_doc uj st1 b = (st', Ok r2) /\ r = r1 ++ r2.
Proof.
  induction a as [|x a IH]; intros b st st' r H; cbn [app e_doc] in *.
  - exists st, [], r. auto.
  - destruct (e_stmt uj st x) as [s1 [y|]]; [|discriminate]. destruct (e_doc uj s1 (a ++ b)) as [s2 ys] eqn:E. injection H as -> H.
    apply bind_ok in H. destruct H as (zs & -> & H). injection H as <-. destruct (IH _ _ _ _ E) as (st1 & r1 & r2 & E1 & E2 & ->).
    rewrite E1. exists st1, (match y with Some z => z :: r1 | None => r1 end), r2. cbn [bind]. split; auto. split; auto. destruct y; reflexivity.
Qed.
Lemma stmt_keeps : forall uj st x st' y, e_stmt uj st x = (st', Ok y) ->
  (forall ns, ~ binds ns x -> dget str_eq_dec (ts_pm st') ns = dget str_eq_dec (ts_pm st) ns) /\
  (~ rebases x -> ts_base st' = ts_base st).
Proof.
  intros uj st x st' y H. destruct x as [ns body|body|s p]; cbn [e_stmt binds rebases] in *.
  - destruct (bind _ _); [|discriminate]. injection H as <- _. cbn. split; auto. intros. apply dget_dset_neq. auto.
  - destruct (bind _ _); [|discriminate]. injection H as <- _. cbn. split; auto; tauto.
  - destruct (e_obj _ _ _ _ _) as [b1 [v|]]; [|discriminate]. destruct (e_pol _ _ _ _ _) as [b2 q]. injection H as <- _. auto.
Qed.
Lemma doc_keeps : forall uj doc st st' y, e_doc uj st doc = (st', Ok y) ->
  (forall ns, (forall x, In x doc -> ~ binds ns x) -> dget str_eq_dec (ts_pm st') ns = dget str_eq_dec (ts_pm st) ns) /\
  ((forall x, In x doc -> ~ rebases x) -> ts_base st' = ts_base st).
Proof.
  intros uj. induction doc as [|x r IH]; intros st st' y H; cbn [e_doc] in H.
  - injection H as <- _. auto.
  - destruct (e_stmt uj st x) as [s1 [z|]] eqn:E; [|discriminate]. destruct (e_doc uj s1 r) as [s2 ys] eqn:E2. injection H as -> H.
    apply bind_ok in H. destruct H as (zs & -> & _). destruct (IH _ _ _ E2) as [A B]. destruct (stmt_keeps _ _ _ _ _ E) as [C D].
    split.
    + intros ns Q. rewrite A, C; auto; intros; apply Q; cbn; auto.
    + intros Q. rewrite B, D; auto; intros; apply Q; cbn; auto.
Qed.
Lemma prefix_latest : forall uj st pre ns body mid st' r,
  e_doc uj st (pre ++ SPrefix ns body :: mid) = (st', Ok r) -> (forall x, In x mid -> ~ binds ns x) ->
  exists st1 r1 iri, e_doc uj st pre = (st1, Ok r1) /\ bind (decode_iriref body) (smart_urljoin uj (ts_base st1)) = Ok iri /\
    dget str_eq_dec (ts_pm st') ns = Some iri.
Proof.
  intros uj st pre ns body mid st' r H NB. destruct (e_doc_split _ _ _ _ _ _ H) as (st1 & r1 & r2 & E1 & E2 & _).
  cbn [e_doc e_stmt] in E2. destruct (bind (decode_iriref body) (fun s => smart_urljoin uj (ts_base st1) s)) as [iri|] eqn:Q; [|discriminate].
  destruct (e_doc uj _ mid) as [s2 ys] eqn:E3 in E2. injection E2 as -> E2. apply bind_ok in E2. destruct E2 as (zs & -> & _).
  exists st1, r1, iri. split; auto. split; auto. destruct (doc_keeps _ _ _ _ _ E3) as [A _]. rewrite A by auto. apply dget_dset_eq.
Qed.
Lemma base_latest : forall uj st pre body mid st' r,
  e_doc uj st (pre ++ SBase body :: mid) = (st', Ok r) -> (forall x, In x mid -> ~ rebases x) ->
  exists st1 r1, e_doc uj st pre = (st1, Ok r1) /\ bind (decode_iriref body) (smart_urljoin uj (ts_base st1)) = Ok (ts_base st').
Proof.
  intros uj st pre body mid st' r H NB. destruct (e_doc_split _ _ _ _ _ _ H) as (st1 & r1 & r2 & E1 & E2 & _).
  cbn [e_doc e_stmt] in E2. destruct (bind (decode_iriref body) (fun s => smart_urljoin uj (ts_base st1) s)) as [iri|] eqn:Q; [|discriminate].
  destruct (e_doc uj _ mid) as [s2 ys] eqn:E3 in E2. injection E2 as -> E2. apply bind_ok in E2. destruct E2 as (zs & -> & _).
  exists st1, r1. split; auto. destruct (doc_keeps _ _ _ _ _ E3) as [_ A]. rewrite A by auto. exact Q.
Qed.

(** an unbound prefix stops the parse *)
Section Unbound.
  Variables (uj : urljoin_fn) (pm : dict str str) (base ns : str).
  Hypothesis (NC : ~ In 58 ns) (UB : dget str_eq_dec pm ns = None).
  Lemma iri_unbound : forall i, iri_uses ns i -> forall s, e_iri uj pm base i <> Ok s.
  Proof.
    intros i [ln ->] s H. cbn [e_iri] in H. unfold prefixed_name in H. destruct (partition (ns ++ 58 :: ln) 58) as [[a c] d] eqn:P.
    apply partition_spec in P. destruct P as [P1 [[_ P2]|[_ [P2 _]]]].
    - destruct (split_unique _ _ _ _ _ NC P1 P2) as [<- _]. rewrite UB in H. discriminate.
    - exfalso. apply P1. rewrite <- P2. apply in_elt.
  Qed.
  Lemma tree_unbound :
    (forall o, obj_uses ns o -> forall b b' v, e_obj uj pm base b o <> (b', Ok v)) /\
    (forall l, objs_use ns l -> forall b b' v, e_objs uj pm base b l <> (b', Ok v)) /\
    (forall p, pol_uses ns p -> forall b b' v, e_pol uj pm base b p <> (b', Ok v)).
  Proof.
    apply tree_ind3; try (cbn [obj_uses objs_use pol_uses]; tauto).
    - intros i U b b' v H. cbn [e_obj] in H. injection H as _ H. apply bind_ok in H. destruct H as (s & H & _). eapply iri_unbound; eauto.
    - intros l IH U b b' v H. rewrite eq_coll in H. destruct (e_objs uj pm base b l) as [b1 r] eqn:E. injection H as _ H. apply bind_ok in H.
      destruct H as (vs & -> & _). eapply IH; eauto.
    - intros p IH U b b' v H. rewrite eq_props in H. destruct (e_pol uj pm base b p) as [b1 r] eqn:E. injection H as _ H. apply bind_ok in H.
      destruct H as (vs & -> & _). eapply IH; eauto.
    - intros x U b b' v H. cbn [e_obj] in H. injection H as _ H. apply bind_ok in H. destruct H as (s & H & _).
      cbn [obj_uses] in U. destruct x as [body [|tag|i]| |]; try contradiction. cbn [lit_uses e_lit] in *.
      apply bind_ok in H. destruct H as (w & _ & H). apply bind_ok in H. destruct H as (d & H & _). eapply iri_unbound; eauto.
    - intros o IHo r IHr U b b' vs H. rewrite eq_ocons in H. destruct (e_obj uj pm base b o) as [b1 [v|x]] eqn:E1; [|discriminate].
      destruct (e_objs uj pm base b1 r) as [b2 y] eqn:E2. injection H as _ H. apply bind_ok in H. destruct H as (vr & -> & _).
      destruct U as [U|U]; [eapply IHo|eapply IHr]; eauto.
    - intros v os IHo r IHr U b b' q H. rewrite eq_pcons in H. destruct (e_verb uj pm base v) as [t|] eqn:EV; [|discriminate].
      destruct (e_objs uj pm base b os) as [b1 [vs|x]] eqn:E1; [|discriminate]. destruct (e_pol uj pm base b1 r) as [b2 y] eqn:E2.
      injection H as _ H. apply bind_ok in H. destruct H as (q' & -> & _). destruct U as [U|[U|U]]; [|eapply IHo; eauto|eapply IHr; eauto].
      destruct v as [|i]; [contradiction|]. cbn [verb_uses e_verb] in *. apply bind_ok in EV. destruct EV as (s & EV & _). eapply iri_unbound; eauto.
  Qed.
End Unbound.
Lemma unbound_fails : forall uj n base pre s p post ns, ~ In 58 ns -> ns <> s2l "rdf" -> ns <> s2l "xsd" ->
  (forall x, In x pre -> ~ binds ns x) -> obj_uses ns s \/ pol_uses ns p ->
  exists n', turtle_run uj n base (pre ++ STriples s p :: post) = (n', Err VisitError).
Proof.
  intros uj n base pre s p post ns NC NR NX NB U. unfold turtle_run. destruct (e_doc uj (ts_new n base) _) as [st [l|err]] eqn:E; [|eauto].
  exfalso. destruct (e_doc_split _ _ _ _ _ _ E) as (st1 & r1 & r2 & E1 & E2 & _). destruct (doc_keeps _ _ _ _ _ E1) as [K _].
  assert (UB : dget str_eq_dec (ts_pm st1) ns = None).
  { rewrite K by auto. unfold ts_new. cbn [ts_pm dget]. repeat destruct (str_eq_dec _ _); congruence. }
  cbn [e_doc e_stmt] in E2. destruct (e_obj _ _ _ _ _) as [b1 [v|]] eqn:Q1 in E2; [|discriminate].
  destruct (e_pol _ _ _ _ _) as [b2 [q|]] eqn:Q2 in E2; [|discriminate].
  destruct U as [U|U]; [eapply (proj1 (tree_unbound uj _ (ts_base st1) ns NC UB)); eauto|eapply (proj2 (proj2 (tree_unbound uj _ (ts_base st1) ns NC UB))); eauto].
Qed.

(** ** the maps of other profiles *)
Lemma doc_writes_pm : forall uj doc st st' r, e_doc uj st doc = (st', r) -> ts_pm st' = dupdate str_eq_dec (ts_pm st) (doc_writes uj st doc).
Proof.
  intros uj. induction doc as [|x d IH]; intros st st' r H; cbn [e_doc doc_writes] in *.
  - injection H as <- _. auto.
  - destruct (e_stmt uj st x) as [s1 [z|]] eqn:E.
    + destruct (e_doc uj s1 d) as [s2 ys] eqn:E2. injection H as -> _. rewrite (IH _ _ _ E2).
      destruct x as [ns body|body|s p]; cbn [e_stmt] in E.
      * destruct (bind _ _); [|discriminate]. injection E as <- _. reflexivity.
      * destruct (bind _ _); [|discriminate]. injection E as <- _. reflexivity.
      * destruct (e_obj _ _ _ _ _) as [b1 [v|]]; [|discriminate]. destruct (e_pol _ _ _ _ _) as [b2 q]. injection E as <- _. reflexivity.
    + injection H as <- _. destruct x as [ns body|body|s p]; cbn [e_stmt] in E.
      * destruct (bind _ _); [discriminate|]. injection E as <- _. reflexivity.
      * destruct (bind _ _); [discriminate|]. injection E as <- _. reflexivity.
      * destruct (e_obj _ _ _ _ _) as [b1 [v|]]; [|injection E as <- _; reflexivity]. destruct (e_pol _ _ _ _ _) as [b2 q]. injection E as <- _. reflexivity.
Qed.
Lemma parser_new_eq : forall h, heap_ok h ->
  parser_new h = mkH (h_pms h ++ [[(s2l "rdf", rdf_ns); (s2l "xsd", xsd_ns)]]) (h_tms h ++ [mkTM [] None; mkTM [] None])
                     (h_profs h ++ [(length (h_pms h), length (h_tms h)); (length (h_pms h), S (length (h_tms h)))]).
Proof.
  assert (NA : forall {A} (l r : list A) x d, nth (length l) (l ++ x :: r) d = x).
  { intros. rewrite app_nth2, Nat.sub_diag; auto. }
  assert (UA : forall {A} (l r : list A) x y, upd (l ++ x :: r) (length l) y = l ++ y :: r).
  { induction l as [|a l IH]; intros; cbn; auto. now rewrite IH. }
  intros h OK. unfold parser_new, prun. cbn [fold_left pstep profile_new pm_alloc tm_alloc fst].
  unfold pm_put, pm_at, tm_at, prof. cbn [h_pms h_tms h_profs fst snd]. rewrite !NA, !UA. cbn [h_pms h_tms h_profs fst snd]. rewrite ?NA, ?UA.
  set (m := add_missing _ _ _). change m with [(s2l "rdf", rdf_ns); (s2l "xsd", xsd_ns)]. cbn [h_pms h_tms h_profs fst snd tm_items]. rewrite ?NA, ?UA.
  unfold tm_alloc. cbn [h_pms h_tms h_profs fst snd tm_items]. rewrite ?NA, ?UA, ?app_length, <- ?app_assoc. cbn [app length].
  unfold profile_new, pm_at, tm_at. cbn [h_pms h_tms h_profs fst snd]. rewrite ?NA. cbn [tm_items].
  unfold tm_alloc, pm_put, pm_at. cbn [h_pms h_tms h_profs fst snd tm_items]. rewrite ?NA, ?UA. cbn [h_pms h_tms h_profs fst snd]. rewrite ?NA, ?UA.
  cbn [tm_items h_pms h_tms h_profs fst snd]. rewrite ?NA, ?UA.
  set (m1 := add_missing _ (s2l "rdf") rdf_ns). change m1 with [(s2l "rdf", rdf_ns); (s2l "xsd", xsd_ns)].
  cbn [h_pms h_tms h_profs fst snd]. rewrite ?NA, ?UA.
  set (m2 := add_missing _ (s2l "xsd") xsd_ns). change m2 with [(s2l "rdf", rdf_ns); (s2l "xsd", xsd_ns)].
  rewrite ?app_length, <- ?app_assoc. cbn [app length]. rewrite Nat.add_comm. reflexivity.
Qed.

Lemma set_prefixes : forall i ws h, heap_ok h -> (i < length (h_profs h))%nat ->
  let h' := prun h (map (fun w => SetPrefix i (fst w) (snd w)) ws) in
  pm_at h' (fst (prof h i)) = dupdate str_eq_dec (prof_pm h i) ws /\ (forall a, a <> fst (prof h i) -> pm_at h' a = pm_at h a) /\ h_tms h' = h_tms h /\ h_profs h' = h_profs h.
Proof.
  intros i. induction ws as [|[k v] ws IH]; intros h OK L; cbn [map prun fold_left fst snd]; auto.
  assert (OK' : heap_ok (pstep h (SetPrefix i k v))) by (apply pstep_ok; auto).
  destruct (IH (pstep h (SetPrefix i k v)) OK' L) as (A & B & C & D). destruct (prof_range h i OK L) as [P _].
  change (prof (pstep h (SetPrefix i k v)) i) with (prof h i) in *. unfold prun in *. split; [|split; [|split; [exact C|exact D]]].
  - rewrite A. unfold prof_pm at 1. change (prof (pstep h (SetPrefix i k v)) i) with (prof h i). cbn [pstep].
    rewrite pm_at_put by auto. destruct (Nat.eq_dec _ _); [|congruence]. reflexivity.
  - intros a NA. rewrite B by auto. cbn [pstep]. rewrite pm_at_put by auto. destruct (Nat.eq_dec _ _); congruence.
Qed.
Lemma parser_isolated : forall uj h n base doc, reach h ->
  let me := S (length (h_profs h)) in
  let h' := parser_heap uj h n base doc in
  prof_pm (parser_new h) me = ts_pm (ts_new n base) /\ (forall st r, e_doc uj (ts_new n base) doc = (st, r) -> prof_pm h' me = ts_pm st) /\ (forall a, (a < length (h_pms h))%nat -> pm_at h' a = pm_at h a) /\ (forall a, (a < length (h_tms h))%nat -> tm_at h' a = tm_at h a) /\ (forall i, (i < length (h_profs h))%nat -> prof h' i = prof h i).
Proof.
  intros uj h n base doc RE me h'. apply reach_ok in RE. assert (E := parser_new_eq h RE). set (p := parser_new h) in *.
  assert (OK : heap_ok p).
  { unfold p, parser_new. apply prun_ok; auto. cbn [valid_run]. split; [|split; auto].
    - split; intros; discriminate.
    - cbn [pop_ok]. destruct (profile_new_spec h None None) as (a & b & [X _ _ _ _] & _); [split; intros; discriminate|].
      cbn [pstep]. rewrite X, app_length. cbn. lia. }
  assert (L : (me < length (h_profs p))%nat) by (rewrite E; cbn; rewrite app_length; cbn; unfold me; lia).
  assert (PM : prof p me = (length (h_pms h), S (length (h_tms h)))).
  { rewrite E. unfold prof. cbn [h_profs]. rewrite app_nth2 by (unfold me; lia). unfold me. rewrite Nat.sub_succ_l, Nat.sub_diag by lia. reflexivity. }
  destruct (set_prefixes me (doc_writes uj (ts_new n base) doc) p OK L) as (A & B & C & D). fold (parser_heap uj h n base doc) in A, B, C, D.
  rewrite PM in A, B. cbn [fst] in A, B.
  assert (P0 : prof_pm p me = ts_pm (ts_new n base)).
  { unfold prof_pm. rewrite PM, E. unfold pm_at. cbn [fst h_pms]. rewrite app_nth2, Nat.sub_diag by lia. reflexivity. }
  split; auto. split; [|split; [|split]].
  - intros st r H. unfold prof_pm, prof, h', parser_heap. fold p. fold me. fold p in D. unfold parser_heap in D. fold p me in D. rewrite D.
    fold (prof p me). rewrite PM. cbn [fst]. etransitivity; [exact A|]. rewrite P0. symmetry. eapply doc_writes_pm; eauto.
  - intros a La. unfold h'. etransitivity; [apply B; lia|]. rewrite E. unfold pm_at. cbn [h_pms]. now apply app_nth1.
  - intros a La. unfold h', tm_at. etransitivity; [exact (f_equal (fun l => nth a l (mkTM [] None)) C)|]. rewrite E. cbn [h_tms]. now apply app_nth1.
  - intros i Li. unfold h', prof. etransitivity; [exact (f_equal (fun l => nth i l (O, O)) D)|]. rewrite E. cbn [h_profs]. now apply app_nth1.
Qed.
