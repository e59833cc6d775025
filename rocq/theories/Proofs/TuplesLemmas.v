(** Tuple classes: _make, _asdict, _replace, copies (C93); environments (C94). *)
From Coq Require Import Permutation.
From Verif Require Import Model.Py Model.Terms Model.Graph Model.GraphRun Model.Dataset Model.Curie Model.Tuples
  Spec.GraphSpec Spec.DatasetSpec Spec.CurieSpec Spec.TuplesSpec Proofs.LangLemmas Proofs.LangLemmas Proofs.GraphInv Proofs.GraphHist Proofs.DatasetInv Proofs.DatasetHist.
Open Scope N_scope.

Section P.
  Context {A : Type}.
  Lemma dget_some : forall (d : dict str A) k v, dget str_eq_dec d k = Some v -> In (k, v) d.
  Proof.
    induction d as [|[k0 v0] d IH]; intros k v E; cbn in E; [discriminate|]. destruct (str_eq_dec k k0) as [->|]; [injection E as ->; now left|].
    right; auto.
  Qed.
  Lemma dget_none : forall (d : dict str A) k, dget str_eq_dec d k = None -> ~ In k (map fst d).
  Proof.
    induction d as [|[k0 v0] d IH]; intros k E; cbn in E; [tauto|]. destruct (str_eq_dec k k0) as [->|N]; [discriminate|].
    intros [X|X]; [cbn in X; congruence|]. now apply (IH k).
  Qed.
  Lemma dget_in : forall (d : dict str A) k v, NoDup (map fst d) -> In (k, v) d -> dget str_eq_dec d k = Some v.
  Proof.
    induction d as [|[k0 v0] d IH]; intros k v ND J; [destruct J|]. cbn in ND. inversion ND; subst. cbn. destruct J as [J|J].
    - injection J as -> ->. destruct (str_eq_dec k k); congruence.
    - destruct (str_eq_dec k k0) as [->|N]; [|auto]. exfalso. apply H1. apply (in_map fst) in J. exact J.
  Qed.
  Lemma ddel_in : forall (d : dict str A) k x, NoDup (map fst d) -> (In x (ddel str_eq_dec d k) <-> In x d /\ fst x <> k).
  Proof.
    induction d as [|[k0 v0] d IH]; intros k x ND; [cbn; tauto|]. cbn in ND. inversion ND; subst. cbn. destruct (str_eq_dec k k0) as [->|N].
    - split; [|intros [[<-|J] X]; [now destruct X|exact J]]. intro J. split; [now right|]. intros <-. apply H1. now apply in_map.
    - cbn. rewrite IH by exact H2. split; [|tauto]. intros [<-|J]; [|tauto]. split; [now left|]. cbn. congruence.
  Qed.
  Lemma ddel_nodup : forall (d : dict str A) k, NoDup (map fst d) -> NoDup (map fst (ddel str_eq_dec d k)).
  Proof.
    induction d as [|[k0 v0] d IH]; intros k ND; [constructor|]. cbn in ND. inversion ND; subst. cbn. destruct (str_eq_dec k k0); [exact H2|].
    cbn. constructor; [|auto]. intro J. apply in_map_iff in J. destruct J as (x & E & J). apply ddel_in in J; [|exact H2]. apply H1. rewrite <- E. now apply in_map.
  Qed.
  Lemma pops_spec : forall fs (l : list A) kwds rest r, NoDup fs -> length fs = length l -> NoDup (map fst kwds) -> pops kwds fs l = (rest, r) ->
    length r = length l /\ (forall x, In x rest <-> In x kwds /\ ~ In (fst x) fs) /\
    forall f, In f fs -> item_at fs r f = match dget str_eq_dec kwds f with Some v => Some v | None => item_at fs l f end.
  Proof.
    induction fs as [|f fs IH]; intros [|a l] kwds rest r ND LE NK E; try discriminate; cbn [pops] in E.
    - injection E as <- <-. split; [reflexivity|]. split; [cbn; tauto|]. intros f [].
    - inversion ND; subst. destruct (pops (ddel str_eq_dec kwds f) fs l) as [k1 r1] eqn:P. injection E as <- <-.
      destruct (IH l _ _ _ H2 ltac:(now injection LE) (ddel_nodup kwds f NK) P) as (L & R & G).
      split; [cbn; now rewrite L|]. split.
      + intro x. rewrite R, ddel_in by exact NK. cbn. split.
        * intros [[J N1] N2]. split; [exact J|]. intros [X|X]; [congruence|tauto].
        * intros [J N1]. split; [split; [exact J|]|]; intro X; apply N1; [left; congruence|now right].
      + intros f0 [<-|J]; cbn [item_at].
        * assert (R0 : str_eqb f f = true) by now apply str_eqb_spec. rewrite R0. destruct (dget str_eq_dec kwds f); reflexivity.
        * destruct (str_eqb f f0) eqn:Q; [apply str_eqb_spec in Q; subst; contradiction|]. rewrite G by exact J.
          assert (N : f0 <> f) by (intros ->; contradiction).
          destruct (dget str_eq_dec kwds f0) as [v|] eqn:D.
          -- apply dget_some in D. rewrite (dget_in (ddel str_eq_dec kwds f) f0 v); [reflexivity|now apply ddel_nodup|]. apply ddel_in; [exact NK|]. now split.
          -- apply dget_none in D. destruct (dget str_eq_dec (ddel str_eq_dec kwds f) f0) as [v|] eqn:D2; [|reflexivity]. exfalso.
             apply dget_some in D2. apply ddel_in in D2; [|exact NK]. apply D. destruct D2 as [D2 _]. apply (in_map fst) in D2. exact D2.
  Qed.
  Lemma fields_nodup : forall k, NoDup (fields k).
  Proof. intros []; cbn [fields]; repeat constructor; intro H; repeat (destruct H as [H|H]; [discriminate H|]); destruct H. Qed.
  Lemma fields_arity : forall k, length (fields k) = arity k.
  Proof. intros []; reflexivity. Qed.
  Lemma items_wf : forall (x : inst A) d, has_items x d -> length (fields (i_kind x)) = length (i_items x) /\ asdict x = d /\ map fst d = fields (i_kind x).
  Proof. intros x d []; repeat split. Qed.
  Lemma wf_items : forall x : inst A, length (i_items x) = arity (i_kind x) -> exists d, has_items x d.
  Proof.
    intros [k l] L. cbn in L. destruct k; cbn in L; repeat (destruct l as [|? l]; try discriminate L); eexists; constructor.
  Qed.
  Lemma attr_items : forall (x : inst A) d f v, has_items x d -> (attr x f = Some v <-> In (f, v) d).
  Proof.
    intros x d f v H. destruct (items_wf x d H) as (L & E & F). unfold attr.
    assert (G : forall fs (l : list A), NoDup fs -> length fs = length l -> (item_at fs l f = Some v <-> In (f, v) (combine fs l))).
    { clear. induction fs as [|g fs IH]; intros [|a l] ND LE; try discriminate; cbn; [split; [discriminate|tauto]|]. inversion ND; subst.
      destruct (str_eqb g f) eqn:Q.
      - apply str_eqb_spec in Q. subst g. split; [intros [= ->]; now left|]. intros [J|J]; [now injection J as ->|].
        exfalso. apply H1. apply in_combine_l in J. exact J.
      - rewrite IH; [|exact H2|now injection LE]. split; [now right|]. intros [J|J]; [|exact J]. injection J as -> _.
        assert (str_eqb f f = true) by now apply str_eqb_spec. congruence. }
    rewrite G; [|apply fields_nodup|exact L]. fold (asdict x). now rewrite E.
  Qed.
  Lemma make_outcome : forall k (l : list A),
    (length l = arity k -> make k l = Ok (mkI k l) /\ exists d, has_items (mkI k l) d) /\ (length l <> arity k -> make k l = Err TypeError).
  Proof.
    intros k l. unfold make. rewrite fields_arity. destruct (Nat.eqb_spec (length l) (arity k)) as [E|N]; split; intro H; try contradiction.
    - split; [reflexivity|]. now apply wf_items.
    - reflexivity.
  Qed.
  Lemma replace_outcome : forall (x : inst A) d kwds, has_items x d -> NoDup (map fst kwds) ->
    (In (s2l "_self") (map fst kwds) -> replace_ x kwds = Err TypeError) /\
    (~ In (s2l "_self") (map fst kwds) -> (exists f, In f (map fst kwds) /\ ~ In f (map fst d)) -> replace_ x kwds = Err ValueError) /\
    ((forall f, In f (map fst kwds) -> In f (map fst d)) ->
      exists y, replace_ x kwds = Ok y /\ i_kind y = i_kind x /\ (exists d', has_items y d') /\
        forall f v, attr y f = Some v <-> In (f, v) kwds \/ (In (f, v) d /\ ~ In f (map fst kwds))).
  Proof.
    intros x d kwds H NK. destruct (items_wf x d H) as (L & E & F). unfold replace_, dmem.
    destruct (dget str_eq_dec kwds (s2l "_self")) as [v|] eqn:S.
    { assert (J : In (s2l "_self") (map fst kwds)) by (apply dget_some in S; apply (in_map fst) in S; exact S).
      split; [reflexivity|]. split; [contradiction|]. intro Q. exfalso. apply Q in J. rewrite F in J. clear - J. destruct (i_kind x); cbn [fields] in J;
        repeat (destruct J as [J|J]; [discriminate J|]); destruct J. }
    apply dget_none in S. split; [contradiction|].
    destruct (pops kwds (fields (i_kind x)) (i_items x)) as [rest r] eqn:P.
    destruct (pops_spec _ _ _ _ _ (fields_nodup _) L NK P) as (LR & R & G).
    assert (M : make (i_kind x) r = Ok (mkI (i_kind x) r)) by (apply make_outcome; rewrite <- fields_arity; congruence). rewrite M. cbn [bind].
    split.
    - intros _ (f & J & N). destruct rest as [|y rest]; [exfalso|reflexivity]. apply in_map_iff in J. destruct J as ([f0 v] & <- & J).
      apply (R (f0, v)). split; [exact J|]. now rewrite <- F.
    - intro Q. assert (Z : rest = []).
      { destruct rest as [|y rest]; [reflexivity|]. exfalso. destruct (proj1 (R y) (or_introl eq_refl)) as [J N]. apply N. rewrite <- F. apply Q. now apply in_map. }
      subst rest. exists (mkI (i_kind x) r). split; [reflexivity|]. split; [reflexivity|].
      assert (W : length (i_items (mkI (i_kind x) r)) = arity (i_kind (mkI (i_kind x) r))) by (cbn; rewrite <- fields_arity; congruence).
      destruct (wf_items _ W) as [d' H']. split; [now exists d'|]. intros f v.
      destruct (in_dec str_eq_dec f (fields (i_kind x))) as [J|N].
      + unfold attr. cbn [i_kind i_items]. rewrite (G f J). destruct (dget str_eq_dec kwds f) as [b|] eqn:D.
        * pose proof (dget_some _ _ _ D) as D'. split; [intros [= ->]; now left|]. intros [K|[_ K]]; [now rewrite (dget_in _ _ _ NK K) in D|].
          exfalso. apply K. apply (in_map fst) in D'. exact D'.
        * apply dget_none in D. fold (attr x f). rewrite (attr_items x d f v H). split; [now right|]. intros [K|[K _]]; [|exact K]. exfalso. apply D. apply (in_map fst) in K. exact K.
      + split; [intro K; exfalso|].
        * rewrite (attr_items _ d' f v H') in K. apply N. destruct (items_wf _ d' H') as (_ & _ & F'). cbn in F'. rewrite <- F'. apply (in_map fst) in K. exact K.
        * intros [K|[K _]]; exfalso; apply N; rewrite <- F; [apply Q|]; apply (in_map fst) in K; exact K.
  Qed.
  Lemma items_ext : forall (x y : inst A) d d', has_items x d -> has_items y d' -> i_kind x = i_kind y -> (forall f v, In (f, v) d <-> In (f, v) d') -> x = y.
  Proof.
    intros x y d d' H H' K E.
    assert (U : forall f v v', In (f, v) d -> In (f, v') d -> v = v').
    { intros f v v' J J'. apply (attr_items x d f v H) in J. apply (attr_items x d f v' H) in J'. congruence. }
    destruct H, H'; try discriminate K.
    - assert (Es : s = s0) by (apply (U (s2l "subject")); [cbn; auto 6|apply E; cbn; auto 6]). assert (Ep : p = p0) by (apply (U (s2l "predicate")); [cbn; auto 6|apply E; cbn; auto 6]). assert (Eo : o = o0) by (apply (U (s2l "object")); [cbn; auto 6|apply E; cbn; auto 6]). congruence.
    - assert (Es : s = s0) by (apply (U (s2l "subject")); [cbn; auto 6|apply E; cbn; auto 6]). assert (Ep : p = p0) by (apply (U (s2l "predicate")); [cbn; auto 6|apply E; cbn; auto 6]). assert (Eo : o = o0) by (apply (U (s2l "object")); [cbn; auto 6|apply E; cbn; auto 6]). assert (Eg : g = g0) by (apply (U (s2l "graph")); [cbn; auto 6|apply E; cbn; auto 6]). congruence.
    - assert (Ev : v = v0) by (apply (U (s2l "value")); [cbn; auto 6|apply E; cbn; auto 6]). assert (El : l = l0) by (apply (U (s2l "language")); [cbn; auto 6|apply E; cbn; auto 6]). assert (Ed : d = d0) by (apply (U (s2l "datatype")); [cbn; auto 6|apply E; cbn; auto 6]). congruence.
  Qed.
  Lemma dict_nodup : forall (x : inst A) d, has_items x d -> NoDup (map fst d).
  Proof. intros x d H. destruct (items_wf x d H) as (_ & _ & F). rewrite F. apply fields_nodup. Qed.
  Lemma replace_asdict : forall (x y : inst A) d d', has_items x d -> has_items y d' -> i_kind x = i_kind y -> replace_ x (asdict y) = Ok y.
  Proof.
    intros x y d d' H H' K. destruct (items_wf y d' H') as (_ & E & F'). rewrite E. destruct (items_wf x d H) as (_ & _ & F).
    destruct (replace_outcome x d d' H (dict_nodup y d' H')) as (_ & _ & R).
    destruct R as (z & R & KZ & (dz & HZ) & AT); [intros f J; now rewrite F, K, <- F'|]. rewrite R. f_equal.
    apply (items_ext z y dz d' HZ H'); [congruence|]. intros f v. rewrite <- (attr_items z dz f v HZ), AT. split; [|now left].
    intros [J|[J N]]; [exact J|]. exfalso. apply N. rewrite F', <- K, <- F. apply (in_map fst) in J. exact J.
  Qed.
  (** a later replacement wins *)
  Lemma replace_twice : forall (x y : inst A) d k1 k2, has_items x d -> NoDup (map fst k1) -> NoDup (map fst k2) ->
    (forall f, In f (map fst k1) -> In f (map fst d)) -> (forall f, In f (map fst k2) -> In f (map fst k1)) -> replace_ x k1 = Ok y -> replace_ y k2 = replace_ x (k2 ++ filter (fun kv => negb (dmem str_eq_dec k2 (fst kv))) k1).
  Proof.
    intros x y d k1 k2 H N1 N2 S1 S2 E. destruct (replace_outcome x d k1 H N1) as (_ & _ & R). destruct (R S1) as (y1 & E1 & K & (d' & H') & AT). rewrite E1 in E. injection E as ->.
    destruct (items_wf x d H) as (_ & _ & F). destruct (items_wf y d' H') as (_ & _ & F').
    assert (S3 : forall f, In f (map fst k2) -> In f (map fst d')) by (intros f J; rewrite F', K, <- F; auto).
    destruct (replace_outcome y d' k2 H' N2) as (_ & _ & R2). destruct (R2 S3) as (y2 & E2 & K2 & (d2 & H2) & AT2). rewrite E2.
    set (k3 := k2 ++ _).
    assert (M : forall f, dmem str_eq_dec k2 f = true <-> In f (map fst k2)).
    { intro f. unfold dmem. destruct (dget str_eq_dec k2 f) eqn:D; [apply dget_some in D; apply (in_map fst) in D; cbn in D; tauto|]. apply dget_none in D. split; [discriminate|contradiction]. }
    assert (IN3 : forall f v, In (f, v) k3 <-> In (f, v) k2 \/ (In (f, v) k1 /\ ~ In f (map fst k2))).
    { intros f v. unfold k3. rewrite in_app_iff, filter_In. cbn. rewrite negb_true_iff, <- M. destruct (dmem str_eq_dec k2 f); intuition congruence. }
    assert (N3 : NoDup (map fst k3)).
    { unfold k3. rewrite map_app.
      assert (NF : NoDup (map fst (filter (fun kv : str * A => negb (dmem str_eq_dec k2 (fst kv))) k1))).
      { clear - N1. induction k1 as [|a k1 IH]; cbn; [constructor|]. cbn in N1. inversion N1; subst. destruct (negb _); [|auto]. cbn. constructor; [|auto].
        intro J. apply H1. apply in_map_iff in J. destruct J as (z & <- & J). apply filter_In in J. now apply in_map. }
      clear - N2 NF M. revert NF. set (q := filter _ k1). assert (D : forall f, In f (map fst q) -> ~ In f (map fst k2)).
      { intros f J. apply in_map_iff in J. destruct J as (z & <- & J). apply filter_In in J. destruct J as [_ J]. rewrite negb_true_iff in J. rewrite <- M. congruence. }
      clearbody q. clear M. intro NF. induction (map fst k2) as [|a l IH]; [exact NF|]. inversion N2; subst. cbn. constructor.
      - rewrite in_app_iff. intros [J|J]; [contradiction|]. apply (D a J). now left.
      - apply IH; [exact H2|]. intros f J K. apply (D f J). now right. }
    destruct (replace_outcome x d k3 H N3) as (_ & _ & R3).
    destruct R3 as (y3 & E3 & K3 & (d3 & H3) & AT3).
    { intros f J. apply in_map_iff in J. destruct J as ([f0 v] & <- & J). apply IN3 in J. apply S1. cbn. destruct J as [J|[J _]]; apply (in_map fst) in J; [apply S2|]; exact J. }
    rewrite E3. f_equal. apply (items_ext y2 y3 d2 d3 H2 H3); [congruence|]. intros f v.
    rewrite <- (attr_items y2 d2 f v H2), <- (attr_items y3 d3 f v H3), AT2, AT3, IN3, <- (attr_items y d' f v H'), AT.
    assert (KEY : In f (map fst k3) <-> In f (map fst k1)).
    { split; intro J; apply in_map_iff in J; destruct J as ([f0 v0] & <- & J); cbn.
      - apply IN3 in J. destruct J as [J|[J _]]; apply (in_map fst) in J; [now apply S2|exact J].
      - destruct (in_dec str_eq_dec f0 (map fst k2)) as [Q|Q].
        + apply in_map_iff in Q. destruct Q as ([f1 v1] & Q1 & Q). cbn in Q1. subst f1. assert (In (f0, v1) k3) by (apply IN3; now left). apply (in_map fst) in H0. exact H0.
        + assert (In (f0, v0) k3) by (apply IN3; now right). apply (in_map fst) in H0. exact H0. }
    rewrite KEY. specialize (S2 f). tauto.
  Qed.
End P.

Lemma copy_outcome : forall (x : inst fval) d, has_items x d ->
  (i_kind x <> KLiteral -> copied x = Ok x) /\
  (forall v l t, x = mkI KLiteral [v; l; t] ->
     (forall s, v = FPy (VStr s) \/ v = FTerm (Iri s) -> copied x = Ok x) /\
     (forall z, v = FPy (VInt z) -> exists ds, dec_value ds = Some z /\ canonical_int ds /\
        copied x = Ok (mkI KLiteral [FPy (VStr ds); l; match t with FNone => FTerm (Iri (s2l "http://www.w3.org/2001/XMLSchema#integer")) | _ => t end])) /\
     (forall iso, v = FPy (VDatetime iso) -> copied x = Ok (mkI KLiteral [FPy (VStr iso); l; match t with FNone => FTerm (Iri (s2l "http://www.w3.org/2001/XMLSchema#dateTime")) | _ => t end])) /\
     ((forall s, v <> FPy (VStr s) /\ v <> FTerm (Iri s)) -> (forall z, v <> FPy (VInt z)) -> (forall iso, v <> FPy (VDatetime iso)) -> copied x = Err KeyError)).
Proof.
  intros x d H. split.
  - destruct H; intro N; try reflexivity. now destruct N.
  - intros v l t ->. split; [intros s [-> | ->]; reflexivity|]. split; [intros z ->; exists (int_str z); split; [apply dec_int_str|]; split; [apply int_str_canonical|]; now destruct t|].
    split; [intros iso ->; now destruct t|]. intros A B C.
    destruct v as [|[s|a|s l0 d0]|[s|z|i|]]; try reflexivity; exfalso; try (destruct (A s) as [A1 A2]; congruence); [now apply (B z)|now apply (C i)].
Qed.
(** whatever the classes' own constructors made is copied faithfully *)
Lemma copy_constructed : forall k args x, new_inst k args = Ok x -> copied x = Ok x.
Proof.
  intros k args x E.
  assert (CV : forall v d x, convert v d = Ok x -> convert (fst x) (snd x) = Ok x).
  { clear. intros v d x E. destruct v as [|[s|a|s l0 d0]|[s|z|i|]]; try discriminate E; injection E as <-; reflexivity. }
  assert (CL : forall v l d x0, convert v d = Ok x0 -> copied (mkI KLiteral [fst x0; l; snd x0]) = Ok (mkI KLiteral [fst x0; l; snd x0])).
  { intros v l d x0 Q. apply CV in Q. unfold copied. cbn [i_kind i_items new_inst]. rewrite Q. reflexivity. }
  destruct k; cbn in E; repeat (destruct args as [|? args]; try discriminate E); try (injection E as <-; reflexivity);
    match type of E with context [convert ?v ?d] => destruct (convert v d) as [x0|] eqn:Q; cbn in E; [|discriminate] end; injection E as <-; eapply CL; exact Q.
Qed.

(** ** environments *)
Lemma env_graph : forall ts, (forall t, In t ts -> is_triple t) -> lists (g_iter (create_graph ts)) (fun t => In t ts) /\ reachable (create_graph ts).
Proof.
  intros ts T. split.
  - pose proof (graph_is_a_set None [OpAddAll ts]) as G. cbv zeta in G. destruct G as (_ & G & _); [constructor; [exact T|constructor]|].
    unfold create_graph. cbn [g_run fold_left g_step] in G. destruct G as [ND G]. split; [exact ND|]. intro t. rewrite G. cbn. tauto.
  - apply (reach_step (graph_new None) (OpAddAll ts) (reach_new None)). exact T.
Qed.
Lemma env_dataset : forall qs, (forall q, In q qs -> is_quad q) ->
  exists w, create_dataset [] qs = (w, Ok tt) /\ lists (ds_iter w) (fun q => In q qs).
Proof.
  intros qs Q. pose proof (dataset_is_a_set [QAddAll qs]) as G. cbv zeta in G. destruct G as (G & _); [constructor; [exact Q|constructor]|].
  cbn [map dop_of ds_run fold_left ds_step] in G. unfold create_dataset in *.
  assert (E : snd (ds_addAll (ds_new []) qs) = Ok tt).
  { clear G. generalize (ds_new []). induction qs as [|q qs IH]; intro w; [reflexivity|]. cbn [ds_addAll].
    destruct (Q q (or_introl eq_refl)) as [n N]. unfold ds_add. rewrite (ltac:(unfold quad_graph; now rewrite N) : quad_graph q = Ok n).
    destruct (ds_touch w n) as [w1 i]. destruct (ds_touch _ n) as [w3 j]. apply IH. intros q' J. apply Q. now right. }
  destruct (ds_addAll (ds_new []) qs) as [w r]. cbn in E, G. subst r. exists w. split; [reflexivity|]. destruct G as [ND G]. split; [exact ND|]. intro q. rewrite G. cbn. tauto.
Qed.
(** one triple among the quads: AttributeError *)
Lemma env_dataset_triple : forall qs, (exists q, In q qs /\ st_graph q = None) -> snd (create_dataset [] qs) = Err AttributeError.
Proof.
  intros qs (q & J & N). unfold create_dataset. generalize (ds_new []). induction qs as [|q0 qs IH]; intro w; [destruct J|]. cbn [ds_addAll].
  unfold ds_add, quad_graph. destruct (st_graph q0) as [n|] eqn:G; [|reflexivity].
  destruct (ds_touch w n) as [w1 i]. destruct (ds_touch _ n) as [w3 j]. apply IH. destruct J as [->|J]; [congruence|exact J].
Qed.
