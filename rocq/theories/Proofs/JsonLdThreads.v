(** Threads that parse JSON-LD with one parser (C127). *)
From Coq Require Import Lia PeanoNat.
From Verif Require Import Model.Py Model.Terms Model.Graph Model.GraphRun Model.GraphThreads Model.Dataset Model.Codec Model.NTriples Model.JsonLd Model.JsonLdRun Model.JsonLdThreads
  Spec.GraphSpec Spec.DatasetSpec Spec.JsonLdSpec Spec.JsonLdThreadSpec Proofs.DictLemmas Proofs.DatasetInv Proofs.DatasetHist Proofs.NTRun Proofs.JsonLdLemmas Proofs.JsonLdRun.
Open Scope N_scope.

Lemma fragment_new : forall st f st' r d i, js_call st = Some (d, i) -> process_fragment st f = (st', r) ->
  exists d', js_call st' = Some (d', i) /\ js_next st <= js_next st' /\ forall l a, lget d' l = Some a -> lget d l = Some a \/ js_next st <= a.
Proof.
  intros st [v|v|v dt lg] st' r d i C E; cbn [process_fragment] in E.
  - injection E as <- _. exists d. split; [exact C|]. split; [lia|auto].
  - rewrite C in E. unfold make_bnode in E. cbn [bs_map bs_next] in E. destruct (lget d v) as [a|] eqn:G.
    + injection E as <- _. exists d. cbn. split; [reflexivity|]. split; [lia|auto].
    + injection E as <- _. eexists. cbn [js_call js_next bs_map bs_next]. split; [reflexivity|]. split; [lia|]. intros l a H. rewrite dget_dset in H. destruct (str_eq_dec _ _); [injection H as <-; right; lia|now left].
  - injection E as <- _. exists d. split; [exact C|]. split; [lia|auto].
Qed.
Lemma triple_new : forall st g t st' r d i, js_call st = Some (d, i) -> process_triple st g t = (st', r) ->
  exists d', js_call st' = Some (d', i) /\ forall l a, lget d' l = Some a -> lget d l = Some a \/ js_next st <= a.
Proof.
  intros st g t st' r d i C E. unfold process_triple in E.
  destruct (process_fragment st (jt_s t)) as [s1 r1] eqn:E1. destruct (fragment_new _ _ _ _ _ _ C E1) as (d1 & C1 & N1 & H1).
  destruct r1 as [x1|e]; [|injection E as <- _; exists d1; split; [exact C1|exact H1]].
  destruct (process_fragment s1 (jt_p t)) as [s2 r2] eqn:E2. destruct (fragment_new _ _ _ _ _ _ C1 E2) as (d2 & C2 & N2 & H2).
  assert (H12 : forall l a, lget d2 l = Some a -> lget d l = Some a \/ js_next st <= a) by (intros l a H; destruct (H2 l a H) as [H'|H']; [now apply H1|right; lia]).
  destruct r2 as [x2|e]; [|injection E as <- _; exists d2; split; [exact C2|exact H12]].
  destruct (process_fragment s2 (jt_o t)) as [s3 r3] eqn:E3. destruct (fragment_new _ _ _ _ _ _ C2 E3) as (d3 & C3 & N3 & H3).
  assert (H13 : forall l a, lget d3 l = Some a -> lget d l = Some a \/ js_next st <= a) by (intros l a H; destruct (H3 l a H) as [H'|H']; [now apply H12|right; lia]).
  exists d3. split; [|exact H13]. destruct r3 as [x3|e]; [|injection E as <- _; exact C3]. unfold make_quad in E. rewrite C3 in E. destruct (ds_add _ _) as [w r']. injection E as <- _. reflexivity.
Qed.
Lemma quad_ext : forall (d d' : dict str N) g t, (forall l a, lget d l = Some a -> lget d' l = Some a) -> Forall (known d) (frags t) -> quad_from (fmap d) g t = quad_from (fmap d') g t.
Proof.
  intros d d' g t X K. assert (FE : forall x, In x (frags t) -> frag_term (fmap d) x = frag_term (fmap d') x).
  { intros x J. rewrite Forall_forall in K. specialize (K x J). apply frag_ext. intros l ->. cbn [known] in K. unfold fmap. destruct (lget d l) as [a|] eqn:G; [|now destruct K]. now rewrite (X l a G). }
  unfold quad_from. rewrite !FE by (cbn; auto). reflexivity.
Qed.
Lemma nth_set : forall (A : Type) (l : list A) i j (y x : A), nth_error (set_nth l i y) j = Some x -> (i = j /\ x = y) \/ (i <> j /\ nth_error l j = Some x).
Proof.
  intros A l i j y x. revert i j. induction l as [|a l IH]; intros i j E; [destruct i, j; discriminate|]. destruct i as [|i], j as [|j]; cbn in E |- *.
  - left. split; congruence.
  - right. split; [discriminate|exact E].
  - right. split; [discriminate|exact E].
  - destruct (IH i j E) as [[-> ->]|[N F]]; [now left|right; split; [congruence|exact F]].
Qed.
Lemma nth_set_same : forall (A : Type) (l : list A) i (y x : A), nth_error l i = Some x -> nth_error (set_nth l i y) i = Some y.
Proof. intros A l. induction l as [|a l IH]; intros i y x E; [destruct i; discriminate|]. destruct i as [|i]; [reflexivity|]. cbn in *. now apply (IH i y x). Qed.
Lemma nth_set_other : forall (A : Type) (l : list A) i j (y : A), i <> j -> nth_error (set_nth l i y) j = nth_error l j.
Proof. intros A l. induction l as [|a l IH]; intros i j y N; [destruct i; reflexivity|]. destruct i as [|i], j as [|j]; cbn; try reflexivity; [now destruct N|]. apply IH. congruence. Qed.

Section Run.
  Variable start : N.
  Variable sinks0 : list world.
  Variable progs : list (list (nat * rdf_dataset)).
  Hypothesis F0 : Forall ds_reachable sinks0.
  Hypothesis SE : sinks_exist sinks0 progs.

  (** the triple has been processed in the call [c] of the thread [k] *)
  Definition proc (y : jsystem) (k c i : nat) (g : oterm) (t : jtriple) : Prop :=
    exists x data p, nth_error (jy_threads y) k = Some x /\ call_of progs k c = Some (i, data) /\ nth_error (flat data) p = Some (g, t) /\ ((c < th_at x)%nat \/ c = th_at x /\ (p < th_pos x)%nat).
  Record inv (y : jsystem) (T : nat -> nat -> dict str N) : Prop := {
    i_reach : Forall ds_reachable (sh_sinks (jy_shared y));
    i_len : length (sh_sinks (jy_shared y)) = length sinks0;
    i_next : start <= sh_next (jy_shared y);
    i_count : length (jy_threads y) = length progs;
    i_thr : forall k x, nth_error (jy_threads y) k = Some x -> th_err x = None /\ nth_error progs k = Some (th_prog x) /\ (th_at x <= length (th_prog x))%nat /\ T k (th_at x) = th_tab x /\ forall c, (th_at x < c)%nat -> T k c = [];
    i_rng : forall k c l a, lget (T k c) l = Some a -> start <= a < sh_next (jy_shared y);
    i_inj : forall k c l k' c' l' a, lget (T k c) l = Some a -> lget (T k' c') l' = Some a -> k = k' /\ c = c' /\ l = l';
    i_known : forall k c i g t, proc y k c i g t -> Forall (known (T k c)) (frags t);
    i_holds : forall i q, holds (nth i (sh_sinks (jy_shared y)) (ds_new [])) q <-> holds (nth i sinks0 (ds_new [])) q \/ exists k c g t, proc y k c i g t /\ q = quad_from (fmap (T k c)) g t }.
  Lemma inv_start : inv (jy_start start sinks0 progs) (fun _ _ => []).
  Proof.
    assert (TH : forall k x, nth_error (map jt_new progs) k = Some x -> exists prog, nth_error progs k = Some prog /\ x = jt_new prog).
    { intros k x E. rewrite nth_error_map in E. destruct (nth_error progs k) as [prog|]; [|discriminate]. injection E as <-. now exists prog. }
    assert (NP : forall k c i g t, ~ proc (jy_start start sinks0 progs) k c i g t).
    { intros k c i g t (x & data & p & E & _ & _ & O). apply TH in E. destruct E as (prog & _ & ->). cbn in O. lia. }
    split; cbn [jy_start jy_shared jy_threads sh_sinks sh_next].
    - exact F0.
    - reflexivity.
    - lia.
    - apply map_length.
    - intros k x E. apply TH in E. destruct E as (prog & E & ->). cbn. repeat split; auto; lia.
    - intros; discriminate.
    - intros; discriminate.
    - intros k c i g t P. now destruct (NP k c i g t).
    - intros i q. split; [now left|]. intros [H|(k & c & g & t & P & _)]; [exact H|]. now destruct (NP k c i g t).
  Qed.
  Lemma inv_step : forall y T k, inv y T -> exists T', inv (jy_step y k) T'.
  Proof.
    intros y T k I. unfold jy_step. destruct (nth_error (jy_threads y) k) as [x|] eqn:E; [|now exists T].
    destruct (i_thr y T I k x E) as (ER & EP & LE & ET & EN). unfold jt_step. rewrite ER.
    assert (SAMEY : forall s x', s = jy_shared y -> x' = x -> inv (mkJY s (set_nth (jy_threads y) k x')) T).
    { intros s x' -> ->. replace (set_nth (jy_threads y) k x) with (jy_threads y); [now destruct y|]. clear - E. revert k E. generalize (jy_threads y). intro l. induction l as [|a l IH]; intros k E; [destruct k; reflexivity|]. destruct k as [|k]; cbn in *; [congruence|]. now rewrite <- IH. }
    destruct (nth_error (th_prog x) (th_at x)) as [[i data]|] eqn:EC; [|exists T; now apply SAMEY].
    assert (CO : call_of progs k (th_at x) = Some (i, data)) by (unfold call_of; now rewrite EP).
    clear SAMEY. destruct (nth_error (flat data) (th_pos x)) as [[g t]|] eqn:EF.
    - set (st := mkJS (sh_next (jy_shared y)) (Some (th_tab x, i)) (sh_sinks (jy_shared y))).
      assert (LI : (i < length (js_sinks st))%nat) by (cbn [st js_sinks]; rewrite (i_len y T I); exact (SE _ _ _ _ CO)).
      assert (B : binv start (bst st (th_tab x))).
      { unfold bst. cbn [st js_next]. split; [exact (i_next y T I)|]. cbn [bs_map bs_next]. rewrite <- ET. split.
        - intros l a G. exact (i_rng y T I _ _ _ _ G).
        - intros l l' a G G'. now destruct (i_inj y T I _ _ _ _ _ _ _ G G') as (_ & _ & ->). }
      assert (R : ds_reachable (nth i (js_sinks st) (ds_new []))) by (pose proof (i_reach y T I) as RR; rewrite Forall_forall in RR; apply RR, nth_In, LI).
      destruct (triple_ok start st (th_tab x) i g t eq_refl B LI R) as (st' & d' & EQ & S & KN). rewrite EQ. rewrite (so_call _ _ _ _ _ _ _ S).
      destruct (triple_new st g t st' (Ok tt) (th_tab x) i eq_refl EQ) as (d2 & C2 & NEW). rewrite (so_call _ _ _ _ _ _ _ S) in C2. injection C2 as <-. cbn [st js_next] in NEW.
      destruct (so_ext _ _ _ _ _ _ _ S) as [XN XM]. unfold bst in XN, XM. cbn [bs_map bs_next st js_next] in XN, XM.
      destruct (so_inv _ _ _ _ _ _ _ S) as (_ & RG & INJ). unfold bst in RG, INJ. cbn [bs_map bs_next] in RG, INJ.
      set (T' := fun k' c' => if ((k' =? k) && (c' =? th_at x))%nat%bool then d' else T k' c'). exists T'.
      set (x' := mkTh (th_prog x) (th_at x) (Datatypes.S (th_pos x)) d' None). set (y' := mkJY (mkSh (js_next st') (js_sinks st')) (set_nth (jy_threads y) k x')).
      assert (TS : T' k (th_at x) = d') by (unfold T'; now rewrite !Nat.eqb_refl).
      assert (TO : forall k' c', (k' = k /\ c' = th_at x) \/ T' k' c' = T k' c' /\ (k' <> k \/ c' <> th_at x)).
      { intros k' c'. unfold T'. destruct (Nat.eqb_spec k' k) as [->|N1]; [|right; split; [reflexivity|now left]]. destruct (Nat.eqb_spec c' (th_at x)) as [->|N2]; [now left|right; split; [reflexivity|now right]]. }
      assert (TX : forall k' c' l a, lget (T k' c') l = Some a -> lget (T' k' c') l = Some a).
      { intros k' c' l a G. destruct (TO k' c') as [[-> ->]|[-> _]]; [|exact G]. rewrite TS. rewrite ET in G. exact (XM l a G). }
      assert (PR : forall k' c' i' g' t', proc y' k' c' i' g' t' <-> proc y k' c' i' g' t' \/ (k' = k /\ c' = th_at x /\ i' = i /\ g' = g /\ t' = t)).
      { intros k' c' i' g' t'. split.
        - intros (z & dt & p & EZ & CZ & FZ & O). cbn [y' jy_threads] in EZ. apply nth_set in EZ. destruct EZ as [[<- ->]|[NK EZ]]; [|left; now exists z, dt, p].
          cbn [x' th_at th_pos] in O. destruct O as [O|[-> O]]; [left; exists x, dt, p; auto 6|]. destruct (Nat.eq_dec p (th_pos x)) as [->|NP].
          + right. rewrite CO in CZ. injection CZ as <- <-. rewrite EF in FZ. injection FZ as <- <-. auto.
          + left. exists x, dt, p. split; [exact E|]. split; [exact CZ|]. split; [exact FZ|]. right. split; [reflexivity|lia].
        - intros [(z & dt & p & EZ & CZ & FZ & O)|(-> & -> & -> & -> & ->)].
          + destruct (Nat.eq_dec k k') as [<-|NK].
            * rewrite E in EZ. injection EZ as <-. exists x', dt, p. split; [cbn [y' jy_threads]; exact (nth_set_same _ _ _ _ _ E)|]. split; [exact CZ|]. split; [exact FZ|]. cbn [x' th_at th_pos]. destruct O as [O|[O1 O2]]; [now left|right; split; [exact O1|lia]].
            * exists z, dt, p. split; [cbn [y' jy_threads]; rewrite nth_set_other by exact NK; exact EZ|]. auto.
          + exists x', data, (th_pos x). split; [cbn [y' jy_threads]; exact (nth_set_same _ _ _ _ _ E)|]. split; [exact CO|]. split; [exact EF|]. right. cbn. split; [reflexivity|lia]. }
      assert (LG : forall k' c' l a, lget (T' k' c') l = Some a -> lget (T k' c') l = Some a \/ (k' = k /\ c' = th_at x /\ sh_next (jy_shared y) <= a < js_next st')).
      { intros k' c' l a G. destruct (TO k' c') as [[-> ->]|[EQT _]]; [|left; now rewrite <- EQT]. rewrite TS in G. destruct (NEW l a G) as [H|H]; [left; rewrite ET; exact H|right]. destruct (RG l a G). auto. }
      split; cbn [y' jy_shared jy_threads sh_sinks sh_next].
      + apply (all_reach _ _ _ _ _ _ _ S). exact (i_reach y T I).
      + rewrite (so_len _ _ _ _ _ _ _ S). exact (i_len y T I).
      + pose proof (i_next y T I). lia.
      + rewrite <- (i_count y T I). clear. revert k. generalize (jy_threads y). intro l. induction l as [|a l IH]; intros [|k]; cbn; auto.
      + intros k' z EZ. apply nth_set in EZ. destruct EZ as [[<- ->]|[NK EZ]].
        * cbn [x' th_err th_prog th_at th_tab]. repeat split; auto. intros c LC. destruct (TO k c) as [[_ X]|[-> _]]; [lia|now apply EN].
        * destruct (i_thr y T I k' z EZ) as (A1 & A2 & A3 & A4 & A5). repeat split; auto.
          -- destruct (TO k' (th_at z)) as [[X _]|[-> _]]; [congruence|exact A4].
          -- intros c LC. destruct (TO k' c) as [[X _]|[-> _]]; [congruence|now apply A5].
      + intros k' c l a G. destruct (LG k' c l a G) as [H|(_ & _ & H)]; [destruct (i_rng y T I _ _ _ _ H); lia|pose proof (i_next y T I); lia].
      + intros k1 c1 l1 k2 c2 l2 a G1 G2. destruct (LG _ _ _ _ G1) as [H1|(A1 & A2 & A3)]; destruct (LG _ _ _ _ G2) as [H2|(A1' & A2' & A3')].
        * exact (i_inj y T I _ _ _ _ _ _ _ H1 H2).
        * destruct (i_rng y T I _ _ _ _ H1). lia.
        * destruct (i_rng y T I _ _ _ _ H2). lia.
        * subst k1 k2 c1 c2. rewrite TS in G1, G2. split; [reflexivity|]. split; [reflexivity|]. exact (INJ _ _ _ G1 G2).
      + intros k' c i' g' t' P. apply PR in P. destruct P as [P|(-> & -> & _ & _ & ->)]; [|rewrite TS; exact KN]. apply (i_known y T I) in P. eapply Forall_impl; [|exact P]. intros [v|l|v dt lg] HK; cbn [known] in *; auto.
        destruct (lget (T k' c) l) as [a|] eqn:G; [|now destruct HK]. rewrite (TX _ _ _ _ G). discriminate.
      + assert (QE : forall k' c i' g' t', proc y k' c i' g' t' -> quad_from (fmap (T k' c)) g' t' = quad_from (fmap (T' k' c)) g' t') by (intros k' c i' g' t' P; apply quad_ext; [apply TX|exact (i_known y T I _ _ _ _ _ P)]).
        assert (HS : forall q, holds (nth i (js_sinks st') (ds_new [])) q <-> q = quad_from (fmap d') g t \/ holds (nth i (sh_sinks (jy_shared y)) (ds_new [])) q).
        { intro q. rewrite (so_holds _ _ _ _ _ _ _ S _ (bext_refl _)). unfold bst. cbn [bs_map In st js_sinks]. split; intros [H|H]; auto. destruct H as [H|[]]; auto. }
        intros i' q. split.
        * intro H. assert (X : (i' = i /\ q = quad_from (fmap d') g t) \/ holds (nth i' (sh_sinks (jy_shared y)) (ds_new [])) q).
          { destruct (Nat.eq_dec i' i) as [->|NI]; [apply HS in H; tauto|]. right. rewrite (so_other _ _ _ _ _ _ _ S i' NI) in H. exact H. }
          destruct X as [(-> & ->)|X].
          -- right. exists k, (th_at x), g, t. split; [apply PR; right; auto|now rewrite TS].
          -- apply (i_holds y T I) in X. destruct X as [X|(k' & c & g' & t' & P & ->)]; [now left|]. right. exists k', c, g', t'. split; [apply PR; now left|]. exact (QE _ _ _ _ _ P).
        * intro H. assert (X : holds (nth i' (sh_sinks (jy_shared y)) (ds_new [])) q \/ (i' = i /\ q = quad_from (fmap d') g t)).
          { destruct H as [H|(k' & c & g' & t' & P & ->)]; [left; apply (i_holds y T I); now left|]. apply PR in P. destruct P as [P|(-> & -> & -> & -> & ->)]; [|right; now rewrite TS]. left. apply (i_holds y T I). right. exists k', c, g', t'. split; [exact P|]. symmetry. exact (QE _ _ _ _ _ P). }
          destruct (Nat.eq_dec i' i) as [->|NI]; [apply HS; tauto|]. rewrite (so_other _ _ _ _ _ _ _ S i' NI). destruct X as [X|[X _]]; [exact X|contradiction].
    - exists T. set (x' := mkTh (th_prog x) (Datatypes.S (th_at x)) 0 [] None). set (y' := mkJY (jy_shared y) (set_nth (jy_threads y) k x')).
      assert (PR : forall k' c' i' g' t', proc y' k' c' i' g' t' <-> proc y k' c' i' g' t').
      { intros k' c' i' g' t'. split.
        - intros (z & dt & p & EZ & CZ & FZ & O). cbn [y' jy_threads] in EZ. apply nth_set in EZ. destruct EZ as [[<- ->]|[NK EZ]]; [|now exists z, dt, p].
          cbn [x' th_at th_pos] in O. exists x, dt, p. split; [exact E|]. split; [exact CZ|]. split; [exact FZ|]. destruct O as [O|[_ O]]; [|lia]. destruct (Nat.eq_dec c' (th_at x)) as [->|NC]; [|left; lia]. right. split; [reflexivity|].
          rewrite CO in CZ. injection CZ as <- <-. apply nth_error_None in EF. assert (p < length (flat data))%nat by (apply nth_error_Some; congruence). lia.
        - intros (z & dt & p & EZ & CZ & FZ & O). destruct (Nat.eq_dec k k') as [<-|NK].
          + rewrite E in EZ. injection EZ as <-. exists x', dt, p. split; [cbn [y' jy_threads]; exact (nth_set_same _ _ _ _ _ E)|]. split; [exact CZ|]. split; [exact FZ|]. cbn [x' th_at th_pos]. left. lia.
          + exists z, dt, p. split; [cbn [y' jy_threads]; rewrite nth_set_other by exact NK; exact EZ|]. auto. }
      split; cbn [y' jy_shared jy_threads].
      + exact (i_reach y T I).
      + exact (i_len y T I).
      + exact (i_next y T I).
      + rewrite <- (i_count y T I). clear. revert k. generalize (jy_threads y). intro l. induction l as [|a l IH]; intros [|k]; cbn; auto.
      + intros k' z EZ. apply nth_set in EZ. destruct EZ as [[<- ->]|[NK EZ]]; [|exact (i_thr y T I k' z EZ)]. cbn [x' th_err th_prog th_at th_tab]. split; [reflexivity|]. split; [exact EP|]. split; [assert (th_at x < length (th_prog x))%nat by (apply nth_error_Some; congruence); lia|].
        split; [apply EN; lia|]. intros c LC. apply EN. lia.
      + exact (i_rng y T I).
      + exact (i_inj y T I).
      + intros k' c i' g' t' P. apply PR in P. exact (i_known y T I _ _ _ _ _ P).
      + intros i' q. rewrite (i_holds y T I). split; (intros [H|(k' & c & g' & t' & P & Q)]; [now left|]; right; exists k', c, g', t'; split; [now apply PR|exact Q]).
  Qed.
  Lemma inv_run : forall sch y T, inv y T -> exists T', inv (jy_run y sch) T'.
  Proof. induction sch as [|k sch IH]; intros y T I; [now exists T|]. destruct (inv_step y T k I) as [T1 I1]. exact (IH _ _ I1). Qed.

  Lemma flat_quads : forall f data, map (fun x => quad_from f (fst x) (snd x)) (flat data) = concat (map (fun nt => map (quad_from f (graph_iri (fst nt))) (snd nt)) data).
  Proof. intros f data. unfold flat. rewrite concat_map, map_map. f_equal. apply map_ext. intros [name ts]. cbn [fst snd]. rewrite map_map. reflexivity. Qed.
  Lemma flat_data : forall f data q, in_data f data q <-> exists p g t, nth_error (flat data) p = Some (g, t) /\ q = quad_from f g t.
  Proof.
    intros f data q. rewrite <- in_quads, <- flat_quads, in_map_iff. split.
    - intros ([g t] & <- & J). apply In_nth_error in J. destruct J as [p J]. now exists p, g, t.
    - intros (p & g & t & J & ->). apply nth_error_In in J. now exists (g, t).
  Qed.
  Lemma flat_label : forall data l, label_in data l -> exists p g t, nth_error (flat data) p = Some (g, t) /\ In (FBlank l) (frags t).
  Proof.
    intros data l (name & ts & t & J & K & L). assert (X : In (graph_iri name, t) (flat data)). { unfold flat. apply in_concat. exists (map (pair (graph_iri name)) ts). split; [apply in_map_iff; now exists (name, ts)|now apply in_map]. }
    apply In_nth_error in X. destruct X as [p X]. now exists p, (graph_iri name), t.
  Qed.
  Lemma wf_at : forall l i, Forall ds_reachable l -> dwf (nth i l (ds_new [])).
  Proof.
    intros l i FL. apply ds_reachable_dwf. destruct (Nat.lt_ge_cases i (length l)) as [A|A]; [rewrite Forall_forall in FL; apply FL, nth_In, A|]. rewrite nth_overflow by exact A. apply dr_new. intros g [].
  Qed.
  Section At.
    Variables (sch : list nat) (y : jsystem).
    Hypothesis EY : y = jy_run (jy_start start sinks0 progs) sch.
    Lemma at_inv : exists T, inv y T.
    Proof. subst y. exact (inv_run sch _ _ inv_start). Qed.
    Lemma any_time : (forall x, In x (jy_threads y) -> th_err x = None) /\
      exists f, forall i q, In q (ds_iter (nth i (sh_sinks (jy_shared y)) (ds_new []))) -> In q (ds_iter (nth i sinks0 (ds_new []))) \/ exists k c data, call_of progs k c = Some (i, data) /\ in_data (f k c) data q.
    Proof.
      destruct at_inv as [T I]. split.
      - intros x J. apply In_nth_error in J. destruct J as [k J]. apply (i_thr y T I k x J).
      - exists (fun k c => fmap (T k c)). intros i q J. apply (iter_holds _ q (wf_at _ i (i_reach y T I))) in J. apply (i_holds y T I) in J. destruct J as [J|(k & c & g & t & (x & data & p & _ & CO & FL & _) & ->)].
        + left. now apply (iter_holds _ q (wf_at _ i F0)).
        + right. exists k, c, data. split; [exact CO|]. apply flat_data. now exists p, g, t.
    Qed.
    Lemma at_end : (forall x, In x (jy_threads y) -> all_parsed x) ->
      exists f, (forall i, lists (ds_iter (nth i (sh_sinks (jy_shared y)) (ds_new []))) (fun q => In q (ds_iter (nth i sinks0 (ds_new []))) \/ exists k c data, call_of progs k c = Some (i, data) /\ in_data (f k c) data q)) /\ apart progs f.
    Proof.
      intro DONE. destruct at_inv as [T I]. exists (fun k c => fmap (T k c)).
      assert (PR : forall k c i data p g t, call_of progs k c = Some (i, data) -> nth_error (flat data) p = Some (g, t) -> proc y k c i g t).
      { intros k c i data p g t CO FL. pose proof CO as CO'. unfold call_of in CO'. destruct (nth_error progs k) as [prog|] eqn:EP; [|discriminate].
        destruct (nth_error (jy_threads y) k) as [x|] eqn:EX; [|apply nth_error_None in EX; rewrite (i_count y T I) in EX; apply nth_error_None in EX; congruence].
        exists x, data, p. split; [exact EX|]. split; [exact CO|]. split; [exact FL|]. left. destruct (DONE x (nth_error_In _ _ EX)) as [-> _]. destruct (i_thr y T I k x EX) as (_ & EP' & _). assert (prog = th_prog x) by congruence. subst prog. apply nth_error_Some. congruence. }
      split.
      - intro i. destruct (ds_iter_lists _ (wf_at _ i (i_reach y T I))) as [ND IN]. split; [exact ND|]. intro q. rewrite IN, (i_holds y T I), (iter_holds _ q (wf_at _ i F0)). split.
        + intros [H|(k & c & g & t & (x & data & p & _ & CO & FL & _) & ->)]; [now left|]. right. exists k, c, data. split; [exact CO|]. apply flat_data. now exists p, g, t.
        + intros [H|(k & c & data & CO & D)]; [now left|]. right. apply flat_data in D. destruct D as (p & g & t & FL & ->). exists k, c, g, t. split; [exact (PR _ _ _ _ _ _ _ CO FL)|reflexivity].
      - assert (KN : forall k c i data l, call_of progs k c = Some (i, data) -> label_in data l -> exists a, lget (T k c) l = Some a).
        { intros k c i data l CO LB. apply flat_label in LB. destruct LB as (p & g & t & FL & JL). pose proof (i_known y T I _ _ _ _ _ (PR _ _ _ _ _ _ _ CO FL)) as K. rewrite Forall_forall in K. specialize (K _ JL). cbn [known] in K. destruct (lget (T k c) l) as [a|]; [now exists a|now destruct K]. }
        intros k c i data l k' c' i' data' l' CO LB CO' LB' EQ. destruct (KN _ _ _ _ _ CO LB) as [a G]. destruct (KN _ _ _ _ _ CO' LB') as [a' G']. unfold fmap in EQ. rewrite G, G' in EQ. subst a'. exact (i_inj y T I _ _ _ _ _ _ _ G G').
    Qed.
  End At.
End Run.

(** ** Every thread ends *)
Definition total (prog : list (nat * rdf_dataset)) : nat := list_sum (map (fun z => Datatypes.S (length (flat (snd z)))) prog).
Definition todo (x : jthread) : nat :=
  match nth_error (th_prog x) (th_at x) with Some (_, data) => (length (flat data) - th_pos x + 1 + total (skipn (Datatypes.S (th_at x)) (th_prog x)))%nat | None => 0%nat end.
Lemma skipn_at : forall (A : Type) (l : list A) n a, nth_error l n = Some a -> skipn n l = a :: skipn (Datatypes.S n) l.
Proof. intros A l. induction l as [|b l IH]; intros [|n] a E; try discriminate; cbn in *; [congruence|]. now rewrite (IH n a E). Qed.
Lemma todo_start : forall prog n, todo (mkTh prog n 0 [] None) = total (skipn n prog).
Proof.
  intros prog n. unfold todo. cbn [th_prog th_at th_pos]. destruct (nth_error prog n) as [[i data]|] eqn:E.
  - rewrite (skipn_at _ _ _ _ E). unfold total. cbn [map list_sum fold_right snd]. fold (list_sum (map (fun z : nat * rdf_dataset => Datatypes.S (length (flat (snd z)))) (skipn (Datatypes.S n) prog))). lia.
  - apply nth_error_None in E. now rewrite skipn_all2.
Qed.
Lemma total_work : forall prog, total prog = work_of prog.
Proof.
  intro prog. unfold total, work_of. f_equal. apply map_ext. intros [i data]. cbn [snd]. f_equal. unfold flat. induction data as [|[name ts] data IH]; [reflexivity|]. cbn [map concat list_sum fold_right snd fst]. rewrite app_length, map_length, IH. reflexivity.
Qed.
Lemma todo_step : forall s x, th_err x = None -> (todo (snd (jt_step s x)) <= todo x - 1)%nat.
Proof.
  intros s x E. unfold jt_step. rewrite E. destruct (nth_error (th_prog x) (th_at x)) as [[i data]|] eqn:EC; [|cbn [snd]; unfold todo; rewrite EC; lia].
  destruct (nth_error (flat data) (th_pos x)) as [[g t]|] eqn:EF.
  - destruct (process_triple _ g t) as [st r]. cbn [snd]. unfold todo. cbn [th_prog th_at th_pos]. rewrite EC. assert (th_pos x < length (flat data))%nat by (apply nth_error_Some; congruence). lia.
  - cbn [snd]. rewrite todo_start. unfold todo. rewrite EC. lia.
Qed.
Lemma run_todo : forall start sinks0 progs, Forall ds_reachable sinks0 -> sinks_exist sinks0 progs -> forall sch y T k x, inv start sinks0 progs y T -> nth_error (jy_threads y) k = Some x ->
  exists x', nth_error (jy_threads (jy_run y sch)) k = Some x' /\ (todo x' <= todo x - count_occ Nat.eq_dec sch k)%nat.
Proof.
  intros start sinks0 progs F SE. induction sch as [|j sch IH]; intros y T k x I E; [exists x; split; [exact E|cbn; lia]|].
  destruct (inv_step start sinks0 progs SE y T j I) as [T1 I1]. cbn [jy_run fold_left]. fold (jy_run (jy_step y j) sch). cbn [count_occ].
  assert (X : exists x1, nth_error (jy_threads (jy_step y j)) k = Some x1 /\ (todo x1 <= todo x - (if Nat.eq_dec j k then 1 else 0))%nat).
  { unfold jy_step. destruct (Nat.eq_dec j k) as [->|NE].
    - rewrite E. destruct (i_thr _ _ _ _ _ I k x E) as (ER & _). pose proof (todo_step (jy_shared y) x ER) as TD. destruct (jt_step (jy_shared y) x) as [s x']. exists x'. split; [cbn [jy_threads]; exact (nth_set_same _ _ _ _ _ E)|exact TD].
    - destruct (nth_error (jy_threads y) j) as [z|] eqn:EZ; [|exists x; split; [exact E|lia]]. destruct (jt_step (jy_shared y) z) as [s z']. exists x. split; [cbn [jy_threads]; rewrite nth_set_other by exact NE; exact E|lia]. }
  destruct X as (x1 & E1 & D1). destruct (IH _ _ _ _ I1 E1) as (x' & E' & D'). exists x'. split; [exact E'|]. destruct (Nat.eq_dec j k); lia.
Qed.
Lemma ends : forall start sinks0 progs sch y, Forall ds_reachable sinks0 -> sinks_exist sinks0 progs -> y = jy_run (jy_start start sinks0 progs) sch ->
  (forall k prog, nth_error progs k = Some prog -> (work_of prog <= count_occ Nat.eq_dec sch k)%nat) -> forall x, In x (jy_threads y) -> all_parsed x.
Proof.
  intros start sinks0 progs sch y F SE -> W x J. apply In_nth_error in J. destruct J as [k J]. pose proof (inv_start start sinks0 progs F) as I0. destruct (inv_run start sinks0 progs SE sch _ _ I0) as [T I].
  destruct (i_thr _ _ _ _ _ I k x J) as (ER & EP & LE & _). assert (E0 : nth_error (jy_threads (jy_start start sinks0 progs)) k = Some (jt_new (th_prog x))) by (cbn [jy_start jy_threads]; rewrite nth_error_map, EP; reflexivity).
  destruct (run_todo start sinks0 progs F SE sch _ _ k _ I0 E0) as (x' & E' & D'). rewrite J in E'. injection E' as <-. unfold jt_new in D'. rewrite todo_start in D'. cbn [skipn] in D'. rewrite total_work in D'. specialize (W k _ EP).
  split; [|exact ER]. assert (Z : todo x = 0%nat) by lia. unfold todo in Z. destruct (nth_error (th_prog x) (th_at x)) as [[i data]|] eqn:EC; [lia|]. apply nth_error_None in EC. lia.
Qed.

(** ** One thread: parse_json *)
Fixpoint plist (st : jstate) (l : list (oterm * jtriple)) : jstate * res unit :=
  match l with [] => (st, Ok tt) | (g, t) :: r => match process_triple st g t with (st', Err e) => (st', Err e) | (st', Ok _) => plist st' r end end.
Lemma plist_app : forall a b st, plist st (a ++ b) = match plist st a with (st', Err e) => (st', Err e) | (st', Ok _) => plist st' b end.
Proof. induction a as [|[g t] a IH]; intros b st; [reflexivity|]. cbn [app plist]. destruct (process_triple st g t) as [st' [u|e]]; [apply IH|reflexivity]. Qed.
Lemma graphs_flat : forall data st, process_graphs st data = plist st (flat data).
Proof.
  induction data as [|[name ts] data IH]; intro st; [reflexivity|]. unfold flat. cbn [map concat fst snd process_graphs]. fold (flat data). rewrite plist_app.
  assert (X : process_triples st (graph_iri name) ts = plist st (map (pair (graph_iri name)) ts)). { revert st. induction ts as [|t ts IT]; intro st; [reflexivity|]. cbn [map plist process_triples]. destruct (process_triple st (graph_iri name) t) as [st' [u|e]]; [apply IT|reflexivity]. }
  rewrite X. destruct (plist st (map (pair (graph_iri name)) ts)) as [st' [u|e]]; [apply IH|reflexivity].
Qed.
Lemma solo_call : forall prog n i data rest p s d st', nth_error prog n = Some (i, data) -> skipn p (flat data) = rest -> plist (mkJS (sh_next s) (Some (d, i)) (sh_sinks s)) rest = (st', Ok tt) ->
  exists d' p', jy_run (mkJY s [mkTh prog n p d None]) (repeat 0%nat (length rest)) = mkJY (mkSh (js_next st') (js_sinks st')) [mkTh prog n p' d' None] /\ nth_error (flat data) p' = None.
Proof.
  intros prog n i data rest. induction rest as [|[g t] rest IH]; intros p s d st' EC ES EP.
  - cbn in EP. injection EP as <-. exists d, p. split; [now destruct s|]. apply nth_error_None. destruct (Nat.lt_ge_cases p (length (flat data))) as [L|L]; [|exact L]. pose proof (skipn_length p (flat data)) as SL. rewrite ES in SL. cbn in SL. lia.
  - assert (EF : nth_error (flat data) p = Some (g, t)). { rewrite <- (firstn_skipn p (flat data)), ES, nth_error_app2, firstn_length_le, Nat.sub_diag; [reflexivity| |]; try (rewrite firstn_length; lia). destruct (Nat.lt_ge_cases p (length (flat data))) as [L|L]; [lia|]. rewrite skipn_all2 in ES by exact L. discriminate. }
    assert (ES' : skipn (Datatypes.S p) (flat data) = rest) by (rewrite (skipn_at _ _ _ _ EF) in ES; congruence).
    cbn [plist] in EP. destruct (process_triple (mkJS (sh_next s) (Some (d, i)) (sh_sinks s)) g t) as [st1 r1] eqn:ET. destruct r1 as [u|e]; [|discriminate].
    destruct (triple_new (mkJS (sh_next s) (Some (d, i)) (sh_sinks s)) g t st1 _ d i eq_refl ET) as (d1 & C1 & _). replace st1 with (mkJS (sh_next (mkSh (js_next st1) (js_sinks st1))) (Some (d1, i)) (sh_sinks (mkSh (js_next st1) (js_sinks st1)))) in EP by (destruct st1; cbn in *; congruence).
    destruct (IH (Datatypes.S p) (mkSh (js_next st1) (js_sinks st1)) d1 st' EC ES' EP) as (d' & p' & RUN & NN). exists d', p'. split; [|exact NN]. cbn [length repeat jy_run fold_left].
    assert (STEP : jy_step (mkJY s [mkTh prog n p d None]) 0 = mkJY (mkSh (js_next st1) (js_sinks st1)) [mkTh prog n (Datatypes.S p) d1 None]).
    { unfold jy_step, jt_step. cbn [jy_threads jy_shared nth_error th_err th_prog th_at th_pos th_tab]. rewrite EC, EF, ET, C1. reflexivity. }
    rewrite STEP. exact RUN.
Qed.
Lemma solo : forall rest prog n start sinks, skipn n prog = rest -> Forall ds_reachable sinks -> (forall i data, In (i, data) rest -> (i < length sinks)%nat) ->
  let st := fst (jr_run (mkJS start None sinks) (calls_of rest)) in
  jy_run (mkJY (mkSh start sinks) [mkTh prog n 0 [] None]) (repeat 0%nat (total rest)) = mkJY (mkSh (js_next st) (js_sinks st)) [mkTh prog (n + length rest) 0 [] None].
Proof.
  induction rest as [|[i data] rest IH]; intros prog n start sinks ES F SE; cbv zeta.
  - cbn. now rewrite Nat.add_0_r.
  - assert (EC : nth_error prog n = Some (i, data)). { rewrite <- (firstn_skipn n prog), ES, nth_error_app2, firstn_length_le, Nat.sub_diag; [reflexivity| |]; try (rewrite firstn_length; lia). destruct (Nat.lt_ge_cases n (length prog)) as [L|L]; [lia|]. rewrite skipn_all2 in ES by exact L. discriminate. }
    assert (ES' : skipn (Datatypes.S n) prog = rest) by (rewrite (skipn_at _ _ _ _ EC) in ES; congruence).
    destruct (work start (mkJS start (Some ([], i)) sinks) [] i data eq_refl) as (st1 & d1 & E1 & _ & _ & _ & L1 & F1 & _); [split; [cbn; lia|]; split; intros; discriminate|apply (SE i data); now left|exact F|]. cbn [js_sinks] in L1.
    pose proof E1 as E2. rewrite graphs_flat in E2. destruct (solo_call prog n i data (flat data) 0 (mkSh start sinks) [] st1 EC eq_refl E2) as (d' & p' & RUN & NN).
    unfold total. cbn [map list_sum fold_right snd]. fold (list_sum (map (fun z : nat * rdf_dataset => Datatypes.S (length (flat (snd z)))) rest)). fold (total rest).
    replace (Datatypes.S (length (flat data)) + total rest)%nat with (length (flat data) + (1 + total rest))%nat by lia. rewrite repeat_app. unfold jy_run in *. rewrite fold_left_app, RUN. cbn [repeat Nat.add fold_left].
    assert (STEP : jy_step (mkJY (mkSh (js_next st1) (js_sinks st1)) [mkTh prog n p' d' None]) 0 = mkJY (mkSh (js_next st1) (js_sinks st1)) [mkTh prog (Datatypes.S n) 0 [] None]).
    { unfold jy_step, jt_step. cbn [jy_threads jy_shared nth_error th_err th_prog th_at th_pos th_tab]. rewrite EC, NN. reflexivity. }
    rewrite STEP. rewrite (IH prog (Datatypes.S n) (js_next st1) (js_sinks st1) ES' F1); [|intros i' dt J; rewrite L1; apply (SE i' dt); now right].
    cbn [length]. replace (n + Datatypes.S (length rest))%nat with (Datatypes.S n + length rest)%nat by lia. cbn [calls_of map fst snd jr_run jr_step]. unfold parse_json. cbn [process_jobj]. cbn [js_next js_sinks]. rewrite E1. fold (calls_of rest).
    destruct (jr_run (mkJS (js_next st1) None (js_sinks st1)) (calls_of rest)). reflexivity.
Qed.
Lemma alone : forall start sinks prog, Forall ds_reachable sinks -> sinks_exist sinks [prog] ->
  let st := fst (jr_run (mkJS start None sinks) (calls_of prog)) in
  jy_shared (jy_run (jy_start start sinks [prog]) (repeat 0%nat (work_of prog))) = mkSh (js_next st) (js_sinks st).
Proof.
  intros start sinks prog F SE st. rewrite <- total_work. unfold jy_start, jt_new. cbn [map]. rewrite (solo prog prog 0 start sinks eq_refl F); [reflexivity|]. intros i data J. apply In_nth_error in J. destruct J as [c J]. exact (SE 0%nat c i data J).
Qed.
