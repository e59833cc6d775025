(** Programs of calls of one JSON-LD parser (C126). *)
From Coq Require Import Lia PeanoNat.
From Verif Require Import Model.Py Model.Terms Model.Graph Model.GraphRun Model.Dataset Model.Codec Model.NTriples Model.JsonLd Model.JsonLdRun
  Spec.GraphSpec Spec.DatasetSpec Spec.JsonLdSpec Spec.JsonLdRunSpec Proofs.DictLemmas Proofs.DatasetInv Proofs.DatasetHist Proofs.NTRun Proofs.JsonLdLemmas.
Open Scope N_scope.

Notation lget := (dget str_eq_dec).
Lemma frag_ext : forall f g x, (forall l, x = FBlank l -> f l = g l) -> frag_term f x = frag_term g x.
Proof. intros f g [v|l|v d lg] H; cbn; [reflexivity| |reflexivity]. now rewrite (H l eq_refl). Qed.
Lemma data_ext : forall f g data q, (forall l, label_in data l -> f l = g l) -> in_data f data q -> in_data g data q.
Proof.
  intros f g data q H (name & ts & t & J & I & S & P & O & G). exists name, ts, t. split; [exact J|]. split; [exact I|].
  assert (X : forall x, In x [jt_s t; jt_p t; jt_o t] -> frag_term f x = frag_term g x).
  { intros x JX. apply frag_ext. intros l ->. apply H. now exists name, ts, t. }
  rewrite S, P, O. rewrite !X by (cbn; auto). auto 6.
Qed.
Lemma prep : forall st sink, Forall ds_reachable (js_sinks st) -> (forall i, sink = Some i -> (i < length (js_sinks st))%nat) ->
  exists sinks, match sink with Some i => (js_sinks st, i) | None => (js_sinks st ++ [ds_new []], length (js_sinks st)) end = (sinks, goes_to (length (js_sinks st)) sink) /\
    (goes_to (length (js_sinks st)) sink < length sinks)%nat /\ Forall ds_reachable sinks /\ length sinks = and_then (length (js_sinks st)) sink /\ (forall k, nth k sinks (ds_new []) = nth k (js_sinks st) (ds_new [])).
Proof.
  intros st [i|] F V; cbn [goes_to and_then].
  - exists (js_sinks st). split; [reflexivity|]. split; [auto|]. auto.
  - exists (js_sinks st ++ [ds_new []]). split; [reflexivity|]. rewrite app_length. cbn [length]. split; [lia|]. split; [apply Forall_app; split; [exact F|]; constructor; [|constructor]; apply dr_new; intros g []|]. split; [lia|].
    intro k. destruct (Nat.lt_ge_cases k (length (js_sinks st))) as [A|A]; [now rewrite app_nth1|]. rewrite app_nth2 by lia. rewrite (nth_overflow (js_sinks st)) by lia.
    destruct (k - length (js_sinks st))%nat as [|[|m]]; reflexivity.
Qed.
Lemma all_reach : forall n st d i st' d' new, step_ok n st d i st' d' new -> Forall ds_reachable (js_sinks st) -> Forall ds_reachable (js_sinks st').
Proof.
  intros n st d i st' d' new S F. apply Forall_forall. intros w J. apply (In_nth _ _ (ds_new [])) in J. destruct J as (k & LK & <-). destruct (Nat.eq_dec k i) as [->|NK]; [apply S|].
  rewrite (so_other _ _ _ _ _ _ _ S k NK). rewrite (so_len _ _ _ _ _ _ _ S) in LK. rewrite Forall_forall in F. apply F, nth_In, LK.
Qed.
(** what the work on one document does *)
Lemma work : forall n st d i data, js_call st = Some (d, i) -> binv n (bst st d) -> (i < length (js_sinks st))%nat -> Forall ds_reachable (js_sinks st) ->
  exists st' d', process_graphs st data = (st', Ok tt) /\ js_call st' = Some (d', i) /\ binv n (bst st' d') /\ bext (bst st d) (bst st' d') /\ length (js_sinks st') = length (js_sinks st) /\ Forall ds_reachable (js_sinks st') /\
    (forall k q, holds (nth k (js_sinks st') (ds_new [])) q <-> holds (nth k (js_sinks st) (ds_new [])) q \/ (k = i /\ in_data (fmap d') data q)) /\
    (forall l, label_in data l -> lget d' l <> None).
Proof.
  intros n st d i data C B L F. assert (R : ds_reachable (nth i (js_sinks st) (ds_new []))) by (rewrite Forall_forall in F; apply F, nth_In, L).
  destruct (graphs_ok n data st d i C B L R) as (st' & d' & E & S & K). exists st', d'. split; [exact E|]. split; [apply S|]. split; [apply S|]. split; [apply S|]. split; [apply S|]. split; [now apply (all_reach _ _ _ _ _ _ _ S)|]. split.
  - intros k q. destruct (Nat.eq_dec k i) as [->|NK].
    + rewrite (so_holds _ _ _ _ _ _ _ S _ (bext_refl _)). unfold bst. cbn [bs_map]. rewrite in_quads. tauto.
    + rewrite (so_other _ _ _ _ _ _ _ S k NK). tauto.
  - intros l (name & ts & t & J & I & X). pose proof (K name ts t J I) as KT. rewrite Forall_forall in KT. apply KT in X. exact X.
Qed.
Lemma stored_scope : forall calls k n fl c i data, In (c, i, data) (stored k n fl calls) -> (k <= c)%nat \/ exists i', fl = Some (c, i').
Proof.
  induction calls as [|[sink [dt|e]|[dt|e]] calls IH]; intros k n fl c i data J; cbn [stored] in J.
  - destruct J.
  - destruct J as [J|J]; [injection J as <- <- <-; left; lia|]. apply IH in J. destruct J as [J|(i' & J)]; [left; lia|discriminate].
  - apply IH in J. destruct J as [J|(i' & J)]; [left; lia|]. injection J as <- _. left. lia.
  - apply in_app_iff in J. destruct J as [J|J].
    + destruct fl as [[j i0]|]; [|destruct J]. destruct J as [J|[]]. injection J as -> _ _. right. now exists i0.
    + apply IH in J. destruct J as [J|J]; [left; lia|now right].
  - apply IH in J. destruct J as [J|J]; [left; lia|now right].
Qed.
(** labels of the data to come and of the table in use *)
Definition lab (fl : option (nat * nat)) (d : dict str N) (deps : list (nat * nat * rdf_dataset)) (c : nat) (l : str) : Prop :=
  in_scope deps c l \/ exists i, fl = Some (c, i) /\ lget d l <> None.
Lemma lab_scope : forall calls k n fl d c l, lab fl d (stored k n fl calls) c l -> (k <= c)%nat \/ exists i', fl = Some (c, i').
Proof. intros calls k n fl d c l [(i & data & J & _)|(i & E & _)]; [now apply stored_scope in J|right; now exists i]. Qed.
Lemma idle_doc : forall st data, js_call st = None -> document_parse st (Ok data) = (st, if no_triples data then Ok tt else Err AttributeError).
Proof.
  intros st data C. destruct (no_triples data) eqn:E.
  - apply fresh_document; [exact C|]. intros name ts J. unfold no_triples in E. rewrite forallb_forall in E. specialize (E _ J). cbn in E. destruct ts; [reflexivity|discriminate].
  - apply idle_document; [exact C|]. clear C. induction data as [|[name ts] data IH]; [discriminate|]. cbn in E. destruct ts as [|t ts].
    + destruct (IH E) as (a & b & x & J). exists a, b, x. now right.
    + exists name, t, ts. now left.
Qed.

Lemma run_ok : forall calls st k fl d n0, Forall ds_reachable (js_sinks st) -> sinks_there (length (js_sinks st)) calls ->
  js_call st = option_map (fun x => (d, snd x)) fl -> (forall j i, fl = Some (j, i) -> (j < k)%nat /\ (i < length (js_sinks st))%nat) -> binv n0 (bst st d) ->
  exists st' f, jr_run st calls = (st', said (length (js_sinks st)) (match fl with Some _ => true | None => false end) calls) /\ Forall ds_reachable (js_sinks st') /\ js_next st <= js_next st' /\
    (forall i q, holds (nth i (js_sinks st') (ds_new [])) q <-> holds (nth i (js_sinks st) (ds_new [])) q \/ exists c data, In (c, i, data) (stored k (length (js_sinks st)) fl calls) /\ in_data (f c) data q) /\
    (forall c l, lab fl d (stored k (length (js_sinks st)) fl calls) c l -> f c l < js_next st' /\ n0 <= f c l /\ ((k <= c)%nat -> js_next st <= f c l)) /\
    (forall c l c' l', lab fl d (stored k (length (js_sinks st)) fl calls) c l -> lab fl d (stored k (length (js_sinks st)) fl calls) c' l' -> f c l = f c' l' -> c = c' /\ l = l') /\
    (forall j i l a, fl = Some (j, i) -> lget d l = Some a -> f j l = a).
Proof.
  induction calls as [|call calls IH]; intros st k fl d n0 F V C FL B.
  - exists st, (fun _ => fmap d). split; [reflexivity|]. split; [exact F|]. split; [lia|]. cbn [stored]. destruct B as (B1 & B2 & B3). unfold bst in *. cbn [bs_map bs_next] in *.
    assert (LA : forall c l, lab fl d [] c l -> exists i a, fl = Some (c, i) /\ lget d l = Some a).
    { intros c l [(i & data & [] & _)|(i & E & NN)]. destruct (lget d l) as [a|]; [|now destruct NN]. now exists i, a. }
    split; [|split; [|split]].
    + intros i q. split; [now left|]. intros [H|(c & data & [] & _)]. exact H.
    + intros c l H. destruct (LA c l H) as (i & a & E & G). unfold fmap. rewrite G. destruct (B2 l a G). split; [assumption|]. split; [assumption|]. intro X. destruct (FL c i E). lia.
    + intros c l c' l' H H' EQ. destruct (LA c l H) as (i & a & E & G). destruct (LA c' l' H') as (i' & a' & E' & G'). unfold fmap in EQ. rewrite G, G' in EQ. subst a'. split; [congruence|]. exact (B3 l l' a G G').
    + intros j i l a _ G. unfold fmap. now rewrite G.
  - destruct call as [sink rdf|rdf].
    + destruct V as [VI V]. destruct (prep st sink F VI) as (sinks & EP & LI & FS & LS & SAME). set (i := goes_to (length (js_sinks st)) sink) in *. rewrite <- LS in V.
      destruct rdf as [data|e].
      * (* parse_json succeeds *)
        set (st0 := mkJS (js_next st) (Some ([], i)) sinks).
        destruct (work (js_next st) st0 [] i data eq_refl) as (st1 & d1 & E1 & C1 & B1 & X1 & L1 & F1 & H1 & K1); [split; [cbn; lia|]; split; intros; discriminate|exact LI|exact FS|].
        set (st2 := mkJS (js_next st1) None (js_sinks st1)).
        assert (STEP : jr_step st (JParse sink (Ok data)) = (st2, Ok (Some i))). { cbn [jr_step]. unfold parse_json. rewrite EP. cbn [process_jobj]. fold st0. now rewrite E1. }
        assert (V2 : sinks_there (length (js_sinks st2)) calls) by (cbn [js_sinks st2]; rewrite L1; exact V).
        destruct (IH st2 (Datatypes.S k) None [] (js_next st1)) as (st' & f & RUN & FR & NX & HO & RG & INJ & _); [exact F1|exact V2|reflexivity|intros; discriminate|split; [cbn; lia|]; split; intros; discriminate|].
        assert (N2 : length (js_sinks st2) = and_then (length (js_sinks st)) sink) by (cbn [js_sinks st2]; rewrite L1; exact LS).
        rewrite N2 in RUN, HO, RG, INJ. cbn [js_next js_sinks st2] in NX, HO, RG. destruct X1 as [X1 _]. cbn [bst bs_next js_next st0] in X1.
        destruct B1 as (_ & B12 & B13). unfold bst in B12, B13. cbn [bs_map bs_next] in B12, B13. destruct B as (B01 & B02 & B03). unfold bst in B01, B02, B03. cbn [bs_map bs_next] in B01, B02, B03.
        exists st', (fun c => if (c =? k)%nat then fmap d1 else if (k <? c)%nat then f c else fmap d).
        assert (LA : forall c l, lab fl d (stored k (length (js_sinks st)) fl (JParse sink (Ok data) :: calls)) c l ->
          (c = k /\ exists a, lget d1 l = Some a) \/ ((k < c)%nat /\ lab None [] (stored (Datatypes.S k) (and_then (length (js_sinks st)) sink) None calls) c l) \/ ((c < k)%nat /\ exists i a, fl = Some (c, i) /\ lget d l = Some a)).
        { intros c l [(i' & dt & J & LB)|(i' & E & NN)].
          - cbn [stored] in J. destruct J as [J|J].
            + injection J as <- _ <-. left. split; [reflexivity|]. specialize (K1 l LB). destruct (lget d1 l) as [a|]; [now exists a|now destruct K1].
            + right. left. split; [apply stored_scope in J; destruct J as [J|(? & J)]; [lia|discriminate]|]. left. now exists i', dt.
          - right. right. split; [now apply (FL c i')|]. destruct (lget d l) as [a|] eqn:G; [|now destruct NN]. now exists i', a. }
        assert (VA : forall c l, lab fl d (stored k (length (js_sinks st)) fl (JParse sink (Ok data) :: calls)) c l -> let v := (if (c =? k)%nat then fmap d1 else if (k <? c)%nat then f c else fmap d) l in
          (c = k /\ lget d1 l = Some v /\ js_next st <= v < js_next st1) \/ ((k < c)%nat /\ lab None [] (stored (Datatypes.S k) (and_then (length (js_sinks st)) sink) None calls) c l /\ v = f c l /\ js_next st1 <= v < js_next st') \/
          ((c < k)%nat /\ (exists i, fl = Some (c, i)) /\ lget d l = Some v /\ n0 <= v < js_next st)).
        { intros c l H. destruct (LA c l H) as [(-> & a & G)|[(LT & LB)|(LT & i' & a & E & G)]].
          - left. rewrite Nat.eqb_refl. cbn. unfold fmap. rewrite G. split; [reflexivity|]. split; [reflexivity|]. exact (B12 l a G).
          - right. left. destruct (Nat.eqb_spec c k); [lia|]. destruct (Nat.ltb_spec k c); [|lia]. cbn. split; [exact LT|]. split; [exact LB|]. split; [reflexivity|]. destruct (RG c l LB) as (R1 & _ & R3). split; [apply R3; lia|exact R1].
          - right. right. destruct (Nat.eqb_spec c k); [lia|]. destruct (Nat.ltb_spec k c); [lia|]. cbn. unfold fmap. rewrite G. split; [exact LT|]. split; [now exists i'|]. split; [reflexivity|]. exact (B02 l a G). }
        split; [|split; [exact FR|split; [lia|split; [|split; [|split]]]]].
        -- cbn [jr_run]. rewrite STEP, RUN. reflexivity.
        -- intros i' q. rewrite HO, H1. cbn [js_sinks st0]. rewrite SAME. cbn [stored]. fold i. split.
           ++ intros [[A|(-> & A)]|(c & dt & J & A)]; [now left|right; exists k, data; rewrite Nat.eqb_refl; split; [now left|exact A]|].
              right. exists c, dt. split; [now right|]. apply stored_scope in J. destruct J as [J|(? & J)]; [|discriminate]. destruct (Nat.eqb_spec c k); [lia|]. destruct (Nat.ltb_spec k c); [exact A|lia].
           ++ intros [A|(c & dt & [J|J] & A)]; [left; now left| |].
              ** injection J as <- <- <-. rewrite Nat.eqb_refl in A. left. right. now split.
              ** right. exists c, dt. split; [exact J|]. apply stored_scope in J. destruct J as [J|(? & J)]; [|discriminate]. destruct (Nat.eqb_spec c k); [lia|]. destruct (Nat.ltb_spec k c); [exact A|lia].
        -- intros c l H. destruct (VA c l H) as [(A & _ & D)|[(A & _ & _ & D)|(A & _ & _ & D)]]; (split; [lia|]; split; [lia|]; intro; lia).
        -- intros c l c' l' H H' EQ. destruct (VA c l H) as [(A & G & D)|[(A & G & W & D)|(A & G0 & G & D)]]; destruct (VA c' l' H') as [(A' & G' & D')|[(A' & G' & W' & D')|(A' & G0' & G' & D')]]; try lia.
           ++ split; [congruence|]. rewrite <- EQ in G'. exact (B13 _ _ _ G G').
           ++ rewrite W, W' in EQ. exact (INJ c l c' l' G G' EQ).
           ++ rewrite <- EQ in G'. destruct G0 as (i1 & G0). destruct G0' as (i2 & G0'). split; [congruence|]. exact (B03 _ _ _ G G').
        -- intros j i' l a E G. destruct (FL j i' E) as [LT _]. destruct (Nat.eqb_spec j k); [lia|]. destruct (Nat.ltb_spec k j); [lia|]. unfold fmap. now rewrite G.
      * (* parse_json raises *)
        set (st2 := mkJS (js_next st) (Some ([], i)) sinks).
        assert (STEP : jr_step st (JParse sink (Err e)) = (st2, Err e)). { cbn [jr_step]. unfold parse_json. rewrite EP. reflexivity. }
        destruct (IH st2 (Datatypes.S k) (Some (k, i)) [] (js_next st)) as (st' & f & RUN & FR & NX & HO & RG & INJ & _); [exact FS|exact V|reflexivity|intros j i' E; injection E as <- <-; split; [lia|exact LI]|split; [cbn; lia|]; split; intros; discriminate|].
        cbn [js_next js_sinks st2] in RUN, NX, HO, RG, INJ. rewrite LS in RUN, HO, RG, INJ. destruct B as (B01 & B02 & B03). unfold bst in B01, B02, B03. cbn [bs_map bs_next] in B01, B02, B03.
        exists st', (fun c => if (k <=? c)%nat then f c else fmap d).
        assert (VA : forall c l, lab fl d (stored k (length (js_sinks st)) fl (JParse sink (Err e) :: calls)) c l -> let v := (if (k <=? c)%nat then f c else fmap d) l in
          ((k <= c)%nat /\ lab (Some (k, i)) [] (stored (Datatypes.S k) (and_then (length (js_sinks st)) sink) (Some (k, i)) calls) c l /\ v = f c l /\ js_next st <= v < js_next st') \/
          ((c < k)%nat /\ (exists i, fl = Some (c, i)) /\ lget d l = Some v /\ n0 <= v < js_next st)).
        { intros c l [(i' & dt & J & LB)|(i' & E & NN)].
          - cbn [stored] in J. fold i in J. left. assert (LC : (k <= c)%nat) by (apply stored_scope in J; destruct J as [J|(? & J)]; [lia|injection J as -> _; lia]).
            assert (LL : lab (Some (k, i)) [] (stored (Datatypes.S k) (and_then (length (js_sinks st)) sink) (Some (k, i)) calls) c l) by (left; now exists i', dt).
            destruct (Nat.leb_spec k c); [|lia]. cbn. split; [exact LC|]. split; [exact LL|]. split; [reflexivity|]. destruct (RG c l LL) as (R1 & R2 & _). now split.
          - right. destruct (FL c i' E) as [LT _]. destruct (lget d l) as [a|] eqn:G; [|now destruct NN]. destruct (Nat.leb_spec k c); [lia|]. cbn. unfold fmap. rewrite G. split; [exact LT|]. split; [now exists i'|]. split; [reflexivity|]. exact (B02 l a G). }
        split; [|split; [exact FR|split; [exact NX|split; [|split; [|split]]]]].
        -- cbn [jr_run]. rewrite STEP, RUN. reflexivity.
        -- intros i' q. rewrite HO, SAME. cbn [stored]. fold i. split; (intros [A|(c & dt & J & A)]; [now left|]; right; exists c, dt; split; [exact J|]; apply stored_scope in J; assert (LC : (k <= c)%nat) by (destruct J as [J|(? & J)]; [lia|injection J as -> _; lia]); destruct (Nat.leb_spec k c); [exact A|lia]).
        -- intros c l H. destruct (VA c l H) as [(A & _ & _ & D)|(A & _ & _ & D)]; (split; [lia|]; split; [lia|]; intro; lia).
        -- intros c l c' l' H H' EQ. destruct (VA c l H) as [(A & G & W & D)|(A & G0 & G & D)]; destruct (VA c' l' H') as [(A' & G' & W' & D')|(A' & G0' & G' & D')]; try lia.
           ++ rewrite W, W' in EQ. exact (INJ c l c' l' G G' EQ).
           ++ rewrite <- EQ in G'. destruct G0 as (i1 & G0). destruct G0' as (i2 & G0'). split; [congruence|]. exact (B03 _ _ _ G G').
        -- intros j i' l a E G. destruct (FL j i' E) as [LT _]. destruct (Nat.leb_spec k j); [lia|]. unfold fmap. now rewrite G.
    + cbn [sinks_there] in V.
      assert (SKIP : forall r deps, jr_step st (JDoc rdf) = (st, r) -> said (length (js_sinks st)) (match fl with Some _ => true | None => false end) (JDoc rdf :: calls) = r :: said (length (js_sinks st)) (match fl with Some _ => true | None => false end) calls ->
        stored k (length (js_sinks st)) fl (JDoc rdf :: calls) = deps -> deps = stored (Datatypes.S k) (length (js_sinks st)) fl calls ->
        exists st' f, jr_run st (JDoc rdf :: calls) = (st', said (length (js_sinks st)) (match fl with Some _ => true | None => false end) (JDoc rdf :: calls)) /\ Forall ds_reachable (js_sinks st') /\ js_next st <= js_next st' /\
          (forall i q, holds (nth i (js_sinks st') (ds_new [])) q <-> holds (nth i (js_sinks st) (ds_new [])) q \/ exists c data, In (c, i, data) deps /\ in_data (f c) data q) /\
          (forall c l, lab fl d deps c l -> f c l < js_next st' /\ n0 <= f c l /\ ((k <= c)%nat -> js_next st <= f c l)) /\
          (forall c l c' l', lab fl d deps c l -> lab fl d deps c' l' -> f c l = f c' l' -> c = c' /\ l = l') /\
          (forall j i l a, fl = Some (j, i) -> lget d l = Some a -> f j l = a)).
      { intros r deps STEP SA _ ->. destruct (IH st (Datatypes.S k) fl d n0 F V C) as (st' & f & RUN & FR & NX & HO & RG & INJ & TB); [intros j i E; destruct (FL j i E); split; [lia|assumption]|exact B|].
        exists st', f. split; [cbn [jr_run]; rewrite STEP, RUN, SA; reflexivity|]. split; [exact FR|]. split; [exact NX|]. split; [exact HO|]. split; [|split; [exact INJ|exact TB]].
        intros c l H. destruct (RG c l H) as (R1 & R2 & R3). split; [exact R1|]. split; [exact R2|]. intro LC. apply R3. apply lab_scope in H. destruct H as [H|(i' & H)]; [exact H|]. destruct (FL c i' H). lia. }
      destruct rdf as [data|e]; [|apply (SKIP (Err e) _ eq_refl eq_refl eq_refl eq_refl)].
      destruct fl as [[j i]|].
      * clear SKIP. cbn [option_map snd] in C. destruct (FL j i eq_refl) as [LJ LI].
        destruct (work n0 st d i data C B LI F) as (st1 & d1 & E1 & C1 & B1 & X1 & L1 & F1 & H1 & K1).
        assert (STEP : jr_step st (JDoc (Ok data)) = (st1, Ok None)). { cbn [jr_step]. unfold document_parse. cbn [process_jobj]. now rewrite E1. }
        rewrite <- L1 in V. destruct (IH st1 (Datatypes.S k) (Some (j, i)) d1 n0 F1 V C1) as (st' & f & RUN & FR & NX & HO & RG & INJ & TB); [intros j' i' E; injection E as <- <-; split; [lia|now rewrite L1]|exact B1|].
        rewrite L1 in RUN, HO, RG, INJ. destruct X1 as [XN XM]. unfold bst in XN, XM. cbn [bs_map bs_next] in XN, XM.
        assert (LA : forall c l, lab (Some (j, i)) d (stored k (length (js_sinks st)) (Some (j, i)) (JDoc (Ok data) :: calls)) c l -> lab (Some (j, i)) d1 (stored (Datatypes.S k) (length (js_sinks st)) (Some (j, i)) calls) c l).
        { intros c l [(i' & dt & J & LB)|(i' & E & NN)].
          - cbn [stored app] in J. destruct J as [J|J]; [|left; now exists i', dt]. injection J as <- <- <-. right. exists i. split; [reflexivity|]. now apply K1.
          - right. exists i'. split; [exact E|]. destruct (lget d l) as [a|] eqn:G; [|now destruct NN]. apply XM in G. intro X. change (lget d1 l = Some a) in G. congruence. }
        assert (DE : forall q, in_data (fmap d1) data q <-> in_data (f j) data q).
        { intro q. assert (X : forall l, label_in data l -> fmap d1 l = f j l).
          { intros l LB. specialize (K1 l LB). unfold fmap. destruct (lget d1 l) as [a|] eqn:G; [|now destruct K1]. symmetry. exact (TB j i l a eq_refl G). }
          split; apply data_ext; [exact X|]. intros l LB. symmetry. now apply X. }
        exists st', f. split; [|split; [exact FR|split; [lia|split; [|split; [|split]]]]].
        -- cbn [jr_run]. rewrite STEP, RUN. reflexivity.
        -- intros i' q. rewrite HO, H1. cbn [stored app]. split.
           ++ intros [[A|(-> & A)]|(c & dt & J & A)]; [now left|right; exists j, data; split; [now left|now apply DE]|right; exists c, dt; split; [now right|exact A]].
           ++ intros [A|(c & dt & [J|J] & A)]; [left; now left| |right; now exists c, dt]. injection J as <- <- <-. left. right. split; [reflexivity|now apply DE].
        -- intros c l H. pose proof H as H0. apply LA in H. destruct (RG c l H) as (R1 & R2 & R3). split; [exact R1|]. split; [exact R2|]. intro LC. apply lab_scope in H. destruct H as [H|(i' & H)]; [specialize (R3 H); lia|]. injection H as -> _. lia.
        -- intros c l c' l' H H'. apply INJ; now apply LA.
        -- intros j' i' l a E G. apply (TB j' i' l a E). now apply XM.
      * cbn [option_map] in C. apply (SKIP (if no_triples data then Ok None else Err AttributeError) _); try reflexivity. cbn [jr_step]. rewrite (idle_doc st data C). now destruct (no_triples data).
Qed.

Lemma program : forall start sinks calls st outs, Forall ds_reachable sinks -> sinks_there (length sinks) calls -> jr_run (mkJS start None sinks) calls = (st, outs) ->
  let deps := stored 0 (length sinks) None calls in
  outs = said (length sinks) false calls /\
  exists f, (forall i, lists (ds_iter (nth i (js_sinks st) (ds_new []))) (fun q => In q (ds_iter (nth i sinks (ds_new []))) \/ exists k data, In (k, i, data) deps /\ in_data (f k) data q)) /\
    (forall k l k' l', in_scope deps k l -> in_scope deps k' l' -> f k l = f k' l' -> k = k' /\ l = l') /\
    (forall k l, in_scope deps k l -> start <= f k l < js_next st).
Proof.
  intros start sinks calls st outs F V E deps.
  destruct (run_ok calls (mkJS start None sinks) 0 None [] start F V eq_refl) as (st' & f & RUN & FR & NX & HO & RG & INJ & _); [intros; discriminate|split; [cbn; lia|]; split; intros; discriminate|].
  cbn [js_sinks js_next] in *. rewrite E in RUN. injection RUN as -> ->. split; [reflexivity|]. exists f.
  assert (WF : forall l i, Forall ds_reachable l -> dwf (nth i l (ds_new []))).
  { intros l i FL. apply ds_reachable_dwf. destruct (Nat.lt_ge_cases i (length l)) as [A|A]; [rewrite Forall_forall in FL; apply FL, nth_In, A|]. rewrite nth_overflow by exact A. apply dr_new. intros g []. }
  split; [|split].
  - intro i. destruct (ds_iter_lists _ (WF _ i FR)) as [ND IN]. split; [exact ND|]. intro q. rewrite IN, HO, (iter_holds _ q (WF _ i F)). tauto.
  - intros k l k' l' H H'. apply INJ; now left.
  - intros k l H. destruct (RG k l (or_introl H)) as (A & B & _). now split.
Qed.
Lemma clean : forall calls st, js_call st = None -> (forall s e, ~ In (JParse s (Err e)) calls) ->
  Forall ds_reachable (js_sinks st) -> sinks_there (length (js_sinks st)) calls -> fst (jr_run st calls) = fst (jr_run st (filter is_parse calls)).
Proof.
  induction calls as [|[sink rdf|rdf] calls IH]; intros st C NF F V; [reflexivity| |].
  - destruct rdf as [data|e]; [|destruct (NF sink e); now left]. destruct V as [VI V]. cbn [filter is_parse jr_run].
    assert (L : forall st' i, parse_json st sink (Ok data) = (st', Ok i) -> length (js_sinks st') = and_then (length (js_sinks st)) sink).
    { intros st' i E. unfold parse_json in E. destruct (prep st sink F VI) as (sinks & EP & LI & FS & LS & _). rewrite EP in E. cbn [process_jobj] in E.
      destruct (work (js_next st) (mkJS (js_next st) (Some ([], goes_to (length (js_sinks st)) sink)) sinks) [] (goes_to (length (js_sinks st)) sink) data eq_refl) as (st1 & d1 & E1 & _ & _ & _ & L1 & _); [split; [cbn; lia|]; split; intros; discriminate|exact LI|exact FS|].
      rewrite E1 in E. injection E as <- _. cbn [js_sinks]. rewrite L1. exact LS. }
    destruct (parse_ok st sink data F VI) as (st' & i & f & E & C' & _ & F' & _). assert (S1 : jr_step st (JParse sink (Ok data)) = (st', Ok (Some i))) by (cbn [jr_step]; now rewrite E). rewrite S1.
    assert (X : fst (jr_run st' calls) = fst (jr_run st' (filter is_parse calls))) by (apply IH; [exact C'|intros s e J; apply (NF s e); now right|exact F'|rewrite (L st' i E); exact V]).
    destruct (jr_run st' calls), (jr_run st' (filter is_parse calls)). exact X.
  - cbn [filter is_parse jr_run sinks_there] in *.
    assert (S1 : exists r, jr_step st (JDoc rdf) = (st, r)).
    { destruct rdf as [data|e]; [|eexists; reflexivity]. cbn [jr_step]. rewrite (idle_doc st data C). destruct (no_triples data); eexists; reflexivity. }
    destruct S1 as (r & ->). rewrite <- (IH st C); [now destruct (jr_run st calls)|intros s e J; apply (NF s e); now right|exact F|exact V].
Qed.
