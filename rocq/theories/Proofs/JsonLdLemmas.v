(** The JSON-LD parser. *)
From Verif Require Import Model.Py Model.Terms Model.Graph Model.GraphRun Model.Dataset Model.Codec Model.NTriples Model.JsonLd
  Spec.GraphSpec Spec.DatasetSpec Spec.JsonLdSpec Proofs.DictLemmas Proofs.DatasetInv Proofs.DatasetHist Proofs.NTRun.
Open Scope N_scope.

Definition bst (st : jstate) (d : dict str N) : bstate := mkB (js_next st) d.
(** the label table of a running call *)
Definition fmap (d : dict str N) (l : str) : N := match dget str_eq_dec d l with Some a => a | None => 0 end.
Definition known (d : dict str N) (x : frag) : Prop := match x with FBlank l => dget str_eq_dec d l <> None | _ => True end.
Lemma fragment_ok : forall n st d i f, js_call st = Some (d, i) -> binv n (bst st d) ->
  exists st' d' t, process_fragment st f = (st', Ok t) /\ js_call st' = Some (d', i) /\ js_sinks st' = js_sinks st /\ binv n (bst st' d') /\ bext (bst st d) (bst st' d') /\
    known d' f /\ forall bf, bext (bst st' d') bf -> t = frag_term (fmap (bs_map bf)) f.
Proof.
  intros n st d i f C B. destruct f as [v|v|v dt l]; cbn [process_fragment].
  - exists st, d, (Iri v). split; [reflexivity|]. split; [exact C|]. split; [reflexivity|]. split; [exact B|]. split; [apply bext_refl|]. split; [exact Logic.I|]. reflexivity.
  - rewrite C. destruct (make_bnode (mkB (js_next st) d) v) as [b t] eqn:M. destruct (make_bnode_spec n (bst st d) v b t B M) as (B' & E & a & -> & G).
    exists (mkJS (bs_next b) (Some (bs_map b, i)) (js_sinks st)), (bs_map b), (BNode a). unfold bst in *. cbn [js_next js_call js_sinks].
    replace (mkB (bs_next b) (bs_map b)) with b by (now destruct b).
    split; [reflexivity|]. split; [reflexivity|]. split; [reflexivity|]. split; [exact B'|]. split; [exact E|].
    split; [cbn [known]; rewrite G; discriminate|]. intros bf [_ X]. cbn [frag_term]. unfold fmap. now rewrite (X _ _ G).
  - exists st, d, (Lit v l (Some dt)). split; [reflexivity|]. split; [exact C|]. split; [reflexivity|]. split; [exact B|]. split; [apply bext_refl|]. split; [exact Logic.I|]. reflexivity.
Qed.
Definition quad_from (f : str -> N) (g : oterm) (t : jtriple) : stmt := Qd (frag_term f (jt_s t)) (frag_term f (jt_p t)) (frag_term f (jt_o t)) g.
(** a step of a call that writes to sink [i]: what it does to the sinks *)
Record step_ok (n : N) (st : jstate) (d : dict str N) (i : nat) (st' : jstate) (d' : dict str N) (new : (str -> N) -> list stmt) : Prop := {
  so_call : js_call st' = Some (d', i); so_inv : binv n (bst st' d'); so_ext : bext (bst st d) (bst st' d');
  so_len : length (js_sinks st') = length (js_sinks st);
  so_other : forall k, k <> i -> nth k (js_sinks st') (ds_new []) = nth k (js_sinks st) (ds_new []);
  so_reach : ds_reachable (nth i (js_sinks st') (ds_new []));
  so_holds : forall bf, bext (bst st' d') bf -> forall q, holds (nth i (js_sinks st') (ds_new [])) q <-> In q (new (fmap (bs_map bf))) \/ holds (nth i (js_sinks st) (ds_new [])) q }.
Lemma known_ext : forall st d st' d' x, bext (bst st d) (bst st' d') -> known d x -> known d' x.
Proof. intros st d st' d' [v|l|v dt lg] [_ E] K; cbn [known] in *; auto. destruct (dget str_eq_dec d l) as [a|] eqn:G; [|contradiction]. cbn in E. rewrite (E l a G). discriminate. Qed.
Definition frags (t : jtriple) : list frag := [jt_s t; jt_p t; jt_o t].
Lemma triple_ok : forall n st d i g t, js_call st = Some (d, i) -> binv n (bst st d) -> (i < length (js_sinks st))%nat -> ds_reachable (nth i (js_sinks st) (ds_new [])) ->
  exists st' d', process_triple st g t = (st', Ok tt) /\ step_ok n st d i st' d' (fun f => [quad_from f g t]) /\ Forall (known d') (frags t).
Proof.
  intros n st d i g t C B L R. unfold process_triple.
  destruct (fragment_ok n st d i (jt_s t) C B) as (s1 & d1 & x1 & -> & C1 & S1 & B1 & E1 & K1 & T1).
  destruct (fragment_ok n s1 d1 i (jt_p t) C1 B1) as (s2 & d2 & x2 & -> & C2 & S2 & B2 & E2 & K2 & T2).
  destruct (fragment_ok n s2 d2 i (jt_o t) C2 B2) as (s3 & d3 & x3 & -> & C3 & S3 & B3 & E3 & K3 & T3).
  assert (SE : js_sinks s3 = js_sinks st) by congruence. unfold make_quad. rewrite C3, SE.
  destruct (ds_add_spec (nth i (js_sinks st) (ds_new [])) (Qd x1 x2 x3 g) g (ds_reachable_dwf _ R) eq_refl) as (w & EW & DW & HW). rewrite EW.
  exists (mkJS (js_next s3) (Some (d3, i)) (upd (js_sinks st) i w)), d3. split; [reflexivity|]. split.
  - constructor; cbn [js_call js_sinks]; unfold bst in *; cbn [js_next].
    + reflexivity.
    + exact B3.
    + apply (bext_trans _ _ _ E1). exact (bext_trans _ _ _ E2 E3).
    + apply upd_length.
    + intros k NK. rewrite nth_upd. destruct (Nat.eq_dec i k); [now destruct NK|reflexivity].
    + rewrite nth_upd. destruct (Nat.eq_dec i i) as [_|N]; [|now destruct N]. destruct (lt_dec i (length (js_sinks st))) as [_|N]; [|contradiction]. replace w with (ds_step (nth i (js_sinks st) (ds_new [])) (DAdd (Qd x1 x2 x3 g))) by (cbn [ds_step]; now rewrite EW).
      apply dr_step; [exact R|discriminate].
    + intros bf X q. rewrite nth_upd. destruct (Nat.eq_dec i i) as [_|N]; [|now destruct N]. destruct (lt_dec i (length (js_sinks st))) as [_|N]; [|contradiction]. rewrite HW.
      rewrite (T3 bf X), (T2 bf (bext_trans _ _ _ E3 X)), (T1 bf (bext_trans _ _ _ E2 (bext_trans _ _ _ E3 X))).
      unfold quad_from. cbn [In]. split; intros [J|J]; auto. destruct J as [J|[]]; auto.
  - repeat constructor; [apply (known_ext s2 d2 s3 d3 _ E3), (known_ext s1 d1 s2 d2 _ E2), K1|exact (known_ext s2 d2 s3 d3 _ E3 K2)|exact K3].
Qed.
Lemma step_refl : forall n st d i, js_call st = Some (d, i) -> binv n (bst st d) -> ds_reachable (nth i (js_sinks st) (ds_new [])) -> step_ok n st d i st d (fun _ => []).
Proof. intros n st d i C B R. constructor; auto. - apply bext_refl. - intros bf _ q. cbn [In]. tauto. Qed.
Lemma step_trans : forall n st d i s1 d1 s2 d2 new1 new2, step_ok n st d i s1 d1 new1 -> step_ok n s1 d1 i s2 d2 new2 -> step_ok n st d i s2 d2 (fun f => new1 f ++ new2 f).
Proof.
  intros n st d i s1 d1 s2 d2 new1 new2 A B. constructor.
  - apply B. - apply B. - exact (bext_trans _ _ _ (so_ext _ _ _ _ _ _ _ A) (so_ext _ _ _ _ _ _ _ B)).
  - rewrite (so_len _ _ _ _ _ _ _ B). apply A.
  - intros k N. rewrite (so_other _ _ _ _ _ _ _ B k N). now apply A.
  - apply B.
  - intros bf X q. rewrite (so_holds _ _ _ _ _ _ _ B bf X), (so_holds _ _ _ _ _ _ _ A bf (bext_trans _ _ _ (so_ext _ _ _ _ _ _ _ B) X)), in_app_iff. tauto.
Qed.
Lemma triples_ok : forall n g ts st d i, js_call st = Some (d, i) -> binv n (bst st d) -> (i < length (js_sinks st))%nat -> ds_reachable (nth i (js_sinks st) (ds_new [])) ->
  exists st' d', process_triples st g ts = (st', Ok tt) /\ step_ok n st d i st' d' (fun f => map (quad_from f g) ts) /\ (forall t, In t ts -> Forall (known d') (frags t)).
Proof.
  induction ts as [|t ts IH]; intros st d i C B L R; cbn [process_triples].
  - exists st, d. split; [reflexivity|]. split; [now apply step_refl|intros t []].
  - destruct (triple_ok n st d i g t C B L R) as (s1 & d1 & -> & S1 & K1).
    destruct (IH s1 d1 i (so_call _ _ _ _ _ _ _ S1) (so_inv _ _ _ _ _ _ _ S1)) as (s2 & d2 & -> & S2 & K2); [rewrite (so_len _ _ _ _ _ _ _ S1); exact L|apply S1|].
    exists s2, d2. split; [reflexivity|]. split; [exact (step_trans _ _ _ _ _ _ _ _ _ _ S1 S2)|].
    intros t' [<-|J]; [|auto]. eapply Forall_impl; [|exact K1]. intros x. apply (known_ext s1 d1 s2 d2). apply S2.
Qed.
Lemma graphs_ok : forall n data st d i, js_call st = Some (d, i) -> binv n (bst st d) -> (i < length (js_sinks st))%nat -> ds_reachable (nth i (js_sinks st) (ds_new [])) ->
  exists st' d', process_graphs st data = (st', Ok tt) /\ step_ok n st d i st' d' (fun f => concat (map (fun nt => map (quad_from f (graph_iri (fst nt))) (snd nt)) data)) /\
    (forall name ts t, In (name, ts) data -> In t ts -> Forall (known d') (frags t)).
Proof.
  induction data as [|[name ts] data IH]; intros st d i C B L R; cbn [process_graphs].
  - exists st, d. split; [reflexivity|]. split; [now apply step_refl|intros name ts t []].
  - destruct (triples_ok n (graph_iri name) ts st d i C B L R) as (s1 & d1 & -> & S1 & K1).
    destruct (IH s1 d1 i (so_call _ _ _ _ _ _ _ S1) (so_inv _ _ _ _ _ _ _ S1)) as (s2 & d2 & -> & S2 & K2); [rewrite (so_len _ _ _ _ _ _ _ S1); exact L|apply S1|].
    exists s2, d2. split; [reflexivity|]. split; [exact (step_trans _ _ _ _ _ _ _ _ _ _ S1 S2)|].
    intros name' ts' t [[= <- <-]|J] I; [|eauto]. eapply Forall_impl; [|exact (K1 t I)]. intros x. apply (known_ext s1 d1 s2 d2). apply S2.
Qed.
Lemma in_quads : forall f data q, In q (concat (map (fun nt => map (quad_from f (graph_iri (fst nt))) (snd nt)) data)) <-> in_data f data q.
Proof.
  intros f data q. rewrite in_concat. unfold in_data. split.
  - intros (l & J & I). apply in_map_iff in J. destruct J as ([name ts] & <- & J). apply in_map_iff in I. cbn [fst snd] in I. destruct I as (t & <- & I).
    exists name, ts, t. split; [exact J|]. split; [exact I|]. unfold quad_from, Qd. cbn [st_s st_p st_o st_graph]. split; [reflexivity|]. split; [reflexivity|]. split; [reflexivity|].
    unfold graph_iri, str_eqb. destruct (str_eq_dec name (s2l "@default")); [left|right]; auto.
  - intros (name & ts & t & J & I & S & P & O & G). eexists. split; [apply in_map_iff; exists (name, ts); split; [reflexivity|exact J]|]. cbn [fst snd]. apply in_map_iff. exists t. split; [|exact I].
    destruct q as [s p o g]. cbn [st_s st_p st_o st_graph] in S, P, O, G. subst s p o. unfold quad_from, Qd, graph_iri, str_eqb.
    destruct (str_eq_dec name (s2l "@default")) as [->|N]; destruct G as [[E ->]|[E ->]]; try contradiction; try (now destruct E); reflexivity.
Qed.

Lemma parse_ok : forall st sink data, Forall ds_reachable (js_sinks st) -> (forall i, sink = Some i -> (i < length (js_sinks st))%nat) ->
  exists st' i f, parse_json st sink (Ok data) = (st', Ok i) /\ js_call st' = None /\
    (sink = Some i \/ sink = None /\ i = length (js_sinks st)) /\ Forall ds_reachable (js_sinks st') /\
    lists (ds_iter (nth i (js_sinks st') (ds_new []))) (fun q => In q (ds_iter (nth i (js_sinks st) (ds_new []))) \/ in_data f data q) /\
    (forall k, k <> i -> nth k (js_sinks st') (ds_new []) = nth k (js_sinks st) (ds_new [])) /\
    (forall l l', label_in data l -> label_in data l' -> f l = f l' -> l = l') /\
    (forall l, label_in data l -> js_next st <= f l /\ f l < js_next st').
Proof.
  intros st sink data F V. assert (F' : Forall ds_reachable (js_sinks st ++ [ds_new []])).
  { apply Forall_app. split; [exact F|]. constructor; [|constructor]. apply dr_new. intros g []. }
  unfold parse_json.
  assert (Q : exists sinks i, match sink with Some i => (js_sinks st, i) | None => (js_sinks st ++ [ds_new []], length (js_sinks st)) end = (sinks, i) /\
    (i < length sinks)%nat /\ Forall ds_reachable sinks /\ (sink = Some i \/ sink = None /\ i = length (js_sinks st)) /\ (forall k, nth k sinks (ds_new []) = nth k (js_sinks st) (ds_new []))).
  { destruct sink as [i|].
    - exists (js_sinks st), i. split; [reflexivity|]. split; [auto|]. split; [exact F|]. split; auto.
    - exists (js_sinks st ++ [ds_new []]), (length (js_sinks st)). split; [reflexivity|]. split; [rewrite app_length; cbn; lia|]. split; [exact F'|]. split; [auto|].
      intro k. destruct (Nat.lt_ge_cases k (length (js_sinks st))) as [A|A]; [now rewrite app_nth1|]. rewrite app_nth2 by lia. rewrite (nth_overflow (js_sinks st)) by lia.
      destruct (k - length (js_sinks st))%nat as [|[|m]]; reflexivity. }
  destruct Q as (sinks & i & -> & L & FS & SI & SAME). cbn [process_jobj].
  set (st0 := mkJS (js_next st) (Some ([], i)) sinks).
  destruct (graphs_ok (js_next st) data st0 [] i eq_refl) as (s1 & d1 & E & S & K).
  - split; [cbn; lia|]. split; intros; discriminate.
  - exact L.
  - rewrite Forall_forall in FS. apply FS, nth_In, L.
  - rewrite E. exists (mkJS (js_next s1) None (js_sinks s1)), i, (fmap d1). cbn [js_call js_sinks js_next]. split; [reflexivity|]. split; [reflexivity|]. split; [exact SI|].
    assert (RI := so_reach _ _ _ _ _ _ _ S). split.
    + apply Forall_forall. intros w J. apply (In_nth _ _ (ds_new [])) in J. destruct J as (k & LK & <-). destruct (Nat.eq_dec k i) as [->|NK]; [exact RI|].
      rewrite (so_other _ _ _ _ _ _ _ S k NK). rewrite (so_len _ _ _ _ _ _ _ S) in LK. rewrite Forall_forall in FS. apply FS, nth_In, LK.
    + split.
      { destruct (ds_iter_lists _ (ds_reachable_dwf _ RI)) as [ND IN]. split; [exact ND|]. intro q. rewrite IN, (so_holds _ _ _ _ _ _ _ S _ (bext_refl _)). unfold bst. cbn [bs_map].
        rewrite in_quads. cbn [js_sinks st0]. rewrite <- (SAME i), (iter_holds (nth i sinks (ds_new []))); [tauto|].
        apply ds_reachable_dwf. rewrite Forall_forall in FS. apply FS, nth_In, L. }
      split; [intros k NK; rewrite (so_other _ _ _ _ _ _ _ S k NK); cbn [js_sinks st0]; apply SAME|].
      assert (KN : forall l, label_in data l -> exists a, dget str_eq_dec d1 l = Some a).
      { intros l (name & ts & t & J & I & X). pose proof (K name ts t J I) as KT. rewrite Forall_forall in KT. apply KT in X. cbn [known] in X. destruct (dget str_eq_dec d1 l); [eauto|contradiction]. }
      destruct (so_inv _ _ _ _ _ _ _ S) as (_ & RG & INJ). unfold bst in RG, INJ. cbn [bs_map bs_next] in RG, INJ. unfold fmap. split.
      * intros l l' J J' EQ. destruct (KN l J) as [a G]. destruct (KN l' J') as [a' G']. rewrite G, G' in EQ. subst a'. exact (INJ _ _ _ G G').
      * intros l J. destruct (KN l J) as [a G]. rewrite G. exact (RG _ _ G).
Qed.
(** a call that fails leaves bnodes and graph behind *)
Lemma parse_fails : forall st sink e, exists st' i, parse_json st sink (Err e) = (st', Err e) /\ js_call st' = Some ([], i) /\
  (sink = Some i \/ sink = None /\ i = length (js_sinks st)) /\ js_next st' = js_next st /\
  js_sinks st' = js_sinks st ++ match sink with None => [ds_new []] | Some _ => [] end.
Proof.
  intros st [i|] e; unfold parse_json; cbn [process_jobj].
  - exists (mkJS (js_next st) (Some ([], i)) (js_sinks st)), i. rewrite app_nil_r. auto.
  - exists (mkJS (js_next st) (Some ([], length (js_sinks st))) (js_sinks st ++ [ds_new []])), (length (js_sinks st)). auto 6.
Qed.
Lemma fresh_document : forall st data, js_call st = None -> (forall name ts, In (name, ts) data -> ts = []) -> document_parse st (Ok data) = (st, Ok tt).
Proof.
  intros st data C. unfold document_parse, process_jobj. induction data as [|[name ts] data IH]; intro E; [reflexivity|]. cbn [process_graphs].
  rewrite (E name ts (or_introl eq_refl)). cbn [process_triples]. apply IH. intros n t J. exact (E n t (or_intror J)).
Qed.
Lemma fragment_idle : forall st f, js_call st = None -> exists r, process_fragment st f = (st, r) /\ (forall e, r = Err e -> e = AttributeError).
Proof. intros st [v|v|v d l] C; cbn [process_fragment]; [| rewrite C |]; eexists; (split; [reflexivity|]); intros e H; try discriminate H. now injection H. Qed.
Lemma idle_document : forall st data, js_call st = None -> (exists name t ts, In (name, t :: ts) data) -> document_parse st (Ok data) = (st, Err AttributeError).
Proof.
  intros st data C. unfold document_parse, process_jobj. induction data as [|[name [|t ts]] data IH]; intros (n & t' & ts' & J); [destruct J| |].
  - cbn [process_graphs process_triples]. destruct J as [J|J]; [discriminate J|]. apply IH. eauto.
  - cbn [process_graphs process_triples]. unfold process_triple.
    destruct (fragment_idle st (jt_s t) C) as (r1 & -> & A1). destruct r1 as [x|e]; [|now rewrite (A1 e eq_refl)].
    destruct (fragment_idle st (jt_p t) C) as (r2 & -> & A2). destruct r2 as [y|e]; [|now rewrite (A2 e eq_refl)].
    destruct (fragment_idle st (jt_o t) C) as (r3 & -> & A3). destruct r3 as [z|e]; [|now rewrite (A3 e eq_refl)].
    unfold make_quad. now rewrite C.
Qed.
(** document.parse after a failed call writes to the sink of that call *)
Lemma stale_document : forall st d i data, js_call st = Some (d, i) -> binv 0 (mkB (js_next st) d) -> (i < length (js_sinks st))%nat -> ds_reachable (nth i (js_sinks st) (ds_new [])) ->
  exists st' f, document_parse st (Ok data) = (st', Ok tt) /\
    lists (ds_iter (nth i (js_sinks st') (ds_new []))) (fun q => In q (ds_iter (nth i (js_sinks st) (ds_new []))) \/ in_data f data q).
Proof.
  intros st d i data C B L R. destruct (graphs_ok 0 data st d i C B L R) as (s1 & d1 & E & S & K). exists s1, (fmap d1). split; [exact E|].
  destruct (ds_iter_lists _ (ds_reachable_dwf _ (so_reach _ _ _ _ _ _ _ S))) as [ND IN]. split; [exact ND|]. intro q. rewrite IN, (so_holds _ _ _ _ _ _ _ S _ (bext_refl _)). unfold bst. cbn [bs_map].
  rewrite in_quads, (iter_holds (nth i (js_sinks st) (ds_new []))); [tauto|]. now apply ds_reachable_dwf.
Qed.
