(** Generators of Dataset.match that stay open while the dataset changes (C106). *)
From Verif Require Import Model.Py Model.Terms Model.Graph Model.GraphRun Model.Dataset Model.DatasetRun Spec.GraphSpec Spec.DatasetSpec Spec.IterSpec Spec.DIterSpec
  Proofs.DictLemmas Proofs.GraphInv Proofs.GraphGen Proofs.GraphHist Proofs.GraphIter Proofs.DatasetInv Proofs.DatasetGen Proofs.DatasetHist.

(** *** changes of one graph that respect the triples in H *)
Inductive gchange (H : stmt -> Prop) : graph -> graph -> Prop :=
| gc_refl g : gchange H g g
| gc_trans a b c : gchange H a b -> gchange H b c -> gchange H a c
| gc_uri g u : gchange H g (set_uri g u)
| gc_add g t : is_triple t -> (H t -> In t (g_triples g)) -> gchange H g (g_add g t)
| gc_remove g t g' : In t (g_triples g) -> g_remove g t = (g', Ok tt) -> ~ H t -> gchange H g g'.
Lemma gchange_mono : forall (H H' : stmt -> Prop) a b, (forall t, H' t -> H t) -> gchange H a b -> gchange H' a b.
Proof.
  intros H H' a b M C. induction C; [apply gc_refl|eapply gc_trans; eauto|apply gc_uri|apply gc_add; auto|eapply gc_remove; eauto].
Qed.
Lemma gchange_wf : forall H a b, gchange H a b -> wf a -> wf b.
Proof.
  intros H a b C. induction C as [g|a b c C1 I1 C2 I2|g u|g t T P|g t g' I R N]; intro W; [exact W|exact (I2 (I1 W))| | |].
  - apply set_uri_wf; assumption.
  - apply g_add_wf; assumption.
  - destruct (remove_index _ _ _ W I R) as (W' & _). exact W'.
Qed.
Lemma set_uri_index : forall g u w, g_index (set_uri g u) w = g_index g w.
Proof. intros g u []; reflexivity. Qed.
Lemma gchange_keys : forall H a b x, gchange H a b -> gen_keys a x -> gen_keys b x.
Proof.
  intros H a b x C. induction C as [g|a b c C1 I1 C2 I2|g u|g t T P|g t g' I R N]; intro K; [exact K|exact (I2 (I1 K))| | |].
  - destruct x as [| | |[] ? ? ? ? ? ?|]; exact K.
  - now apply gen_keys_add.
  - pose proof (gen_keys_remove g t x K) as Q. now rewrite R in Q.
Qed.
Definition steady (s p o : oterm) (g : graph) (x : gen) : Prop := keys g x /\ shape s p o x /\ sizes g x.
Lemma gchange_steady : forall (H : stmt -> Prop) s p o a b x, (forall t, hits s p o t -> H t) -> gchange H a b -> wf a -> steady s p o a x ->
  steady s p o b x /\ gen_rest b x = gen_rest a x.
Proof.
  intros H s p o a b x M C. induction C as [g|a b c C1 I1 C2 I2|g u|g t T P|g t g' I R N]; intros W S; [auto| | | |].
  - destruct (I1 W S) as [S1 R1]. destruct (I2 (gchange_wf _ _ _ C1 W) S1) as [S2 R2]. split; [exact S2|now rewrite R2].
  - destruct S as (K & SH & Z). split.
    + split; [|split; [exact SH|]].
      * destruct x as [| |[] ? ? ? ?|[] ? ? ? ? ? ?|]; exact K.
      * destruct x as [| |[] ? ? ? ?|[] ? ? ? ? ? ?|]; exact Z.
    + destruct x as [| |[] ? ? ? ?|[] ? ? ? ? ? ?|]; reflexivity.
  - destruct (in_dec stmt_eq_dec t (g_triples g)) as [I|I]; [rewrite (GraphIter.add_present g t W I); auto|].
    destruct S as (K & SH & Z). destruct (other_add s p o g t x SH) as [A B]; [intro X; apply I, P, M, X|].
    split; [|exact A]. split; [now apply keys_add|]. split; [exact SH|now apply B].
  - destruct S as (K & SH & Z). destruct (other_remove s p o g t g' x W I R SH) as (A & _ & B); [intro X; apply N, M, X|].
    split; [|exact A]. split; [exact (keys_remove _ _ _ _ W I R K)|]. split; [exact SH|now apply B].
Qed.

(** *** changes of the world that respect the quads in Hq *)
Definition atriple (w : world) (Hq : stmt -> Prop) (i : gid) (t : stmt) : Prop := exists n, In (n, i) (w_graphs w) /\ Hq (t_as_q n t).
Record wchange (Hq : stmt -> Prop) (w w' : world) : Prop := {
  wc_dwf : dwf w';
  wc_names : exists ex, w_graphs w' = w_graphs w ++ ex;
  wc_heap : length (w_heap w) <= length (w_heap w');
  wc_graphs : forall i, i < length (w_heap w) -> gchange (atriple w Hq i) (heap_get w i) (heap_get w' i);
  wc_holds : forall q, Hq q -> holds w' q <-> holds w q
}.
Lemma wc_refl : forall Hq w, dwf w -> wchange Hq w w.
Proof. intros Hq w W. split; [exact W|exists []; now rewrite app_nil_r|lia|intros; apply gc_refl|tauto]. Qed.
Lemma wc_trans : forall Hq a b c, wchange Hq a b -> wchange Hq b c -> wchange Hq a c.
Proof.
  intros Hq a b c [A1 [e1 A2] A3 A4 A5] [B1 [e2 B2] B3 B4 B5]. split; [exact B1|exists (e1 ++ e2); now rewrite B2, A2, app_assoc|lia| |].
  - intros i L. eapply gc_trans; [exact (A4 i L)|]. apply (gchange_mono (atriple b Hq i)); [|apply B4; lia].
    intros t (n & I & J). exists n. split; [rewrite A2; apply in_or_app; now left|exact J].
  - intros q J. rewrite (B5 q J). exact (A5 q J).
Qed.
Lemma wc_touch : forall Hq w n, dwf w -> wchange Hq w (fst (ds_touch w n)).
Proof.
  intros Hq w n W. pose proof (ds_touch_spec w n W) as T. destruct (touch_graphs w n W) as [G|(_ & i & G)]; destruct (ds_touch w n) as [w1 j]; cbn [fst] in *;
    destruct T as (D & _ & H & _ & _ & K & L); (split; [exact D| |exact L|intros k Lk; rewrite (K k Lk); apply gc_refl|intros q _; apply H]).
  - exists []. now rewrite app_nil_r.
  - eauto.
Qed.
Lemma pair_range : forall w n i, dwf w -> nget (w_graphs w) n = Some i -> i < length (w_heap w).
Proof. intros w n i W H. apply (dwf_range w W). apply dget_Some_In in H. eapply In_pair_dvals; eauto. Qed.
Lemma atriple_one : forall w Hq i n t, dwf w -> nget (w_graphs w) n = Some i -> atriple w Hq i t -> Hq (t_as_q n t).
Proof.
  intros w Hq i n t W N (m & I & J). apply (In_dget oterm_eq_dec) in I; [|exact (dwf_names w W)]. now rewrite (noalias_inj w n m i W N I).
Qed.
Lemma wc_set : forall Hq w n i g, dwf w -> nget (w_graphs w) n = Some i -> dwf (heap_set w i g) -> gchange (atriple w Hq i) (heap_get w i) g ->
  (forall q, Hq q -> holds (heap_set w i g) q <-> holds w q) -> wchange Hq w (heap_set w i g).
Proof.
  intros Hq w n i g W N D C H. split; [exact D|exists []; now rewrite app_nil_r, heap_set_graphs|now rewrite heap_set_len| |exact H].
  intros j L. rewrite heap_get_set. destruct (Nat.eq_dec i j) as [<-|]; [|apply gc_refl]. destruct (lt_dec i (length (w_heap w))); [exact C|apply gc_refl].
Qed.
Lemma wc_add : forall (Hq : stmt -> Prop) w q, dwf w -> is_quad q -> (Hq q -> holds w q) -> wchange Hq w (fst (ds_add w q)).
Proof.
  intros Hq w q W [n Hn] P. destruct (ds_add_spec w q n W Hn) as (w' & E & D & H). rewrite E. cbn [fst].
  assert (HH : forall x, Hq x -> holds w' x <-> holds w x) by (intros x X; rewrite H; split; [intros [->|]; auto|auto]).
  unfold ds_add, quad_graph in E. rewrite Hn in E. pose proof (wc_touch Hq w n W) as C1. pose proof (ds_touch_spec w n W) as T.
  destruct (ds_touch w n) as [w1 i]. cbn [fst] in C1. destruct T as (D1 & N1 & H1 & _).
  set (w2 := heap_set w1 i (set_uri (heap_get w1 i) n)) in *.
  assert (T2 : ds_touch w2 n = (w2, i)) by (unfold ds_touch, w2; now rewrite heap_set_graphs, N1). rewrite T2 in E.
  assert (E' : w' = heap_set w2 i (g_add (heap_get w2 i) (q_as_t q))) by congruence. clear E.
  pose proof (pair_range w1 n i D1 N1) as Li.
  assert (G2 : heap_get w2 i = set_uri (heap_get w1 i) n) by (unfold w2; rewrite heap_get_set; destruct (Nat.eq_dec i i); [destruct (lt_dec i (length (w_heap w1))); [reflexivity|lia]|congruence]).
  eapply wc_trans; [exact C1|]. split; [exact D| | | |].
  - exists []. rewrite app_nil_r, E'. unfold w2. now rewrite !heap_set_graphs.
  - rewrite E'. unfold w2. rewrite !heap_set_len. lia.
  - intros j Lj. rewrite E', heap_get_set. destruct (Nat.eq_dec i j) as [<-|Ne].
    + destruct (lt_dec i (length (w_heap w2))) as [_|X]; [|unfold w2 in X; rewrite heap_set_len in X; lia]. rewrite G2.
      eapply gc_trans; [apply gc_uri|]. apply gc_add; [apply q_as_t_triple|]. intro A. apply (atriple_one w1 Hq i n _ D1 N1) in A. rewrite <- (quad_eta q n Hn) in A.
      apply P, H1 in A. unfold holds in A. rewrite Hn, N1 in A. exact A.
    + unfold w2. rewrite heap_get_set. destruct (Nat.eq_dec i j); [contradiction|apply gc_refl].
  - intros x X. rewrite (HH x X). symmetry. apply H1.
Qed.
Lemma wc_remove : forall (Hq : stmt -> Prop) w q, dwf w -> is_quad q -> ~ Hq q -> wchange Hq w (fst (ds_remove w q)).
Proof.
  intros Hq w q W [n Hn] P. destruct (ds_remove_spec w q n W Hn) as (w' & r & E & D & H & _). rewrite E. cbn [fst].
  assert (HH : forall x, Hq x -> holds w' x <-> holds w x) by (intros x X; rewrite H; split; [tauto|]; intro Y; split; [exact Y|intros ->; contradiction]).
  unfold ds_remove, quad_graph in E. rewrite Hn in E. pose proof (wc_touch Hq w n W) as C1. pose proof (ds_touch_spec w n W) as T.
  destruct (ds_touch w n) as [w1 i]. cbn [fst] in C1. destruct T as (D1 & N1 & H1 & _).
  destruct (g_remove (heap_get w1 i) (q_as_t q)) as [g' r'] eqn:R. injection E as E' _. subst w'. eapply wc_trans; [exact C1|].
  apply (wc_set Hq w1 n i g' D1 N1 D); [|intros x X; rewrite (HH x X); symmetry; apply H1].
  destruct (in_dec stmt_eq_dec (q_as_t q) (g_triples (heap_get w1 i))) as [I|I].
  - destruct (g_remove_present _ _ (dwf_graphs w1 D1 i) I) as (g2 & R2 & _). rewrite R in R2. injection R2 as -> ->.
    apply (gc_remove _ _ (q_as_t q)); auto. intro A. apply (atriple_one w1 Hq i n _ D1 N1) in A. rewrite <- (quad_eta q n Hn) in A. contradiction.
  - rewrite (g_remove_absent _ _ I) in R. injection R as <- <-. apply gc_refl.
Qed.
Lemma wc_addAll : forall (Hq : stmt -> Prop) qs w, dwf w -> (forall q, In q qs -> is_quad q) -> (forall q, In q qs -> Hq q -> holds w q) ->
  wchange Hq w (fst (ds_addAll w qs)).
Proof.
  intros Hq qs. induction qs as [|q qs IH]; intros w W A P; cbn [ds_addAll fst]; [now apply wc_refl|].
  pose proof (wc_add Hq w q W (A q (or_introl eq_refl)) (P q (or_introl eq_refl))) as C.
  destruct (A q (or_introl eq_refl)) as [n Hn]. destruct (ds_add_spec w q n W Hn) as (w' & E & D & H). rewrite E in *. cbn [fst] in C.
  eapply wc_trans; [exact C|]. apply IH; [exact D|intros; apply A; now right|]. intros x I J. apply (wc_holds _ _ _ C x J). apply P; [now right|exact J].
Qed.
Lemma wc_new : forall Hq w g, dwf w -> dwf (fst (heap_new w g)) -> wchange Hq w (fst (heap_new w g)).
Proof.
  intros Hq w g W D. split; [exact D|exists []; now rewrite app_nil_r|cbn; rewrite app_length; lia| |].
  - intros i L. cbn [heap_new fst]. rewrite heap_get_app. destruct (lt_dec i (length (w_heap w))); [apply gc_refl|lia].
  - intros q _. unfold holds. cbn [heap_new fst w_graphs]. destruct (st_graph q) as [n|]; [|tauto]. destruct (nget (w_graphs w) n) as [i|] eqn:N; [|tauto].
    pose proof (pair_range w n i W N) as L. rewrite heap_get_app. destruct (lt_dec i (length (w_heap w))); [reflexivity|lia].
Qed.
(** the changes an event makes *)
Definition safe (Hq : stmt -> Prop) (w : world) (op : dop) : Prop :=
  match op with
  | DAdd q => Hq q -> holds w q
  | DAddAll qs => forall q, In q qs -> Hq q -> holds w q
  | DRemove q => ~ Hq q
  | _ => True
  end.
Lemma wc_op : forall Hq w op, dwf w -> dev_quads (DvOp op) -> safe Hq w op -> wchange Hq w (ds_step w op).
Proof.
  intros Hq w [q|qs|q|s p o gr|s p o gr|u|i named|n|i t|i t] W Q S; cbn [dev_quads safe ds_step] in *; try contradiction.
  - now apply wc_add.
  - now apply wc_addAll.
  - now apply wc_remove.
  - rewrite (drain_ds w s p o gr W). cbn [fst]. unfold q_world. destruct (oterm_truthy gr); [now apply wc_touch|now apply wc_refl].
  - apply wc_new; [exact W|]. exact (tidy_dwf w (DNewGraph u) W Logic.I).
  - now apply wc_refl.
Qed.

(** *** open generators *)
Definition d_keys (w : world) (x : dgen) : Prop :=
  match x with
  | DStart _ _ _ _ | DDone => True
  | DOne _ i y => i < length (w_heap w) /\ gen_keys (heap_get w i) y
  | DMany _ _ _ _ rem _ i y => i < length (w_heap w) /\ gen_keys (heap_get w i) y /\ Forall (fun ni => snd ni < length (w_heap w)) rem
  end.
Lemma wc_keys : forall Hq w w' x, wchange Hq w w' -> d_keys w x -> d_keys w' x.
Proof.
  intros Hq w w' x C K. pose proof (wc_heap _ _ _ C) as L. destruct x as [s p o gr| |n i y|s p o u rem n i y]; cbn [d_keys] in *; auto.
  - destruct K as [K1 K2]. split; [lia|]. eapply gchange_keys; [exact (wc_graphs _ _ _ C i K1)|exact K2].
  - destruct K as (K1 & K2 & K3). split; [lia|]. split; [eapply gchange_keys; [exact (wc_graphs _ _ _ C i K1)|exact K2]|]. eapply Forall_impl; [|exact K3]. cbn. intros. lia.
Qed.
Definition dsucc (r : res (option (stmt * dgen))) : dgen := match r with Ok (Some (_, x)) => x | _ => DDone end.
Definition dout (r : res (option (stmt * dgen))) : res (option stmt) := do y <- r ; Ok (option_map fst y).
Lemma inner_pure : forall w i y, gen_keys (heap_get w i) y -> exists r, inner_next w i y = (w, r) /\ forall t y', r = Ok (Some (t, y')) -> gen_keys (heap_get w i) y'.
Proof. intros w i y K. destruct (gen_next_pure (heap_get w i) y K) as (r & E & H). exists r. unfold inner_next. rewrite E, heap_set_same. auto. Qed.
Lemma outer_pure : forall w s p o u rem, Forall (fun ni => snd ni < length (w_heap w)) rem -> exists r, many_outer w s p o u rem = (w, r) /\ d_keys w (dsucc r).
Proof.
  intros w s p o u rem. induction rem as [|[n i] rem IH]; intro F; cbn [many_outer].
  - destruct (length (w_graphs w) =? u); eexists; (split; [reflexivity|exact Logic.I]).
  - inversion F as [|? ? L F']; subst. cbn [snd] in L. destruct (length (w_graphs w) =? u); [|eexists; split; [reflexivity|exact Logic.I]].
    destruct (inner_pure w i (GStart s p o) Logic.I) as (r & E & K). rewrite E. destruct r as [[[t y]|]|e].
    + eexists. split; [reflexivity|]. cbn [dsucc d_keys]. split; [exact L|]. split; [eapply K; reflexivity|exact F'].
    + exact (IH F').
    + eexists. split; [reflexivity|exact Logic.I].
Qed.
Lemma one_pure : forall w n i y, i < length (w_heap w) -> gen_keys (heap_get w i) y -> exists r, one_next w n i y = (w, r) /\ d_keys w (dsucc r).
Proof.
  intros w n i y L K. unfold one_next. destruct (inner_pure w i y K) as (r & E & H). rewrite E. destruct r as [[[t y']|]|e]; (eexists; split; [reflexivity|]); try exact Logic.I.
  cbn [dsucc d_keys]. split; [exact L|eapply H; reflexivity].
Qed.
Lemma next_pure : forall w x, dwf w -> d_keys w x -> exists w' r, dgen_next w x = (w', r) /\ (w' = w \/ exists n, w' = fst (ds_touch w n)) /\ d_keys w' (dsucc r).
Proof.
  intros w [s p o gr| |n i y|s p o u rem n i y] W K; cbn [d_keys dgen_next] in *.
  - destruct (oterm_truthy gr).
    + pose proof (ds_touch_spec w gr W) as T. destruct (ds_touch w gr) as [w1 i] eqn:E. destruct T as (D1 & N1 & _).
      destruct (one_pure w1 gr i (GStart s p o) (pair_range w1 gr i D1 N1) Logic.I) as (r & E1 & K1). rewrite E1. exists w1, r. split; [reflexivity|]. split; [right; exists gr; now rewrite E|exact K1].
    + destruct (outer_pure w s p o (length (w_graphs w)) (w_graphs w)) as (r & E & K1); [|rewrite E; exists w, r; auto].
      apply Forall_forall. intros [n i] I. apply (dwf_range w W). eapply In_pair_dvals; eauto.
  - exists w, (Ok None). auto.
  - destruct K as [K1 K2]. destruct (one_pure w n i y K1 K2) as (r & E & K). rewrite E. exists w, r. auto.
  - destruct K as (K1 & K2 & K3). destruct (inner_pure w i y K2) as (r & E & H). rewrite E. destruct r as [[[t y']|]|e].
    + exists w. eexists. split; [reflexivity|]. split; [auto|]. cbn [dsucc d_keys]. split; [exact K1|]. split; [eapply H; reflexivity|exact K3].
    + destruct (outer_pure w s p o u rem K3) as (r & E2 & K). rewrite E2. exists w, r. auto.
    + exists w. eexists. split; [reflexivity|]. split; [auto|exact Logic.I].
Qed.
Lemma wc_next : forall Hq w x w' r, dwf w -> d_keys w x -> dgen_next w x = (w', r) -> wchange Hq w w' /\ d_keys w' (dsucc r).
Proof.
  intros Hq w x w' r W K E. destruct (next_pure w x W K) as (w2 & r2 & E2 & C & K2). rewrite E in E2. injection E2 as <- <-. split; [|exact K2].
  destruct C as [->|(n & ->)]; [now apply wc_refl|now apply wc_touch].
Qed.

Lemma wild_cases : forall gr, (oterm_truthy gr = true /\ bound gr /\ as_wildcard gr = gr) \/ (oterm_truthy gr = false /\ ~ bound gr /\ as_wildcard gr = None).
Proof.
  intros gr. destruct (oterm_truthy gr) eqn:T.
  - left. split; [reflexivity|]. apply oterm_truthy_true in T. split; [exact T|]. unfold as_wildcard. destruct (oterm_eq_dec gr (Some empty_iri)); [destruct T; contradiction|reflexivity].
  - right. split; [reflexivity|]. assert (N : ~ bound gr) by (rewrite <- oterm_truthy_true; congruence). split; [exact N|]. unfold as_wildcard.
    destruct (oterm_eq_dec gr (Some empty_iri)); [reflexivity|]. destruct gr; [|reflexivity]. destruct N. split; [discriminate|assumption].
Qed.
Lemma nodup_apart {A} : forall (a b : list A) x, NoDup (a ++ b) -> In x a -> ~ In x b.
Proof.
  induction a as [|y a IH]; intros b x N I; [destruct I|]. cbn [app] in N. apply NoDup_cons_iff in N. destruct N as [N1 N2]. destruct I as [->|I]; [|now apply IH].
  intro J. apply N1. apply in_or_app. now right.
Qed.
Lemma nodup_left {A} : forall a b : list A, NoDup (a ++ b) -> NoDup a.
Proof.
  induction a as [|y a IH]; intros b N; [constructor|]. cbn [app] in N. apply NoDup_cons_iff in N. destruct N as [N1 N2]. constructor; [|exact (IH b N2)].
  intro I. apply N1. apply in_or_app. now left.
Qed.
Section Gen.
  Variables s p o gr : oterm.
  Let Hq := qhits s p o gr.
  Lemma hits_q : forall n t, (bound gr -> gr = n) -> hits s p o t -> Hq (t_as_q n t).
  Proof.
    intros n t B H. split; [exact H|]. destruct (wild_cases gr) as [(_ & X & ->)|(_ & _ & ->)]; [right; cbn; now rewrite (B X)|now left].
  Qed.
  Lemma q_hits : forall q, Hq q -> hits s p o (q_as_t q).
  Proof. intros q [H _]. exact H. Qed.
  Definition covers (w0 : world) (ns : list oterm) (l : list stmt) : Prop :=
    lists l (fun q => holds w0 q /\ Hq q /\ exists n, In n ns /\ st_graph q = Some n).
  Definition some (q : stmt) : res (option stmt) := Ok (Some q).
  Definition live (w0 w : world) (x : dgen) (ys : list stmt) : Prop :=
    exists n i y, nget (w_graphs w0) n = Some i /\ (bound gr -> gr = n) /\ steady s p o (heap_get w i) y /\
      ((x = DOne n i y /\ bound gr /\ covers w0 [n] (ys ++ map (t_as_q n) (gen_rest (heap_get w i) y))) \/
       (exists rem done, x = DMany s p o (length (w_graphs w0)) rem n i y /\ ~ bound gr /\ w_graphs w0 = done ++ (n, i) :: rem /\
          covers w0 (map fst done ++ [n]) (ys ++ map (t_as_q n) (gen_rest (heap_get w i) y)))).
  Definition ended (w0 : world) (x : dgen) (outs : list (res (option stmt))) : Prop :=
    x = DDone /\ exists ys m, outs = map some ys ++ repeat (Ok None) (Datatypes.S m) /\ lists ys (fun q => holds w0 q /\ Hq q).
  Definition failed (w0 w : world) (x : dgen) (outs : list (res (option stmt))) : Prop :=
    x = DDone /\ ~ bound gr /\ length (w_graphs w0) < length (w_graphs w) /\
    exists ys m, outs = map some ys ++ Err RuntimeError :: repeat (Ok None) m /\ NoDup ys /\ forall q, In q ys -> holds w0 q /\ Hq q.
  Definition dinv (w0 w : world) (x : dgen) (outs : list (res (option stmt))) : Prop :=
    dwf w0 /\ wchange Hq w0 w /\ ((exists ys, outs = map some ys /\ live w0 w x ys) \/ ended w0 x outs \/ failed w0 w x outs).
  Lemma wc_length : forall w w', wchange Hq w w' -> length (w_graphs w) <= length (w_graphs w').
  Proof. intros w w' C. destruct (wc_names _ _ _ C) as [ex ->]. rewrite app_length. lia. Qed.
  Lemma wc_nget : forall w w' n i, wchange Hq w w' -> dwf w -> nget (w_graphs w) n = Some i -> nget (w_graphs w') n = Some i.
  Proof.
    intros w w' n i C W N. pose proof (dwf_names _ (wc_dwf _ _ _ C)) as ND. destruct (wc_names _ _ _ C) as [ex E]. rewrite E in *.
    apply In_dget; [exact ND|]. apply dget_Some_In in N. apply in_or_app. now left.
  Qed.
  Lemma live_keep : forall w0 w w' x ys, dwf w0 -> wchange Hq w0 w -> wchange Hq w w' -> live w0 w x ys -> live w0 w' x ys.
  Proof.
    intros w0 w w' x ys W0 C0 C (n & i & y & N & B & S & L).
    pose proof (wc_nget _ _ _ _ C0 W0 N) as N'. pose proof (pair_range _ _ _ (wc_dwf _ _ _ C0) N') as R.
    destruct (gchange_steady _ s p o _ _ y (fun t X => ex_intro _ n (conj (dget_Some_In _ _ _ _ N') (hits_q n t B X))) (wc_graphs _ _ _ C i R) (dwf_graphs _ (wc_dwf _ _ _ C0) i) S) as [S' E].
    exists n, i, y. split; [exact N|]. split; [exact B|]. split; [exact S'|]. rewrite E. exact L.
  Qed.
  Lemma dinv_keep : forall w0 w w' x outs, wchange Hq w w' -> dinv w0 w x outs -> dinv w0 w' x outs.
  Proof.
    intros w0 w w' x outs C (W0 & C0 & D). split; [exact W0|]. split; [eapply wc_trans; eauto|]. destruct D as [(ys & E & L)|[D|(X & B & L & D)]]; [left|right; now left|right; right].
    - exists ys. split; [exact E|]. eapply live_keep; eauto.
    - split; [exact X|]. split; [exact B|]. split; [pose proof (wc_length _ _ C); lia|exact D].
  Qed.
  Lemma covers_incl : forall w0 ns l q, covers w0 ns l -> In q l -> holds w0 q /\ Hq q.
  Proof. intros w0 ns l q [_ H] I. apply H in I. tauto. Qed.
  (** the outer loop goes on: all graphs of [done] have been given *)
  Lemma outer_step : forall w0 w done rem ys, dwf w0 -> wchange Hq w0 w -> ~ bound gr -> w_graphs w0 = done ++ rem -> covers w0 (map fst done) ys ->
    exists r, many_outer w s p o (length (w_graphs w0)) rem = (w, r) /\ dinv w0 w (dsucc r) (map some ys ++ [dout r]).
  Proof.
    intros w0 w done rem ys W0 C NB E CV. destruct (Nat.eq_dec (length (w_graphs w)) (length (w_graphs w0))) as [L|L].
    - pose proof (wc_dwf _ _ _ C) as W.
      assert (EQ : w_graphs w = w_graphs w0) by (destruct (wc_names _ _ _ C) as [ex X]; rewrite X, app_length in L; destruct ex; [now rewrite X, app_nil_r|cbn in L; lia]).
      assert (HE : forall q n i, In (n, i) (w_graphs w0) -> holds w0 q /\ Hq q /\ st_graph q = Some n <-> In q (matches_in w s p o (n, i))).
      { intros q n i I. apply (In_dget oterm_eq_dec) in I; [|exact (dwf_names w0 W0)]. unfold matches_in. cbn [fst snd]. rewrite in_map_iff. split.
        - intros (H1 & H2 & H3). exists (q_as_t q). split; [symmetry; now apply quad_eta|]. apply (match_hits s p o _ _ (dwf_graphs w W i)). split; [|now apply q_hits].
          apply (wc_holds _ _ _ C q H2) in H1. unfold holds in H1. rewrite H3, EQ, I in H1. exact H1.
        - intros (t & <- & M). apply (match_hits s p o _ _ (dwf_graphs w W i)) in M. destruct M as [M1 M2].
          assert (Q : Hq (t_as_q n t)) by (apply hits_q; [contradiction|exact M2]). split; [|split; [exact Q|reflexivity]].
          apply (wc_holds _ _ _ C _ Q). unfold holds. change (st_graph (t_as_q n t)) with (Some n). cbv iota. rewrite EQ, I. apply (wf_triples _ _ (dwf_graphs w W i)) in M1 as T.
          destruct t; unfold is_triple in T; cbn in *; subst. exact M1. }
      destruct (many_first w s p o _ (dwf_graphs w W) L rem) as [[M R]|(pre & n & i & rem' & t & y & RE & P & GN & IN & R)].
      + exists (Ok None). split; [exact R|]. split; [exact W0|]. split; [exact C|]. right. left. split; [reflexivity|]. exists ys, 0%nat. split; [reflexivity|].
        destruct CV as [ND CV]. split; [exact ND|]. intro q. rewrite CV. split; [tauto|]. intros [H1 H2]. split; [exact H1|]. split; [exact H2|].
        unfold holds in H1. destruct (st_graph q) as [n|] eqn:SG; [|contradiction]. destruct (nget (w_graphs w0) n) as [i|] eqn:NG; [|contradiction].
        apply dget_Some_In in NG. pose proof NG as NG'. rewrite E in NG'. apply in_app_or in NG'. destruct NG' as [NG'|NG']; [exists n; split; [exact (in_map fst _ _ NG')|reflexivity]|].
        exfalso. assert (Q : In q (matches_in w s p o (n, i))) by (apply HE; [exact NG|split; [|auto]]; unfold holds; rewrite SG; rewrite (In_dget oterm_eq_dec _ _ _ (dwf_names w0 W0) NG); exact H1).
        assert (Z : In q (concat (map (matches_in w s p o) rem))) by (apply in_concat; eexists; split; [apply in_map; exact NG'|exact Q]). rewrite M in Z. exact Z.
      + rewrite R. eexists. split; [reflexivity|]. split; [exact W0|]. split; [exact C|]. left. exists (ys ++ [t_as_q n t]). split; [now rewrite map_app|]. cbn [dsucc].
        assert (IA : In (n, i) (w_graphs w0)) by (rewrite E, RE; apply in_or_app; right; apply in_or_app; right; now left).
        destruct (begin_cases s p o (heap_get w i) (dwf_graphs w W i)) as (r' & E' & [(_ & ->)|(t' & rest & y' & M & -> & GR & K & S & Z)]); rewrite GN in E'; [discriminate E'|]. injection E' as <- <-.
        exists n, i, y. split; [exact (In_dget oterm_eq_dec _ _ _ (dwf_names w0 W0) IA)|]. split; [contradiction|]. split; [exact (conj K (conj S Z))|]. right.
        exists rem', (done ++ pre). split; [reflexivity|]. split; [exact NB|]. split; [now rewrite E, RE, app_assoc|]. rewrite GR, <- app_assoc. cbn [app].
        change (t_as_q n t :: map (t_as_q n) rest) with (map (t_as_q n) (t :: rest)). rewrite <- M. change (map (t_as_q n) (g_match (heap_get w i) s p o)) with (matches_in w s p o (n, i)).
        destruct CV as [ND CV]. split.
        * apply NoDup_app_disj; [exact ND| |].
          -- unfold matches_in. cbn [fst snd]. pose proof (proj1 (g_match_lists (heap_get w i) s p o (dwf_graphs w W i))) as NM. clear - NM M W.
             assert (TT : forall t, In t (g_match (heap_get w i) s p o) -> is_triple t) by (intros u U; apply (match_hits s p o _ u (dwf_graphs w W i)) in U; exact (wf_triples _ _ (dwf_graphs w W i) (proj1 U))).
             revert NM TT. clear. induction (g_match (heap_get w i) s p o) as [|a l IH]; intros N T; cbn [map]; [constructor|]. apply NoDup_cons_iff in N. destruct N as [N1 N2].
             constructor; [|apply IH; [exact N2|intros u U; apply T; now right]]. intro X. apply in_map_iff in X. destruct X as (u & X & U). apply t_as_q_inj in X; [subst; contradiction|apply T; now right|apply T; now left].
          -- intros q Q1 Q2. apply CV in Q1. apply (HE q n i IA) in Q2. destruct Q1 as (_ & _ & m & I1 & I2), Q2 as (_ & _ & I3). rewrite I2 in I3. injection I3 as ->.
             pose proof (dwf_names w0 W0) as NN. rewrite E, RE in NN. unfold dkeys in NN. rewrite map_app in NN. apply (nodup_apart _ _ n NN I1). rewrite map_app. apply in_or_app. right. now left.
        * intro q. rewrite in_app_iff, CV, <- (HE q n i IA). split.
          -- intros [(H1 & H2 & m & I1 & I2)|(H1 & H2 & H3)]; (split; [exact H1|]; split; [exact H2|]); [exists m|exists n]; (split; [|assumption]); rewrite map_app, !in_app_iff; cbn; auto.
          -- intros (H1 & H2 & m & I1 & I2). rewrite map_app, !in_app_iff in I1. destruct I1 as [[I1|I1]|[<-|[]]]; [left; eauto| |now right].
             exfalso. apply in_map_iff in I1. destruct I1 as ([m' j] & <- & I1). assert (IB : In (m', j) (w_graphs w0)) by (rewrite E, RE; apply in_or_app; right; apply in_or_app; now left).
             cbn [fst] in I2. assert (Q : In q (matches_in w s p o (m', j))) by (apply HE; auto). rewrite (P _ I1) in Q. exact Q.
    - exists (Err RuntimeError). split.
      + pose proof (proj2 (Nat.eqb_neq _ _) L) as X. destruct rem as [|[n i] rem]; cbn [many_outer]; now rewrite X.
      + split; [exact W0|]. split; [exact C|]. right. right. split; [reflexivity|]. split; [exact NB|]. split; [pose proof (wc_length _ _ C); lia|].
        exists ys, 0%nat. split; [reflexivity|]. split; [exact (proj1 CV)|]. intros q I. exact (covers_incl _ _ _ _ CV I).
  Qed.
  Lemma repeat_snoc {A} : forall (x : A) m, repeat x m ++ [x] = repeat x (Datatypes.S m).
  Proof. intros x m. induction m as [|m IH]; [reflexivity|]. cbn [repeat app]. now rewrite IH. Qed.
  Lemma dinv_next : forall w0 w x outs, dinv w0 w x outs -> exists r, dgen_next w x = (w, r) /\ dinv w0 w (dsucc r) (outs ++ [dout r]).
  Proof.
    intros w0 w x outs (W0 & C & D). pose proof (wc_dwf _ _ _ C) as W. destruct D as [(ys & -> & n & i & y & N & B & ST & L)|[(-> & ys & m & -> & L)|(-> & NB & L & ys & m & -> & ND & IN)]].
    - pose proof ST as (K & S & Z). destruct (next_any s p o (heap_get w i) y (dwf_graphs w W i) K S) as [[_ X]|[_ A]]; [contradiction|].
      destruct (gen_rest (heap_get w i) y) as [|t rest] eqn:R; cbn [advances] in A.
      + cbn [map] in L. rewrite app_nil_r in L. destruct L as [(-> & BG & CV)|(rem & done & -> & NB & E & CV)].
        * exists (Ok None). cbn [dgen_next]. unfold one_next, inner_next. rewrite A, heap_set_same. split; [reflexivity|]. split; [exact W0|]. split; [exact C|]. right. left.
          split; [reflexivity|]. exists ys, 0%nat. split; [reflexivity|]. destruct CV as [ND CV]. split; [exact ND|]. intro q. rewrite CV. split; [tauto|]. intros [H1 H2]. split; [exact H1|]. split; [exact H2|].
          exists n. split; [now left|]. destruct H2 as [_ H2]. destruct (wild_cases gr) as [(_ & _ & X)|(_ & X & _)]; [|contradiction]. rewrite X in H2. pose proof (B BG) as GN. destruct BG as [BG _], H2 as [H2|H2]; congruence.
        * cbn [dgen_next]. unfold inner_next. rewrite A, heap_set_same.
          apply (outer_step w0 w (done ++ [(n, i)]) rem ys W0 C NB); [now rewrite E, <- app_assoc|]. rewrite map_app. exact CV.
      + destruct A as (y' & A & R' & K' & S' & Z' & _). specialize (Z' Z). cbn [map] in L.
        assert (LV : forall x', (x' = DOne n i y' /\ x = DOne n i y) \/ (exists u rem, x' = DMany s p o u rem n i y' /\ x = DMany s p o u rem n i y) -> live w0 w x' (ys ++ [t_as_q n t])).
        { intros x' X. exists n, i, y'. split; [exact N|]. split; [exact B|]. split; [exact (conj K' (conj S' Z'))|]. rewrite R', <- app_assoc. cbn [app].
          destruct L as [(E & L)|(rem & done & E & L)]; subst x; destruct X as [[-> X]|(u & rem2 & -> & X)]; try discriminate X; [left; auto|].
          injection X as <- <-. right. exists rem, done. auto. }
        destruct L as [(-> & L)|(rem & done & -> & L)]; cbn [dgen_next]; unfold one_next, inner_next; rewrite A, heap_set_same; eexists; (split; [reflexivity|]);
          (split; [exact W0|]; split; [exact C|]; left; exists (ys ++ [t_as_q n t]); split; [now rewrite map_app|]); cbn [dsucc]; apply LV; [now left|right; eauto].
    - exists (Ok None). split; [reflexivity|]. split; [exact W0|]. split; [exact C|]. right. left. split; [reflexivity|]. exists ys, (Datatypes.S m). split; [|exact L]. rewrite <- app_assoc. f_equal. apply (repeat_snoc (Ok None) (Datatypes.S m)).
    - exists (Ok None). split; [reflexivity|]. split; [exact W0|]. split; [exact C|]. right. right. split; [reflexivity|]. split; [exact NB|]. split; [exact L|].
      exists ys, (Datatypes.S m). split; [|auto]. rewrite <- app_assoc. cbn [app]. do 2 f_equal. apply repeat_snoc.
  Qed.
  Lemma dinv_start : forall w, dwf w -> exists r, dgen_next w (DStart s p o gr) = (q_world w gr, r) /\ dinv (q_world w gr) (q_world w gr) (dsucc r) [dout r].
  Proof.
    intros w W. cbn [dgen_next]. unfold q_world. destruct (wild_cases gr) as [(T & B & WC)|(T & B & WC)]; rewrite T.
    - pose proof (ds_touch_spec w gr W) as X. destruct (ds_touch w gr) as [w1 i]. cbn [fst]. destruct X as (D1 & N1 & H1 & _).
      assert (CV : lists (map (t_as_q gr) (g_match (heap_get w1 i) s p o)) (fun q => holds w1 q /\ Hq q)).
      { pose proof (q_list_lists w1 s p o gr D1) as Q. unfold q_list in Q. rewrite T in Q. assert (TT : ds_touch w1 gr = (w1, i)) by (unfold ds_touch; now rewrite N1). rewrite TT in Q. exact Q. }
      destruct (begin_cases s p o (heap_get w1 i) (dwf_graphs w1 D1 i)) as (r & E & [(M & ->)|(t & rest & y & M & -> & GR & K & S & Z)]); unfold one_next, inner_next; rewrite E, heap_set_same; rewrite M in CV.
      + exists (Ok None). split; [reflexivity|]. split; [exact D1|]. split; [now apply wc_refl|]. right. left. split; [reflexivity|]. exists [], 0%nat. split; [reflexivity|exact CV].
      + eexists. split; [reflexivity|]. split; [exact D1|]. split; [now apply wc_refl|]. left. exists [t_as_q gr t]. split; [reflexivity|]. cbn [dsucc].
        exists gr, i, y. split; [exact N1|]. split; [auto|]. split; [exact (conj K (conj S Z))|]. left. split; [reflexivity|]. split; [exact B|]. rewrite GR. eapply lists_iff; [exact CV|].
        intro q. cbn beta. split; [|tauto]. intros [H2 H3]. split; [exact H2|]. split; [exact H3|]. exists gr. split; [now left|]. destruct H3 as [_ H3]. rewrite WC in H3. destruct H3 as [H3|H3]; [destruct B; contradiction|exact H3].
    - destruct (outer_step w w [] (w_graphs w) [] W (wc_refl _ w W) B eq_refl) as (r & E & D); [|exists r; auto].
      split; [constructor|]. intro q. split; [intros []|intros (_ & _ & n & [] & _)].
  Qed.
End Gen.

(** *** programs *)
Definition acalm (Hq : stmt -> Prop) (G : list stmt) (e : dev) : Prop :=
  forall q, Hq q ->
    match e with
    | DvOp (DAdd x) => x = q -> In q G
    | DvOp (DAddAll l) => In q l -> In q G
    | DvOp (DRemove x) => x <> q
    | _ => True
    end.
Lemma acalm_safe : forall Hq G w op, acalm Hq G (DvOp op) -> (forall q, Hq q -> In q G -> holds w q) -> safe Hq w op.
Proof.
  intros Hq G w [q|qs|q|s p o gr|s p o gr|u|i named|n|i t|i t] A H; cbn [safe]; try exact Logic.I.
  - intro X. exact (H q X (A q X eq_refl)).
  - intros q I X. exact (H q X (A q X I)).
  - intro X. exact (A q X eq_refl).
Qed.
Lemma d_next : forall w xs k x w' r, nth_error xs k = Some x -> dgen_next w x = (w', r) -> d_step (w, xs) (DvNext k) = (w', upd xs k (dsucc r)).
Proof. intros w xs k x w' r N E. cbn [d_step]. rewrite N, E. destruct r as [[[t y]|]|e]; reflexivity. Qed.
(** one event of the others *)
Lemma d_other : forall Hq G e w xs, dwf w -> Forall (d_keys w) xs -> dev_quads e -> acalm Hq G e -> (forall q, Hq q -> In q G -> holds w q) ->
  wchange Hq w (fst (d_step (w, xs) e)) /\ Forall (d_keys (fst (d_step (w, xs) e))) (snd (d_step (w, xs) e)) /\
  forall k x, nth_error xs k = Some x -> e <> DvNext k -> nth_error (snd (d_step (w, xs) e)) k = Some x.
Proof.
  intros Hq G [op|s p o gr|j] w xs W K Q A H.
  - cbn [d_step fst snd]. pose proof (wc_op Hq w op W Q (acalm_safe _ _ _ _ A H)) as C. split; [exact C|]. split; [|auto]. eapply Forall_impl; [|exact K]. intros x. exact (wc_keys _ _ _ x C).
  - cbn [d_step fst snd]. split; [now apply wc_refl|]. split; [apply Forall_app; split; [exact K|repeat constructor]|]. intros k x N _. rewrite nth_error_app1; [exact N|apply nth_error_Some; congruence].
  - destruct (nth_error xs j) as [x|] eqn:N.
    + assert (Kx : d_keys w x) by (rewrite Forall_forall in K; apply K; eapply nth_error_In; eauto). destruct (next_pure w x W Kx) as (w' & r & E & _ & _).
      destruct (wc_next Hq w x w' r W Kx E) as [C Kr]. rewrite (d_next w xs j x w' r N E). cbn [fst snd]. split; [exact C|]. split.
      * apply upd_Forall; [|exact Kr]. eapply Forall_impl; [|exact K]. intros y. exact (wc_keys _ _ _ y C).
      * intros k y N2 NE. rewrite nth_upd_other; [exact N2|congruence].
    + cbn [d_step]. rewrite N. cbn [fst snd]. split; [now apply wc_refl|]. auto.
Qed.
Section Keep.
  Variables (Hq : stmt -> Prop) (G : list stmt) (P : world -> dgen -> list (res (option stmt)) -> Prop).
  Hypothesis HC : forall w w' x outs, wchange Hq w w' -> P w x outs -> P w' x outs.
  Hypothesis HN : forall w x outs, dwf w -> P w x outs -> exists r, dgen_next w x = (w, r) /\ P w (dsucc r) (outs ++ [dout r]).
  Lemma d_keeps : forall es w xs x outs k, dwf w -> Forall (d_keys w) xs -> nth_error xs k = Some x -> P w x outs -> Forall dev_quads es -> Forall (acalm Hq G) es ->
    (forall q, Hq q -> In q G -> holds w q) ->
    let c := d_run (w, xs) es in
    wchange Hq w (fst c) /\ Forall (d_keys (fst c)) (snd c) /\ exists x', nth_error (snd c) k = Some x' /\ P (fst c) x' (outs ++ d_trace k (w, xs) es).
  Proof.
    induction es as [|e es IH]; intros w xs x outs k W K N H Q A HG c.
    - split; [now apply wc_refl|]. split; [exact K|]. exists x. split; [exact N|]. now rewrite app_nil_r.
    - inversion Q as [|? ? Q1 Q2]; inversion A as [|? ? A1 A2]; subst. destruct (d_other Hq G e w xs W K Q1 A1 HG) as (C & K' & F). unfold c. cbn [d_run fold_left d_trace fst snd].
      assert (STEP : exists x1 add, nth_error (snd (d_step (w, xs) e)) k = Some x1 /\ P (fst (d_step (w, xs) e)) x1 (outs ++ add) /\
        match e with DvNext j => if Nat.eqb j k then match nth_error xs k with Some x => [do y <- snd (dgen_next w x) ; Ok (option_map fst y)] | None => [] end else [] | _ => [] end = add).
      { assert (OTH : e <> DvNext k -> exists x1, nth_error (snd (d_step (w, xs) e)) k = Some x1 /\ P (fst (d_step (w, xs) e)) x1 (outs ++ [])).
        { intro NE. exists x. split; [exact (F k x N NE)|]. rewrite app_nil_r. exact (HC _ _ _ _ C H). }
        destruct e as [op|s p o gr|j]; [destruct OTH as (x1 & O1 & O2); [discriminate|exists x1, []; auto]|destruct OTH as (x1 & O1 & O2); [discriminate|exists x1, []; auto]|].
        destruct (Nat.eqb j k) eqn:J; [apply Nat.eqb_eq in J; subst j|apply Nat.eqb_neq in J; destruct OTH as (x1 & O1 & O2); [congruence|exists x1, []; auto]].
        destruct (HN w x outs W H) as (r & E & H'). rewrite (d_next w xs k x w r N E). cbn [fst snd]. exists (dsucc r), [dout r]. split; [exact (nth_upd_same _ _ _ _ N)|]. split; [exact H'|]. now rewrite N, E. }
      destruct STEP as (x1 & add & N1 & H1 & E1). rewrite E1. destruct (d_step (w, xs) e) as [w1 xs1]. cbn [fst snd] in *.
      destruct (IH w1 xs1 x1 (outs ++ add) k (wc_dwf _ _ _ C) K' N1 H1 Q2 A2) as (C2 & K2 & x' & N2 & H2); [intros q X Y; apply (wc_holds _ _ _ C q X); auto|].
      split; [eapply wc_trans; eauto|]. split; [exact K2|]. exists x'. split; [exact N2|]. now rewrite app_assoc.
  Qed.
End Keep.
Lemma d_any : forall es w xs, dwf w -> Forall (d_keys w) xs -> Forall dev_quads es ->
  wchange (fun _ => False) w (fst (d_run (w, xs) es)) /\ Forall (d_keys (fst (d_run (w, xs) es))) (snd (d_run (w, xs) es)) /\
  length (snd (d_run (w, xs) es)) = length xs + dopened es /\
  forall k x, nth_error xs k = Some x -> ~ In (DvNext k) es -> nth_error (snd (d_run (w, xs) es)) k = Some x.
Proof.
  induction es as [|e es IH]; intros w xs W K Q.
  - split; [now apply wc_refl|]. split; [exact K|]. split; [cbn; lia|auto].
  - inversion Q as [|? ? Q1 Q2]; subst. destruct (d_other (fun _ => False) [] e w xs W K Q1) as (C & K' & F); [intros q []|intros q []|].
    assert (L : length (snd (d_step (w, xs) e)) = length xs + dopened [e]).
    { destruct e as [op|s p o gr|j]; cbn [d_step snd]; [cbn; lia|rewrite app_length; cbn; lia|]. destruct (nth_error xs j) as [x|] eqn:N; [|cbn; lia].
      destruct (dgen_next w x) as [w' [[[t y]|]|z]]; cbn [snd]; rewrite DatasetInv.upd_length; cbn; lia. }
    cbn [d_run fold_left]. destruct (d_step (w, xs) e) as [w1 xs1]. cbn [fst snd] in *. destruct (IH w1 xs1 (wc_dwf _ _ _ C) K' Q2) as (C2 & K2 & L2 & F2).
    split; [eapply wc_trans; eauto|]. split; [exact K2|]. split.
    + unfold d_run in L2. rewrite L2, L. unfold dopened. cbn [filter]. destruct e; cbn [length app]; lia.
    + intros k x N NI. apply F2; [apply F; [exact N|intros ->; apply NI; now left]|]. intro X. apply NI. now right.
Qed.
Section Program.
  Variables (w : world) (es0 : list dev) (s p o gr : oterm) (es1 : list dev).
  Let k := dopened es0.
  Let c := d_run (w, []) (es0 ++ DvMatch s p o gr :: es1).
  Let G := ds_iter (fst c).
  Let Hq := qhits s p o gr.
  Hypothesis R : ds_reachable w.
  Hypothesis Q : Forall dev_quads (es0 ++ es1).
  Hypothesis J : ~ In (DvNext k) es1.
  Lemma d_opened : dwf (fst c) /\ Forall (d_keys (fst c)) (snd c) /\ nth_error (snd c) k = Some (DStart s p o gr).
  Proof.
    apply Forall_app in Q. destruct Q as [Q0 Q1]. unfold c, d_run. rewrite fold_left_app. cbn [fold_left].
    destruct (d_any es0 w [] (ds_reachable_dwf w R) (Forall_nil _) Q0) as (C & K & L & _). unfold d_run in C, K, L. destruct (fold_left d_step es0 (w, [])) as [w1 xs1]. cbn [fst snd length Nat.add d_step] in *.
    assert (K1 : Forall (d_keys w1) (xs1 ++ [DStart s p o gr])) by (apply Forall_app; split; [exact K|repeat constructor]).
    destruct (d_any es1 w1 _ (wc_dwf _ _ _ C) K1 Q1) as (C2 & K2 & _ & F). unfold d_run in C2, K2, F. split; [exact (wc_dwf _ _ _ C2)|]. split; [exact K2|].
    apply F; [|exact J]. unfold k. rewrite <- L, nth_error_app2, Nat.sub_diag by lia. reflexivity.
  Qed.
  Lemma d_all : forall es2, Forall dev_quads es2 -> Forall (qcalm s p o gr G) es2 ->
    exists x', nth_error (snd (d_run c (DvNext k :: es2))) k = Some x' /\ Forall (d_keys (fst (d_run c (DvNext k :: es2)))) (snd (d_run c (DvNext k :: es2))) /\
      dinv s p o gr (q_world (fst c) gr) (fst (d_run c (DvNext k :: es2))) x' (d_trace k c (DvNext k :: es2)).
  Proof.
    intros es2 Q2 A. destruct d_opened as (W & K & N). destruct (dinv_start s p o gr (fst c) W) as (r & E & D).
    assert (Kx : d_keys (fst c) (DStart s p o gr)) by exact Logic.I. destruct (wc_next (fun _ => False) _ _ _ _ W Kx E) as [C Kr].
    assert (X : c = (fst c, snd c)) by (destruct c; reflexivity). set (w0 := q_world (fst c) gr) in *.
    assert (ST : d_step c (DvNext k) = (w0, upd (snd c) k (dsucc r))) by (rewrite X; exact (d_next (fst c) (snd c) k _ w0 r N E)).
    unfold d_run. cbn [fold_left d_trace]. rewrite Nat.eqb_refl, N, E, ST. cbn [snd].
    destruct (d_keeps Hq G (dinv s p o gr w0) (fun a b x l => dinv_keep s p o gr w0 a b x l) (fun a x l _ => dinv_next s p o gr w0 a x l) es2 w0 (upd (snd c) k (dsucc r)) (dsucc r) [dout r] k) as (_ & K2 & x' & N' & D'); auto.
    - exact (wc_dwf _ _ _ C).
    - apply upd_Forall; [|exact Kr]. eapply Forall_impl; [|exact K]. intros y. exact (wc_keys _ _ _ y C).
    - exact (nth_upd_same _ _ _ _ N).
    - intros q H I. apply (q_world_holds (fst c) gr q W). now apply (iter_holds (fst c) q W).
    - exists x'. split; [exact N'|]. split; [exact K2|]. exact D'.
  Qed.
  Lemma q_world_length : ~ bound gr -> q_world (fst c) gr = fst c.
  Proof. intro NB. unfold q_world. destruct (wild_cases gr) as [(_ & X & _)|(T & _)]; [contradiction|now rewrite T]. Qed.
  Lemma d_outcomes : forall es2, Forall dev_quads es2 -> Forall (qcalm s p o gr G) es2 ->
    exists ys tail, d_trace k c (DvNext k :: es2) = map (fun q => Ok (Some q)) ys ++ tail /\
      NoDup ys /\ (forall q, In q ys -> In q G /\ Hq q) /\
      (tail = [] \/
       (exists m, tail = repeat (Ok None) (Datatypes.S m)) /\ (forall q, In q G -> Hq q -> In q ys) \/
       (exists m, tail = Err RuntimeError :: repeat (Ok None) m) /\ ~ bound gr /\ length (ds_graphs (fst c)) < length (ds_graphs (fst (d_run c (DvNext k :: es2))))).
  Proof.
    intros es2 Q2 A. destruct (d_all es2 Q2 A) as (x & N & _ & W0 & C & D). destruct d_opened as (W & _ & _).
    assert (HG : forall q, holds (q_world (fst c) gr) q <-> In q G) by (intro q; rewrite (q_world_holds (fst c) gr q W); symmetry; apply (iter_holds (fst c) q W)).
    destruct D as [(ys & E & n & i & y & _ & _ & _ & L)|[(_ & ys & m & E & ND & L)|(_ & NB & LT & ys & m & E & ND & L)]]; rewrite E.
    - exists ys, []. split; [now rewrite app_nil_r|].
      assert (CV : exists ns l, covers s p o gr (q_world (fst c) gr) ns (ys ++ l)) by (destruct L as [(_ & _ & L)|(rem & done & _ & _ & _ & L)]; eauto). destruct CV as (ns & l & CV).
      split; [destruct CV as [ND _]; exact (nodup_left _ _ ND)|]. split; [|now left]. intros q I. destruct (covers_incl s p o gr _ _ _ q CV (in_or_app _ _ _ (or_introl I))) as [H1 H2]. split; [now apply HG|exact H2].
    - exists ys, (repeat (Ok None) (Datatypes.S m)). split; [reflexivity|]. split; [exact ND|]. split; [intros q I; apply L in I; rewrite HG in I; exact I|]. right. left. split; [eauto|]. intros q I H. apply L. split; [now apply HG|exact H].
    - exists ys, (Err RuntimeError :: repeat (Ok None) m). split; [reflexivity|]. split; [exact ND|]. split; [intros q I; apply L in I; rewrite HG in I; exact I|]. right. right. split; [eauto|]. split; [exact NB|].
      unfold ds_graphs, dvals. rewrite !map_length. rewrite (q_world_length NB) in LT. exact LT.
  Qed.
  (** after a new graph *)
  Definition late (n : oterm) (w1 : world) (x : dgen) (outs : list (res (option stmt))) : Prop :=
    dwf w1 /\ exists ys, (forall q, In q ys -> st_graph q = Some n) /\
      ((exists i y rem, nget (w_graphs w1) n = Some i /\ steady s p o (heap_get w1 i) y /\ x = DMany s p o (length (w_graphs (fst c))) rem n i y /\ length (w_graphs (fst c)) < length (w_graphs w1) /\ outs = map some ys) \/
       (x = DDone /\ exists m, outs = map some ys ++ Err RuntimeError :: repeat (Ok None) m)).
  Lemma late_keep : ~ bound gr -> forall n a b x outs, wchange Hq a b -> late n a x outs -> late n b x outs.
  Proof.
    intros NB n a b x outs C (W & ys & H & D). split; [exact (wc_dwf _ _ _ C)|]. exists ys. split; [exact H|]. destruct D as [(i & y & rem & N & S & E & L & O)|D]; [left|now right].
    destruct (gchange_steady _ s p o _ _ y (fun t X => ex_intro _ n (conj (dget_Some_In _ _ _ _ N) (hits_q s p o gr n t (fun B => False_ind _ (NB B)) X))) (wc_graphs _ _ _ C i (pair_range a n i W N)) (dwf_graphs a W i) S) as [S' _].
    exists i, y, rem. split; [exact (wc_nget s p o gr a b n i C W N)|]. split; [exact S'|]. split; [exact E|]. split; [pose proof (wc_length s p o gr _ _ C); lia|exact O].
  Qed.
  Lemma late_next : forall n a x outs, dwf a -> late n a x outs -> exists r, dgen_next a x = (a, r) /\ late n a (dsucc r) (outs ++ [dout r]).
  Proof.
    intros n a x outs W (_ & ys & H & [(i & y & rem & N & S & -> & L & ->)|(-> & m & ->)]).
    - pose proof S as (K & SH & Z). destruct (next_any s p o (heap_get a i) y (dwf_graphs a W i) K SH) as [[_ X]|[_ A]]; [contradiction|].
      cbn [dgen_next]. unfold inner_next. destruct (gen_rest (heap_get a i) y) as [|t rest] eqn:E; cbn [advances] in A.
      + rewrite A, heap_set_same. exists (Err RuntimeError). split.
        * assert (X : (length (w_graphs a) =? length (w_graphs (fst c))) = false) by (apply Nat.eqb_neq; lia). destruct rem as [|[n' i'] rem]; cbn [many_outer]; now rewrite X.
        * split; [exact W|]. exists ys. split; [exact H|]. right. split; [reflexivity|]. exists 0%nat. reflexivity.
      + destruct A as (y' & A & _ & K' & S' & Z' & _). rewrite A, heap_set_same. eexists. split; [reflexivity|]. split; [exact W|]. exists (ys ++ [t_as_q n t]). split.
        * intros q I. apply in_app_or in I. destruct I as [I|[<-|[]]]; [now apply H|reflexivity].
        * left. exists i, y', rem. split; [exact N|]. split; [exact (conj K' (conj S' (Z' Z)))|]. split; [reflexivity|]. split; [exact L|]. now rewrite map_app.
    - exists (Ok None). split; [reflexivity|]. split; [exact W|]. exists ys. split; [exact H|]. right. split; [reflexivity|]. exists (Datatypes.S m). rewrite <- app_assoc. cbn [app]. do 2 f_equal. apply repeat_snoc.
  Qed.
  Lemma d_new_graph : forall ea eb, Forall dev_quads (ea ++ eb) -> Forall (qcalm s p o gr G) (ea ++ eb) -> ~ bound gr ->
    let c1 := d_run c (DvNext k :: ea) in
    Forall (fun r => exists q, r = Ok (Some q)) (d_trace k c (DvNext k :: ea)) ->
    length (ds_graphs (fst c1)) <> length (ds_graphs (fst c)) ->
    exists n ys tail, d_trace k c1 eb = map (fun q => Ok (Some q)) ys ++ tail /\ (forall q, In q ys -> st_graph q = Some n) /\
      (tail = [] \/ exists m, tail = Err RuntimeError :: repeat (Ok None) m).
  Proof.
    intros ea eb Q2 A NB c1 F L. apply Forall_app in Q2. destruct Q2 as [Qa Qb]. apply Forall_app in A. destruct A as [Aa Ab].
    destruct (d_all ea Qa Aa) as (x & N & K & W0 & C & D). fold c1 in N, K, C, D. destruct d_opened as (W & _ & _). rewrite (q_world_length NB) in *.
    unfold ds_graphs, dvals in L. rewrite !map_length in L. pose proof (wc_length s p o gr _ _ C) as LE.
    assert (LV : exists ys, live s p o gr (fst c) (fst c1) x ys).
    { destruct D as [(ys & _ & LV)|[(_ & ys & m & E & _)|(_ & _ & _ & ys & m & E & _)]]; [eauto| |]; rewrite E in F; apply Forall_app in F; destruct F as [_ F]; inversion F as [|? ? (q & X) _]; discriminate X. }
    destruct LV as (ys0 & n & i & y & NG & _ & S & [(_ & B & _)|(rem & done & EX & _)]); [contradiction|].
    assert (LT : late n (fst c1) x []).
    { split; [exact (wc_dwf _ _ _ C)|]. exists []. split; [intros q []|]. left. exists i, y, rem. split; [exact (wc_nget s p o gr _ _ n i C W NG)|]. split; [exact S|]. split; [exact EX|]. split; [lia|reflexivity]. }
    assert (X : c1 = (fst c1, snd c1)) by (destruct c1; reflexivity).
    destruct (d_keeps Hq G (late n) (late_keep NB n) (late_next n) eb (fst c1) (snd c1) x [] k (wc_dwf _ _ _ C) K N LT Qb Ab) as (_ & _ & x' & _ & _ & ys & H & T).
    - intros q HQ I. apply (wc_holds _ _ _ C q HQ). now apply (iter_holds (fst c) q W).
    - rewrite <- X in T. cbn [app] in T. exists n, ys. destruct T as [(? & ? & ? & _ & _ & _ & _ & T)|(_ & m & T)]; rewrite T.
      + exists []. split; [now rewrite app_nil_r|]. auto.
      + eexists. split; [reflexivity|]. split; [exact H|]. right. eauto.
  Qed.
End Program.
