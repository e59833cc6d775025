(** Lemmas over whole histories of a Graph. *)
From Verif Require Import Model.Py Model.Terms Model.Graph Model.GraphRun Spec.GraphSpec Spec.IterSpec
  Proofs.DictLemmas Proofs.GraphInv Proofs.GraphGen.
From Coq Require Import Permutation.

Lemma drain_query : forall g s p o, wf g ->
  drain (S (length (g_triples g))) g (GStart s p o) = (g, Ok (g_match g s p o)).
Proof. intros. apply drain_match; auto. pose proof (g_match_length g s p o H). lia. Qed.

Lemma g_step_wf : forall g op, wf g -> gop_triples op -> wf (g_step g op).
Proof.
  intros g [t|ts|t|s p o] W H; simpl in *.
  - apply g_add_wf; auto.
  - apply g_addAll_wf; auto.
  - destruct (in_dec stmt_eq_dec t (g_triples g)) as [i|n].
    + destruct (g_remove_present g t W i) as (g' & E & W' & _). rewrite E. auto.
    + rewrite g_remove_absent; auto.
  - pose proof (drain_query g s p o W) as E. simpl drain in E.
    match goal with |- wf (fst ?x) => change x with (drain (S (length (g_triples g))) g (GStart s p o)) end.
    rewrite drain_query; auto.
Qed.

Lemma g_step_In : forall g op x, wf g -> gop_triples op ->
  (In x (g_triples (g_step g op)) <-> set_after (fun y => In y (g_triples g)) op x).
Proof.
  intros g [t|ts|t|s p o] x W H; cbn [g_step set_after].
  - rewrite g_add_In. tauto.
  - rewrite g_addAll_In. tauto.
  - destruct (in_dec stmt_eq_dec t (g_triples g)) as [i|n].
    + destruct (g_remove_present g t W i) as (g' & E & W' & _ & Ht & _). rewrite E. simpl. rewrite Ht.
      apply set_remove_In.
    + rewrite g_remove_absent; auto. simpl. intuition congruence.
  - rewrite drain_query; auto. simpl. tauto.
Qed.

Lemma set_of_history_ext : forall ops (P Q : stmt -> Prop), (forall x, P x <-> Q x) ->
  forall x, set_of_history P ops x <-> set_of_history Q ops x.
Proof.
  induction ops as [|op ops IH]; intros P Q H x; simpl; [auto|].
  apply IH. intros y. destruct op; simpl; rewrite H; tauto.
Qed.

Lemma g_run_wf : forall ops g, wf g -> Forall gop_triples ops -> wf (g_run g ops).
Proof.
  unfold g_run. induction ops as [|op ops IH]; intros g W H; simpl; [auto|].
  inversion H; subst. apply IH; auto. apply g_step_wf; auto.
Qed.

Lemma g_run_In : forall ops g x, wf g -> Forall gop_triples ops ->
  (In x (g_triples (g_run g ops)) <-> set_of_history (fun y => In y (g_triples g)) ops x).
Proof.
  unfold g_run. induction ops as [|op ops IH]; intros g x W H; simpl; [tauto|].
  inversion H; subst. rewrite IH; auto using g_step_wf.
  apply set_of_history_ext. intros y. apply g_step_In; auto.
Qed.

Lemma removeMatches_wf : forall g s p o, wf g -> wf (fst (g_removeMatches g s p o)).
Proof.
  intros g s p o W. destruct (removeMatches_spec g s p o W) as [[_ E]|(t & l & g' & _ & Hi & R & K)].
  - rewrite E. auto.
  - destruct (g_remove_present g t W Hi) as (g'' & R' & W' & _). rewrite R in R'. injection R' as <-.
    destruct K as [(_ & _ & _ & _ & E)|(_ & E)]; rewrite E; auto.
Qed.

Lemma wf_triples : forall g t, wf g -> In t (g_triples g) -> is_triple t.
Proof. intros g t (_ & H & _). auto. Qed.

Lemma g_merge_wf : forall g h, wf g -> wf h -> wf (g_merge g h).
Proof.
  intros g h W1 W2. unfold g_merge. apply g_addAll_wf; [apply g_addAll_wf; [apply graph_new_wf|]|];
    intros t Ht; [exact (wf_triples h t W2 Ht)|exact (wf_triples g t W1 Ht)].
Qed.
Lemma g_merge_In : forall g h x, In x (g_triples (g_merge g h)) <-> In x (g_triples g) \/ In x (g_triples h).
Proof. intros. unfold g_merge. rewrite !g_addAll_In. unfold g_iter. simpl. tauto. Qed.

Lemma reachable_wf : forall g, reachable g -> wf g.
Proof.
  induction 1.
  - apply graph_new_wf.
  - apply g_step_wf; auto.
  - apply removeMatches_wf; auto.
  - apply g_merge_wf; auto.
Qed.

Lemma g_run_reachable : forall ops g, reachable g -> Forall gop_triples ops -> reachable (g_run g ops).
Proof.
  unfold g_run. induction ops as [|op ops IH]; intros g R H; simpl; [auto|].
  inversion H; subst. apply IH; auto. constructor; auto.
Qed.

(** *** Observables depend only on the set *)
Lemma lists_perm {A} : forall (l1 l2 : list A) P, lists l1 P -> lists l2 P -> Permutation l1 l2.
Proof.
  intros l1 l2 P [N1 H1] [N2 H2]. apply NoDup_Permutation; auto. intros x. rewrite H1, H2. tauto.
Qed.

Lemma same_set_observables : forall g h, wf g -> wf h ->
  (forall t, In t (g_triples g) <-> In t (g_triples h)) ->
  Permutation (g_iter g) (g_iter h) /\
  g_len g = g_len h /\
  (forall t, g_contains g t = g_contains h t) /\
  (forall s p o, Permutation (g_match g s p o) (g_match h s p o)).
Proof.
  intros g h W1 W2 H.
  assert (P : Permutation (g_iter g) (g_iter h)).
  { unfold g_iter. apply NoDup_Permutation; [apply W1|apply W2|auto]. }
  split; [auto|]. split; [apply Permutation_length; auto|]. split.
  - intros t. unfold g_contains.
    destruct (in_dec stmt_eq_dec t (g_triples g)), (in_dec stmt_eq_dec t (g_triples h)); auto;
      exfalso; rewrite H in *; auto.
  - intros s p o. eapply lists_perm; [apply g_match_lists; auto|].
    eapply lists_iff; [apply g_match_lists; auto|]. intros t. simpl. rewrite H. tauto.
Qed.

(** *** Listings *)
Lemma dkeys_idx_set : forall ix a b c t k, In k (dkeys (idx_set ix a b c t)) <-> k = a \/ In k (dkeys ix).
Proof. intros. rewrite idx_set_eq. apply In_dkeys_dset. Qed.

Definition listed (g : graph) (w : which) : list term := dkeys (g_index g w).
Definition key_of (w : which) (t : stmt) : term :=
  match w with SPO => st_s t | POS => st_p t | OSP => st_o t end.

Lemma listed_add : forall g w t k, In k (listed (g_add g t) w) <-> k = key_of w t \/ In k (listed g w).
Proof. intros. unfold listed. destruct w; simpl; apply dkeys_idx_set. Qed.
Lemma listed_addAll : forall ts g w k,
  In k (listed (g_addAll g ts) w) <-> (exists t, In t ts /\ k = key_of w t) \/ In k (listed g w).
Proof.
  unfold g_addAll. induction ts as [|t ts IH]; intros g w k; simpl.
  - split; [tauto|]. intros [(t & [] & _)|]; auto.
  - rewrite IH, listed_add. split.
    + intros [(u & Hu & E)|[->|H]]; eauto.
    + intros [(u & [->|Hu] & E)|H]; eauto.
Qed.

Lemma in_use_listed : forall g w t, wf g -> In t (g_triples g) -> In (key_of w t) (listed g w).
Proof.
  intros g w t (_ & _ & [_ H1] & [_ H2] & [_ H3]) Hi. unfold listed.
  assert (L : forall k1 k2 k3 ix, lookup3 ix (k1 t) (k2 t) (k3 t) = Some t -> In (k1 t) (dkeys ix)).
  { intros k1 k2 k3 ix L. unfold lookup3 in L. unfold gd at 2 in L.
    destruct (tget ix (k1 t)) eqn:E; [|discriminate]. eapply dget_Some_key; eauto. }
  destruct w; simpl; [eapply (L st_s st_p st_o)|eapply (L st_p st_o st_s)|eapply (L st_o st_s st_p)].
  - apply H1; auto.
  - apply H2; auto.
  - apply H3; auto.
Qed.

Lemma listed_remove : forall g w t, wf g -> In t (g_triples g) ->
  listed (fst (g_remove g t)) w = listed g w.
Proof.
  intros g w t W Hi. destruct (g_remove_present g t W Hi) as (g' & E & _ & _ & _ & E1 & E2 & E3).
  rewrite E. simpl. pose proof (in_use_listed g w t W Hi) as L. unfold listed in *.
  destruct w; simpl in *; [rewrite E1|rewrite E2|rewrite E3]; apply dkeys_dset_in; auto.
Qed.

Lemma listed_NoDup : forall g w, wf g -> NoDup (listed g w).
Proof. intros g w W. apply (wf_nodup3 g w) in W. apply W. Qed.

Lemma listed_run : forall ops g w k, wf g -> Forall gop_triples ops ->
  (In k (listed (g_run g ops) w) <-> (exists t, ever_added ops t /\ key_of w t = k) \/ In k (listed g w)).
Proof.
  unfold g_run. induction ops as [|op ops IH]; intros g w k W H; simpl.
  - split; [auto|]. intros [(t & (op & [] & _) & _)|]; auto.
  - inversion H as [|? ? Ho Hr]; subst. rewrite IH; auto using g_step_wf.
    assert (S : In k (listed (g_step g op) w) <->
      (exists t, match op with OpAdd x => x = t | OpAddAll ts => In t ts | _ => False end /\ key_of w t = k) \/ In k (listed g w)).
    { destruct op as [t|ts|t|s p o]; cbn [g_step].
      - rewrite listed_add. split.
        + intros [->|]; eauto.
        + intros [(u & -> & <-)|]; auto.
      - rewrite listed_addAll. split.
        + intros [(u & Hu & ->)|]; eauto.
        + intros [(u & Hu & <-)|]; eauto.
      - assert (E : listed (fst (g_remove g t)) w = listed g w).
        { destruct (in_dec stmt_eq_dec t (g_triples g)).
          - apply listed_remove; auto.
          - rewrite g_remove_absent; auto. }
        rewrite E. split; [auto|]. intros [(u & [] & _)|]; auto.
      - rewrite drain_query; auto. simpl. split; [auto|]. intros [(u & [] & _)|]; auto. }
    rewrite S. split.
    + intros [(t & (op' & Hi & Hm) & E)|[(t & Hm & E)|Hl]]; auto; left; exists t; split; auto.
      * exists op'. simpl. auto.
      * exists op. simpl. auto.
    + intros [(t & (op' & [->|Hi] & Hm) & E)|Hl]; auto.
      * right. left. eauto.
      * left. exists t. split; [|auto]. exists op'. auto.
Qed.

(** without removals, everything ever added is still there *)
Definition no_remove (op : gop) : Prop := match op with OpRemove _ => False | _ => True end.
Lemma ever_added_present : forall ops g t, wf g -> Forall gop_triples ops -> Forall no_remove ops ->
  (In t (g_triples (g_run g ops)) <-> ever_added ops t \/ In t (g_triples g)).
Proof.
  unfold g_run. induction ops as [|op ops IH]; intros g t W H N; simpl.
  - split; [auto|]. intros [(op & [] & _)|]; auto.
  - inversion H; inversion N; subst. rewrite IH; auto using g_step_wf.
    rewrite g_step_In by auto.
    split.
    + intros [(op' & Hi & Hm)|Hs].
      * left. exists op'. simpl. auto.
      * destruct op; simpl in *; try tauto; destruct Hs; auto; left; eexists; (split; [left; reflexivity|]); simpl; auto.
    + intros [(op' & [->|Hi] & Hm)|Hs].
      * right. destruct op'; simpl in *; try contradiction; auto.
      * left. exists op'. auto.
      * right. destruct op; simpl in *; try contradiction; auto.
Qed.

(** *** Clients with suspended generators *)
Lemma upd_Forall {A} (P : A -> Prop) : forall l i x, Forall P l -> P x -> Forall P (upd l i x).
Proof.
  intros l i x H Hx. unfold upd. apply Forall_app. split.
  - rewrite Forall_forall in *. intros y Hy. apply H. rewrite <- (firstn_skipn i l). apply in_app_iff; auto.
  - assert (Hs : Forall P (skipn i l)).
    { rewrite Forall_forall in *. intros y Hy. apply H. rewrite <- (firstn_skipn i l). apply in_app_iff; auto. }
    destruct (skipn i l); [constructor|]. inversion Hs; subst. constructor; auto.
Qed.

Lemma gen_keys_step : forall g op x, gen_keys g x -> wf g -> gen_keys (g_step g op) x.
Proof.
  intros g [t|ts|t|s p o] x H W; cbn [g_step].
  - apply gen_keys_add; auto.
  - unfold g_addAll. clear W. revert g H. induction ts as [|t ts IH]; intros g H; simpl; [auto|].
    apply IH. apply gen_keys_add; auto.
  - apply gen_keys_remove; auto.
  - rewrite drain_query; auto.
Qed.


Lemma client_inv : forall es g xs, wf g -> Forall (gen_keys g) xs -> Forall ev_triples es ->
  wf (fst (client_run (g, xs) es)) /\
  Forall (gen_keys (fst (client_run (g, xs) es))) (snd (client_run (g, xs) es)).
Proof.
  unfold client_run. induction es as [|e es IH]; intros g xs W K H; simpl; [auto|].
  inversion H; subst. destruct e as [op|s p o|i]; simpl.
  - apply IH; auto using g_step_wf. eapply Forall_impl; [|exact K]. intros. apply gen_keys_step; auto.
  - apply IH; auto. apply Forall_app. split; [auto|]. repeat constructor.
  - destruct (nth_error xs i) as [x|] eqn:E; [|auto].
    assert (Kx : gen_keys g x) by (rewrite Forall_forall in K; apply K; eapply nth_error_In; eauto).
    destruct (gen_next_pure g x Kx) as (r & En & Kr). rewrite En.
    destruct r as [[[t x']|]|e]; apply IH; auto; apply upd_Forall; simpl; eauto.
Qed.

Lemma next_never_modifies : forall es u i,
  Forall ev_triples es ->
  let c := client_run (graph_new u, []) es in
  fst (client_step c (EvNext i)) = fst c.
Proof.
  intros es u i H c.
  destruct (client_inv es (graph_new u) [] (graph_new_wf u) (Forall_nil _) H) as [W K].
  fold c in W, K. destruct c as [g xs]. simpl in *.
  destruct (nth_error xs i) as [x|] eqn:E; [|auto].
  assert (Kx : gen_keys g x) by (rewrite Forall_forall in K; apply K; eapply nth_error_In; eauto).
  destruct (gen_next_pure g x Kx) as (r & En & Kr). rewrite En.
  destruct r as [[[t x']|]|e]; auto.
Qed.

(** *** Statements used by Properties/GraphProps.v *)
Lemma g_contains_true : forall g t, g_contains g t = true <-> In t (g_triples g).
Proof. intros. unfold g_contains. destruct (in_dec stmt_eq_dec t (g_triples g)); intuition congruence. Qed.

Lemma graph_is_a_set : forall u ops, Forall gop_triples ops ->
  let g := g_run (graph_new u) ops in
  let S := set_of_history (fun _ => False) ops in
  (forall t, g_contains g t = true <-> S t) /\
  lists (g_iter g) S /\
  (forall l, lists l S -> length l = g_len g).
Proof.
  intros u ops H g S.
  assert (W : wf g) by (apply g_run_wf; auto using graph_new_wf).
  assert (HS : forall t, In t (g_triples g) <-> S t).
  { intros t. unfold g. rewrite g_run_In; auto using graph_new_wf. simpl. tauto. }
  assert (L : lists (g_iter g) S) by (split; [apply W|apply HS]).
  split; [|split]; auto.
  - intros t. rewrite g_contains_true. apply HS.
  - intros l Hl. unfold g_len. apply Permutation_length. eapply lists_perm; eauto.
Qed.

Lemma idx_set_present : forall k1 k2 k3 ix ts t, idx_ok k1 k2 k3 ix ts -> In t ts ->
  idx_set ix (k1 t) (k2 t) (k3 t) t = ix.
Proof.
  intros k1 k2 k3 ix ts t [_ L] Hi. rewrite idx_set_eq.
  assert (Q : lookup3 ix (k1 t) (k2 t) (k3 t) = Some t) by (apply L; auto).
  unfold lookup3 in Q. rewrite (dset_same _ _ _ _ Q).
  assert (E : tget ix (k1 t) = Some (gd ix (k1 t))).
  { unfold gd in Q |- *. destruct (tget ix (k1 t)) as [d|]; [auto|]. simpl in Q. discriminate. }
  assert (E2 : tget (gd ix (k1 t)) (k2 t) = Some (gd (gd ix (k1 t)) (k2 t))).
  { unfold gd at 2. unfold gd at 1 in Q. destruct (tget (gd ix (k1 t)) (k2 t)); [auto|discriminate]. }
  rewrite (dset_same _ _ _ _ E2). apply dset_same. auto.
Qed.

Lemma add_present : forall g t, reachable g -> In t (g_iter g) -> g_add g t = g.
Proof.
  intros g t R Hi. apply reachable_wf in R. destruct R as (ND & HT & H1 & H2 & H3).
  unfold g_add. rewrite (idx_set_present _ _ _ _ _ _ H1 Hi), (idx_set_present _ _ _ _ _ _ H2 Hi),
    (idx_set_present _ _ _ _ _ _ H3 Hi).
  unfold set_add. destruct (in_dec stmt_eq_dec t (g_triples g)); [|contradiction].
  destruct g; reflexivity.
Qed.

Lemma remove_outcome : forall g t, reachable g ->
  (In t (g_iter g) -> exists g', g_remove g t = (g', Ok tt) /\
      lists (g_iter g') (fun x => In x (g_iter g) /\ x <> t)) /\
  (~ In t (g_iter g) -> g_remove g t = (g, Err KeyError)).
Proof.
  intros g t R. apply reachable_wf in R. split; intros H.
  - destruct (g_remove_present g t R H) as (g' & E & W' & _ & Ht & _). exists g'. split; [auto|].
    split; [apply W'|]. intros x. unfold g_iter. rewrite Ht. apply set_remove_In.
  - apply g_remove_absent. auto.
Qed.

Lemma match_exact : forall g s p o n, reachable g -> honoured s -> honoured p -> honoured o ->
  length (g_iter g) < n ->
  exists l, snd (drain n g (GStart s p o)) = Ok l /\
    lists l (fun t => In t (g_iter g) /\ fits s p o t).
Proof.
  intros g s p o n R Hs Hp Ho Hn. apply reachable_wf in R.
  pose proof (g_match_length g s p o R) as L. unfold g_iter in *.
  rewrite drain_match by (auto; lia). exists (g_match g s p o). split; [auto|].
  pose proof (g_match_lists g s p o R) as M.
  rewrite !as_wildcard_honoured in M by auto. auto.
Qed.

Lemma as_wildcard_idem : forall o, as_wildcard (as_wildcard o) = as_wildcard o.
Proof.
  intros o. unfold as_wildcard at 2. destruct (oterm_eq_dec o (Some empty_iri)) as [->|n]; [|auto].
  reflexivity.
Qed.
Lemma match_wildcard : forall g s p o, g_match g s p o = g_match g (as_wildcard s) (as_wildcard p) (as_wildcard o).
Proof.
  assert (A : forall o, (oterm_truthy o = true /\ as_wildcard o = o) \/ (oterm_truthy o = false /\ as_wildcard o = None)).
  { intros o. destruct (oterm_truthy o) eqn:E; [left|right]; split; auto using as_wildcard_truthy, oterm_truthy_false. }
  intros g s p o. destruct (A s) as [[Es Ws]|[Es Ws]], (A p) as [[Ep Wp]|[Ep Wp]], (A o) as [[Eo Wo]|[Eo Wo]];
    rewrite Ws, Wp, Wo; clear A; try reflexivity;
    destruct s as [s|], p as [p|], o as [o|]; try discriminate; unfold g_match; rewrite ?Es, ?Ep, ?Eo; reflexivity.
Qed.

Lemma match_empty_iri : forall g s p o n, reachable g -> length (g_iter g) < n ->
  drain n g (GStart s p o) = drain n g (GStart (as_wildcard s) (as_wildcard p) (as_wildcard o)).
Proof.
  intros g s p o n R Hn. apply reachable_wf in R. unfold g_iter in Hn.
  pose proof (g_match_length g s p o R). pose proof (match_wildcard g s p o).
  rewrite !drain_match by (auto; try rewrite <- H0; lia). rewrite <- H0. auto.
Qed.

(** draining leaves the whole graph object as it was, however far it is drained *)
Lemma query_pure : forall g s p o n, reachable g -> fst (drain n g (GStart s p o)) = g.
Proof. intros. apply drain_pure. simpl. auto. Qed.

Lemma removeMatches_outcome : forall g s p o, reachable g ->
  let m t := In t (g_iter g) /\ fits (as_wildcard s) (as_wildcard p) (as_wildcard o) t in
  exists g' r, g_removeMatches g s p o = (g', r) /\
  ((forall t, ~ m t) -> g' = g /\ r = Ok tt) /\
  (bound s -> bound p -> bound o -> r = Ok tt /\ lists (g_iter g') (fun t => In t (g_iter g) /\ ~ m t)) /\
  ((exists t, m t) -> ~ (bound s /\ bound p /\ bound o) ->
      r = Err RuntimeError /\ exists t, m t /\ lists (g_iter g') (fun x => In x (g_iter g) /\ x <> t)).
Proof.
  intros g s p o R m. apply reachable_wf in R.
  pose proof (g_match_lists g s p o R) as [_ ML]. fold (g_iter g) in ML.
  destruct (removeMatches_spec g s p o R) as [[E0 E]|(t & l & g' & E0 & Hi & Er & K)].
  - rewrite E. exists g, (Ok tt). split; [auto|]. rewrite E0 in ML.
    assert (N : forall t, ~ m t) by (intros t Ht; apply (ML t); auto).
    split; [auto|]. split.
    + intros. split; [auto|]. split; [apply R|]. intros x. specialize (N x). tauto.
    + intros [t Ht]. destruct (N t Ht).
  - assert (Mt : m t) by (apply ML; rewrite E0; simpl; auto).
    destruct (g_remove_present g t R Hi) as (g'' & R' & W' & _ & Ht & _).
    rewrite Er in R'. injection R' as <-.
    assert (L : lists (g_iter g') (fun x => In x (g_iter g) /\ x <> t)).
    { split; [apply W'|]. intros x. unfold g_iter. rewrite Ht. apply set_remove_In. }
    destruct K as [(B1 & B2 & B3 & El & E)|(NB & E)]; rewrite E; eexists _, _; (split; [reflexivity|]).
    + split; [intros N; destruct (N t Mt)|]. split.
      * intros _ _ _. split; [auto|]. eapply lists_iff; [exact L|]. intros x. simpl.
        split; intros [Hx Hn]; (split; [auto|]).
        -- intros Mx. apply ML in Mx. rewrite E0, El in Mx. simpl in Mx. intuition congruence.
        -- intros ->. auto.
      * intros _ []. auto.
    + split; [intros N; destruct (N t Mt)|]. split.
      * intros B1 B2 B3. destruct NB. auto.
      * intros _ _. split; [auto|]. exists t. auto.
Qed.

Lemma listing : forall u ops, Forall gop_triples ops ->
  let g := g_run (graph_new u) ops in
  lists (g_subjects g) (fun x => exists t, ever_added ops t /\ st_s t = x) /\
  lists (g_predicates g) (fun x => exists t, ever_added ops t /\ st_p t = x) /\
  lists (g_objects g) (fun x => exists t, ever_added ops t /\ st_o t = x).
Proof.
  intros u ops H g.
  assert (W : wf g) by (apply g_run_wf; auto using graph_new_wf).
  assert (A : forall w, lists (listed g w) (fun x => exists t, ever_added ops t /\ key_of w t = x)).
  { intros w. split; [apply listed_NoDup; auto|]. intros x. unfold g.
    rewrite listed_run; auto using graph_new_wf.
    destruct w; unfold listed; simpl; tauto. }
  split; [exact (A SPO)|split; [exact (A POS)|exact (A OSP)]].
Qed.

Lemma listing_no_removal : forall u ops, Forall gop_triples ops -> Forall no_remove ops ->
  let g := g_run (graph_new u) ops in
  lists (g_subjects g) (fun x => exists t, In t (g_iter g) /\ st_s t = x) /\
  lists (g_predicates g) (fun x => exists t, In t (g_iter g) /\ st_p t = x) /\
  lists (g_objects g) (fun x => exists t, In t (g_iter g) /\ st_o t = x).
Proof.
  intros u ops H N g. destruct (listing u ops H) as (A & B & C). fold g in A, B, C.
  assert (E : forall t, ever_added ops t <-> In t (g_iter g)).
  { intros t. unfold g, g_iter. rewrite ever_added_present; auto using graph_new_wf. simpl. tauto. }
  split; [|split]; (eapply lists_iff; [eassumption|]); intros x; split; intros (t & H1 & H2);
    exists t; (split; [apply E; auto|auto]).
Qed.

Lemma in_use_always_listed : forall g t, reachable g -> In t (g_iter g) ->
  In (st_s t) (g_subjects g) /\ In (st_p t) (g_predicates g) /\ In (st_o t) (g_objects g) /\
  NoDup (g_subjects g) /\ NoDup (g_predicates g) /\ NoDup (g_objects g).
Proof.
  intros g t R Hi. apply reachable_wf in R.
  pose proof (listed_NoDup g SPO R). pose proof (listed_NoDup g POS R). pose proof (listed_NoDup g OSP R).
  pose proof (in_use_listed g SPO t R Hi). pose proof (in_use_listed g POS t R Hi).
  pose proof (in_use_listed g OSP t R Hi). auto 10.
Qed.

Lemma merge_union : forall g h, reachable g -> reachable h ->
  lists (g_iter (g_merge g h)) (fun t => In t (g_iter g) \/ In t (g_iter h)).
Proof.
  intros g h R1 R2. split.
  - apply (reachable_wf _ (reach_merge g h R1 R2)).
  - intros t. apply g_merge_In.
Qed.

Lemma insertion_order : forall u1 u2 ts1 ts2,
  (forall t, In t ts1 -> is_triple t) -> (forall t, In t ts1 <-> In t ts2) ->
  let g := g_addAll (graph_new u1) ts1 in
  let h := g_addAll (graph_new u2) ts2 in
  Permutation (g_iter g) (g_iter h) /\ g_len g = g_len h /\
  (forall t, g_contains g t = g_contains h t) /\
  (forall s p o, Permutation (g_match g s p o) (g_match h s p o)).
Proof.
  intros u1 u2 ts1 ts2 H E g h. apply same_set_observables.
  - apply g_addAll_wf; auto using graph_new_wf.
  - apply g_addAll_wf; auto using graph_new_wf. intros t Ht. apply H, E. auto.
  - intros t. unfold g, h. rewrite !g_addAll_In, E. simpl. tauto.
Qed.

Lemma drain_is_match : forall g s p o n, reachable g -> length (g_iter g) < n ->
  drain n g (GStart s p o) = (g, Ok (g_match g s p o)).
Proof.
  intros. apply reachable_wf in H. apply drain_match; auto.
  pose proof (g_match_length g s p o H). unfold g_iter in *. lia.
Qed.
