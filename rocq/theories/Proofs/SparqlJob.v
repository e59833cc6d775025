(** Query objects executed more than once (C124). *)
From Coq Require Import Permutation.
From Verif Require Import Model.Py Model.Terms Model.Codec Model.Sparql Model.SparqlJob Spec.CodecSpec Spec.SparqlSpec Spec.SparqlJobSpec
  Proofs.DictLemmas Proofs.SparqlLemmas.
Open Scope N_scope.

Notation pget := (dget str_eq_dec).
Lemma header_dget : forall h name, header h name = pget h name.
Proof.
  intros h name. unfold header. induction h as [|[k v] h IH]; [reflexivity|]. cbn [find fst dget]. unfold str_eqb at 1.
  destruct (str_eq_dec k name) as [E|NE]; destruct (str_eq_dec name k) as [E'|NE']; auto; congruence.
Qed.
Lemma same_perm : forall (a b : params), NoDup (dkeys a) -> NoDup (dkeys b) -> (forall k, pget a k = pget b k) -> Permutation a b.
Proof.
  intros a b NA NB E. assert (L : forall p : params, NoDup (dkeys p) -> NoDup p) by (intros p; apply NoDup_map_inv).
  apply NoDup_Permutation; auto. intros [k v]. split; intro J; (apply (dget_Some_In str_eq_dec)); [rewrite <- E|rewrite E]; now apply In_dget.
Qed.
Lemma pairs_perm : forall a b, Permutation a b -> Permutation (pairs_of a) (pairs_of b).
Proof. intros a b P. unfold pairs_of. rewrite <- !flat_map_concat_map. now apply Permutation_flat_map. Qed.

Lemma truthy_graphs : forall a, garg_truthy a = true <-> graphs_of a <> [].
Proof. intros [[[|c s]|[|x l]]|]; cbn; split; congruence. Qed.
Lemma dget_add : forall p name a key, pget (add_graphs p name a) key =
  if garg_truthy a then if str_eq_dec name key then option_map garg_pval a else pget p key else pget p key.
Proof.
  intros p name [a|] key; [|reflexivity]. unfold add_graphs. destruct (garg_truthy (Some a)); [|reflexivity]. rewrite dget_dset. destruct (str_eq_dec name key); reflexivity.
Qed.
Lemma NoDup_add : forall p name a, NoDup (dkeys p) -> NoDup (dkeys (add_graphs p name a)).
Proof. intros p name [a|] H; [|exact H]. unfold add_graphs. destruct (garg_truthy (Some a)); [now apply NoDup_dset|exact H]. Qed.
Lemma keys_add : forall p name a key, In key (dkeys (add_graphs p name a)) -> key = name /\ graphs_of a <> [] \/ In key (dkeys p).
Proof.
  intros p name [a|] key; [|auto]. unfold add_graphs. destruct (garg_truthy (Some a)) eqn:T; [|auto]. rewrite In_dkeys_dset. intros [->|H]; [|auto]. left. split; [reflexivity|now apply truthy_graphs].
Qed.

Definition with_graphs (j : job) (p : params) : params :=
  add_graphs (add_graphs p (default_graph_uri (j_kind j)) (j_default j)) (named_graph_uri (j_kind j)) (j_named j).
(** what an object that was treated steadily looks like *)
Definition tidy (j : job) : Prop :=
  NoDup (dkeys (j_params j)) /\
  (forall key, In key (dkeys (j_params j)) -> key = default_graph_uri (j_kind j) /\ graphs_of (j_default j) <> [] \/
     key = named_graph_uri (j_kind j) /\ graphs_of (j_named j) <> [] \/ key = query_or_update (j_kind j) /\ sv_post_directly (j_server j) = false) /\
  (sv_post_directly (j_server j) = false -> header (j_headers j) (s2l "Content-Type") = None).

Lemma with_graphs_get : forall j key, tidy j -> key <> query_or_update (j_kind j) \/ sv_post_directly (j_server j) = true ->
  pget (with_graphs j (j_params j)) key = pget (with_graphs j []) key.
Proof.
  intros j key (ND & K & _) Q. unfold with_graphs. rewrite !dget_add.
  destruct (garg_truthy (j_named j)) eqn:TN; destruct (str_eq_dec (named_graph_uri (j_kind j)) key) as [EN|NN]; try reflexivity;
  destruct (garg_truthy (j_default j)) eqn:TD; destruct (str_eq_dec (default_graph_uri (j_kind j)) key) as [ED|NE]; try reflexivity;
  cbn [dget]; apply (dget_None_iff str_eq_dec); intro J; (destruct (K key J) as [[E G]|[[E G]|[E G]]]; [apply truthy_graphs in G; congruence|apply truthy_graphs in G; congruence|]); destruct Q as [Q|Q]; congruence.
Qed.
Lemma fresh_NoDup : forall j, NoDup (dkeys (with_graphs j [])).
Proof. intro j. unfold with_graphs. apply NoDup_add, NoDup_add. constructor. Qed.
Lemma direct_perm : forall j, tidy j -> sv_post_directly (j_server j) = true -> Permutation (with_graphs j (j_params j)) (with_graphs j []).
Proof.
  intros j T D. apply same_perm; [|apply fresh_NoDup|].
  - unfold with_graphs. apply NoDup_add, NoDup_add. apply T.
  - intro key. apply with_graphs_get; auto.
Qed.
Lemma text_perm : forall j v, tidy j -> Permutation (pset (with_graphs j (j_params j)) (query_or_update (j_kind j)) v) (pset (with_graphs j []) (query_or_update (j_kind j)) v).
Proof.
  intros j v T. apply same_perm; try apply NoDup_dset; [|apply fresh_NoDup|].
  - unfold with_graphs. apply NoDup_add, NoDup_add. apply T.
  - intro key. rewrite !dget_dset. destruct (str_eq_dec (query_or_update (j_kind j)) key) as [E|NE]; [reflexivity|]. apply with_graphs_get; auto.
Qed.

Lemma tidy_conforms : forall j text, tidy j ->
  protocol (graphs_of (j_default j)) (graphs_of (j_named j)) (sv_url (j_server j)) text (j_kind j) (on_the_wire (request_of j text)) /\
  way (j_kind j) (j_server j) text (on_the_wire (request_of j text)) /\
  r_kwargs (request_of j text) = sv_verify (j_server j) /\
  (forall name, name <> s2l "Content-Type" -> header (r_headers (request_of j text)) name = header (j_headers j) name).
Proof.
  intros j text T. pose proof (direct_perm j T) as DP. pose proof (text_perm j (PBytes text) T) as TP. destruct T as (_ & _ & H).
  unfold request_of. fold (with_graphs j (j_params j)). destruct (all_params (j_kind j) (j_default j) (j_named j) text) as [E1 E2]. cbv zeta in E1, E2. fold (with_graphs j []) in E1, E2.
  destruct (sv_post_directly (j_server j)) eqn:D; [|destruct (postQueries (j_kind j) (j_server j)) eqn:PQ].
  - split; [|split; [|split; [reflexivity|]]].
    + unfold on_the_wire. cbn [r_method r_url r_params r_headers r_data]. rewrite header_dget, dget_dset_eq.
      pose proof (pairs_perm _ _ (DP eq_refl)) as P. rewrite E1 in P. destruct (j_kind j); exact (directly _ _ _ _ _ _ P).
    + repeat split; intros; congruence || reflexivity.
    + intros name N. cbn [r_headers]. rewrite !header_dget. apply dget_dset_neq. congruence.
  - split; [|split; [|split; [reflexivity|reflexivity]]].
    + unfold on_the_wire. cbn [r_method r_url r_params r_headers r_data]. rewrite (H eq_refl).
      apply pairs_perm in TP. rewrite E2 in TP. destruct (j_kind j); (apply by_form; rewrite TP; apply Permutation_sym, Permutation_cons_append).
    + repeat split; intros; try congruence; [eexists; reflexivity|]. unfold postQueries in PQ. destruct (j_kind j); congruence.
  - split; [|split; [|split; [reflexivity|reflexivity]]].
    + unfold on_the_wire. cbn [r_method r_url r_params r_headers r_data]. rewrite (H eq_refl).
      apply pairs_perm in TP. rewrite E2 in TP. destruct (j_kind j); [|discriminate PQ]. apply by_get. rewrite TP. apply Permutation_sym, Permutation_cons_append.
    + repeat split; intros; try congruence. unfold postQueries in PQ. destruct (j_kind j); [|discriminate PQ]. destruct H1; congruence.
Qed.

Definition settings_of (j : job) : settings := mkSet (j_sparql j) (j_default j) (j_named j) (j_server j).
Lemma settings_assign : forall j x, settings_of (assign j x) = change (settings_of j) x.
Proof.
  intros j [s|a|a|sv|]; try reflexivity. cbn [assign]. unfold executed, settings_of. destruct (utf8_encode (j_sparql j)); [|reflexivity].
  destruct (sv_post_directly (j_server j)) eqn:E; reflexivity.
Qed.
Lemma kind_assign : forall j x, j_kind (assign j x) = j_kind j.
Proof. intros j [s|a|a|sv|]; try reflexivity. cbn [assign]. unfold executed. destruct (utf8_encode (j_sparql j)); [|reflexivity]. destruct (sv_post_directly (j_server j)); reflexivity. Qed.
Lemma header_assign : forall j x name, name <> s2l "Content-Type" -> header (j_headers (assign j x)) name = header (j_headers j) name.
Proof.
  intros j [s|a|a|sv|] name N; try reflexivity. cbn [assign]. unfold executed. destruct (utf8_encode (j_sparql j)); [|reflexivity].
  destruct (sv_post_directly (j_server j)); [|reflexivity]. cbn [j_headers]. rewrite !header_dget. apply dget_dset_neq. congruence.
Qed.
Lemma tidy_assign : forall j x, tidy j -> steady_step (settings_of j) x -> tidy (assign j x).
Proof.
  intros j [s|a|a|sv|] (ND & K & H) S; cbn [steady_step settings_of s_default s_named s_server] in S; unfold tidy; cbn [assign j_params j_kind j_default j_named j_server j_headers].
  - auto.
  - split; [exact ND|]. split; [|exact H]. intros key J. destruct (K key J) as [[E G]|X]; [left; split; [exact E|now apply S]|right; exact X].
  - split; [exact ND|]. split; [|exact H]. intros key J. destruct (K key J) as [X|[[E G]|X]]; [left; exact X|right; left; split; [exact E|now apply S]|right; right; exact X].
  - rewrite S. auto.
  - unfold executed. destruct (utf8_encode (j_sparql j)) as [b|e]; [|now repeat split].
    fold (with_graphs j (j_params j)).
    assert (NW : NoDup (dkeys (with_graphs j (j_params j)))) by (unfold with_graphs; now apply NoDup_add, NoDup_add).
    assert (KW : forall key, In key (dkeys (with_graphs j (j_params j))) -> key = default_graph_uri (j_kind j) /\ graphs_of (j_default j) <> [] \/
       key = named_graph_uri (j_kind j) /\ graphs_of (j_named j) <> [] \/ key = query_or_update (j_kind j) /\ sv_post_directly (j_server j) = false).
    { intros key J. unfold with_graphs in J. apply keys_add in J. destruct J as [J|J]; [tauto|]. apply keys_add in J. destruct J as [J|J]; [tauto|]. now apply K. }
    destruct (sv_post_directly (j_server j)) eqn:D; cbn [j_params j_kind j_default j_named j_server j_headers]; rewrite D.
    + split; [exact NW|]. split; [exact KW|discriminate].
    + split; [now apply NoDup_dset|]. split; [|exact H]. intros key J. apply In_dkeys_dset in J. destruct J as [->|J]; [right; right; now split|now apply KW].
Qed.
Lemma tidy_run : forall net l j, tidy j -> steady (settings_of j) l ->
  tidy (fst (job_run net j l)) /\ settings_of (fst (job_run net j l)) = settings_after (settings_of j) l /\ j_kind (fst (job_run net j l)) = j_kind j /\
  (forall name, name <> s2l "Content-Type" -> header (j_headers (fst (job_run net j l))) name = header (j_headers j) name).
Proof.
  intros net l. induction l as [|x l IH]; intros j T S; [repeat split; auto; apply T|]. destruct S as [S1 S2]. rewrite <- settings_assign in S2.
  specialize (IH (assign j x) (tidy_assign j x T S1) S2). cbn [job_run]. destruct (job_run net (assign j x) l) as [j' out]. cbn [fst] in *. destruct IH as (A & B & C & D).
  split; [exact A|]. split; [rewrite B, settings_assign; reflexivity|]. split; [now rewrite C, kind_assign|]. intros name N. rewrite (D name N). now apply header_assign.
Qed.

(** an execution right after another *)
Lemma with_graphs_same : forall j p,
  (forall a, j_default j = Some a -> garg_truthy (Some a) = true -> pget p (default_graph_uri (j_kind j)) = Some (garg_pval a)) ->
  (forall a, j_named j = Some a -> garg_truthy (Some a) = true -> pget p (named_graph_uri (j_kind j)) = Some (garg_pval a)) -> with_graphs j p = p.
Proof.
  intros j p D N. unfold with_graphs.
  assert (E : add_graphs p (default_graph_uri (j_kind j)) (j_default j) = p).
  { destruct (j_default j) as [a|]; [|reflexivity]. unfold add_graphs. destruct (garg_truthy (Some a)) eqn:T; [|reflexivity]. apply dset_same. now apply D. }
  rewrite E. destruct (j_named j) as [a|]; [|reflexivity]. unfold add_graphs. destruct (garg_truthy (Some a)) eqn:T; [|reflexivity]. apply dset_same. now apply N.
Qed.
Lemma with_graphs_has : forall j p,
  (forall a, j_default j = Some a -> garg_truthy (Some a) = true -> pget (with_graphs j p) (default_graph_uri (j_kind j)) = Some (garg_pval a)) /\
  (forall a, j_named j = Some a -> garg_truthy (Some a) = true -> pget (with_graphs j p) (named_graph_uri (j_kind j)) = Some (garg_pval a)).
Proof.
  intros j p. unfold with_graphs. split; intros a E T; rewrite !dget_add, E, T.
  - destruct (str_eq_dec (named_graph_uri (j_kind j)) (default_graph_uri (j_kind j))) as [X|_]; [destruct (j_kind j); discriminate X|].
    destruct (str_eq_dec (default_graph_uri (j_kind j)) (default_graph_uri (j_kind j))) as [_|X]; [|now destruct X]. now destruct (garg_truthy (j_named j)).
  - destruct (str_eq_dec (named_graph_uri (j_kind j)) (named_graph_uri (j_kind j))) as [_|X]; [reflexivity|now destruct X].
Qed.
Lemma request_again : forall j text, utf8_encode (j_sparql j) = Ok text -> request_of (executed j) text = request_of j text.
Proof.
  intros j text U. unfold executed. rewrite U. fold (with_graphs j (j_params j)). destruct (with_graphs_has j (j_params j)) as [D N].
  destruct (sv_post_directly (j_server j)) eqn:PD; unfold request_of; cbn [j_kind j_server j_default j_named j_params j_headers]; rewrite PD; fold (with_graphs j (j_params j)).
  - change (add_graphs (add_graphs (with_graphs j (j_params j)) (default_graph_uri (j_kind j)) (j_default j)) (named_graph_uri (j_kind j)) (j_named j)) with (with_graphs j (with_graphs j (j_params j))).
    rewrite with_graphs_same by assumption. now rewrite dset_dset.
  - set (p := pset (with_graphs j (j_params j)) (query_or_update (j_kind j)) (PBytes text)).
    change (add_graphs (add_graphs p (default_graph_uri (j_kind j)) (j_default j)) (named_graph_uri (j_kind j)) (j_named j)) with (with_graphs j p).
    assert (E : with_graphs j p = p).
    { apply with_graphs_same; intros a E T; unfold p; rewrite dget_dset_neq by (destruct (j_kind j); discriminate); [now apply D|now apply N]. }
    rewrite E. unfold p. now rewrite dset_dset.
Qed.
Lemma execute_again : forall net j, job_execute net (executed j) = job_execute net j.
Proof.
  intros net j. assert (E : execute net (executed j) = execute net j).
  { unfold execute. pose proof (settings_assign j Execute) as S. cbn [assign change] in S. injection S as S _ _ _. rewrite S.
    destruct (utf8_encode (j_sparql j)) as [t|e] eqn:U; [|reflexivity]. now rewrite (request_again j t U). }
  pose proof (kind_assign j Execute) as K. cbn [assign] in K. unfold job_execute. rewrite K. destruct (j_kind j); [|exact E]. unfold select_execute. now rewrite E.
Qed.
Lemma run_again : forall net n j j0, job_execute net j = job_execute net j0 -> snd (job_run net j (repeat Execute n)) = repeat (job_execute net j0) n.
Proof.
  intros net n. induction n as [|n IH]; intros j j0 E; [reflexivity|]. cbn [repeat job_run assign]. specialize (IH (executed j) j0).
  destruct (job_run net (executed j) (repeat Execute n)) as [j' out]. cbn [snd] in *. rewrite E, IH; [reflexivity|]. now rewrite execute_again.
Qed.
