(** Requests, graph stores and change sets. *)
From Coq Require Import Permutation.
From Verif Require Import Model.Py Model.Terms Model.Codec Model.Sparql Spec.CodecSpec Spec.CurieSpec Spec.SparqlSpec
  Proofs.CodecLemmas Proofs.Utf8 Proofs.IriLemmas Proofs.CurieLemmas.
Open Scope N_scope.

(** ** Requests (C66) *)
Lemma pset_new : forall (p : params) name x, (forall v, ~ In (name, v) p) -> pset p name x = p ++ [(name, x)].
Proof.
  intros p name x N. induction p as [|[k v] p IH]; [reflexivity|]. cbn [dset]. destruct (str_eq_dec name k) as [->|_]; [destruct (N v); now left|].
  cbn [app]. f_equal. apply IH. intros v' J. apply (N v'). now right.
Qed.
Lemma add_graphs_new : forall p name a, (forall v, ~ In (name, v) p) ->
  pairs_of (add_graphs p name a) = pairs_of p ++ map (fun g => (name, utf8_text g)) (graphs_of a) /\
  (forall k v, In (k, v) (add_graphs p name a) -> k = name \/ exists v', In (k, v') p).
Proof.
  intros p name a N. assert (E := fun x => pset_new p name x N).
  unfold add_graphs. destruct a as [[s|l]|]; cbn [garg_truthy garg_pval graphs_of map]; [| |rewrite app_nil_r; eauto].
  - destruct s as [|c s]; [rewrite app_nil_r; eauto|]. rewrite E. split.
    + unfold pairs_of. rewrite map_app, concat_app. reflexivity.
    + intros k v J. apply in_app_or in J. destruct J as [J|[J|[]]]; [eauto|injection J as <- _; auto].
  - destruct l as [|g l]; [rewrite app_nil_r; eauto|]. rewrite E. split.
    + unfold pairs_of. rewrite map_app, concat_app. cbn [map concat snd fst]. now rewrite app_nil_r.
    + intros k v J. apply in_app_or in J. destruct J as [J|[J|[]]]; [eauto|injection J as <- _; auto].
Qed.
Lemma all_params : forall k dg ng text, let p := add_graphs (add_graphs [] (default_graph_uri k) dg) (named_graph_uri k) ng in
  pairs_of p = graph_params k (graphs_of dg) (graphs_of ng) /\
  pairs_of (pset p (query_or_update k) (PBytes text)) = graph_params k (graphs_of dg) (graphs_of ng) ++ [(query_or_update k, text)].
Proof.
  intros k dg ng text p. destruct (add_graphs_new [] (default_graph_uri k) dg) as [E1 I1]; [auto|].
  destruct (add_graphs_new (add_graphs [] (default_graph_uri k) dg) (named_graph_uri k) ng) as [E2 I2].
  { intros v J. apply I1 in J. destruct J as [J|[v' []]]. destruct k; discriminate J. }
  assert (EP : pairs_of p = graph_params k (graphs_of dg) (graphs_of ng)) by (unfold p; rewrite E2, E1; destruct k; reflexivity).
  split; [exact EP|]. rewrite pset_new.
  - unfold pairs_of at 1. rewrite map_app, concat_app. fold (pairs_of p). rewrite EP. reflexivity.
  - intros v J. apply I2 in J. destruct J as [J|[v' J]]; [destruct k; discriminate J|]. apply I1 in J. destruct J as [J|[v'' []]]. destruct k; discriminate J.
Qed.
Lemma request_conforms : forall k j text, j_kind j = k -> j_params j = [] -> header (j_headers j) (s2l "Content-Type") = None ->
  protocol (graphs_of (j_default j)) (graphs_of (j_named j)) (sv_url (j_server j)) text k (on_the_wire (request_of j text)) /\
  r_kwargs (request_of j text) = sv_verify (j_server j).
Proof.
  intros k [k' sv sparql dg ng hs ps] text K P H. cbn [j_kind j_params j_headers] in K, P, H. subst k' ps. unfold request_of. cbn [j_kind j_server j_default j_named j_params j_headers].
  destruct (all_params k dg ng text) as [E1 E2]. cbv zeta in E1, E2.
  destruct (sv_post_directly sv); [|destruct (postQueries k sv) eqn:PQ].
  - split; [|reflexivity]. unfold on_the_wire. cbn [r_method r_url r_params r_headers r_data]. rewrite E1.
    assert (EH : header (dset str_eq_dec hs (s2l "Content-Type") (directContentType k ++ s2l "; charset=utf-8")) (s2l "Content-Type") = Some (directContentType k ++ s2l "; charset=utf-8")).
    { clear -H. induction hs as [|[n v] hs IH].
      - cbn [dset]. unfold header. cbn [find fst]. unfold str_eqb. destruct (str_eq_dec (s2l "Content-Type") (s2l "Content-Type")) as [_|NE]; [reflexivity|now destruct NE].
      - cbn [dset]. unfold header in H. cbn [find fst] in H. unfold str_eqb in H at 1.
        destruct (str_eq_dec n (s2l "Content-Type")) as [->|NE]; [discriminate H|].
        destruct (str_eq_dec (s2l "Content-Type") n) as [E|_]; [now destruct NE; symmetry|]. unfold header. cbn [find fst]. unfold str_eqb at 1.
        destruct (str_eq_dec n (s2l "Content-Type")); [contradiction|]. apply IH. exact H. }
    rewrite EH. destruct k; exact (directly _ _ _ _ _ _ (Permutation_refl _)).
  - split; [|reflexivity]. unfold on_the_wire. cbn [r_method r_url r_params r_headers r_data]. rewrite E2, H.
    destruct k; (apply by_form; apply Permutation_sym, Permutation_cons_append).
  - destruct k; [|discriminate PQ]. split; [|reflexivity]. unfold on_the_wire. cbn [r_method r_url r_params r_headers r_data]. rewrite E2, H.
    apply by_get. apply Permutation_sym, Permutation_cons_append.
Qed.
Lemma encodable_encode : forall s, encodable s -> utf8_encode s = Ok (utf8_text s).
Proof. intros s [P N]. exact (proj1 (utf8_encode_spec s P) N). Qed.
Lemma not_encodable : forall s, py_str s -> Exists surrogate s -> utf8_encode s = Err UnicodeEncodeError.
Proof. intros s P E. exact (proj2 (utf8_encode_spec s P) E). Qed.

Lemma query_outcome : forall net sv sparql output dg ng q, fst (query net sv sparql output dg ng) = [q] ->
  let result := snd (query net sv sparql output dg ng) in
  (forall e, net q = Err e -> result = Err e) /\
  (forall r, net q = Ok r ->
    (resp_status r = 204 -> result = Err AttributeError) /\
    (resp_status r <> 204 -> resp_status r <> 200 -> result = Err SPARQLQueryException) /\
    (resp_status r = 200 ->
      (resp_type r = None -> result = Err KeyError) /\
      (forall t, resp_type r = Some t ->
        (prefix_of (s2l "application/rdf+xml") t \/ prefix_of (s2l "text/turtle") t \/ prefix_of (s2l "application/sparql-results+xml") t -> result = Err TypeError) /\
        (prefix_of (s2l "application/sparql-results+json") t ->
           (forall text, encodable text -> resp_content r = utf8_text text -> result = Ok (OJson text)) /\
           ((forall text, encodable text -> resp_content r <> utf8_text text) -> result = Err UnicodeDecodeError)) /\
        (~ prefix_of (s2l "application/rdf+xml") t -> ~ prefix_of (s2l "text/turtle") t -> ~ prefix_of (s2l "application/sparql-results+xml") t ->
         ~ prefix_of (s2l "application/sparql-results+json") t -> result = Err UnknownSPARQLReturnTypeException)))).
Proof.
  intros net sv sparql output dg ng q. unfold query, select_execute, execute. destruct (utf8_encode (j_sparql (select_init sv sparql output dg ng))) as [tx|e]; [|discriminate].
  cbn [fst snd]. intros [= <-]. split; [intros e ->; reflexivity|]. intros r ->. cbn [bind]. split; [intros ->; reflexivity|]. split.
  { intros A B. apply N.eqb_neq in A. apply N.eqb_neq in B. now rewrite A, B. }
  intros ->. cbn [N.eqb Pos.eqb negb bind]. split; [intros ->; reflexivity|]. intros t ->.
  assert (X : forall a b, prefix_of (s2l a) t -> prefix_of (s2l b) t -> (length (s2l a) <= length (s2l b))%nat -> firstn (length (s2l a)) (s2l b) = s2l a).
  { intros a b [x ->] [y E] L. assert (E2 := f_equal (firstn (length (s2l a))) E). rewrite firstn_app, firstn_all, Nat.sub_diag, firstn_O, app_nil_r in E2. symmetry. etransitivity; [exact E2|].
    rewrite firstn_app. replace (length (s2l a) - length (s2l b))%nat with 0%nat by lia. now rewrite firstn_O, app_nil_r. }
  assert (OTHERS : prefix_of (s2l "application/sparql-results+json") t -> startswith t (s2l "application/rdf+xml") || startswith t (s2l "text/turtle") = false).
  { intro P. destruct (startswith t (s2l "application/rdf+xml")) eqn:Q1; [apply startswith_spec in Q1; discriminate (X _ _ Q1 P ltac:(cbn; lia))|].
    destruct (startswith t (s2l "text/turtle")) eqn:Q2; [apply startswith_spec in Q2; discriminate (X _ _ Q2 P ltac:(cbn; lia))|]. reflexivity. }
  repeat split.
  - intros [P|[P|P]].
    + apply startswith_spec in P. rewrite P. reflexivity.
    + apply startswith_spec in P. rewrite P, orb_true_r. reflexivity.
    + destruct (_ || _); [reflexivity|]. destruct (startswith t (s2l "application/sparql-results+json")) eqn:Q.
      * apply startswith_spec in Q. discriminate (X _ _ P Q ltac:(cbn; lia)).
      * apply startswith_spec in P. rewrite P. reflexivity.
  - intros text [V NS] C. rewrite (OTHERS H). pose proof H as H1. apply startswith_spec in H1. rewrite H1, C, (utf8_round_trip text V NS). reflexivity.
  - intro NO. rewrite (OTHERS H). pose proof H as H1. apply startswith_spec in H1. rewrite H1.
    rewrite (proj2 (utf8_decode_fails_iff (resp_content r))); [reflexivity|]. intros u V NS E. apply (NO u); [split; assumption|now symmetry].
  - intros A B C D. assert (F : forall a, ~ prefix_of a t -> startswith t a = false).
    { intros a N. destruct (startswith t a) eqn:Q; [|reflexivity]. apply startswith_spec in Q. contradiction. }
    rewrite !F by assumption. reflexivity.
Qed.

(** ** Graph stores (C67) *)
Lemma request_url_fails : forall st u, request_url st u = Err AttributeError.
Proof. intros st u. unfold request_url. destruct (gs_param_style st); vm_compute; reflexivity. Qed.
Lemma send_url_fails : forall snet st kw mk codes e, expect codes (send snet (Err e) kw st mk) = ([], Err e).
Proof. reflexivity. Qed.

(** ** Change sets (C65) *)
Lemma rg_mem_In : forall x g, rg_mem x g = true <-> In x g.
Proof. intros x g. unfold rg_mem. destruct (in_dec stmt_eq_dec x g); split; intro; congruence || auto. Qed.
Lemma rg_add_In : forall g t x, In x (rg_add g t) <-> In x g \/ x = t.
Proof.
  intros g t x. unfold rg_add. destruct (rg_mem t g) eqn:E.
  - apply rg_mem_In in E. split; [auto|]. intros [J| ->]; auto.
  - rewrite in_app_iff. cbn. split; intros [J|J]; auto. destruct J as [->|[]]; auto.
Qed.
Lemma rg_add_NoDup : forall g t, NoDup g -> NoDup (rg_add g t).
Proof.
  intros g t N. unfold rg_add. destruct (rg_mem t g) eqn:E; [exact N|]. assert (~ In t g) by (intro J; apply rg_mem_In in J; congruence).
  apply (Permutation_NoDup (Permutation_cons_append g t)). now constructor.
Qed.
Lemma differences_In : forall a b ex, 
  (forall t, In t (fst (differences a b ex)) <-> In t a /\ ~ In t b /\ ~ In (st_p t) (map Iri ex)) /\
  (forall t, In t (snd (differences a b ex)) <-> In t b /\ ~ In t a /\ ~ In (st_p t) (map Iri ex)).
Proof.
  intros a b ex. assert (K : forall other s, negb (rg_mem s other) && negb (if in_dec term_eq_dec (st_p s) (map Iri ex) then true else false) = true <->
    ~ In s other /\ ~ In (st_p s) (map Iri ex)).
  { intros other s. rewrite andb_true_iff, !negb_true_iff. destruct (in_dec term_eq_dec (st_p s) (map Iri ex)); destruct (rg_mem s other) eqn:E.
    - split; [intros [X _]; discriminate|tauto].
    - split; [intros [_ X]; discriminate|tauto].
    - apply rg_mem_In in E. split; [intros [X _]; discriminate|tauto].
    - split; [|auto]. intros _. split; [|assumption]. intro J. apply rg_mem_In in J. congruence. }
  unfold differences. cbn [fst snd]. split; intro t; rewrite filter_In, K; tauto.
Qed.
Lemma differences_NoDup : forall a b ex, NoDup a -> NoDup b -> NoDup (fst (differences a b ex)) /\ NoDup (snd (differences a b ex)).
Proof. intros a b ex A B. split; now apply NoDup_filter. Qed.

Section Changes.
  (** the nodes used are new: no triple of the graph has one of them as subject *)
  Definition unused (n : N) (g : list stmt) : Prop := forall k q o, n <= k -> ~ In (Tr (BNode k) q o) g.
  Lemma reify_spec : forall n g st, unused n g -> 
    let '(n', g', x) := reify n g st in n' = n + 1 /\ x = BNode n /\ describes g' x st /\ unused n' g' /\
      (forall y q o, y <> BNode n -> In (Tr y q o) g' <-> In (Tr y q o) g) /\ (NoDup g -> NoDup g').
  Proof.
    intros n g st U. unfold reify.
    set (t1 := Tr (BNode n) (rdf_term "type") (rdf_term "Statement")). set (t2 := Tr (BNode n) (rdf_term "subject") (st_s st)).
    set (t3 := Tr (BNode n) (rdf_term "predicate") (st_p st)). set (t4 := Tr (BNode n) (rdf_term "object") (st_o st)).
    assert (M : forall t, In t (rg_add (rg_add (rg_add (rg_add g t1) t2) t3) t4) <-> In t g \/ t = t1 \/ t = t2 \/ t = t3 \/ t = t4) by (intro t; rewrite !rg_add_In; tauto).
    split; [reflexivity|]. split; [reflexivity|]. split; [|split; [|split]].
    - intros q o. rewrite M. split.
      + intros [J|J]; [now destruct (U n q o ltac:(lia))|]. unfold t1, t2, t3, t4, Tr in J. destruct J as [J|[J|[J|J]]]; injection J as -> ->; auto 6.
      + intros [[-> ->]|[[-> ->]|[[-> ->]|[-> ->]]]]; auto 6.
    - intros k q o L J. apply M in J. destruct J as [J|J]; [apply (U k q o); [lia|exact J]|]. unfold t1, t2, t3, t4, Tr in J. destruct J as [J|[J|[J|J]]]; injection J as -> _ _; lia.
    - intros y q o N. rewrite M. split; [|auto]. intros [J|J]; [exact J|]. unfold t1, t2, t3, t4, Tr in J. destruct J as [J|[J|[J|J]]]; injection J as -> _ _; now destruct N.
    - intro N. auto using rg_add_NoDup.
  Qed.
  Lemma describes_same : forall g g' x st, (forall q o, In (Tr x q o) g' <-> In (Tr x q o) g) -> describes g x st -> describes g' x st.
  Proof. intros g g' x st E D q o. rewrite E. apply D. Qed.
  Fixpoint nodes_from (n : N) (l : list stmt) : list term := match l with [] => [] | _ :: r => BNode n :: nodes_from (n + 1) r end.
  Lemma nodes_from_In : forall l n x, In x (nodes_from n l) <-> exists k, x = BNode k /\ n <= k /\ k < n + N.of_nat (length l).
  Proof.
    induction l as [|st l IH]; intros n x; cbn [nodes_from length].
    - split; [intros []|intros (k & _ & A & B); lia].
    - split.
      + intros [<-|J]; [exists n; split; [reflexivity|lia]|]. apply IH in J. destruct J as (k & -> & A & B). exists k. split; [reflexivity|lia].
      + intros (k & -> & A & B). destruct (N.eq_dec n k) as [->|NE]; [now left|]. right. apply IH. exists k. split; [reflexivity|lia].
  Qed.
  Lemma nodes_from_NoDup : forall l n, NoDup (nodes_from n l).
  Proof. induction l as [|st l IH]; intro n; constructor; auto. intro J. apply nodes_from_In in J. destruct J as (k & [= <-] & A & _). lia. Qed.
  Variables (cset : term) (p : term).
  Lemma reify_all_spec : forall l n g c0, cset = BNode c0 -> c0 < n -> unused n g ->
    let '(n', g') := reify_all n g cset p l in
    n' = n + N.of_nat (length l) /\ unused n' g' /\ (NoDup g -> NoDup g') /\ Forall2 (describes g') (nodes_from n l) l /\
    (forall q o, In (Tr cset q o) g' <-> In (Tr cset q o) g \/ q = p /\ In o (nodes_from n l)) /\
    (forall y q o, y <> cset -> ~ In y (nodes_from n l) -> In (Tr y q o) g' <-> In (Tr y q o) g).
  Proof.
    induction l as [|st l IH]; intros n g c0 C L U; cbn [reify_all].
    - split; [cbn; lia|]. split; [exact U|]. split; [auto|]. split; [constructor|]. split; [intros q o; cbn; tauto|tauto].
    - pose proof (reify_spec n g st U) as R. destruct (reify n g st) as [[n1 g1] x]. destruct R as (-> & -> & D & U1 & S1 & ND1).
      set (g2 := rg_add g1 (Tr cset p (BNode n))).
      assert (M2 : forall y q o, In (Tr y q o) g2 <-> In (Tr y q o) g1 \/ y = cset /\ q = p /\ o = BNode n).
      { intros y q o. unfold g2. rewrite rg_add_In. unfold Tr. split; intros [J|J]; auto; [injection J as -> -> ->; auto|destruct J as (-> & -> & ->); auto]. }
      assert (U2 : unused (n + 1) g2).
      { intros k q o LK J. apply M2 in J. destruct J as [J|(J & _)]; [exact (U1 k q o LK J)|]. rewrite C in J. injection J as ->. lia. }
      specialize (IH (n + 1) g2 c0 C ltac:(lia) U2). destruct (reify_all (n + 1) g2 cset p l) as [n' g']. destruct IH as (-> & U' & ND' & F & CS & OT).
      split; [cbn [length]; lia|]. split; [exact U'|]. split; [intro N; apply ND'; unfold g2; auto using rg_add_NoDup|].
      assert (NC : BNode n <> cset) by (rewrite C; intro X; injection X as ->; lia).
      split; [|split].
      + cbn [nodes_from]. constructor; [|exact F]. apply (describes_same g1); [|exact D]. intros q o. rewrite OT; [|exact NC|].
        * rewrite M2. split; [intros [J|(J & _)]; [exact J|contradiction]|auto].
        * intro J. apply nodes_from_In in J. destruct J as (k & [= <-] & A & _). lia.
      + intros q o. rewrite CS, M2, S1 by auto. cbn [nodes_from]. split; [intros [[J|(_ & -> & ->)]|[-> J]]; cbn; auto|]. intros [J|[-> [<-|J]]]; auto.
      + intros y q o NY J. cbn [nodes_from] in J. rewrite OT; [|exact NY|intro; apply J; now right]. rewrite M2, S1.
        * split; [intros [K|(K & _)]; [exact K|contradiction]|auto].
        * intros ->. apply J. now left.
  Qed.
End Changes.

Definition no_graph (g : list stmt) : Prop := forall t, In t g -> st_graph t = None.
Lemma rg_add_no_graph : forall g s p o, no_graph g -> no_graph (rg_add g (Tr s p o)).
Proof. intros g s p o N t J. apply rg_add_In in J. destruct J as [J| ->]; [auto|reflexivity]. Qed.
Lemma reify_all_no_graph : forall cset p l n g, no_graph g -> no_graph (snd (reify_all n g cset p l)).
Proof.
  induction l as [|st l IH]; intros n g N; [exact N|]. cbn [reify_all]. unfold reify. apply IH. auto 8 using rg_add_no_graph.
Qed.
Lemma changeset_spec : forall n now a b u, let '(n', G) := changeset n now a b u in
  let '(removed, added) := differences a b [] in
  exists c rs adds, NoDup G /\ Forall2 (describes G) rs removed /\ Forall2 (describes G) adds added /\ NoDup (c :: rs ++ adds) /\
    (forall x, In x (c :: rs ++ adds) -> exists k, x = BNode k /\ n <= k /\ k < n') /\
    (forall p o, In (Tr c p o) G <-> p = rdf_term "type" /\ o = cs_term "ChangeSet" \/ p = cs_term "createdDate" /\ o = Lit now None None \/
       p = cs_term "subjectOfChange" /\ o = Iri u \/ p = cs_term "removal" /\ In o rs \/ p = cs_term "addition" /\ In o adds) /\
    (forall t, In t G -> st_graph t = None /\ In (st_s t) (c :: rs ++ adds)).
Proof.
  intros n now a b u. unfold changeset. destruct (differences a b []) as [removed added] eqn:ED.
  set (c := BNode n). set (g0 := rg_add _ (Tr c (cs_term "subjectOfChange") (Iri u))).
  assert (M0 : forall t, In t g0 <-> t = Tr c (rdf_term "type") (cs_term "ChangeSet") \/ t = Tr c (cs_term "createdDate") (Lit now None None) \/ t = Tr c (cs_term "subjectOfChange") (Iri u)).
  { intro t. unfold g0. rewrite !rg_add_In. cbn [In]. tauto. }
  assert (U0 : unused (n + 1) g0).
  { intros k q o L J. apply M0 in J. unfold Tr, c in J. destruct J as [J|[J|J]]; injection J as -> _ _; lia. }
  assert (N0 : NoDup g0) by (unfold g0; auto using rg_add_NoDup, NoDup_nil).
  assert (G0 : no_graph g0) by (unfold g0; repeat apply rg_add_no_graph; intros t []).
  pose proof (reify_all_no_graph c (cs_term "removal") removed (n + 1) g0 G0) as G1.
  pose proof (reify_all_spec c (cs_term "removal") removed (n + 1) g0 n eq_refl ltac:(lia) U0) as R1. destruct (reify_all (n + 1) g0 c (cs_term "removal") removed) as [n1 g1].
  destruct R1 as (-> & U1 & ND1 & F1 & C1 & O1).
  cbn [snd] in G1. pose proof (reify_all_no_graph c (cs_term "addition") added (n + 1 + N.of_nat (length removed)) g1 G1) as G2.
  pose proof (reify_all_spec c (cs_term "addition") added (n + 1 + N.of_nat (length removed)) g1 n eq_refl ltac:(lia) U1) as R2.
  destruct (reify_all (n + 1 + N.of_nat (length removed)) g1 c (cs_term "addition") added) as [n2 g2]. destruct R2 as (-> & U2 & ND2 & F2 & C2 & O2).
  exists c, (nodes_from (n + 1) removed), (nodes_from (n + 1 + N.of_nat (length removed)) added).
  set (rs := nodes_from (n + 1) removed) in *. set (adds := nodes_from (n + 1 + N.of_nat (length removed)) added) in *.
  assert (DJ : forall x, In x rs -> ~ In x adds).
  { intros x J K. apply nodes_from_In in J. apply nodes_from_In in K. destruct J as (k & -> & A & B). destruct K as (k' & [= <-] & A' & _). lia. }
  assert (NCr : ~ In c rs) by (intro J; apply nodes_from_In in J; destruct J as (k & [= <-] & A & _); lia).
  assert (NCa : ~ In c adds) by (intro J; apply nodes_from_In in J; destruct J as (k & [= <-] & A & _); lia).
  split; [auto|]. split; [|split; [exact F2|split; [|split; [|split]]]].
  - assert (X : forall l l', Forall2 (describes g1) l l' -> (forall x, In x l -> In x rs) -> Forall2 (describes g2) l l'); [|apply X; auto].
    intros l l' F. induction F as [|x st l l' D F IH]; intro I; constructor.
    + apply (describes_same g1); [|exact D]. intros q o. apply O2; [intros ->; apply NCr, I; now left|apply DJ, I; now left].
    + apply IH. intros y J. apply I. now right.
  - constructor; [rewrite in_app_iff; tauto|]. assert (X := nodes_from_NoDup removed (n + 1)). assert (Y := nodes_from_NoDup added (n + 1 + N.of_nat (length removed))). fold rs in X. fold adds in Y.
    revert X DJ. generalize rs. intro l. induction l as [|x l IH]; intros N D; [exact Y|]. inversion N; subst. cbn. constructor.
    + rewrite in_app_iff. intros [J|J]; [contradiction|]. apply (D x); [now left|exact J].
    + apply IH; auto. intros y J. apply D. now right.
  - intros x [<-|J]; [exists n; split; [reflexivity|lia]|]. apply in_app_or in J. destruct J as [J|J]; apply nodes_from_In in J; destruct J as (k & -> & A & B); exists k; (split; [reflexivity|lia]).
  - intros q o. rewrite C2, C1, M0. unfold Tr. split.
    + intros [[[J|[J|J]]|J]|J]; [injection J as -> ->|injection J as -> ->|injection J as -> ->|..]; auto 8.
    + intros [[-> ->]|[[-> ->]|[[-> ->]|[J|J]]]]; auto 8.
  - intros [s q o gr] J. cbn [snd] in G2. pose proof (G2 _ J) as E. cbn [st_graph] in E. subst gr. split; [reflexivity|]. cbn [st_s].
    destruct (term_eq_dec s c) as [->|NS]; [now left|]. right. apply in_or_app.
    destruct (in_dec term_eq_dec s rs) as [I|I]; [now left|]. destruct (in_dec term_eq_dec s adds) as [I'|I']; [now right|]. exfalso.
    apply (O2 s q o NS I'), (O1 s q o NS I), M0 in J. unfold Tr in J. destruct J as [J|[J|J]]; injection J as -> _ _; contradiction.
Qed.
Lemma describes_inj : forall G x t t', describes G x t -> describes G x t' -> st_s t = st_s t' /\ st_p t = st_p t' /\ st_o t = st_o t'.
Proof.
  intros G x t t' D D'. assert (K : forall p o, In (Tr x p o) G -> In (Tr x p o) G) by auto. repeat split.
  - pose proof (proj2 (D (rdf_term "subject") (st_s t)) ltac:(auto)) as J. apply D' in J.
    destruct J as [[J _]|[[_ J]|[[J _]|[J _]]]]; [discriminate J|exact J|discriminate J|discriminate J].
  - pose proof (proj2 (D (rdf_term "predicate") (st_p t)) ltac:(auto)) as J. apply D' in J.
    destruct J as [[J _]|[[J _]|[[_ J]|[J _]]]]; [discriminate J|discriminate J|exact J|discriminate J].
  - pose proof (proj2 (D (rdf_term "object") (st_o t)) ltac:(auto 6)) as J. apply D' in J.
    destruct J as [[J _]|[[J _]|[[J _]|[_ J]]]]; [discriminate J|discriminate J|discriminate J|exact J].
Qed.
Lemma Forall2_In_l : forall {A B} (R : A -> B -> Prop) l l' x, Forall2 R l l' -> In x l -> exists y, In y l' /\ R x y.
Proof. intros A B R l l' x F. induction F; intros []; [subst; eexists; split; [now left|auto]|]. destruct IHF as (z & I & K); auto. exists z. split; [now right|auto]. Qed.
Lemma Forall2_In_r : forall {A B} (R : A -> B -> Prop) l l' y, Forall2 R l l' -> In y l' -> exists x, In x l /\ R x y.
Proof. intros A B R l l' y F. induction F; intros []; [subst; eexists; split; [now left|auto]|]. destruct IHF as (z & I & K); auto. exists z. split; [now right|auto]. Qed.
Lemma changeset_decodes : forall n now a b u, (forall t, In t a \/ In t b -> st_graph t = None) ->
  let G := snd (changeset n now a b u) in exists c,
  (forall x, In (Tr x (rdf_term "type") (cs_term "ChangeSet")) G <-> x = c) /\
  (forall o, In (Tr c (cs_term "subjectOfChange") o) G <-> o = Iri u) /\
  (forall t, st_graph t = None ->
    ((exists x, In (Tr c (cs_term "removal") x) G /\ describes G x t) <-> In t a /\ ~ In t b) /\
    ((exists x, In (Tr c (cs_term "addition") x) G /\ describes G x t) <-> In t b /\ ~ In t a)).
Proof.
  intros n now a b u PL. pose proof (changeset_spec n now a b u) as S. destruct (changeset n now a b u) as [n' G]. cbn [snd]. destruct (differences_In a b []) as [DR DA].
  destruct (differences a b []) as [removed added]. cbn [fst snd map In] in DR, DA. destruct S as (c & rs & adds & ND & FR & FA & NDX & FRESH & CT & ALL). exists c.
  split; [|split].
  - intro x. split; [|intros ->; apply CT; auto]. intro J. pose proof (proj2 (ALL _ J)) as I. cbn [st_s Tr In] in I.
    assert (X : forall y t, describes G y t -> ~ In (Tr y (rdf_term "type") (cs_term "ChangeSet")) G).
    { intros y t D K. apply D in K. destruct K as [[_ K]|[[K _]|[[K _]|[K _]]]]; discriminate K. }
    destruct I as [<-|I]; [reflexivity|]. exfalso. apply in_app_or in I. destruct I as [I|I].
    + destruct (Forall2_In_l _ _ _ _ FR I) as (t & _ & D). exact (X x t D J).
    + destruct (Forall2_In_l _ _ _ _ FA I) as (t & _ & D). exact (X x t D J).
  - intro o. rewrite CT. split; [|auto 6]. intros [[K _]|[[K _]|[[_ K]|[[K _]|[K _]]]]]; [discriminate K|discriminate K|exact K|discriminate K|discriminate K].
  - assert (EQ : forall t t', st_graph t = None -> st_graph t' = None -> st_s t = st_s t' /\ st_p t = st_p t' /\ st_o t = st_o t' -> t = t').
    { intros [s p o g] [s' p' o' g']. cbn [st_graph st_s st_p st_o]. now intros -> -> (-> & -> & ->). }
    intros t GT. split; split.
    + intros (x & J & D). apply CT in J. destruct J as [[K _]|[[K _]|[[K _]|[[_ K]|[K _]]]]]; try discriminate K.
      destruct (Forall2_In_l _ _ _ _ FR K) as (t' & I & D'). apply DR in I. rewrite (EQ t t'); [tauto|exact GT|apply PL; tauto|exact (describes_inj _ _ _ _ D D')].
    + intros [A B]. destruct (Forall2_In_r _ _ _ t FR) as (x & I & D); [apply DR; tauto|]. exists x. split; [apply CT; auto 7|exact D].
    + intros (x & J & D). apply CT in J. destruct J as [[K _]|[[K _]|[[K _]|[[K _]|[_ K]]]]]; try discriminate K.
      destruct (Forall2_In_l _ _ _ _ FA K) as (t' & I & D'). apply DA in I. rewrite (EQ t t'); [tauto|exact GT|apply PL; tauto|exact (describes_inj _ _ _ _ D D')].
    + intros [A B]. destruct (Forall2_In_r _ _ _ t FA) as (x & I & D); [apply DA; tauto|]. exists x. split; [apply CT; auto 7|exact D].
Qed.
