(** Properties C65-C67: change sets, SPARQL requests, graph stores. *)
From Coq Require Import Permutation.
From Verif Require Import Model.Py Model.Terms Model.Codec Model.Sparql Spec.CodecSpec Spec.CurieSpec Spec.SparqlSpec
  Proofs.CodecLemmas Proofs.Utf8 Proofs.IriLemmas Proofs.CurieLemmas Proofs.SparqlLemmas.
Open Scope N_scope.

Definition ex (s : string) : term := Iri (s2l "http://ex/" ++ s2l s).
Definition ex_a : list stmt := [Tr (ex "s") (ex "p") (ex "o"); Tr (BNode 3) (ex "p") (Lit (s2l "x") None None)].
Definition ex_b : list stmt := [Tr (BNode 3) (ex "p") (Lit (s2l "x") None None); Tr (ex "s") (ex "q") (BNode 3)].

(** ** C65: differences, changeset *)
Theorem C65_differences : forall a b, NoDup a -> NoDup b -> let '(removes, adds) := differences a b [] in
  NoDup removes /\ NoDup adds /\ (forall t, In t removes -> ~ In t adds) /\
  (forall t, In t removes -> In t a) /\ (forall t, In t adds -> ~ In t a) /\
  (forall t, without a removes t \/ In t adds <-> In t b).
Proof.
  intros a b NA NB. destruct (differences_In a b []) as [R A]. destruct (differences_NoDup a b [] NA NB) as [NR NAd]. destruct (differences a b []) as [removes adds].
  cbn [fst snd map In] in *. split; [exact NR|]. split; [exact NAd|]. split; [|split; [|split]]; unfold without.
  - intros t J K. apply R in J. apply A in K. tauto.
  - intros t J. apply R in J. tauto.
  - intros t J. apply A in J. tauto.
  - intro t. rewrite R, A. destruct (in_dec stmt_eq_dec t a); destruct (in_dec stmt_eq_dec t b); tauto.
Qed.
(** with exclude, the triples with these predicates stay as they are in a, the others become those of b *)
Theorem C65_exclude : forall a b exclude, let '(removes, adds) := differences a b exclude in forall t,
  (In (st_p t) (map Iri exclude) -> without a removes t \/ In t adds <-> In t a) /\
  (~ In (st_p t) (map Iri exclude) -> without a removes t \/ In t adds <-> In t b).
Proof.
  intros a b ex. destruct (differences_In a b ex) as [R A]. destruct (differences a b ex) as [removes adds]. cbn [fst snd] in R, A. intro t. unfold without. rewrite R, A.
  split; intro E; destruct (in_dec stmt_eq_dec t a); destruct (in_dec stmt_eq_dec t b); tauto.
Qed.
(** the change set graph: one node with its type, date, subject and one statement node for
    each removal and each addition; all nodes are new and different; nothing else *)
Theorem C65_changeset : forall n now a b u, let '(n', G) := changeset n now a b u in
  let '(removed, added) := differences a b [] in
  exists c rs adds, NoDup G /\ Forall2 (describes G) rs removed /\ Forall2 (describes G) adds added /\ NoDup (c :: rs ++ adds) /\
    (forall x, In x (c :: rs ++ adds) -> exists k, x = BNode k /\ n <= k /\ k < n') /\
    (forall p o, In (Tr c p o) G <-> p = rdf_name "type" /\ o = cs_name "ChangeSet" \/ p = cs_name "createdDate" /\ o = Lit now None None \/
       p = cs_name "subjectOfChange" /\ o = Iri u \/ p = cs_name "removal" /\ In o rs \/ p = cs_name "addition" /\ In o adds) /\
    (forall t, In t G -> st_graph t = None /\ In (st_s t) (c :: rs ++ adds)).
Proof. exact changeset_spec. Qed.
(** what a reader of the change set finds in it *)
Theorem C65_changeset_decodes : forall n now a b u, (forall t, In t a \/ In t b -> st_graph t = None) ->
  let G := snd (changeset n now a b u) in exists c,
  (forall x, In (Tr x (rdf_name "type") (cs_name "ChangeSet")) G <-> x = c) /\
  (forall o, In (Tr c (cs_name "subjectOfChange") o) G <-> o = Iri u) /\
  (forall t, st_graph t = None ->
    ((exists x, In (Tr c (cs_name "removal") x) G /\ describes G x t) <-> In t a /\ ~ In t b) /\
    ((exists x, In (Tr c (cs_name "addition") x) G /\ describes G x t) <-> In t b /\ ~ In t a)).
Proof. exact changeset_decodes. Qed.
Example C65_case : differences ex_a ex_b [] = ([Tr (ex "s") (ex "p") (ex "o")], [Tr (ex "s") (ex "q") (BNode 3)]) /\
  differences ex_a ex_b [s2l "http://ex/q"] = ([Tr (ex "s") (ex "p") (ex "o")], []) /\
  fst (changeset 4 (s2l "now") ex_a ex_b (s2l "http://ex/g")) = 7 /\ length (snd (changeset 4 (s2l "now") ex_a ex_b (s2l "http://ex/g"))) = 13%nat /\
  In (Tr (BNode 6) (rdf_name "predicate") (ex "q")) (snd (changeset 4 (s2l "now") ex_a ex_b (s2l "http://ex/g"))) /\
  (forall t, In t ex_a \/ In t ex_b -> st_graph t = None).
Proof.
  split; [vm_compute; reflexivity|]. split; [vm_compute; reflexivity|]. split; [vm_compute; reflexivity|]. split; [vm_compute; reflexivity|]. split.
  - vm_compute. do 10 right. left. reflexivity.
  - intros t [J|J]; (destruct J as [<-|[<-|[]]]; reflexivity).
Qed.
Example C65_case_nodup : NoDup ex_a /\ NoDup ex_b.
Proof. split; (constructor; [intros [J|[]]; discriminate J|constructor; [intros []|constructor]]). Qed.

(** ** C66: requests *)
Theorem C66_query_request : forall net sv sparql output dg ng, encodable sparql -> exists q,
  fst (query net sv sparql output dg ng) = [q] /\
  protocol (graphs_of dg) (graphs_of ng) (sv_url sv) (utf8_text sparql) Select (on_the_wire q) /\
  way Select sv (utf8_text sparql) (on_the_wire q) /\ r_kwargs q = sv_verify sv /\
  (output = s2l "xml" -> header (r_headers q) (s2l "Accept") = Some (s2l "application/rdf+xml,application/sparql-results+xml")) /\
  (output <> s2l "xml" -> header (r_headers q) (s2l "Accept") = Some (s2l "application/sparql-results+json,text/turtle")).
Proof.
  intros net sv sparql output dg ng E. pose (j := select_init sv sparql output dg ng). exists (request_of j (utf8_text sparql)).
  assert (H : header (j_headers j) (s2l "Content-Type") = None) by reflexivity.
  destruct (request_conforms Select j (utf8_text sparql) eq_refl eq_refl H) as [P V].
  split; [unfold query, select_execute, execute; cbn [j_sparql select_init]; rewrite (encodable_encode sparql E); reflexivity|].
  split; [exact P|]. split; [|split; [exact V|]].
  - repeat split; unfold request_of, j; cbn [select_init j_server j_kind j_headers postQueries].
    + intros ->. reflexivity.
    + intros -> [X| ->]; [discriminate X|]. eexists. reflexivity.
    + intros -> _ ->. reflexivity.
  - unfold request_of, j, select_init. cbn [j_server j_kind j_headers postQueries]. split; intro O.
    + subst output. destruct (sv_post_directly sv); [|destruct (sv_post_queries sv)]; vm_compute; reflexivity.
    + unfold str_eqb. destruct (str_eq_dec output (s2l "xml")); [contradiction|]. destruct (sv_post_directly sv); [|destruct (sv_post_queries sv)]; vm_compute; reflexivity.
Qed.
Theorem C66_update_request : forall net sv sparql dg ng, encodable sparql -> exists q,
  fst (update net sv sparql dg ng) = [q] /\
  protocol (graphs_of dg) (graphs_of ng) (sv_url sv) (utf8_text sparql) Update (on_the_wire q) /\
  way Update sv (utf8_text sparql) (on_the_wire q) /\ r_kwargs q = sv_verify sv.
Proof.
  intros net sv sparql dg ng E. pose (j := update_init sv sparql dg ng). exists (request_of j (utf8_text sparql)).
  destruct (request_conforms Update j (utf8_text sparql) eq_refl eq_refl eq_refl) as [P V].
  split; [unfold update, execute; cbn [j_sparql update_init]; rewrite (encodable_encode sparql E); reflexivity|].
  split; [exact P|]. split; [|exact V].
  repeat split; unfold request_of, j; cbn [update_init j_server j_kind j_headers postQueries].
  - intros ->. reflexivity.
  - intros -> _. eexists. reflexivity.
  - intros _ X. discriminate X.
Qed.
Theorem C66_not_encodable : forall net sv sparql output dg ng, py_str sparql -> Exists surrogate sparql ->
  query net sv sparql output dg ng = ([], Err UnicodeEncodeError) /\ update net sv sparql dg ng = ([], Err UnicodeEncodeError).
Proof.
  intros net sv sparql output dg ng P E. pose proof (not_encodable sparql P E) as X. split; unfold query, update, select_execute, execute; cbn [j_sparql select_init update_init]; rewrite X; reflexivity.
Qed.
Theorem C66_update_outcome : forall net sv sparql dg ng q, fst (update net sv sparql dg ng) = [q] ->
  (forall e, net q = Err e -> snd (update net sv sparql dg ng) = Err e) /\
  (forall r, net q = Ok r ->
    (resp_status r = 204 -> snd (update net sv sparql dg ng) = Ok OTrue) /\
    (resp_status r = 200 -> snd (update net sv sparql dg ng) = Ok (OResponse r)) /\
    (resp_status r <> 204 -> resp_status r <> 200 -> snd (update net sv sparql dg ng) = Err SPARQLQueryException)).
Proof.
  intros net sv sparql dg ng q. unfold update, execute. destruct (utf8_encode (j_sparql (update_init sv sparql dg ng))) as [t|e]; [|discriminate].
  cbn [fst snd]. intros [= <-]. split; [intros e ->; reflexivity|]. intros r ->. cbn [bind]. repeat split.
  - intros ->. reflexivity.
  - intros ->. reflexivity.
  - intros A B. apply N.eqb_neq in A. apply N.eqb_neq in B. now rewrite A, B.
Qed.
(** what a query gives: the result of json.loads, or an exception; a graph or an XML
    tree is never returned *)
Theorem C66_query_outcome : forall net sv sparql output dg ng q, fst (query net sv sparql output dg ng) = [q] ->
  let result := snd (query net sv sparql output dg ng) in
  (forall e, net q = Err e -> result = Err e) /\
  (forall r, net q = Ok r ->
    (resp_status r = 204 -> result = Err AttributeError) /\
    (resp_status r <> 204 -> resp_status r <> 200 -> result = Err SPARQLQueryException) /\
    (resp_status r = 200 ->
      (resp_type r = None -> result = Err KeyError) /\
      (forall t, resp_type r = Some t ->
        (prefix_of (s2l "application/rdf+xml") t \/ prefix_of (s2l "text/turtle") t \/ prefix_of (s2l "application/sparql-results+xml") t -> result = Err TypeError) /\
        (prefix_of (s2l "application/sparql-results+json") t ->
           (forall text, encodable text -> resp_content r = utf8_text text -> result = Ok (OJson text)) /\
           ((forall text, encodable text -> resp_content r <> utf8_text text) -> result = Err UnicodeDecodeError)) /\
        (~ prefix_of (s2l "application/rdf+xml") t -> ~ prefix_of (s2l "text/turtle") t -> ~ prefix_of (s2l "application/sparql-results+xml") t ->
         ~ prefix_of (s2l "application/sparql-results+json") t -> result = Err UnknownSPARQLReturnTypeException)))).
Proof. exact query_outcome. Qed.
Lemma ex_encodable : forall s, forallb (fun c => c <? 128) s = true -> encodable s.
Proof.
  intros s H. rewrite forallb_forall in H. split; apply Forall_forall; intros c J; apply H, N.ltb_lt in J; [lia|unfold surrogate; lia].
Qed.
Definition ex_sv : server := mkServer (s2l "http://ex/sparql") true false (Some (VBool false)).
Definition ex_net (q : request) : res response := Ok (mkResp 200 (Some (s2l "application/sparql-results+json; charset=utf-8")) (utf8_text [0x7B; 0x7D])).
Example C66_case :
  query ex_net ex_sv (s2l "ASK {}") (s2l "json") (Some (GList [s2l "http://ex/g"; s2l "http://ex/h"])) (Some (GStr [])) =
  ([mkReq Post (s2l "http://ex/sparql") None [(s2l "Accept", s2l "application/sparql-results+json,text/turtle")]
     (Some (BForm [(s2l "default-graph-uri", PList [s2l "http://ex/g"; s2l "http://ex/h"]); (s2l "query", PBytes (s2l "ASK {}"))])) (Some (VBool false))], Ok (OJson (s2l "{}"))).
Proof. vm_compute. reflexivity. Qed.
Example C66_case_update : snd (update (fun q => Ok (mkResp 204 None [])) ex_sv (s2l "CLEAR ALL") None None) = Ok OTrue /\
  snd (update (fun q => Ok (mkResp 500 None [])) ex_sv (s2l "CLEAR ALL") None None) = Err SPARQLQueryException /\
  snd (query (fun q => Ok (mkResp 200 (Some (s2l "text/turtle")) [])) ex_sv (s2l "ASK {}") (s2l "json") None None) = Err TypeError /\
  encodable (s2l "CLEAR ALL") /\ query ex_net ex_sv [0xD800] (s2l "json") None None = ([], Err UnicodeEncodeError).
Proof.
  split; [vm_compute; reflexivity|]. split; [vm_compute; reflexivity|]. split; [vm_compute; reflexivity|]. split; [|vm_compute; reflexivity].
  apply ex_encodable. vm_compute. reflexivity.
Qed.

(** ** C67: graph stores *)
Theorem C67_no_request : forall snet sv dataset_url param_style graph_uri g ser,
  let st := store_init sv dataset_url param_style in
  store_get snet st graph_uri = ([], Err AttributeError) /\ store_delete snet st graph_uri = ([], Err AttributeError) /\
  store_put snet st graph_uri (Ok ser) = ([], Err AttributeError) /\ store_post snet st g (Ok ser) = ([], Err AttributeError) /\
  store_patch snet st graph_uri (Ok ser) = ([], Err AttributeError).
Proof.
  intros snet sv d ps u g ser st. unfold store_get, store_delete, store_put, store_post, store_patch. rewrite request_url_fails.
  repeat split. destruct g; [rewrite request_url_fails|]; reflexivity.
Qed.
Theorem C67_serialisation_fails : forall snet st graph_uri g e,
  store_put snet st graph_uri (Err e) = ([], Err e) /\ store_post snet st g (Err e) = ([], Err e) /\ store_patch snet st graph_uri (Err e) = ([], Err e).
Proof. repeat split. Qed.
(** even if a program sets the missing attribute, only post with None as the graph sends anything *)
Theorem C67_with_server : forall snet base dataset_url param_style sv graph_uri g ser,
  let st := mkStore base dataset_url param_style (Some sv) in
  store_get snet st graph_uri = ([], Err AttributeError) /\ store_delete snet st graph_uri = ([], Err AttributeError) /\
  store_put snet st graph_uri (Ok ser) = ([], Err AttributeError) /\ store_patch snet st graph_uri (Ok ser) = ([], Err AttributeError) /\
  store_post snet st (Some g) (Ok ser) = ([], Err AttributeError) /\
  exists c, fst (store_post snet st None (Ok ser)) = [c] /\ c_verb c = VPost /\ c_url c = dataset_url /\ c_data c = Some ser /\ c_kwargs c = sv_verify sv /\
    (forall code, snet c = Ok code -> snd (store_post snet st None (Ok ser)) = if code =? 201 then Ok tt else Err PlainException).
Proof.
  intros snet base dataset_url ps sv u g ser st. unfold store_get, store_delete, store_put, store_post, store_patch. rewrite !request_url_fails. repeat split.
  pose (c := mkCall VPost dataset_url (Some ser) [(s2l "content-type", s2l "text/plain")] (sv_verify sv)). exists c. repeat split. intros code H.
  change (snd (expect [201] ([c], snet c)) = if code =? 201 then Ok tt else Err PlainException).
  unfold expect. cbn [snd]. rewrite H. cbn [bind existsb]. now destruct (code =? 201).
Qed.
Example C67_case : store_get (fun _ => Ok 200) (store_init ex_sv (s2l "http://ex/data") true) (s2l "http://ex/g") = ([], Err AttributeError) /\
  snd (store_post (fun _ => Ok 201) (mkStore ex_sv (s2l "http://ex/data") true (Some ex_sv)) None (Ok [])) = Ok tt.
Proof. split; vm_compute; reflexivity. Qed.

Print Assumptions C65_differences. Print Assumptions C65_exclude. Print Assumptions C65_changeset. Print Assumptions C65_changeset_decodes.
Print Assumptions C66_query_request. Print Assumptions C66_update_request. Print Assumptions C66_not_encodable. Print Assumptions C66_update_outcome.
Print Assumptions C66_query_outcome. Print Assumptions C67_no_request. Print Assumptions C67_serialisation_fails. Print Assumptions C67_with_server.
