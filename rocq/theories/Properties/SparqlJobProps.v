(** Property C124: query objects executed more than once. *)
From Coq Require Import Permutation.
From Verif Require Import Model.Py Model.Terms Model.Codec Model.Sparql Model.SparqlJob Spec.CodecSpec Spec.SparqlSpec Spec.SparqlJobSpec
  Proofs.DictLemmas Proofs.SparqlLemmas Proofs.SparqlJob Properties.SparqlProps.
Open Scope N_scope.

(** executed again and again, an object does the same every time *)
Theorem C124_again : forall net j n, snd (job_run net j (repeat Execute n)) = repeat (job_execute net j) n.
Proof. intros net j n. now apply run_again. Qed.

(** after any steady program an object sends what the protocol says for the values its
    attributes have now, as a new object would (C66) *)
Theorem C124_query : forall net sv text output dg ng l, let s := settings_after (mkSet text dg ng sv) l in
  steady (mkSet text dg ng sv) l -> encodable (s_text s) -> exists q,
  fst (job_execute net (fst (job_run net (select_init sv text output dg ng) l))) = [q] /\
  protocol (graphs_of (s_default s)) (graphs_of (s_named s)) (sv_url (s_server s)) (utf8_text (s_text s)) Select (on_the_wire q) /\
  way Select (s_server s) (utf8_text (s_text s)) (on_the_wire q) /\ r_kwargs q = sv_verify (s_server s) /\
  (output = s2l "xml" -> header (r_headers q) (s2l "Accept") = Some (s2l "application/rdf+xml,application/sparql-results+xml")) /\
  (output <> s2l "xml" -> header (r_headers q) (s2l "Accept") = Some (s2l "application/sparql-results+json,text/turtle")).
Proof.
  intros net sv text output dg ng l s S E. set (j0 := select_init sv text output dg ng).
  assert (T : tidy j0) by (split; [constructor|split; [intros key []|reflexivity]]).
  destruct (tidy_run net l j0 T S) as (TJ & SJ & KJ & HJ). set (j := fst (job_run net j0 l)) in *. change (settings_after (settings_of j0) l) with s in SJ.
  assert (E1 : j_sparql j = s_text s) by now rewrite <- SJ. assert (E2 : j_default j = s_default s) by now rewrite <- SJ.
  assert (E3 : j_named j = s_named s) by now rewrite <- SJ. assert (E4 : j_server j = s_server s) by now rewrite <- SJ.
  change (j_kind j0) with Select in KJ.
  destruct (tidy_conforms j (utf8_text (s_text s)) TJ) as (P & W & V & H). rewrite E2, E3, E4, KJ in P. rewrite KJ, E4 in W. rewrite E4 in V.
  exists (request_of j (utf8_text (s_text s))). split; [|split; [exact P|split; [exact W|split; [exact V|]]]].
  - unfold job_execute. rewrite KJ. unfold select_execute, execute. rewrite E1, (encodable_encode _ E). reflexivity.
  - rewrite (H (s2l "Accept")) by discriminate. rewrite (HJ (s2l "Accept")) by discriminate. unfold j0, select_init. cbn [j_headers]. split; intro O.
    + subst output. vm_compute. reflexivity.
    + unfold str_eqb. destruct (str_eq_dec output (s2l "xml")); [contradiction|]. vm_compute. reflexivity.
Qed.
Theorem C124_update : forall net sv text dg ng l, let s := settings_after (mkSet text dg ng sv) l in
  steady (mkSet text dg ng sv) l -> encodable (s_text s) -> exists q,
  fst (job_execute net (fst (job_run net (update_init sv text dg ng) l))) = [q] /\
  protocol (graphs_of (s_default s)) (graphs_of (s_named s)) (sv_url (s_server s)) (utf8_text (s_text s)) Update (on_the_wire q) /\
  way Update (s_server s) (utf8_text (s_text s)) (on_the_wire q) /\ r_kwargs q = sv_verify (s_server s).
Proof.
  intros net sv text dg ng l s S E. set (j0 := update_init sv text dg ng).
  assert (T : tidy j0) by (split; [constructor|split; [intros key []|reflexivity]]).
  destruct (tidy_run net l j0 T S) as (TJ & SJ & KJ & HJ). set (j := fst (job_run net j0 l)) in *. change (settings_after (settings_of j0) l) with s in SJ.
  assert (E1 : j_sparql j = s_text s) by now rewrite <- SJ. assert (E2 : j_default j = s_default s) by now rewrite <- SJ.
  assert (E3 : j_named j = s_named s) by now rewrite <- SJ. assert (E4 : j_server j = s_server s) by now rewrite <- SJ.
  change (j_kind j0) with Update in KJ.
  destruct (tidy_conforms j (utf8_text (s_text s)) TJ) as (P & W & V & H). rewrite E2, E3, E4, KJ in P. rewrite KJ, E4 in W. rewrite E4 in V.
  exists (request_of j (utf8_text (s_text s))). split; [|split; [exact P|split; [exact W|exact V]]].
  unfold job_execute. rewrite KJ. unfold execute. rewrite E1, (encodable_encode _ E). reflexivity.
Qed.
(** a text that cannot be encoded raises, sends nothing and leaves no trace in the object *)
Theorem C124_not_encodable : forall net j, py_str (j_sparql j) -> Exists surrogate (j_sparql j) ->
  job_execute net j = ([], Err UnicodeEncodeError) /\ fst (job_run net j [Execute]) = j.
Proof.
  intros net j P E. pose proof (not_encodable _ P E) as X. split.
  - unfold job_execute, select_execute, execute. rewrite X. now destruct (j_kind j).
  - cbn [job_run fst assign]. unfold executed. now rewrite X.
Qed.

(** Without the steadiness it is false.  A default graph set to None after an execution is
    still sent; *)
Definition get_sv : server := mkServer (s2l "http://ex/sparql") false false None.
Definition direct_sv : server := mkServer (s2l "http://ex/sparql") false true None.
Definition form_sv : server := mkServer (s2l "http://ex/sparql") true false None.
Definition silent (q : request) : res response := Ok (mkResp 204 None []).
Theorem C124_cleared_refuted : exists net sv text dg q,
  fst (job_execute net (fst (job_run net (select_init sv text (s2l "json") dg None) [Execute; SetDefault None]))) = [q] /\
  ~ protocol [] [] (sv_url sv) (utf8_text text) Select (on_the_wire q).
Proof.
  exists silent, get_sv, (s2l "ASK {}"), (Some (GStr (s2l "http://ex/g"))). eexists. split; [vm_compute; reflexivity|].
  intro P. inversion P as [q H EQ|k q H|k q H]; subst. apply Permutation_length in H. vm_compute in H. discriminate.
Qed.
(** switched to post_directly, the query is also sent in the URL; *)
Theorem C124_to_direct_refuted : exists net text q,
  fst (job_execute net (fst (job_run net (select_init get_sv text (s2l "json") None None) [Execute; SetServer direct_sv]))) = [q] /\
  ~ protocol [] [] (sv_url direct_sv) (utf8_text text) Select (on_the_wire q).
Proof.
  exists silent, (s2l "ASK {}"). eexists. split; [vm_compute; reflexivity|].
  intro P. inversion P as [q H EQ|k q H|k q H]; subst. apply Permutation_length in H. vm_compute in H. discriminate.
Qed.
(** switched back, a form is sent as application/sparql-query *)
Theorem C124_from_direct_refuted : exists net text q,
  fst (job_execute net (fst (job_run net (select_init direct_sv text (s2l "json") None None) [Execute; SetServer form_sv]))) = [q] /\
  ~ protocol [] [] (sv_url form_sv) (utf8_text text) Select (on_the_wire q).
Proof.
  exists silent, (s2l "ASK {}"). eexists. split; [vm_compute; reflexivity|]. intro P. inversion P.
Qed.

(** another text, other graphs, and GET changed to a form *)
Definition ex_l : list jstep := [Execute; SetText (s2l "ASK {?s ?p ?o}"); SetDefault (Some (GList [s2l "http://ex/h"; s2l "http://ex/i"])); SetNamed (Some (GStr (s2l "http://ex/n"))); SetServer form_sv].
Example ex_C124 : steady (mkSet (s2l "ASK {}") (Some (GStr (s2l "http://ex/g"))) None get_sv) ex_l /\ encodable (s_text (settings_after (mkSet (s2l "ASK {}") (Some (GStr (s2l "http://ex/g"))) None get_sv) ex_l)) /\
  fst (job_execute silent (fst (job_run silent (select_init get_sv (s2l "ASK {}") (s2l "json") (Some (GStr (s2l "http://ex/g"))) None) ex_l))) =
  [mkReq Post (s2l "http://ex/sparql") None [(s2l "Accept", s2l "application/sparql-results+json,text/turtle")]
     (Some (BForm [(s2l "default-graph-uri", PList [s2l "http://ex/h"; s2l "http://ex/i"]); (s2l "query", PBytes (s2l "ASK {?s ?p ?o}")); (s2l "named-graph-uri", PStr (s2l "http://ex/n"))])) None].
Proof.
  split; [|split; [apply ex_encodable; vm_compute; reflexivity|vm_compute; reflexivity]].
  cbn. repeat split; discriminate.
Qed.
Example ex_C124_update : steady (mkSet (s2l "CLEAR ALL") None None direct_sv) [Execute; SetNamed (Some (GStr (s2l "http://ex/n"))); Execute; SetText [0xD800]; Execute; SetText (s2l "DROP ALL")] /\
  map (fun r => (length (fst r), snd r)) (snd (job_run silent (update_init direct_sv (s2l "CLEAR ALL") None None) [Execute; SetNamed (Some (GStr (s2l "http://ex/n"))); Execute; SetText [0xD800]; Execute])) = [(1%nat, Ok OTrue); (1%nat, Ok OTrue); (0%nat, Err UnicodeEncodeError)].
Proof. split; [cbn; repeat split; tauto|vm_compute; reflexivity]. Qed.
Example ex_C124_not_encodable : py_str [0xD800] /\ Exists surrogate [0xD800].
Proof. split; [constructor; [cbn; lia|constructor]|apply Exists_cons_hd; cbn; unfold surrogate; lia]. Qed.

Print Assumptions C124_again.
Print Assumptions C124_query.
Print Assumptions C124_update.
Print Assumptions C124_not_encodable.
Print Assumptions C124_cleared_refuted.
Print Assumptions C124_to_direct_refuted.
Print Assumptions C124_from_direct_refuted.
