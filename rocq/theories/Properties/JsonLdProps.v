(** Property C68: the JSON-LD parser. *)
From Verif Require Import Model.Py Model.Terms Model.Graph Model.GraphRun Model.Dataset Model.Codec Model.NTriples Model.JsonLd
  Spec.GraphSpec Spec.JsonLdSpec Proofs.DatasetHist Proofs.NTRun Proofs.JsonLdLemmas.
Open Scope N_scope.

Definition ex (s : string) : str := s2l "http://ex/" ++ s2l s.
Definition ex_data : rdf_dataset :=
  [ (s2l "@default", [mkJT (FBlank (s2l "_:b0")) (FIri (ex "p")) (FLit (s2l "hi") (ex "langString") (Some (s2l "en")));
                      mkJT (FBlank (s2l "_:b1")) (FIri (ex "p")) (FBlank (s2l "_:b0"))]);
    (s2l "_:b0", [mkJT (FIri (ex "s")) (FIri (ex "p")) (FBlank (s2l "_:b1"))]);
    (ex "g", []) ].

(** After any history of the parser, a call adds to its sink exactly the quads of the
    data, each label standing for one node of its own that is new; other sinks stay;
    the call state is gone *)
Theorem C68_parse : forall st sink data, Forall ds_reachable (js_sinks st) -> (forall i, sink = Some i -> (i < length (js_sinks st))%nat) ->
  exists st' i f, parse_json st sink (Ok data) = (st', Ok i) /\ js_call st' = None /\
    (sink = Some i \/ sink = None /\ i = length (js_sinks st)) /\ Forall ds_reachable (js_sinks st') /\
    lists (ds_iter (nth i (js_sinks st') (ds_new []))) (fun q => In q (ds_iter (nth i (js_sinks st) (ds_new []))) \/ in_data f data q) /\
    (forall k, k <> i -> nth k (js_sinks st') (ds_new []) = nth k (js_sinks st) (ds_new [])) /\
    (forall l l', label_in data l -> label_in data l' -> f l = f l' -> l = l') /\
    (forall l, label_in data l -> js_next st <= f l /\ f l < js_next st').
Proof. exact parse_ok. Qed.
(** an exception of to_rdf is passed on *)
Theorem C68_parse_fails : forall st sink e, exists st', parse_json st sink (Err e) = (st', Err e) /\
  (forall k, nth k (js_sinks st') (ds_new []) = nth k (js_sinks st) (ds_new [])).
Proof.
  intros st sink e. destruct (parse_fails st sink e) as (st' & i & E & _ & _ & _ & S). exists st'. split; [exact E|]. intro k. rewrite S.
  destruct (Nat.lt_ge_cases k (length (js_sinks st))) as [A|A]; [now rewrite app_nth1|]. rewrite app_nth2 by lia. rewrite (nth_overflow (js_sinks st)) by lia.
  destruct sink; [now destruct (k - length (js_sinks st))%nat|]. destruct (k - length (js_sinks st))%nat as [|[|m]]; reflexivity.
Qed.
(** document.parse prepares nothing: it raises as soon as there is a triple *)
Theorem C68_document_parse_raises : forall st data, js_call st = None -> (exists name t ts, In (name, t :: ts) data) ->
  document_parse st (Ok data) = (st, Err AttributeError).
Proof. exact idle_document. Qed.
(** unless an earlier call of parse_json failed: then it writes to the sink of that call *)
Theorem C68_document_parse_after_failure : forall st e sink data i, Forall ds_reachable (js_sinks st) ->
  (sink = Some i /\ (i < length (js_sinks st))%nat \/ sink = None /\ i = length (js_sinks st)) ->
  exists st' f, document_parse (fst (parse_json st sink (Err e))) (Ok data) = (st', Ok tt) /\
    lists (ds_iter (nth i (js_sinks st') (ds_new []))) (fun q => In q (ds_iter (nth i (js_sinks st) (ds_new []))) \/ in_data f data q).
Proof.
  intros st e sink data i F V. destruct (parse_fails st sink e) as (s1 & i' & E & C & SI & _ & S). rewrite E. cbn [fst].
  assert (i' = i) by (destruct V as [[-> _]|[-> ->]]; destruct SI as [X|[X Y]]; congruence). subst i'.
  assert (SAME : nth i (js_sinks s1) (ds_new []) = nth i (js_sinks st) (ds_new [])).
  { rewrite S. destruct V as [[-> L]|[-> ->]]; [now rewrite app_nil_r|]. rewrite app_nth2, Nat.sub_diag by apply Nat.le_refl. cbn [nth]. now rewrite nth_overflow by apply Nat.le_refl. }
  destruct (stale_document s1 [] i data C) as (s2 & f & D & L).
  - split; [cbn; lia|]. split; intros; discriminate.
  - rewrite S, app_length. destruct V as [[-> L]|[-> ->]]; cbn [length]; [|rewrite Nat.add_1_r; apply Nat.lt_succ_diag_r]. now rewrite Nat.add_0_r.
  - rewrite SAME. destruct V as [[-> L]|[-> ->]]; [rewrite Forall_forall in F; now apply F, nth_In|]. rewrite nth_overflow by apply Nat.le_refl. apply dr_new. intros g [].
  - exists s2, f. split; [exact D|]. now rewrite SAME in L.
Qed.
(** graphs named by a blank node do not keep that name *)
Theorem C68_blank_graph_names_refuted : exists data st' i, parse_json (js_init 0) None (Ok data) = (st', Ok i) /\
  forall f, ~ (forall q, In q (ds_iter (nth i (js_sinks st') (ds_new []))) <-> in_rdf f data q).
Proof.
  set (data := [(s2l "_:b0", [mkJT (FBlank (s2l "_:b0")) (FIri (ex "p")) (FIri (ex "o"))])] : rdf_dataset).
  exists data. eexists. eexists. split; [vm_compute; reflexivity|]. intros f E.
  pose proof (proj1 (E (Qd (BNode 0) (Iri (ex "p")) (Iri (ex "o")) (Some (Iri (s2l "_:b0"))))) ltac:(vm_compute; left; reflexivity)) as (name & ts & t & J & _ & _ & _ & _ & G).
  destruct J as [[= <- <-]|[]]. destruct G as [[G _]|[(_ & r & G & X)|[_ X]]]; [discriminate G|discriminate X|]. apply X. exists (s2l "b0"). reflexivity.
Qed.
(** a language-tagged string is not the literal that the N-Triples parser makes of the same string *)
Theorem C68_language_strings_refuted : exists v l, forall d, exists st' g',
  parse_json (js_init 0) None (Ok [(s2l "@default", [mkJT (FIri (ex "s")) (FIri (ex "p")) (FLit v d (Some l))])]) = (st', Ok 0%nat) /\
  parse_string false 0 (graph_new None) (s2l "<http://ex/s> <http://ex/p> """ ++ v ++ s2l """@" ++ l ++ s2l " ." ++ [10]) = (0, g', Ok tt) /\
  length (g_iter g') = 1%nat /\ forall t, In t (g_iter g') -> ~ In (t_as_q None t) (ds_iter (nth 0 (js_sinks st') (ds_new []))).
Proof.
  exists (s2l "hi"), (s2l "en"). intro d. eexists. eexists. split; [cbn; reflexivity|]. split; [vm_compute; reflexivity|]. split; [vm_compute; reflexivity|].
  intros t [<-|[]]. cbn. intros [J|[]]. discriminate J.
Qed.
Example C68_case : exists st', parse_json (js_init 7) None (Ok ex_data) = (st', Ok 0%nat) /\ js_next st' = 9 /\
  ds_iter (nth 0 (js_sinks st') (ds_new [])) =
    [Qd (BNode 7) (Iri (ex "p")) (Lit (s2l "hi") (Some (s2l "en")) (Some (ex "langString"))) None;
     Qd (BNode 8) (Iri (ex "p")) (BNode 7) None; Qd (Iri (ex "s")) (Iri (ex "p")) (BNode 8) (Some (Iri (s2l "_:b0")))] /\
  snd (document_parse st' (Ok ex_data)) = Err AttributeError /\
  length (ds_iter (nth 1 (js_sinks (fst (document_parse (fst (parse_json st' None (Err ValueError))) (Ok ex_data)))) (ds_new []))) = 3%nat.
Proof. eexists. split; [vm_compute; reflexivity|]. vm_compute. auto. Qed.
Example C68_case_labels : label_in ex_data (s2l "_:b1") /\ Forall ds_reachable (js_sinks (js_init 7)).
Proof. split; [|constructor]. exists (s2l "_:b0"). eexists. eexists. split; [right; left; reflexivity|]. split; [left; reflexivity|]. cbn. auto. Qed.

Print Assumptions C68_parse. Print Assumptions C68_parse_fails. Print Assumptions C68_document_parse_raises. Print Assumptions C68_document_parse_after_failure.
Print Assumptions C68_blank_graph_names_refuted. Print Assumptions C68_language_strings_refuted.
