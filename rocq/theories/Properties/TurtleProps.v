(** Properties C49-C53, C70, C71: Turtle from the parse tree on, and util.py. *)
From Coq Require Import Permutation.
From Verif Require Import Model.Py Model.Terms Model.Graph Model.Codec Model.NTriples Model.Curie Model.TurtleTree
  Model.Turtle Spec.CodecSpec Spec.CurieSpec Spec.ProfileSpec Spec.TurtleSpec Spec.TurtleRunSpec
  Proofs.GraphInv Proofs.TurtleLemmas Proofs.TurtleSem Proofs.TurtleDoc Proofs.TurtleMore Proofs.TurtleScope.
Open Scope N_scope.

(** a simple urljoin for the examples: a reference with a colon is absolute *)
Definition ex_uj (base u : str) : res str := Ok (if str_in_char 58 u then u else base ++ u).
Lemma ex_uj_clean : uj_clean ex_uj.
Proof.
  intros b u j B U H. unfold ex_uj in H. injection H as <-. destruct (str_in_char 58 u); auto. intro I. apply in_app_or in I. tauto.
Qed.
Definition ex_ref (s : string) : tobj := TIri (TRef (s2l s)).
Definition ex_pn (s : string) : tiri := TPn (s2l s).
Definition ex_str (s : string) : tobj := TLit (TStr (s2l s) SfNone).
Fixpoint ex_list (l : list tobj) : tobjs := match l with [] => ONil | o :: r => OCons o (ex_list r) end.

(** C49: collections *)
Theorem C49_collections_are_lists : forall k vs k' ts head, gen_val k (VColl vs) = (k', ts, head) ->
  exists bs nodes inner, length bs = length (vals_list vs) /\ length nodes = length (vals_list vs) /\
    NoDup bs /\ Forall (fun b => k <= b < k') bs /\ head = list_head bs /\
    Permutation ts (map as_g (chain bs nodes) ++ inner) /\
    (forall i t, nth_error (vals_list vs) i = Some (VTerm t) -> nth_error nodes i = Some t) /\
    ((forall v, In v (vals_list vs) -> exists t, v = VTerm t) -> inner = []).
Proof. intros k vs. exact (gen_coll_chain vs k). Qed.
Theorem C49_collection_documents : forall uj n base i v items n' ts, some_nested items = false ->
  turtle_run uj n base [STriples (TIri i) (PCons v (OCons (TColl items) ONil) PNil)] = (n', Ok ts) ->
  exists s p bs nodes, length bs = length (nested_flags items) /\ length nodes = length bs /\ NoDup bs /\ Forall (fun b => n <= b < n') bs /\
    Permutation ts (map as_g (chain bs nodes) ++ [GT (Iri s) p (GTerm (list_head bs))]) /\
    e_iri uj (ts_pm (ts_new n base)) base i = Ok s /\ e_verb uj (ts_pm (ts_new n base)) base v = Ok p /\
    exists b', e_objs uj (ts_pm (ts_new n base)) base (prepare n) items = (b', Ok (fold_right (fun t r => VCons (VTerm t) r) VNil nodes)).
Proof. exact collection_doc. Qed.
(** so many triples: two for each member *)
Theorem C49_two_triples_per_member : forall bs xs, length bs = length xs -> length (chain bs xs) = (2 * length xs)%nat.
Proof. induction bs as [|b bs IH]; intros [|x xs] H; cbn in *; try discriminate; auto. rewrite IH by congruence. lia. Qed.
Definition ex_coll : list tstmt :=
  [STriples (ex_ref "http://s") (PCons (VIri (TRef (s2l "http://p"))) (OCons (TColl (ex_list [ex_str "x"; ex_ref "y"; TLabel (s2l "l"); TAnon])) ONil) PNil)].
Example C49_example :
  some_nested (ex_list [ex_str "x"; ex_ref "y"; TLabel (s2l "l"); TAnon]) = false /\
  exists n' ts, turtle_run ex_uj 5 (s2l "http://b/") ex_coll = (n', Ok ts) /\ length ts = 9%nat /\
  plain ts = Some
    [ Tr (BNode 7) (rdf_iri "first") (BNode 6); Tr (BNode 7) (rdf_iri "rest") (rdf_iri "nil");
      Tr (BNode 8) (rdf_iri "first") (BNode 5); Tr (BNode 8) (rdf_iri "rest") (BNode 7);
      Tr (BNode 9) (rdf_iri "first") (Iri (s2l "http://b/y")); Tr (BNode 9) (rdf_iri "rest") (BNode 8);
      Tr (BNode 10) (rdf_iri "first") (Lit (s2l "x") None (Some (xsd_iri "string"))); Tr (BNode 10) (rdf_iri "rest") (BNode 9);
      Tr (Iri (s2l "http://s")) (Iri (s2l "http://p")) (BNode 10) ].
Proof. split; [reflexivity|]. eexists _, _. split; [vm_compute; reflexivity|]. vm_compute. split; reflexivity. Qed.

(** C50: the Turtle semantics, unless an object list with several members
    holds a nested structure *)
Theorem C50_triples_of_the_semantics : forall uj n, uj_clean uj -> forall base doc n' ts,
  ~ In 60 base -> Forall stmt_tokens doc -> forallb stmt_flat doc = true ->
  turtle_run uj n base doc = (n', Ok ts) ->
  exists L l ts' bs, plain ts = Some l /\ Permutation l ts' /\ doc_means (resolves_by uj) L (env0 base) doc ts' bs /\
    NoDup bs /\ (forall a, In a bs -> n <= a < n') /\
    (forall x, In x (doc_labels doc) -> n <= L x < n' /\ ~ In (L x) bs) /\
    (forall x y, In x (doc_labels doc) -> In y (doc_labels doc) -> L x = L y -> x = y).
Proof. exact turtle_sound. Qed.
Theorem C50_meaningful_documents_parse : forall uj n, uj_clean uj -> forall base doc L ts bs,
  ~ In 60 base -> Forall stmt_tokens doc -> doc_means (resolves_by uj) L (env0 base) doc ts bs ->
  exists n' out, turtle_run uj n base doc = (n', Ok out).
Proof. exact turtle_complete. Qed.
Theorem C50_generator_objects : forall uj n base doc n' ts, turtle_run uj n base doc = (n', Ok ts) ->
  (plain ts = None <-> forallb stmt_flat doc = false).
Proof. exact doc_plain. Qed.
(** and then one triple per member is all there is: the triples of the nested
    structures are lost *)
Theorem C50_nested_triples_are_lost : forall uj n base s v os n' ts, nested s = false -> several os = true ->
  turtle_run uj n base [STriples s (PCons v os PNil)] = (n', Ok ts) ->
  map is_gen ts = nested_flags os /\ exists x p, Forall (fun t => gt_s t = x /\ gt_p t = p) ts.
Proof. exact several_lost. Qed.
Definition ex_deep : list tstmt :=
  [ SPrefix (s2l "e") (s2l "http://e/");
    STriples (TProps (PCons (VIri (ex_pn "e:p")) (ex_list [ex_str "v"; TLabel (s2l "l")]) PNil))
      (PCons VA (ex_list [TColl (ex_list [TProps (PCons (VIri (ex_pn "e:q")) (ex_list [ex_str "in"]) PNil); TIri (ex_pn "e:x")])])
      (PCons (VIri (TRef (s2l "rel"))) (ex_list [TAnon; TLabel (s2l "l")]) PNil)) ].
Lemma ex_plain_text : forall s, existsb (N.eqb 92) s = false -> escaped_text s.
Proof.
  induction s as [|c s IH]; cbn [existsb]; intro H; constructor; apply orb_false_iff in H; destruct H as [H1 H2]; auto.
  apply N.eqb_neq in H1. auto.
Qed.
Lemma ex_plain_denotes : forall s, existsb (N.eqb 92) s = false -> denotes s s.
Proof.
  induction s as [|c s IH]; cbn [existsb]; intro H; constructor; apply orb_false_iff in H; destruct H as [H1 H2]; auto.
  apply N.eqb_neq in H1. auto.
Qed.
Lemma ex_ref_token : forall s, existsb (N.eqb 92) s = false -> existsb (N.eqb 10) s = false -> ref_token s.
Proof.
  intros s H N10. split; [now apply ex_plain_text|]. intros u D u' ->.
  assert (X : s = u' ++ [10]).
  { assert (E := CodecLemmas.denotes_decode _ _ D). rewrite (CodecLemmas.denotes_decode _ _ (ex_plain_denotes s H)) in E. now injection E. }
  subst s. rewrite existsb_app in N10. cbn in N10. rewrite orb_true_r in N10. discriminate.
Qed.
Lemma ex_local : forall s, existsb (N.eqb 92) s = false -> existsb (N.eqb 60) s = false -> local_denotes s s.
Proof.
  induction s as [|c s IH]; cbn [existsb]; intros H H'; constructor; apply orb_false_iff in H, H'; destruct H as [H1 H2], H' as [H3 H4]; auto.
  - apply N.eqb_neq in H1. auto.
  - apply N.eqb_neq in H3. auto.
Qed.
Lemma ex_pn_token : forall ln, existsb (N.eqb 92) ln = false -> existsb (N.eqb 60) ln = false -> iri_token (TPn (s2l "e" ++ 58 :: ln)).
Proof.
  intros ln A B. exists (s2l "e"), ln, ln. split; auto. split; [|now apply ex_local]. intros [H|[]]. discriminate H.
Qed.
Lemma ex_deep_tokens : Forall stmt_tokens ex_deep.
Proof.
  constructor; [|constructor; [|constructor]].
  - apply ex_ref_token; reflexivity.
  - cbn [stmt_tokens obj_tokens pol_tokens objs_tokens ex_list verb_token].
    assert (P : forall a, existsb (N.eqb 92) (s2l a) = false -> existsb (N.eqb 60) (s2l a) = false -> iri_token (ex_pn (String "e" (String ":" a)))).
    { intros a A B. exact (ex_pn_token (s2l a) A B). }
    assert (S : forall a, existsb (N.eqb 92) (s2l a) = false -> obj_tokens (ex_str a)) by (intros a A; split; [now apply ex_plain_text|exact I]).
    repeat match goal with
    | |- _ /\ _ => split
    | |- True => exact I
    | |- OCons _ _ <> ONil => discriminate
    | |- iri_token (ex_pn _) => apply P; reflexivity
    | |- obj_tokens (TIri _) => apply P; reflexivity
    | |- obj_tokens (ex_str _) => apply S; reflexivity
    | |- obj_tokens _ => cbn [obj_tokens pol_tokens objs_tokens verb_token]
    | |- iri_token (TRef _) => apply ex_ref_token; reflexivity
    | |- iri_token (TPn _) => apply P; reflexivity
    end.
Qed.
Example C50_example :
  ~ In 60 (s2l "http://b/") /\ Forall stmt_tokens ex_deep /\ forallb stmt_flat ex_deep = true /\
  exists n' ts, turtle_run ex_uj 1 (s2l "http://b/") ex_deep = (n', Ok ts) /\
  plain ts = Some
    [ Tr (BNode 3) (Iri (s2l "http://e/p")) (Lit (s2l "v") None (Some (xsd_iri "string")));
      Tr (BNode 3) (Iri (s2l "http://e/p")) (BNode 1);
      Tr (BNode 4) (rdf_iri "first") (Iri (s2l "http://e/x")); Tr (BNode 4) (rdf_iri "rest") (rdf_iri "nil");
      Tr (BNode 6) (Iri (s2l "http://e/q")) (Lit (s2l "in") None (Some (xsd_iri "string")));
      Tr (BNode 5) (rdf_iri "first") (BNode 6); Tr (BNode 5) (rdf_iri "rest") (BNode 4);
      Tr (BNode 3) (rdf_iri "type") (BNode 5);
      Tr (BNode 3) (Iri (s2l "http://b/rel")) (BNode 2); Tr (BNode 3) (Iri (s2l "http://b/rel")) (BNode 1) ].
Proof.
  split; [apply not_in_b; reflexivity|]. split; [exact ex_deep_tokens|]. split; [reflexivity|].
  eexists _, _. split; [vm_compute; reflexivity|]. vm_compute. reflexivity.
Qed.
(** a lost nested structure: [s p o , [ q "in" ] .] *)
Definition ex_lost : tstmt :=
  STriples (ex_ref "http://s") (PCons (VIri (TRef (s2l "http://p")))
    (ex_list [ex_ref "http://o"; TProps (PCons (VIri (TRef (s2l "http://q"))) (ex_list [ex_str "in"]) PNil)]) PNil).
Example C50_lost_example : exists n', turtle_run ex_uj 1 [] [ex_lost] =
  (n', Ok [GT (Iri (s2l "http://s")) (Iri (s2l "http://p")) (GTerm (Iri (s2l "http://o")));
           GT (Iri (s2l "http://s")) (Iri (s2l "http://p")) GGen]).
Proof. eexists. vm_compute. reflexivity. Qed.

(** C51: the latest binding before a statement is the one in force there *)
Theorem C51_latest_prefix : forall uj st pre ns body mid st' r,
  e_doc uj st (pre ++ SPrefix ns body :: mid) = (st', Ok r) -> (forall x, In x mid -> ~ binds ns x) ->
  exists st1 r1 iri, e_doc uj st pre = (st1, Ok r1) /\ bind (decode_iriref body) (smart_urljoin uj (ts_base st1)) = Ok iri /\
    dget str_eq_dec (ts_pm st') ns = Some iri.
Proof. exact prefix_latest. Qed.
Theorem C51_latest_base : forall uj st pre body mid st' r,
  e_doc uj st (pre ++ SBase body :: mid) = (st', Ok r) -> (forall x, In x mid -> ~ rebases x) ->
  exists st1 r1, e_doc uj st pre = (st1, Ok r1) /\ bind (decode_iriref body) (smart_urljoin uj (ts_base st1)) = Ok (ts_base st').
Proof. exact base_latest. Qed.
(** a statement is evaluated in the state its predecessors leave *)
Theorem C51_statements_in_order : forall uj a b st st1 r1, e_doc uj st a = (st1, Ok r1) ->
  e_doc uj st (a ++ b) = (let '(st2, r2) := e_doc uj st1 b in (st2, bind r2 (fun l => Ok (r1 ++ l)))).
Proof. exact e_doc_app. Qed.
Theorem C51_names_and_references : forall uj pm base,
  (forall ns ln l iri, ~ In 58 ns -> dget str_eq_dec pm ns = Some iri -> local_denotes ln l -> ~ In 60 (iri ++ l) ->
     e_iri uj pm base (TPn (ns ++ 58 :: ln)) = Ok (iri ++ l)) /\
  (forall body u s, denotes body u -> Forall (fun c => ~ iri_illegal c) u -> resolves_by uj base u s -> e_iri uj pm base (TRef body) = Ok s).
Proof.
  intros uj pm base. split.
  - intros ns ln l iri NC G LD N60. cbn [e_iri]. unfold prefixed_name. destruct (partition (ns ++ 58 :: ln) 58) as [[a c] d] eqn:P.
    apply CurieLemmas.partition_spec in P. destruct P as [P1 [[_ P2]|[_ [P2 _]]]].
    + destruct (CurieLemmas.split_unique _ _ _ _ _ NC P1 P2) as [<- <-]. rewrite G, (local_decode _ _ LD). cbn [bind].
      destruct (startswith (iri ++ l) [60]) eqn:S; auto. exfalso. apply N60. apply CurieLemmas.startswith_spec in S.
      destruct S as [x ->]. cbn. auto.
    + exfalso. apply P1. rewrite <- P2. apply in_elt.
  - intros body u s D F R. exact (ref_complete uj (mkEnv (fun _ => None) base) body s (ex_intro _ u (conj D (conj F R)))).
Qed.
Theorem C51_unbound_prefix : forall uj n base pre s p post ns, ~ In 58 ns -> ns <> s2l "rdf" -> ns <> s2l "xsd" ->
  (forall x, In x pre -> ~ binds ns x) -> obj_uses ns s \/ pol_uses ns p ->
  exists n', turtle_run uj n base (pre ++ STriples s p :: post) = (n', Err VisitError).
Proof. exact unbound_fails. Qed.
(** every parse starts from the two default prefixes whatever happened before,
    ends with the bindings of its own document, and leaves the maps and
    profiles that exist already alone *)
Theorem C51_no_binding_survives : forall uj h n base doc, reach h ->
  let me := S (length (h_profs h)) in
  let h' := parser_heap uj h n base doc in
  prof_pm (parser_new h) me = ts_pm (ts_new n base) /\
  (forall st r, e_doc uj (ts_new n base) doc = (st, r) -> prof_pm h' me = ts_pm st) /\
  (forall a, (a < length (h_pms h))%nat -> pm_at h' a = pm_at h a) /\
  (forall a, (a < length (h_tms h))%nat -> tm_at h' a = tm_at h a) /\
  (forall i, (i < length (h_profs h))%nat -> prof h' i = prof h i).
Proof. exact parser_isolated. Qed.
Definition ex_scope : list tstmt :=
  [ SPrefix (s2l "a") (s2l "http://one/"); SBase (s2l "http://base/"); SPrefix (s2l "b") (s2l "x#");
    STriples (TIri (ex_pn "a:s")) (PCons VA (ex_list [TIri (ex_pn "b:t")]) PNil);
    SPrefix (s2l "a") (s2l "http://two/"); SBase (s2l "sub/");
    STriples (TIri (ex_pn "a:s")) (PCons VA (ex_list [ex_ref "o"]) PNil) ].
Example C51_example :
  (exists n' ts, turtle_run ex_uj 1 [] ex_scope = (n', Ok ts) /\
   plain ts = Some [ Tr (Iri (s2l "http://one/s")) (rdf_iri "type") (Iri (s2l "http://base/x#t"));
                     Tr (Iri (s2l "http://two/s")) (rdf_iri "type") (Iri (s2l "http://base/sub/o")) ]) /\
  (exists n', turtle_run ex_uj 1 [] [STriples (TIri (ex_pn "a:s")) (PCons VA (ex_list [ex_ref "o"]) PNil)] = (n', Err VisitError)) /\
  reach heap0 /\ reach (parser_heap ex_uj heap0 1 [] ex_scope) /\
  dget str_eq_dec (prof_pm (parser_heap ex_uj heap0 1 [] ex_scope) 1) (s2l "a") = Some (s2l "http://two/") /\
  dget str_eq_dec (prof_pm (parser_new (parser_heap ex_uj heap0 1 [] ex_scope)) 3) (s2l "a") = None.
Proof.
  split; [eexists _, _; split; vm_compute; reflexivity|]. split; [eexists; vm_compute; reflexivity|].
  split; [exists []; split; [exact I|vm_compute; reflexivity]|]. split; [|split; vm_compute; reflexivity].
  exists [NewProfile None None; CreateProfile 0 false; SetPrefix 1 (s2l "a") (s2l "http://one/"); SetPrefix 1 (s2l "b") (s2l "http://base/x#");
    SetPrefix 1 (s2l "a") (s2l "http://two/")]. split; [|vm_compute; reflexivity].
  split; [split; discriminate|]. split; [cbn; lia|]. repeat (split; [cbn; lia|]). exact I.
Qed.

(** C52 *)
Theorem C52_validate_iri : forall s, validate_iri s =
    Ok s /\ (Forall (fun c => ~ iri_illegal c) s \/ exists r, s = r ++ [10] /\ Forall (fun c => ~ iri_illegal c) r) \/
  validate_iri s = Err ValueError /\ ~ (Forall (fun c => ~ iri_illegal c) s \/ exists r, s = r ++ [10] /\ Forall (fun c => ~ iri_illegal c) r).
Proof.
  intro s. unfold validate_iri. assert (H := legal_iri_spec s). destruct (legal_iri s); [left|right]; split; auto.
  - apply H. auto.
  - intro X. apply H in X. discriminate.
Qed.
Theorem C52_rejects_exactly_illegal_refuted : exists s, ~ Forall (fun c => ~ iri_illegal c) s /\ validate_iri s = Ok s.
Proof.
  exists (s2l "http://x" ++ [10]). split; [|vm_compute; reflexivity]. intro F. apply Forall_app in F. destruct F as [_ F].
  apply Forall_inv in F. apply F. left. lia.
Qed.
Example C52_example : validate_iri (s2l "http://x/a") = Ok (s2l "http://x/a") /\ validate_iri (s2l "a b") = Err ValueError /\
  validate_iri [97; 10; 98] = Err ValueError /\ validate_iri [97; 10; 10] = Err ValueError /\ validate_iri [34] = Err ValueError /\
  validate_iri [233; 0x7f] = Ok [233; 0x7f].
Proof. vm_compute. repeat split. Qed.

(** C53 *)
Theorem C53_plain_literals : forall uj pm base b body v, denotes body v ->
  e_lit uj pm base (TStr body SfNone) = Ok (Lit v None (Some (xsd_iri "string"))) /\
  tr_term b (RLit body RPlain) = (b, Ok (Lit v None None)).
Proof.
  intros uj pm base b body v D. cbn [e_lit tr_term]. rewrite (CodecLemmas.denotes_decode _ _ D). split; reflexivity.
Qed.
Theorem C53_never_equal : forall uj pm base b b' body body' t t',
  e_lit uj pm base (TStr body SfNone) = Ok t -> tr_term b (RLit body' RPlain) = (b', Ok t') -> t <> t'.
Proof.
  intros uj pm base b b' body body' t t' H H'. cbn [e_lit tr_term] in *. apply bind_ok in H. destruct H as (v & _ & H). injection H as <-.
  injection H' as _ H'. apply bind_ok in H'. destruct H' as (w & _ & H'). injection H' as <-. discriminate.
Qed.
Example C53_example : denotes (s2l "a\n") (s2l "a" ++ [10]) /\
  e_lit ex_uj [] [] (TStr (s2l "a\n") SfNone) = Ok (Lit (s2l "a" ++ [10]) None (Some (xsd_iri "string"))).
Proof. split; [|reflexivity]. constructor; [discriminate|]. apply (den_echar 110 10); [repeat constructor|constructor]. Qed.

(** C70 *)
Theorem C70_smart_urljoin : forall uj b u s, smart_urljoin uj b u = Ok s <-> resolves_by uj b u s.
Proof. exact smart_resolves. Qed.
Theorem C70_keeps_the_empty_fragment : forall uj b u s, smart_urljoin uj b u = Ok s -> ends_in 35 u -> ends_in 35 s.
Proof.
  intros uj b u s H E. apply smart_resolves in H. destruct H as (j & _ & [(_ & _ & ->)|([N|X] & ->)]); [exists j; auto|contradiction|auto].
Qed.
Theorem C70_otherwise_urljoin : forall uj b u, ~ ends_in 35 u -> smart_urljoin uj b u = uj b u.
Proof.
  intros uj b u N. unfold smart_urljoin. destruct (uj b u) as [j|]; auto. cbn [bind].
  destruct (endswith_char u 35) eqn:E; auto. exfalso. apply N. apply CurieLemmas.ends_app in E. exact E.
Qed.
Definition ex_drop (b u : str) : res str := Ok (s2l "http://x/").
Example C70_example : smart_urljoin ex_drop [] (s2l "#") = Ok (s2l "http://x/#") /\ smart_urljoin ex_drop [] (s2l "y") = Ok (s2l "http://x/") /\
  ends_in 35 (s2l "#") /\ smart_urljoin ex_uj (s2l "a") (s2l "b#") = Ok (s2l "ab#").
Proof. repeat split. exists []. reflexivity. Qed.

(** C71 *)
Theorem C71_one_or_none : forall {A} (l : list A),
  (l = [] -> one_or_none l = Ok None) /\ (forall x, l = [x] -> one_or_none l = Ok (Some x)) /\
  ((length l >= 2)%nat -> one_or_none l = Err ValueError).
Proof. intros A [|x [|y l]]; cbn; repeat split; intros; try discriminate; try lia; try reflexivity. now injection H as ->. Qed.
Theorem C71_grouper : forall {A} n (fill : A) l, (n > 0)%nat -> groups_of n fill l (grouper n fill l).
Proof. intros A. exact (@grouper_spec A). Qed.
(** the groups are determined by that *)
Theorem C71_groups_unique : forall {A} n (fill : A) l gs gs', groups_of n fill l gs -> groups_of n fill l gs' -> gs = gs'.
Proof.
  intros A n fill l gs gs' [F (k & K & C)] [F' (k' & K' & C')].
  assert (LE : forall (g : list (list A)), Forall (fun x => length x = n) g -> length (concat g) = (n * length g)%nat).
  { induction 1 as [|x g X G IH]; cbn; [lia|]. rewrite app_length, IH, X. lia. }
  assert (E : concat gs = concat gs').
  { assert (L1 := LE _ F). assert (L2 := LE _ F'). rewrite C in L1. rewrite C' in L2. rewrite app_length, repeat_length in L1, L2.
    assert (length gs = length gs') by nia. assert (k = k') by nia. subst k'. now rewrite C, C'. }
  clear -F F' E LE K. revert gs' F' E. induction F as [|x gs X F IH]; intros [|y gs'] F' E; auto.
  - apply (f_equal (@length A)) in E. apply Forall_inv in F'. cbn in E. rewrite app_length in E. lia.
  - apply (f_equal (@length A)) in E. cbn in E. rewrite app_length in E. lia.
  - cbn in E. pose proof (Forall_inv F') as Y. cbn in Y. assert (x = y).
    { apply (f_equal (firstn n)) in E. rewrite !firstn_app, X, Y, Nat.sub_diag, !firstn_O, !app_nil_r in E.
      rewrite <- X in E at 1. rewrite <- Y in E. now rewrite !firstn_all in E. }
    subst y. f_equal. apply IH; [now inversion F'|]. now apply app_inv_head in E.
Qed.
Example C71_example : grouper 2 0 [1; 2; 3] = [[1; 2]; [3; 0]] /\ grouper 3 0 [1; 2; 3] = [[1; 2; 3]] /\ grouper 2 0 [] = [] /\
  groups_of 2 0 [1; 2; 3] [[1; 2]; [3; 0]] /\ one_or_none [1; 2] = Err ValueError.
Proof. repeat split; try reflexivity; [repeat constructor|]. exists 1%nat. split; [lia|reflexivity]. Qed.

(** C79: parsing into a graph *)
(** an error leaves the graph as it was *)
Theorem C79_all_or_nothing : forall uj n base g doc n' g' r, turtle_add uj n base g doc = Some (n', g', r) ->
  r = Ok tt /\ (forall t, In t (g_iter g) -> In t (g_iter g')) \/ r = Err VisitError /\ g' = g.
Proof.
  intros uj n base g doc n' g' r H. unfold turtle_add, turtle_run in H. destruct (e_doc uj (ts_new n base) doc) as [st [l|e]].
  - destruct (gen_doc _ l) as [m ts]. destruct (plain ts) as [l'|]; [|discriminate]. injection H as <- <- <-. left. split; auto.
    intros t J. unfold g_iter in *. rewrite g_addAll_In. auto.
  - injection H as <- <- <-. auto.
Qed.
(** a document with a meaning adds exactly its triples, with blank nodes not used before *)
Theorem C79_adds_the_triples_of_the_document : forall uj n base g doc L0 ts0 bs0, uj_clean uj -> ~ In 60 base ->
  Forall stmt_tokens doc -> forallb stmt_flat doc = true -> doc_means (resolves_by uj) L0 (env0 base) doc ts0 bs0 ->
  exists n' g' L ts bs, turtle_add uj n base g doc = Some (n', g', Ok tt) /\
    doc_means (resolves_by uj) L (env0 base) doc ts bs /\ NoDup bs /\ (forall a, In a bs -> n <= a < n') /\
    (forall x, In x (doc_labels doc) -> n <= L x < n' /\ ~ In (L x) bs) /\
    (forall x y, In x (doc_labels doc) -> In y (doc_labels doc) -> L x = L y -> x = y) /\
    (forall t, In t (g_iter g') <-> In t (g_iter g) \/ In t ts).
Proof.
  intros uj n base g doc L0 ts0 bs0 U B T F M. destruct (turtle_complete uj n U base doc L0 ts0 bs0 B T M) as (n' & out & R).
  destruct (turtle_sound uj n U base doc n' out B T F R) as (L & l & ts & bs & P & PM & D & ND & X & Y & Z).
  exists n', (g_addAll g l), L, ts, bs. unfold turtle_add. rewrite R, P.
  do 6 (split; [auto|]). intro t. unfold g_iter. rewrite g_addAll_In. assert (X1 := Permutation_in t PM). assert (X2 := Permutation_in t (Permutation_sym PM)). tauto.
Qed.
Example C79_example :
  let g0 := g_addAll (graph_new None) [Tr (Iri (s2l "a")) (Iri (s2l "b")) (BNode 0)] in
  (exists g', turtle_add ex_uj 5 (s2l "http://b/") g0 ex_coll = Some (11, g', Ok tt) /\ length (g_iter g') = 10%nat) /\
  (** a good statement before the undefined prefix is not kept either *)
  turtle_add ex_uj 5 (s2l "http://b/") g0 (ex_coll ++ [STriples (TIri (ex_pn "no:x")) (PCons VA (ex_list [TAnon]) PNil)]) = Some (7, g0, Err VisitError).
Proof. cbv zeta. split; [eexists; split|]; vm_compute; reflexivity. Qed.

Print Assumptions C49_collections_are_lists.
Print Assumptions C49_collection_documents.
Print Assumptions C49_two_triples_per_member.
Print Assumptions C50_triples_of_the_semantics.
Print Assumptions C50_meaningful_documents_parse.
Print Assumptions C50_generator_objects.
Print Assumptions C50_nested_triples_are_lost.
Print Assumptions C51_latest_prefix.
Print Assumptions C51_latest_base.
Print Assumptions C51_statements_in_order.
Print Assumptions C51_names_and_references.
Print Assumptions C51_unbound_prefix.
Print Assumptions C51_no_binding_survives.
Print Assumptions C52_validate_iri.
Print Assumptions C53_plain_literals.
Print Assumptions C53_never_equal.
Print Assumptions C70_smart_urljoin.
Print Assumptions C71_grouper.
Print Assumptions C71_groups_unique.
Print Assumptions C79_all_or_nothing.
Print Assumptions C79_adds_the_triples_of_the_document.
Print Assumptions C52_rejects_exactly_illegal_refuted.
Print Assumptions C70_keeps_the_empty_fragment.
Print Assumptions C70_otherwise_urljoin.
Print Assumptions C71_one_or_none.
