(** Property C102: the methods of Resource that select objects for a predicate;
    C54, C55, C56: keys with a class when no object has two registered types. *)
From Coq Require Import Permutation.
From Verif Require Import Model.Py Model.Terms Model.Graph Model.GraphRun Model.Codec Model.Curie Model.Resource Model.ResourceRun
  Spec.GraphSpec Spec.CurieSpec Spec.ResourceSpec
  Proofs.GraphInv Proofs.GraphHist Proofs.ResourceLemmas Proofs.ClassLemmas Proofs.ResourceSelect Properties.ResourceProps.
Open Scope N_scope.

(** objects(p): one object for each triple with the subject and a predicate that
    fits p; p may be None *)
Theorem C102_objects : forall g s p, reachable g -> honoured (Some s) -> honoured (option_map Iri p) ->
  objects_of (g_iter g) s (option_map Iri p) (objects g s p).
Proof. exact objects_all. Qed.
(** the others keep those of a kind *)
Theorem C102_bare_literals : forall g s p, keeps bare (objects g s p) (bare_literals g s p).
Proof. exact bare_keeps. Qed.
Theorem C102_objects_by_lang : forall g s p lang, keeps (lang_wanted lang) (objects g s p) (objects_by_lang g s p lang).
Proof. exact lang_keeps. Qed.
Theorem C102_objects_by_datatype : forall g s p dt, keeps (type_wanted dt) (objects g s p) (objects_by_datatype g s p dt).
Proof. exact type_keeps. Qed.
Theorem C102_resources : forall ord w c g s p, exists os, objects_by_type ord w c g s p None = (w, Ok os) /\ keeps node (objects g s p) os.
Proof. exact node_keeps. Qed.
(** with a class: its instances, unless the classes of some object cannot be combined *)
Theorem C102_objects_by_type : forall ord w c g s p k tp, reachable g -> shuffle ord -> wreach w -> valid w c -> written w k ->
  key_means w c (s2l "rdf:type") tp -> ~ In empty_iri (objects g s p) ->
  exists w', (objects_by_type ord w c g s p (Some k) = (w', Err TypeError) /\
               exists o, In o (objects g s p) /\ node o /\ ~ single w (g_iter g) tp o) \/
  exists os, objects_by_type ord w c g s p (Some k) = (w', Ok os) /\ keeps (instance w (g_iter g) tp k) (objects g s p) os.
Proof. exact class_keeps. Qed.
(** nothing is lost: if no literal has both a language and a datatype, every object
    is in exactly one of four lists *)
Theorem C102_four_kinds : forall ord w c g s p os, (forall v l d, ~ In (Lit v (Some l) (Some d)) (objects g s p)) ->
  objects_by_type ord w c g s p None = (w, Ok os) ->
  Permutation (objects g s p) (os ++ bare_literals g s p ++ objects_by_lang g s p None ++ objects_by_datatype g s p None).
Proof. exact partition_objects. Qed.

Definition ex_int (s : string) : term := Lit (s2l s) None (Some (s2l "http://www.w3.org/2001/XMLSchema#integer")).
Definition ex_sg : graph := g_add (g_add ex_g (Tr (ex "a") (ex "age") (ex_int "7"))) (Tr (ex "a") (ex "likes") (ex "c")).
Lemma ex_sg_reachable : reachable ex_sg.
Proof.
  apply (reach_step _ (OpAdd (Tr (ex "a") (ex "likes") (ex "c")))); [|reflexivity].
  apply (reach_step _ (OpAdd (Tr (ex "a") (ex "age") (ex_int "7")))); [|reflexivity]. exact ex_reachable.
Qed.
Example C102_case :
  let a := ex "a" in
  reachable ex_sg /\ honoured (Some a) /\ honoured (option_map Iri None) /\ wreach ex_w /\ valid ex_w 2 /\
  key_means ex_w 2 (s2l "rdf:type") ex_type /\
  objects ex_sg a None = [ex_en "Ann"; ex_de "Anne"; ex_str "A"; ex "b"; ex "c"; ex_de "x"; ex_int "7"; ex "c"] /\
  bare_literals ex_sg a None = [ex_str "A"] /\
  objects_by_lang ex_sg a None None = [ex_en "Ann"; ex_de "Anne"; ex_de "x"] /\
  objects_by_lang ex_sg a (Some (ex_iri "name")) (Some (s2l "de-AT")) = [ex_de "Anne"] /\
  objects_by_lang ex_sg a None (Some []) = [ex_str "A"] /\
  objects_by_datatype ex_sg a None None = [ex_int "7"] /\
  objects_by_datatype ex_sg a None (Some (s2l "http://www.w3.org/2001/XMLSchema#integer")) = [ex_int "7"] /\
  objects_by_datatype ex_sg a None (Some (s2l "http://ex/other")) = [] /\
  objects_by_type same_order ex_w 2 ex_sg a None None = (ex_w, Ok [ex "b"; ex "c"; ex "c"]) /\
  snd (objects_by_type same_order ex_w 2 ex_sg a None (Some 2%nat)) = Ok [ex "b"] /\
  snd (objects_by_type same_order ex_w 2 ex_sg a None (Some 3%nat)) = Ok [ex "b"; ex "c"; ex "c"].
Proof.
  cbv zeta. split; [exact ex_sg_reachable|]. split; [vm_compute; discriminate|]. split; [discriminate|]. split; [exact ex_reach|].
  split; [apply ex_valid; repeat constructor|]. split; [apply resolve_means; vm_compute; reflexivity|].
  repeat (split; [vm_compute; reflexivity|]). vm_compute; reflexivity.
Qed.

(** ** C54, C55, C56: no object has two registered types
    Then no class is made, and reading, deleting and setting never fail with TypeError. *)
Theorem C54_by_class_without_mixtures : forall ord w c g s t k p tp, reachable g -> honoured (Some s) -> p <> [] -> key_means w c t p ->
  shuffle ord -> wreach w -> valid w c -> written w k -> key_means w c (s2l "rdf:type") tp ->
  ~ has (g_iter g) s p empty_iri -> unmixed w (g_iter g) tp s p ->
  let key := KPair t (FClass k) in
  let sel o := has (g_iter g) s p o /\ instance w (g_iter g) tp k o in
  exists os, lists os sel /\
    (exists b, contains ord w c g s key = (w, Ok b) /\ (b = true <-> exists o, sel o)) /\
    (~ scalar w c p -> getitem ord w c g s key = (w, Ok (Many os))) /\
    ((forall o, ~ sel o) -> (scalar w c p -> getitem ord w c g s key = (w, Ok (One RNone))) /\ get_scalar ord w c g s key = (w, Ok RNone)) /\
    (forall o, sel o -> (forall o', sel o' -> o' = o) ->
       exists k', (scalar w c p -> getitem ord w c g s key = (w, Ok (One (RRes k' o)))) /\ get_scalar ord w c g s key = (w, Ok (RRes k' o))) /\
    (forall o o', sel o -> sel o' -> o <> o' ->
       (scalar w c p -> getitem ord w c g s key = (w, Err ValueError)) /\ get_scalar ord w c g s key = (w, Err ValueError)).
Proof.
  intros ord w c g s t k p tp RG Hs Hp M SH WR V WK MT NE U key sel.
  destruct (read_unmixed ord w c g s t k p tp RG Hs Hp M SH WR V WK MT NE U) as (os & A & B & C & D & E & F & _). exists os.
  exact (conj A (conj B (conj C (conj D (conj E F))))).
Qed.
Theorem C55_by_class_without_mixtures : forall ord w c g s t k p tp, reachable g -> honoured (Some s) -> p <> [] -> key_means w c t p ->
  shuffle ord -> wreach w -> valid w c -> written w k -> key_means w c (s2l "rdf:type") tp ->
  ~ has (g_iter g) s p empty_iri -> unmixed w (g_iter g) tp s p ->
  exists g', delitem ord w c g s (KPair t (FClass k)) = (w, g', Ok tt) /\
    forall x, In x (g_iter g') <-> In x (g_iter g) /\ ~ exists o, has (g_iter g) s p o /\ instance w (g_iter g) tp k o /\ x = Tr s (Iri p) o.
Proof. exact delete_unmixed. Qed.
Theorem C56_accepted_without_mixtures : forall ord w c g s k p v w' g' r tp tp0 sc, reachable g -> honoured (Some s) -> p <> [] -> key_means w c (key_text k) p ->
  wreach w -> shuffle ord -> valid w c -> key_means w c (s2l "rdf:type") tp -> key_means w 0 (s2l "rdf:type") tp0 -> (sc = true <-> scalar w c p) ->
  (forall kc, class_key k = Some kc -> written w kc /\ ~ has (g_iter g) s p empty_iri /\ unmixed w (g_iter g) tp s p) ->
  (forall a, In a (values v) -> usable w a) -> (forall t, In (ATerm t) (values v) -> node t -> single w (g_iter g) tp0 t) ->
  setitem ord w c g s k v = (w', g', r) ->
  let lang := text_lang sc (lang_of w c) k in
  sane_literals (g_iter g) -> (forall a, In a (values v) -> a <> APy VOther) -> form_ok (scalar w c p) k v ->
  (forall t f, k = KPair t f -> ~ falsy f -> forall a o, In a (values v) -> one_value lang (text_type k) a o ->
     value_fits w (instance w (g_iter g) tp0) f a o) ->
  w' = w /\ r = Ok tt.
Proof. exact set_unmixed. Qed.
Lemma ex_only : forall G s p x, forallb (fun t => if term_eq_dec (st_s t) s then if term_eq_dec (st_p t) p then if term_eq_dec (st_o t) x then true else false else true else true) G = true ->
  forall o, In (Tr s p o) G -> o = x.
Proof.
  intros G s p x H o J. pose proof (proj1 (forallb_forall _ _) H _ J) as K. cbv beta in K. unfold Tr in K. cbn [st_s st_p st_o] in K.
  destruct (term_eq_dec s s); [|congruence]. destruct (term_eq_dec p p); [|congruence]. destruct (term_eq_dec o x) as [->|]; [reflexivity|discriminate K].
Qed.
Lemma ex_unmixed : unmixed ex_w (g_iter ex_sg) ex_type (ex "a") (ex_iri "likes").
Proof.
  intros o H _ t t' k k' A B _ _.
  assert (o = ex "c") as -> by (apply (ex_only (g_iter ex_sg) (ex "a") (Iri (ex_iri "likes"))); [vm_compute; reflexivity|exact H]).
  assert (T : forall u, has_type (g_iter ex_sg) ex_type (ex "c") u -> Iri u = ex "Agent")
    by (intros u U; apply (ex_only (g_iter ex_sg) (ex "c") (Iri ex_type)); [vm_compute; reflexivity|exact U]).
  pose proof (T _ A). pose proof (T _ B). congruence.
Qed.
Example C54_without_mixtures_case :
  let key := KPair (s2l "ex:likes") (FClass 3) in
  key_means ex_w 2 (s2l "ex:likes") (ex_iri "likes") /\ written ex_w 3 /\ ~ has (g_iter ex_sg) (ex "a") (ex_iri "likes") empty_iri /\
  unmixed ex_w (g_iter ex_sg) ex_type (ex "a") (ex_iri "likes") /\
  contains same_order ex_w 2 ex_sg (ex "a") key = (ex_w, Ok true) /\
  getitem same_order ex_w 2 ex_sg (ex "a") key = (ex_w, Ok (Many [ex "c"])) /\
  get_scalar same_order ex_w 2 ex_sg (ex "a") key = (ex_w, Ok (RRes 3 (ex "c"))) /\
  snd (delitem same_order ex_w 2 ex_sg (ex "a") key) = Ok tt /\
  (exists g', setitem same_order ex_w 2 ex_sg (ex "a") key (SSet [ATerm (ex "c"); ARes 3 (ex "d")]) = (ex_w, g', Ok tt) /\
     objects g' (ex "a") (Some (ex_iri "likes")) = [ex "c"; ex "d"]) /\
  snd (setitem same_order ex_w 2 ex_sg (ex "a") (KPair (s2l "ex:likes") (FClass 2)) (SOne (ATerm (ex "c")))) = Err ValueError.
Proof.
  cbv zeta. split; [apply ex_means; vm_compute; reflexivity|].
  split; [split; [apply ex_valid; lia|]; intros us J; vm_compute in J; intuition discriminate|].
  split; [intro J; vm_compute in J; intuition discriminate|]. split; [exact ex_unmixed|].
  repeat (split; [vm_compute; reflexivity|]). split; [eexists; split; [vm_compute; reflexivity|vm_compute; reflexivity]|vm_compute; reflexivity].
Qed.

Print Assumptions C102_objects.
Print Assumptions C102_bare_literals.
Print Assumptions C102_objects_by_lang.
Print Assumptions C102_objects_by_datatype.
Print Assumptions C102_resources.
Print Assumptions C102_objects_by_type.
Print Assumptions C102_four_kinds.
Print Assumptions C54_by_class_without_mixtures.
Print Assumptions C55_by_class_without_mixtures.
Print Assumptions C56_accepted_without_mixtures.
