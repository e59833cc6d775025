(** Properties C89-C92: the skos vocabulary, Resources as values, their text, the
    triples that mention them. *)
From Coq Require Import Permutation.
From Verif Require Import Model.Py Model.Terms Model.Graph Model.GraphRun Model.Codec Model.Curie Model.Resource Model.ResourceRun Model.ResourceVal Model.Skos
  Spec.GraphSpec Spec.CurieSpec Spec.ResourceSpec Spec.ResourceValSpec
  Proofs.GraphInv Proofs.GraphHist Proofs.ResourceLemmas Proofs.ClassLemmas Proofs.ResourceRead Proofs.SkosLemmas Proofs.ResourceValLemmas
  Properties.ResourceProps.
Open Scope N_scope.

(** ** C89 *)
Theorem C89_import_needs_a_global_prefix : forall early w, wreach_if early w -> unbound (w_gp w) (s2l "skos") ->
  exists w', import_skos w = (w', Err ValueError) /\ w_reg w' = w_reg w /\ forall k, valid w k -> class_at w' k = class_at w k.
Proof.
  intros early w R U. destruct (import_fails early w R U) as (w' & A & X & B). exists w'. split; [exact A|]. split; [exact B|]. apply X.
Qed.
Theorem C89_import_with_a_global_prefix : forall early w ns, wreach_if early w -> lookup (w_gp w) (s2l "skos") ns ->
  exists w' b c s, import_skos w = (w', Ok (b, c, s)) /\
    (forall t k, registered w' t k <-> (t = ns ++ s2l "ConceptScheme" /\ k = s) \/ (t = ns ++ s2l "Concept" /\ k = c) \/
       (t <> ns ++ s2l "ConceptScheme" /\ t <> ns ++ s2l "Concept" /\ registered w t k)) /\
    rdf_classes_of w' c = [Iri (ns ++ s2l "Concept")] /\ rdf_classes_of w' s = [Iri (ns ++ s2l "ConceptScheme")] /\
    c_mro (class_at w' b) = [b; 0%nat] /\ c_mro (class_at w' c) = [c; b; 0%nat] /\ c_mro (class_at w' s) = [s; b; 0%nat] /\
    ~ valid w b /\ ~ valid w c /\ ~ valid w s /\ b <> c /\ b <> s /\ c <> s /\
    (forall k, valid w k -> class_at w' k = class_at w k) /\
    forall k, k = b \/ k = c \/ k = s -> valid w' k /\ (forall p, scalar w' k p <-> p = w3_rdfs ++ s2l "label") /\
      forall t, t <> [] -> key_means w' k (s2l "skos:" ++ t) (ns ++ t).
Proof. exact import_works. Qed.
(** skos:prefLabel is not a scalar: all labels in all languages are returned *)
Theorem C89_preflabels_are_not_scalar : forall early ord w ns w' b c s g x, wreach_if early w -> lookup (w_gp w) (s2l "skos") ns ->
  ns ++ s2l "prefLabel" <> w3_rdfs ++ s2l "label" -> import_skos w = (w', Ok (b, c, s)) -> reachable g -> honoured (Some x) ->
  exists os, lists os (fun o => In (Tr x (Iri (ns ++ s2l "prefLabel")) o) (g_iter g)) /\
    getitem ord w' c g x (KName (s2l "skos:prefLabel")) = (w', Ok (Many os)).
Proof.
  intros early ord w ns w' b c s g x R U N E RG Hx.
  destruct (import_works early w ns R U) as (w1 & b1 & c1 & s1 & E1 & _ & _ & _ & _ & _ & _ & _ & _ & _ & _ & _ & _ & _ & K).
  rewrite E in E1. injection E1 as <- <- <- <-. destruct (K c) as (_ & SC & KM); [auto|].
  assert (M : key_means w' c (s2l "skos:prefLabel") (ns ++ s2l "prefLabel")) by (apply (KM (s2l "prefLabel")); discriminate).
  assert (NE : ns ++ s2l "prefLabel" <> []) by (intro Q; apply app_eq_nil in Q; destruct Q as [_ Q]; discriminate Q).
  assert (NS : ~ scalar w' c (ns ++ s2l "prefLabel")) by (intro Q; apply SC in Q; contradiction).
  destruct (read_selection ord w' c g x (KName (s2l "skos:prefLabel")) _ (fun _ _ => False) RG Hx NE M eq_refl) as (os & L & _ & GI & _).
  exists os. split; [|apply GI; now left]. destruct L as [ND L]. split; [exact ND|]. intro o. rewrite L. unfold selected, fits_key, has. change (g_iter g) with (g_triples g). tauto.
Qed.
(** pymantic as it is installed *)
Definition ex_skos_w : world := mkW (w_classes world0) (w_reg world0) (w_gp world0 ++ [(s2l "skos", skos_ns)]) (w_gt world0).
Lemma ex_skos_reach : wreach ex_skos_w.
Proof. apply wr_profile. apply wr_start. Qed.
Theorem C89_skos_can_be_imported_refuted : wreach world0 /\ snd (import_skos world0) = Err ValueError.
Proof. split; [apply wr_start|vm_compute; reflexivity]. Qed.
Definition ex_skos_ts : list stmt :=
  [Tr (ex "c") (Iri (skos_ns ++ s2l "prefLabel")) (ex_en "cat"); Tr (ex "c") (Iri (skos_ns ++ s2l "prefLabel")) (ex_de "Katze");
   Tr (ex "c") (Iri ex_type) (Iri (skos_ns ++ s2l "Concept"))].
Lemma ex_triples_reachable : forall ts, forallb (fun t => match st_graph t with None => true | _ => false end) ts = true -> reachable (g_addAll (graph_new None) ts).
Proof.
  intros ts X. apply (reach_step (graph_new None) (OpAddAll ts) (reach_new None)). intros t J.
  rewrite forallb_forall in X. specialize (X t J). unfold is_triple. destruct (st_graph t); [discriminate|reflexivity].
Qed.
Example C89_example : wreach world0 /\ unbound (w_gp world0) (s2l "skos") /\ wreach ex_skos_w /\ lookup (w_gp ex_skos_w) (s2l "skos") skos_ns /\
  snd (import_skos ex_skos_w) = Ok (2%nat, 3%nat, 4%nat) /\
  let w := fst (import_skos ex_skos_w) in let g := g_addAll (graph_new None) ex_skos_ts in
  reachable g /\
  snd (getitem same_order w 3 g (ex "c") (KName (s2l "skos:prefLabel"))) = Ok (Many [ex_en "cat"; ex_de "Katze"]) /\
  snd (classify same_order w 0 g (ex "c")) = Ok (RRes 3 (ex "c")).
Proof.
  split; [apply wr_start|]. split; [apply sget_unbound; vm_compute; reflexivity|]. split; [exact ex_skos_reach|].
  split; [apply sget_lookup; vm_compute; reflexivity|]. split; [vm_compute; reflexivity|]. cbv zeta.
  split; [apply ex_triples_reachable; vm_compute; reflexivity|]. split; vm_compute; reflexivity.
Qed.

(** ** C90 *)
(** the class and the graph do not matter *)
Theorem C90_resources : forall c g s c' g' s',
  (py_eq (PRes c g s) (PRes c' g' s') = true <-> s = s') /\ (py_ne (PRes c g s) (PRes c' g' s') = true <-> s <> s').
Proof.
  intros. rewrite py_ne_negb, negb_true_iff. pose proof (res_res c g s c' g' s') as H. split; [exact H|]. split.
  - intros N E. apply H in E. congruence.
  - intro N. destruct (py_eq _ _); [|reflexivity]. exfalso. now apply N, H.
Qed.
Theorem C90_names : forall c g i x v, v = PStr x \/ v = PTerm (Iri x) ->
  (py_eq (PRes c g (Iri i)) v = true <-> i = x) /\ (py_eq v (PRes c g (Iri i)) = true <-> i = x).
Proof. intros c g i x v H. exact (res_text c g (Iri i) x v H). Qed.
(** a resource with a blank node as subject equals the label, not the blank node *)
Theorem C90_blank_nodes : forall c g a t,
  (py_eq (PRes c g (BNode a)) (PTerm t) = true <-> t = Iri (bnode_str a)) /\ py_eq (PRes c g (BNode a)) (PTerm (BNode a)) = false.
Proof.
  intros c g a t. split; [|reflexivity]. destruct t as [i|b|v l d].
  - destruct (res_text c g (BNode a) i (PTerm (Iri i))) as [H _]; [now right|]. rewrite H. cbn [term_str]. split; congruence.
  - split; [discriminate|discriminate].
  - split; [discriminate|discriminate].
Qed.
Theorem C90_symmetric : forall a b, py_eq a b = py_eq b a /\ py_ne a b = negb (py_eq a b).
Proof. intros a b. split; [apply py_eq_sym|apply py_ne_negb]. Qed.
(** an equivalence that hashing respects, among values that are no resources with blank nodes *)
Theorem C90_equivalence : forall hs hi ht a b c, named a -> named b -> named c ->
  py_eq a a = true /\ (py_eq a b = true -> py_eq b c = true -> py_eq a c = true) /\
  (py_eq a b = true -> py_hash hs hi ht a = py_hash hs hi ht b).
Proof.
  intros hs hi ht a b c A B C. split; [now apply named_refl|]. split; [now apply named_trans|now apply named_hash].
Qed.
Theorem C90_resources_hash : forall hs hi ht c g s c' g' s', py_eq (PRes c g s) (PRes c' g' s') = true ->
  py_hash hs hi ht (PRes c g s) = py_hash hs hi ht (PRes c' g' s').
Proof. exact res_hash. Qed.
(** a set keeps the first resource of each subject *)
Theorem C90_sets : forall hs hi ht l, exists l', set_of hs hi ht (map rv l) = map rv l' /\ NoDup (map snd l') /\
  (forall s, In s (map snd l') <-> In s (map snd l)) /\
  forall x, In x l' <-> exists l1 l2, l = l1 ++ x :: l2 /\ ~ In (snd x) (map snd l1).
Proof. exact set_of_resources. Qed.
Theorem C90_as : forall k c g s, node s -> as_ k (PRes c g s) = PRes k g s /\ py_eq (as_ k (PRes c g s)) (PRes c g s) = true.
Proof. intros k c g s N. destruct s as [i|a|v l d]; [| |destruct N]; (split; [reflexivity|now apply res_res]). Qed.
(** with blank nodes == is not transitive, and equal values hash differently: both are kept in a set *)
Theorem C90_transitive_refuted : exists a b c, py_eq a b = true /\ py_eq b c = true /\ py_eq a c = false.
Proof. exists (PRes 0 1 (BNode 3)), (PStr (s2l "_:D")), (PRes 0 1 (Iri (s2l "_:D"))). vm_compute. auto. Qed.
Theorem C90_hash_refuted : exists a b, py_eq a b = true /\
  forall hs hi ht, hs (s2l "_:D") <> hi 3 -> py_hash hs hi ht a <> py_hash hs hi ht b /\ set_of hs hi ht [a; b] = [a; b].
Proof.
  exists (PRes 0 1 (BNode 3)), (PStr (s2l "_:D")). split; [vm_compute; reflexivity|]. intros hs hi ht N. split; [cbn [py_hash hash_term]; congruence|].
  unfold set_of, set_add, set_mem. cbn [fold_left existsb app py_hash hash_term]. destruct (Z.eqb_spec (hi 3) (hs (s2l "_:D"))); [congruence|reflexivity].
Qed.
Example C90_example : py_eq (PRes 2 1 (ex "a")) (PRes 0 7 (ex "a")) = true /\ py_eq (PStr (ex_iri "a")) (PRes 2 1 (ex "a")) = true /\
  py_eq (PRes 2 1 (ex "a")) (PTerm (ex_en "a")) = false /\ py_eq (PRes 2 1 (ex "a")) (PObj 5) = false /\ named (PRes 2 1 (ex "a")) /\ node (BNode 3) /\
  bnode_str 3 = s2l "_:D" /\
  set_of (fun _ => 0%Z) (fun _ => 1%Z) (fun _ => 2%Z) [PRes 2 1 (ex "a"); PRes 0 1 (ex "b"); PRes 3 1 (ex "a"); PStr (ex_iri "b")] = [PRes 2 1 (ex "a"); PRes 0 1 (ex "b")].
Proof. split; [vm_compute; reflexivity|]. split; [vm_compute; reflexivity|]. split; [reflexivity|]. split; [reflexivity|]. split; [now eexists|]. vm_compute. auto. Qed.

(** ** C91 *)
Theorem C91_text : forall ord w c g s lab inst, reachable g -> honoured (Some s) -> node s -> lab <> [] -> key_means w c (s2l "rdfs:label") lab ->
  let sel := selected (g_iter g) s lab (scalar w c lab) (lang_of w c) inst (KName (s2l "rdfs:label")) in
  (~ scalar w c lab -> to_str ord w c g s = (w, Err AttributeError)) /\
  (scalar w c lab ->
    ((forall o, ~ sel o) -> exists x, name_text s x /\ to_str ord w c g s = (w, Ok x)) /\
    (forall v l d, sel (Lit v l d) -> (forall o, sel o -> o = Lit v l d) -> to_str ord w c g s = (w, Ok v)) /\
    (forall o, sel o -> node o -> (forall o', sel o' -> o' = o) ->
       exists w' e, to_str ord w c g s = (w', Err e) /\ forall k, snd (classify ord w c g o) = Ok k -> e = AttributeError) /\
    (forall o o', sel o -> sel o' -> o <> o' -> to_str ord w c g s = (w, Err ValueError))).
Proof.
  intros ord w c g s lab inst RG Hs NS NE M sel. destruct (print_resource ord w c g s lab inst RG Hs NE M) as [A B]. split; [exact A|].
  intro SC. destruct (B SC) as (B1 & B2). split; [|exact B2]. intro N. exists (term_str s). split; [|exact (B1 N)].
  destruct s as [i|a|v l d]; [constructor|constructor|destruct NS].
Qed.
Definition ex_lab : term := Iri (rdfs_ns ++ s2l "label").
Definition ex_lab_ts : list stmt :=
  [Tr (ex "a") ex_lab (ex_en "Ann"); Tr (ex "a") ex_lab (ex_de "Anne"); Tr (ex "b") ex_lab (ex_de "Bernd"); Tr (ex "c") ex_lab (ex "b");
   Tr (ex "d") ex_lab (ex_en "D"); Tr (ex "d") ex_lab (Lit (s2l "Dd") (Some (s2l "en-us")) None); Tr (ex "e") ex_lab (ex_str "E"); Tr (ex "f") ex_lab (ex_en "")].
Definition ex_lab_g : graph := g_addAll (graph_new None) ex_lab_ts.
(** a class that binds the prefix rdfs to something else *)
Definition ex_lab_w : world := fst (make_class ex_w (s2l "Odd") [0%nat] [(s2l "rdfs", s2l "http://ex/")] [] None None).
Theorem C91_every_resource_has_a_text_refuted : exists ord w c g s, wreach w /\ valid w c /\ reachable g /\ snd (to_str ord w c g s) = Err AttributeError.
Proof.
  exists same_order, ex_w, 2%nat, ex_lab_g, (ex "c"). split; [exact ex_reach|]. split; [apply ex_valid; lia|]. split; [apply ex_triples_reachable; vm_compute; reflexivity|].
  vm_compute. reflexivity.
Qed.
Example C91_example : reachable ex_lab_g /\ honoured (Some (ex "a")) /\ key_means ex_w 2 (s2l "rdfs:label") (rdfs_ns ++ s2l "label") /\
  scalar ex_w 2 (rdfs_ns ++ s2l "label") /\ snd (to_str same_order ex_w 2 ex_lab_g (ex "a")) = Ok (s2l "Ann") /\
  snd (to_str same_order ex_w 2 ex_lab_g (ex "b")) = Ok (s2l "http://ex/b") /\ snd (to_str same_order ex_w 2 ex_lab_g (BNode 3)) = Ok (s2l "_:D") /\
  snd (to_str same_order ex_w 2 ex_lab_g (ex "d")) = Err ValueError /\ snd (to_str same_order ex_w 2 ex_lab_g (ex "e")) = Ok (s2l "E") /\
  snd (to_str same_order ex_w 2 ex_lab_g (ex "f")) = Ok [] /\
  key_means ex_lab_w 4 (s2l "rdfs:label") (ex_iri "label") /\ ~ scalar ex_lab_w 4 (ex_iri "label") /\ snd (to_str same_order ex_lab_w 4 ex_lab_g (ex "a")) = Err AttributeError.
Proof.
  split; [apply ex_triples_reachable; vm_compute; reflexivity|]. split; [discriminate|]. split; [apply ex_means; vm_compute; reflexivity|].
  split; [apply ex_scalar; vm_compute; reflexivity|].
  do 6 (split; [vm_compute; reflexivity|]). split; [apply resolve_means; vm_compute; reflexivity|]. split; [apply ex_not_scalar; vm_compute; reflexivity|].
  vm_compute. reflexivity.
Qed.

(** ** C92 *)
Theorem C92_object_of : forall early ord w c g s w' ys r, wreach_if early w -> shuffle ord -> valid w c -> reachable g -> honoured (Some s) ->
  object_of_all ord w c g s None = (w', (ys, r)) ->
  exists l, lists l (fun xp => In (Tr (fst xp) (snd xp) s) (g_iter g)) /\ yielded l ys r /\
    (forall k x p, In (RRes k x, p) ys -> valid w' k) /\ forall k, valid w k -> class_at w' k = class_at w k.
Proof. exact object_of_any. Qed.
Theorem C92_object_of_a_predicate : forall early ord w c g s t p w' ys r, wreach_if early w -> shuffle ord -> valid w c -> reachable g -> honoured (Some s) ->
  p <> [] -> key_means w c t p -> object_of_all ord w c g s (Some t) = (w', (ys, r)) ->
  exists l, lists l (fun xp => snd xp = Iri p /\ In (Tr (fst xp) (snd xp) s) (g_iter g)) /\ yielded l ys r /\
    (forall k x p, In (RRes k x, p) ys -> valid w' k) /\ forall k, valid w k -> class_at w' k = class_at w k.
Proof. exact object_of_key. Qed.
(** a key that means nothing: an error at the first step, or, without a colon, any predicate *)
Theorem C92_unknown_predicates : forall ord w c g s t, (forall p, ~ key_means w c t p) ->
  (t = [] -> object_of_all ord w c g s (Some t) = (w, ([], Err IndexError))) /\
  (In 58 t -> object_of_all ord w c g s (Some t) = (w, ([], Err ValueError))) /\
  (t <> [] -> ~ In 58 t -> object_of_all ord w c g s (Some t) = object_of_all ord w c g s None).
Proof. exact object_of_bad. Qed.
Theorem C92_iteration : forall g s, reachable g -> honoured (Some s) -> lists (iter g s) (fun po => In (Tr s (fst po) (snd po)) (g_iter g)).
Proof. exact iter_lists. Qed.
(** the class of a yielded instance: exactly the classes written for its types and their bases *)
Theorem C92_classes : forall ord w c g s pr w' ys r tp, wreach w -> shuffle ord -> valid w c -> reachable g -> key_means w c (s2l "rdf:type") tp ->
  object_of_all ord w c g s pr = (w', (ys, r)) -> forall k x p, In (RRes k x, p) ys -> honoured (Some x) ->
  forall j, written w j -> (In j (c_mro (class_at w' k)) <-> instance w (g_iter g) tp j x).
Proof. exact object_of_classes. Qed.
Theorem C92_without_mixtures : forall early ord w c g s pr tp, wreach_if early w -> shuffle ord -> valid w c -> reachable g -> honoured (Some s) -> key_means w c (s2l "rdf:type") tp ->
  (pr = None \/ exists t p, pr = Some t /\ p <> [] /\ key_means w c t p) ->
  (forall x p, In (Tr x p s) (g_iter g) -> node x -> honoured (Some x) /\ single w (g_iter g) tp x) ->
  exists ys, object_of_all ord w c g s pr = (w, (ys, Ok tt)) /\ forall k x p, In (RRes k x, p) ys ->
    (forall t j, has_type (g_iter g) tp x t -> registered w t j -> k = j) /\ ((forall t j, has_type (g_iter g) tp x t -> ~ registered w t j) -> k = 0%nat).
Proof. exact object_of_unmixed. Qed.
Definition ex_one : list stmt := [Tr (ex "a") (ex "likes") (ex "c"); Tr (ex "a") (Iri ex_type) (ex "Agent"); Tr (BNode 4) (ex "knows") (ex "c")].
Definition ex_one_g : graph := g_addAll (graph_new None) ex_one.
Example C92_classes_case : wreach ex_w /\ shuffle same_order /\ valid ex_w 2 /\ reachable ex_one_g /\ key_means ex_w 2 (s2l "rdf:type") ex_type /\
  object_of_all same_order ex_w 2 ex_one_g (ex "c") None = (ex_w, ([(RRes 3 (ex "a"), ex "likes"); (RRes 0 (BNode 4), ex "knows")], Ok tt)) /\
  written ex_w 3 /\ instance ex_w (g_iter ex_one_g) ex_type 3 (ex "a") /\
  (forall x p, In (Tr x p (ex "c")) (g_iter ex_one_g) -> node x -> honoured (Some x) /\ single ex_w (g_iter ex_one_g) ex_type x).
Proof.
  split; [exact ex_reach|]. split; [exact same_order_shuffles|]. split; [apply ex_valid; lia|].
  split; [apply (reach_step _ (OpAddAll ex_one) (reach_new None)); intros t [<-|[<-|[<-|[]]]]; reflexivity|].
  split; [apply ex_means; vm_compute; reflexivity|]. split; [vm_compute; reflexivity|].
  split. { split; [change (valid ex_w 3); apply ex_valid; lia|]. intros us J. vm_compute in J. intuition discriminate. }
  split. { split; [exact Logic.I|]. right. exists (ex_iri "Agent"), 3%nat. split; [vm_compute; tauto|]. split; [|vm_compute; tauto].
    assert (R : reg_type (w_reg ex_w) (ex "Agent") = Some 3%nat) by (vm_compute; reflexivity). apply reg_type_registered in R. destruct R as (i & E & R). injection E as E. rewrite <- E in R. exact R. }
  intros x p J N. assert (X : x = ex "a" \/ x = BNode 4).
  { assert (K := proj1 (forallb_forall (fun t => if term_eq_dec (st_s t) (ex "a") then true else if term_eq_dec (st_s t) (BNode 4) then true else false) (g_iter ex_one_g)) eq_refl _ J).
    cbv beta in K. unfold Tr in K. cbn [st_s] in K. destruct (term_eq_dec x (ex "a")); [now left|]. destruct (term_eq_dec x (BNode 4)); [now right|discriminate K]. }
  destruct X as [-> | ->]; (split; [discriminate|]); intros t t' k k' A B _ _; vm_compute in A, B.
  - destruct A as [A|[A|[A|[]]]]; try discriminate A. destruct B as [B|[B|[B|[]]]]; try discriminate B. congruence.
  - destruct A as [A|[A|[A|[]]]]; discriminate A.
Qed.
Definition ex_of_g : graph := g_addAll ex_g [Tr (ex "b") (ex "likes") (ex "c"); Tr (BNode 4) (ex "knows") (ex "c")].
Lemma ex_of_reachable : reachable ex_of_g.
Proof.
  apply (reach_step ex_g (OpAddAll [Tr (ex "b") (ex "likes") (ex "c"); Tr (BNode 4) (ex "knows") (ex "c")]) ex_reachable). intros t [<-|[<-|[]]]; reflexivity.
Qed.
Example C92_example : reachable ex_of_g /\ key_means ex_w 2 (s2l "ex:knows") (ex_iri "knows") /\
  snd (object_of_all same_order ex_w 2 ex_of_g (ex "c") None) =
    ([(RRes 0 (ex "a"), ex "knows"); (RRes 4 (ex "b"), ex "likes"); (RRes 0 (BNode 4), ex "knows")], Ok tt) /\
  snd (object_of_all same_order ex_w 2 ex_of_g (ex "c") (Some (s2l "ex:knows"))) = ([(RRes 0 (ex "a"), ex "knows"); (RRes 0 (BNode 4), ex "knows")], Ok tt) /\
  snd (object_of_all same_order ex_w 2 ex_of_g (ex "c") (Some (s2l "no:knows"))) = ([], Err ValueError) /\
  (forall x, ~ key_means ex_w 2 (s2l "nmae") x) /\
  iter ex_of_g (ex "b") = [(Iri ex_type, ex "Person"); (Iri ex_type, ex "Agent"); (ex "name", ex_en "Bob"); (ex "likes", ex "c")].
Proof.
  split; [exact ex_of_reachable|]. split; [apply ex_means; vm_compute; reflexivity|].
  do 3 (split; [vm_compute; reflexivity|]). split; [intros x M; apply resolve_means in M; vm_compute in M; discriminate|]. vm_compute. reflexivity.
Qed.

Print Assumptions C89_import_needs_a_global_prefix.
Print Assumptions C89_import_with_a_global_prefix.
Print Assumptions C89_preflabels_are_not_scalar.
Print Assumptions C89_skos_can_be_imported_refuted.
Print Assumptions C90_resources.
Print Assumptions C90_names.
Print Assumptions C90_blank_nodes.
Print Assumptions C90_symmetric.
Print Assumptions C90_equivalence.
Print Assumptions C90_resources_hash.
Print Assumptions C90_sets.
Print Assumptions C90_as.
Print Assumptions C90_transitive_refuted.
Print Assumptions C90_hash_refuted.
Print Assumptions C91_text.
Print Assumptions C91_every_resource_has_a_text_refuted.
Print Assumptions C92_object_of.
Print Assumptions C92_object_of_a_predicate.
Print Assumptions C92_unknown_predicates.
Print Assumptions C92_iteration.
Print Assumptions C92_classes. Print Assumptions C92_without_mixtures.
