(** Property C103: class statements, the order of the classes and inherited
    attributes; C63: when classify raises TypeError. *)
From Coq Require Import Permutation.
From Verif Require Import Model.Py Model.Terms Model.Graph Model.GraphRun Model.Codec Model.Curie Model.Resource Model.ResourceRun
  Spec.GraphSpec Spec.CurieSpec Spec.ResourceSpec Spec.MroSpec
  Proofs.GraphInv Proofs.GraphHist Proofs.ResourceLemmas Proofs.ClassLemmas Proofs.MroLemmas Properties.ResourceProps Properties.ResourceSelectProps.
Open Scope N_scope.

(** a class statement succeeds iff its scalars are CURIEs and its bases can be put
    in an order; otherwise nothing changes *)
Theorem C103_accepted : forall early w name bases own scalars lang rdfs D, wreach_if early w -> NoDup (map fst own) ->
  (forall k v, lookup D k v <-> inherits w bases own k v) ->
  let curies := forall a, In a scalars -> exists p, curie_means registered_schemes D a p in
  (curies -> (exists L, linear w bases L) -> exists w', make_class w name bases own scalars lang rdfs = (w', Ok (length (w_classes w)))) /\
  (curies -> ~ (exists L, linear w bases L) -> make_class w name bases own scalars lang rdfs = (w, Err TypeError)) /\
  (~ curies -> exists e, make_class w name bases own scalars lang rdfs = (w, Err e) /\ (e = IndexError \/ e = ValueError)).
Proof. exact class_cases. Qed.
(** the new class comes first, then its bases and theirs in such an order *)
Theorem C103_order : forall early w name bases own scalars lang rdfs w' me, wreach_if early w -> Forall (valid w) bases ->
  make_class w name bases own scalars lang rdfs = (w', Ok me) ->
  ~ valid w me /\ valid w' me /\ exists L, c_mro (class_at w' me) = me :: L /\ linear w bases L /\
    (forall k, In k L <-> exists b, In b bases /\ In k (c_mro (class_at w b))).
Proof. intros early w name bases own scalars lang rdfs w' me WR. apply class_order. exact (wreach_if_inv _ _ WR). Qed.
(** with one base: lang and rdf_classes are the class's own or the base's *)
Theorem C103_one_base : forall early w name b own scalars lang rdfs w' me, wreach_if early w -> valid w b ->
  make_class w name [b] own scalars lang rdfs = (w', Ok me) ->
  c_mro (class_at w' me) = me :: c_mro (class_at w b) /\
  lang_of w' me = (match lang with Some l => l | None => lang_of w b end) /\
  rdf_classes_of w' me = (match rdfs with Some l => l | None => rdf_classes_of w b end).
Proof. intros early w name b own scalars lang rdfs w' me WR. apply class_one_base. exact (wreach_if_inv _ _ WR). Qed.

(** ** C63 *)
(** classify fails only when the registered classes of the types, in the order in
    which they are iterated, are no bases of a class *)
Theorem C63_type_error_only_if : forall early ord w c g o tp w' e, reachable g -> wreach_if early w -> shuffle ord -> valid w c ->
  key_means w c (s2l "rdf:type") tp -> node o -> honoured (Some o) -> classify ord w c g o = (w', Err e) ->
  w' = w /\ e = TypeError /\ exists ks, classes_of w (g_iter g) tp o ks /\ ~ exists L, linear w ks L.
Proof. exact classify_refuses. Qed.
(** never for classes that only have Resource as a base *)
Theorem C63_independent_classes : forall early ord w c g o tp, reachable g -> wreach_if early w -> shuffle ord -> valid w c ->
  key_means w c (s2l "rdf:type") tp -> node o -> honoured (Some o) ->
  (forall t k, has_type (g_iter g) tp o t -> registered w t k -> k <> 0%nat /\ c_mro (class_at w k) = [k; 0%nat]) ->
  (forall t t' k, has_type (g_iter g) tp o t -> has_type (g_iter g) tp o t' -> registered w t k -> registered w t' k -> t = t') ->
  exists w' k, classify ord w c g o = (w', Ok (RRes k o)).
Proof. exact classify_independent. Qed.
(** always when one class is registered for two of the types *)
Theorem C63_one_class_for_two_types : forall early ord w c g o tp t t' k, reachable g -> wreach_if early w -> no_cached w -> shuffle ord -> valid w c ->
  key_means w c (s2l "rdf:type") tp -> node o -> honoured (Some o) ->
  has_type (g_iter g) tp o t -> has_type (g_iter g) tp o t' -> t <> t' -> registered w t k -> registered w t' k ->
  classify ord w c g o = (w, Err TypeError).
Proof. exact classify_must_refuse. Qed.

(** Person, Agent and Pupil(Person): a class below Pupil and Agent has the order
    Pupil, Person, Agent, Resource; Person can not come before Pupil *)
Definition ex_m1 : world := fst (make_class ex_w (s2l "Pupil") [2%nat] [] [s2l "ex:age"] (Some (s2l "fr")) None).
Lemma ex_m1_reach : wreach ex_m1.
Proof. apply wr_class; [exact ex_reach|discriminate|]. constructor; [apply ex_valid; lia|constructor]. Qed.
Lemma ex_m1_stuck : ~ exists L, linear ex_m1 [2; 4]%nat L.
Proof.
  intros (L & ND & B & M). apply (before_irr L 2%nat ND).
  assert (X : before L 2 4) by (apply (proj2 B); apply before_cons; left; split; [reflexivity|now left]).
  assert (Y : before L 4 2) by (apply (proj2 (M 4%nat (or_intror (or_introl eq_refl)))); vm_compute; now exists [], [], [0%nat]).
  destruct X as (l1 & l2 & l3 & ->). apply before_split in Y; [|exact ND]. exfalso. apply in_split in Y. destruct Y as (a & b & ->).
  rewrite <- app_assoc in ND. cbn in ND. apply NoDup_remove_2 in ND. apply ND. rewrite !in_app_iff. cbn. rewrite in_app_iff. cbn. tauto.
Qed.
Example C103_case :
  wreach ex_m1 /\ Forall (valid ex_m1) [4; 3]%nat /\ lang_of ex_m1 4 = s2l "fr" /\ rdf_classes_of ex_m1 4 = [ex "Person"] /\
  (let '(w', r) := make_class ex_m1 (s2l "Both") [4; 3]%nat [] [] None None in
   r = Ok 5%nat /\ c_mro (class_at w' 5) = [5; 4; 2; 3; 0]%nat /\ lang_of w' 5 = s2l "fr") /\
  (~ exists L, linear ex_m1 [2; 4]%nat L) /\
  make_class ex_m1 (s2l "Bad") [2; 4]%nat [] [] None None = (ex_m1, Err TypeError) /\
  make_class ex_m1 (s2l "Bad") [2; 2]%nat [] [] None None = (ex_m1, Err TypeError) /\
  make_class ex_m1 (s2l "Bad") [2]%nat [] [s2l "nope:x"] None None = (ex_m1, Err ValueError).
Proof.
  split; [exact ex_m1_reach|].
  split; [assert (L : length (w_classes ex_m1) = 5%nat) by (vm_compute; reflexivity); unfold valid; rewrite L; constructor; [lia|constructor; [lia|constructor]]|]. split; [vm_compute; reflexivity|]. split; [vm_compute; reflexivity|].
  split; [vm_compute; repeat split|]. split; [exact ex_m1_stuck|]. repeat (split; [vm_compute; reflexivity|]). vm_compute; reflexivity.
Qed.
(** Person is also registered for ex:Human *)
Definition ex_m2 : world := fst (register_class ex_w (s2l "ex:Human") 2).
Definition ex_hg : graph := g_add (g_add ex_g (Tr (ex "d") (Iri ex_type) (ex "Human"))) (Tr (ex "d") (Iri ex_type) (ex "Person")).
Example C63_one_class_case :
  wreach ex_m2 /\ no_cached ex_m2 /\ has_type (g_iter ex_hg) ex_type (ex "d") (ex_iri "Human") /\ has_type (g_iter ex_hg) ex_type (ex "d") (ex_iri "Person") /\
  registered ex_m2 (ex_iri "Human") 2 /\ registered ex_m2 (ex_iri "Person") 2 /\
  classify same_order ex_m2 2 ex_hg (ex "d") = (ex_m2, Err TypeError) /\
  snd (classify same_order ex_m2 2 ex_hg (ex "b")) = Ok (RRes 4 (ex "b")).
Proof.
  assert (NC : forall w, forallb (fun e => match fst e with KType _ => true | KTypes _ => false end) (w_reg w) = true -> no_cached w).
  { intros w H us k J. rewrite forallb_forall in H. specialize (H _ J). discriminate. }
  split; [apply wr_register; [exact ex_reach|apply NC; vm_compute; reflexivity|apply ex_valid; lia]|].
  split; [apply NC; vm_compute; reflexivity|].
  split; [unfold has_type; eapply nth_error_In with (n := 10%nat); vm_compute; reflexivity|].
  split; [unfold has_type; eapply nth_error_In with (n := 11%nat); vm_compute; reflexivity|].
  assert (R : forall t, reg_type (w_reg ex_m2) (Iri t) = Some 2%nat -> registered ex_m2 t 2).
  { intros t E. apply reg_type_registered in E. destruct E as (iri & [= <-] & E). exact E. }
  split; [apply R; vm_compute; reflexivity|]. split; [apply R; vm_compute; reflexivity|]. split; vm_compute; reflexivity.
Qed.

Print Assumptions C103_accepted.
Print Assumptions C103_order.
Print Assumptions C103_one_base.
Print Assumptions C63_type_error_only_if.
Print Assumptions C63_independent_classes.
Print Assumptions C63_one_class_for_two_types.
