(** Importing pymantic.vocab.skos (C89). *)
From Coq Require Import Permutation.
From Verif Require Import Model.Py Model.Terms Model.Graph Model.GraphRun Model.Codec Model.Curie Model.Resource Model.ResourceRun Model.Skos
  Spec.GraphSpec Spec.CurieSpec Spec.ResourceSpec
  Proofs.DictLemmas Proofs.GraphInv Proofs.GraphHist Proofs.CurieLemmas Proofs.CurieMore Proofs.ResourceLemmas Proofs.ClassLemmas Proofs.ResourceRead
  Proofs.ResourceSet Proofs.ResourceMore Proofs.ListClass.
Open Scope N_scope.

Definition P0 : dict str str := [(s2l "rdf", rdf_ns); (s2l "rdfs", rdfs_ns)].
Definition label : str := rdfs_ns ++ s2l "label".
(** class [b] is Resource or a class with an empty body below it *)
Definition plain_class (w : world) (b : nat) (m : list nat) : Prop :=
  valid w b /\ c_prefixes (class_at w b) = P0 /\ c_scalars (class_at w b) = [label] /\ c_mro (class_at w b) = m.
Lemma resource_plain : forall early w, wreach_if early w -> plain_class w 0 [0%nat].
Proof.
  intros early w R. assert (V0 : valid world0 0) by (vm_compute; lia). destruct (wreach_body _ _ R _ V0) as [V B]. unfold body in B.
  split; [exact V|]. assert (P := f_equal (fun x => fst (fst (fst x))) B). assert (S := f_equal (fun x => snd (fst (fst x))) B). assert (M := f_equal snd B).
  cbn [fst snd] in P, S, M. rewrite P, S, M. repeat split; vm_compute; reflexivity.
Qed.
Lemma one_base_mro : forall w me b m, (m = [0%nat] /\ b = O \/ m = [b; O] /\ b <> O) -> c_mro (class_at w b) = m -> mro_of w me [b] = Some (me :: m).
Proof.
  intros w me b m H E. unfold mro_of. cbn [nodup in_dec length Nat.eqb list_rect map app concat]. rewrite E.
  destruct H as [[-> ->]|[-> N]]; [reflexivity|]. cbn [app length c3_merge forallb andb c3_pick]. unfold c3_good at 1. cbn [forallb tl].
  destruct (in_dec Nat.eq_dec b [0%nat]) as [[X|[]]|_]; [congruence|]. destruct (in_dec Nat.eq_dec b []) as [[]|_]. cbn [negb andb option_map map].
  rewrite !(Nat.eqb_refl b). reflexivity.
Qed.
Lemma below : forall w name b m, plain_class w b m -> (m = [0%nat] /\ b = O \/ m = [b; O] /\ b <> O) -> (0 < length (w_classes w))%nat ->
  exists w', make_class w name [b] [] [] None None = (w', Ok (length (w_classes w))) /\ extends w w' /\ w_reg w' = w_reg w /\
    plain_class w' (length (w_classes w)) (length (w_classes w) :: m) /\ ~ valid w (length (w_classes w)).
Proof.
  intros w name b m (V & P & S & M) H L. destruct (make_class w name [b] [] [] None None) as [w' r] eqn:E.
  pose proof (make_class_extends _ _ _ _ _ _ _ _ _ E) as X. unfold make_class in E. cbv zeta in E. cbn [parse_scalars] in E.
  rewrite (one_base_mro w _ b m H M) in E. injection E as <- <-.
  eexists. split; [reflexivity|]. split; [exact X|]. split; [reflexivity|]. split; [|unfold valid; lia].
  split; [apply valid_new; now right|]. rewrite class_at_new. cbn [c_prefixes c_scalars c_mro].
  unfold base_prefixes. cbn [fold_left map concat app]. rewrite P, S. repeat split; vm_compute; reflexivity.
Qed.
Lemma skos_name : forall w b m t, plain_class w b m -> t <> [] ->
  resolve w b (s2l "skos:" ++ t) = match sget (w_gp w) (s2l "skos") with Some ns => Ok (Some (ns ++ t)) | None => Err ValueError end.
Proof.
  intros w b m t (_ & P & _) NT. unfold resolve. rewrite P.
  assert (PC : forall pm, parse_curie (s2l "skos:" ++ t) pm = match sget pm (s2l "skos") with Some ns => Ok (ns ++ t) | None => Err ValueError end).
  { intro pm. destruct t as [|a t']; [congruence|]. unfold parse_curie.
    change (s2l "skos:" ++ a :: t') with (115 :: 107 :: 111 :: 115 :: 58 :: a :: t'). cbv iota beta zeta. change (115 =? 91) with false. cbn [andb].
    replace (partition (115 :: 107 :: 111 :: 115 :: 58 :: a :: t') 58) with (s2l "skos", true, a :: t') by reflexivity. cbn [negb andb].
    assert (NS : (if in_dec str_eq_dec (s2l "skos") schemes then true else false) = false) by (vm_compute; reflexivity). rewrite NS. reflexivity. }
  rewrite PC. change (sget P0 (s2l "skos")) with (@None str). cbv iota.
  assert (CO : str_in_char 58 (s2l "skos:" ++ t) = true) by reflexivity. rewrite CO. unfold pm_resolve. rewrite PC.
  destruct (sget (w_gp w) (s2l "skos")); reflexivity.
Qed.
Lemma import_fails : forall early w, wreach_if early w -> unbound (w_gp w) (s2l "skos") ->
  exists w', import_skos w = (w', Err ValueError) /\ extends w w' /\ w_reg w' = w_reg w.
Proof.
  intros early w R U. pose proof (resource_plain _ _ R) as PC. pose proof (i_zero _ (wreach_if_inv _ _ R)) as L. apply sget_unbound in U.
  unfold import_skos, skos_class at 1. destruct (below w (s2l "SKOSResource") 0 [0%nat] PC) as (w1 & E1 & X1 & R1 & P1 & _); [now left|exact L|]. rewrite E1.
  set (b := length (w_classes w)) in *.
  assert (L1 : (0 < length (w_classes w1))%nat) by (destruct X1 as (X1 & _); lia).
  unfold skos_class at 1. destruct (below w1 (s2l "Concept") b _ P1) as (w2 & E2 & X2 & R2 & P2 & _); [right; split; [reflexivity|lia]|exact L1|]. rewrite E2.
  unfold register_class. change (s2l "skos:Concept") with (s2l "skos:" ++ s2l "Concept").
  rewrite (skos_name _ _ _ _ P2) by discriminate. destruct X2 as (XA & XB & XC & XD & XE). destruct X1 as (YA & YB & YC & YD & YE).
  rewrite XD, YD, U. exists w2. split; [reflexivity|]. split; [|congruence].
  apply (extends_trans w w1 w2); repeat split; auto.
Qed.
Lemma registered_new : forall w w' iri c iri', w_reg w' = (KType iri, c) :: w_reg w ->
  (registered w' iri c) /\ (iri' <> iri -> forall k, registered w' iri' k <-> registered w iri' k).
Proof.
  intros w w' iri c iri' E. split.
  - exists [], (w_reg w). split; [exact E|]. intros k [].
  - intros N k. assert (X : forall v i k, registered v i k <-> reg_type (w_reg v) (Iri i) = Some k).
    { intros v i k0. rewrite reg_type_registered. split; [eauto|]. intros (j & [= <-] & H). exact H. }
    rewrite !X, E. cbn [reg_type]. destruct (term_eq_dec (Iri iri') (Iri iri)) as [Q|Q]; [congruence|reflexivity].
Qed.
Lemma register_same : forall w t b w', register_class w t b = (w', Ok tt) ->
  length (w_classes w') = length (w_classes w) /\ (forall k, k <> b -> class_at w' k = class_at w k) /\ w_gp w' = w_gp w.
Proof.
  intros w t b w' H. unfold register_class in H. destruct (resolve w b t) as [[i|]|e]; try discriminate. injection H as <-. repeat split.
  - cbn. apply length_upd.
  - intros k N. unfold set_rdf, class_at at 1. cbn [w_classes set_reg]. rewrite nth_upd_other by auto. reflexivity.
Qed.
(** after register_class *)
Lemma register_plain : forall w b m t ns, plain_class w b m -> t <> [] -> sget (w_gp w) (s2l "skos") = Some ns ->
  exists w', register_class w (s2l "skos:" ++ t) b = (w', Ok tt) /\ w_reg w' = (KType (ns ++ t), b) :: w_reg w /\ w_gp w' = w_gp w /\ w_gt w' = w_gt w /\
    length (w_classes w') = length (w_classes w) /\ c_rdf (class_at w' b) = Some [Iri (ns ++ t)] /\
    forall k, body (class_at w' k) = body (class_at w k) /\ (k <> b -> c_rdf (class_at w' k) = c_rdf (class_at w k)).
Proof.
  intros w b m t ns P NT G. unfold register_class. rewrite (skos_name _ _ _ _ P NT), G. eexists. split; [reflexivity|]. repeat split.
  - cbn. apply length_upd.
  - rewrite set_rdf_class by (destruct P as [V _]; exact V). destruct (Nat.eq_dec b b); [reflexivity|congruence].
  - rewrite set_rdf_class by (destruct P as [V _]; exact V). destruct (Nat.eq_dec b k); reflexivity.
  - intro N. rewrite set_rdf_class by (destruct P as [V _]; exact V). destruct (Nat.eq_dec b k); [congruence|reflexivity].
Qed.
Lemma plain_body : forall w w' b m, length (w_classes w) = length (w_classes w') -> body (class_at w' b) = body (class_at w b) -> plain_class w b m -> plain_class w' b m.
Proof.
  intros w w' b m L B (V & P & S & M). unfold body in B. injection B as B1 B2 _ B4. unfold plain_class, valid in *. rewrite <- L, B1, B2, B4. auto.
Qed.
Lemma plain_extends : forall w w' b m, extends w w' -> plain_class w b m -> plain_class w' b m.
Proof. intros w w' b m X (V & P & S & M). split; [exact (extends_valid _ _ _ X V)|]. destruct X as (_ & C & _). rewrite (C _ V). auto. Qed.
Lemma first_rdf : forall w c m ts, c_mro (class_at w c) = c :: m -> c_rdf (class_at w c) = Some ts -> rdf_classes_of w c = ts.
Proof. intros w c m ts M R. unfold rdf_classes_of. rewrite M. cbn [map first_some]. now rewrite R. Qed.
Lemma import_works : forall early w ns, wreach_if early w -> lookup (w_gp w) (s2l "skos") ns ->
  exists w' b c s, import_skos w = (w', Ok (b, c, s)) /\
    (forall t k, registered w' t k <-> (t = ns ++ s2l "ConceptScheme" /\ k = s) \/ (t = ns ++ s2l "Concept" /\ k = c) \/
       (t <> ns ++ s2l "ConceptScheme" /\ t <> ns ++ s2l "Concept" /\ registered w t k)) /\
    rdf_classes_of w' c = [Iri (ns ++ s2l "Concept")] /\ rdf_classes_of w' s = [Iri (ns ++ s2l "ConceptScheme")] /\
    c_mro (class_at w' b) = [b; 0%nat] /\ c_mro (class_at w' c) = [c; b; 0%nat] /\ c_mro (class_at w' s) = [s; b; 0%nat] /\
    ~ valid w b /\ ~ valid w c /\ ~ valid w s /\ b <> c /\ b <> s /\ c <> s /\
    (forall k, valid w k -> class_at w' k = class_at w k) /\
    forall k, k = b \/ k = c \/ k = s -> valid w' k /\ (forall p, scalar w' k p <-> p = rdfs_ns ++ s2l "label") /\
      forall t, t <> [] -> key_means w' k (s2l "skos:" ++ t) (ns ++ t).
Proof.
  intros early w ns R U. pose proof (resource_plain _ _ R) as PC. pose proof (i_zero _ (wreach_if_inv _ _ R)) as L. apply sget_lookup in U.
  unfold import_skos, skos_class at 1. destruct (below w (s2l "SKOSResource") 0 [0%nat] PC) as (w1 & E1 & X1 & R1 & P1 & N1); [now left|exact L|]. rewrite E1.
  set (b := length (w_classes w)) in *.
  assert (B1 : valid w1 b) by apply P1.
  assert (L1 : (0 < length (w_classes w1))%nat) by (unfold valid in B1; lia).
  unfold skos_class at 1. destruct (below w1 (s2l "Concept") b _ P1) as (w2 & E2 & X2 & R2 & P2 & N2); [right; split; [reflexivity|lia]|exact L1|]. rewrite E2.
  set (c := length (w_classes w1)) in *.
  assert (G2 : sget (w_gp w2) (s2l "skos") = Some ns) by (destruct X2 as (_ & _ & _ & -> & _); destruct X1 as (_ & _ & _ & -> & _); exact U).
  change (s2l "skos:Concept") with (s2l "skos:" ++ s2l "Concept").
  destruct (register_plain w2 c _ (s2l "Concept") ns P2) as (w3 & E3 & R3 & GP3 & GT3 & L3 & RC3 & K3); [discriminate|exact G2|]. rewrite E3.
  assert (P1' : plain_class w3 b [b; 0%nat]).
  { apply (plain_body w2); [congruence|apply K3|]. apply (plain_extends w1); assumption. }
  assert (L4 : (0 < length (w_classes w3))%nat) by (destruct P1' as [V _]; unfold valid in V; lia).
  unfold skos_class. destruct (below w3 (s2l "ConceptScheme") b _ P1') as (w4 & E4 & X4 & R4 & P4 & N4); [right; split; [reflexivity|lia]|exact L4|]. rewrite E4.
  set (s := length (w_classes w3)) in *.
  assert (G4 : sget (w_gp w4) (s2l "skos") = Some ns) by (destruct X4 as (_ & _ & _ & -> & _); now rewrite GP3).
  change (s2l "skos:ConceptScheme") with (s2l "skos:" ++ s2l "ConceptScheme").
  destruct (register_plain w4 s _ (s2l "ConceptScheme") ns P4) as (w5 & E5 & R5 & GP5 & GT5 & L5 & RC5 & K5); [discriminate|exact G4|]. rewrite E5.
  assert (C2 : valid w2 c) by apply P2.
  assert (C3 : valid w3 c) by (unfold valid in *; lia).
  assert (PB : plain_class w5 b [b; 0%nat]) by (apply (plain_body w4); [congruence|apply K5|]; now apply (plain_extends w3)).
  assert (PC5 : plain_class w5 c [c; b; 0%nat]).
  { apply (plain_body w4); [congruence|apply K5|]. apply (plain_extends w3); [assumption|]. apply (plain_body w2); [exact (eq_sym L3)|apply K3|exact P2]. }
  assert (PS5 : plain_class w5 s [s; b; 0%nat]) by (apply (plain_body w4); [congruence|apply K5|exact P4]).
  assert (BC : (b < c)%nat) by exact B1. assert (CS : (c < s)%nat) by exact C3.
  exists w5, b, c, s. split; [reflexivity|].
  assert (CD : ns ++ s2l "Concept" <> ns ++ s2l "ConceptScheme") by (intro Q; apply app_inv_head in Q; discriminate Q).
  assert (RG : forall t k, registered w5 t k <-> (t = ns ++ s2l "ConceptScheme" /\ k = s) \/ (t = ns ++ s2l "Concept" /\ k = c) \/
       (t <> ns ++ s2l "ConceptScheme" /\ t <> ns ++ s2l "Concept" /\ registered w t k)).
  { assert (X : forall v i k, registered v i k <-> reg_type (w_reg v) (Iri i) = Some k).
    { intros v i k0. rewrite reg_type_registered. split; [eauto|]. intros (j & [= <-] & H). exact H. }
    intros t k. rewrite !X, R5, R4, R3, R2, R1. cbn [reg_type].
    destruct (term_eq_dec (Iri t) (Iri (ns ++ s2l "ConceptScheme"))) as [Q|Q].
    - injection Q as ->. split; [intros [= <-]; auto|]. intros [[_ ->]|[[Z _]|[Z _]]]; [reflexivity|exfalso; exact (CD (eq_sym Z))|exfalso; now apply Z].
    - destruct (term_eq_dec (Iri t) (Iri (ns ++ s2l "Concept"))) as [Q'|Q'].
      + injection Q' as ->. split; [intros [= <-]; auto|]. intros [[Z _]|[[_ ->]|[_ [Z _]]]]; [exfalso; exact (CD Z)|reflexivity|exfalso; now apply Z].
      + assert (T1 : t <> ns ++ s2l "ConceptScheme") by congruence. assert (T2 : t <> ns ++ s2l "Concept") by congruence. tauto. }
  split; [exact RG|].
  assert (RC : c_rdf (class_at w5 c) = Some [Iri (ns ++ s2l "Concept")]).
  { rewrite (proj2 (K5 c)) by lia. destruct X4 as (_ & XC & _). rewrite (XC c C3). exact RC3. }
  destruct PB as (VB & PBp & PBs & PBm). destruct PC5 as (VC & PCp & PCs & PCm). destruct PS5 as (VS & PSp & PSs & PSm).
  split; [now apply (first_rdf _ _ [b; 0%nat])|]. split; [now apply (first_rdf _ _ [b; 0%nat])|].
  split; [exact PBm|]. split; [exact PCm|]. split; [exact PSm|].
  split; [unfold valid; lia|]. split; [unfold valid; lia|]. split; [unfold valid; lia|]. split; [lia|]. split; [lia|]. split; [lia|].
  split.
  { intros k V. assert (KC : k <> c) by (unfold valid in V; lia). assert (KS : k <> s) by (unfold valid in V; lia).
    assert (V1 : valid w1 k) by (exact (extends_valid _ _ _ X1 V)). assert (V2 : valid w2 k) by (exact (extends_valid _ _ _ X2 V1)).
    assert (V3 : valid w3 k) by (unfold valid in *; lia).
    rewrite (proj1 (proj2 (register_same _ _ _ _ E5)) k KS).
    destruct X4 as (_ & -> & _); [|exact V3].
    rewrite (proj1 (proj2 (register_same _ _ _ _ E3)) k KC).
    destruct X2 as (_ & -> & _); [|exact V1]. destruct X1 as (_ & -> & _); [reflexivity|exact V]. }
  assert (SC : forall k, c_scalars (class_at w5 k) = [label] -> forall p, scalar w5 k p <-> p = rdfs_ns ++ s2l "label").
  { intros k Q p. unfold scalar. rewrite Q. cbn. unfold label. split; [intros [<-|[]]; reflexivity|intros ->; now left]. }
  assert (KM : forall k m, plain_class w5 k m -> forall t, t <> [] -> key_means w5 k (s2l "skos:" ++ t) (ns ++ t)).
  { intros k m Q t NT. apply resolve_means. rewrite (skos_name _ _ _ _ Q NT), GP5, G4. reflexivity. }
  intros k [-> | [-> | ->]]; (split; [assumption|]); (split; [now apply SC|]).
  - apply (KM b [b; 0%nat]). repeat split; assumption.
  - apply (KM c [c; b; 0%nat]). repeat split; assumption.
  - apply (KM s [s; b; 0%nat]). repeat split; assumption.
Qed.
