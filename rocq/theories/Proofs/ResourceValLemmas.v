(** Resources as values (C90), their text (C91), object_of (C92). *)
From Coq Require Import Permutation.
From Verif Require Import Model.Py Model.Terms Model.Graph Model.GraphRun Model.Codec Model.Curie Model.Resource Model.ResourceRun Model.ResourceVal
  Spec.GraphSpec Spec.CurieSpec Spec.ResourceSpec Spec.ResourceValSpec
  Proofs.DictLemmas Proofs.GraphInv Proofs.GraphHist Proofs.CurieLemmas Proofs.LangLemmas Proofs.ResourceLemmas Proofs.ClassLemmas Proofs.ResourceRead Proofs.ResourceMore.
Open Scope N_scope.

(** ** comparison *)
Lemma term_dec_sym : forall a b, (if term_eq_dec a b then true else false) = (if term_eq_dec b a then true else false).
Proof. intros a b. destruct (term_eq_dec a b), (term_eq_dec b a); congruence. Qed.
Lemma py_eq_sym : forall a b, py_eq a b = py_eq b a.
Proof.
  intros a b. destruct a as [c g s|[x|i|v l d]|x|i], b as [c' g' s'|[y|j|v' l' d']|y|j]; unfold py_eq; cbn [eq_method res_eq identical];
    try apply str_eqb_sym; try apply term_dec_sym; try reflexivity.
  all: rewrite (N.eqb_sym j i); destruct (i =? j); reflexivity.
Qed.
Lemma py_ne_negb : forall a b, py_ne a b = negb (py_eq a b).
Proof.
  intros a b. unfold py_ne, py_eq.
  assert (M : forall x y, ne_method x y = option_map negb (eq_method x y)).
  { intros x y. destruct x; reflexivity. }
  rewrite !M. destruct (eq_method a b); [reflexivity|]. destruct (eq_method b a); reflexivity.
Qed.
Lemma res_res : forall c g s c' g' s', py_eq (PRes c g s) (PRes c' g' s') = true <-> s = s'.
Proof. intros. unfold py_eq. cbn [eq_method res_eq]. destruct (term_eq_dec s s'); split; congruence. Qed.
Lemma res_text : forall c g s x v, v = PStr x \/ v = PTerm (Iri x) ->
  (py_eq (PRes c g s) v = true <-> term_str s = x) /\ (py_eq v (PRes c g s) = true <-> term_str s = x).
Proof.
  intros c g s x v H. rewrite (py_eq_sym v). destruct H as [-> | ->]; unfold py_eq; cbn [eq_method res_eq]; rewrite str_eqb_spec; tauto.
Qed.
(** what a named value is compared by *)
Definition content (v : pv) : pv :=
  match v with PRes _ _ (Iri i) => PStr i | PTerm (Iri i) => PStr i | _ => v end.
Lemma named_eq : forall a b, named a -> named b -> (py_eq a b = true <-> content a = content b).
Proof.
  intros a b A B. destruct a as [c g s|[x|i|v l d]|x|i], b as [c' g' s'|[y|j|v' l' d']|y|j]; cbn [named] in A, B;
    try (match type of A with exists _, _ => destruct A as [ia ->] end); try (match type of B with exists _, _ => destruct B as [ib ->] end); unfold py_eq; cbn [eq_method res_eq identical content term_str];
    try (rewrite str_eqb_spec); try (split; [discriminate|congruence]); try (split; congruence).
  - destruct (term_eq_dec (Iri ia) (Iri ib)); split; congruence.
  - destruct (N.eqb_spec i j) as [->|N]; [tauto|]. destruct (N.eqb_spec j i); [congruence|]. split; congruence.
  - destruct (term_eq_dec (Lit v l d) (Lit v' l' d')); split; congruence.
  - destruct (N.eqb_spec i j) as [->|N]; [tauto|]. destruct (N.eqb_spec j i); [congruence|]. split; congruence.
Qed.
Lemma named_refl : forall a, named a -> py_eq a a = true.
Proof. intros a A. now apply named_eq. Qed.
Lemma named_trans : forall a b c, named a -> named b -> named c -> py_eq a b = true -> py_eq b c = true -> py_eq a c = true.
Proof. intros a b c A B C H K. apply named_eq in H; auto. apply named_eq in K; auto. apply named_eq; auto. congruence. Qed.
Lemma named_hash : forall hs hi ht a b, named a -> named b -> py_eq a b = true -> py_hash hs hi ht a = py_hash hs hi ht b.
Proof.
  intros hs hi ht a b A B H. apply named_eq in H; auto.
  assert (HC : forall v, named v -> py_hash hs hi ht v = py_hash hs hi ht (content v)).
  { intros [c g s|[x|i|v l d]|x|i] N; cbn [named] in N; try reflexivity. destruct N as [i ->]. reflexivity. }
  rewrite (HC a A), (HC b B). now rewrite H.
Qed.
Lemma res_hash : forall hs hi ht c g s c' g' s', py_eq (PRes c g s) (PRes c' g' s') = true ->
  py_hash hs hi ht (PRes c g s) = py_hash hs hi ht (PRes c' g' s').
Proof. intros hs hi ht c g s c' g' s' H. apply res_res in H. now subst. Qed.

(** ** sets of Resources *)
Section Sets.
  Variables (hs : str -> Z) (hi : N -> Z) (ht : str * option str * option str -> Z).
  Lemma set_of_snoc : forall l x, set_of hs hi ht (l ++ [x]) = set_add hs hi ht (set_of hs hi ht l) x.
  Proof. intros l x. unfold set_of. rewrite fold_left_app. reflexivity. Qed.
  Lemma rv_mem : forall l x, set_mem hs hi ht (map rv l) (rv x) = true <-> In (snd x) (map snd l).
  Proof.
    intros l x. unfold set_mem. rewrite existsb_exists. split.
    - intros (v & J & E). apply andb_true_iff in E. destruct E as [_ E]. apply in_map_iff in J. destruct J as (y & <- & J).
      apply res_res in E. rewrite <- E. now apply in_map.
    - intro J. apply in_map_iff in J. destruct J as (y & E & J). exists (rv y). split; [now apply in_map|].
      assert (Q : py_eq (rv y) (rv x) = true) by (now apply res_res). rewrite Q. unfold rv in Q |- *. rewrite (res_hash hs hi ht _ _ _ _ _ _ Q), Z.eqb_refl. reflexivity.
  Qed.
  Lemma set_of_resources : forall l, exists l', set_of hs hi ht (map rv l) = map rv l' /\ NoDup (map snd l') /\
    (forall s, In s (map snd l') <-> In s (map snd l)) /\
    forall x, In x l' <-> exists l1 l2, l = l1 ++ x :: l2 /\ ~ In (snd x) (map snd l1).
  Proof.
    induction l as [|x l IH] using rev_ind.
    - exists []. split; [reflexivity|]. split; [constructor|]. split; [tauto|]. intro x. split; [intros []|]. intros ([|a l1] & l2 & E & _); discriminate E.
    - destruct IH as (l' & E & ND & S & F). rewrite map_app. cbn [map]. rewrite set_of_snoc, E. unfold set_add.
      destruct (set_mem hs hi ht (map rv l') (rv x)) eqn:M.
      + apply rv_mem in M. exists l'. split; [reflexivity|]. split; [exact ND|]. split.
        * intro s. rewrite map_app, in_app_iff, <- S. cbn [map In]. split; [tauto|]. intros [J|[<-|[]]]; assumption.
        * intro y. rewrite F. split.
          -- intros (l1 & l2 & Q & N). exists l1, (l2 ++ [x]). split; [rewrite Q, <- app_assoc; reflexivity|exact N].
          -- intros (l1 & l2 & Q & N). destruct l2 as [|z l2] using rev_ind.
             ++ apply app_inj_tail in Q. destruct Q as [Q <-]. subst l1. exfalso. apply N. now apply S.
             ++ rewrite app_comm_cons, app_assoc in Q. apply app_inj_tail in Q. destruct Q as [Q _]. exists l1, l2. auto.
      + assert (NM : ~ In (snd x) (map snd l')) by (intro J; apply rv_mem in J; congruence).
        exists (l' ++ [x]). split; [now rewrite map_app|]. split; [rewrite map_app; cbn [map]; apply NoDup_app_intro;
          [exact ND|constructor; [intros []|constructor]|]; intros s J [<-|[]]; contradiction|]. split.
        * intro s. rewrite !map_app, !in_app_iff, S. tauto.
        * intro y. rewrite in_app_iff, F. split.
          -- intros [(l1 & l2 & -> & N)|[<-|[]]]; [exists l1, (l2 ++ [x]); split; [now rewrite <- app_assoc|exact N]|].
             exists l, []. split; [reflexivity|]. intro J. apply NM. now apply S.
          -- intros (l1 & l2 & Q & N). destruct l2 as [|z l2] using rev_ind.
             ++ apply app_inj_tail in Q. destruct Q as [_ <-]. right. now left.
             ++ rewrite app_comm_cons, app_assoc in Q. apply app_inj_tail in Q. destruct Q as [Q _]. left. exists l1, l2. auto.
  Qed.
End Sets.

(** ** text *)
Lemma print_resource : forall ord w c g s lab inst, reachable g -> honoured (Some s) -> lab <> [] -> key_means w c (s2l "rdfs:label") lab ->
  let sel := selected (g_iter g) s lab (scalar w c lab) (lang_of w c) inst (KName (s2l "rdfs:label")) in
  (~ scalar w c lab -> to_str ord w c g s = (w, Err AttributeError)) /\
  (scalar w c lab ->
    ((forall o, ~ sel o) -> to_str ord w c g s = (w, Ok (term_str s))) /\
    (forall v l d, sel (Lit v l d) -> (forall o, sel o -> o = Lit v l d) -> to_str ord w c g s = (w, Ok v)) /\
    (forall o, sel o -> node o -> (forall o', sel o' -> o' = o) ->
       exists w' e, to_str ord w c g s = (w', Err e) /\ forall k, snd (classify ord w c g o) = Ok k -> e = AttributeError) /\
    (forall o o', sel o -> sel o' -> o <> o' -> to_str ord w c g s = (w, Err ValueError))).
Proof.
  intros ord w c g s lab inst RG Hs Hp M sel.
  destruct (read_selection ord w c g s (KName (s2l "rdfs:label")) lab inst RG Hs Hp M eq_refl) as (os & _ & _ & NS & SC & _). fold sel in SC.
  assert (UF : ~ unfiltered (KName (s2l "rdfs:label"))) by (intros [t E]; discriminate E).
  unfold to_str. split.
  - intro H. rewrite NS by now left. reflexivity.
  - intro H. destruct (SC H UF) as (S0 & S1 & S2). split; [|split; [|split]].
    + intro Z. rewrite (S0 Z). reflexivity.
    + intros v l d S U. rewrite (S1 _ S U). reflexivity.
    + intros o S N U. rewrite (S1 _ S U). destruct (classify ord w c g o) as [w1 [v|e]] eqn:E; cbn [bind snd].
      * destruct v as [|t|k s'].
        -- exfalso. destruct o; cbn [classify] in E; try (destruct N; fail);
             (destruct (resolve w c (s2l "rdf:type")); [|discriminate]; cbv zeta in E;
              match type of E with context [match ?x with [] => _ | _ => _ end] => destruct x as [|k1 [|k2 ks]] end; try discriminate;
              destruct (reg_types _ _); try discriminate; destruct (make_class _ _ _ _ _ _ _) as [? [?|?]]; discriminate).
        -- exfalso. destruct o; cbn [classify] in E; try (destruct N; fail);
             (destruct (resolve w c (s2l "rdf:type")); [|discriminate]; cbv zeta in E;
              match type of E with context [match ?x with [] => _ | _ => _ end] => destruct x as [|k1 [|k2 ks]] end; try discriminate;
              destruct (reg_types _ _); try discriminate; destruct (make_class _ _ _ _ _ _ _) as [? [?|?]]; discriminate).
        -- eauto.
      * exists w1, e. split; [reflexivity|]. intros k Q. discriminate Q.
    + intros o o' A B N. rewrite (S2 o o' A B N). reflexivity.
Qed.

(** ** object_of, iteration *)
Lemma objects_of_lists : forall g s p (P : term -> Prop), reachable g -> honoured (Some s) -> honoured p -> (forall x, P x <-> agrees p x) ->
  lists (map (fun t => (st_s t, st_p t)) (g_match g None p (Some s))) (fun xp => P (snd xp) /\ In (Tr (fst xp) (snd xp) s) (g_iter g)).
Proof.
  intros g s p P RG Hs Hp PA. pose proof (reachable_wf _ RG) as W. eapply lists_map_inj; [apply g_match_lists; exact W| |].
  - intros [a1 a2 a3 a4] [b1 b2 b3 b4] [I (_ & _ & A)] [I' (_ & _ & A')] E. cbn in *.
    rewrite as_wildcard_honoured in A, A' by exact Hs. destruct A as [A|A], A' as [A'|A']; try discriminate.
    pose proof (wf_triples _ _ W I) as T. pose proof (wf_triples _ _ W I') as T'. unfold is_triple in *. cbn in *. congruence.
  - intros [x y]. cbn [fst snd]. split.
    + intros [HP I]. exists (Tr x y s). split; [|reflexivity]. split; [exact I|]. unfold fits. rewrite !as_wildcard_honoured by (assumption || discriminate).
      cbn. split; [now left|]. split; [now apply PA|now right].
    + intros ([a1 a2 a3 a4] & [I (_ & B & A)] & E). cbn in *. injection E as -> ->. rewrite as_wildcard_honoured in A by exact Hs. rewrite as_wildcard_honoured in B by exact Hp.
      split; [now apply PA|]. destruct A as [A|A]; [discriminate|]. pose proof (wf_triples _ _ W I) as T. unfold is_triple in T. cbn in T. subst. injection A as ->. exact I.
Qed.
Lemma classify_all_yields : forall ord c g l w w' vs r, winv w -> shuffle ord -> valid w c -> classify_all ord w c g (map fst l) = (w', (vs, r)) ->
  extends w w' /\ yielded l (combine vs (map snd l)) r /\ forall k s p, In (RRes k s, p) (combine vs (map snd l)) -> valid w' k.
Proof.
  intros ord c g. induction l as [|[x p] l IH]; intros w w' vs r I SH V H; cbn [map fst snd classify_all] in H.
  - injection H as <- <- <-. split; [apply extends_refl|]. split; [|intros k s p []]. exists [], []. split; [reflexivity|]. split; [constructor|]. now left.
  - destruct (classify ord w c g x) as [w1 [v|e]] eqn:E.
    + destruct (classify_all ord w1 c g (map fst l)) as [w2 [vs' r']] eqn:E2. injection H as <- <- <-.
      destruct (classify_spec _ _ _ _ _ _ _ I SH V E) as (I1 & X1 & _ & _ & C).
      destruct (IH _ _ _ _ I1 SH (extends_valid _ _ _ X1 V) E2) as (X2 & (l1 & l2 & -> & F & D) & K).
      split; [exact (extends_trans _ _ _ X1 X2)|]. split.
      * exists ((x, p) :: l1), l2. split; [reflexivity|]. split; [|exact D]. cbn [map combine snd]. constructor; [|exact F]. cbn [fst snd]. split; [|reflexivity].
        destruct v as [|t|k s]; cbn [shows]; [destruct C|tauto|tauto].
      * intros k s q J. cbn [map combine snd In] in J. destruct J as [J|J]; [|now apply (K k s q)].
        injection J as -> <-. apply (extends_valid w1); [exact X2|apply C].
    + injection H as <- <- <-. destruct (classify_spec _ _ _ _ _ _ _ I SH V E) as (_ & X1 & _ & _ & C & _). subst e.
      split; [exact X1|]. cbn [combine]. split; [|intros k s q []]. exists [], ((x, p) :: l). split; [reflexivity|]. split; [constructor|]. right. split; [discriminate|reflexivity].
Qed.
Lemma object_of_any : forall early ord w c g s w' ys r, wreach_if early w -> shuffle ord -> valid w c -> reachable g -> honoured (Some s) ->
  object_of_all ord w c g s None = (w', (ys, r)) ->
  exists l, lists l (fun xp => In (Tr (fst xp) (snd xp) s) (g_iter g)) /\ yielded l ys r /\
    (forall k x p, In (RRes k x, p) ys -> valid w' k) /\ forall k, valid w k -> class_at w' k = class_at w k.
Proof.
  intros early ord w c g s w' ys r R SH V RG Hs H. unfold object_of_all, object_of in H.
  destruct (classify_all _ _ _ _ _) as [w1 [vs x]] eqn:E. injection H as <- <- <-.
  destruct (classify_all_yields _ _ _ _ _ _ _ _ (wreach_if_inv _ _ R) SH V E) as (X & Y & K). eexists. split; [|split; [exact Y|split; [exact K|apply X]]].
  eapply lists_iff; [apply (objects_of_lists g s None (fun _ => True) RG Hs)|].
  - discriminate.
  - intro t. unfold agrees. tauto.
  - intros [a b]. cbn. tauto.
Qed.
Lemma object_of_key : forall early ord w c g s t p w' ys r, wreach_if early w -> shuffle ord -> valid w c -> reachable g -> honoured (Some s) ->
  p <> [] -> key_means w c t p -> object_of_all ord w c g s (Some t) = (w', (ys, r)) ->
  exists l, lists l (fun xp => snd xp = Iri p /\ In (Tr (fst xp) (snd xp) s) (g_iter g)) /\ yielded l ys r /\
    (forall k x p, In (RRes k x, p) ys -> valid w' k) /\ forall k, valid w k -> class_at w' k = class_at w k.
Proof.
  intros early ord w c g s t p w' ys r R SH V RG Hs Hp M H. unfold object_of_all, object_of in H. apply resolve_means in M. rewrite M in H. cbn [bind] in H.
  destruct (classify_all _ _ _ _ _) as [w1 [vs x]] eqn:E. injection H as <- <- <-.
  destruct (classify_all_yields _ _ _ _ _ _ _ _ (wreach_if_inv _ _ R) SH V E) as (X & Y & K). eexists. split; [|split; [exact Y|split; [exact K|apply X]]].
  apply (objects_of_lists g s (Resource.pred (Some p)) (fun x => x = Iri p) RG Hs).
  - unfold honoured, empty_iri. cbn. congruence.
  - intro y. unfold agrees. cbn. split; [intros ->; now right|]. intros [Q|Q]; congruence.
Qed.
Lemma object_of_bad : forall ord w c g s t, (forall p, ~ key_means w c t p) ->
  (t = [] -> object_of_all ord w c g s (Some t) = (w, ([], Err IndexError))) /\
  (In 58 t -> object_of_all ord w c g s (Some t) = (w, ([], Err ValueError))) /\
  (t <> [] -> ~ In 58 t -> object_of_all ord w c g s (Some t) = object_of_all ord w c g s None).
Proof.
  intros ord w c g s t N. unfold object_of_all, object_of. split; [|split].
  - intros ->. reflexivity.
  - intro J. assert (E : resolve w c t = Err ValueError) by (apply resolve_error; right; auto). rewrite E. reflexivity.
  - intros K J. assert (E : resolve w c t = Ok None) by (apply resolve_none; auto). rewrite E. reflexivity.
Qed.
Lemma iter_lists : forall g s, reachable g -> honoured (Some s) -> lists (iter g s) (fun po => In (Tr s (fst po) (snd po)) (g_iter g)).
Proof.
  intros g s RG Hs. pose proof (reachable_wf _ RG) as W. unfold iter. eapply lists_map_inj; [apply g_match_lists; exact W| |].
  - intros [a1 a2 a3 a4] [b1 b2 b3 b4] [I (A & _)] [I' (A' & _)] E. cbn in *.
    rewrite as_wildcard_honoured in A, A' by exact Hs. destruct A as [A|A], A' as [A'|A']; try discriminate.
    pose proof (wf_triples _ _ W I) as T. pose proof (wf_triples _ _ W I') as T'. unfold is_triple in *. cbn in *. congruence.
  - intros [x y]. cbn [fst snd]. split.
    + intro I. exists (Tr s x y). split; [|reflexivity]. split; [exact I|]. unfold fits. rewrite !as_wildcard_honoured by (assumption || discriminate).
      cbn. split; [now right|]. split; now left.
    + intros ([a1 a2 a3 a4] & [I (A & _)] & E). cbn in *. injection E as -> ->. rewrite as_wildcard_honoured in A by exact Hs.
      destruct A as [A|A]; [discriminate|]. pose proof (wf_triples _ _ W I) as T. unfold is_triple in T. cbn in T. subst. injection A as ->. exact I.
Qed.

(** ** The classes of what object_of yields *)
Lemma instance_extends : forall w w1 g tp k o, winv w -> extends w w1 -> wf g -> honoured (Some o) -> tp <> [] ->
  (instance w1 (g_triples g) tp k o <-> instance w (g_triples g) tp k o).
Proof.
  intros w w1 g tp k o I X1 W Ho Ht. split; intros INS; pose proof INS as [No _].
  - apply instance_types in INS; [|exact W|exact Ho|exact Ht|exact No]. apply instance_types; [exact W|exact Ho|exact Ht|exact No|].
    destruct INS as [->|(t' & kc & Jt & Et & K')]; [now left|right]. exists t', kc.
    destruct X1 as (_ & XC & XR & _). rewrite XR in Et. split; [exact Jt|]. split; [exact Et|].
    unfold own_mro in *. rewrite XC in K' by exact (reg_type_valid _ _ _ I Et). exact K'.
  - apply instance_types in INS; [|exact W|exact Ho|exact Ht|exact No]. apply instance_types; [exact W|exact Ho|exact Ht|exact No|].
    destruct INS as [->|(t' & kc & Jt & Et & K')]; [now left|right]. exists t', kc.
    destruct X1 as (_ & XC & XR & _). rewrite XR. split; [exact Jt|]. split; [exact Et|].
    unfold own_mro in *. rewrite XC by exact (reg_type_valid _ _ _ I Et). exact K'.
Qed.
Lemma classify_all_classes : forall ord c g tp, shuffle ord -> wf g -> tp <> [] -> forall l w w' vs r,
  winv w -> cached w -> valid w c -> resolve w c (s2l "rdf:type") = Ok (Some tp) -> classify_all ord w c g l = (w', (vs, r)) ->
  extends w w' /\ forall k x, In (RRes k x) vs -> honoured (Some x) -> valid w' k /\ forall j, written w j -> (In j (c_mro (class_at w' k)) <-> instance w (g_triples g) tp j x).
Proof.
  intros ord c g tp SH W Ht. induction l as [|o l IH]; intros w w' vs r I C V R H; cbn [classify_all] in H.
  - injection H as <- <- <-. split; [apply extends_refl|]. intros k x [].
  - destruct (classify ord w c g o) as [w1 [v|e]] eqn:E.
    + destruct (classify_all ord w1 c g l) as [w2 [vs' r']] eqn:E2. injection H as <- <- <-.
      destruct (classify_spec _ _ _ _ _ _ _ I SH V E) as (I1 & X1 & S1 & C1 & P).
      assert (R1 : resolve w1 c (s2l "rdf:type") = Ok (Some tp)) by (rewrite (resolve_extends _ _ _ _ X1 V); exact R).
      destruct (IH _ _ _ _ I1 (C1 C) (extends_valid _ _ _ X1 V) R1 E2) as (X2 & K).
      split; [exact (extends_trans _ _ _ X1 X2)|]. intros k x [J|J] Hx.
      * subst v. destruct P as (-> & N & VK & P). split; [exact (extends_valid _ _ _ X2 VK)|]. intros j WJ. specialize (P C tp R j WJ). rewrite <- instance_types; [|exact W|exact Hx|exact Ht|exact N].
        rewrite <- P. unfold own_mro. assert (EX := proj1 (proj2 X2) k VK). rewrite EX. tauto.
      * destruct (K k x J Hx) as [VK K']. split; [exact VK|]. intros j WJ. rewrite (K' j (written_step _ _ _ X1 S1 WJ)). apply instance_extends; auto.
    + injection H as <- <- <-. destruct (classify_spec _ _ _ _ _ _ _ I SH V E) as (_ & X1 & _ & _ & C' & _). split; [exact X1|]. intros k x [].
Qed.
Lemma classify_all_single : forall ord c g tp, shuffle ord -> wf g -> forall l w, winv w -> valid w c -> key_means w c (s2l "rdf:type") tp ->
  (forall o, In o l -> node o -> honoured (Some o) /\ single w (g_iter g) tp o) ->
  exists vs, classify_all ord w c g l = (w, (vs, Ok tt)) /\ forall k x, In (RRes k x) vs ->
    (forall t j, has_type (g_iter g) tp x t -> registered w t j -> k = j) /\ ((forall t j, has_type (g_iter g) tp x t -> ~ registered w t j) -> k = 0%nat).
Proof.
  intros ord c g tp SH W l w I V MT. induction l as [|o l IH]; intro H; cbn [classify_all].
  - eexists. split; [reflexivity|]. intros k x [].
  - destruct IH as (vs & E & K); [intros x J; apply H; now right|]. destruct o as [u|a|v m d].
    + destruct (H (Iri u) (or_introl eq_refl)) as [Ho S]; [exact Logic.I|]. destruct (classify_single ord w c g (Iri u) tp W I SH V MT Logic.I Ho S) as (A & B & k' & C). rewrite C, E.
      eexists. split; [reflexivity|]. intros k x [J|J]; [|now apply K]. injection J as <- <-. split.
      * intros t j T G. rewrite (B t j T G) in C. now injection C.
      * intro N. rewrite (A N) in C. now injection C.
    + destruct (H (BNode a) (or_introl eq_refl)) as [Ho S]; [exact Logic.I|]. destruct (classify_single ord w c g (BNode a) tp W I SH V MT Logic.I Ho S) as (A & B & k' & C). rewrite C, E.
      eexists. split; [reflexivity|]. intros k x [J|J]; [|now apply K]. injection J as <- <-. split.
      * intros t j T G. rewrite (B t j T G) in C. now injection C.
      * intro N. rewrite (A N) in C. now injection C.
    + cbn [classify]. rewrite E. eexists. split; [reflexivity|]. intros k x [J|J]; [discriminate|now apply K].
Qed.
Lemma object_of_classes : forall ord w c g s pr w' ys r tp, wreach w -> shuffle ord -> valid w c -> reachable g -> key_means w c (s2l "rdf:type") tp ->
  object_of_all ord w c g s pr = (w', (ys, r)) -> forall k x p, In (RRes k x, p) ys -> honoured (Some x) ->
  forall j, written w j -> (In j (c_mro (class_at w' k)) <-> instance w (g_iter g) tp j x).
Proof.
  intros ord w c g s pr w' ys r tp WR SH V RG MT H k x p J Hx j WJ. pose proof (wreach_if_inv _ _ WR) as I. destruct (rdf_type_means _ _ _ I V MT) as [RT NT].
  unfold object_of_all in H. destruct (object_of w c g s pr) as [l|e]; [|injection H as <- <- <-; destruct J].
  destruct (classify_all ord w c g (map fst l)) as [w1 [vs y]] eqn:E. injection H as <- <- <-. apply in_combine_l in J.
  destruct (classify_all_classes ord c g tp SH (reachable_wf _ RG) NT _ _ _ _ _ I (wreach_cached _ WR) V RT E) as [_ K]. exact (proj2 (K k x J Hx) j WJ).
Qed.
Lemma object_of_single : forall early ord w c g s pr l tp, wreach_if early w -> shuffle ord -> valid w c -> reachable g -> key_means w c (s2l "rdf:type") tp ->
  object_of w c g s pr = Ok l -> (forall x p, In (x, p) l -> node x -> honoured (Some x) /\ single w (g_iter g) tp x) ->
  exists ys, object_of_all ord w c g s pr = (w, (ys, Ok tt)) /\ forall k x p, In (RRes k x, p) ys ->
    (forall t j, has_type (g_iter g) tp x t -> registered w t j -> k = j) /\ ((forall t j, has_type (g_iter g) tp x t -> ~ registered w t j) -> k = 0%nat).
Proof.
  intros early ord w c g s pr l tp WR SH V RG MT E H. unfold object_of_all. rewrite E.
  destruct (classify_all_single ord c g tp SH (reachable_wf _ RG) (map fst l) w (wreach_if_inv _ _ WR) V MT) as (vs & Q & K).
  - intros o J. apply in_map_iff in J. destruct J as ([x p] & <- & J). now apply (H x p).
  - rewrite Q. eexists. split; [reflexivity|]. intros k x p J. apply in_combine_l in J. now apply K.
Qed.
Lemma object_of_unmixed : forall early ord w c g s pr tp, wreach_if early w -> shuffle ord -> valid w c -> reachable g -> honoured (Some s) -> key_means w c (s2l "rdf:type") tp ->
  (pr = None \/ exists t p, pr = Some t /\ p <> [] /\ key_means w c t p) ->
  (forall x p, In (Tr x p s) (g_iter g) -> node x -> honoured (Some x) /\ single w (g_iter g) tp x) ->
  exists ys, object_of_all ord w c g s pr = (w, (ys, Ok tt)) /\ forall k x p, In (RRes k x, p) ys ->
    (forall t j, has_type (g_iter g) tp x t -> registered w t j -> k = j) /\ ((forall t j, has_type (g_iter g) tp x t -> ~ registered w t j) -> k = 0%nat).
Proof.
  intros early ord w c g s pr tp WR SH V RG Hs MT [->|(t & p & -> & Hp & M)] H.
  - eapply object_of_single; eauto; [reflexivity|]. intros x q J.
    apply (objects_of_lists g s None (fun _ => True) RG Hs) in J; [cbn [fst snd] in J; destruct J as [_ J]; now apply (H x q)|discriminate|]. intro y. unfold agrees. tauto.
  - assert (M' := M). apply resolve_means in M'. eapply object_of_single; eauto; [unfold object_of; rewrite M'; reflexivity|]. intros x q J.
    apply (objects_of_lists g s (Resource.pred (Some p)) (fun x => x = Iri p) RG Hs) in J; [cbn [fst snd] in J; destruct J as [_ J]; now apply (H x q)| |].
    + unfold honoured, empty_iri. cbn. congruence.
    + intro y. unfold agrees. cbn. split; [intros ->; now right|]. intros [Q|Q]; congruence.
Qed.
