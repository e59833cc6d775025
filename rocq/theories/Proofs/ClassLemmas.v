(** MetaResource, classify and the registry. *)
From Coq Require Import Permutation.
From Verif Require Import Model.Py Model.Terms Model.Graph Model.GraphRun Model.Codec Model.Curie Model.Resource Model.ResourceRun
  Spec.GraphSpec Spec.CurieSpec Spec.ResourceSpec
  Proofs.DictLemmas Proofs.GraphInv Proofs.GraphHist Proofs.CurieLemmas Proofs.CurieMore Proofs.LangLemmas Proofs.ResourceLemmas.
Open Scope N_scope.

(** ** the method resolution order *)
Lemma c3_pick_in : forall seqs all h, c3_pick seqs all = Some h -> exists t, In (h :: t) seqs.
Proof.
  induction seqs as [|[|x s] seqs IH]; intros all h H; cbn [c3_pick] in H; [discriminate| |].
  - destruct (IH _ _ H) as (t & I). exists t. now right.
  - destruct (c3_good all x); [injection H as ->; exists s; now left|]. destruct (IH _ _ H) as (t & I). exists t. now right.
Qed.
Definition drop_head (h : nat) (s : list nat) : list nat :=
  match s with x :: r => if Nat.eqb x h then r else s | [] => [] end.
Lemma drop_heads_in : forall h seqs k, In k (concat seqs) -> k = h \/ In k (concat (map (drop_head h) seqs)).
Proof.
  intros h seqs k I. apply in_concat in I. destruct I as (s & Is & Ik).
  destruct s as [|x s]; [destruct Ik|]. destruct (Nat.eq_dec k h) as [E|N]; [now left|]. right.
  apply in_concat. exists (drop_head h (x :: s)). split; [now apply in_map|]. cbn [drop_head].
  destruct (Nat.eqb_spec x h) as [->|Nx]; [|exact Ik]. destruct Ik as [->|Ik]; [congruence|exact Ik].
Qed.
Lemma drop_heads_out : forall h seqs k, In k (concat (map (drop_head h) seqs)) -> In k (concat seqs).
Proof.
  intros h seqs k I. apply in_concat in I. destruct I as (s & Is & Ik). apply in_map_iff in Is.
  destruct Is as (u & <- & Iu). apply in_concat. exists u. split; [exact Iu|].
  destruct u as [|x u]; [exact Ik|]. cbn [drop_head] in Ik. destruct (Nat.eqb x h); [now right|exact Ik].
Qed.
Lemma c3_merge_elems : forall fuel seqs l, c3_merge fuel seqs = Some l -> forall k, In k l <-> In k (concat seqs).
Proof.
  induction fuel as [|fuel IH]; intros seqs l H k; cbn [c3_merge] in H; [discriminate|].
  destruct (forallb _ seqs) eqn:F.
  - injection H as <-. split; [intros []|]. intro I. apply in_concat in I. destruct I as (s & Is & Ik).
    rewrite forallb_forall in F. specialize (F s Is). destruct s; [destruct Ik|discriminate].
  - destruct (c3_pick seqs seqs) as [h|] eqn:P; [|discriminate].
    fold (drop_head h) in H. destruct (c3_merge fuel (map (drop_head h) seqs)) as [l'|] eqn:M; [|discriminate].
    cbn in H. injection H as <-. cbn [In]. rewrite (IH _ _ M k). split.
    + intros [<-|I]; [|now apply drop_heads_out in I].
      destruct (c3_pick_in _ _ _ P) as (t & I). apply in_concat. exists (h :: t). split; [exact I|now left].
    + intro I. destruct (drop_heads_in h _ _ I) as [->|J]; auto.
Qed.
Lemma mro_elems : forall w me bases l, mro_of w me bases = Some l ->
  forall k, In k l <-> k = me \/ In k bases \/ exists b, In b bases /\ In k (c_mro (class_at w b)).
Proof.
  intros w me bases l H k. unfold mro_of in H. destruct (_ =? _)%nat; [|discriminate].
  destruct (c3_merge _ _) as [l'|] eqn:M; [|discriminate]. cbn in H. injection H as <-. cbn [In].
  rewrite (c3_merge_elems _ _ _ M), concat_app, in_app_iff. cbn [concat]. rewrite app_nil_r. split.
  - intros [->|[I|I]]; auto. apply in_concat in I. destruct I as (s & Is & Ik). apply in_map_iff in Is. destruct Is as (b & <- & Ib). eauto.
  - intros [->|[I|(b & Ib & Ik)]]; auto. right. left. apply in_concat. exists (c_mro (class_at w b)). split; [|exact Ik].
    apply in_map_iff. eauto.
Qed.
(** the bound on the number of rounds is never what stops it *)
Lemma length_drop : forall h seqs, (length (concat (map (drop_head h) seqs)) <= length (concat seqs))%nat.
Proof.
  intros h. induction seqs as [|[|x s] seqs IH]; cbn [map concat drop_head]; [lia|exact IH|].
  rewrite !app_length. destruct (Nat.eqb x h); cbn [length]; lia.
Qed.
Lemma length_drop_lt : forall h t seqs, In (h :: t) seqs -> (length (concat (map (drop_head h) seqs)) < length (concat seqs))%nat.
Proof.
  intros h t. induction seqs as [|s seqs IH]; intros I; [destruct I|]. destruct I as [->|I]; cbn [map concat].
  - cbn [drop_head]. rewrite Nat.eqb_refl, !app_length. pose proof (length_drop h seqs). cbn [length]. lia.
  - rewrite !app_length. specialize (IH I). assert (length (drop_head h s) <= length s)%nat; [|lia].
    destruct s as [|x s]; cbn [drop_head]; [lia|]. destruct (Nat.eqb x h); cbn [length]; lia.
Qed.
Lemma c3_fuel : forall n m seqs, (length (concat seqs) < n)%nat -> (length (concat seqs) < m)%nat -> c3_merge n seqs = c3_merge m seqs.
Proof.
  induction n as [|n IH]; intros [|m] seqs Hn Hm; try lia. cbn [c3_merge].
  destruct (forallb _ seqs); [reflexivity|]. destruct (c3_pick seqs seqs) as [h|] eqn:P; [|reflexivity].
  fold (drop_head h). destruct (c3_pick_in _ _ _ P) as (t & I). pose proof (length_drop_lt _ _ _ I). f_equal. apply IH; lia.
Qed.

(** ** the invariant *)
Definition own_mro (w : world) (c : nat) : list nat := c_mro (class_at w c).
Definition cache_ok (w : world) (us : list term) (k : nat) : Prop :=
  forall j, In j (own_mro w k) <-> j = k \/ exists t kc, In t us /\ reg_type (w_reg w) t = Some kc /\ In j (own_mro w kc).
Record winv (w : world) : Prop := mkInv {
  i_zero : (0 < length (w_classes w))%nat;
  i_mro0 : own_mro w 0 = [0%nat];
  i_self : forall c, valid w c -> In c (own_mro w c);
  i_top : forall c, valid w c -> In 0%nat (own_mro w c);
  i_below : forall c j, valid w c -> In j (own_mro w c) -> valid w j;
  i_rdf : forall c, valid w c -> exists ns, sget (c_prefixes (class_at w c)) (s2l "rdf") = Some ns;
  i_regv : forall e k, In (e, k) (w_reg w) -> valid w k
}.
Definition cached (w : world) : Prop := forall us k, In (KTypes us, k) (w_reg w) -> cache_ok w us k.

Lemma class_at_old : forall cs c w reg gp gt reg' gp' gt' x, w = mkW cs reg gp gt -> valid w c ->
  class_at (mkW (cs ++ [x]) reg' gp' gt') c = class_at w c.
Proof. intros cs c w reg gp gt reg' gp' gt' x -> V. unfold class_at. cbn. apply app_nth1. exact V. Qed.
Lemma reg_type_valid : forall w t k, winv w -> reg_type (w_reg w) t = Some k -> valid w k.
Proof.
  intros w t k I. assert (H : forall r, incl r (w_reg w) -> reg_type r t = Some k -> valid w k).
  { induction r as [|[[iri|us] c] r IH]; intros L E; cbn [reg_type] in E; [discriminate| |].
    - destruct (term_eq_dec t (Iri iri)); [injection E as ->; eapply i_regv; [exact I|apply L; now left]|].
      apply IH; [intros x X; apply L; now right|exact E].
    - apply IH; [intros x X; apply L; now right|exact E]. }
  apply H. intros x X. exact X.
Qed.
Lemma reg_type_registered : forall w t k, reg_type (w_reg w) t = Some k <-> exists iri, t = Iri iri /\ registered w iri k.
Proof.
  intros w t k. unfold registered. induction (w_reg w) as [|[[iri|us] c] r IH]; cbn [reg_type].
  - split; [discriminate|]. intros (iri & _ & r1 & r2 & E & _). destruct r1; discriminate.
  - destruct (term_eq_dec t (Iri iri)) as [->|N].
    + split.
      * intros [= ->]. exists iri. split; [reflexivity|]. exists [], r. split; [reflexivity|]. intros k' [].
      * intros (iri' & [= <-] & r1 & r2 & E & F). destruct r1 as [|e r1]; cbn in E; inversion E; subst; [reflexivity|].
        exfalso. apply (F c). now left.
    + rewrite IH. split.
      * intros (i & -> & r1 & r2 & -> & F). exists i. split; [reflexivity|]. exists ((KType iri, c) :: r1), r2. split; [reflexivity|].
        intros k' [X|X]; [inversion X; subst; now apply N|]. now apply (F k').
      * intros (i & -> & r1 & r2 & E & F). exists i. split; [reflexivity|].
        destruct r1 as [|e r1]; cbn in E; inversion E; subst; [congruence|]. exists r1, r2. split; [reflexivity|].
        intros k' X. apply (F k'). now right.
  - rewrite IH. split.
    + intros (i & -> & r1 & r2 & -> & F). exists i. split; [reflexivity|]. exists ((KTypes us, c) :: r1), r2. split; [reflexivity|].
      intros k' [X|X]; [discriminate|]. now apply (F k').
    + intros (i & -> & r1 & r2 & E & F). exists i. split; [reflexivity|].
      destruct r1 as [|e r1]; cbn in E; inversion E; subst. exists r1, r2. split; [reflexivity|].
      intros k' X. apply (F k'). now right.
Qed.

(** ** make_class *)
Definition extends (w w' : world) : Prop :=
  (length (w_classes w) <= length (w_classes w'))%nat /\
  (forall c, valid w c -> class_at w' c = class_at w c) /\
  (forall t, reg_type (w_reg w') t = reg_type (w_reg w) t) /\
  w_gp w' = w_gp w /\ w_gt w' = w_gt w.
Lemma extends_refl : forall w, extends w w.
Proof. intro w. repeat split; auto. Qed.
Lemma extends_trans : forall a b c, extends a b -> extends b c -> extends a c.
Proof.
  intros a b c (L1 & C1 & R1 & G1 & T1) (L2 & C2 & R2 & G2 & T2). split; [lia|]. split.
  - intros k V. rewrite C2, C1; auto. unfold valid in *. lia.
  - split; [intro t; now rewrite R2|]. split; congruence.
Qed.
Lemma extends_valid : forall w w' c, extends w w' -> valid w c -> valid w' c.
Proof. intros w w' c (L & _) V. unfold valid in *. lia. Qed.

Lemma make_class_spec : forall w name bases own scalars lang rdfs w' r,
  make_class w name bases own scalars lang rdfs = (w', r) ->
  match r with
  | Err e => w' = w
  | Ok me =>
      me = length (w_classes w) /\
      exists c, w' = mkW (w_classes w ++ [c]) (w_reg w) (w_gp w) (w_gt w) /\
        c_name c = name /\ c_prefixes c = dupdate str_eq_dec (base_prefixes w bases) own /\ c_lang c = lang /\ c_rdf c = rdfs /\
        mro_of w me bases = Some (c_mro c)
  end.
Proof.
  intros w name bases own scalars lang rdfs w' r H. unfold make_class in H. cbv zeta in H.
  destruct (parse_scalars _ _) as [ss|e]; [|now inversion H; subst].
  destruct (mro_of _ _ _) as [mro|] eqn:M; [|now inversion H; subst].
  inversion H; subst. split; [reflexivity|]. eexists. split; [reflexivity|]. cbn. auto.
Qed.
Lemma class_at_new : forall cs x reg gp gt, class_at (mkW (cs ++ [x]) reg gp gt) (length cs) = x.
Proof. intros. unfold class_at. cbn. rewrite app_nth2, Nat.sub_diag; [reflexivity|lia]. Qed.
Lemma valid_new : forall w x reg gp gt c, valid (mkW (w_classes w ++ [x]) reg gp gt) c <-> valid w c \/ c = length (w_classes w).
Proof. intros. unfold valid. cbn. rewrite app_length. cbn. lia. Qed.

Lemma dget_dset_some : forall (m : dict str str) k v k', (exists x, sget m k' = Some x) -> exists x, sget (sset m k v) k' = Some x.
Proof. intros m k v k' (x & H). rewrite dget_dset. destruct (str_eq_dec k k'); eauto. Qed.
Lemma dupdate_some : forall (o m : dict str str) k, (exists x, sget m k = Some x) -> exists x, sget (dupdate str_eq_dec m o) k = Some x.
Proof.
  unfold dupdate. induction o as [|[k v] o IH]; intros m k' H; cbn [fold_left fst snd]; [exact H|]. apply IH. now apply dget_dset_some.
Qed.
Lemma dupdate_some_r : forall (o m : dict str str) k, (exists x, sget o k = Some x) -> exists x, sget (dupdate str_eq_dec m o) k = Some x.
Proof.
  unfold dupdate. induction o as [|[k v] o IH]; intros m k' (x & H); cbn [dget] in H; [discriminate|]. cbn [fold_left fst snd].
  destruct (str_eq_dec k' k) as [->|N].
  - apply (dupdate_some o). rewrite dget_dset. destruct (str_eq_dec k k); [eauto|congruence].
  - apply IH. eauto.
Qed.
Lemma base_prefixes_some : forall w bases k, (exists b, In b bases /\ exists x, sget (c_prefixes (class_at w b)) k = Some x) ->
  exists x, sget (base_prefixes w bases) k = Some x.
Proof.
  intros w bases k. unfold base_prefixes. generalize (@nil (str * str)) as acc.
  induction bases as [|b bases IH]; intros acc (b' & I & H); [destruct I|]. cbn [fold_left]. destruct I as [->|I].
  - assert (G : forall bs acc', (exists x, sget acc' k = Some x) ->
      exists x, sget (fold_left (fun a b0 => dupdate str_eq_dec a (c_prefixes (class_at w b0))) bs acc') k = Some x).
    { induction bs as [|y bs IHb]; intros acc' HA; [exact HA|]. cbn [fold_left]. apply IHb. now apply dupdate_some. }
    apply G. now apply dupdate_some_r.
  - apply IH. eauto.
Qed.

Lemma make_class_extends : forall w name bases own scalars lang rdfs w' r,
  make_class w name bases own scalars lang rdfs = (w', r) -> extends w w'.
Proof.
  intros w name bases own scalars lang rdfs w' r H. apply make_class_spec in H. destruct r as [me|e]; [|subst; apply extends_refl].
  destruct H as (-> & c & -> & _). split; [cbn; rewrite app_length; lia|]. split; [|repeat split; reflexivity].
  intros k V. unfold class_at. cbn. now apply app_nth1.
Qed.
Lemma make_class_inv : forall w name bases own scalars lang rdfs w' r, winv w -> bases <> [] -> Forall (valid w) bases ->
  make_class w name bases own scalars lang rdfs = (w', r) -> winv w' /\ w_reg w' = w_reg w /\
  (forall me, r = Ok me -> valid w' me /\ ~ valid w me /\
     forall j, In j (own_mro w' me) <-> j = me \/ exists b, In b bases /\ In j (own_mro w b)).
Proof.
  intros w name bases own scalars lang rdfs w' r I NE VB H. pose proof (make_class_extends _ _ _ _ _ _ _ _ _ H) as X.
  apply make_class_spec in H. destruct r as [me|e]; [|subst; split; [exact I|split; [reflexivity|discriminate]]].
  destruct H as (-> & c & -> & _ & P & _ & _ & M). set (me := length (w_classes w)) in *.
  rewrite Forall_forall in VB.
  assert (ME : forall j, In j (c_mro c) <-> j = me \/ exists b, In b bases /\ In j (own_mro w b)).
  { intro j. rewrite (mro_elems _ _ _ _ M). split.
    - intros [->|[B|B]]; auto. right. exists j. split; [exact B|]. apply (i_self _ I). now apply VB.
    - intros [->|B]; auto. }
  destruct X as (XL & XC & _). cbn [w_classes] in *.
  assert (OLD : forall k, valid w k -> own_mro (mkW (w_classes w ++ [c]) (w_reg w) (w_gp w) (w_gt w)) k = own_mro w k).
  { intros k V. unfold own_mro. now rewrite XC. }
  assert (NEW : own_mro (mkW (w_classes w ++ [c]) (w_reg w) (w_gp w) (w_gt w)) me = c_mro c).
  { unfold own_mro, me. now rewrite class_at_new. }
  pose proof (i_zero _ I) as Z.
  split; [|split; [reflexivity|]].
  - constructor.
    + cbn. lia.
    + rewrite OLD by exact Z. apply (i_mro0 _ I).
    + intros k V. apply valid_new in V. destruct V as [V| ->]; [rewrite OLD by exact V; now apply (i_self _ I)|].
      fold me. rewrite NEW. apply ME. now left.
    + intros k V. apply valid_new in V. destruct V as [V| ->]; [rewrite OLD by exact V; now apply (i_top _ I)|].
      fold me. rewrite NEW. apply ME. right. destruct bases as [|b bases]; [congruence|]. exists b. split; [now left|].
      apply (i_top _ I). apply VB. now left.
    + intros k j V J. apply valid_new. apply valid_new in V. destruct V as [V| ->].
      * left. rewrite OLD in J by exact V. exact (i_below _ I _ _ V J).
      * fold me in J. rewrite NEW in J. apply ME in J. destruct J as [->|(b & B & J)]; [now right|]. left. exact (i_below _ I _ _ (VB _ B) J).
    + intros k V. apply valid_new in V. destruct V as [V| ->]; [rewrite XC by exact V; now apply (i_rdf _ I)|].
      rewrite class_at_new, P. apply dupdate_some. apply base_prefixes_some. destruct bases as [|b bases]; [congruence|].
      exists b. split; [now left|]. apply (i_rdf _ I). apply VB. now left.
    + intros e k J. apply valid_new. left. exact (i_regv _ I _ _ J).
  - intros me' [= <-]. split; [apply valid_new; now right|]. split; [unfold valid, me; lia|].
    intro j. fold me. rewrite NEW. apply ME.
Qed.

(** ** classify *)
Lemma resolve_rdf : forall w c ch t, winv w -> valid w c -> exists ns, resolve w c (s2l "rdf:" ++ ch :: t) = Ok (Some (ns ++ ch :: t)) /\
  sget (c_prefixes (class_at w c)) (s2l "rdf") = Some ns.
Proof.
  intros w c ch t I V. destruct (i_rdf _ I _ V) as (ns & E). exists ns. split; [|exact E]. unfold resolve.
  assert (P : parse_curie (s2l "rdf:" ++ ch :: t) (c_prefixes (class_at w c)) = Ok (ns ++ ch :: t)).
  { apply parse_curie_ok. apply (MeansPlain _ _ _ _ (s2l "rdf") (ch :: t)).
    - intros i X. discriminate X.
    - discriminate.
    - split; [vm_compute; intros X; repeat (destruct X as [X|X]; [discriminate|]); exact X|]. left. reflexivity.
    - vm_compute. intro X. repeat (destruct X as [X|X]; [discriminate|]). exact X.
    - apply (MeansPrefix _ _ _ (s2l "rdf") (ch :: t) ns).
      + split; [vm_compute; intros X; repeat (destruct X as [X|X]; [discriminate|]); exact X|]. left. reflexivity.
      + left. discriminate.
      + now apply sget_lookup.
      + reflexivity. }
  now rewrite P.
Qed.

Lemma same_set_spec : forall a b, same_set a b = true <-> forall x, In x a <-> In x b.
Proof.
  intros a b. unfold same_set. rewrite andb_true_iff, !forallb_forall. split.
  - intros [H1 H2] x. split; intro I.
    + specialize (H1 x I). destruct (in_dec term_eq_dec x b); [assumption|discriminate].
    + specialize (H2 x I). destruct (in_dec term_eq_dec x a); [assumption|discriminate].
  - intro H. split; intros x I; destruct (in_dec _ _ _) as [J|J]; try reflexivity; exfalso; apply J; now apply H.
Qed.
Lemma reg_types_in : forall r ts k, reg_types r ts = Some k -> exists us, In (KTypes us, k) r /\ forall x, In x ts <-> In x us.
Proof.
  induction r as [|[[iri|us] c] r IH]; intros ts k H; cbn [reg_types] in H; [discriminate| |].
  - destruct (IH _ _ H) as (us & I & E). exists us. split; [now right|exact E].
  - destruct (same_set ts us) eqn:S.
    + injection H as ->. exists us. split; [now left|]. now apply same_set_spec.
    + destruct (IH _ _ H) as (us' & I & E). exists us'. split; [now right|exact E].
Qed.
Definition found (w : world) (ts : list term) : list nat :=
  flat_map (fun t => match reg_type (w_reg w) t with Some k => [k] | None => [] end) ts.
Lemma found_in : forall w ts k, In k (found w ts) <-> exists t, In t ts /\ reg_type (w_reg w) t = Some k.
Proof.
  intros w ts k. unfold found. rewrite in_flat_map. split; intros (t & I & H); exists t; (split; [exact I|]).
  - destruct (reg_type (w_reg w) t); [destruct H as [->|[]]; reflexivity|destruct H].
  - rewrite H. now left.
Qed.
Lemma parse_no_scalars : forall w name bases rdfs w' r, make_class w name bases [] [] None rdfs = (w', r) -> forall e, r = Err e -> e = TypeError.
Proof.
  intros w name bases rdfs w' r H e ->. unfold make_class in H. cbn [parse_scalars] in H.
  destruct (mro_of _ _ _); inversion H; reflexivity.
Qed.
Definition node_types (g : graph) (tp : str) (o : term) : list term := nodup term_eq_dec (objs g o (Some tp)).
Definition reg_step (w w' : world) : Prop :=
  w_reg w' = w_reg w \/ exists us k, w_reg w' = (KTypes us, k) :: w_reg w /\ ~ valid w k.

Lemma classify_spec : forall ord w c g o w' r, winv w -> shuffle ord -> valid w c -> classify ord w c g o = (w', r) ->
  winv w' /\ extends w w' /\ reg_step w w' /\ (cached w -> cached w') /\
  match r with
  | Err e => e = TypeError /\ w' = w /\ node o
  | Ok RNone => False
  | Ok (RLit t) => t = o /\ ~ node o /\ w' = w
  | Ok (RRes k s) => s = o /\ node o /\ valid w' k /\
      (cached w -> forall tp, resolve w c (s2l "rdf:type") = Ok (Some tp) -> forall j, written w j ->
        (In j (own_mro w' k) <-> j = 0%nat \/ exists t kc, In t (node_types g tp o) /\ reg_type (w_reg w) t = Some kc /\ In j (own_mro w kc)))
  end.
Proof.
  intros ord w c g o w' r I SH V H.
  assert (TRIV : winv w /\ extends w w /\ reg_step w w /\ (cached w -> cached w)).
  { split; [exact I|]. split; [apply extends_refl|]. split; [now left|auto]. }
  destruct (resolve_rdf w c 116 (s2l "ype") I V) as (ns & R & _). change (s2l "rdf:" ++ 116 :: s2l "ype") with (s2l "rdf:type") in R.
  set (tp := ns ++ 116 :: s2l "ype") in *.
  assert (C : forall o', node o' -> o' = o ->
     match found w (ord (node_types g tp o)) with
     | [] => (w, Ok (RRes O o))
     | [k] => (w, Ok (RRes k o))
     | _ => match reg_types (w_reg w) (node_types g tp o) with
            | Some k => (w, Ok (RRes k o))
            | None => match make_class w (concat (map (fun k => c_name (class_at w k)) (found w (ord (node_types g tp o))))) (found w (ord (node_types g tp o))) [] [] None (Some (node_types g tp o)) with
                      | (w1, Ok k) => (set_reg w1 (KTypes (node_types g tp o)) k, Ok (RRes k o))
                      | (w1, Err e) => (w1, Err e)
                      end
            end
     end = (w', r)).
  { intros o' N ->. unfold classify in H. destruct o as [x|a|v l d]; [| |destruct N]; rewrite R in H; exact H. }
  destruct o as [x|a|v l d]; [specialize (C (Iri x) Logic.I eq_refl)|specialize (C (BNode a) Logic.I eq_refl)|].
  3:{ cbn [classify] in H. inversion H; subst. destruct TRIV as (T1 & T2 & T3 & T4). repeat (split; [assumption|]). cbn. auto. }
  1: set (o := Iri x) in *. 2: set (o := BNode a) in *.
  all: assert (N : node o) by exact Logic.I; clear H; clearbody o.
  all: set (types := node_types g tp o) in *.
  all: assert (F : forall k, In k (found w (ord types)) <-> exists t, In t types /\ reg_type (w_reg w) t = Some k);
    [intro k; rewrite found_in; split; intros (t & J & E); exists t; (split; [|exact E]);
      [eapply Permutation_in; [apply SH|exact J]|eapply Permutation_in; [apply Permutation_sym, SH|exact J]]|].
  all: assert (FV : forall k, In k (found w (ord types)) -> valid w k) by (intros k J; apply F in J; destruct J as (t & _ & E); eapply reg_type_valid; eauto).
  all: destruct TRIV as (T1 & T2 & T3 & T4).
  all: assert (TPU : forall tp', resolve w c (s2l "rdf:type") = Ok (Some tp') -> node_types g tp' o = types) by (intros tp' E; rewrite R in E; injection E as <-; reflexivity).
  all: destruct (found w (ord types)) as [|k1 [|k2 ks]] eqn:FE.
  (* no registered class *)
  1,4: inversion C; subst w' r; repeat (split; [assumption|]); (split; [reflexivity|]); (split; [exact N|]); (split; [exact (i_zero _ I)|]);
    intros CA tp' E j WJ; rewrite (TPU _ E), (i_mro0 _ I); split;
      [intros [<-|[]]; now left|intros [->|(t & kc & J & E' & _)]; [now left|exfalso; apply (F kc); eauto]].
  (* one *)
  1,3: inversion C; subst w' r; repeat (split; [assumption|]); (split; [reflexivity|]); (split; [exact N|]); (split; [apply FV; now left|]);
    intros CA tp' E j WJ; rewrite (TPU _ E); split;
      [intro J; right; destruct (proj1 (F k1) (or_introl eq_refl)) as (t & Jt & Et); exists t, k1; auto
      |intros [->|(t & kc & J & E' & K)];
        [apply (i_top _ I), FV; now left|destruct (proj2 (F kc) (ex_intro _ t (conj J E'))) as [->|[]]; exact K]].
  (* several *)
  all: destruct (reg_types (w_reg w) types) as [k|] eqn:RT.
  1,3: inversion C; subst w' r; repeat (split; [assumption|]); destruct (reg_types_in _ _ _ RT) as (us & Ju & Eu);
    (split; [reflexivity|]); (split; [exact N|]); (split; [exact (i_regv _ I _ _ Ju)|]);
    intros CA tp' E j [VJ WJ]; rewrite (TPU _ E), (CA _ _ Ju j); split;
      [intros [->|(t & kc & J & E' & K)]; [exfalso; exact (WJ _ Ju)|right; exists t, kc; split; [now apply Eu|auto]]
      |intros [->|(t & kc & J & E' & K)];
        [right; destruct (proj1 (F k1) (or_introl eq_refl)) as (t & Jt & Et); exists t, k1;
           split; [now apply Eu|]; split; [exact Et|]; apply (i_top _ I), FV; now left
        |right; exists t, kc; split; [now apply Eu|auto]]].
  all: match type of C with context [make_class ?a1 ?a2 ?a3 ?a4 ?a5 ?a6 ?a7] => destruct (make_class a1 a2 a3 a4 a5 a6 a7) as [w1 [k|e]] eqn:MC end.
  2,4: inversion C; subst w' r; pose proof (parse_no_scalars _ _ _ _ _ _ MC e eq_refl) as ->; apply make_class_spec in MC; subst w1;
    repeat (split; [assumption|]); (split; [reflexivity|]); auto.
  all: inversion C; subst w' r; clear C.
  all: pose proof (make_class_extends _ _ _ _ _ _ _ _ _ MC) as X.
  all: apply (make_class_inv w _ (k1 :: k2 :: ks)) in MC; [|exact I|discriminate|apply Forall_forall; exact FV].
  all: destruct MC as (I1 & RG & K).
  all: destruct (K k eq_refl) as (K1 & K2 & K3).
  all: assert (X' : extends w (set_reg w1 (KTypes types) k)) by (destruct X as (X1 & X2 & X3 & X4 & X5); repeat split; auto).
  all: assert (OLD : forall c0, valid w c0 -> own_mro (set_reg w1 (KTypes types) k) c0 = own_mro w c0)
    by (intros c0 V0; unfold own_mro; destruct X' as (_ & XC & _); now rewrite XC).
  all: assert (RTT : forall t, reg_type (w_reg (set_reg w1 (KTypes types) k)) t = reg_type (w_reg w) t)
    by (intro t; destruct X' as (_ & _ & XR & _); apply XR).
  all: split; [destruct I1 as [J1 J2 J3 J4 J5 J6 J7]; constructor; [exact J1|exact J2|exact J3|exact J4|exact J5|exact J6|];
      intros e0 k0 [Q|Q]; [injection Q as <- <-; exact K1|exact (J7 _ _ Q)]|].
  all: split; [exact X'|].
  all: split; [right; exists types, k; split; [cbn; now rewrite RG|exact K2]|].
  all: assert (KM : forall j, In j (own_mro (set_reg w1 (KTypes types) k) k) <->
         j = k \/ exists t kc, In t types /\ reg_type (w_reg w) t = Some kc /\ In j (own_mro w kc)).
  1,3: intro j; change (own_mro (set_reg w1 (KTypes types) k) k) with (own_mro w1 k); rewrite K3; split;
      [intros [->|(b & B & J)]; [now left|]; right; apply F in B; destruct B as (t & Bt & Et); exists t, b; auto
      |intros [->|(t & kc & Jt & Et & J)]; [now left|]; right; exists kc; split; [apply F; eauto|exact J]].
  all: split.
  1,3: intros CA us k0 [Q|Q]; [injection Q as <- <-; intro j; rewrite KM; split;
        (intros [->|(t & kc & Jt & Et & J)]; [now left|right; exists t, kc; split; [exact Jt|]; split;
          [rewrite RTT in *; exact Et|]]); assert (VK : valid w kc) by (eapply reg_type_valid; [exact I|]; rewrite <- RTT; rewrite ?RTT; rewrite ?RTT in Et; exact Et);
          [rewrite OLD by exact VK; exact J|rewrite OLD in J by exact VK; exact J]
      |rewrite RG in Q; intro j; rewrite OLD by exact (i_regv _ I _ _ Q); rewrite (CA _ _ Q j); split;
        (intros [->|(t & kc & Jt & Et & J)]; [now left|right; exists t, kc; split; [exact Jt|]; split; [rewrite RTT in *; exact Et|]]);
        assert (VK : valid w kc) by (eapply reg_type_valid; [exact I|]; rewrite ?RTT in Et; exact Et);
        [rewrite OLD by exact VK; exact J|rewrite OLD in J by exact VK; exact J]].
  all: split; [reflexivity|]; split; [exact N|]; split; [exact K1|]; intros CA tp' E j [VJ WJ]; rewrite (TPU _ E), KM; split.
  1,3: intros [->|J]; [contradiction|now right].
  all: intros [->|J]; [|now right]; right; destruct (proj1 (F k1) (or_introl eq_refl)) as (t & Jt & Et); exists t, k1;
       (split; [exact Jt|]; split; [exact Et|]); apply (i_top _ I), FV; now left.
Qed.

(** ** reachable worlds *)
Lemma nth_upd_same {A} : forall (l : list A) i x d, (i < length l)%nat -> nth i (Curie.upd l i x) d = x.
Proof. induction l as [|a l IH]; intros [|i] x d H; cbn in *; try lia; [reflexivity|]. apply IH. lia. Qed.
Lemma nth_upd_other {A} : forall (l : list A) i j x d, i <> j -> nth j (Curie.upd l i x) d = nth j l d.
Proof. induction l as [|a l IH]; intros [|i] [|j] x d H; cbn; try reflexivity; try congruence. apply IH. lia. Qed.
Lemma length_upd {A} : forall (l : list A) i x, length (Curie.upd l i x) = length l.
Proof. induction l as [|a l IH]; intros [|i] x; cbn; auto. Qed.
Lemma set_rdf_class : forall w c ts k, valid w c -> class_at (set_rdf w c ts) k =
  if Nat.eq_dec c k then let x := class_at w k in mkCls (c_name x) (c_prefixes x) (c_scalars x) (c_lang x) (Some ts) (c_mro x) else class_at w k.
Proof.
  intros w c ts k V. unfold set_rdf, class_at at 1. cbn [w_classes]. destruct (Nat.eq_dec c k) as [->|N].
  - now rewrite nth_upd_same.
  - now rewrite nth_upd_other.
Qed.
Lemma register_inv : forall w t c w' r, winv w -> valid w c -> register_class w t c = (w', r) -> winv w'.
Proof.
  intros w t c w' r I V H. unfold register_class in H.
  destruct (resolve w c t) as [[iri|]|e]; inversion H; subst; try exact I. clear H.
  set (w1 := set_reg w (KType iri) c).
  assert (M : forall k, own_mro (set_rdf w1 c [Iri iri]) k = own_mro w k).
  { intro k. unfold own_mro. rewrite set_rdf_class by exact V. destruct (Nat.eq_dec c k); reflexivity. }
  assert (P : forall k, c_prefixes (class_at (set_rdf w1 c [Iri iri]) k) = c_prefixes (class_at w k)).
  { intro k. rewrite set_rdf_class by exact V. destruct (Nat.eq_dec c k); reflexivity. }
  assert (L : forall k, valid (set_rdf w1 c [Iri iri]) k <-> valid w k).
  { intro k. unfold valid, set_rdf. cbn. now rewrite length_upd. }
  destruct I as [J1 J2 J3 J4 J5 J6 J7]. constructor.
  - apply L. exact J1.
  - now rewrite M.
  - intros k K. rewrite M. apply J3. now apply L.
  - intros k K. rewrite M. apply J4. now apply L.
  - intros k j K J. rewrite M in J. apply L. apply (J5 k); [now apply L|exact J].
  - intros k K. rewrite P. apply J6. now apply L.
  - intros e k [Q|Q]; apply L; [injection Q as <- <-; exact V|exact (J7 _ _ Q)].
Qed.
Lemma register_no_cached : forall w t c, no_cached w -> no_cached (fst (register_class w t c)).
Proof.
  intros w t c N. unfold register_class. destruct (resolve w c t) as [[iri|]|e]; try exact N.
  intros us k. cbn. intros [Q|Q]; [discriminate|exact (N _ _ Q)].
Qed.
Lemma world0_inv : winv world0.
Proof.
  assert (V : forall c, valid world0 c -> c = 0%nat \/ c = 1%nat) by (intros c X; vm_compute in X; lia).
  constructor.
  - vm_compute. lia.
  - vm_compute. reflexivity.
  - intros c X. destruct (V c X) as [->| ->]; vm_compute; auto.
  - intros c X. destruct (V c X) as [->| ->]; vm_compute; auto.
  - intros c j X. destruct (V c X) as [->| ->]; vm_compute; intros J; repeat (destruct J as [J|J]; [lia|]); destruct J.
  - intros c X. destruct (V c X) as [->| ->]; vm_compute; eauto.
  - intros e k []. 
Qed.
Lemma wreach_if_inv : forall P w, wreach_if P w -> winv w.
Proof.
  induction 1 as [|w name bases own scalars lang rdfs R IH NE VB|w t c R IH E V|ord w c g o R IH SH V|w gp gt R IH].
  - apply world0_inv.
  - destruct (make_class _ _ _ _ _ _ _) as [w' r] eqn:M. exact (proj1 (make_class_inv _ _ _ _ _ _ _ _ _ IH NE VB M)).
  - destruct (register_class w t c) as [w' r] eqn:M. exact (register_inv _ _ _ _ _ IH V M).
  - destruct (classify ord w c g o) as [w' r] eqn:M. exact (proj1 (classify_spec _ _ _ _ _ _ _ IH SH V M)).
  - destruct IH as [J1 J2 J3 J4 J5 J6 J7]. constructor; assumption.
Qed.
Lemma extends_cached : forall w w', winv w -> extends w w' -> w_reg w' = w_reg w -> cached w -> cached w'.
Proof.
  intros w w' I X RG C us k J. rewrite RG in J. intro j.
  assert (OLD : forall c0, valid w c0 -> own_mro w' c0 = own_mro w c0).
  { intros c0 V0. unfold own_mro. destruct X as (_ & XC & _). now rewrite XC. }
  rewrite OLD by exact (i_regv _ I _ _ J). rewrite (C _ _ J j), RG.
  split; (intros [->|(t & kc & Jt & Et & K)]; [now left|right; exists t, kc; split; [exact Jt|]; split; [exact Et|]]);
    pose proof (reg_type_valid _ _ _ I Et) as VK; [rewrite OLD by exact VK; exact K|rewrite OLD in K by exact VK; exact K].
Qed.
Lemma wreach_cached : forall w, wreach w -> cached w.
Proof.
  unfold wreach. induction 1 as [|w name bases own scalars lang rdfs R IH NE VB|w t c R IH E V|ord w c g o R IH SH V|w gp gt R IH].
  - intros us k [].
  - destruct (make_class _ _ _ _ _ _ _) as [w' r] eqn:M. pose proof (wreach_if_inv _ _ R) as I. cbn [fst].
    eapply extends_cached; [exact I|exact (make_class_extends _ _ _ _ _ _ _ _ _ M)| |exact IH].
    exact (proj1 (proj2 (make_class_inv _ _ _ _ _ _ _ _ _ I NE VB M))).
  - intros us k J. exfalso. exact (register_no_cached w t c E us k J).
  - destruct (classify ord w c g o) as [w' r] eqn:M. pose proof (wreach_if_inv _ _ R) as I.
    destruct (classify_spec _ _ _ _ _ _ _ I SH V M) as (_ & _ & _ & C & _). now apply C.
  - exact IH.
Qed.

(** ** selecting by class *)
Lemma resolve_extends : forall w w' c key, extends w w' -> valid w c -> resolve w' c key = resolve w c key.
Proof. intros w w' c key (_ & C & _ & G & T) V. unfold resolve. now rewrite C, G, T. Qed.
Lemma written_step : forall w w' j, extends w w' -> reg_step w w' -> written w j -> written w' j.
Proof.
  intros w w' j X R [V N]. split; [exact (extends_valid _ _ _ X V)|]. intros us J. destruct R as [E|(us' & k & E & NV)].
  - rewrite E in J. exact (N _ J).
  - rewrite E in J. destruct J as [J|J]; [injection J as <- <-; contradiction|exact (N _ J)].
Qed.
Lemma instance_types : forall w g tp o k, wf g -> honoured (Some o) -> tp <> [] -> node o ->
  (k = 0%nat \/ (exists t kc, In t (node_types g tp o) /\ reg_type (w_reg w) t = Some kc /\ In k (own_mro w kc))
   <-> instance w (g_triples g) tp k o).
Proof.
  intros w g tp o k W Ho Ht N. unfold instance, has_type.
  assert (T : forall t, In t (node_types g tp o) <-> In (Tr o (Iri tp) t) (g_triples g)).
  { intro t. unfold node_types. rewrite nodup_In. destruct (objs_lists g o tp W Ho Ht) as [_ L]. apply L. }
  split.
  - intros H. split; [exact N|]. destruct H as [->|(t & kc & Jt & Et & K)]; [now left|]. right.
    apply reg_type_registered in Et. destruct Et as (iri & -> & Er). apply T in Jt. exists iri, kc. auto.
  - intros [_ [->|(iri & kc & Jt & Er & K)]]; [now left|]. right. exists (Iri iri), kc. split; [now apply T|]. split; [|exact K].
    apply reg_type_registered. eauto.
Qed.
Definition among (l : list term) (o : term) : bool := if in_dec term_eq_dec o l then true else false.
Lemma among_spec : forall l o, among l o = true <-> In o l.
Proof. intros l o. unfold among. destruct (in_dec term_eq_dec o l); split; congruence. Qed.
Lemma among_skip : forall t ts l, ~ In t ts -> ts = filter (among ts) l -> ts = filter (among ts) (t :: l).
Proof. intros t ts l N E. cbn [filter]. destruct (among ts t) eqn:A; [apply among_spec in A; contradiction|exact E]. Qed.
Lemma among_keep : forall t ts l, (In t l -> In t ts) -> ts = filter (among ts) l -> t :: ts = filter (among (t :: ts)) (t :: l).
Proof.
  intros t ts l N E. cbn [filter]. destruct (among (t :: ts) t) eqn:A.
  - f_equal. rewrite E at 1. apply filter_ext_in. intros o J. destruct (among ts o) eqn:B, (among (t :: ts) o) eqn:C; auto.
    + apply among_spec in B. assert (X : among (t :: ts) o = true) by (apply among_spec; now right). congruence.
    + apply among_spec in C. destruct C as [<-|C]; [apply N in J|]; [apply among_spec in J|apply among_spec in C]; congruence.
  - assert (X : among (t :: ts) t = true) by (apply among_spec; now left). congruence.
Qed.
Lemma instances_spec : forall ord c g k tp, shuffle ord -> wf g -> tp <> [] -> forall l w w' x,
  winv w -> cached w -> valid w c -> written w k -> resolve w c (s2l "rdf:type") = Ok (Some tp) ->
  (forall o, In o l -> honoured (Some o)) ->
  instances ord w c g k l = (w', x) ->
  winv w' /\ cached w' /\ extends w w' /\
  match x with
  | Err e => e = TypeError
  | Ok ts => ((NoDup l -> NoDup ts) /\ ts = filter (among ts) l) /\ forall t, In t ts <-> In t l /\ instance w (g_triples g) tp k t
  end.
Proof.
  intros ord c g k tp SH W Ht. induction l as [|t l IH]; intros w w' x I C V WK R HO H; cbn [instances] in H.
  - inversion H; subst. split; [exact I|]. split; [exact C|]. split; [apply extends_refl|]. split; [auto|]. intro t. cbn. tauto.
  - destruct (is_node t) eqn:N.
    + apply is_node_spec in N. destruct (classify ord w c g t) as [w1 [v|e]] eqn:K.
      * destruct (classify_spec _ _ _ _ _ _ _ I SH V K) as (I1 & X1 & S1 & C1 & P).
        destruct v as [|u|k' u]; [destruct P|destruct P as (_ & NN & _); contradiction|].
        destruct P as (-> & _ & VK & P). specialize (P C tp R k WK).
        destruct (instances ord w1 c g k l) as [w2 y] eqn:Q. inversion H; subst w' x. clear H.
        destruct (IH w1 w2 y I1 (C1 C) (extends_valid _ _ _ X1 V) (written_step _ _ _ X1 S1 WK)) as (I2 & C2 & X2 & Y); auto.
        { rewrite (resolve_extends _ _ _ _ X1 V). exact R. } { intros o J. apply HO. now right. }
        split; [exact I2|]. split; [exact C2|]. split; [exact (extends_trans _ _ _ X1 X2)|].
        destruct y as [ts|e]; cbn [bind]; [|exact Y].
        assert (KEEP : is_subclass w1 k' k = true <-> instance w (g_triples g) tp k t).
        { rewrite <- instance_types; [|exact W|apply HO; now left|exact Ht|exact N]. rewrite <- P. unfold is_subclass.
          fold (own_mro w1 k'). destruct (in_dec _ _ _); split; congruence. }
        assert (SAME : forall o, In o l -> (instance w1 (g_triples g) tp k o <-> instance w (g_triples g) tp k o)).
        { intros o J. split; intros INS; pose proof INS as [No _].
          - apply instance_types in INS; [|exact W|apply HO; now right|exact Ht|exact No].
            apply instance_types; [exact W|apply HO; now right|exact Ht|exact No|].
            destruct INS as [->|(t' & kc & Jt & Et & K')]; [now left|right]. exists t', kc.
            destruct X1 as (_ & XC & XR & _). rewrite XR in Et. split; [exact Jt|]. split; [exact Et|].
            unfold own_mro in *. rewrite XC in K' by exact (reg_type_valid _ _ _ I Et). exact K'.
          - apply instance_types in INS; [|exact W|apply HO; now right|exact Ht|exact No].
            apply instance_types; [exact W|apply HO; now right|exact Ht|exact No|].
            destruct INS as [->|(t' & kc & Jt & Et & K')]; [now left|right]. exists t', kc.
            destruct X1 as (_ & XC & XR & _). rewrite XR. split; [exact Jt|]. split; [exact Et|].
            unfold own_mro in *. rewrite XC by exact (reg_type_valid _ _ _ I Et). exact K'. }
        destruct Y as [[YN YF] Y]. destruct (is_subclass w1 k' k) eqn:S.
        -- split.
           ++ split; [intro ND; inversion ND; subst; constructor; [|auto]; rewrite Y; tauto|].
              apply among_keep; [|exact YF]. intro J. apply Y. split; [exact J|]. apply SAME; [exact J|]. now apply KEEP.
           ++ intro o. cbn [In]. rewrite Y. split.
              ** intros [<-|[J Q']]; [split; [now left|now apply KEEP]|split; [now right|now apply SAME]].
              ** intros [[<-|J] Q']; [now left|right; split; [exact J|now apply SAME]].
        -- split.
           ++ split; [intro ND; inversion ND; subst; auto|]. apply among_skip; [|exact YF]. intro J. apply Y in J.
              destruct J as [J Q']. apply SAME in Q'; [|exact J]. apply KEEP in Q'. discriminate.
           ++ intro o. rewrite Y. cbn [In]. split.
              ** intros [J Q']. split; [now right|now apply SAME].
              ** intros [[<-|J] Q']; [apply KEEP in Q'; discriminate|split; [exact J|now apply SAME]].
      * destruct (classify_spec _ _ _ _ _ _ _ I SH V K) as (I1 & X1 & S1 & C1 & E & -> & _). inversion H; subst.
        split; [exact I|]. split; [exact C|]. split; [apply extends_refl|reflexivity].
    + assert (NN : ~ node t) by (intro X; apply is_node_spec in X; congruence).
      destruct (IH w w' x I C V WK R) as (I2 & C2 & X2 & Y); auto. { intros o J. apply HO. now right. }
      split; [exact I2|]. split; [exact C2|]. split; [exact X2|]. destruct x as [ts|e]; [|exact Y]. destruct Y as [[YN YF] Y]. split.
      * split; [intro ND; inversion ND; subst; auto|]. apply among_skip; [|exact YF]. intro J. apply Y in J. destruct J as [_ [J _]]. contradiction.
      * intro o. rewrite Y. cbn [In]. split; [intros [J Q]; auto|]. intros [[<-|J] Q]; [destruct Q; contradiction|auto].
Qed.
