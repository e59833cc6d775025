(** Lemmas behind C35-C44. *)
From Coq Require Import DecimalN DecimalZ.
From Verif Require Import Model.Py Model.Terms Model.Curie Spec.CurieSpec Proofs.DictLemmas Proofs.CodecLemmas.
Open Scope N_scope.

(** ** strings *)
Lemma partition_spec : forall s sep a b d, partition s sep = (a, b, d) ->
  ~ In sep a /\ ((b = true /\ s = a ++ sep :: d) \/ (b = false /\ s = a /\ d = [])).
Proof.
  induction s as [|c r IH]; intros sep a b d H; cbn [partition] in H.
  - inversion H; subst. split; [intros []|]. right. auto.
  - destruct (c =? sep) eqn:E.
    + inversion H; subst. apply N.eqb_eq in E. subst c. split; [intros []|]. left. auto.
    + destruct (partition r sep) as [[a' b'] d'] eqn:P. inversion H; subst. destruct (IH _ _ _ _ P) as [N C].
      apply N.eqb_neq in E. split; [intros [X|X]; [congruence|contradiction]|].
      destruct C as [[-> ->]|(-> & -> & ->)]; [left|right]; auto.
Qed.
Lemma partition_splits : forall s sep a b d, partition s sep = (a, b, d) ->
  ~ In sep a /\ (s = a ++ sep :: d \/ (s = a /\ d = [])).
Proof. intros s sep a b d H. apply partition_spec in H. tauto. Qed.
Lemma split_unique : forall (sep : char) (a d a' d' : str), ~ In sep a -> ~ In sep a' ->
  a ++ sep :: d = a' ++ sep :: d' -> a = a' /\ d = d'.
Proof.
  induction a as [|c a IH]; intros d [|c' a'] d' N N' E; cbn [app] in E; inversion E; subst.
  - auto.
  - exfalso. apply N'. now left.
  - exfalso. apply N. now left.
  - destruct (IH d a' d') as [-> ->]; try tauto; [intro X; apply N; now right|intro X; apply N'; now right].
Qed.
Lemma splits_fun : forall c p r p' r', splits c p r -> splits c p' r' -> p = p' /\ r = r'.
Proof.
  intros c p r p' r' [N [E|[E E2]]] [N' [E'|[E' E2']]].
  - rewrite E in E'. now apply split_unique in E'.
  - exfalso. apply N'. rewrite <- E', E. apply in_or_app. right. now left.
  - exfalso. apply N. rewrite <- E, E'. apply in_or_app. right. now left.
  - subst. auto.
Qed.
Lemma splits_exists : forall c, exists p r, splits c p r.
Proof. intro c. destruct (partition c 58) as [[a b] d] eqn:P. exists a, d. eapply partition_splits. exact P. Qed.

Lemma lookup_sget : forall m k v, lookup m k v <-> sget m k = Some v.
Proof.
  intros m k v. split.
  - intros (m1 & m2 & -> & N). induction m1 as [|[k' v'] m1 IH]; cbn [app dget].
    + destruct (str_eq_dec k k); [reflexivity|congruence].
    + destruct (str_eq_dec k k') as [->|]; [exfalso; apply N; now left|]. apply IH. intro X. apply N. now right.
  - induction m as [|[k' v'] m IH]; cbn [dget]; [discriminate|]. destruct (str_eq_dec k k') as [->|Ne]; intro H.
    + inversion H; subst. exists [], m. split; [reflexivity|intros []].
    + destruct (IH H) as (m1 & m2 & -> & N). exists ((k', v') :: m1), m2. split; [reflexivity|].
      intros [X|X]; [cbn in X; congruence|contradiction].
Qed.
Lemma unbound_sget : forall m k, unbound m k <-> sget m k = None.
Proof.
  intros m k. unfold unbound. induction m as [|[k' v'] m IH]; cbn [dget map fst]; [split; [reflexivity|intros _ []]|].
  destruct (str_eq_dec k k') as [->|Ne].
  - split; [intro H; exfalso; apply H; now left|discriminate].
  - rewrite <- IH. simpl. split; intros H X; apply H; [now right|]. destruct X; [congruence|assumption].
Qed.

(** ** parse_curie *)
Definition body_value (m : dict str str) (c : str) : res str :=
  let '(p, _, r) := partition c 58 in
  match (if str_truthy r then None else sget m []) with
  | Some ns => Ok (ns ++ p)
  | None => match sget m p with Some ns => Ok (ns ++ r) | None => Err ValueError end
  end.
Lemma body_value_ok : forall m c iri, body_value m c = Ok iri <-> body_means m c iri.
Proof.
  intros m c iri. unfold body_value. destruct (partition c 58) as [[p b] r] eqn:P. apply partition_splits in P. fold (splits c p r) in P.
  split.
  - destruct r as [|x r]; cbn [str_truthy].
    + destruct (sget m []) as [ns|] eqn:D.
      * intro H. apply Ok_inj in H. subst iri. apply MeansDefault with (p := p) (ns := ns); auto. now apply lookup_sget.
      * destruct (sget m p) as [ns|] eqn:L; [|discriminate]. intro H. apply Ok_inj in H. subst iri.
        apply MeansPrefix with (p := p) (r := []) (ns := ns); auto; [right; now apply unbound_sget|now apply lookup_sget].
    + destruct (sget m p) as [ns|] eqn:L; [|discriminate]. intro H. apply Ok_inj in H. subst iri.
      apply MeansPrefix with (p := p) (r := x :: r) (ns := ns); auto; [left; discriminate|now apply lookup_sget].
  - intros [p' ns S L ->|p' r' ns S C L ->]; destruct (splits_fun _ _ _ _ _ P S) as [-> ->]; apply lookup_sget in L.
    + cbn [str_truthy]. rewrite L. reflexivity.
    + rewrite L. destruct r' as [|x r']; cbn [str_truthy]; [|reflexivity]. destruct C as [C|C]; [congruence|].
      apply unbound_sget in C. rewrite C. reflexivity.
Qed.
Lemma body_value_err : forall m c e, body_value m c = Err e <-> e = ValueError /\ body_unknown m c.
Proof.
  intros m c e. unfold body_value, body_unknown. destruct (partition c 58) as [[p b] r] eqn:P. apply partition_splits in P. fold (splits c p r) in P.
  split.
  - destruct r as [|x r]; cbn [str_truthy].
    + destruct (sget m []) eqn:D; [discriminate|]. destruct (sget m p) eqn:L; [discriminate|]. intro H. inversion H; subst.
      split; [reflexivity|]. exists p, []. split; [exact P|]. split; [right|]; now apply unbound_sget.
    + destruct (sget m p) eqn:L; [discriminate|]. intro H. inversion H; subst. split; [reflexivity|].
      exists p, (x :: r). split; [exact P|]. split; [left; discriminate|]. now apply unbound_sget.
  - intros [-> (p' & r' & S & C & U)]. destruct (splits_fun _ _ _ _ _ P S) as [-> ->]. apply unbound_sget in U. rewrite U.
    destruct r' as [|x r']; cbn [str_truthy]; [|reflexivity]. destruct C as [C|C]; [congruence|]. apply unbound_sget in C. rewrite C. reflexivity.
Qed.

Lemma ends_app : forall s c, endswith_char s c = true <-> exists r, s = r ++ [c].
Proof.
  induction s as [|d s IH]; intro c.
  - cbn. split; [discriminate|]. intros [[|] H]; discriminate.
  - cbn [endswith_char]. destruct s as [|d' s].
    + rewrite N.eqb_eq. split; [intros ->; exists []; reflexivity|]. intros [[|x r] H]; [inversion H; reflexivity|].
      cbn [app] in H. inversion H. destruct r; discriminate.
    + rewrite IH. split.
      * intros [r ->]. exists (d :: r). reflexivity.
      * intros [[|x r] H]; [discriminate|]. cbn [app] in H. inversion H; subst. exists r. assumption.
Qed.
Lemma bracket_cases : forall c r, ((c =? 91) && endswith_char (c :: r) 93 = true /\ bracketed (c :: r) (removelast r)) \/
  ((c =? 91) && endswith_char (c :: r) 93 = false /\ forall i, ~ bracketed (c :: r) i).
Proof.
  intros c r. destruct ((c =? 91) && endswith_char (c :: r) 93) eqn:E.
  - left. split; [reflexivity|]. apply andb_true_iff in E. destruct E as [A B]. apply N.eqb_eq in A. subst c.
    apply ends_app in B. destruct B as [[|x y] B]; cbn [app] in B; inversion B. unfold bracketed. subst.
    rewrite removelast_last. reflexivity.
  - right. split; [reflexivity|]. intros i B. unfold bracketed in B. inversion B; subst.
    assert (X : endswith_char (91 :: i ++ [93]) 93 = true) by (apply ends_app; exists (91 :: i); reflexivity).
    rewrite X in E. discriminate.
Qed.
Lemma parse_curie_cases : forall c m,
  (c = [] /\ parse_curie c m = Err IndexError) \/
  (exists i, bracketed c i /\ parse_curie c m = body_value m i) \/
  (c <> [] /\ (forall i, ~ bracketed c i) /\ exists p r, splits c p r /\
     ((In p schemes /\ parse_curie c m = Ok c) \/ (~ In p schemes /\ parse_curie c m = body_value m c))).
Proof.
  intros [|c r] m; [left; auto|]. right. unfold parse_curie. cbv zeta.
  destruct (bracket_cases c r) as [[E B]|[E B]]; rewrite E.
  - left. exists (removelast r). split; [exact B|]. cbn [negb andb]. unfold body_value.
    destruct (partition (removelast r) 58) as [[p b] q]. reflexivity.
  - right. split; [discriminate|]. split; [exact B|]. cbn [negb andb]. unfold body_value.
    destruct (partition (c :: r) 58) as [[p b] q] eqn:P. exists p, q. split; [eapply partition_splits; exact P|].
    destruct (in_dec str_eq_dec p schemes); [left|right]; auto.
Qed.
Lemma bracketed_fun : forall c i j, bracketed c i -> bracketed c j -> i = j.
Proof. intros c i j -> H. unfold bracketed in H. inversion H. now apply app_inj_tail in H1. Qed.

(** C36 *)
Lemma parse_curie_ok : forall c m iri, parse_curie c m = Ok iri <-> curie_means schemes m c iri.
Proof.
  intros c m iri. destruct (parse_curie_cases c m) as [[-> E]|[(i & B & E)|(N & B & p & r & S & [[I E]|[I E]])]]; rewrite E.
  - split; [discriminate|]. intros [j J _|? ? _ X|? ? _ X]; [unfold bracketed in J; discriminate|congruence|congruence].
  - rewrite body_value_ok. split.
    + intro H. eapply MeansBracketed; eassumption.
    + intros [j J H|? ? NB|? ? NB]; [now rewrite (bracketed_fun _ _ _ B J)|exfalso; eapply NB; eassumption|exfalso; eapply NB; eassumption].
  - split.
    + intro H. apply Ok_inj in H. subst iri. eapply MeansAbsolute; eauto.
    + intros [j J _|p' r' _ _ S' _ ->|p' r' _ _ S' I' _]; [exfalso; eapply B; eassumption|reflexivity|].
      destruct (splits_fun _ _ _ _ _ S S') as [-> _]. contradiction.
  - rewrite body_value_ok. split.
    + intro H. eapply MeansPlain; eauto.
    + intros [j J _|p' r' _ _ S' I' _|p' r' _ _ S' I' H]; [exfalso; eapply B; eassumption| |exact H].
      destruct (splits_fun _ _ _ _ _ S S') as [-> _]. contradiction.
Qed.
Lemma parse_curie_err : forall c m e, parse_curie c m = Err e <->
  (c = [] /\ e = IndexError) \/
  (c <> [] /\ e = ValueError /\
   ((exists i, bracketed c i /\ body_unknown m i) \/
    ((forall i, ~ bracketed c i) /\ (exists p r, splits c p r /\ ~ In p schemes) /\ body_unknown m c))).
Proof.
  intros c m e. destruct (parse_curie_cases c m) as [[-> E]|[(i & B & E)|(N & B & p & r & S & [[I E]|[I E]])]]; rewrite E.
  - split; [intro H; inversion H; auto|]. intros [[_ ->]|[N _]]; [reflexivity|congruence].
  - assert (N : c <> []) by (rewrite B; discriminate). rewrite body_value_err. split.
    + intros [-> U]. right. split; [exact N|]. split; [reflexivity|]. left. eauto.
    + intros [[-> _]|(_ & -> & [(j & J & U)|(NB & _)])]; [congruence| |exfalso; eapply NB; eassumption].
      rewrite (bracketed_fun _ _ _ B J). auto.
  - split; [discriminate|]. intros [[-> _]|(_ & _ & [(j & J & _)|(_ & (p' & r' & S' & I') & _)])]; [congruence|exfalso; eapply B; eassumption|].
    destruct (splits_fun _ _ _ _ _ S S') as [-> _]. contradiction.
  - rewrite body_value_err. split.
    + intros [-> U]. right. split; [exact N|]. split; [reflexivity|]. right. split; [exact B|]. split; [eauto|exact U].
    + intros [[-> _]|(_ & -> & [(j & J & _)|(_ & _ & U)])]; [congruence|exfalso; eapply B; eassumption|auto].
Qed.
(** C35 *)
Lemma absolute_untouched : forall m p r, In p schemes -> (forall i, ~ bracketed (p ++ 58 :: r) i) ->
  parse_curie (p ++ 58 :: r) m = Ok (p ++ 58 :: r).
Proof.
  intros m p r I B. apply parse_curie_ok. apply MeansAbsolute with (p := p) (r := r); auto.
  - destruct p; discriminate.
  - split; [|now left]. clear B. intro C.
    assert (F : forallb (fun x => negb (existsb (N.eqb 58) x)) schemes = true) by (vm_compute; reflexivity).
    rewrite forallb_forall in F. apply F in I. apply negb_true_iff in I.
    assert (existsb (N.eqb 58) p = true) by (apply existsb_exists; exists 58; split; [exact C|reflexivity]). congruence.
Qed.
(** no scheme starts with a bracket, so an unbracketed absolute IRI is one whose scheme is registered *)
Lemma absolute_untouched' : forall m p r, In p schemes -> parse_curie (p ++ 58 :: r) m = Ok (p ++ 58 :: r).
Proof.
  intros m p r I. apply absolute_untouched; [exact I|]. intros i B. unfold bracketed in B.
  assert (F : forallb (fun x => match x with c :: _ => negb (c =? 91) | [] => false end) schemes = true) by (vm_compute; reflexivity).
  rewrite forallb_forall in F. apply F in I. destruct p as [|c p]; [discriminate|]. cbn [app] in B. inversion B; subst. discriminate.
Qed.

(** ** to_curie *)
Lemma startswith_spec : forall s p, startswith s p = true <-> prefix_of p s.
Proof.
  intros s p. revert s. induction p as [|c p IH]; intro s.
  - destruct s; (split; [intros _; eexists; reflexivity|reflexivity]).
  - destruct s as [|d s]; [split; [discriminate|intros [r H]; discriminate]|]. cbn [startswith].
    rewrite andb_true_iff, N.eqb_eq, IH. split.
    + intros [-> [r ->]]. exists r. reflexivity.
    + intros [r H]. cbn [app] in H. inversion H; subst. split; [reflexivity|exists r; reflexivity].
Qed.
Section Sorted.
Context {A : Type} (k : A -> Z).
Lemma insert_head : forall x l, match insert_by k x l with
  | [] => False | y :: _ => (y = x /\ match l with [] => True | z :: _ => (k x <= k z)%Z end) \/
                           exists z r, l = z :: r /\ y = z /\ (k z < k x)%Z end.
Proof.
  intros x [|z r]; cbn [insert_by]; [left; auto|]. destruct (k x <=? k z)%Z eqn:E.
  - left. split; [reflexivity|]. now apply Z.leb_le.
  - right. exists z, r. apply Z.leb_gt in E. auto.
Qed.
(** the head of the sorted list: least key, and first among those in the original order *)
Lemma sorted_head : forall l, match sorted_by k l with
  | [] => l = []
  | y :: _ => exists a b, l = a ++ y :: b /\ Forall (fun x => (k y < k x)%Z) a /\ Forall (fun x => (k y <= k x)%Z) b
  end.
Proof.
  induction l as [|x l IH]; [reflexivity|]. cbn [sorted_by fold_right]. fold (sorted_by k l).
  pose proof (insert_head x (sorted_by k l)) as H. destruct (insert_by k x (sorted_by k l)) as [|y t]; [destruct H|].
  destruct H as [[-> H]|(z & r & Ez & -> & L)].
  - exists [], l. split; [reflexivity|]. split; [constructor|]. destruct (sorted_by k l) as [|z r].
    + subst l. constructor.
    + destruct IH as (a & b & -> & Fa & Fb). apply Forall_app. split; [|constructor; [exact H|]].
      * eapply Forall_impl; [|exact Fa]. intros w W. cbn beta in W. lia.
      * eapply Forall_impl; [|exact Fb]. intros w W. cbn beta in W. lia.
  - rewrite Ez in IH. destruct IH as (a & b & -> & Fa & Fb). exists (x :: a), b. split; [reflexivity|]. split; [|exact Fb].
    constructor; [exact L|exact Fa].
Qed.
End Sorted.
Lemma filter_split : forall {A} (f : A -> bool) l a y b, filter f l = a ++ y :: b ->
  exists l1 l2, l = l1 ++ y :: l2 /\ filter f l1 = a /\ filter f l2 = b /\ f y = true.
Proof.
  intros A f. induction l as [|x l IH]; intros a y b H; cbn [filter] in H; [destruct a; discriminate|].
  destruct (f x) eqn:E.
  - destruct a as [|a0 a]; cbn [app] in H; inversion H; subst.
    + exists [], l. auto.
    + destruct (IH _ _ _ H2) as (l1 & l2 & -> & F1 & F2 & Fy). exists (a0 :: l1), l2. split; [reflexivity|]. cbn [filter]. rewrite E, F1. auto.
  - destruct (IH _ _ _ H) as (l1 & l2 & -> & F1 & F2 & Fy). exists (x :: l1), l2. split; [reflexivity|]. cbn [filter]. rewrite E. auto.
Qed.
(** C38 *)
Lemma to_curie_choice : forall uri m sep ex,
  (to_curie uri m sep ex = uri /\ forall p ns, In (p, ns) m -> ~ prefix_of ns uri) \/
  exists m1 p ns m2, m = m1 ++ (p, ns) :: m2 /\ prefix_of ns uri /\
    (forall p' ns', In (p', ns') m1 -> prefix_of ns' uri -> (length ns' < length ns)%nat) /\
    (forall p' ns', In (p', ns') m2 -> prefix_of ns' uri -> (length ns' <= length ns)%nat) /\
    to_curie uri m sep ex = (if ex then 91 :: replace uri ns (p ++ sep) ++ [93] else replace uri ns (p ++ sep)).
Proof.
  intros uri m sep ex. unfold to_curie. set (key := fun pn : str * str => (- Z.of_nat (length (snd pn)))%Z).
  pose proof (sorted_head key (curie_matches uri m)) as H. destruct (sorted_by key (curie_matches uri m)) as [|[p ns] t].
  - left. split; [reflexivity|]. intros p ns I C. apply startswith_spec in C.
    assert (X : In (p, ns) (curie_matches uri m)) by (apply filter_In; auto). rewrite H in X. destruct X.
  - right. destruct H as (a & b & E & Fa & Fb). apply filter_split in E. destruct E as (m1 & m2 & -> & Ea & Eb & P). cbn [snd] in P.
    exists m1, p, ns, m2. split; [reflexivity|]. split; [now apply startswith_spec|].
    rewrite Forall_forall in Fa, Fb. unfold key in Fa, Fb. cbn [snd] in Fa, Fb. split; [|split; [|reflexivity]].
    + intros p' ns' I C. apply startswith_spec in C.
      assert (X : In (p', ns') a) by (rewrite <- Ea; apply filter_In; auto). apply Fa in X. cbn [snd] in X. lia.
    + intros p' ns' I C. apply startswith_spec in C.
      assert (X : In (p', ns') b) by (rewrite <- Eb; apply filter_In; auto). apply Fb in X. cbn [snd] in X. lia.
Qed.
