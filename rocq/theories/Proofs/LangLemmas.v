(** Lemmas behind C43 and C44: language matching, literal construction. *)
From Coq Require Import DecimalFacts DecimalPos DecimalN DecimalZ.
From Verif Require Import Model.Py Model.Terms Model.Curie Spec.CurieSpec Proofs.CurieLemmas.
Open Scope N_scope.

Lemma str_eqb_spec : forall a b, str_eqb a b = true <-> a = b.
Proof. intros a b. unfold str_eqb. destruct (str_eq_dec a b); split; congruence. Qed.
Lemma tag_split_fun : forall l p r p' r', tag_split l p r -> tag_split l p' r' -> p = p' /\ r = r'.
Proof.
  intros c p r p' r' [N [E|[E E2]]] [N' [E'|[E' E2']]].
  - rewrite E in E'. now apply split_unique in E'.
  - exfalso. apply N'. rewrite <- E', E. apply in_or_app. right. now left.
  - exfalso. apply N. rewrite <- E, E'. apply in_or_app. right. now left.
  - subst. auto.
Qed.
Lemma truthy_false : forall s, negb (str_truthy s) = true <-> s = [].
Proof. intros [|]; cbn; split; congruence. Qed.
Lemma lang_match_spec : forall a b, lang_match (Some a) (Some b) = true <->
  exists p r r', tag_split a p r /\ tag_split b p r' /\ (r = [] \/ r' = [] \/ r = r').
Proof.
  intros a b. unfold lang_match. destruct (partition a 45) as [[a0 x] a2] eqn:PA. destruct (partition b 45) as [[b0 y] b2] eqn:PB.
  apply partition_splits in PA. apply partition_splits in PB. fold (tag_split a a0 a2) in PA. fold (tag_split b b0 b2) in PB.
  rewrite andb_true_iff, !orb_true_iff, !str_eqb_spec, !truthy_false. split.
  - intros [-> H]. exists b0, a2, b2. tauto.
  - intros (p & r & r' & A & B & H). destruct (tag_split_fun _ _ _ _ _ PA A) as [-> ->]. destruct (tag_split_fun _ _ _ _ _ PB B) as [-> ->]. tauto.
Qed.
Lemma str_eqb_sym : forall a b, str_eqb a b = str_eqb b a.
Proof. intros a b. unfold str_eqb. destruct (str_eq_dec a b), (str_eq_dec b a); congruence. Qed.
Lemma lang_match_sym : forall a b, lang_match a b = lang_match b a.
Proof.
  intros [a|] [b|]; try reflexivity. unfold lang_match. destruct (partition a 45) as [[a0 x] a2]. destruct (partition b 45) as [[b0 y] b2].
  rewrite (str_eqb_sym a0), (str_eqb_sym a2). destruct (str_eqb b0 a0), (str_eqb b2 a2), (str_truthy a2), (str_truthy b2); reflexivity.
Qed.
Lemma lang_match_refl : forall a, lang_match a a = true.
Proof.
  intros [a|]; [|reflexivity]. unfold lang_match. destruct (partition a 45) as [[a0 x] a2].
  unfold str_eqb. destruct (str_eq_dec a0 a0); [|congruence]. destruct (str_eq_dec a2 a2); [|congruence]. cbn [andb]. now rewrite orb_true_r.
Qed.

(** ** decimal text *)
Lemma dec_acc : forall u acc, dec_nat (Npos acc) (uint_str u) = Some (Npos (Pos.of_uint_acc u acc)).
Proof.
  induction u as [|u IH|u IH|u IH|u IH|u IH|u IH|u IH|u IH|u IH|u IH]; intro acc; [reflexivity|..]; cbn [uint_str dec_nat Pos.of_uint_acc];
    match goal with |- context [digit_value ?c] => let d := eval compute in (digit_value c) in change (digit_value c) with d end; cbv iota beta; rewrite <- IH; f_equal; lia.
Qed.
Lemma dec_of_uint : forall u, dec_nat 0 (uint_str u) = Some (Pos.of_uint u).
Proof.
  induction u as [|u IH|u IH|u IH|u IH|u IH|u IH|u IH|u IH|u IH|u IH]; [reflexivity|exact IH|..]; cbn [uint_str dec_nat Pos.of_uint];
    match goal with |- context [digit_value ?c] => let d := eval compute in (digit_value c) in change (digit_value c) with d end; cbv iota beta; rewrite <- dec_acc; f_equal.
Qed.
Lemma uint_digits : forall u, Forall (fun c => 48 <= c <= 57) (uint_str u).
Proof. induction u; cbn [uint_str]; constructor; auto; lia. Qed.
Lemma dec_int_str : forall z, dec_value (int_str z) = Some z.
Proof.
  intro z. assert (V : Z.of_int (Z.to_int z) = z) by apply DecimalZ.of_to. unfold int_str.
  destruct (Z.to_int z) as [u|u] eqn:E.
  - assert (NE : u <> Decimal.Nil).
    { intros ->. destruct z; cbn in E; inversion E as [E']. revert E'. apply DecimalPos.Unsigned.to_uint_nonnil. }
    pose proof (uint_digits u) as D. destruct (uint_str u) as [|c r] eqn:U; [destruct u; discriminate + congruence|].
    unfold dec_value. apply Forall_inv in D. destruct (N.eqb_spec c 45); [lia|]. rewrite <- U, dec_of_uint. cbn [option_map].
    f_equal. exact V.
  - assert (NE : u <> Decimal.Nil).
    { intros ->. destruct z; cbn in E; inversion E as [E']. revert E'. apply DecimalPos.Unsigned.to_uint_nonnil. }
    unfold dec_value. destruct (N.eqb_spec 45 45); [|congruence]. destruct (uint_str u) as [|c r] eqn:U; [destruct u; discriminate + congruence|].
    rewrite <- U, dec_of_uint. cbn [option_map]. f_equal. exact V.
Qed.
Lemma int_str_inj : forall a b, int_str a = int_str b -> a = b.
Proof. intros a b H. apply (f_equal dec_value) in H. rewrite !dec_int_str in H. now inversion H. Qed.
Lemma uint_canon : forall u, u <> Decimal.Nil -> (forall r, u <> Decimal.D0 r) -> exists d r, uint_str u = d :: r /\ 49 <= d <= 57 /\ Forall (fun c => 48 <= c <= 57) r.
Proof.
  intros [|u|u|u|u|u|u|u|u|u|u] NE NZ; [congruence|exfalso; eapply NZ; reflexivity|..]; cbn [uint_str]; eexists _, _; (split; [reflexivity|]); (split; [lia|apply uint_digits]).
Qed.
Lemma pos_uint_nz : forall p r, Pos.to_uint p <> Decimal.D0 r.
Proof.
  intros p r E. assert (X : N.to_uint (Npos p) = Decimal.unorm (Pos.to_uint p)).
  { rewrite <- DecimalPos.Unsigned.to_of. f_equal. symmetry. apply DecimalPos.Unsigned.of_to. }
  cbn [N.to_uint] in X. rewrite E in X. unfold Decimal.unorm in X. cbn [Decimal.nzhead] in X.
  destruct (Decimal.nzhead r) eqn:Z; try (injection X as X; try discriminate); try discriminate.
  - (* zero *) assert (Y : Pos.of_uint (Pos.to_uint p) = Npos p) by apply DecimalPos.Unsigned.of_to. rewrite E, X in Y. discriminate.
  - exact (nzhead_nonzero _ _ Z).
Qed.
Lemma int_str_canonical : forall z, canonical_int (int_str z).
Proof.
  intro z. unfold canonical_int, int_str. destruct z as [|p|p]; cbn [Z.to_int].
  - left. reflexivity.
  - right. destruct (uint_canon (Pos.to_uint p)) as (d & r & E & D & R); [apply DecimalPos.Unsigned.to_uint_nonnil|apply pos_uint_nz|].
    exists [], d, r. auto.
  - right. destruct (uint_canon (Pos.to_uint p)) as (d & r & E & D & R); [apply DecimalPos.Unsigned.to_uint_nonnil|apply pos_uint_nz|].
    exists [45], d, r. rewrite E. auto.
Qed.
