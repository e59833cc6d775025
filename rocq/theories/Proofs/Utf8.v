(** UTF-8 lemmas for C22. *)
From Verif Require Import Model.Py Model.Codec Spec.CodecSpec Proofs.CodecLemmas.
Ltac Zify.zify_post_hook ::= Z.to_euclidean_division_equations.
Open Scope N_scope.

Lemma below_cases : forall (n : nat) (f : N -> bool), forallb (fun i => f (N.of_nat i)) (seq 0 n) = true ->
  forall x, x < N.of_nat n -> f x = true.
Proof.
  intros n f H x Hx. rewrite forallb_forall in H. specialize (H (N.to_nat x)).
  rewrite N2Nat.id in H. apply H. apply in_seq. lia.
Qed.
Lemma lor_80 : forall x, x < 64 -> N.lor 128 x = 128 + x.
Proof. intros x H. apply N.eqb_eq. revert x H. apply (below_cases 64 (fun x => N.lor 128 x =? 128 + x)). vm_compute. reflexivity. Qed.
Lemma lor_C0 : forall x, x < 64 -> N.lor 192 x = 192 + x.
Proof. intros x H. apply N.eqb_eq. revert x H. apply (below_cases 64 (fun x => N.lor 192 x =? 192 + x)). vm_compute. reflexivity. Qed.
Lemma lor_E0 : forall x, x < 32 -> N.lor 224 x = 224 + x.
Proof. intros x H. apply N.eqb_eq. revert x H. apply (below_cases 32 (fun x => N.lor 224 x =? 224 + x)). vm_compute. reflexivity. Qed.
Lemma lor_F0 : forall x, x < 16 -> N.lor 240 x = 240 + x.
Proof. intros x H. apply N.eqb_eq. revert x H. apply (below_cases 16 (fun x => N.lor 240 x =? 240 + x)). vm_compute. reflexivity. Qed.
Lemma low6_eq : forall c sh, low6 c sh = 128 + (c / 2 ^ sh) mod 64.
Proof.
  intros. unfold low6. rewrite N.shiftr_div_pow2. change 63 with (N.ones 6). rewrite N.land_ones.
  change (2 ^ 6) with 64. apply lor_80. apply N.mod_lt. discriminate.
Qed.

Lemma utf8_char_spec : forall c, c <= 0x10FFFF ->
  utf8_char c = if is_surrogate c then Err UnicodeEncodeError else Ok (utf8 c).
Proof.
  intros c H. unfold utf8_char, utf8, is_surrogate.
  change 0x80 with 128. change 0x800 with 2048. change 0x10000 with 65536.
  destruct (N.ltb_spec c 128).
  { replace (55296 <=? c) with false by (symmetry; apply N.leb_gt; lia). reflexivity. }
  destruct (N.ltb_spec c 2048).
  { replace (55296 <=? c) with false by (symmetry; apply N.leb_gt; lia). cbn [andb].
    rewrite low6_eq, N.shiftr_div_pow2. change (2 ^ 0) with 1. change (2 ^ 6) with 64.
    rewrite N.div_1_r, lor_C0 by lia. reflexivity. }
  destruct ((55296 <=? c) && (c <=? 57343)); [reflexivity|].
  destruct (N.ltb_spec c 65536).
  { rewrite !low6_eq, N.shiftr_div_pow2. change (2 ^ 0) with 1. change (2 ^ 6) with 64. change (2 ^ 12) with 4096.
    rewrite N.div_1_r, lor_E0 by lia. reflexivity. }
  rewrite !low6_eq, N.shiftr_div_pow2. change (2 ^ 0) with 1. change (2 ^ 6) with 64. change (2 ^ 12) with 4096. change (2^18) with 262144.
  rewrite N.div_1_r, lor_F0 by lia. reflexivity.
Qed.
Lemma is_surrogate_spec : forall c, is_surrogate c = true <-> surrogate c.
Proof. intros c. unfold is_surrogate, surrogate. rewrite andb_true_iff, !N.leb_le. tauto. Qed.

Lemma in_range_spec : forall lo hi b, in_range lo hi b = true <-> lo <= b <= hi.
Proof. intros. unfold in_range. rewrite andb_true_iff, !N.leb_le. tauto. Qed.
Lemma in_range_false : forall lo hi b, in_range lo hi b = false <-> b < lo \/ hi < b.
Proof. intros. unfold in_range. rewrite andb_false_iff, !N.leb_gt. tauto. Qed.

Lemma utf8_decode_char : forall c bs r, c <= 0x10FFFF -> utf8_char c = Ok bs ->
  utf8_decode (bs ++ r) = do x <- utf8_decode r ; Ok (c :: x).
Proof.
  intros c bs r Hc H. unfold utf8_char in H.
  destruct (N.ltb_spec c 128) as [A|A].
  { apply Ok_inj in H; subst bs. cbn [app utf8_decode]. rewrite (proj2 (N.ltb_lt c 128) A). reflexivity. }
  destruct (N.ltb_spec c 2048) as [B|B].
  { apply Ok_inj in H; subst bs. cbn [app utf8_decode].
    rewrite (proj2 (N.ltb_ge _ 128)) by lia.
    rewrite (proj2 (in_range_spec 194 223 _)) by lia.
    unfold cont. rewrite (proj2 (in_range_spec 128 191 _)) by lia.
    replace ((192 + c / 64 - 192) * 64 + (128 + c mod 64 - 128)) with c by lia. reflexivity. }
  destruct (is_surrogate c) eqn:S; [discriminate|].
  assert (~ (55296 <= c <= 57343)) by (intro X; apply is_surrogate_spec in X; congruence). clear S.
  destruct (N.ltb_spec c 65536) as [D|D].
  { apply Ok_inj in H; subst bs. cbn [app utf8_decode].
    rewrite (proj2 (N.ltb_ge _ 128)) by lia.
    rewrite (proj2 (in_range_false 194 223 _)) by lia.
    rewrite (proj2 (in_range_spec 224 239 _)) by lia.
    unfold cont. rewrite (proj2 (in_range_spec 128 191 _)) by lia.
    rewrite (proj2 (in_range_spec (if 224 + c / 4096 =? 224 then 160 else 128) (if 224 + c / 4096 =? 237 then 159 else 191) _)).
    2:{ destruct (N.eqb_spec (224 + c / 4096) 224), (N.eqb_spec (224 + c / 4096) 237); lia. }
    cbn [andb].
    replace ((224 + c / 4096 - 224) * 4096 + (128 + c / 64 mod 64 - 128) * 64 + (128 + c mod 64 - 128)) with c by lia.
    reflexivity. }
  apply Ok_inj in H; subst bs. cbn [app utf8_decode].
  rewrite (proj2 (N.ltb_ge _ 128)) by lia.
  rewrite (proj2 (in_range_false 194 223 _)) by lia.
  rewrite (proj2 (in_range_false 224 239 _)) by lia.
  rewrite (proj2 (in_range_spec 240 244 _)) by lia.
  unfold cont. rewrite !(proj2 (in_range_spec 128 191 _)) by lia.
  rewrite (proj2 (in_range_spec (if 240 + c / 262144 =? 240 then 144 else 128) (if 240 + c / 262144 =? 244 then 143 else 191) _)).
  2:{ destruct (N.eqb_spec (240 + c / 262144) 240), (N.eqb_spec (240 + c / 262144) 244); lia. }
  cbn [andb].
  replace ((240 + c / 262144 - 240) * 262144 + (128 + c / 4096 mod 64 - 128) * 4096 + (128 + c / 64 mod 64 - 128) * 64 + (128 + c mod 64 - 128)) with c by lia.
  reflexivity.
Qed.

Lemma utf8_encode_spec : forall s, py_str s ->
  (Forall (fun c => ~ surrogate c) s -> utf8_encode s = Ok (utf8_text s)) /\
  (Exists surrogate s -> utf8_encode s = Err UnicodeEncodeError).
Proof.
  induction 1 as [|c s Hc Hs [IH1 IH2]]; split; intros F.
  - reflexivity. - inversion F.
  - inversion F; subst. simpl. rewrite utf8_char_spec by auto.
    replace (is_surrogate c) with false by (symmetry; apply not_true_is_false; rewrite is_surrogate_spec; auto).
    simpl. rewrite IH1 by auto. reflexivity.
  - simpl. rewrite utf8_char_spec by auto. destruct (is_surrogate c) eqn:E; [reflexivity|].
    simpl. inversion F; subst.
    + apply is_surrogate_spec in H0. congruence.
    + rewrite IH2 by auto. reflexivity.
Qed.
Lemma utf8_decode_encode : forall s bs r, py_str s -> utf8_encode s = Ok bs ->
  utf8_decode (bs ++ r) = do x <- utf8_decode r ; Ok (s ++ x).
Proof.
  induction s as [|c s IH]; intros bs r V H; simpl in H.
  - injection H as <-. simpl. destruct (utf8_decode r); reflexivity.
  - inversion V; subst. apply bind_ok in H. destruct H as (a & Ha & H). apply bind_ok in H. destruct H as (b & Hb & H).
    injection H as <-. rewrite <- app_assoc. rewrite (utf8_decode_char c a) by auto. rewrite (IH b) by auto.
    destruct (utf8_decode r); reflexivity.
Qed.

Lemma utf8_decode_sound_aux : forall bs s, utf8_decode bs = Ok s ->
  utf8_encode s = Ok bs /\ py_str s /\ Forall (fun c => ~ surrogate c) s.
Proof.
  intros bs. induction bs as [bs IH] using strong_list_ind. intros s H.
  destruct bs as [|b r].
  { apply Ok_inj in H; subst s. repeat split; constructor. }
  cbn [utf8_decode] in H.
  destruct (N.ltb_spec b 128) as [A|A].
  { apply bind_ok in H. destruct H as (x & Hx & H). apply Ok_inj in H; subst s.
    apply IH in Hx; [|simpl; lia]. destruct Hx as (E & V & S).
    split; [|split; constructor; auto; unfold surrogate; lia].
    simpl. unfold utf8_char. rewrite (proj2 (N.ltb_lt _ _) A). simpl. rewrite E. reflexivity. }
  destruct (in_range 194 223 b) eqn:R2.
  { apply in_range_spec in R2. destruct r as [|c1 r1]; [discriminate|].
    destruct (cont c1) eqn:C1; [|discriminate]. apply in_range_spec in C1.
    apply bind_ok in H. destruct H as (x & Hx & H). apply Ok_inj in H; subst s.
    apply IH in Hx; [|simpl; lia]. destruct Hx as (E & V & S).
    split; [|split; constructor; auto; unfold surrogate; lia].
    cbn [utf8_encode]. unfold utf8_char.
    rewrite (proj2 (N.ltb_ge _ 128)) by lia. rewrite (proj2 (N.ltb_lt _ 2048)) by lia. cbn [bind]. rewrite E. cbn [bind app].
    f_equal. f_equal; [lia|]. f_equal. lia. }
  destruct (in_range 224 239 b) eqn:R3.
  { apply in_range_spec in R3. destruct r as [|c1 [|c2 r2]]; try discriminate.
    destruct (in_range (if b =? 224 then 160 else 128) (if b =? 237 then 159 else 191) c1) eqn:C1; [|discriminate].
    destruct (cont c2) eqn:C2; [|discriminate]. apply in_range_spec in C1. apply in_range_spec in C2.
    cbn [andb] in H. apply bind_ok in H. destruct H as (x & Hx & H). apply Ok_inj in H; subst s.
    apply IH in Hx; [|simpl; lia]. destruct Hx as (E & V & S).
    assert (K : 128 <= c1 <= 191 /\ (b = 224 -> 160 <= c1) /\ (b = 237 -> c1 <= 159))
      by (destruct (N.eqb_spec b 224), (N.eqb_spec b 237); lia).
    clear C1. destruct K as (C1 & K1 & K2).
    assert (V1 : (b - 224) * 4096 + (c1 - 128) * 64 + (c2 - 128) < 65536) by lia.
    assert (V2 : 2048 <= (b - 224) * 4096 + (c1 - 128) * 64 + (c2 - 128)) by lia.
    assert (V3 : ~ surrogate ((b - 224) * 4096 + (c1 - 128) * 64 + (c2 - 128))) by (unfold surrogate; lia).
    split; [|split; constructor; auto; lia].
    cbn [utf8_encode]. unfold utf8_char.
    rewrite (proj2 (N.ltb_ge _ 128)) by lia. rewrite (proj2 (N.ltb_ge _ 2048)) by lia.
    replace (is_surrogate _) with false by (symmetry; apply not_true_is_false; rewrite is_surrogate_spec; auto).
    rewrite (proj2 (N.ltb_lt _ 65536)) by lia. cbn [bind]. rewrite E. cbn [bind app].
    f_equal. f_equal; [lia|]. f_equal; [lia|]. f_equal. lia. }
  destruct (in_range 240 244 b) eqn:R4; [|discriminate].
  apply in_range_spec in R4. destruct r as [|c1 [|c2 [|c3 r3]]]; try discriminate.
  destruct (in_range (if b =? 240 then 144 else 128) (if b =? 244 then 143 else 191) c1) eqn:C1; [|discriminate].
  destruct (cont c2) eqn:C2; [|discriminate]. destruct (cont c3) eqn:C3; [|discriminate].
  apply in_range_spec in C1. apply in_range_spec in C2. apply in_range_spec in C3.
  cbn [andb] in H. apply bind_ok in H. destruct H as (x & Hx & H). apply Ok_inj in H; subst s.
  apply IH in Hx; [|simpl; lia]. destruct Hx as (E & V & S).
  assert (K : 128 <= c1 <= 191 /\ (b = 240 -> 144 <= c1) /\ (b = 244 -> c1 <= 143))
    by (destruct (N.eqb_spec b 240), (N.eqb_spec b 244); lia).
  clear C1. destruct K as (C1 & K1 & K2).
  set (v := (b - 240) * 262144 + (c1 - 128) * 4096 + (c2 - 128) * 64 + (c3 - 128)) in *.
  assert (V1 : 65536 <= v) by (unfold v; lia).
  assert (V2 : v <= 0x10FFFF) by (unfold v; lia).
  split; [|split; constructor; auto; unfold surrogate; lia].
  cbn [utf8_encode]. unfold utf8_char.
  rewrite (proj2 (N.ltb_ge _ 128)) by lia. rewrite (proj2 (N.ltb_ge _ 2048)) by lia.
  replace (is_surrogate v) with false by (symmetry; apply not_true_is_false; rewrite is_surrogate_spec; unfold surrogate; lia).
  rewrite (proj2 (N.ltb_ge _ 65536)) by lia. cbn [bind]. rewrite E. cbn [bind app].
  f_equal. unfold v. f_equal; [lia|]. f_equal; [lia|]. f_equal; [lia|]. f_equal. lia.
Qed.

Lemma utf8_round_trip : forall s, py_str s -> Forall (fun c => ~ surrogate c) s -> utf8_decode (utf8_text s) = Ok s.
Proof.
  intros s V S. pose proof (proj1 (utf8_encode_spec s V) S) as E.
  rewrite <- (app_nil_r (utf8_text s)). rewrite (utf8_decode_encode s _ [] V E). simpl. rewrite app_nil_r. reflexivity.
Qed.
Lemma utf8_decode_sound : forall bs s, utf8_decode bs = Ok s ->
  bs = utf8_text s /\ py_str s /\ Forall (fun c => ~ surrogate c) s.
Proof.
  intros bs s H. destruct (utf8_decode_sound_aux bs s H) as (E & V & S). split; [|auto].
  rewrite (proj1 (utf8_encode_spec s V) S) in E. congruence.
Qed.
Lemma utf8_decode_fails : forall bs e, utf8_decode bs = Err e -> e = UnicodeDecodeError.
Proof.
  intros bs. induction bs as [bs IH] using strong_list_ind. intros e H.
  destruct bs as [|b r]; [discriminate|]. cbn [utf8_decode] in H.
  repeat match type of H with
  | (if ?c then _ else _) = _ => destruct c
  | match ?l with [] => _ | _ :: _ => _ end = _ => destruct l
  | bind _ _ = _ => apply bind_err in H; destruct H as [H|(? & _ & H)]; [|discriminate]
  end; try congruence; apply IH in H; auto; simpl; lia.
Qed.
Lemma utf8_decode_app : forall a x b, utf8_decode a = Ok x ->
  utf8_decode (a ++ b) = do y <- utf8_decode b ; Ok (x ++ y).
Proof.
  intros a x b H. destruct (utf8_decode_sound_aux a x H) as (E & V & S).
  apply utf8_decode_encode; auto.
Qed.
Lemma utf8_bytes : forall c, c <= 0x10FFFF -> Forall (fun b => b < 256) (utf8 c).
Proof.
  intros c H. destruct (is_surrogate c) eqn:S.
  - apply is_surrogate_spec in S. unfold surrogate in S. unfold utf8.
    rewrite (proj2 (N.ltb_ge _ _)) by lia. rewrite (proj2 (N.ltb_ge _ _)) by lia. rewrite (proj2 (N.ltb_lt _ _)) by lia.
    rewrite !low6_eq, N.shiftr_div_pow2. change (2 ^ 12) with 4096. change (2 ^ 0) with 1. change (2 ^ 6) with 64.
    rewrite lor_E0 by lia. repeat constructor; lia.
  - pose proof (utf8_char_spec c H) as E. rewrite S in E. unfold utf8_char in E. rewrite S in E.
    destruct (c <? 128) eqn:A; [apply Ok_inj in E; rewrite <- E; apply N.ltb_lt in A; repeat constructor; lia|].
    destruct (c <? 2048) eqn:B; [apply Ok_inj in E; rewrite <- E; apply N.ltb_lt in B; repeat constructor; lia|].
    destruct (c <? 65536) eqn:C; apply Ok_inj in E; rewrite <- E; [apply N.ltb_lt in C|]; repeat constructor; lia.
Qed.
Lemma utf8_high : forall c, 128 <= c -> c <= 0x10FFFF -> Forall (fun b => 128 <= b) (utf8 c).
Proof.
  intros c A H. unfold utf8.
  rewrite (proj2 (N.ltb_ge _ _)) by lia.
  destruct (N.ltb_spec c 0x800); [|destruct (N.ltb_spec c 0x10000)];
  rewrite !low6_eq, N.shiftr_div_pow2;
  change (2 ^ 0) with 1; change (2 ^ 6) with 64; change (2 ^ 12) with 4096; change (2^18) with 262144;
  rewrite ?lor_C0, ?lor_E0, ?lor_F0 by lia; repeat constructor; lia.
Qed.
