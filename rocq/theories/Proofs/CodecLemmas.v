(** Lemmas for C16-C24. *)
From Verif Require Import Model.Py Model.Codec Spec.CodecSpec.
From Coq Require Import Permutation.
Ltac Zify.zify_post_hook ::= Z.to_euclidean_division_equations.
Open Scope N_scope.

(** ** res *)
Lemma bind_ok : forall {A B} (x : res A) (f : A -> res B) b, bind x f = Ok b -> exists a, x = Ok a /\ f a = Ok b.
Proof. intros A B [a|e] f b H; simpl in H; [eauto|discriminate]. Qed.
Lemma bind_err : forall {A B} (x : res A) (f : A -> res B) e, bind x f = Err e ->
  x = Err e \/ exists a, x = Ok a /\ f a = Err e.
Proof. intros A B [a|e'] f e H; simpl in H; [eauto|left; congruence]. Qed.

Lemma Ok_inj : forall {A} (a b : A), Ok a = Ok b -> a = b.
Proof. intros A a b H. injection H. auto. Qed.

(** ** hex *)
Lemma hexdigit_is_hex : forall c, is_hex c = hexdigit c.
Proof.
  intros c. unfold is_hex, hexval, hexdigit.
  destruct (48 <=? c) eqn:A, (c <=? 57) eqn:B; simpl; try reflexivity;
  destruct (65 <=? c) eqn:C, (c <=? 70) eqn:D; simpl; try reflexivity;
  destruct (97 <=? c) eqn:E, (c <=? 102) eqn:F; simpl; reflexivity.
Qed.
Lemma hexval_val : forall c, hexdigit c = true -> hexval c = Some (hexdigit_val c) /\ hexdigit_val c < 16.
Proof.
  intros c H. unfold hexdigit in H. unfold hexval, hexdigit_val.
  destruct (48 <=? c) eqn:A, (c <=? 57) eqn:B; simpl in *; rewrite ?N.leb_le, ?N.leb_gt in *;
  try (split; [reflexivity|lia]);
  destruct (65 <=? c) eqn:C, (c <=? 70) eqn:D; simpl in *; rewrite ?N.leb_le, ?N.leb_gt in *;
  try (split; [reflexivity|lia]); try lia;
  destruct (97 <=? c) eqn:E, (c <=? 102) eqn:F; simpl in *; rewrite ?N.leb_le, ?N.leb_gt in *;
  try (split; [reflexivity|lia]); try lia; discriminate.
Qed.
Lemma lt16_cases : forall (P : N -> Prop), Forall P [0;1;2;3;4;5;6;7;8;9;10;11;12;13;14;15] -> forall d, d < 16 -> P d.
Proof.
  intros P H d Hd. rewrite Forall_forall in H. apply H.
  assert (E : In (N.to_nat d) (seq 0 16)) by (apply in_seq; lia).
  apply (in_map N.of_nat) in E. rewrite N2Nat.id in E. exact E.
Qed.
Lemma hexU_val : forall d, d < 16 -> hexval (hexU d) = Some d.
Proof. apply lt16_cases. repeat constructor. Qed.
Lemma hexL_val : forall d, d < 16 -> hexval (hexL d) = Some d.
Proof. apply lt16_cases. repeat constructor. Qed.
Lemma hexU_upper : forall d, d < 16 -> hexU d = upper d.
Proof. apply lt16_cases. repeat constructor. Qed.
Lemma hexU_hex : forall d, d < 16 -> is_hex (hexU d) = true.
Proof. intros d H. unfold is_hex. rewrite hexU_val; auto. Qed.

Lemma fmtX_length : forall k n, length (fmtX k n) = k.
Proof. induction k; intros; simpl; [reflexivity|]. rewrite app_length, IHk. simpl. lia. Qed.
Lemma fmtX_hex : forall k n, Forall (fun c => is_hex c = true) (fmtX k n).
Proof.
  induction k; intros; simpl; [constructor|]. apply Forall_app. split; [auto|].
  constructor; [|constructor]. apply hexU_hex. lia.
Qed.
Lemma int16_snoc : forall ds d, int16 (ds ++ [d]) = int16 ds * 16 + match hexval d with Some v => v | None => 0 end.
Proof. intros. unfold int16. rewrite fold_left_app. reflexivity. Qed.
Lemma int16_fmtX : forall k n, n < 16 ^ N.of_nat k -> int16 (fmtX k n) = n.
Proof.
  induction k; intros n H.
  - simpl in *. change (int16 []) with 0. lia.
  - replace (N.of_nat (S k)) with (N.succ (N.of_nat k)) in H by lia. rewrite N.pow_succ_r' in H.
    simpl. rewrite int16_snoc, IHk.
    + rewrite hexU_val by lia. lia.
    + apply N.div_lt_upper_bound; lia.
Qed.
Lemma all_hex_app : forall k a r, length a = k -> all_hex k (a ++ r) = true <-> Forall (fun c => is_hex c = true) a.
Proof.
  induction k; intros a r L; destruct a; try discriminate; simpl.
  - split; intros; auto.
  - simpl in L. injection L as L. rewrite andb_true_iff, (IHk a r L). split.
    + intros [A B]; constructor; auto.
    + intros A; inversion A; auto.
Qed.
Lemma all_hex_split : forall k s, all_hex k s = true -> exists a r, s = a ++ r /\ length a = k /\ Forall (fun c => is_hex c = true) a.
Proof.
  induction k; intros s H; simpl in H.
  - exists [], s. auto.
  - destruct s as [|c r]; [discriminate|]. apply andb_true_iff in H. destruct H as [A B].
    destruct (IHk r B) as (a & r' & -> & L & F). exists (c :: a), r'. simpl. auto.
Qed.

(** hex digits as in the specification *)
Lemma digit_val : forall c v, digit c v -> is_hex c = true /\ hexval c = Some v.
Proof.
  intros c v H.
  assert (G : hexval c = Some v /\ hexdigit c = true).
  { inversion H; subst; clear H; unfold hexval, hexdigit.
    - replace (48 <=? 48 + v) with true by (symmetry; apply N.leb_le; lia).
      replace (48 + v <=? 57) with true by (symmetry; apply N.leb_le; lia). cbn [andb orb]. split; [f_equal; lia|reflexivity].
    - replace (65 + (v - 10) <=? 57) with false by (symmetry; apply N.leb_gt; lia). rewrite !andb_false_r.
      replace (65 <=? 65 + (v - 10)) with true by (symmetry; apply N.leb_le; lia).
      replace (65 + (v - 10) <=? 70) with true by (symmetry; apply N.leb_le; lia). cbn [andb orb]. split; [f_equal; lia|reflexivity].
    - replace (97 + (v - 10) <=? 57) with false by (symmetry; apply N.leb_gt; lia). rewrite !andb_false_r.
      replace (97 + (v - 10) <=? 70) with false by (symmetry; apply N.leb_gt; lia). rewrite !andb_false_r.
      replace (97 <=? 97 + (v - 10)) with true by (symmetry; apply N.leb_le; lia).
      replace (97 + (v - 10) <=? 102) with true by (symmetry; apply N.leb_le; lia). cbn [andb orb]. split; [f_equal; lia|reflexivity]. }
  rewrite hexdigit_is_hex. tauto.
Qed.
Lemma hex_digit : forall c, is_hex c = true -> exists v, digit c v /\ hexval c = Some v.
Proof.
  intros c H. rewrite hexdigit_is_hex in H. destruct (hexval_val c H) as [E L].
  exists (hexdigit_val c). split; [|exact E].
  unfold hexdigit in H. unfold hexdigit_val in *.
  destruct (c <=? 57) eqn:A; rewrite ?N.leb_le, ?N.leb_gt in A.
  - replace c with (48 + (c - 48)) at 1.
    + apply dig_09. lia.
    + destruct (48 <=? c) eqn:B; rewrite ?N.leb_le, ?N.leb_gt in B; [lia|]. exfalso.
      replace (65 <=? c) with false in H by (symmetry; apply N.leb_gt; lia).
      replace (97 <=? c) with false in H by (symmetry; apply N.leb_gt; lia). discriminate.
  - destruct (c <=? 70) eqn:B; rewrite ?N.leb_le, ?N.leb_gt in B.
    + assert (65 <= c).
      { destruct (65 <=? c) eqn:C; rewrite ?N.leb_le, ?N.leb_gt in C; [lia|]. exfalso.
        replace (97 <=? c) with false in H by (symmetry; apply N.leb_gt; lia).
        rewrite andb_false_r in H. discriminate. }
      replace c with (65 + (c - 55 - 10)) at 1 by lia. apply dig_AF. lia.
    + assert (97 <= c <= 102).
      { rewrite !andb_false_r in H. simpl in H. apply andb_true_iff in H. rewrite !N.leb_le in H. lia. }
      replace c with (97 + (c - 87 - 10)) at 1 by lia. apply dig_af. lia.
Qed.
Lemma hexnum_int16 : forall ds n, hexnum ds n -> Forall (fun c => is_hex c = true) ds /\ int16 ds = n.
Proof.
  induction 1 as [|ds d n v H [F I] D]; [split; [constructor|reflexivity]|].
  destruct (digit_val _ _ D) as [A B]. split.
  - apply Forall_app; auto.
  - rewrite int16_snoc, I, B. lia.
Qed.
Lemma int16_hexnum : forall ds, Forall (fun c => is_hex c = true) ds -> hexnum ds (int16 ds).
Proof.
  induction ds as [|d ds IH] using rev_ind; intros F; [constructor|].
  apply Forall_app in F. destruct F as [F G]. inversion G; subst.
  destruct (hex_digit d H1) as (v & D & E). rewrite int16_snoc, E.
  replace (int16 ds * 16 + v) with (16 * int16 ds + v) by lia. constructor; auto.
Qed.

(** ** re_sub *)
Lemma re_sub_skip : forall m f k s, re_sub m f k s = re_sub m f 0 (skipn k s).
Proof.
  induction k; intros s; [reflexivity|]. destruct s as [|c r]; [reflexivity|]. simpl. apply IHk.
Qed.
Lemma re_sub_match : forall m f s n, s <> [] -> m s = Some (S n) ->
  re_sub m f 0 s = do x <- f (firstn (S n) s) ; do y <- re_sub m f 0 (skipn (S n) s) ; Ok (x ++ y).
Proof.
  intros m f s n N E. destruct s as [|c r]; [contradiction|].
  cbn [re_sub]. rewrite E. cbn [skipn]. rewrite (re_sub_skip m f n r). reflexivity.
Qed.
Lemma re_sub_no : forall m f c r, m (c :: r) = None ->
  re_sub m f 0 (c :: r) = do y <- re_sub m f 0 r ; Ok (c :: y).
Proof. intros. cbn [re_sub]. rewrite H. reflexivity. Qed.

(** ** decode_literal *)
Lemma decode_plain : forall c r, c <> 92 -> decode_literal (c :: r) = do y <- decode_literal r ; Ok (c :: y).
Proof.
  intros c r H. unfold decode_literal. apply re_sub_no. simpl.
  destruct r; [reflexivity|]. replace (c =? 92) with false by (symmetry; apply N.eqb_neq; auto). reflexivity.
Qed.
Lemma decode_bs_end : decode_literal [92] = Ok [92].
Proof. reflexivity. Qed.
Lemma decode_short : forall c r, c <> 117 -> c <> 85 ->
  decode_literal (92 :: c :: r) = do y <- decode_literal r ; Ok (escape_get c :: y).
Proof.
  intros c r H1 H2. unfold decode_literal.
  rewrite (re_sub_match _ _ _ 1%nat); [|discriminate|].
  - cbn [firstn]. unfold process_escape. cbn [tl].
    replace (c =? 117) with false by (symmetry; apply N.eqb_neq; auto).
    replace (c =? 85) with false by (symmetry; apply N.eqb_neq; auto). reflexivity.
  - simpl. replace (c =? 117) with false by (symmetry; apply N.eqb_neq; auto).
    replace (c =? 85) with false by (symmetry; apply N.eqb_neq; auto). reflexivity.
Qed.
Lemma firstn_app_exact : forall {A} (a b : list A), firstn (length a) (a ++ b) = a.
Proof. intros. rewrite firstn_app, Nat.sub_diag, firstn_all. simpl. apply app_nil_r. Qed.
Lemma skipn_app_exact : forall {A} (a b : list A), skipn (length a) (a ++ b) = b.
Proof. intros. rewrite skipn_app, Nat.sub_diag, skipn_all. reflexivity. Qed.
Lemma decode_u : forall h r, length h = 4%nat -> Forall (fun c => is_hex c = true) h ->
  decode_literal (92 :: 117 :: h ++ r) = do x <- chr (int16 h) ; do y <- decode_literal r ; Ok (x :: y).
Proof.
  intros h r L F. unfold decode_literal.
  rewrite (re_sub_match _ _ _ 5%nat); [|discriminate|].
  - replace (92 :: 117 :: h ++ r) with ((92 :: 117 :: h) ++ r) by reflexivity.
    replace 6%nat with (length (92 :: 117 :: h)) by (simpl; lia).
    rewrite firstn_app_exact, skipn_app_exact. unfold process_escape. cbn [tl].
    replace ((117 =? 117) || (117 =? 85)) with true by reflexivity. destruct (chr (int16 h)); reflexivity.
  - cbn [escape_match]. rewrite (proj2 (all_hex_app 4 h r L) F). reflexivity.
Qed.
Lemma decode_U : forall h r, length h = 8%nat -> Forall (fun c => is_hex c = true) h ->
  decode_literal (92 :: 85 :: h ++ r) = do x <- chr (int16 h) ; do y <- decode_literal r ; Ok (x :: y).
Proof.
  intros h r L F. unfold decode_literal.
  rewrite (re_sub_match _ _ _ 9%nat); [|discriminate|].
  - replace (92 :: 85 :: h ++ r) with ((92 :: 85 :: h) ++ r) by reflexivity.
    replace 10%nat with (length (92 :: 85 :: h)) by (simpl; lia).
    rewrite firstn_app_exact, skipn_app_exact. unfold process_escape. cbn [tl].
    replace ((85 =? 117) || (85 =? 85)) with true by reflexivity. destruct (chr (int16 h)); reflexivity.
  - cbn [escape_match]. rewrite (proj2 (all_hex_app 8 h r L) F). reflexivity.
Qed.
(** an incomplete \u or \U: the backslash and the letter are kept as they are *)
Lemma decode_incomplete : forall c r, c = 117 \/ c = 85 -> all_hex (if c =? 117 then 4 else 8) r = false ->
  decode_literal (92 :: c :: r) = do y <- decode_literal (c :: r) ; Ok (92 :: y).
Proof.
  intros c r H E. unfold decode_literal. apply re_sub_no. cbn [escape_match].
  destruct H; subst; simpl in E |- *; simpl; rewrite E; reflexivity.
Qed.

Lemma chr_ok : forall n, n <= 1114111 -> chr n = Ok n.
Proof. intros. unfold chr. rewrite (proj2 (N.leb_le _ _) H). reflexivity. Qed.

Lemma denotes_decode : forall s v, denotes s v -> decode_literal s = Ok v.
Proof.
  induction 1.
  - reflexivity.
  - rewrite decode_plain, IHdenotes by auto. reflexivity.
  - assert (k <> 117 /\ k <> 85 /\ escape_get k = c) as (A & B & C)
      by (inversion H; subst; vm_compute; repeat split; discriminate).
    rewrite decode_short, IHdenotes, C by auto. reflexivity.
  - destruct (hexnum_int16 _ _ H0) as [F I]. rewrite decode_u by auto. rewrite I, IHdenotes, chr_ok; [reflexivity|].
    clear -H F I. subst c. destruct h as [|a [|b [|c [|d [|]]]]]; try discriminate.
    unfold int16. simpl. inversion F as [|? ? Fa F1]; inversion F1 as [|? ? Fb F2]; inversion F2 as [|? ? Fc F3]; inversion F3 as [|? ? Fd F4]; subst.
    rewrite hexdigit_is_hex in *.
    destruct (hexval_val _ Fa) as [-> ?], (hexval_val _ Fb) as [-> ?], (hexval_val _ Fc) as [-> ?], (hexval_val _ Fd) as [-> ?]. lia.
  - destruct (hexnum_int16 _ _ H0) as [F I]. rewrite decode_U by auto. rewrite I, IHdenotes, chr_ok by auto. reflexivity.
Qed.

Lemma decode_no_backslash : forall s, ~ In 92 s -> decode_literal s = Ok s.
Proof.
  induction s as [|c r IH]; intros H; [reflexivity|].
  rewrite decode_plain by (intros ->; apply H; left; auto).
  rewrite IH by (intros X; apply H; right; auto). reflexivity.
Qed.

Lemma strong_list_ind : forall {A} (P : list A -> Prop),
  (forall s, (forall t, (length t < length s)%nat -> P t) -> P s) -> forall s, P s.
Proof.
  intros A P H s. remember (length s) as n eqn:E. revert s E.
  induction n as [n IH] using lt_wf_ind. intros s ->. apply H. intros t L. eapply IH; eauto.
Qed.

Definition bad_escape (s : str) : Prop :=
  exists a h b n, s = a ++ 92 :: 85 :: h ++ b /\ length h = 8%nat /\ hexnum h n /\ 0x10FFFF < n.
Lemma bad_escape_app : forall a s, bad_escape s -> bad_escape (a ++ s).
Proof. intros a s (x & h & b & n & -> & R). exists (a ++ x), h, b, n. rewrite app_assoc. auto. Qed.

Lemma int16_4 : forall h, length h = 4%nat -> Forall (fun c => is_hex c = true) h -> int16 h < 65536.
Proof.
  intros h H F. destruct h as [|a [|b [|c [|d [|]]]]]; try discriminate.
  unfold int16. simpl. inversion F as [|? ? Fa F1]; inversion F1 as [|? ? Fb F2]; inversion F2 as [|? ? Fc F3]; inversion F3 as [|? ? Fd F4]; subst.
  rewrite hexdigit_is_hex in *.
  destruct (hexval_val _ Fa) as [-> ?], (hexval_val _ Fb) as [-> ?], (hexval_val _ Fc) as [-> ?], (hexval_val _ Fd) as [-> ?]. lia.
Qed.

Lemma decode_raises : forall s e, decode_literal s = Err e -> (e = ValueError \/ e = OverflowError) /\ bad_escape s.
Proof.
  intros s. induction s as [s IH] using strong_list_ind. intros e H.
  destruct s as [|c r]; [discriminate|].
  destruct (N.eq_dec c 92) as [->|NE].
  2:{ rewrite decode_plain in H by auto. apply bind_err in H. destruct H as [H|(a & _ & H)]; [|discriminate].
      apply IH in H; [|simpl; lia]. destruct H as [A B]. split; auto. apply (bad_escape_app [c]). auto. }
  destruct r as [|c r]; [discriminate|].
  destruct (N.eq_dec c 117) as [->|N1].
  { destruct (all_hex 4 r) eqn:E.
    - apply all_hex_split in E. destruct E as (h & t & -> & L & F).
      rewrite decode_u in H by auto. rewrite chr_ok in H by (pose proof (int16_4 h L F); lia). simpl in H.
      apply bind_err in H. destruct H as [H|(a & _ & H)]; [|discriminate].
      apply IH in H; [|simpl; rewrite app_length; lia]. destruct H as [A B]. split; auto.
      change (92 :: 117 :: h ++ t) with ((92 :: 117 :: h) ++ t). apply bad_escape_app. auto.
    - rewrite decode_incomplete in H by auto.
      apply bind_err in H. destruct H as [H|(a & _ & H)]; [|discriminate].
      apply IH in H; [|simpl; lia]. destruct H as [A B]. split; auto. apply (bad_escape_app [92]). auto. }
  destruct (N.eq_dec c 85) as [->|N2].
  { destruct (all_hex 8 r) eqn:E.
    - apply all_hex_split in E. destruct E as (h & t & -> & L & F).
      rewrite decode_U in H by auto. apply bind_err in H. destruct H as [H|(a & _ & H)].
      + unfold chr in H. destruct (int16 h <=? 1114111) eqn:X; [discriminate|]. rewrite N.leb_gt in X.
        split; [destruct (int16 h <=? 2147483647); injection H as <-; auto|].
        exists [], h, t, (int16 h). repeat split; auto. apply int16_hexnum; auto.
      + apply bind_err in H. destruct H as [H|(a' & _ & H)]; [|discriminate].
        apply IH in H; [|simpl; rewrite app_length; lia]. destruct H as [A B]. split; auto.
        change (92 :: 85 :: h ++ t) with ((92 :: 85 :: h) ++ t). apply bad_escape_app. auto.
    - rewrite decode_incomplete in H by auto.
      apply bind_err in H. destruct H as [H|(a & _ & H)]; [|discriminate].
      apply IH in H; [|simpl; lia]. destruct H as [A B]. split; auto. apply (bad_escape_app [92]). auto. }
  rewrite decode_short in H by auto. apply bind_err in H. destruct H as [H|(a & _ & H)]; [|discriminate].
  apply IH in H; [|simpl; lia]. destruct H as [A B]. split; auto. apply (bad_escape_app [92; c]). auto.
Qed.

(** ** nt_escape *)
Lemma nt_escape_app : forall a b, nt_escape (a ++ b) = nt_escape a ++ nt_escape b.
Proof. induction a; intros; simpl; [reflexivity|]. rewrite IHa, app_assoc. reflexivity. Qed.

Ltac case_eqb H :=
  match goal with |- context [?a =? ?b] => destruct (a =? b) eqn:H; [apply N.eqb_eq in H|apply N.eqb_neq in H] end.
Ltac case_leb H :=
  match goal with |- context [?a <=? ?b] => destruct (a <=? b) eqn:H; [apply N.leb_le in H|apply N.leb_gt in H] end.

Inductive nt_case (c : char) : str -> Prop :=
| nc_t : c = 9 -> nt_case c [92; 116]
| nc_n : c = 10 -> nt_case c [92; 110]
| nc_r : c = 13 -> nt_case c [92; 114]
| nc_q : c = 34 -> nt_case c [92; 34]
| nc_b : c = 92 -> nt_case c [92; 92]
| nc_plain : 32 <= c <= 126 -> c <> 34 -> c <> 92 -> nt_case c [c]
| nc_u : 127 <= c <= 65535 -> nt_case c ([92; 117] ++ fmtX 4 c)
| nc_U : 65536 <= c <= 1114111 -> nt_case c ([92; 85] ++ fmtX 8 c)
| nc_drop : dropped c \/ 1114111 < c -> nt_case c [].
Lemma nt_escape_char_case : forall c, nt_case c (nt_escape_char c).
Proof.
  intros c. unfold nt_escape_char.
  case_eqb A1; [constructor 1; auto|]. case_eqb A2; [constructor 2; auto|]. case_eqb A3; [constructor 3; auto|].
  case_eqb A4; [constructor 4; auto|]. case_eqb A5; [constructor 5; auto|].
  destruct ((32 <=? c) && (c <=? 33) || (35 <=? c) && (c <=? 91) || (93 <=? c) && (c <=? 126)) eqn:B.
  { rewrite !orb_true_iff, !andb_true_iff, !N.leb_le in B. constructor 6; lia. }
  rewrite !orb_false_iff, !andb_false_iff, !N.leb_gt in B.
  destruct ((127 <=? c) && (c <=? 65535)) eqn:C.
  { rewrite andb_true_iff, !N.leb_le in C. constructor 7; auto. }
  rewrite andb_false_iff, !N.leb_gt in C.
  destruct ((65536 <=? c) && (c <=? 1114111)) eqn:D.
  { rewrite andb_true_iff, !N.leb_le in D. constructor 8; auto. }
  rewrite andb_false_iff, !N.leb_gt in D.
  constructor 9. unfold dropped. lia.
Qed.

Lemma droppedb_spec : forall c, droppedb c = true <-> dropped c.
Proof.
  intros c. unfold droppedb, dropped. rewrite !andb_true_iff, !negb_true_iff, !N.eqb_neq, N.ltb_lt. tauto.
Qed.

Lemma escape_denotes : forall s, py_str s -> denotes (nt_escape s) (filter (fun c => negb (droppedb c)) s).
Proof.
  induction 1 as [|c s Hc Hs IH]; simpl; [constructor|].
  destruct (nt_escape_char_case c); subst; cbn [app].
  - constructor; [constructor|auto].
  - constructor; [constructor|auto].
  - constructor; [constructor|auto].
  - constructor; [constructor|auto].
  - constructor; [constructor|auto].
  - replace (droppedb c) with false.
    2:{ symmetry. apply not_true_is_false. rewrite droppedb_spec. unfold dropped. lia. }
    simpl. constructor; auto.
  - replace (droppedb c) with false.
    2:{ symmetry. apply not_true_is_false. rewrite droppedb_spec. unfold dropped. lia. }
    cbn [negb]. apply den_u.
    + apply fmtX_length. + rewrite <- (int16_fmtX 4 c) at 2 by (simpl; lia). apply int16_hexnum, fmtX_hex. + auto.
  - replace (droppedb c) with false.
    2:{ symmetry. apply not_true_is_false. rewrite droppedb_spec. unfold dropped. lia. }
    cbn [negb]. apply den_U.
    + apply fmtX_length. + rewrite <- (int16_fmtX 8 c) at 2 by (simpl; lia). apply int16_hexnum, fmtX_hex. + lia. + auto.
  - destruct H as [H|H]; [|lia]. rewrite (proj2 (droppedb_spec c) H). simpl. auto.
Qed.
Lemma escape_round_trip : forall s, py_str s ->
  decode_literal (nt_escape s) = Ok (filter (fun c => negb (droppedb c)) s).
Proof. intros. apply denotes_decode, escape_denotes; auto. Qed.
Lemma filter_id : forall {A} (f : A -> bool) l, filter f l = l <-> Forall (fun x => f x = true) l.
Proof.
  intros A f l. split.
  - intros E. rewrite Forall_forall. intros x Hx. rewrite <- E in Hx. apply filter_In in Hx. tauto.
  - induction 1; simpl; [reflexivity|]. rewrite H, IHForall. reflexivity.
Qed.
Lemma escape_round_trip_iff : forall s, py_str s ->
  (decode_literal (nt_escape s) = Ok s <-> Forall (fun c => ~ dropped c) s).
Proof.
  intros s H. rewrite escape_round_trip by auto.
  assert (E : Forall (fun c => ~ dropped c) s <-> filter (fun c => negb (droppedb c)) s = s).
  { rewrite filter_id. rewrite !Forall_forall. split; intros G x Hx; specialize (G x Hx).
    - apply negb_true_iff, not_true_is_false. rewrite droppedb_spec. auto.
    - rewrite <- droppedb_spec. apply negb_true_iff in G. congruence. }
  rewrite E. split; [intros X; injection X; auto|intros ->; auto].
Qed.
Lemma fmtX_printable : forall k n, Forall printable_ascii (fmtX k n).
Proof.
  induction k; intros; simpl; [constructor|]. apply Forall_app. split; auto. constructor; [|constructor].
  unfold printable_ascii, hexU. destruct (N.ltb_spec (n mod 16) 10); lia.
Qed.
Lemma escape_printable : forall s, Forall printable_ascii (nt_escape s).
Proof.
  induction s as [|c s IH]; simpl; [constructor|]. apply Forall_app. split; auto.
  destruct (nt_escape_char_case c); try (repeat constructor; unfold printable_ascii; lia).
  - apply Forall_app. split; [repeat constructor; unfold printable_ascii; lia|apply fmtX_printable].
  - apply Forall_app. split; [repeat constructor; unfold printable_ascii; lia|apply fmtX_printable].
Qed.
Lemma escape_injective : forall a b, py_str a -> py_str b ->
  Forall (fun c => ~ dropped c) a -> Forall (fun c => ~ dropped c) b -> nt_escape a = nt_escape b -> a = b.
Proof.
  intros a b Ha Hb Da Db E.
  apply escape_round_trip_iff in Da; auto. apply escape_round_trip_iff in Db; auto. congruence.
Qed.
