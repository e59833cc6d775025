(** turtle_string_escape (C45). *)
From Verif Require Import Model.Py Model.Terms Model.Graph Model.Codec Model.Curie Model.Resource Model.TurtleTree Model.TurtleOut
  Spec.CodecSpec Spec.TurtleSpec Spec.TurtleTextSpec Proofs.CurieLemmas.
Open Scope N_scope.

Fixpoint gsw (f : char -> char) (b : bool) (s : str) : str :=
  match s with [] => [] | c :: r => (if b then f c else c) :: gsw f (c =? 92) r end.
Lemma gsw_compose : forall f1 f2 s b, (forall c, f1 c = 92 <-> c = 92) -> gsw f2 b (gsw f1 b s) = gsw (fun c => f2 (f1 c)) b s.
Proof.
  intros f1 f2 s b H. revert b. induction s as [|c s IH]; intro b; cbn; auto. rewrite <- IH. f_equal; [now destruct b|].
  f_equal. destruct b; auto. specialize (H c). destruct (N.eqb_spec (f1 c) 92), (N.eqb_spec c 92); tauto.
Qed.
Lemma gsw_ext : forall f1 f2 s b, (forall c, f1 c = f2 c) -> gsw f1 b s = gsw f2 b s.
Proof. intros f1 f2 s b H. revert b. induction s as [|c s IH]; intro b; cbn; auto. rewrite IH. destruct b; now rewrite ?H. Qed.
Lemma gsw_id : forall s b, gsw (fun c => c) b s = s.
Proof. induction s as [|c s IH]; intro b; cbn; auto. rewrite IH. now destruct b. Qed.
Lemma gsw_length : forall f s b, length (gsw f b s) = length s.
Proof. induction s as [|c s IH]; intro b; cbn; auto. Qed.
Lemma gsw_raw : forall s b, gsw raw_of b s = raw_after_backslash b s.
Proof. induction s as [|c s IH]; intro b; cbn; auto. now rewrite IH. Qed.

Definition one (k r c : char) : char := if c =? k then r else c.
Lemma startswith2 : forall a k s, startswith s [a; k] = match s with c :: d :: _ => (a =? c) && (k =? d) | _ => false end.
Proof.
  intros a k s. destruct s as [|c [|d s]]; cbn [startswith]; auto.
  - apply andb_false_r.
  - destruct (a =? c), (k =? d), s; reflexivity.
Qed.
Lemma replace_one : forall k r s, k <> 92 -> replace_ne [92; k] [92; r] 0 s = gsw (one k r) false s.
Proof.
  intros k r s K. enough (H : forall n s, (length s <= n)%nat -> replace_ne [92; k] [92; r] 0 s = gsw (one k r) false s) by (apply (H (length s)); lia).
  clear s. induction n as [|n IH]; intros [|c s] L; cbn [length] in L; try reflexivity; try lia.
  cbn [replace_ne]. rewrite startswith2. destruct s as [|d s]; [reflexivity|]. cbn [length] in L.
  destruct (N.eqb_spec 92 c) as [<-|NC].
  - destruct (N.eqb_spec k d) as [<-|ND]; cbn [andb].
    + cbn [length Init.Nat.pred replace_ne]. rewrite IH by lia. cbn [gsw]. unfold one. rewrite !N.eqb_refl.
      destruct (N.eqb_spec k 92); [congruence|reflexivity].
    + rewrite IH by (cbn [length]; lia). cbn [gsw]. unfold one. rewrite N.eqb_refl. destruct (N.eqb_spec d k); [congruence|reflexivity].
  - cbn [andb]. rewrite IH by (cbn [length]; lia). cbn [gsw]. destruct (N.eqb_spec c 92); [congruence|reflexivity].
Qed.
Lemma replace_same2 : forall a k s, replace_ne [a; k] [a; k] 0 s = s.
Proof.
  intros a k s. enough (H : forall n s, (length s <= n)%nat -> replace_ne [a; k] [a; k] 0 s = s) by (apply (H (length s)); lia).
  clear s. induction n as [|n IH]; intros [|c s] L; cbn [length] in L; try reflexivity; try lia.
  cbn [replace_ne]. rewrite startswith2. destruct s as [|d s]; [reflexivity|]. cbn [length] in L.
  destruct (N.eqb_spec a c) as [<-|NC]; [destruct (N.eqb_spec k d) as [<-|ND]|]; cbn [andb].
  - cbn [length Init.Nat.pred replace_ne]. rewrite IH by lia. reflexivity.
  - rewrite IH by (cbn [length]; lia). reflexivity.
  - rewrite IH by (cbn [length]; lia). reflexivity.
Qed.
Lemma one_92 : forall k r c, k <> 92 -> r <> 92 -> one k r c = 92 <-> c = 92.
Proof. intros k r c K R. unfold one. destruct (N.eqb_spec c k); split; congruence. Qed.

Lemma escape_exact : forall s, turtle_string_escape s = [34] ++ raw_after_backslash false s ++ [34].
Proof.
  intro s. unfold turtle_string_escape. f_equal. f_equal. cbn [ECHAR_MAP ESCAPE_MAP map fst snd fold_left replace].
  rewrite !replace_same2. rewrite !replace_one by discriminate.
  rewrite !gsw_compose by (intro c; rewrite ?one_92 by discriminate; reflexivity). rewrite <- gsw_raw. apply gsw_ext. intro c.
  unfold one, raw_of.
  destruct (N.eqb_spec c 116) as [->|]; [reflexivity|]. destruct (N.eqb_spec c 98) as [->|]; [reflexivity|].
  destruct (N.eqb_spec c 110) as [->|]; [reflexivity|]. destruct (N.eqb_spec c 114) as [->|]; [reflexivity|]. reflexivity.
Qed.
Lemma raw_length : forall s b, length (raw_after_backslash b s) = length s.
Proof. intros. rewrite <- gsw_raw. apply gsw_length. Qed.
Lemma raw_plain : forall s, ~ In 92 s -> raw_after_backslash false s = s.
Proof.
  induction s as [|c s IH]; intro H; auto. cbn. assert (c <> 92) by (intros ->; apply H; now left).
  destruct (N.eqb_spec c 92); [contradiction|]. rewrite IH; auto. intro J. apply H. now right.
Qed.

(** ** Lengths: an escape takes more room than the character it stands for *)
Lemma denotes_length : forall s v, denotes s v -> (length v <= length s)%nat /\ (length v = length s -> s = v /\ ~ In 92 s).
Proof.
  induction 1 as [|c s v C D IH|k c s v E D IH|h c s v L X D IH|h c s v L X B D IH].
  - split; auto.
  - destruct IH as [A B]. split; cbn; [lia|]. intro E. destruct B as [-> N]; [lia|]. split; auto. intros [->|J]; auto.
  - cbn. destruct IH as [A _]. split; [lia|intro; exfalso; lia].
  - cbn. rewrite app_length. destruct IH as [A _]. split; [lia|intro; exfalso; lia].
  - cbn. rewrite app_length. destruct IH as [A _]. split; [lia|intro; exfalso; lia].
Qed.
Lemma units_no_backslash : forall ok e s, units ok e s -> ~ In 92 s -> Forall ok s.
Proof.
  induction 1 as [|u s U _ IH]; intro N; [constructor|]. destruct U; try (exfalso; apply N; now left).
  cbn. constructor; auto. apply IH. intro J. apply N. now right.
Qed.
Lemma plain_units : forall ok e s, Forall ok s -> ~ In 92 s -> units ok e s.
Proof.
  induction s as [|c s IH]; intros F N; [constructor|]. inversion F; subst. change (c :: s) with ([c] ++ s). constructor.
  - constructor; auto. intros ->. apply N. now left.
  - apply IH; auto. intro J. apply N. now right.
Qed.
Lemma plain_denotes : forall s, ~ In 92 s -> denotes s s.
Proof.
  induction s as [|c s IH]; intro N; constructor.
  - intros ->. apply N. now left.
  - apply IH. intro J. apply N. now right.
Qed.

Lemma escape_round_trip : forall s, reads_string (turtle_string_escape s) s <-> Forall plain_char s.
Proof.
  intro s. rewrite escape_exact. split.
  - intros (body & T & D). assert (L := denotes_length _ _ D). destruct L as [L1 L2].
    inversion T as [q b Q U E1 E2|q b Q U E1 E2]; subst b.
    + apply (f_equal (@length N)) in H. rewrite !app_length, raw_length in H. cbn in H. assert (LE : length s = length body) by lia.
      destruct (L2 LE) as [-> N92]. assert (F := units_no_backslash _ _ _ U N92).
      apply Forall_forall. intros c J. rewrite Forall_forall in F. destruct (F c J) as (A & B & C). repeat split; auto.
      intros ->. contradiction.
    + apply (f_equal (@length N)) in H. cbn [length app] in H. rewrite !app_length, raw_length in H. cbn in H. lia.
  - intro F. assert (N92 : ~ In 92 s) by (intro J; rewrite Forall_forall in F; destruct (F _ J) as (_ & X & _); now apply X).
    rewrite raw_plain by auto. exists s. split; [|now apply plain_denotes]. apply st_short; auto. apply plain_units; auto.
    apply Forall_impl with (2 := F). intros c (A & B & C & D). auto.
Qed.
