(** Tokens of Model/Bnf.v: a spelled text gives its tokens one by one. *)
From Verif Require Import Model.Py Model.Bnf Spec.BnfSpec.
From Coq Require Import ZifyN.

Lemma space_blank : forall c, b_space c = true <-> blank c.
Proof. intro c. unfold b_space, blank. cbn [In]. rewrite !orb_true_iff, !andb_true_iff, !N.leb_le, !N.eqb_eq. lia. Qed.
Lemma alpha_letter : forall c, b_alpha c = true <-> letter c.
Proof. intro c. unfold b_alpha, letter. rewrite !orb_true_iff, !andb_true_iff, !N.leb_le. lia. Qed.
Lemma word_word : forall c, b_word c = true <-> word_char c.
Proof. intro c. unfold b_word, word_char. rewrite !orb_true_iff, !andb_true_iff, !N.leb_le, !N.eqb_eq, alpha_letter. tauto. Qed.

Lemma rstrip_blanks : forall w, blanks w -> rstrip w = [].
Proof.
  induction w as [|c w IH]; intro B; [reflexivity|]. cbn [rstrip]. rewrite IH by (intros d J; apply B; now right).
  assert (X : b_space c = true) by (apply space_blank, B; now left). now rewrite X.
Qed.
Lemma rstrip_app : forall a r, rstrip r <> [] -> rstrip (a ++ r) = a ++ rstrip r.
Proof.
  induction a as [|c a IH]; intros r N; [reflexivity|]. cbn [app rstrip]. rewrite IH by exact N.
  destruct (a ++ rstrip r) eqn:E; [|reflexivity]. apply app_eq_nil in E. now destruct E.
Qed.
Lemma rstrip_trail : forall a w, blanks w -> rstrip (a ++ w) = rstrip a.
Proof. induction a as [|c a IH]; intros w B; [now apply rstrip_blanks|]. cbn [app rstrip]. now rewrite IH. Qed.
Lemma lstrip_blanks : forall w s, blanks w -> lstrip (w ++ s) = lstrip s.
Proof.
  induction w as [|c w IH]; intros s B; [reflexivity|]. cbn [app lstrip].
  assert (X : b_space c = true) by (apply space_blank, B; now left). rewrite X. apply IH. intros d J. apply B. now right.
Qed.
Lemma rstrip_last : forall a c, ~ blank c -> rstrip (a ++ [c]) = a ++ [c].
Proof.
  intros a c N. assert (X : b_space c = false) by (apply not_true_iff_false; intro E; now apply N, space_blank).
  assert (E : rstrip [c] = [c]) by (cbn [rstrip]; now rewrite X). rewrite rstrip_app by (rewrite E; discriminate). now rewrite E.
Qed.
Lemma word_not_blank : forall c, word_char c -> ~ blank c.
Proof. unfold word_char, letter, blank. cbn [In]. intros c W B. lia. Qed.
Lemma last_word : forall x, x <> [] -> (forall c, In c x -> word_char c) -> rstrip x = x.
Proof.
  intros x N W. destruct (exists_last N) as (a & c & ->). apply rstrip_last, word_not_blank, W. apply in_or_app. right. now left.
Qed.
Lemma tok_rstrip : forall t x, tok_text t x -> rstrip x = x.
Proof.
  intros t x T. destruct T as [l N|l N|l N|x N W|c x L W|x N W|c J].
  - apply (rstrip_last (39%N :: l)). unfold blank; cbn [In]; lia.
  - apply (rstrip_last (34%N :: l)). unfold blank; cbn [In]; lia.
  - apply (rstrip_last (91%N :: l)). unfold blank; cbn [In]; lia.
  - change (35%N :: x) with ([35%N] ++ x). rewrite rstrip_app by (rewrite last_word; assumption). now rewrite last_word.
  - apply last_word; [discriminate|]. intros d [<-|J]; [now left|now apply W].
  - change (64%N :: x) with ([64%N] ++ x). rewrite rstrip_app by (rewrite last_word; assumption). now rewrite last_word.
  - apply (rstrip_last []). cbn [In] in J. unfold blank; cbn [In]; lia.
Qed.
Lemma tok_head : forall t x, tok_text t x -> exists c r, x = c :: r /\ ~ blank c.
Proof.
  intros t x T. destruct T as [l N|l N|l N|x N W|c x L W|x N W|c J]; eexists; eexists; (split; [reflexivity|]);
    unfold blank; cbn [In]; unfold letter in *; cbn [In] in *; lia.
Qed.
Lemma spelled_rstrip : forall ts s, spelled ts s -> rstrip s = s.
Proof.
  induction 1 as [|w t x ts s B T P IH O]; [reflexivity|]. destruct (tok_head _ _ T) as (c & r & -> & _). pose proof (tok_rstrip _ _ T) as R.
  assert (N : rstrip ((c :: r) ++ s) = (c :: r) ++ s).
  { destruct s as [|d s]; [now rewrite app_nil_r|]. rewrite rstrip_app by (rewrite IH; discriminate). now rewrite IH. }
  rewrite rstrip_app by (rewrite N; discriminate). now rewrite N.
Qed.
Lemma partition_at : forall a b c, ~ In c a -> partition (a ++ c :: b) c = (a, true, b).
Proof.
  induction a as [|d a IH]; intros b c N; cbn [app partition]; [now rewrite N.eqb_refl|].
  assert (X : (d =? c)%N = false) by (apply N.eqb_neq; intros ->; apply N; now left). rewrite X, IH by (intro J; apply N; now right). reflexivity.
Qed.
Lemma word_run_at : forall x s, (forall c, In c x -> word_char c) -> match s with c :: _ => ~ word_char c | [] => True end -> word_run (x ++ s) = (x, s).
Proof.
  induction x as [|c x IH]; intros s W O.
  - cbn [app]. destruct s as [|d s]; [reflexivity|]. cbn [word_run]. destruct (b_word d) eqn:E; [|reflexivity]. apply word_word in E. contradiction.
  - cbn [app word_run]. assert (X : b_word c = true) by (apply word_word, W; now left). rewrite X, IH; [reflexivity| |exact O]. intros d J. apply W. now right.
Qed.
Lemma word_match_at : forall x s, x <> [] -> (forall c, In c x -> word_char c) -> match s with c :: _ => ~ word_char c | [] => True end -> word_match (x ++ s) = Ok (x, s).
Proof. intros x s N W O. unfold word_match. rewrite word_run_at by assumption. destruct x; [congruence|reflexivity]. Qed.

Lemma token_text : forall t x s, tok_text t x -> (open_ended t -> match s with c :: _ => ~ word_char c | [] => True end) ->
  rstrip s = s -> forall w w', blanks w -> blanks w' -> token (w ++ (x ++ s) ++ w') = Ok (t, s).
Proof.
  intros t x s T O R w w' B B'. assert (E : strip (w ++ (x ++ s) ++ w') = x ++ s).
  { unfold strip. rewrite app_assoc, rstrip_trail by exact B'. destruct (tok_head _ _ T) as (c & r & E & NB). pose proof (tok_rstrip _ _ T) as RX.
    assert (N : rstrip (x ++ s) = x ++ s).
    { destruct s as [|d s]; [now rewrite app_nil_r|]. rewrite rstrip_app by (rewrite R; discriminate). now rewrite R. }
    rewrite rstrip_app by (rewrite N, E; discriminate). rewrite N, lstrip_blanks by exact B. rewrite E. cbn [app lstrip].
    destruct (b_space c) eqn:Z; [|reflexivity]. apply space_blank in Z. contradiction. }
  unfold token. rewrite E. clear E. destruct T as [l N|l N|l N|x N W|c x L W|x N W|c J].
  - cbn [app]. rewrite <- app_assoc. cbn [app N.eqb Pos.eqb]. unfold split1. now rewrite partition_at.
  - cbn [app]. rewrite <- app_assoc. cbn [app N.eqb Pos.eqb]. unfold split1. now rewrite partition_at.
  - cbn [app]. rewrite <- app_assoc. cbn [app N.eqb Pos.eqb]. unfold split1. now rewrite partition_at.
  - cbn [app N.eqb Pos.eqb]. rewrite word_match_at by (try assumption; now apply O). reflexivity.
  - cbn [app]. assert (NE : forall k, k = 39%N \/ k = 34%N \/ k = 91%N \/ k = 35%N -> (c =? k)%N = false) by (intros k K; apply N.eqb_neq; unfold letter in L; lia).
    rewrite !NE by auto. apply alpha_letter in L. rewrite L. change (c :: x ++ s) with ((c :: x) ++ s).
    rewrite word_match_at; [reflexivity|discriminate| |now apply O]. intros d [<-|K]; [left; now apply alpha_letter|now apply W].
  - cbn [app N.eqb Pos.eqb]. change (b_alpha 64) with false. cbv iota. rewrite word_match_at by (try assumption; now apply O). reflexivity.
  - cbn [app]. cbn [In] in J. repeat destruct J as [<-|J]; try reflexivity. contradiction.
Qed.
Lemma token_spelled : forall t ts s, Spelled (t :: ts) s -> exists s', token s = Ok (t, s') /\ Spelled ts s' /\ length s' < length s.
Proof.
  intros t ts s (s0 & w' & -> & B' & P & _). inversion P as [|w t' x ts' s1 B T P1 O]; subst. clear P. exists s1. rewrite <- app_assoc.
  split; [apply token_text; auto; eapply spelled_rstrip; eassumption|]. split.
  - exists s1, []. rewrite app_nil_r. split; [reflexivity|]. split; [intros c []|]. auto.
  - destruct (tok_head _ _ T) as (c & r & -> & _). rewrite !app_length. cbn [length]. lia.
Qed.
Lemma Spelled_nil : forall s, Spelled [] s <-> s = [].
Proof.
  intro s. split.
  - intros (s0 & w & -> & B & P & N). rewrite N by reflexivity. inversion P. reflexivity.
  - intros ->. exists [], []. repeat split; auto; [intros c []|constructor].
Qed.
Lemma Spelled_cons : forall t ts s, Spelled (t :: ts) s -> s <> [].
Proof. intros t ts s P E. destruct (token_spelled _ _ _ P) as (s' & _ & _ & L). subst s. cbn in L. lia. Qed.

(** what token leaves is shorter than what it was given *)
Lemma rstrip_len : forall s, length (rstrip s) <= length s.
Proof. induction s as [|c s IH]; [auto|]. cbn [rstrip]. destruct (rstrip s) as [|d r]; [destruct (b_space c); cbn; lia|cbn in *; lia]. Qed.
Lemma lstrip_len : forall s, length (lstrip s) <= length s.
Proof. induction s as [|c s IH]; [auto|]. cbn [lstrip]. destruct (b_space c); cbn in *; lia. Qed.
Lemma partition_len : forall s c a b, partition s c = (a, true, b) -> length b < length s.
Proof.
  induction s as [|d s IH]; intros c a b E; cbn [partition] in E; [discriminate|]. destruct (d =? c)%N; [injection E as <- <-; cbn; lia|].
  destruct (partition s c) as [[a' f] b'] eqn:F. injection E as <- -> <-. apply IH in F. cbn. lia.
Qed.
Lemma word_run_len : forall s a b, word_run s = (a, b) -> length a + length b = length s.
Proof.
  induction s as [|d s IH]; intros a b E; cbn [word_run] in E; [injection E as <- <-; reflexivity|]. destruct (b_word d); [|injection E as <- <-; reflexivity].
  destruct (word_run s) as [a' b'] eqn:F. injection E as <- <-. specialize (IH _ _ eq_refl). cbn. lia.
Qed.
Lemma token_len : forall s t r, token s = Ok (t, r) -> length r < length s.
Proof.
  intros s t r E. unfold token in E. pose proof (lstrip_len (rstrip s)) as L. pose proof (rstrip_len s) as L'. unfold strip in E. destruct (lstrip (rstrip s)) as [|c q]; [discriminate|]. cbn [length] in L.
  assert (SP : forall k f, (do x <- split1 q k; Ok (f (fst x) : btok, snd x)) = Ok (t, r) -> length r < length q).
  { intros k f X. unfold split1 in X. destruct (partition q k) as [[a []] b] eqn:F; [|discriminate]. cbn in X. injection X as _ <-. eapply partition_len; eassumption. }
  assert (WD : forall y f, (do x <- word_match y; Ok (f (fst x) : btok, snd x)) = Ok (t, r) -> length r < length y).
  { intros y f X. unfold word_match in X. destruct (word_run y) as [a b] eqn:F. apply word_run_len in F. destruct a as [|d a]; [discriminate|]. cbn in X. injection X as _ <-. cbn in F. lia. }
  repeat match type of E with (if ?b then _ else _) = _ => destruct b end; try discriminate;
    try (apply SP with (f := BLit) in E; lia); try (apply SP with (f := BSet) in E; lia).
  - apply WD with (f := fun x => BHash (35%N :: x)) in E. lia.
  - apply WD with (f := BId) in E. cbn in E. lia.
  - apply WD with (f := BAt) in E. lia.
  - injection E as _ <-. lia.
Qed.
