(** Quoted strings and keywords of Turtle texts (C82). *)
From Verif Require Import Model.Py Model.Terms Model.Codec Model.NTriples Model.TurtleTree Model.Turtle Model.TurtleParse
  Spec.CodecSpec Spec.TurtleSpec Spec.TurtleTextSpec Proofs.CodecLemmas Proofs.CurieLemmas Proofs.TurtleScan Proofs.TurtleTok.
Open Scope N_scope.

Lemma echar_iff : forall k, echar_char k = true <-> exists c, echar k c.
Proof.
  intro k. unfold echar_char. rewrite existsb_exists. split.
  - intros (x & J & E). apply N.eqb_eq in E. subst x. cbn in J.
    repeat (destruct J as [<-|J]; [eexists; constructor|]). destruct J.
  - intros (c & E). exists k. split; [|apply N.eqb_refl]. inversion E; cbn; tauto.
Qed.
Lemma echar_uU : forall k c, echar k c -> k <> 117 /\ k <> 85.
Proof. intros k c E. inversion E; split; discriminate. Qed.
Lemma cons_cons : forall (a : char) (x y : str), (a :: x) ++ y = a :: x ++ y.
Proof. reflexivity. Qed.

Section Quote.
  Variable q : char.
  Hypothesis Q : q = 34 \/ q = 39.
  Lemma q92 : q <> 92.
  Proof. destruct Q; subst; discriminate. Qed.

  (** ** Short strings *)
  Lemma short_hex : forall k c r, lex_short q (LHex k) (c :: r) = if is_hex c then cons_tok c (lex_short q (hex_next k) r) else None.
  Proof. reflexivity. Qed.
  Lemma short_nil : forall st, lex_short q st [] = None.
  Proof. reflexivity. Qed.
  Lemma short_bs : forall r, lex_short q LNormal (92 :: r) = pre_opt [92] (lex_short q LEsc r).
  Proof.
    intro r. cbn [lex_short]. assert (92 <> q) by (intro E; exact (q92 (eq_sym E))). fals H. change (92 =? 92) with true.
    cbv iota. apply cons_pre.
  Qed.
  Lemma lex_short_ok : forall b, units (fun c => c <> q /\ c <> 10 /\ c <> 13) true b -> forall k, lex_short q LNormal (b ++ q :: k) = Some (b, k).
  Proof.
    induction 1 as [|u s U _ IH]; intro k.
    - cbn [app lex_short]. now rewrite N.eqb_refl.
    - rewrite <- app_assoc. destruct U as [c (C1 & C2 & C3) C|e c _ E|h L F|h L F].
      + cbn [app lex_short]. fals C1. fals C. fals C2. fals C3. cbn [orb]. now rewrite IH.
      + cbn [app]. rewrite short_bs. cbn [lex_short]. destruct (echar_uU _ _ E) as [E1 E2]. fals E1. fals E2.
        rewrite (proj2 (echar_iff e)) by eauto. now rewrite IH.
      + cbn [app]. rewrite short_bs. cbn [lex_short]. change (117 =? 117) with true. cbv iota. rewrite (hex_run (lex_short q) short_hex h 3) by auto. now rewrite IH.
      + cbn [app]. rewrite short_bs. cbn [lex_short]. change (85 =? 117) with false. change (85 =? 85) with true. cbv iota. rewrite (hex_run (lex_short q) short_hex h 7) by auto. now rewrite IH.
  Qed.
  Lemma lex_short_inv : forall n s b t, (length s <= n)%nat -> lex_short q LNormal s = Some (b, t) ->
    units (fun c => c <> q /\ c <> 10 /\ c <> 13) true b /\ s = b ++ q :: t.
  Proof.
    induction n as [|n IH]; intros [|c s] b t LE E; try discriminate; cbn in LE; [lia|]. cbn [lex_short] in E.
    destruct (c =? q) eqn:C; [apply N.eqb_eq in C; injection E as <- <-; subst; split; [constructor|auto]|]. apply N.eqb_neq in C.
    destruct (c =? 92) eqn:C2.
    - apply N.eqb_eq in C2. subst c. apply cons_inv in E. destruct E as (l & E & ->). destruct s as [|d s]; [discriminate|]. cbn [lex_short] in E.
      destruct (d =? 117) eqn:D; [|destruct (d =? 85) eqn:D2; [|destruct (echar_char d) eqn:D3; [|discriminate]]].
      + apply N.eqb_eq in D. subst d. apply cons_inv in E. destruct E as (l' & E & ->).
        apply (hex_run_inv (lex_short q) short_hex short_nil) in E. destruct E as (h & l & r & (L & F) & -> & -> & E).
        apply IH in E; [|cbn in LE; rewrite app_length in LE; lia]. destruct E as [U ->]. split; [|cbn; now rewrite <- app_assoc].
        change (92 :: 117 :: h ++ l) with ((92 :: 117 :: h) ++ l). constructor; auto. now apply un_u.
      + apply N.eqb_eq in D2. subst d. apply cons_inv in E. destruct E as (l' & E & ->).
        apply (hex_run_inv (lex_short q) short_hex short_nil) in E. destruct E as (h & l & r & (L & F) & -> & -> & E).
        apply IH in E; [|cbn in LE; rewrite app_length in LE; lia]. destruct E as [U ->]. split; [|cbn; now rewrite <- app_assoc].
        change (92 :: 85 :: h ++ l) with ((92 :: 85 :: h) ++ l). constructor; auto. now apply un_U.
      + apply echar_iff in D3. destruct D3 as [x D3]. apply cons_inv in E. destruct E as (l' & E & ->).
        apply IH in E; [|cbn in LE; lia]. destruct E as [U ->]. split; auto.
        change (92 :: d :: l') with ([92; d] ++ l'). constructor; auto. now apply un_echar with x.
    - apply N.eqb_neq in C2. destruct ((c =? 10) || (c =? 13)) eqn:N1; [discriminate|]. apply orb_false_iff in N1. rewrite !N.eqb_neq in N1.
      apply cons_inv in E. destruct E as (l & E & ->). apply IH in E; [|lia]. destruct E as [U ->]. split; auto.
      apply (us_cons _ _ [c]); auto. apply un_char; tauto.
  Qed.

  (** ** Long strings *)
  Definition longf (st : lexst) (s : str) := lex_long q 0 st s.
  Lemma long_hex : forall k c r, longf (LHex k) (c :: r) = if is_hex c then cons_tok c (longf (hex_next k) r) else None.
  Proof. reflexivity. Qed.
  Lemma long_nil : forall st, longf st [] = None.
  Proof. reflexivity. Qed.
  Lemma long_char : forall j c r, c <> q -> lex_long q j LNormal (c :: r) = pre_opt (repeat q j ++ [c]) (longf (if c =? 92 then LEsc else LNormal) r).
  Proof.
    intros j c r C. cbn [lex_long]. fals C. unfold longf. destruct (lex_long q 0 _ r) as [[l t]|]; cbn; auto. now rewrite <- app_assoc.
  Qed.
  Lemma long_quotes : forall x k, x = [] \/ x = [q] \/ x = [q; q] -> lex_long q 0 LNormal (x ++ k) = lex_long q (length x) LNormal k.
  Proof. intros x k [->|[->| ->]]; cbn [app lex_long length]; rewrite ?N.eqb_refl; reflexivity. Qed.
  Lemma quotes_repeat : forall x, x = [] \/ x = [q] \/ x = [q; q] -> repeat q (length x) = x.
  Proof. intros x [->|[->| ->]]; reflexivity. Qed.
  Lemma long_unit : forall u j k, unit1 (fun c => c <> q) true u -> lex_long q j LNormal (u ++ k) = pre_opt (repeat q j ++ u) (longf LNormal k).
  Proof.
    assert (Q2 : 92 <> q) by (intro E; exact (q92 (eq_sym E))).
    intros u j k U. destruct U as [c C1 C|e c _ E|h L F|h L F]; cbn [app]; rewrite long_char by auto.
    - now fals C.
    - change (92 =? 92) with true. cbv iota. unfold longf. cbn [lex_long]. destruct (echar_uU _ _ E) as [E1 E2]. fals E1. fals E2.
      rewrite (proj2 (echar_iff e)) by eauto. rewrite cons_pre, pre_pre, <- app_assoc. reflexivity.
    - change (92 =? 92) with true. cbv iota. change (longf LEsc (117 :: h ++ k)) with (cons_tok 117 (longf (LHex 3) (h ++ k))).
      rewrite (hex_run longf long_hex h 3), cons_pre, !pre_pre, <- app_assoc by auto. f_equal. now rewrite <- app_assoc.
    - change (92 =? 92) with true. cbv iota. change (longf LEsc (85 :: h ++ k)) with (cons_tok 85 (longf (LHex 7) (h ++ k))).
      rewrite (hex_run longf long_hex h 7), cons_pre, !pre_pre, <- app_assoc by auto. f_equal. now rewrite <- app_assoc.
  Qed.
  Lemma lex_long_ok : forall b, long_units q b -> forall k, lex_long q 0 LNormal (b ++ q :: q :: q :: k) = Some (b, k).
  Proof.
    induction 1 as [|x u s X U _ IH]; intro k.
    - cbn [app lex_long]. now rewrite !N.eqb_refl.
    - rewrite <- !app_assoc. rewrite long_quotes, long_unit by auto. unfold longf. rewrite IH. cbn. rewrite quotes_repeat by auto.
      now rewrite <- app_assoc.
  Qed.
  Lemma repeat_q : forall j, (j <= 2)%nat -> repeat q j = [] \/ repeat q j = [q] \/ repeat q j = [q; q].
  Proof. intros [|[|[|j]]] L; cbn; auto. lia. Qed.
  Lemma repeat_snoc : forall j, repeat q (S j) = repeat q j ++ [q].
  Proof. induction j as [|j IH]; auto. cbn in *. now rewrite IH. Qed.
  Lemma lex_long_inv : forall n s j b t, (length s <= n)%nat -> (j <= 2)%nat -> lex_long q j LNormal s = Some (b, t) ->
    long_units q b /\ repeat q j ++ s = b ++ q :: q :: q :: t.
  Proof.
    induction n as [|n IH]; intros [|c s] j b t LE J E; try discriminate; cbn in LE; [lia|]. destruct (N.eq_dec c q) as [->|C].
    - cbn [lex_long] in E. rewrite N.eqb_refl in E. destruct j as [|[|[|j]]]; [..|lia].
      + apply IH in E; [exact E|lia|lia].
      + apply IH in E; [exact E|lia|lia].
      + injection E as <- <-. split; [constructor|reflexivity].
    - rewrite long_char in E by auto. apply pre_inv in E. destruct E as (l & E & ->). destruct (c =? 92) eqn:C2.
      + apply N.eqb_eq in C2. subst c. destruct s as [|d s]; [discriminate|]. unfold longf in E. cbn [lex_long] in E.
        destruct (d =? 117) eqn:D; [|destruct (d =? 85) eqn:D2; [|destruct (echar_char d) eqn:D3; [|discriminate]]].
        * apply N.eqb_eq in D. subst d. apply cons_inv in E. destruct E as (l' & E & ->).
          apply (hex_run_inv longf long_hex long_nil) in E. destruct E as (h & l & r & (L & F) & -> & -> & E).
          apply IH in E; [|cbn in LE; rewrite app_length in LE; lia|lia]. destruct E as [U E]. cbn [repeat app] in E. subst r. split.
          -- rewrite <- app_assoc. cbn [app]. change (92 :: 117 :: h ++ l) with ((92 :: 117 :: h) ++ l). constructor; auto; [now apply repeat_q|now apply un_u].
          -- rewrite <- !app_assoc. cbn [app]. now rewrite <- !app_assoc.
        * apply N.eqb_eq in D2. subst d. apply cons_inv in E. destruct E as (l' & E & ->).
          apply (hex_run_inv longf long_hex long_nil) in E. destruct E as (h & l & r & (L & F) & -> & -> & E).
          apply IH in E; [|cbn in LE; rewrite app_length in LE; lia|lia]. destruct E as [U E]. cbn [repeat app] in E. subst r. split.
          -- rewrite <- app_assoc. cbn [app]. change (92 :: 85 :: h ++ l) with ((92 :: 85 :: h) ++ l). constructor; auto; [now apply repeat_q|now apply un_U].
          -- rewrite <- !app_assoc. cbn [app]. now rewrite <- !app_assoc.
        * apply echar_iff in D3. destruct D3 as [x D3]. apply cons_inv in E. destruct E as (l' & E & ->).
          apply IH in E; [|cbn in LE; lia|lia]. destruct E as [U E]. cbn [repeat app] in E. subst s. split.
          -- rewrite <- app_assoc. cbn [app]. change (92 :: d :: l') with ([92; d] ++ l'). constructor; auto; [now apply repeat_q|now apply un_echar with x].
          -- now rewrite <- !app_assoc.
      + apply N.eqb_neq in C2. apply IH in E; [|lia|lia]. destruct E as [U E]. cbn [repeat app] in E. subst s. split.
        * rewrite <- app_assoc. change ([c] ++ l) with ([c] ++ l). constructor; auto; [now apply repeat_q|now apply un_char].
        * now rewrite <- !app_assoc.
  Qed.

  (** ** Strings *)
  Definition noq (k : str) : Prop := forall c r, k = c :: r -> c <> q.
  Lemma first_unit : forall b c r, units (fun c => c <> q /\ c <> 10 /\ c <> 13) true b -> b = c :: r -> c <> q.
  Proof.
    assert (Q2 : 92 <> q) by (intro E; exact (q92 (eq_sym E))).
    intros b c r U. destruct U as [|u s U _]; intro E; [discriminate|].
    destruct U as [d (D & _) _|e d _ _|h _ _|h _ _]; injection E as <- _; auto.
  Qed.
  Lemma lex_string_short : forall b k, units (fun c => c <> q /\ c <> 10 /\ c <> 13) true b -> noq k ->
    lex_string_tok q ([q] ++ b ++ [q] ++ k) = Some (b, k).
  Proof.
    intros b k U N. unfold lex_string_tok. assert (S : startswith ([q] ++ b ++ [q] ++ k) [q; q; q] = false).
    { destruct (startswith _ _) eqn:S; auto. exfalso. apply startswith_spec in S. destruct S as [r S]. cbn [app] in S. injection S as S.
      destruct b as [|c b].
      - cbn [app] in S. injection S as S. eapply N; eauto.
      - cbn [app] in S. injection S as -> _. eapply (first_unit (q :: b)); eauto. }
    rewrite S. cbn [app tl]. now apply lex_short_ok.
  Qed.
  Lemma lex_string_long : forall b k, long_units q b -> lex_string_tok q ([q; q; q] ++ b ++ [q; q; q] ++ k) = Some (b, k).
  Proof.
    intros b k U. unfold lex_string_tok. assert (S : startswith ([q; q; q] ++ b ++ [q; q; q] ++ k) [q; q; q] = true) by (apply startswith_spec; eexists; reflexivity).
    rewrite S. cbn [app skipn]. now rewrite lex_long_ok.
  Qed.
  Lemma lex_string_inv : forall s b t, head_is q s = true -> lex_string_tok q s = Some (b, t) -> exists x, string_text b x /\ s = x ++ t.
  Proof.
    intros s b t H E. unfold lex_string_tok in E. destruct (if startswith s [q; q; q] then lex_long q 0 LNormal (skipn 3 s) else None) as [x|] eqn:L.
    - injection E as ->. destruct (startswith s [q; q; q]) eqn:S; [|discriminate]. apply startswith_spec in S. destruct S as [r ->].
      cbn [app skipn] in L. apply (lex_long_inv (length r)) in L; [|lia|lia]. destruct L as [U L]. cbn [repeat app] in L. subst r.
      eexists. split; [now apply (st_long q)|]. cbn [app]. now rewrite <- app_assoc.
    - destruct s as [|c s]; [discriminate|]. cbn in H. apply N.eqb_eq in H. subst c. cbn [tl] in E.
      apply (lex_short_inv (length s)) in E; [|lia]. destruct E as [U ->]. eexists. split; [now apply (st_short q)|]. cbn [app]. now rewrite <- app_assoc.
  Qed.
End Quote.
Lemma string_head : forall b s, string_text b s -> exists q r, s = q :: r /\ (q = 34 \/ q = 39) /\
  forall k, noq 34 k -> noq 39 k -> lex_string_tok q (s ++ k) = Some (b, k).
Proof.
  intros b s S. destruct S as [q b Q U|q b Q U]; eexists q, _; (split; [reflexivity|]); split; auto; intros k N1 N2.
  - change (([q] ++ b ++ [q]) ++ k) with ([q] ++ (b ++ [q]) ++ k). rewrite <- app_assoc. apply lex_string_short; auto. destruct Q; subst; auto.
  - change (([q; q; q] ++ b ++ [q; q; q]) ++ k) with ([q; q; q] ++ (b ++ [q; q; q]) ++ k). rewrite <- app_assoc. now apply lex_string_long.
Qed.

(** ** Keywords *)
Lemma same_letter_iff : forall k c, same_letter k c = true <-> any_case false k c.
Proof. intros k c. unfold same_letter, any_case. brefl. intuition. Qed.
Lemma any_case_loose : forall k c, any_case true k c -> any_case false k c.
Proof. unfold any_case. intros k c [H|[H|[H _]]]; auto. discriminate. Qed.
Lemma keyword_ok : forall w s r, Forall2 (any_case false) w s -> keyword w (s ++ r) = Some r.
Proof. induction 1 as [|k c w s H _ IH]; auto. cbn [app keyword]. apply same_letter_iff in H. now rewrite H. Qed.
Lemma keyword_inv : forall w s r, keyword w s = Some r -> exists x, Forall2 (any_case false) w x /\ s = x ++ r.
Proof.
  induction w as [|k w IH]; intros s r E; [injection E as ->; exists []; split; [constructor|auto]|]. destruct s as [|c s]; [discriminate|].
  cbn [keyword] in E. destruct (same_letter k c) eqn:S; [|discriminate]. apply same_letter_iff in S. apply IH in E. destruct E as (x & F & ->).
  exists (c :: x). split; auto.
Qed.
