(** What the parser of Model/Bnf.v can give for any text (C107, C108). *)
From Verif Require Import Model.Py Model.Bnf Spec.BnfSpec Proofs.BnfLex Proofs.BnfParse.

Definition parse_error (x : exn) : Prop := In x [IndexError; ValueError; AttributeError; UnboundLocalError; SyntaxError].
Fixpoint all_writable (l : list expr) : Prop := match l with [] => True | x :: r => writable x /\ all_writable r end.
Lemma all_writable_fix : forall l, all_writable l = (fix all l := match l with [] => True | x :: r => writable x /\ all r end) l.
Proof. reflexivity. Qed.
Lemma all_writable_app : forall a b, all_writable (a ++ b) <-> all_writable a /\ all_writable b.
Proof. induction a as [|x a IH]; intro b; cbn [app all_writable]; [tauto|]. rewrite IH. tauto. Qed.

(** [d]: how much shorter the rest is *)
Definition good (d : nat) (s : str) (x : presult) : Prop :=
  match x with
  | Ok (Some e, r) => writable e /\ length r + d <= length s
  | Ok (None, r) => length r <= length s
  | Err e => parse_error e
  end.

Lemma partition_in : forall s c a b, partition s c = (a, true, b) -> ~ In c a.
Proof.
  induction s as [|d s IH]; intros c a b E; cbn [partition] in E; [discriminate|]. destruct (N.eqb_spec d c) as [->|NE]; [injection E as <- <-; auto|].
  destruct (partition s c) as [[a' f] b'] eqn:F. injection E as <- -> <-. intros [X|X]; [contradiction|]. eapply IH; eassumption.
Qed.
Lemma word_run_words : forall s a b, word_run s = (a, b) -> forall c, In c a -> word_char c.
Proof.
  induction s as [|d s IH]; intros a b E c J; cbn [word_run] in E; [injection E as <- <-; contradiction|]. destruct (b_word d) eqn:W; [|injection E as <- <-; contradiction].
  destruct (word_run s) as [a' b'] eqn:F. injection E as <- <-. destruct J as [<-|J]; [now apply word_word|]. eapply IH; [reflexivity|exact J].
Qed.
Definition tok_good (t : btok) : Prop :=
  match t with
  | BId x => name_ok x
  | BLit l => ~ In 39%N l \/ ~ In 34%N l
  | BSet l => ~ In 93%N l
  | BHash x => exists y, x = 35%N :: y /\ y <> [] /\ forall d, In d y -> word_char d
  | BAt _ => True
  | BPunct _ => True
  end.
Lemma token_good : forall s, match token s with Ok (t, r) => tok_good t /\ length r < length s | Err e => parse_error e end.
Proof.
  intro s. destruct (token s) as [[t r]|e] eqn:E.
  - split; [|eapply token_len; eassumption]. unfold token in E. destruct (strip s) as [|c q]; [discriminate|].
    assert (SP : forall k f, (do x <- split1 q k; Ok (f (fst x) : btok, snd x)) = Ok (t, r) -> exists a, t = f a /\ ~ In k a).
    { intros k f X. unfold split1 in X. destruct (partition q k) as [[a []] b] eqn:F; [|discriminate]. cbn in X. injection X as <- _. exists a. split; [reflexivity|]. eapply partition_in; eassumption. }
    assert (WD : forall y f, (do x <- word_match y; Ok (f (fst x) : btok, snd x)) = Ok (t, r) -> exists a b, word_run y = (a, b) /\ t = f a /\ a <> [] /\ forall d, In d a -> word_char d).
    { intros y f X. unfold word_match in X. destruct (word_run y) as [a b] eqn:F. destruct a as [|d a]; [discriminate|]. cbn in X. injection X as <- _. exists (d :: a), b. split; [reflexivity|]. split; [reflexivity|]. split; [discriminate|]. eapply word_run_words; eassumption. }
    repeat match type of E with (if ?b then _ else _) = _ => destruct b eqn:? end; try discriminate.
    + destruct (SP _ BLit E) as (a & -> & N). now left.
    + destruct (SP _ BLit E) as (a & -> & N). now right.
    + destruct (SP _ BSet E) as (a & -> & N). exact N.
    + destruct (WD _ (fun x => BHash (35%N :: x)) E) as (a & b & _ & -> & N & W). exists a. auto.
    + destruct (WD _ BId E) as (a & b & F & -> & N & W). destruct a as [|d a]; [congruence|]. cbn [tok_good name_ok].
      cbn [word_run] in F. destruct (b_word c); [|discriminate]. destruct (word_run q). injection F as <- <- _. split; [now apply alpha_letter|]. intros d J. apply W. now right.
    + destruct (WD _ BAt E) as (a & b & _ & -> & _). exact Logic.I.
    + injection E as <- _. exact Logic.I.
  - unfold token in E. unfold parse_error. destruct (strip s) as [|c q]; [injection E as <-; cbn; tauto|].
    assert (SP : forall k f, (do x <- split1 q k; Ok (f (fst x) : btok, snd x)) = Err e -> e = ValueError) by (intros k f X; unfold split1 in X; destruct (partition q k) as [[a []] b]; cbn in X; congruence).
    assert (WD : forall y f, (do x <- word_match y; Ok (f (fst x) : btok, snd x)) = Err e -> e = AttributeError) by (intros y f X; unfold word_match in X; destruct (word_run y) as [[|d a] b]; cbn in X; congruence).
    repeat match type of E with (if ?b then _ else _) = _ => destruct b eqn:? end; try discriminate;
      try (apply SP with (f := BLit) in E; subst; cbn; tauto); try (apply SP with (f := BSet) in E; subst; cbn; tauto); try (injection E as <-; cbn; tauto).
    + apply WD with (f := fun x => BHash (35%N :: x)) in E; subst; cbn; tauto.
    + apply WD with (f := BId) in E; subst; cbn; tauto.
    + apply WD with (f := BAt) in E; subst; cbn; tauto.
Qed.
Lemma in_ops_inv : forall c, str_in_char c (s2l "?*+") = true -> In c [63; 42; 43]%N.
Proof. intros c E. unfold str_in_char in E. apply existsb_exists in E. destruct E as (x & X & Y). apply N.eqb_eq in Y. subst x. exact X. Qed.

Section Level.
  Variable prim : str -> presult.
  Variable m : nat.
  Hypothesis PG : forall s, length s < m -> good 1 s (prim s).

  Lemma postfix_good : forall s, length s < m -> good 1 s (postfix prim s).
  Proof.
    intros s L. pose proof (PG s L) as G. unfold postfix. destruct (prim s) as [[[e|] r]|x]; cbn [bind good] in *; [|exact G|exact G]. destruct G as [W LR].
    destruct r as [|c r]; [split; auto|]. pose proof (token_good (c :: r)) as T. destruct (token (c :: r)) as [[t r2]|x]; cbn [bind fst snd]; [|exact T]. destruct T as [TG TL].
    destruct t; try (split; assumption). destruct (str_in_char c0 (s2l "?*+")) eqn:E; [|split; assumption]. split; [|lia]. split; [now apply in_ops_inv|exact W].
  Qed.
  Lemma diff_good : forall s, length s < m -> good 1 s (diff prim s).
  Proof.
    intros s L. pose proof (postfix_good s L) as G. unfold diff. destruct (postfix prim s) as [[[e|] r]|x]; cbn [bind good] in *; [|exact G|exact G]. destruct G as [W LR].
    destruct r as [|c r]; [split; auto|]. pose proof (token_good (c :: r)) as T. destruct (token (c :: r)) as [[t r2]|x]; cbn [bind fst snd]; [|exact T]. destruct T as [TG TL].
    destruct (is_punct t 45); [|split; assumption]. pose proof (PG r2 ltac:(lia)) as G2. destruct (prim r2) as [[[e2|] r3]|x]; cbn [bind good] in *; [|unfold parse_error; cbn; tauto|exact G2].
    destruct G2 as [W2 L2]. split; [split; assumption|lia].
  Qed.
  Lemma seq_go_good : forall k s, length s < m -> length s <= k ->
    match seq_go prim k s with Ok (l, r) => all_writable l /\ length r + length l <= length s | Err x => parse_error x end.
  Proof.
    induction k as [|k IH]; intros s L K; [destruct s; [cbn; auto|cbn in K; lia]|]. destruct s as [|c s]; [cbn; auto|]. cbn [seq_go].
    pose proof (diff_good (c :: s) L) as G. destruct (diff prim (c :: s)) as [[[e|] r]|x]; cbn [bind good] in *; [|split; [exact Logic.I|cbn; lia]|exact G]. destruct G as [W LR].
    specialize (IH r ltac:(lia) ltac:(lia)). destruct (seq_go prim k r) as [[l r2]|x]; cbn [bind fst snd]; [|exact IH]. destruct IH as [A B]. split; [split; assumption|cbn [length] in *; lia].
  Qed.
  Lemma seq_good : forall s, length s < m -> good 1 s (Bnf.seq prim s).
  Proof.
    intros s L. unfold Bnf.seq. pose proof (seq_go_good (length s) s L (le_n _)) as G. destruct (seq_go prim (length s) s) as [[l r]|x]; cbn [bind fst snd]; [|exact G]. destruct G as [W LR].
    destruct l as [|a [|b l]]; cbn [good length] in *; [lia|split; [apply W|lia]|]. split; [|lia]. split; [cbn; lia|]. now rewrite <- all_writable_fix.
  Qed.
  Definition alt_state (s : str) (x : res (list expr * option (option expr) * str)) : Prop :=
    match x with
    | Ok (args, Some o, r) => args <> [] /\ all_writable args /\ (match o with Some e => writable e | None => True end) /\ length r <= length s
    | Ok (_, None, _) => False
    | Err e => parse_error e
    end.
  Lemma alt_go_good : forall k args e s, length s < m -> length s <= k -> all_writable args ->
    (s <> [] \/ args <> [] /\ exists z, e = Some (Some z) /\ writable z) -> alt_state s (alt_go prim k args e s).
  Proof.
    induction k as [|k IH]; intros args e s L K W X.
    - destruct s; [|cbn in K; lia]. destruct X as [X|(X & z & -> & Z)]; [congruence|]. cbn. auto.
    - destruct s as [|c s]; [destruct X as [X|(X & z & -> & Z)]; [congruence|]; cbn; auto|]. cbn [alt_go].
      pose proof (seq_good (c :: s) L) as G. destruct (Bnf.seq prim (c :: s)) as [[e0 r]|x]; cbn [bind]; [|exact G].
      assert (GO : length r <= length (c :: s) -> writable (match e0 with Some e1 => e1 | None => ESeq [] end) -> alt_state (c :: s)
        (match r with [] => Ok (args ++ [match e0 with Some e1 => e1 | None => ESeq [] end], Some (Some (match e0 with Some e1 => e1 | None => ESeq [] end)), [])
         | _ :: _ => do t <- token r; (if is_punct (fst t) 124 then alt_go prim k (args ++ [match e0 with Some e1 => e1 | None => ESeq [] end]) (Some (Some (match e0 with Some e1 => e1 | None => ESeq [] end))) (snd t)
            else Ok (args ++ [match e0 with Some e1 => e1 | None => ESeq [] end], Some (Some (match e0 with Some e1 => e1 | None => ESeq [] end)), r)) end)).
      { intros LR WE. set (z := match e0 with Some e1 => e1 | None => ESeq [] end) in *. assert (WA : all_writable (args ++ [z])) by (apply all_writable_app; cbn; auto).
        assert (NA : args ++ [z] <> []) by (intro F; apply app_eq_nil in F; destruct F; discriminate).
        destruct r as [|d r]; [cbn [alt_state]; repeat split; auto; cbn; lia|]. pose proof (token_good (d :: r)) as T. destruct (token (d :: r)) as [[t r2]|x]; cbn [bind fst snd]; [|exact T]. destruct T as [TG TL].
        destruct (is_punct t 124); [|cbn [alt_state]; repeat split; auto]. assert (LL : length r2 < length (c :: s)) by lia. specialize (IH (args ++ [z]) (Some (Some z)) r2 ltac:(lia) ltac:(lia) WA (or_intror (conj NA (ex_intro _ z (conj eq_refl WE))))).
        unfold alt_state in *. destruct (alt_go prim k (args ++ [z]) (Some (Some z)) r2) as [[[a [o|]] q]|y]; auto. destruct IH as (A & B & C & D). repeat split; auto. lia. }
      destruct e0 as [e1|]; cbn [good] in G.
      + destruct G as [WE LR]. destruct args; apply GO; auto; lia.
      + destruct args as [|a args]; [apply GO; auto; cbn; auto|]. cbn [alt_state]. repeat split; auto; try discriminate; apply W.
  Qed.
  Lemma alt_good : forall s, length s < m -> good 0 s (alt prim s).
  Proof.
    intros s L. assert (D : s = [] \/ s <> []) by (destruct s; [now left|right; discriminate]). destruct D as [->|D]; [cbn; unfold parse_error; cbn; tauto|]. unfold alt.
    pose proof (alt_go_good (length s) [] None s L (le_n _) Logic.I (or_introl D)) as A.
    destruct (alt_go prim (length s) [] None s) as [[[a [o|]] q]|y]; cbn [bind alt_state] in *; [|contradiction|exact A]. destruct A as (NA & WA & WO & LQ).
    destruct a as [|x [|y a]]; [congruence| |].
    - destruct o; cbn [good]; [split; [exact WO|lia]|lia].
    - cbn [good]. split; [split; [cbn; lia|now rewrite <- all_writable_fix]|lia].
  Qed.
  Lemma ebnf_with_good : forall s, length s < m -> good 0 s (ebnf_with prim s).
  Proof.
    intros s L. pose proof (alt_good s L) as G. unfold ebnf_with. destruct (alt prim s) as [[e r]|x]; cbn [bind]; [|exact G]. destruct r as [|c r]; [exact G|].
    pose proof (token_good (c :: r)) as T. destruct (token (c :: r)) as [[t r2]|x]; cbn [bind fst snd]; [|exact T]. destruct T as [TG TL]. destruct (is_punct t 41); [|exact G].
    destruct e; cbn [good] in *; [|lia]. split; [apply G|]. destruct G. lia.
  Qed.
End Level.
Lemma primary_good : forall n s, length s < n -> good 1 s (primary n s).
Proof.
  induction n as [|n IH]; intros s L; [lia|]. cbn [primary]. pose proof (token_good s) as T. destruct (token s) as [[t r]|x]; cbn [bind]; [|exact T]. destruct T as [TG TL].
  destruct t; cbn [good tok_good] in *; try (split; [exact TG|lia]); try lia. destruct (c =? 40)%N; [|cbn [good]; lia].
  pose proof (ebnf_with_good (primary n) n IH r ltac:(lia)) as G. destruct (ebnf_with (primary n) r) as [[[e|] q]|x]; cbn [good] in *; [split; [apply G|lia]|lia|exact G].
Qed.
Theorem ebnf_good : forall s, good 0 s (ebnf s).
Proof. intro s. unfold ebnf. apply ebnf_with_good with (m := S (length s)); [intros; now apply primary_good|lia]. Qed.
