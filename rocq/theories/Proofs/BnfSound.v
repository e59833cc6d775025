(** Texts of tokens: what an expression was read from (C108); a text for every tree (C107). *)
From Verif Require Import Model.Py Model.Bnf Spec.BnfSpec Proofs.BnfLex Proofs.BnfParse Proofs.BnfTotal.

Definition ends_in (c : char) (ts : list btok) : Prop := exists us, ts = us ++ [BPunct c].
Definition bad (x : exn) (ts : list btok) : Prop := x = SyntaxError \/ x = IndexError /\ ends_in 45 ts \/ x = UnboundLocalError /\ ends_in 40 ts.
Lemma bad_app : forall x a b, bad x b -> bad x (a ++ b).
Proof.
  intros x a b [->|[[-> (u & ->)]|[-> (u & ->)]]]; [now left|right; left|right; right]; (split; [reflexivity|]); exists (a ++ u); now rewrite app_assoc.
Qed.
Definition marks_of (ts : list btok) : list btok := filter (fun t => negb (grouping t)) ts.
Lemma marks_of_app : forall a b, marks_of (a ++ b) = marks_of a ++ marks_of b.
Proof. intros. apply filter_app. Qed.
(** a level of the parser on a text of [ts] *)
Definition sound (ts : list btok) (x : presult) : Prop :=
  match x with
  | Ok (Some e, r) => exists a b, ts = a ++ b /\ Spelled b r /\ marks e = marks_of a
  | Ok (None, r) => exists a b, ts = a ++ b /\ Spelled b r
  | Err y => bad y ts
  end.
(** the cases of a next token *)
Lemma next_cases : forall ts s, Spelled ts s -> ts = [] /\ s = [] \/ exists t u s', ts = t :: u /\ s <> [] /\ token s = Ok (t, s') /\ Spelled u s' /\ length s' < length s.
Proof.
  intros [|t u] s P; [left; split; [reflexivity|now apply Spelled_nil]|]. right. destruct (token_spelled _ _ _ P) as (s' & E & P' & L). exists t, u, s'. repeat split; auto. exact (Spelled_cons _ _ _ P).
Qed.

Lemma op_mark : forall c, In c [63; 42; 43]%N -> marks_of [BPunct c] = [BPunct c].
Proof. intros c [<-|[<-|[<-|[]]]]; reflexivity. Qed.

Section Level.
  Variable prim : str -> presult.
  Variable m : nat.
  Hypothesis PG : forall s, length s < m -> good 1 s (prim s).
  Hypothesis PS : forall s ts, length s < m -> Spelled ts s -> ts <> [] -> sound ts (prim s).
  Hypothesis PE : prim [] = Err IndexError.

  Lemma postfix_sound : forall s ts, length s < m -> Spelled ts s -> ts <> [] -> sound ts (postfix prim s).
  Proof.
    intros s ts L P N. pose proof (PS s ts L P N) as G. unfold postfix. destruct (prim s) as [[[e|] r]|x]; cbn [bind sound] in *; [|exact G|exact G]. destruct G as (a & b & -> & Pb & M).
    destruct (next_cases b r Pb) as [[-> ->]|(t & u & s' & -> & NE & E & P' & _)]; [exists a, []; auto|]. destruct r as [|c r]; [contradiction|]. rewrite E. cbn [bind fst snd].
    assert (D : sound (a ++ t :: u) (Ok (Some e, c :: r))) by (exists a, (t :: u); auto).
    destruct t as [| | | | |c0]; try exact D. destruct (str_in_char c0 (s2l "?*+")) eqn:O; [|exact D]. apply in_ops_inv in O.
    exists (a ++ [BPunct c0]), u. rewrite <- app_assoc. split; [reflexivity|]. split; [exact P'|]. rewrite marks_of_app. cbn [marks]. rewrite M. f_equal.
    symmetry. now apply op_mark.
  Qed.
  Lemma diff_sound : forall s ts, length s < m -> Spelled ts s -> ts <> [] -> sound ts (diff prim s).
  Proof.
    intros s ts L P N. pose proof (postfix_sound s ts L P N) as G. pose proof (postfix_good prim m PG s L) as GG. unfold diff. destruct (postfix prim s) as [[[e|] r]|x]; cbn [bind sound good] in *; [|exact G|exact G]. destruct G as (a & b & -> & Pb & M). destruct GG as [_ LR].
    destruct (next_cases b r Pb) as [[-> ->]|(t & u & s' & -> & NE & E & P' & LS)]; [exists a, []; auto|]. destruct r as [|c r]; [contradiction|]. rewrite E. cbn [bind fst snd].
    assert (D : sound (a ++ t :: u) (Ok (Some e, c :: r))) by (exists a, (t :: u); auto).
    destruct (is_punct t 45) eqn:T; [|exact D]. destruct t as [| | | | |c0]; try discriminate. apply N.eqb_eq in T. subst c0. destruct u as [|t2 u2].
    - apply Spelled_nil in P'. subst s'. rewrite PE. right. left. split; [reflexivity|]. now exists a.
    - pose proof (PS s' _ ltac:(lia) P' ltac:(discriminate)) as G2. destruct (prim s') as [[[e2|] r3]|x]; cbn [bind sound] in *.
      + destruct G2 as (a2 & b2 & E2 & P2 & M2). exists (a ++ BPunct 45 :: a2), b2. rewrite <- app_assoc. cbn [app]. rewrite <- E2. split; [reflexivity|]. split; [exact P2|].
        rewrite marks_of_app. cbn [marks]. rewrite M, M2. reflexivity.
      + now left.
      + apply bad_app. change (BPunct 45 :: t2 :: u2) with ([BPunct 45] ++ t2 :: u2). now apply bad_app.
  Qed.
  Lemma seq_go_sound : forall k s ts, length s < m -> length s <= k -> Spelled ts s ->
    match seq_go prim k s with Ok (l, r) => exists a b, ts = a ++ b /\ Spelled b r /\ flat_map marks l = marks_of a | Err y => bad y ts end.
  Proof.
    induction k as [|k IH]; intros s ts L K P.
    - destruct s; [|cbn in K; lia]. cbn. exists [], ts. auto.
    - destruct (next_cases ts s P) as [[-> ->]|(t & u & s' & E & NE & _)]; [cbn; exists [], []; auto|]. assert (N : ts <> []) by (subst; discriminate). cbn [seq_go].
      pose proof (diff_sound s ts L P N) as D. pose proof (diff_good prim m PG s L) as G. destruct s as [|c s]; [contradiction|]. destruct (diff prim (c :: s)) as [[[e|] r]|x]; cbn [bind sound good] in *; [|exists [], ts; auto|exact D].
      destruct G as [_ G]. destruct D as (a & b & -> & Pb & M). specialize (IH r b ltac:(lia) ltac:(lia) Pb). destruct (seq_go prim k r) as [[l r2]|x]; cbn [bind fst snd]; [|now apply bad_app].
      destruct IH as (a2 & b2 & -> & P2 & M2). exists (a ++ a2), b2. rewrite <- app_assoc. split; [reflexivity|]. split; [exact P2|]. rewrite marks_of_app. cbn [flat_map]. now rewrite M, M2.
  Qed.
  Lemma seq_sound : forall s ts, length s < m -> Spelled ts s -> sound ts (Bnf.seq prim s) /\ (forall r, Bnf.seq prim s = Ok (None, r) -> exists a, Spelled a r /\ exists a0, ts = a0 ++ a /\ marks_of a0 = []).
  Proof.
    intros s ts L P. pose proof (seq_go_sound (length s) s ts L (le_n _) P) as G. unfold Bnf.seq. destruct (seq_go prim (length s) s) as [[l r]|x]; cbn [bind fst snd]; [|split; [exact G|discriminate]].
    destruct G as (a & b & -> & Pb & M). destruct l as [|x [|y l]]; cbn [sound].
    - split; [exists a, b; auto|]. intros r' F. injection F as <-. exists b. split; [exact Pb|]. exists a. auto.
    - split; [|discriminate]. exists a, b. split; [reflexivity|]. split; [exact Pb|]. cbn in M. now rewrite app_nil_r in M.
    - split; [|discriminate]. exists a, b. auto.
  Qed.
  Lemma alt_go_sound : forall k args e s ts, length s < m -> length s <= k -> Spelled ts s -> (forall x, args = [x] -> e = Some (Some x)) ->
    match alt_go prim k args e s with
    | Ok (args', o, r) => exists a b, ts = a ++ b /\ Spelled b r /\ flat_map marks args' = flat_map marks args ++ marks_of a /\ (forall x z, args' = [x] -> o = Some (Some z) -> z = x)
    | Err y => bad y ts
    end.
  Proof.
    induction k as [|k IH]; intros args e s ts L K P X.
    - destruct s; [|cbn in K; lia]. cbn [alt_go]. exists [], ts. split; [reflexivity|]. split; [exact P|]. split; [cbn; now rewrite app_nil_r|]. intros x z E1 E2. rewrite (X x E1) in E2. congruence.
    - destruct (next_cases ts s P) as [[-> ->]|(t0 & u0 & s0 & E0 & NE & _)].
      { cbn [alt_go]. exists [], []. split; [reflexivity|]. split; [exact P|]. split; [cbn; now rewrite app_nil_r|]. intros x z E1 E2. rewrite (X x E1) in E2. congruence. }
      destruct (seq_sound s ts L P) as [G GN]. pose proof (seq_good prim m PG s L) as GG. cbn [alt_go]. destruct s as [|c s]; [contradiction|]. destruct (Bnf.seq prim (c :: s)) as [[e0 r]|x]; cbn [bind]; [|exact G].
      assert (GO : forall z, length r <= length (c :: s) -> (exists a b, ts = a ++ b /\ Spelled b r /\ marks z = marks_of a) ->
        match (match r with [] => Ok (args ++ [z], Some (Some z), [])
         | _ :: _ => do t <- token r; (if is_punct (fst t) 124 then alt_go prim k (args ++ [z]) (Some (Some z)) (snd t) else Ok (args ++ [z], Some (Some z), r)) end) with
        | Ok (args', o, r) => exists a b, ts = a ++ b /\ Spelled b r /\ flat_map marks args' = flat_map marks args ++ marks_of a /\ (forall x z, args' = [x] -> o = Some (Some z) -> z = x)
        | Err y => bad y ts
        end).
      { intros z LR (a & b & -> & Pb & M).
        assert (LAST : forall x y, args ++ [z] = [x] -> Some (Some z) = Some (Some y) -> y = x).
        { intros x y A B. destruct args as [|q args]; [cbn in A; congruence|]. cbn in A. injection A as _ A. apply app_eq_nil in A. destruct A; discriminate. }
        assert (FM : flat_map marks (args ++ [z]) = flat_map marks args ++ marks_of a) by (rewrite flat_map_app; cbn; now rewrite app_nil_r, M).
        destruct (next_cases b r Pb) as [[-> ->]|(t & u & s' & -> & NE' & E & P' & LS)]; [exists a, []; auto|]. destruct r as [|d r]; [contradiction|]. rewrite E. cbn [bind fst snd].
        destruct (is_punct t 124) eqn:T; [|exists a, (t :: u); auto]. destruct t as [| | | | |c0]; try discriminate. apply N.eqb_eq in T. subst c0.
        specialize (IH (args ++ [z]) (Some (Some z)) s' u ltac:(lia) ltac:(lia) P' ltac:(intros x A; f_equal; f_equal; now apply (LAST x z))).
        destruct (alt_go prim k (args ++ [z]) (Some (Some z)) s') as [[[a' o] q]|y]; [|apply bad_app; change (BPunct 124 :: u) with ([BPunct 124] ++ u); now apply bad_app].
        destruct IH as (a2 & b2 & -> & P2 & M2 & LA). exists (a ++ BPunct 124 :: a2), b2. rewrite <- app_assoc. split; [reflexivity|]. split; [exact P2|]. split; [|exact LA].
        rewrite M2, FM, marks_of_app, <- app_assoc. reflexivity. }
      destruct e0 as [e1|]; cbn [good] in GG.
      + destruct args; (apply GO; [lia|exact G]).
      + destruct (GN r eq_refl) as (b & Pb & a0 & -> & M0). destruct args as [|x args].
        * apply GO; [exact GG|]. exists a0, b. auto.
        * exists a0, b. rewrite M0, app_nil_r. repeat split; auto. intros y z _ F. discriminate.
  Qed.
  Lemma alt_sound : forall s ts, length s < m -> Spelled ts s -> ts <> [] -> sound ts (alt prim s).
  Proof.
    intros s ts L P N. unfold alt. pose proof (alt_go_sound (length s) [] None s ts L (le_n _) P ltac:(discriminate)) as G.
    assert (D : s <> []) by (destruct ts; [congruence|exact (Spelled_cons _ _ _ P)]). pose proof (alt_go_good prim m PG (length s) [] None s L (le_n _) Logic.I (or_introl D)) as A.
    destruct (alt_go prim (length s) [] None s) as [[[l [o|]] q]|y]; cbn [bind alt_state] in *; [|contradiction|exact G]. destruct G as (a & b & -> & Pb & M & LA). destruct A as (NA & _).
    destruct l as [|x [|y l]]; [congruence| |].
    - destruct o as [z|]; cbn [sound]; [|exists a, b; auto]. exists a, b. rewrite (LA x z eq_refl eq_refl). cbn in M. rewrite app_nil_r in M. auto.
    - cbn [sound]. exists a, b. auto.
  Qed.
  Lemma ebnf_with_sound : forall s ts, length s < m -> Spelled ts s -> ts <> [] -> sound ts (ebnf_with prim s).
  Proof.
    intros s ts L P N. pose proof (alt_sound s ts L P N) as G. unfold ebnf_with. destruct (alt prim s) as [[e r]|x]; cbn [bind]; [|exact G].
    assert (D : exists a b, ts = a ++ b /\ Spelled b r /\ match e with Some e => marks e = marks_of a | None => True end) by (destruct e; cbn [sound] in G; destruct G as (a & b & ?); exists a, b; intuition).
    destruct D as (a & b & -> & Pb & M). destruct (next_cases b r Pb) as [[-> ->]|(t & u & s' & -> & NE' & E & P' & LS)]; [exact G|]. destruct r as [|d r]; [contradiction|]. rewrite E. cbn [bind fst snd].
    destruct (is_punct t 41) eqn:T; [|exact G]. destruct t as [| | | | |c0]; try discriminate. apply N.eqb_eq in T. subst c0.
    destruct e; cbn [sound]; exists (a ++ [BPunct 41]), u; rewrite <- app_assoc; (split; [reflexivity|]); [|exact P']. split; [exact P'|]. rewrite marks_of_app, M. cbn. now rewrite app_nil_r.
  Qed.
End Level.
Lemma primary_nil : forall n, primary (S n) [] = Err IndexError.
Proof. reflexivity. Qed.
Lemma primary_sound : forall n s ts, length s < n -> Spelled ts s -> ts <> [] -> sound ts (primary n s).
Proof.
  induction n as [|n IH]; intros s ts L P N; [lia|]. cbn [primary]. destruct (next_cases ts s P) as [[-> _]|(t & u & s' & -> & NE & E & P' & LS)]; [congruence|]. rewrite E. cbn [bind].
  assert (A : forall e, marks e = marks_of [t] -> sound (t :: u) (Ok (Some e, s'))) by (intros e M; exists [t], u; auto).
  assert (Z : sound (t :: u) (Ok (None, s'))) by (exists [t], u; auto).
  destruct t as [l|l|x|x|x|c]; try (apply A; reflexivity); try exact Z. destruct (c =? 40)%N eqn:C; [|exact Z]. apply N.eqb_eq in C. subst c. destruct u as [|t2 u2].
  - apply Spelled_nil in P'. subst s'. right. right. split; [reflexivity|]. now exists [].
  - destruct n as [|n]; [lia|].
    pose proof (ebnf_with_sound (primary (S n)) (S n) (fun s H => primary_good (S n) s H) IH (primary_nil n) s' _ ltac:(lia) P' ltac:(discriminate)) as G.
    destruct (ebnf_with (primary (S n)) s') as [[[e|] q]|x]; cbn [sound] in *.
    + destruct G as (a & b & -> & Pb & M). exists (BPunct 40 :: a), b. auto.
    + destruct G as (a & b & -> & Pb). exists (BPunct 40 :: a), b. auto.
    + change (BPunct 40 :: t2 :: u2) with ([BPunct 40] ++ t2 :: u2). now apply bad_app.
Qed.
Theorem ebnf_sound : forall s ts, Spelled ts s -> ts <> [] -> sound ts (ebnf s).
Proof.
  intros s ts P N. unfold ebnf. apply ebnf_with_sound with (m := S (length s)); auto; [intros; now apply primary_good|intros; now apply primary_sound].
Qed.

(** ** A text for every tree *)
Fixpoint show (e : expr) : list btok :=
  match e with
  | EId x => [BId x] | ELit l => [BLit l] | ESet l => [BSet l] | EHash x => [BHash x]
  | EPost c a => BPunct 40 :: (show a ++ [BPunct c]) ++ [BPunct 41]
  | EDiff a b => BPunct 40 :: (show a ++ BPunct 45 :: show b) ++ [BPunct 41]
  | ESeq l => BPunct 40 :: flat_map show l ++ [BPunct 41]
  | EAlt l => BPunct 40 :: tl (flat_map (fun x => BPunct 124 :: show x) l) ++ [BPunct 41]
  end.
Section Ind.
  Variable Q : expr -> Prop.
  Hypothesis HId : forall x, Q (EId x).
  Hypothesis HLit : forall x, Q (ELit x).
  Hypothesis HSet : forall x, Q (ESet x).
  Hypothesis HHash : forall x, Q (EHash x).
  Hypothesis HPost : forall c a, Q a -> Q (EPost c a).
  Hypothesis HDiff : forall a b, Q a -> Q b -> Q (EDiff a b).
  Hypothesis HSeq : forall l, Forall Q l -> Q (ESeq l).
  Hypothesis HAlt : forall l, Forall Q l -> Q (EAlt l).
  Fixpoint expr_ind' (e : expr) : Q e :=
    match e with
    | EId x => HId x | ELit x => HLit x | ESet x => HSet x | EHash x => HHash x
    | EPost c a => HPost c a (expr_ind' a)
    | EDiff a b => HDiff a b (expr_ind' a) (expr_ind' b)
    | ESeq l => HSeq l ((fix go l : Forall Q l := match l with [] => Forall_nil Q | x :: r => Forall_cons x (expr_ind' x) (go r) end) l)
    | EAlt l => HAlt l ((fix go l : Forall Q l := match l with [] => Forall_nil Q | x :: r => Forall_cons x (expr_ind' x) (go r) end) l)
    end.
End Ind.
Lemma all_writable_in : forall l, all_writable l <-> forall x, In x l -> writable x.
Proof.
  induction l as [|x l IH]; cbn [all_writable In]; [split; [intros _ y []|auto]|]. rewrite IH. split; [intros [A B] y [<-|J]; auto|]. intro H. split; [apply H; now left|]. intros y J. apply H. now right.
Qed.
Lemma prim_seq : forall e ts, g_prim e ts -> g_seq e ts.
Proof. intros. now do 4 constructor. Qed.
Lemma items_show : forall l, l <> [] -> (forall x, In x l -> g_prim x (show x)) -> g_items l (flat_map show l).
Proof.
  induction l as [|x l IH]; intros N H; [congruence|]. destruct l as [|y l].
  - cbn. rewrite app_nil_r. do 3 constructor. apply H. now left.
  - change (flat_map show (x :: y :: l)) with (show x ++ flat_map show (y :: l)). apply gi_more; [do 2 constructor; apply H; now left|]. apply IH; [discriminate|]. intros z J. apply H. now right.
Qed.
Lemma bars_show : forall l, (forall x, In x l -> g_prim x (show x)) -> g_bars l (flat_map (fun x => BPunct 124 :: show x) l).
Proof.
  induction l as [|x l IH]; intro H; [constructor|]. cbn [flat_map]. rewrite <- app_comm_cons. apply gb_cons; [apply prim_seq, H; now left|]. apply IH. intros z J. apply H. now right.
Qed.
Lemma show_prim : forall e, writable e -> g_prim e (show e).
Proof.
  intro e. induction e using expr_ind'; intro W; cbn [show].
  1-4: constructor; constructor.
  - destruct W as [J W]. apply gp_group, ga_one, gs_one, gi_one, gd_post. now apply go_op; [|apply IHe].
  - destruct W as [W1 W2]. apply gp_group, ga_one, gs_one, gi_one. apply gd_diff; [constructor; now apply IHe1|now apply IHe2].
  - destruct W as [NL W]. rewrite <- all_writable_fix in W. rewrite all_writable_in in W. apply gp_group. rewrite Forall_forall in H. destruct l as [|a [|b l]]; [exact ga_empty|cbn in NL; lia|].
    apply ga_one, gs_many, items_show; [discriminate|]. intros x J. auto.
  - destruct W as [NL W]. rewrite <- all_writable_fix in W. rewrite all_writable_in in W. apply gp_group. rewrite Forall_forall in H. destruct l as [|a [|b l]]; [cbn in NL; lia|cbn in NL; lia|].
    change (tl (flat_map (fun x => BPunct 124 :: show x) (a :: b :: l))) with (show a ++ flat_map (fun x => BPunct 124 :: show x) (b :: l)).
    apply ga_many; [apply prim_seq, H; [now left|apply W; now left]|]. apply bars_show. intros x J. apply H; [now right|apply W; now right].
Qed.
Definition tok_fine (t : btok) : Prop := exists x, tok_text t x.
Lemma show_fine : forall e, writable e -> Forall tok_fine (show e).
Proof.
  assert (PU : forall c, In c [40; 63; 41; 42; 43; 124; 45]%N -> tok_fine (BPunct c)) by (intros c J; exists [c]; now constructor).
  assert (P1 : tok_fine (BPunct 40)) by (apply PU; cbn; tauto). assert (P2 : tok_fine (BPunct 41)) by (apply PU; cbn; tauto).
  intro e. induction e using expr_ind'; intro W; cbn [show].
  - constructor; [|constructor]. cbn in W. destruct x as [|c x]; [contradiction|]. destruct W as [L W]. exists (c :: x). now constructor.
  - constructor; [|constructor]. destruct W as [W|W]; eexists; [now apply tt_single|now apply tt_double].
  - constructor; [|constructor]. eexists. now apply tt_set.
  - constructor; [|constructor]. destruct W as (y & -> & N & W). eexists. now apply tt_hash.
  - destruct W as [J W]. constructor; [exact P1|]. rewrite !Forall_app. repeat split; auto. constructor; [|constructor]. apply PU. cbn in J |- *. tauto.
  - destruct W as [W1 W2]. constructor; [exact P1|]. rewrite !Forall_app. repeat split; auto. constructor; [|auto]. apply PU. cbn. tauto.
  - destruct W as [NL W]. rewrite <- all_writable_fix in W. rewrite all_writable_in in W. rewrite Forall_forall in H. constructor; [exact P1|]. rewrite Forall_app. split; [|auto].
    rewrite Forall_forall. intros t J. apply in_flat_map in J. destruct J as (x & J & K). specialize (H x J (W x J)). rewrite Forall_forall in H. auto.
  - destruct W as [NL W]. rewrite <- all_writable_fix in W. rewrite all_writable_in in W. rewrite Forall_forall in H. constructor; [exact P1|]. rewrite Forall_app. split; [|auto].
    assert (F : Forall tok_fine (flat_map (fun x => BPunct 124 :: show x) l)).
    { rewrite Forall_forall. intros t J. apply in_flat_map in J. destruct J as (x & J & [<-|K]); [apply PU; cbn; tauto|]. specialize (H x J (W x J)). rewrite Forall_forall in H. auto. }
    destruct F; [constructor|assumption].
Qed.
Lemma fine_spelled : forall ts, Forall tok_fine ts -> exists s, spelled ts s /\ match s with c :: _ => c = 32%N | [] => True end.
Proof.
  induction 1 as [|t ts (x & T) _ (s & P & H)]; [exists []; split; [constructor|exact Logic.I]|]. exists ([32%N] ++ x ++ s). split; [|reflexivity]. constructor; auto.
  - intros c [<-|[]]. unfold blank. cbn. tauto.
  - intros _. destruct s as [|c s]; [exact Logic.I|]. subst c. unfold word_char, letter. lia.
Qed.
Theorem every_tree : forall e, writable e -> exists ts s, g_alt e ts /\ ts <> [] /\ Spelled ts s.
Proof.
  intros e W. destruct (fine_spelled _ (show_fine e W)) as (s & P & _). exists (show e), s. split; [now apply ga_one, prim_seq, show_prim|]. split.
  - destruct e; discriminate.
  - exists s, []. rewrite app_nil_r. split; [reflexivity|]. split; [intros c []|]. auto.
Qed.

(** ** As many parentheses open as close *)
Definition opens (c : char) (ts : list btok) : nat := length (filter (fun t => is_punct t c) ts).
Lemma opens_app : forall c a b, opens c (a ++ b) = opens c a + opens c b.
Proof. intros. unfold opens. rewrite filter_app, app_length. reflexivity. Qed.
Lemma opens_cons : forall c t b, opens c (t :: b) = (if is_punct t c then 1 else 0) + opens c b.
Proof. intros. unfold opens. cbn [filter]. destruct (is_punct t c); reflexivity. Qed.
Lemma all_balanced :
  (forall e ts, g_prim e ts -> opens 40 ts = opens 41 ts) /\ (forall e ts, g_post e ts -> opens 40 ts = opens 41 ts) /\
  (forall e ts, g_diff e ts -> opens 40 ts = opens 41 ts) /\ (forall l ts, g_items l ts -> opens 40 ts = opens 41 ts) /\
  (forall e ts, g_seq e ts -> opens 40 ts = opens 41 ts) /\ (forall l ts, g_bars l ts -> opens 40 ts = opens 41 ts) /\
  (forall e ts, g_alt e ts -> opens 40 ts = opens 41 ts).
Proof.
  apply g_mutind; intros; try assumption; try reflexivity.
  - destruct a; reflexivity.
  - rewrite !(opens_cons _ (BPunct 40)), !opens_app. cbn. lia.
  - rewrite !opens_app. destruct i as [<-|[<-|[<-|[]]]]; cbn; lia.
  - rewrite !opens_app, !(opens_cons _ (BPunct 45)). cbn. lia.
  - rewrite !opens_app. lia.
  - rewrite !(opens_cons _ (BPunct 124)), !opens_app. cbn. lia.
  - rewrite !opens_app. lia.
Qed.
Lemma alt_balanced : forall e ts, g_alt e ts -> opens 40 ts = opens 41 ts.
Proof. apply all_balanced. Qed.
