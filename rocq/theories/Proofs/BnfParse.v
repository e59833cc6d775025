(** The parser of Model/Bnf.v reads every text of the notation (C107). *)
From Verif Require Import Model.Py Model.Bnf Spec.BnfSpec Proofs.BnfLex.

Scheme g_prim_mind := Induction for g_prim Sort Prop
with g_post_mind := Induction for g_post Sort Prop
with g_diff_mind := Induction for g_diff Sort Prop
with g_items_mind := Induction for g_items Sort Prop
with g_seq_mind := Induction for g_seq Sort Prop
with g_bars_mind := Induction for g_bars Sort Prop
with g_alt_mind := Induction for g_alt Sort Prop.
Combined Scheme g_mutind from g_prim_mind, g_post_mind, g_diff_mind, g_items_mind, g_seq_mind, g_bars_mind, g_alt_mind.

(** what may follow *)
Definition heads (p : btok -> Prop) (r : list btok) : Prop := match r with t :: _ => p t | [] => True end.
Definition no_op (t : btok) : Prop := match t with BPunct c => ~ In c [63; 42; 43]%N | _ => True end.
Definition no_op_minus (t : btok) : Prop := match t with BPunct c => ~ In c [63; 42; 43; 45]%N | _ => True end.
Definition ends_seq (t : btok) : Prop := t = BPunct 41 \/ t = BPunct 124.
Definition ends_alt (t : btok) : Prop := t = BPunct 41.
(** what an item starts with *)
Definition starts_item (t : btok) : Prop := match t with BPunct c => c = 40%N | BAt _ => False | _ => True end.

Definition reads (f : str -> presult) (e : expr) (r : list btok) (s : str) : Prop :=
  exists s', f s = Ok (Some e, s') /\ Spelled r s' /\ length s' < length s.

Definition C_prim (e : expr) (ts : list btok) : Prop := (exists t u, ts = t :: u /\ starts_item t) /\
  forall n s r, Spelled (ts ++ r) s -> length s < n -> reads (primary n) e r s.
Definition C_post (e : expr) (ts : list btok) : Prop := (exists t u, ts = t :: u /\ starts_item t) /\
  forall n s r, Spelled (ts ++ r) s -> length s < n -> heads no_op r -> reads (postfix (primary n)) e r s.
Definition C_diff (e : expr) (ts : list btok) : Prop := (exists t u, ts = t :: u /\ starts_item t) /\
  forall n s r, Spelled (ts ++ r) s -> length s < n -> heads no_op_minus r -> reads (diff (primary n)) e r s.
Definition C_items (l : list expr) (ts : list btok) : Prop := (exists t u, ts = t :: u /\ starts_item t) /\
  forall n k s r, Spelled (ts ++ r) s -> length s < n -> length s <= k -> heads ends_seq r ->
  exists s', seq_go (primary n) k s = Ok (l, s') /\ Spelled r s' /\ length s' < length s.
Definition C_seq (e : expr) (ts : list btok) : Prop := (exists t u, ts = t :: u /\ starts_item t) /\
  forall n s r, Spelled (ts ++ r) s -> length s < n -> heads ends_seq r -> reads (Bnf.seq (primary n)) e r s.
Definition cont (n k : nat) (args : list expr) (e1 : expr) (s1 : str) : res (list expr * option (option expr) * str) :=
  match s1 with
  | [] => Ok (args ++ [e1], Some (Some e1), [])
  | _ => do t <- token s1 ; if is_punct (fst t) 124 then alt_go (primary n) k (args ++ [e1]) (Some (Some e1)) (snd t)
                            else Ok (args ++ [e1], Some (Some e1), s1)
  end.
Definition C_bars (l : list expr) (us : list btok) : Prop := (l = [] /\ us = [] \/ l <> [] /\ exists u, us = BPunct 124 :: u) /\
  forall n k args e1 s r, Spelled (us ++ r) s -> length s < n -> length s <= S k -> heads ends_alt r ->
  exists s' z, cont n k args e1 s = Ok (args ++ e1 :: l, Some (Some z), s') /\ Spelled r s' /\ (l = [] -> z = e1 /\ s' = s) /\ length s' <= length s.
Definition C_alt (e : expr) (ts : list btok) : Prop :=
  forall n s r, Spelled (ts ++ r) s -> ts ++ r <> [] -> length s < n -> heads ends_alt r ->
  exists s', alt (primary n) s = Ok (Some e, s') /\ Spelled r s' /\ length s' <= length s.

(** a position where no item starts *)
Lemma prim_none : forall t r s n, ends_seq t -> Spelled (t :: r) s -> 0 < n -> exists s', primary n s = Ok (None, s').
Proof.
  intros t r s n T P L. destruct (token_spelled _ _ _ P) as (s' & E & _ & _). destruct n as [|n]; [lia|]. cbn [primary]. rewrite E. cbn.
  destruct T as [-> | ->]; cbn; eauto.
Qed.
Lemma diff_none : forall t r s n, ends_seq t -> Spelled (t :: r) s -> 0 < n -> exists s', diff (primary n) s = Ok (None, s').
Proof. intros t r s n T P L. destruct (prim_none t r s n T P L) as (s' & E). exists s'. unfold diff, postfix. now rewrite E. Qed.
Lemma seq_go_none : forall t r s n k, ends_seq t -> Spelled (t :: r) s -> 0 < n -> 0 < k -> seq_go (primary n) k s = Ok ([], s).
Proof.
  intros t r s n k T P L K. destruct (diff_none t r s n T P L) as (s' & E). destruct k as [|k]; [lia|].
  pose proof (Spelled_cons _ _ _ P) as NE. cbn [seq_go]. rewrite E. cbn. destruct s; [contradiction|reflexivity].
Qed.
Lemma seq_none : forall t r s n, ends_seq t -> Spelled (t :: r) s -> 0 < n -> Bnf.seq (primary n) s = Ok (None, s).
Proof.
  intros t r s n T P L. assert (0 < length s) by (pose proof (Spelled_cons _ _ _ P); destruct s; [contradiction|cbn; lia]). unfold Bnf.seq. now rewrite (seq_go_none t r).
Qed.
Lemma seq_go_step : forall n k s e s1, s <> [] -> diff (primary n) s = Ok (Some e, s1) ->
  seq_go (primary n) (S k) s = (do y <- seq_go (primary n) k s1 ; Ok (e :: fst y, snd y)).
Proof. intros n k s e s1 NE E. cbn [seq_go]. rewrite E. destruct s; [contradiction|reflexivity]. Qed.
Lemma alt_go_step : forall n k args e s e1 s1, s <> [] -> Bnf.seq (primary n) s = Ok (Some e1, s1) ->
  alt_go (primary n) (S k) args e s = cont n k args e1 s1.
Proof. intros n k args e s e1 s1 NE E. cbn [alt_go]. rewrite E. destruct s; [contradiction|]. cbn [bind]. destruct args; reflexivity. Qed.

Lemma heads_weaken : forall (p q : btok -> Prop) r, (forall t, p t -> q t) -> heads p r -> heads q r.
Proof. intros p q [|t r] H X; cbn in *; auto. Qed.
Lemma ends_seq_no : forall t, ends_seq t -> no_op_minus t.
Proof. intros t [-> | ->]; cbn; lia. Qed.
Lemma starts_no : forall t, starts_item t -> no_op_minus t.
Proof. intros [] H; cbn in *; auto. subst. lia. Qed.
Lemma no_minus_no : forall t, no_op_minus t -> no_op t.
Proof. intros [] H; cbn in *; auto. tauto. Qed.
Lemma in_ops : forall c, In c [63; 42; 43]%N -> str_in_char c (s2l "?*+") = true.
Proof. intros c J. cbn [In] in J. repeat destruct J as [<-|J]; try reflexivity. contradiction. Qed.
Lemma not_in_ops : forall c, ~ In c [63; 42; 43]%N -> str_in_char c (s2l "?*+") = false.
Proof.
  intros c J. unfold str_in_char. apply not_true_iff_false. intro E. apply existsb_exists in E. destruct E as (x & X & Y). apply N.eqb_eq in Y. subst x.
  apply J. cbn in X |- *. lia.
Qed.

Lemma complete_all :
  (forall e ts, g_prim e ts -> C_prim e ts) /\ (forall e ts, g_post e ts -> C_post e ts) /\ (forall e ts, g_diff e ts -> C_diff e ts) /\
  (forall l ts, g_items l ts -> C_items l ts) /\ (forall e ts, g_seq e ts -> C_seq e ts) /\ (forall l ts, g_bars l ts -> C_bars l ts) /\
  (forall e ts, g_alt e ts -> C_alt e ts).
Proof.
  apply g_mutind.
  - (* atom *) intros e t A. split; [destruct A; eexists; eexists; (split; [reflexivity|exact Logic.I])|].
    intros n s r P L. destruct (token_spelled _ _ _ P) as (s' & E & P' & L'). destruct n as [|n]; [lia|]. exists s'. cbn [primary]. rewrite E. destruct A; auto.
  - (* group *) intros e ts G IH. split; [eexists; eexists; split; [reflexivity|reflexivity]|]. intros n s r P L. rewrite <- app_comm_cons, <- app_assoc in P. destruct (token_spelled _ _ _ P) as (s1 & E & P1 & L1).
    destruct n as [|n]; [lia|]. destruct (IH n s1 _ P1) as (s2 & E2 & P2 & L2); [intro X; apply app_eq_nil in X; destruct X; discriminate|lia|reflexivity|].
    destruct (token_spelled _ _ _ P2) as (s3 & E3 & P3 & L3). exists s3. split; [|split; [exact P3|lia]].
    cbn [primary]. rewrite E. cbn [bind fst]. change (40 =? 40)%N with true. cbv iota. unfold ebnf_with. rewrite E2. cbn [bind]. pose proof (Spelled_cons _ _ _ P2) as NE. destruct s2; [contradiction|]. rewrite E3. reflexivity.
  - (* prim as post *) intros e ts G [S IH]. split; [exact S|]. intros n s r P L H. destruct (IH n s r P L) as (s1 & E1 & P1 & L1). exists s1. split; [|auto]. unfold postfix. rewrite E1. cbn [bind].
    destruct r as [|t r]; [apply Spelled_nil in P1; subst; reflexivity|]. pose proof (Spelled_cons _ _ _ P1) as NE. destruct (token_spelled _ _ _ P1) as (s2 & E2 & _).
    destruct s1; [contradiction|]. rewrite E2. cbn [bind fst snd]. destruct t; try reflexivity. cbn in H. now rewrite not_in_ops.
  - (* op *) intros c e ts J G [S IH]. split; [destruct S as (t & u & -> & X); cbn; eauto|]. intros n s r P L H. rewrite <- app_assoc in P. destruct (IH n s _ P L) as (s1 & E1 & P1 & L1).
    pose proof (Spelled_cons _ _ _ P1) as NE. destruct (token_spelled _ _ _ P1) as (s2 & E2 & P2 & L2). exists s2. split; [|split; [exact P2|lia]]. unfold postfix. rewrite E1. cbn [bind]. destruct s1; [contradiction|].
    rewrite E2. cbn [bind fst snd]. now rewrite in_ops.
  - (* post as diff *) intros e ts G [S IH]. split; [exact S|]. intros n s r P L H. destruct (IH n s r P L (heads_weaken _ _ _ no_minus_no H)) as (s1 & E1 & P1 & L1). exists s1. split; [|auto]. unfold diff. rewrite E1. cbn [bind].
    destruct r as [|t r]; [apply Spelled_nil in P1; subst; reflexivity|]. pose proof (Spelled_cons _ _ _ P1) as NE. destruct (token_spelled _ _ _ P1) as (s2 & E2 & _).
    destruct s1; [contradiction|]. rewrite E2. cbn [bind fst snd]. destruct t; try reflexivity. cbn in H. cbn [is_punct]. destruct (N.eqb_spec c 45); [subst; tauto|reflexivity].
  - (* diff *) intros a b ts us G [S IH] G2 [S2 IH2]. split; [destruct S as (t & u & -> & X); cbn; eauto|]. intros n s r P L H. rewrite <- app_assoc in P. destruct (IH n s _ P L) as (s1 & E1 & P1 & L1); [cbn; lia|].
    cbn [app] in P1. pose proof (Spelled_cons _ _ _ P1) as NE. destruct (token_spelled _ _ _ P1) as (s2 & E2 & P2 & L2).
    destruct (IH2 n s2 _ P2) as (s3 & E3 & P3 & L3); [lia|]. exists s3. split; [|split; [exact P3|lia]]. unfold diff. rewrite E1. cbn [bind]. destruct s1; [contradiction|].
    rewrite E2. cbn [bind fst snd is_punct]. change (45 =? 45)%N with true. cbv iota. rewrite E3. reflexivity.
  - (* one item *) intros e ts G [S IH]. split; [exact S|]. intros n k s r P L K H.
    assert (NE : s <> []) by (destruct S as (t & u & -> & _); exact (Spelled_cons _ _ _ P)).
    destruct (IH n s r P L (heads_weaken _ _ _ ends_seq_no H)) as (s1 & E1 & P1 & L1). exists s1. split; [|auto]. destruct k as [|k]; [destruct s; [contradiction|cbn in K; lia]|].
    rewrite (seq_go_step n k s e s1 NE E1). destruct r as [|t r]; [apply Spelled_nil in P1; subst; destruct k; reflexivity|].
    assert (NE1 : s1 <> []) by exact (Spelled_cons _ _ _ P1). assert (0 < length s1) by (destruct s1; [contradiction|cbn; lia]).
    rewrite (seq_go_none t r s1 n k) by (auto; lia). reflexivity.
  - (* more items *) intros e l ts us G [S IH] G2 [S2 IH2]. split; [destruct S as (t & u & -> & X); cbn; eauto|]. intros n k s r P L K H. rewrite <- app_assoc in P.
    assert (NE : s <> []) by (destruct S as (t & u & -> & _); exact (Spelled_cons _ _ _ P)).
    destruct (IH n s (us ++ r) P L) as (s1 & E1 & P1 & L1). { destruct S2 as (t & u & -> & X). cbn. now apply starts_no. }
    destruct k as [|k]; [destruct s; [contradiction|cbn in K; lia]|]. destruct (IH2 n k s1 r P1) as (s2 & E2 & P2 & L2); [lia|lia|exact H|]. exists s2. split; [|split; [exact P2|lia]].
    rewrite (seq_go_step n k s e s1 NE E1), E2. reflexivity.
  - (* sequence of one *) intros e ts G [S IH]. split; [exact S|]. intros n s r P L H. destruct (IH n (length s) s r P L (le_n _) H) as (s1 & E1 & P1 & L1). exists s1. split; [|auto]. unfold Bnf.seq. now rewrite E1.
  - intros a b l ts G [S IH]. split; [exact S|]. intros n s r P L H. destruct (IH n (length s) s r P L (le_n _) H) as (s1 & E1 & P1 & L1). exists s1. split; [|auto]. unfold Bnf.seq. now rewrite E1.
  - (* no more bars *) split; [auto|]. intros n k args e1 s r P L K H. exists s, e1. split; [|auto]. cbn [app] in P. unfold cont. destruct r as [|t r]; [apply Spelled_nil in P; subst; reflexivity|].
    pose proof (Spelled_cons _ _ _ P) as NE. destruct (token_spelled _ _ _ P) as (s2 & E2 & _). destruct s; [contradiction|]. rewrite E2. cbn in H. rewrite H. reflexivity.
  - (* a bar *) intros e l ts us G [S IH] G2 [S2 IH2]. split; [right; split; [discriminate|eauto]|]. intros n k args e1 s r P L K H. rewrite <- app_comm_cons, <- app_assoc in P. pose proof (Spelled_cons _ _ _ P) as NE.
    destruct (token_spelled _ _ _ P) as (s1 & E1 & P1 & L1). destruct (IH n s1 (us ++ r) P1) as (s2 & E2 & P2 & L2); [lia| |].
    { destruct S2 as [[-> ->]|[_ [u ->]]]; cbn [app]; [|right; reflexivity]. eapply heads_weaken; [|exact H]. intros t ->. now left. }
    assert (NE1 : s1 <> []) by (destruct S as (t & u & -> & _); exact (Spelled_cons _ _ _ P1)). destruct k as [|k]; [destruct s1; [contradiction|cbn in L1; lia]|].
    destruct (IH2 n k (args ++ [e1]) e s2 r P2) as (s3 & z & E3 & P3 & _ & L3); [lia|lia|exact H|]. exists s3, z. split; [|split; [exact P3|split; [discriminate|lia]]].
    unfold cont at 1. destruct s; [contradiction|]. rewrite E1. cbn [bind fst snd is_punct]. change (124 =? 124)%N with true. cbv iota. rewrite (alt_go_step n k _ _ s1 e s2 NE1 E2), E3, <- app_assoc. reflexivity.
  - (* one alternative *) intros e ts G [S IH] n s r P N L H. assert (NE : s <> []) by (destruct S as (t & u & -> & _); exact (Spelled_cons _ _ _ P)).
    destruct (IH n s r P L) as (s1 & E1 & P1 & L1). { eapply heads_weaken; [|exact H]. intros t ->. now left. }
    exists s1. split; [|split; [exact P1|lia]]. unfold alt. replace (length s) with (Datatypes.S (pred (length s))) by (destruct s; [contradiction|reflexivity]). rewrite (alt_go_step n _ [] None s e s1 NE E1). unfold cont.
    destruct r as [|t r]; [apply Spelled_nil in P1; subst; reflexivity|]. pose proof (Spelled_cons _ _ _ P1) as NE1. destruct (token_spelled _ _ _ P1) as (s2 & E2 & _). destruct s1; [contradiction|]. rewrite E2. cbn in H. rewrite H. reflexivity.
  - (* empty *) intros n s r P N L H. cbn [app] in P, N. destruct r as [|t r]; [contradiction|]. cbn in H. pose proof (Spelled_cons _ _ _ P) as NE. exists s. split; [|auto]. unfold alt.
    replace (length s) with (Datatypes.S (pred (length s))) by (destruct s; [contradiction|reflexivity]). cbn [alt_go]. rewrite (seq_none t r s n (or_introl H) P ltac:(lia)). cbn [bind].
    destruct (token_spelled _ _ _ P) as (s2 & E2 & _). rewrite E2. destruct s; [contradiction|]. cbn [bind fst snd]. rewrite H. reflexivity.
  - (* several *) intros e b l ts us G [S IH] G2 [S2 IH2] n s r P N L H. rewrite <- app_assoc in P. assert (NE : s <> []) by (destruct S as (t & u & -> & _); exact (Spelled_cons _ _ _ P)).
    destruct (IH n s (us ++ r) P L) as (s1 & E1 & P1 & L1). { destruct S2 as [[X _]|[_ [u ->]]]; [discriminate|]. cbn. now right. }
    destruct (IH2 n (pred (length s)) [] e s1 r P1) as (s2 & z & E2 & P2 & _ & L2); [lia|lia|exact H|]. exists s2. split; [|split; [exact P2|lia]]. unfold alt.
    replace (length s) with (Datatypes.S (pred (length s))) at 1 by (destruct s; [contradiction|reflexivity]). rewrite (alt_go_step n _ [] None s e s1 NE E1), E2. reflexivity.
  - (* empty first *) intros b l us G2 [S2 IH2] n s r P N L H. destruct S2 as [[X _]|[_ [u ->]]]; [discriminate|]. pose proof (Spelled_cons _ _ _ P) as NE.
    pose proof (seq_none (BPunct 124) (u ++ r) s n (or_intror eq_refl) P ltac:(lia)) as E1.
    destruct (IH2 n (pred (length s)) [] (ESeq []) s r P) as (s2 & z & E2 & P2 & _ & L2); [lia|lia|exact H|]. exists s2. split; [|split; [exact P2|lia]]. unfold alt.
    replace (length s) with (Datatypes.S (pred (length s))) at 1 by (destruct s; [contradiction|reflexivity]). cbn [alt_go]. rewrite E1. cbn [bind].
    unfold cont in E2. cbn [app] in E2 |- *. destruct s as [|x s]; [contradiction|]. rewrite E2. reflexivity.
Qed.

Theorem ebnf_reads : forall e ts s, g_alt e ts -> Spelled ts s -> ts <> [] -> ebnf s = Ok (Some e, []).
Proof.
  intros e ts s G P N. destruct complete_all as (_ & _ & _ & _ & _ & _ & A). destruct (A e ts G (S (length s)) s []) as (s' & E & P' & _); [now rewrite app_nil_r|now rewrite app_nil_r|lia|exact Logic.I|].
  apply Spelled_nil in P'. subst s'. unfold ebnf, ebnf_with. now rewrite E.
Qed.
