(** Tokens of Turtle texts, continued: each scanner accepts exactly its token (C82). *)
From Verif Require Import Model.Py Model.Terms Model.Codec Model.NTriples Model.TurtleTree Model.Turtle Model.TurtleParse
  Spec.CodecSpec Spec.TurtleSpec Spec.TurtleTextSpec Proofs.CodecLemmas Proofs.NTLex Proofs.TurtleLemmas Proofs.TurtleScan.
Open Scope N_scope.

Definition pre_opt (x : str) (o : option (str * str)) : option (str * str) :=
  match o with Some (l, t) => Some (x ++ l, t) | None => None end.
Lemma cons_pre : forall c o, cons_tok c o = pre_opt [c] o.
Proof. intros c [[l t]|]; reflexivity. Qed.
Lemma pre_pre : forall x y o, pre_opt x (pre_opt y o) = pre_opt (x ++ y) o.
Proof. intros x y [[l t]|]; cbn; auto. now rewrite app_assoc. Qed.
Lemma pre_inv : forall x o b t, pre_opt x o = Some (b, t) -> exists l, o = Some (l, t) /\ b = x ++ l.
Proof. intros x [[l u]|] b t E; [|discriminate]. injection E as <- <-. eauto. Qed.
Lemma cons_inv : forall c o b t, cons_tok c o = Some (b, t) -> exists l, o = Some (l, t) /\ b = c :: l.
Proof. intros c o b t E. rewrite cons_pre in E. apply pre_inv in E. exact E. Qed.
Lemma pair_pre_inv : forall x y b t, pre_tok x y = (b, t) -> exists l, y = (l, t) /\ b = x ++ l.
Proof. intros x [l u] b t E. injection E as <- <-. eauto. Qed.
Definition hexes (n : nat) (h : str) : Prop := length h = n /\ Forall (fun c => hexdigit c = true) h.

(** ** Escapes: each scanner with escapes reads a hex run in the same way *)
Section Esc.
  Variable f : lexst -> str -> option (str * str).
  Hypothesis f_hex : forall k c r, f (LHex k) (c :: r) = if is_hex c then cons_tok c (f (hex_next k) r) else None.
  Hypothesis f_nil : forall st, f st [] = None.
  Lemma hex_run : forall h k r, length h = S k -> Forall (fun c => hexdigit c = true) h -> f (LHex k) (h ++ r) = pre_opt h (f LNormal r).
  Proof.
    induction h as [|c h IH]; intros k r L F; [discriminate|]. inversion F as [|? ? C F']; subst. cbn [app]. rewrite f_hex.
    apply is_hex_iff in C. rewrite C, cons_pre. destruct k as [|k].
    - destruct h; [reflexivity|discriminate].
    - cbn [hex_next]. rewrite IH by (auto; cbn in L; congruence). now rewrite pre_pre.
  Qed.
  Lemma hex_run_inv : forall k s b t, f (LHex k) s = Some (b, t) ->
    exists h l r, hexes (S k) h /\ s = h ++ r /\ b = h ++ l /\ f LNormal r = Some (l, t).
  Proof.
    induction k as [|k IH]; intros [|c s] b t E; try (rewrite f_nil in E; discriminate); rewrite f_hex in E;
      destruct (is_hex c) eqn:C; try discriminate; apply is_hex_iff in C; apply cons_inv in E; destruct E as (l & E & ->).
    - exists [c], l, s. repeat split; auto.
    - cbn [hex_next] in E. apply IH in E. destruct E as (h & l' & r & (L & F) & -> & -> & E).
      exists (c :: h), l', r. repeat split; auto. cbn. congruence.
  Qed.
End Esc.

(** ** IRIREF *)
Lemma ref_esc : forall r, lex_ref LEsc (117 :: r) = pre_opt [117] (lex_ref (LHex 3) r) /\ lex_ref LEsc (85 :: r) = pre_opt [85] (lex_ref (LHex 7) r).
Proof. intro r. split; cbn [lex_ref]; change (117 =? 117) with true; change (85 =? 117) with false; change (85 =? 85) with true; cbv iota; apply cons_pre. Qed.
Lemma ref_esc1 : forall r, lex_ref LNormal (92 :: r) = pre_opt [92] (lex_ref LEsc r).
Proof. intro r. cbn [lex_ref]. change (92 =? 62) with false. change (92 =? 92) with true. cbv iota. apply cons_pre. Qed.
Lemma ref_hex : forall k c r, lex_ref (LHex k) (c :: r) = if is_hex c then cons_tok c (lex_ref (hex_next k) r) else None.
Proof. reflexivity. Qed.
Lemma ref_nil : forall st, lex_ref st [] = None.
Proof. reflexivity. Qed.
Lemma lex_ref_ok : forall b, units (fun c => ~ iri_illegal c) false b -> forall k, lex_ref LNormal (b ++ 62 :: k) = Some (b, k).
Proof.
  induction 1 as [|u s U _ IH]; intro k.
  - reflexivity.
  - rewrite <- app_assoc. destruct U as [c C N|? ? X|h L F|h L F]; [|discriminate X|..].
    + cbn [app lex_ref]. assert (c <> 62) by (intro; subst; apply C; right; left; cbn; tauto). apply iri_char_iff in C.
      rewrite (proj2 (N.eqb_neq c 62)), (proj2 (N.eqb_neq c 92)), C, IH by auto. reflexivity.
    + cbn [app]. rewrite ref_esc1, (proj1 (ref_esc _)), (hex_run lex_ref ref_hex h 3) by auto. now rewrite IH.
    + cbn [app]. rewrite ref_esc1, (proj2 (ref_esc _)), (hex_run lex_ref ref_hex h 7) by auto. now rewrite IH.
Qed.
Lemma lex_ref_inv : forall n s b t, (length s <= n)%nat -> lex_ref LNormal s = Some (b, t) ->
  units (fun c => ~ iri_illegal c) false b /\ s = b ++ 62 :: t.
Proof.
  induction n as [|n IH]; intros [|c s] b t LE E; try discriminate; cbn in LE; [lia|]. cbn [lex_ref] in E.
  destruct (c =? 62) eqn:C; [apply N.eqb_eq in C; injection E as <- <-; subst; split; [constructor|auto]|].
  destruct (c =? 92) eqn:C2.
  - apply N.eqb_eq in C2. subst c. apply cons_inv in E. destruct E as (l & E & ->). destruct s as [|d s]; [discriminate|]. cbn [lex_ref] in E.
    destruct (d =? 117) eqn:D; [|destruct (d =? 85) eqn:D2; [|discriminate]].
    + apply N.eqb_eq in D. subst d. apply cons_inv in E. destruct E as (l' & E & ->).
      apply (hex_run_inv lex_ref ref_hex ref_nil) in E. destruct E as (h & l & r & (L & F) & -> & -> & E).
      apply IH in E; [|cbn in LE; rewrite app_length in LE; lia]. destruct E as [U ->]. split.
      * change (92 :: 117 :: h ++ l) with ((92 :: 117 :: h) ++ l). constructor; auto. now apply un_u.
      * cbn. now rewrite <- app_assoc.
    + apply N.eqb_eq in D2. subst d. apply cons_inv in E. destruct E as (l' & E & ->).
      apply (hex_run_inv lex_ref ref_hex ref_nil) in E. destruct E as (h & l & r & (L & F) & -> & -> & E).
      apply IH in E; [|cbn in LE; rewrite app_length in LE; lia]. destruct E as [U ->]. split.
      * change (92 :: 85 :: h ++ l) with ((92 :: 85 :: h) ++ l). constructor; auto. now apply un_U.
      * cbn. now rewrite <- app_assoc.
  - destruct (iri_char c) eqn:I; [|discriminate]. apply cons_inv in E. destruct E as (l & E & ->). apply IH in E; [|lia]. destruct E as [U ->].
    split; auto. apply (us_cons _ _ [c]); auto. apply un_char; [now apply iri_char_iff|]. now apply N.eqb_neq.
Qed.

(** ** Names *)
Lemma ends_in_cons : forall c x r, r <> [] -> (ends_in c (x :: r) <-> ends_in c r).
Proof.
  intros c x r N. split; intros [y E].
  - destruct y as [|z y]; cbn in E; [congruence|]. injection E as _ ->. now exists y.
  - exists (x :: y). now rewrite E.
Qed.
Lemma ends_in_one : forall c x, ends_in c [x] <-> x = c.
Proof.
  intros c x. split; [intros [[|y z] E]|intros ->; now exists []]; cbn in E; [congruence|].
  injection E as _ E. destruct z; discriminate.
Qed.
Lemma ends_in_nil : forall c, ~ ends_in c [].
Proof. intros c [[|] E]; discriminate. Qed.
Lemma prefix_tail_ok : forall r ok k, Forall (fun x => pn_char x \/ x = 46) r -> ~ ends_in 46 r -> (r = [] -> ok = true) ->
  prefix_tail ok (r ++ 58 :: k) = Some (r, k).
Proof.
  induction r as [|c r IH]; intros ok k F N O.
  - cbn. now rewrite O.
  - inversion F as [|? ? C F']; subst. cbn [app prefix_tail]. assert (C58 : c <> 58) by (destruct C as [C| ->]; [cls; lia|lia]).
    rewrite (proj2 (N.eqb_neq c 58)) by auto.
    assert (N' : ~ ends_in 46 r). { destruct r; [apply ends_in_nil|]. intro X. apply N. apply ends_in_cons; [discriminate|auto]. }
    destruct (t_char c) eqn:T.
    + now rewrite IH.
    + destruct C as [C| ->]; [apply t_char_iff in C; congruence|]. change (46 =? 46) with true. cbv iota. rewrite IH; auto.
      intros ->. exfalso. apply N. now apply ends_in_one.
Qed.
Lemma prefix_tail_inv : forall s ok r t, prefix_tail ok s = Some (r, t) ->
  s = r ++ 58 :: t /\ Forall (fun x => pn_char x \/ x = 46) r /\ ~ ends_in 46 r /\ (r = [] -> ok = true).
Proof.
  induction s as [|c s IH]; intros ok r t E; [discriminate|]. cbn [prefix_tail] in E. destruct (c =? 58) eqn:C.
  - apply N.eqb_eq in C. subst c. destruct ok; [|discriminate]. injection E as <- <-. repeat split; auto. apply ends_in_nil.
  - destruct (t_char c) eqn:T.
    + apply cons_inv in E. destruct E as (l & E & ->). apply IH in E. destruct E as (-> & F & N & _). apply t_char_iff in T.
      repeat split; auto; [|discriminate]. destruct l; [rewrite ends_in_one; cls; lia|]. rewrite ends_in_cons; [auto|discriminate].
    + destruct (c =? 46) eqn:D; [|discriminate]. apply N.eqb_eq in D. subst c. apply cons_inv in E. destruct E as (l & E & ->).
      apply IH in E. destruct E as (-> & F & N & O). repeat split; auto; [|discriminate].
      destruct l; [now specialize (O eq_refl)|]. rewrite ends_in_cons; [auto|discriminate].
Qed.
Lemma lex_ns_ok : forall ns k, pn_prefix ns -> lex_ns (ns ++ 58 :: k) = Some (ns, k).
Proof.
  intros ns k [->|(c & r & -> & B & F & N)]; [reflexivity|]. cbn [app lex_ns]. assert (c <> 58) by (cls; lia).
  rewrite (proj2 (N.eqb_neq c 58)), (proj2 (t_base_iff c)), prefix_tail_ok by auto. reflexivity.
Qed.
Lemma lex_ns_inv : forall s ns t, lex_ns s = Some (ns, t) -> pn_prefix ns /\ s = ns ++ 58 :: t.
Proof.
  intros [|c s] ns t E; [discriminate|]. cbn [lex_ns] in E. destruct (c =? 58) eqn:C.
  - apply N.eqb_eq in C. subst c. injection E as <- <-. split; [now left|auto].
  - destruct (t_base c) eqn:B; [|discriminate]. apply t_base_iff in B. apply cons_inv in E. destruct E as (l & E & ->).
    apply prefix_tail_inv in E. destruct E as (-> & F & N & _). split; auto. right. exists c, l. auto.
Qed.

Lemma brk_ender : forall k, brk k -> k = [] \/ exists c r, k = c :: r /\ ender c.
Proof. intros k B. exact B. Qed.
Ltac fals H := let X := fresh in assert (X := H); apply N.eqb_neq in X; rewrite X; clear X.
Lemma local_tail_brk : forall k, brk k -> local_tail k = ([], k).
Proof.
  intros k [->|(c & r & -> & E)]; [reflexivity|]. apply ender_not in E. destruct E as (E1 & _ & _ & _ & _ & E2 & E3 & E4 & E5 & _).
  cbn [local_tail]. rewrite E1. fals E2. fals E3. fals E4. fals E5. reflexivity.
Qed.
Lemma local_tail_fol : forall k, fol k -> local_tail k = ([], k).
Proof. intros k [B|(r & -> & B)]; [now apply local_tail_brk|]. cbn [local_tail]. apply local_tail_brk in B. rewrite B. reflexivity. Qed.
Lemma plx_tail : forall x r, plx x -> local_tail (x ++ r) = pre_tok x (local_tail r).
Proof.
  intros x r [a b A B|c C]; cbn [app local_tail].
  - apply is_hex_iff in A, B. rewrite A, B. reflexivity.
  - apply t_esc_iff in C. rewrite C. reflexivity.
Qed.
Lemma local_tail_ok : forall l, local_rest l -> forall k, fol k -> local_tail (l ++ k) = (l, k).
Proof.
  induction 1 as [|c r C _ IH|r N _ IH|x r X _ IH]; intros k F.
  - now apply local_tail_fol.
  - cbn [app local_tail]. assert (E : t_char c || (c =? 58) = true).
    { apply orb_true_iff. rewrite N.eqb_eq, t_char_iff. exact C. }
    rewrite E, (IH k F). reflexivity.
  - cbn [app local_tail]. change (t_char 46 || (46 =? 58)) with false. change (46 =? 46) with true. cbv iota. rewrite (IH k F).
    destruct r; [congruence|reflexivity].
  - rewrite <- app_assoc, plx_tail by auto. now rewrite (IH k F).
Qed.
Lemma local_tail_inv : forall n s l t, (length s <= n)%nat -> local_tail s = (l, t) -> local_rest l /\ s = l ++ t.
Proof.
  induction n as [|n IH]; intros [|c s] l t LE E; try (injection E as <- <-; split; [constructor|auto]); cbn in LE; [lia|]. cbn [local_tail] in E.
  destruct (t_char c || (c =? 58)) eqn:C.
  { apply pair_pre_inv in E. destruct E as (l' & E & ->). apply IH in E; [|lia]. destruct E as [R ->]. split; auto.
    apply (lr_char c); auto. rewrite orb_true_iff, N.eqb_eq, t_char_iff in C. exact C. }
  destruct (c =? 46) eqn:D.
  { apply N.eqb_eq in D. subst c. destruct (local_tail s) as [l' t'] eqn:LT. apply IH in LT; [|lia]. destruct LT as [R ->].
    destruct l' as [|d l']; injection E as <- <-; (split; [|reflexivity]); [constructor|]. apply lr_dot; [discriminate|auto]. }
  destruct (c =? 37) eqn:P.
  { apply N.eqb_eq in P. subst c. destruct s as [|a [|b s]]; try (injection E as <- <-; split; [constructor|auto]).
    destruct (is_hex a && is_hex b) eqn:H; [|injection E as <- <-; split; [constructor|auto]].
    apply andb_true_iff in H. destruct H as [H1 H2]. apply is_hex_iff in H1, H2. apply pair_pre_inv in E. destruct E as (l' & E & ->).
    apply IH in E; [|cbn in LE; lia]. destruct E as [R ->]. split; auto. apply (lr_plx [37; a; b]); auto. now constructor. }
  destruct (c =? 92) eqn:B.
  { apply N.eqb_eq in B. subst c. destruct s as [|a s]; [injection E as <- <-; split; [constructor|auto]|].
    destruct (t_local_esc a) eqn:H; [|injection E as <- <-; split; [constructor|auto]]. apply t_esc_iff in H.
    apply pair_pre_inv in E. destruct E as (l' & E & ->). apply IH in E; [|cbn in LE; lia]. destruct E as [R ->]. split; auto.
    apply (lr_plx [92; a]); auto. now constructor. }
  injection E as <- <-. split; [constructor|auto].
Qed.
Lemma lex_local_ok : forall l k, pn_local l -> fol k -> lex_local (l ++ k) = (l, k).
Proof.
  intros l k P F. destruct P as [|c r C R|x r X R].
  - cbn [app]. assert (T := local_tail_fol k F). destruct k as [|c k]; [reflexivity|]. cbn [lex_local]. destruct (_ || _); auto.
  - cbn [app lex_local]. assert (E : t_u c || (c =? 58) || t_digit c || (c =? 37) || (c =? 92) = true).
    { rewrite !orb_true_iff, N.eqb_eq, t_u_iff, t_digit_iff. tauto. }
    rewrite E. change (c :: r ++ k) with ((c :: r) ++ k). apply local_tail_ok; auto. constructor; auto. unfold pn_char. tauto.
  - assert (H : lex_local ((x ++ r) ++ k) = local_tail ((x ++ r) ++ k)).
    { destruct X; cbn [app lex_local]; change (37 =? 37) with true; change (92 =? 92) with true; rewrite ?orb_true_r; reflexivity. }
    rewrite H. apply local_tail_ok; auto. now apply lr_plx.
Qed.
Lemma lex_local_inv : forall s l t, lex_local s = (l, t) -> pn_local l /\ s = l ++ t.
Proof.
  intros [|c s] l t E; [injection E as <- <-; split; [constructor|auto]|]. cbn [lex_local] in E.
  destruct (t_u c || (c =? 58) || t_digit c || (c =? 37) || (c =? 92)) eqn:C; [|injection E as <- <-; split; [constructor|auto]].
  assert (E' := E). apply (local_tail_inv (length (c :: s))) in E; auto. destruct E as [R S]. split; auto.
  destruct R as [|d r D R|r N R|x r X R]; [constructor|..].
  - injection S as <- _. constructor; auto. rewrite !orb_true_iff, !N.eqb_eq, t_u_iff, t_digit_iff in C. unfold pn_char in D. cls. lia.
  - injection S as -> _. discriminate C.
  - now constructor 3.
Qed.
Lemma lex_pname_ok : forall ns ln k, pn_prefix ns -> pn_local ln -> fol k -> lex_pname ((ns ++ 58 :: ln) ++ k) = Some (ns ++ 58 :: ln, k).
Proof.
  intros ns ln k P L F. unfold lex_pname. rewrite <- app_assoc. cbn [app]. now rewrite lex_ns_ok, lex_local_ok.
Qed.
Lemma lex_pname_inv : forall s tok t, lex_pname s = Some (tok, t) ->
  exists ns ln, pn_prefix ns /\ pn_local ln /\ tok = ns ++ 58 :: ln /\ s = tok ++ t.
Proof.
  intros s tok t E. unfold lex_pname in E. destruct (lex_ns s) as [[ns u]|] eqn:N; [|discriminate]. apply lex_ns_inv in N.
  destruct N as [P ->]. destruct (lex_local u) as [l u'] eqn:L. apply lex_local_inv in L. destruct L as [L ->]. injection E as <- <-.
  exists ns, l. repeat split; auto. now rewrite <- app_assoc.
Qed.

(** a text that is no name because its run of name characters does not end in a colon *)
Lemma prefix_tail_none : forall r ok k, Forall (fun x => pn_char x) r -> fol k -> prefix_tail ok (r ++ k) = None.
Proof.
  induction r as [|c r IH]; intros ok k F O.
  - cbn [app]. assert (X : forall b k, brk k -> prefix_tail b k = None).
    { intros b j [->|(c & r & -> & E)]; [reflexivity|]. apply ender_not in E. destruct E as (E1 & _ & _ & _ & _ & E2 & E3 & _).
      cbn [prefix_tail]. rewrite E1. fals E2. fals E3. reflexivity. }
    destruct O as [B|(r & -> & B)]; [auto|]. cbn [prefix_tail]. change (46 =? 58) with false. change (t_char 46) with false.
    change (46 =? 46) with true. cbv iota. now rewrite X.
  - inversion F as [|? ? C F']; subst. cbn [app prefix_tail]. assert (c <> 58) by (cls; lia). fals H. apply t_char_iff in C. rewrite C.
    now rewrite IH.
Qed.
Lemma lex_pname_none : forall c r k, c <> 58 -> Forall (fun x => pn_char x) r -> fol k -> lex_pname (c :: r ++ k) = None.
Proof.
  intros c r k C F O. unfold lex_pname. cbn [lex_ns]. fals C. destruct (t_base c); [|reflexivity]. now rewrite prefix_tail_none.
Qed.

(** ** Blank node labels *)
Lemma blabel_tail_fol : forall k, fol k -> blabel_tail k = ([], k).
Proof.
  assert (X : forall k, brk k -> blabel_tail k = ([], k)).
  { intros k [->|(c & r & -> & E)]; [reflexivity|]. apply ender_not in E. destruct E as (E1 & _ & _ & _ & _ & E2 & E3 & _).
    cbn [blabel_tail]. rewrite E1. fals E3. reflexivity. }
  intros k [B|(r & -> & B)]; [auto|]. cbn [blabel_tail]. now rewrite X.
Qed.
Lemma blabel_tail_ok : forall r k, Forall (fun x => pn_char x \/ x = 46) r -> ~ ends_in 46 r -> fol k -> blabel_tail (r ++ k) = (r, k).
Proof.
  induction r as [|c r IH]; intros k F N O; [now apply blabel_tail_fol|]. inversion F as [|? ? C F']; subst. cbn [app blabel_tail].
  assert (N' : ~ ends_in 46 r). { destruct r; [apply ends_in_nil|]. intro X. apply N. apply ends_in_cons; [discriminate|auto]. }
  rewrite IH by auto. destruct (t_char c) eqn:T; [reflexivity|]. destruct C as [C| ->]; [apply t_char_iff in C; congruence|].
  change (46 =? 46) with true. cbv iota. destruct r; [|reflexivity]. exfalso. apply N. now apply ends_in_one.
Qed.
Lemma blabel_tail_inv : forall s l t, blabel_tail s = (l, t) -> Forall (fun x => pn_char x \/ x = 46) l /\ ~ ends_in 46 l /\ s = l ++ t.
Proof.
  induction s as [|c s IH]; intros l t E; [injection E as <- <-; repeat split; auto; apply ends_in_nil|]. cbn [blabel_tail] in E.
  destruct (t_char c) eqn:T.
  - apply pair_pre_inv in E. destruct E as (l' & E & ->). apply IH in E. destruct E as (F & N & ->). apply t_char_iff in T.
    cbn [app]. repeat split; auto. destruct l'; [rewrite ends_in_one; cls; lia|]. rewrite ends_in_cons; [auto|discriminate].
  - destruct (c =? 46) eqn:D; [|injection E as <- <-; repeat split; auto; apply ends_in_nil]. apply N.eqb_eq in D. subst c.
    destruct (blabel_tail s) as [l' t'] eqn:B. destruct (IH _ _ eq_refl) as (F & N & ->).
    destruct l' as [|d l']; injection E as <- <-.
    + repeat split; auto.
    + repeat split; auto. rewrite ends_in_cons; [auto|discriminate].
Qed.
Lemma lex_blabel_ok : forall c r k, pn_u c \/ digit10 c -> Forall (fun x => pn_char x \/ x = 46) r -> ~ ends_in 46 r -> fol k ->
  lex_blabel (c :: r ++ k) = Some (c :: r, k).
Proof.
  intros c r k C F N O. cbn [lex_blabel]. rewrite blabel_tail_ok by auto.
  assert (E : t_u c || t_digit c = true) by (rewrite orb_true_iff, t_u_iff, t_digit_iff; auto). now rewrite E.
Qed.
Lemma lex_blabel_inv : forall s l t, lex_blabel s = Some (l, t) -> label (95 :: 58 :: l) /\ s = l ++ t.
Proof.
  intros [|c s] l t E; [discriminate|]. cbn [lex_blabel] in E. destruct (t_u c || t_digit c) eqn:C; [|discriminate].
  destruct (blabel_tail s) as [l' t'] eqn:B. injection E as <- <-. apply blabel_tail_inv in B. destruct B as (F & N & ->).
  split; auto. exists c, l'. rewrite orb_true_iff, t_u_iff, t_digit_iff in C. auto.
Qed.

(** ** Language tags *)
Lemma fol_alnum : forall k, fol k -> k = [] \/ exists c r, k = c :: r /\ t_alnum c = false /\ NTriples.letter c = false /\ c <> 45.
Proof.
  intros k [[->|(c & r & -> & E)]|(r & -> & _)]; [now left|right..].
  - apply ender_not in E. exists c, r. tauto.
  - exists 46, r. repeat split. discriminate.
Qed.
Lemma tag_rest_fol : forall k, fol k -> tag_rest k = ([], k).
Proof. intros k F. destruct (fol_alnum k F) as [->|(c & r & -> & A & _ & D)]; [reflexivity|]. cbn [tag_rest]. rewrite A. now fals D. Qed.
Lemma tag_rest_run : forall s r, Forall alnum s -> tag_rest (s ++ r) = pre_tok s (tag_rest r).
Proof.
  induction 1 as [|c s A _ IH]; [cbn; now destruct (tag_rest r)|]. cbn [app tag_rest]. apply t_alnum_iff in A. rewrite A, IH. reflexivity.
Qed.
Lemma tag_rest_ok : forall r, subtags r -> forall k, fol k -> tag_rest (r ++ k) = (r, k).
Proof.
  induction 1 as [|s r A N _ IH]; intros k F; [now apply tag_rest_fol|]. cbn [app]. rewrite <- app_assoc. cbn [tag_rest].
  change (t_alnum 45) with false. change (45 =? 45) with true. cbv iota. destruct s as [|d s]; [congruence|].
  assert (X : t_alnum d = true) by (inversion A; subst; now apply t_alnum_iff). cbn [app]. rewrite X.
  change (d :: s ++ r ++ k) with ((d :: s) ++ r ++ k). rewrite tag_rest_run, IH by auto. reflexivity.
Qed.
Lemma tag_first_run : forall s r, Forall TurtleTextSpec.letter s -> tag_first (s ++ r) = pre_tok s (tag_first r).
Proof.
  induction 1 as [|c s A _ IH]; [cbn; now destruct (tag_first r)|]. cbn [app tag_first]. apply letter_iff in A. rewrite A, IH. reflexivity.
Qed.
Lemma lex_tag_ok : forall t k, lang_tag t -> fol k -> lex_tag (t ++ k) = Some (t, k).
Proof.
  intros t k (a & r & -> & A & N & S) F. rewrite <- app_assoc. destruct a as [|c a]; [congruence|]. cbn [app lex_tag].
  assert (X : NTriples.letter c = true) by (inversion A; subst; now apply letter_iff). rewrite X.
  change (c :: a ++ r ++ k) with ((c :: a) ++ r ++ k). rewrite tag_first_run by auto.
  assert (Y : tag_first (r ++ k) = (r, k)).
  { assert (R := tag_rest_ok r S k F). destruct S as [|s r A' N' S].
    - cbn [app] in *. destruct (fol_alnum k F) as [->|(d & q & -> & _ & L & D)]; [reflexivity|]. cbn [tag_first]. rewrite L. now fals D.
    - cbn [app tag_first]. change (NTriples.letter 45) with false. change (45 =? 45) with true. cbv iota. exact R. }
  rewrite Y. reflexivity.
Qed.
Lemma tag_rest_inv : forall s l t, tag_rest s = (l, t) -> exists a r, l = a ++ r /\ Forall alnum a /\ subtags r /\ s = l ++ t.
Proof.
  induction s as [|c s IH]; intros l t E; [injection E as <- <-; exists [], []; repeat split; constructor|]. cbn [tag_rest] in E.
  destruct (t_alnum c) eqn:A.
  - apply pair_pre_inv in E. destruct E as (l' & E & ->). apply IH in E. destruct E as (a & r & -> & F & S & ->). apply t_alnum_iff in A.
    exists (c :: a), r. repeat split; auto.
  - destruct (c =? 45) eqn:D; [|injection E as <- <-; exists [], []; repeat split; constructor]. apply N.eqb_eq in D. subst c.
    destruct s as [|d s]; [injection E as <- <-; exists [], []; repeat split; constructor|].
    destruct (t_alnum d) eqn:A'; [|injection E as <- <-; exists [], []; repeat split; constructor].
    apply pair_pre_inv in E. destruct E as (l' & E & ->). assert (E' := E). apply IH in E. destruct E as (a & r & -> & F & S & E). rewrite E.
    exists [], (45 :: a ++ r). repeat split; auto. constructor; auto. intros ->. cbn [app] in *.
    cbn [tag_rest] in E'. rewrite A' in E'. apply pair_pre_inv in E'. destruct E' as (l & _ & ->). inversion S; subst; discriminate A'.
Qed.
Lemma tag_first_inv : forall s l t, tag_first s = (l, t) -> exists a r, l = a ++ r /\ Forall TurtleTextSpec.letter a /\ subtags r /\ s = l ++ t.
Proof.
  induction s as [|c s IH]; intros l t E; [injection E as <- <-; exists [], []; repeat split; constructor|]. cbn [tag_first] in E.
  destruct (NTriples.letter c) eqn:A.
  - apply pair_pre_inv in E. destruct E as (l' & E & ->). apply IH in E. destruct E as (a & r & -> & F & S & ->). apply letter_iff in A.
    exists (c :: a), r. repeat split; auto.
  - destruct (c =? 45) eqn:D; [|injection E as <- <-; exists [], []; repeat split; constructor]. apply N.eqb_eq in D. subst c.
    assert (E' := E). apply tag_rest_inv in E. destruct E as (a & r & -> & F & S & E). rewrite E. destruct a as [|d a].
    + exists [], r. repeat split; auto.
    + exfalso. inversion F as [|? ? X]; subst. cbn [app] in E. assert (d = 45) by congruence. subst d. cls. lia.
Qed.
Lemma lex_tag_inv : forall s l t, lex_tag s = Some (l, t) -> lang_tag l /\ s = l ++ t.
Proof.
  intros [|c s] l t E; [discriminate|]. unfold lex_tag in E. destruct (NTriples.letter c) eqn:A; [|discriminate].
  destruct (tag_first (c :: s)) as [l' t'] eqn:T. injection E as <- <-. assert (T' := T). apply tag_first_inv in T. destruct T as (a & r & -> & F & S & E).
  split; auto. exists a, r. repeat split; auto. intros ->. cbn [app] in *. cbn [tag_first] in T'. rewrite A in T'. apply pair_pre_inv in T'.
  destruct T' as (x & _ & ->). inversion S; subst. discriminate A.
Qed.

(** ** Numbers *)
Definition nodig (k : str) : Prop := k = [] \/ exists c r, k = c :: r /\ t_digit c = false.
Lemma lex_digits_ok : forall d k, digits d -> nodig k -> lex_digits (d ++ k) = (d, k).
Proof.
  induction 1 as [|c d C _ IH]; intro N.
  - destruct N as [->|(c & r & -> & C)]; [reflexivity|]. cbn. now rewrite C.
  - cbn [app lex_digits]. apply t_digit_iff in C. rewrite C, IH by auto. reflexivity.
Qed.
Lemma lex_digits_inv : forall s d t, lex_digits s = (d, t) -> digits d /\ s = d ++ t /\ nodig t.
Proof.
  induction s as [|c s IH]; intros d t E; [injection E as <- <-; repeat split; [constructor|now left]|]. cbn [lex_digits] in E.
  destruct (t_digit c) eqn:C.
  - apply pair_pre_inv in E. destruct E as (l & E & ->). apply IH in E. destruct E as (D & -> & N). apply t_digit_iff in C.
    repeat split; auto. now constructor.
  - injection E as <- <-. repeat split; [constructor|]. right. eauto.
Qed.
Lemma lex_sign_ok : forall sg k, sign sg -> (forall c r, k = c :: r -> c <> 43 /\ c <> 45) -> lex_sign (sg ++ k) = (sg, k).
Proof.
  intros sg k [->|[->| ->]] N; try reflexivity. destruct k as [|c k]; [reflexivity|]. destruct (N _ _ eq_refl) as [A B].
  cbn [app lex_sign]. fals A. now fals B.
Qed.
Lemma lex_sign_inv : forall s sg t, lex_sign s = (sg, t) -> sign sg /\ s = sg ++ t.
Proof.
  intros [|c s] sg t E; [injection E as <- <-; split; [now left|auto]|]. cbn [lex_sign] in E.
  destruct ((c =? 43) || (c =? 45)) eqn:C; injection E as <- <-; split; auto; [|now left]. rewrite orb_true_iff, !N.eqb_eq in C.
  destruct C as [->| ->]; unfold sign; auto.
Qed.
Lemma lex_digits1_ok : forall d k, digits d -> d <> [] -> nodig k -> lex_digits1 (d ++ k) = Some (d, k).
Proof. intros d k D N K. unfold lex_digits1. rewrite lex_digits_ok by auto. destruct d; [congruence|reflexivity]. Qed.
Lemma lex_digits1_inv : forall s d t, lex_digits1 s = Some (d, t) -> digits d /\ d <> [] /\ s = d ++ t /\ nodig t.
Proof.
  intros s d t E. unfold lex_digits1 in E. destruct (lex_digits s) as [[|c x] u] eqn:L; [discriminate|]. injection E as <- <-.
  apply lex_digits_inv in L. destruct L as (D & -> & N). repeat split; auto. discriminate.
Qed.
Lemma digits_head : forall d k c r, digits d -> d <> [] -> d ++ k = c :: r -> digit10 c.
Proof. intros [|x d] k c r D N E; [congruence|]. injection E as -> _. now inversion D. Qed.
Lemma lex_exp_ok : forall x k, exponent x -> nodig k -> lex_exp (x ++ k) = Some (x, k).
Proof.
  intros x k (c & sg & d & -> & C & SG & D & N) K. cbn [app lex_exp]. rewrite <- app_assoc.
  assert (E : (c =? 101) || (c =? 69) = true) by (rewrite orb_true_iff, !N.eqb_eq; tauto). rewrite E.
  rewrite lex_sign_ok; auto.
  - now rewrite lex_digits1_ok.
  - intros y r Y. apply digits_head in Y; auto. cls. lia.
Qed.
Lemma lex_exp_inv : forall s x t, lex_exp s = Some (x, t) -> exponent x /\ s = x ++ t.
Proof.
  intros [|c s] x t E; [discriminate|]. cbn [lex_exp] in E. destruct ((c =? 101) || (c =? 69)) eqn:C; [|discriminate].
  destruct (lex_sign s) as [sg u] eqn:S. apply lex_sign_inv in S. destruct S as [SG ->].
  destruct (lex_digits1 u) as [[d v]|] eqn:D; [|discriminate]. apply lex_digits1_inv in D. destruct D as (D & N & -> & _).
  injection E as <- <-. rewrite orb_true_iff, !N.eqb_eq in C. split; [exists c, sg, d; auto|]. cbn. now rewrite <- app_assoc.
Qed.
Lemma lex_frac_ok : forall f k, digits f -> nodig k -> lex_frac (46 :: f ++ k) = Some (46 :: f, k).
Proof. intros f k F K. cbn [lex_frac]. change (46 =? 46) with true. cbv iota. now rewrite lex_digits_ok. Qed.
Lemma lex_frac_inv : forall s f t, lex_frac s = Some (f, t) -> exists d, f = 46 :: d /\ digits d /\ s = 46 :: d ++ t /\ nodig t.
Proof.
  intros [|c s] f t E; [discriminate|]. cbn [lex_frac] in E. destruct (c =? 46) eqn:C; [|discriminate]. apply N.eqb_eq in C. subst c.
  destruct (lex_digits s) as [d u] eqn:D. injection E as <- <-. apply lex_digits_inv in D. destruct D as (D & -> & N). eauto.
Qed.
Lemma brk_num : forall k, brk k -> nodig k /\ lex_exp k = None /\ lex_frac k = None.
Proof.
  intros k [->|(c & r & -> & E)]; [repeat split; now left|]. apply ender_not in E. destruct E as (_ & _ & D & _ & _ & _ & E46 & _ & _ & _ & _ & E1 & E2 & _).
  repeat split; [right; eauto|..]; cbn.
  - fals E1. now fals E2.
  - now fals E46.
Qed.
Lemma fol_num : forall k, fol k -> nodig k /\ lex_exp k = None.
Proof. intros k [B|(r & -> & B)]; [apply brk_num in B; tauto|]. split; [right; eexists _, _; split; eauto|reflexivity]. Qed.
Lemma sign_digits : forall sg d k, sign sg -> (d = [] -> exists r, k = 46 :: r) -> digits d -> lex_sign (sg ++ d ++ k) = (sg, d ++ k).
Proof.
  intros sg d k S N D. apply lex_sign_ok; auto. intros c r E. destruct d as [|x d].
  - destruct (N eq_refl) as [q ->]. injection E as <- _. lia.
  - apply digits_head in E; auto; [|discriminate]. cls. lia.
Qed.
Lemma exp_nodig : forall x k, exponent x -> nodig (x ++ k) /\ lex_frac (x ++ k) = None.
Proof.
  intros x k (c & sg & d & -> & C & _). split.
  - right. exists c, ((sg ++ d) ++ k). split; auto. destruct C as [->| ->]; reflexivity.
  - cbn. destruct C as [->| ->]; reflexivity.
Qed.
Lemma lex_number_ok : forall n s k, num_text n s -> fol k -> lex_number (s ++ k) = Some (TNum n s, k).
Proof.
  intros n s k T F. destruct (fol_num k F) as [ND NE]. unfold lex_number. destruct n; cbn [num_text] in T.
  - destruct T as (sg & d & -> & SG & D & N).
    assert (S : lex_sign ((sg ++ d) ++ k) = (sg, d ++ k)) by (rewrite <- app_assoc; apply sign_digits; auto; congruence).
    assert (X : lex_digits (d ++ k) = (d, k)) by (apply lex_digits_ok; auto).
    assert (Y : lex_double ((sg ++ d) ++ k) = None /\ lex_decimal ((sg ++ d) ++ k) = None).
    { unfold lex_double, lex_decimal. rewrite S, X. destruct d as [|c d]; [congruence|]. destruct F as [B|(r & -> & B)].
      - apply brk_num in B. destruct B as (_ & _ & B). rewrite B, NE. auto.
      - apply brk_num in B. destruct B as (B1 & B2 & B3). assert (Z := lex_frac_ok [] r ltac:(constructor) B1). cbn [app] in Z. rewrite Z, B2. auto. }
    destruct Y as [-> ->]. unfold lex_integer. rewrite S, lex_digits1_ok by auto. reflexivity.
  - destruct T as (sg & d & f & -> & SG & D & FD & N).
    assert (S : lex_sign ((sg ++ d ++ [46] ++ f) ++ k) = (sg, d ++ 46 :: f ++ k)).
    { rewrite <- !app_assoc. cbn [app]. apply sign_digits; eauto. }
    assert (X : lex_digits (d ++ 46 :: f ++ k) = (d, 46 :: f ++ k)) by (apply lex_digits_ok; auto; right; eexists _, _; split; reflexivity).
    assert (Y : lex_double ((sg ++ d ++ [46] ++ f) ++ k) = None).
    { unfold lex_double. rewrite S, X, lex_frac_ok by auto. rewrite NE. destruct d, f; congruence. }
    rewrite Y. unfold lex_decimal. rewrite S, X, lex_frac_ok by auto. destruct f as [|e f]; [congruence|]. reflexivity.
  - destruct T as (sg & m & x & -> & SG & EX & [(d & f & -> & D & FD & N)|(D & N)]).
    + assert (S : lex_sign ((sg ++ (d ++ [46] ++ f) ++ x) ++ k) = (sg, d ++ 46 :: f ++ x ++ k)).
      { rewrite <- !app_assoc. cbn [app]. apply sign_digits; eauto. }
      assert (X : lex_digits (d ++ 46 :: f ++ x ++ k) = (d, 46 :: f ++ x ++ k)) by (apply lex_digits_ok; auto; right; eexists _, _; split; reflexivity).
      unfold lex_double. rewrite S, X. rewrite lex_frac_ok; [|auto|apply exp_nodig; auto]. rewrite lex_exp_ok by auto.
      rewrite <- !app_assoc. cbn [app]. destruct d, f; try reflexivity. exfalso. destruct N; congruence.
    + assert (S : lex_sign ((sg ++ m ++ x) ++ k) = (sg, m ++ x ++ k)).
      { rewrite <- !app_assoc. apply sign_digits; auto. congruence. }
      destruct (exp_nodig x k EX) as [X1 X2].
      assert (X : lex_digits (m ++ x ++ k) = (m, x ++ k)) by (apply lex_digits_ok; auto).
      unfold lex_double. rewrite S, X, X2, lex_exp_ok by auto. destruct m; [congruence|]. reflexivity.
Qed.
Lemma lex_number_inv : forall s x t, lex_number s = Some (x, t) -> exists n tok, x = TNum n tok /\ num_text n tok /\ s = tok ++ t.
Proof.
  intros s x t E. unfold lex_number in E. destruct (lex_double s) as [[y u]|] eqn:DB.
  { injection E as <- <-. exists NDouble, y. split; auto. unfold lex_double in DB. destruct (lex_sign s) as [sg s1] eqn:S.
    apply lex_sign_inv in S. destruct S as [SG ->]. destruct (lex_digits s1) as [d s2] eqn:D. apply lex_digits_inv in D. destruct D as (D & -> & ND).
    destruct (lex_frac s2) as [[f s3]|] eqn:F.
    - apply lex_frac_inv in F. destruct F as (f' & -> & FD & -> & _). assert (N : d <> [] \/ f' <> []).
      { destruct d; [|left; discriminate]. destruct f'; [discriminate DB|right; discriminate]. }
      destruct (lex_exp s3) as [[e s4]|] eqn:X; [|destruct d, f'; discriminate]. apply lex_exp_inv in X. destruct X as [X ->].
      assert (R : y = sg ++ d ++ (46 :: f') ++ e /\ u = s4) by (destruct d, f'; try discriminate; injection DB as <- <-; auto).
      destruct R as [-> ->]. split; [|rewrite <- ?app_assoc; cbn; now rewrite <- ?app_assoc].
      cbn [num_text]. exists sg, (d ++ [46] ++ f'), e. split; [rewrite <- !app_assoc; reflexivity|]. split; auto. split; auto. left. exists d, f'. auto.
    - destruct d as [|c d]; [discriminate|]. destruct (lex_exp s2) as [[e s4]|] eqn:X; [|discriminate]. apply lex_exp_inv in X. destruct X as [X ->].
      injection DB as <- <-. split; [|cbn; rewrite <- !app_assoc; cbn; now rewrite <- !app_assoc].
      cbn [num_text]. exists sg, (c :: d), e. split; [reflexivity|]. split; auto. split; auto. right. split; auto. discriminate. }
  destruct (lex_decimal s) as [[y u]|] eqn:DC.
  { injection E as <- <-. exists NDecimal, y. split; auto. unfold lex_decimal in DC. destruct (lex_sign s) as [sg s1] eqn:S.
    apply lex_sign_inv in S. destruct S as [SG ->]. destruct (lex_digits s1) as [d s2] eqn:D. apply lex_digits_inv in D. destruct D as (D & -> & ND).
    destruct (lex_frac s2) as [[f s3]|] eqn:F; [|discriminate]. apply lex_frac_inv in F. destruct F as (f' & -> & FD & -> & _).
    destruct f' as [|e f']; [discriminate|]. injection DC as <- <-. split.
    - cbn [num_text]. exists sg, d, (e :: f'). repeat split; auto. discriminate.
    - rewrite <- !app_assoc. reflexivity. }
  destruct (lex_integer s) as [[y u]|] eqn:I; [|discriminate]. injection E as <- <-. exists NInteger, y. split; auto.
  unfold lex_integer in I. destruct (lex_sign s) as [sg s1] eqn:S. apply lex_sign_inv in S. destruct S as [SG ->].
  destruct (lex_digits1 s1) as [[d s2]|] eqn:D; [|discriminate]. apply lex_digits1_inv in D. destruct D as (D & N & -> & _).
  injection I as <- <-. split; [exists sg, d; auto|]. now rewrite <- app_assoc.
Qed.
