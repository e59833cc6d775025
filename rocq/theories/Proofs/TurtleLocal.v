(** Lemmas for C100: escape_prefix_local. *)
From Verif Require Import Model.Py Model.Terms Model.Curie Model.TurtleTree Model.Turtle Model.TurtleParse Model.TurtleOut
  Spec.CodecSpec Spec.CurieSpec Spec.TurtleSpec Spec.TurtleTextSpec Spec.TurtleOutSpec
  Proofs.CurieLemmas Proofs.IriLemmas Proofs.UriParse Proofs.TurtleScan Proofs.TurtleTokens Proofs.TurtleTrip Proofs.TurtleNames.
Open Scope N_scope.

Definition specials : str := s2l "~.-!$&'()*+,;=:/?#@%_".
Definition esc1 (c : char) : str := if existsb (N.eqb c) specials then [92; c] else [c].
Definition esc_all (l : str) : str := concat (map esc1 l).
Definition step (l : str) (c : char) : str := replace l [c] [92; c].
Lemma fold_app : forall cs a b, fold_left step cs (a ++ b) = fold_left step cs a ++ fold_left step cs b.
Proof. induction cs as [|c cs IH]; intros; cbn [fold_left]; [reflexivity|]. unfold step at 2 4 6. rewrite replace_app1, IH. reflexivity. Qed.
Lemma fold_nil : forall cs, fold_left step cs [] = [].
Proof. induction cs; simpl; auto. Qed.
Lemma fold_other : forall cs c, ~ In c cs -> fold_left step cs [c] = [c].
Proof.
  induction cs as [|x cs IH]; intros c N; cbn [fold_left]; [reflexivity|]. unfold step at 2. rewrite replace_one. cbn [map concat].
  assert (E : c =? x = false) by (apply N.eqb_neq; intros ->; apply N; now left). rewrite E. cbn [app]. apply IH. intro J. apply N. now right.
Qed.
Lemma fold_special : forall c, In c specials -> fold_left step specials [c] = [92; c].
Proof.
  intros c H. assert (F : forallb (fun c => str_eqb (fold_left step specials [c]) [92; c]) specials = true) by (vm_compute; reflexivity).
  rewrite forallb_forall in F. specialize (F c H). unfold str_eqb in F. destruct (str_eq_dec _ _); [assumption|discriminate].
Qed.
Lemma special_spec : forall c, existsb (N.eqb c) specials = true <-> local_esc c \/ c = 58.
Proof.
  intro c. rewrite existsb_exists. transitivity (In c specials).
  - split; [intros (x & J & E); apply N.eqb_eq in E; now subst|intro J; exists c; now rewrite N.eqb_refl].
  - unfold local_esc, specials. cbn. intuition.
Qed.
Lemma fold_esc : forall l, fold_left step specials l = esc_all l.
Proof.
  induction l as [|c l IH]; [apply fold_nil|]. change (c :: l) with ([c] ++ l). rewrite fold_app, IH. unfold esc_all. cbn [app map concat]. f_equal.
  unfold esc1. destruct (existsb (N.eqb c) specials) eqn:E.
  - apply fold_special. apply existsb_exists in E. destruct E as (x & J & E). apply N.eqb_eq in E. now subst.
  - apply fold_other. intro J. assert (X : existsb (N.eqb c) specials = true) by (apply existsb_exists; exists c; now rewrite N.eqb_refl). congruence.
Qed.
Lemma escape_at : forall p r, ~ In 58 p -> escape_prefix_local (p ++ 58 :: r) = p ++ 58 :: esc_all r.
Proof. intros p r N. unfold escape_prefix_local. rewrite partition_at by assumption. cbn [app]. f_equal. f_equal.
  match goal with |- fold_left _ ?l _ = _ => replace l with specials by (vm_compute; reflexivity) end. apply fold_esc.
Qed.
Lemma escape_none : forall p, ~ In 58 p -> escape_prefix_local p = p.
Proof. intros p N. unfold escape_prefix_local. rewrite partition_none by assumption. cbn [app]. change (p ++ fold_left step specials [] = p). rewrite fold_nil. apply app_nil_r. Qed.

Lemma esc_all_cons : forall c l, esc_all (c :: l) = esc1 c ++ esc_all l.
Proof. reflexivity. Qed.
Lemma esc1_cases : forall c, ((local_esc c \/ c = 58) /\ esc1 c = [92; c]) \/ (~ local_esc c /\ c <> 58 /\ esc1 c = [c]).
Proof.
  intro c. unfold esc1. destruct (existsb (N.eqb c) specials) eqn:E.
  - left. split; auto. now apply special_spec.
  - right. assert (N : ~ (local_esc c \/ c = 58)) by (intro X; apply special_spec in X; congruence). tauto.
Qed.
Lemma ne92 : ~ local_esc 92.
Proof. unfold local_esc. vm_compute. intuition discriminate. Qed.
Lemma ne58 : ~ local_esc 58.
Proof. unfold local_esc. vm_compute. intuition discriminate. Qed.
Lemma ne60 : ~ local_esc 60.
Proof. unfold local_esc. vm_compute. intuition discriminate. Qed.
(** what the escaped text denotes *)
Lemma esc_denotes : forall l, Forall (fun c => c <> 92 /\ c <> 60 /\ c <> 58) l -> local_denotes (esc_all l) l.
Proof.
  induction l as [|c l IH]; intro F; [constructor|]. inversion F as [|? ? (A & B & C) F']; subst. rewrite esc_all_cons.
  destruct (esc1_cases c) as [[[H|H] ->]|(H & _ & ->)]; [|congruence|]; cbn [app]; constructor; auto.
Qed.
Lemma denotes_esc : forall l v, local_denotes (esc_all l) v -> v = l /\ Forall (fun c => c <> 92 /\ c <> 60 /\ c <> 58) l.
Proof.
  induction l as [|c l IH]; intros v H; [inversion H; auto|]. rewrite esc_all_cons in H.
  destruct (esc1_cases c) as [[X E]|(X & Y & E)]; rewrite E in H; cbn [app] in H.
  - inversion H as [|? ? ? A B|c' s v' L D]; subst; [congruence|]. apply IH in D. destruct D as [-> F]. split; auto. constructor; auto.
    split; [|split]; intros ->; [now apply ne92|now apply ne60|now apply ne58].
  - inversion H as [|? ? v' A B D|c' s v' L D]; subst.
    + apply IH in D. destruct D as [-> F]. auto.
    + exfalso. match goal with Z : _ :: _ = esc_all l |- _ => rename Z into P; symmetry in P end. destruct l as [|d l]; [discriminate P|]. rewrite esc_all_cons in P. destruct (esc1_cases d) as [[Z E']|(Z & _ & E')]; rewrite E' in P; injection P as P _; subst; [now apply ne92|auto].
Qed.

(** the token *)
Lemma esc_local_rest : forall r, Forall (fun c => pn_char c \/ local_esc c) r -> local_rest (esc_all r).
Proof.
  induction r as [|c r IH]; intro F; [constructor|]. inversion F as [|? ? X F']; subst. rewrite esc_all_cons.
  destruct (esc1_cases c) as [[[H|H] ->]|(H & A & ->)].
  - apply lr_plx; auto. now constructor.
  - subst. exfalso. destruct X as [X|X]; [unfold pn_char, pn_u, pn_base, TurtleTextSpec.letter, digit10, between in X; lia|now apply ne58].
  - cbn [app]. destruct X as [X|X]; [|contradiction]. apply lr_char; auto.
Qed.
Lemma esc_pn_local : forall r, escapable r -> pn_local (esc_all r).
Proof.
  intros [|c r] [F H]; [constructor|]. rewrite esc_all_cons. inversion F as [|? ? X F']; subst. specialize (H c r eq_refl). assert (R := esc_local_rest r F').
  destruct (esc1_cases c) as [[[Z|Z] ->]|(Z & A & ->)].
  - apply pl_plx; auto. now constructor.
  - subst. exfalso. destruct X as [X|X]; [unfold pn_char, pn_u, pn_base, TurtleTextSpec.letter, digit10, between in X; lia|now apply ne58].
  - cbn [app]. apply pl_char; auto. tauto.
Qed.
Lemma percent_esc : local_esc 37.
Proof. unfold local_esc. cbn. tauto. Qed.
Lemma dot_esc : local_esc 46.
Proof. unfold local_esc. cbn. tauto. Qed.
Lemma local_rest_esc : forall r, Forall (fun c => c <> 92 /\ c <> 60 /\ c <> 58) r -> local_rest (esc_all r) -> Forall (fun c => pn_char c \/ local_esc c) r.
Proof.
  induction r as [|c r IH]; intros N H; [constructor|]. inversion N as [|? ? (A & B & C) N']; subst. rewrite esc_all_cons in H.
  destruct (esc1_cases c) as [[X E]|(X & Y & E)]; rewrite E in H; cbn [app] in H.
  - destruct X as [X|X]; [|congruence]. constructor; auto. apply IH; auto.
    inversion H as [|x y P Q|y P Q|x y P Q R]; subst.
    + exfalso. unfold pn_char, pn_u, pn_base, TurtleTextSpec.letter, digit10, between in P. lia.
    + inversion P as [a b U V W|a U W]; subst; [discriminate R|]. injection R as _ R. now subst.
  - inversion H as [|x y P Q|y P Q|x y P Q R]; subst.
    + constructor; auto. destruct P; [auto|congruence].
    + exfalso. apply X, dot_esc.
    + exfalso. inversion P as [a b U V W|a U W]; subst; injection R as R _; subst c; [apply X, percent_esc|congruence].
Qed.
Lemma pn_local_esc : forall r, Forall (fun c => c <> 92 /\ c <> 60 /\ c <> 58) r -> pn_local (esc_all r) -> escapable r.
Proof.
  intros [|c r] N H; [split; [constructor|discriminate]|]. inversion N as [|? ? (A & B & C) N']; subst. rewrite esc_all_cons in H.
  destruct (esc1_cases c) as [[X E]|(X & Y & E)]; rewrite E in H; cbn [app] in H.
  - destruct X as [X|X]; [|congruence]. inversion H as [|x y P Q|x y P Q R]; subst.
    + exfalso. unfold pn_u, pn_base, TurtleTextSpec.letter, digit10, between in P. lia.
    + inversion P as [a b U V W|a U W]; subst; [discriminate R|]. injection R as _ R. subst y. split.
      * constructor; auto. now apply local_rest_esc.
      * intros d t [= <- <-]. auto.
  - inversion H as [|x y P Q|x y P Q R]; subst.
    + split; [constructor; [|now apply local_rest_esc]|].
      * left. unfold pn_char. destruct P as [P|[P|P]]; [auto|congruence|auto].
      * intros d t [= <- <-]. destruct P as [P|[P|P]]; [auto|congruence|auto].
    + exfalso. inversion P as [a b U V W|a U W]; subst; injection R as R _; subst c; [apply X, percent_esc|congruence].
Qed.
Lemma escapable_clean : forall r, escapable r -> Forall (fun c => c <> 92 /\ c <> 60 /\ c <> 58) r.
Proof.
  intros r [F _]. apply Forall_impl with (2 := F). intros c [X|X].
  - unfold pn_char, pn_u, pn_base, TurtleTextSpec.letter, digit10, between in X. lia.
  - split; [|split]; intros ->; [now apply ne92|now apply ne60|now apply ne58].
Qed.
Section Escaped.
  Variable resolves : str -> str -> str -> Prop.
  Lemma escaped_inv : forall pm B p ns r iri, pn_prefix p -> lookup pm p ns -> text_is_iri resolves pm B (escape_prefix_local (p ++ 58 :: r)) iri ->
    iri = ns ++ r /\ escapable r.
  Proof.
    intros pm B p ns r iri P L (i & T & M). assert (A := prefix_colon _ P). rewrite (escape_at p r A) in T. apply pn_inv in T; auto. destruct T as [-> PL].
    assert (M' := M _ (pm_env pm B)). inversion M' as [|ns' ln' p' l A' X D E Y]; subst.
    destruct (split_unique 58 ns' ln' p (esc_all r) A' A E) as [-> ->]. cbn in X. apply lookup_sget in L. rewrite L in X. injection X as <-.
    apply denotes_esc in D. destruct D as [-> F]. split; auto. now apply pn_local_esc.
  Qed.
  Lemma escaped_reads : forall pm B p ns r, pn_prefix p -> lookup pm p ns -> escapable r ->
    text_is_iri resolves pm B (escape_prefix_local (p ++ 58 :: r)) (ns ++ r).
  Proof.
    intros pm B p ns r P L H. assert (A := prefix_colon _ P). rewrite (escape_at p r A). exists (TPn (p ++ 58 :: esc_all r)). split; [constructor; auto; now apply esc_pn_local|].
    intros e [EP _]. constructor; auto. apply esc_denotes. now apply escapable_clean.
  Qed.
End Escaped.
(** names that need no escape *)
Lemma rest_escapable : forall r, local_rest r -> ~ In 92 r -> ~ In 58 r -> Forall (fun c => pn_char c \/ local_esc c) r.
Proof.
  intros r H. induction H as [|c r C H IH|r N H IH|x r X H IH]; intros A B.
  - constructor.
  - constructor; [|apply IH; cbn in *; tauto]. destruct C as [C| ->]; [auto|exfalso; apply B; now left].
  - constructor; [right; apply dot_esc|apply IH; cbn in *; tauto].
  - inversion X as [a b U V|c U]; subst; [|exfalso; apply A; now left]. cbn [app] in *.
    assert (HX : forall d, hexdigit d = true -> pn_char d).
    { intros d E. unfold hexdigit in E. unfold pn_char, pn_u, pn_base, TurtleTextSpec.letter, digit10, between. rewrite ?orb_true_iff, ?andb_true_iff, ?N.leb_le in E. lia. }
    constructor; [right; apply percent_esc|]. constructor; [auto|]. constructor; [auto|]. apply IH; cbn in *; tauto.
Qed.
Lemma local_escapable : forall r, pn_local r /\ ~ In 92 r -> ~ In 58 r -> escapable r.
Proof.
  intros r [H A] B. inversion H as [|c t C R|x t X R]; subst.
  - split; [constructor|discriminate].
  - split.
    + constructor; [|apply rest_escapable; cbn in *; tauto]. left. unfold pn_char. destruct C as [C|[C|C]]; [auto|exfalso; apply B; now left|auto].
    + intros d u [= <- _]. destruct C as [C|[C|C]]; [auto|exfalso; apply B; now left|auto].
  - split; [apply rest_escapable; auto; now apply lr_plx|]. inversion X as [a b U V|c U]; subst; [|exfalso; apply A; now left].
    intros d u [= <- _]. right. right. apply percent_esc.
Qed.
