(** Resource: assignment (C56, C57). *)
From Coq Require Import Permutation DecimalZ.
From Verif Require Import Model.Py Model.Terms Model.Graph Model.GraphRun Model.Codec Model.Curie Model.Resource Model.ResourceRun
  Spec.GraphSpec Spec.CurieSpec Spec.ResourceSpec
  Proofs.DictLemmas Proofs.GraphInv Proofs.GraphHist Proofs.CurieLemmas Proofs.CurieMore Proofs.LangLemmas Proofs.ResourceLemmas Proofs.ClassLemmas Proofs.ResourceRead.
Open Scope N_scope.

(** ** canonical decimal text is unique *)
Lemma digits_uint : forall s, Forall (fun c => 48 <= c <= 57) s -> exists u, uint_str u = s.
Proof.
  induction 1 as [|c s D _ (u & <-)]; [exists Decimal.Nil; reflexivity|].
  assert (K : c = 48 \/ c = 49 \/ c = 50 \/ c = 51 \/ c = 52 \/ c = 53 \/ c = 54 \/ c = 55 \/ c = 56 \/ c = 57) by lia.
  destruct K as [->|[->|[->|[->|[->|[->|[->|[->|[->| ->]]]]]]]]].
  - now exists (Decimal.D0 u).
  - now exists (Decimal.D1 u).
  - now exists (Decimal.D2 u).
  - now exists (Decimal.D3 u).
  - now exists (Decimal.D4 u).
  - now exists (Decimal.D5 u).
  - now exists (Decimal.D6 u).
  - now exists (Decimal.D7 u).
  - now exists (Decimal.D8 u).
  - now exists (Decimal.D9 u).
Qed.
Lemma nzhead_id : forall u d r, uint_str u = d :: r -> 49 <= d -> Decimal.nzhead u = u.
Proof. intros [|u|u|u|u|u|u|u|u|u|u] d r E D; cbn [uint_str] in E; inversion E; subst; try lia; reflexivity. Qed.
Lemma canonical_unique : forall v z, canonical_int v -> dec_value v = Some z -> v = int_str z.
Proof.
  intros v z [->|(sg & d & r & -> & S & D & R)] H.
  - vm_compute in H. injection H as <-. reflexivity.
  - assert (DR : Forall (fun c => 48 <= c <= 57) (d :: r)) by (constructor; [lia|exact R]).
    destruct (digits_uint _ DR) as (u & U). pose proof (nzhead_id u d r U (proj1 D)) as NZ.
    assert (NN : u <> Decimal.Nil) by (intros ->; discriminate U).
    destruct S as [-> | ->]; cbn [app] in *.
    + unfold dec_value in H. destruct (N.eqb_spec d 45); [lia|]. rewrite <- U, dec_of_uint in H. cbn [option_map] in H. injection H as H.
      assert (E : Z.to_int z = Decimal.Pos u).
      { rewrite <- H. change (Z.of_N (Pos.of_uint u)) with (Z.of_int (Decimal.Pos u)). rewrite DecimalZ.to_of. unfold Decimal.norm, Decimal.unorm.
        rewrite NZ. destruct u; congruence. }
      unfold int_str. rewrite E. now rewrite U.
    + unfold dec_value in H. destruct (N.eqb_spec 45 45); [|congruence]. rewrite <- U, dec_of_uint in H.
      cbn [option_map] in H. injection H as H.
      assert (E : Z.to_int z = Decimal.Neg u).
      { rewrite <- H. change (- Z.of_N (Pos.of_uint u))%Z with (Z.of_int (Decimal.Neg u)). rewrite DecimalZ.to_of. unfold Decimal.norm.
        rewrite NZ. destruct u; congruence. }
      unfold int_str. rewrite E. now rewrite U.
Qed.

(** ** worlds during an assignment *)
Definition grows (w w' : world) : Prop :=
  winv w' /\ extends w w' /\ (forall j, written w j -> written w' j) /\ (cached w -> cached w').
Lemma grows_refl : forall w, winv w -> grows w w.
Proof. intros w I. split; [exact I|]. split; [apply extends_refl|]. auto. Qed.
Lemma grows_trans : forall a b c, grows a b -> grows b c -> grows a c.
Proof. intros a b c (_ & X & W & C) (I' & X' & W' & C'). split; [exact I'|]. split; [exact (extends_trans _ _ _ X X')|]. auto. Qed.
Lemma instance_grows : forall w w' G tp k o, winv w -> extends w w' -> (instance w' G tp k o <-> instance w G tp k o).
Proof.
  intros w w' G tp k o I (L & C & R & _). unfold instance.
  assert (RG : forall t kc, registered w' t kc <-> registered w t kc).
  { intros t kc. assert (A : forall v, registered v t kc <-> reg_type (w_reg v) (Iri t) = Some kc).
    { intro v. rewrite reg_type_registered. split; [eauto|]. intros (i & [= <-] & H). exact H. }
    now rewrite !A, R. }
  assert (RV : forall t kc, registered w t kc -> class_at w' kc = class_at w kc).
  { intros t kc H. apply C. apply (reg_type_valid w (Iri t) kc I). apply reg_type_registered. eauto. }
  split; intros [N [->|(t & kc & T & H & K)]]; (split; [exact N|]); [now left| |now left|]; right; exists t, kc; (split; [exact T|]).
  - apply RG in H. split; [exact H|]. now rewrite <- (RV _ _ H).
  - split; [now apply RG|]. now rewrite (RV _ _ H).
Qed.

Lemma objectify_spec : forall ord w g a lang dt w' r, winv w -> shuffle ord -> objectify ord w g a lang dt = (w', r) ->
  grows w w' /\
  match r with
  | Ok v => forall t, one_value lang dt a t <-> rval_term v = Some t
  | Err e => (e = KeyError /\ a = APy VOther) \/ (e = TypeError /\ exists t, a = ATerm t /\ node t)
  end /\
  match a, r with
  | ARes c s, _ => r = Ok (RRes c s)
  | ATerm (Lit _ _ _ as t), _ => r = Ok (RLit t)
  | ATerm t, Ok v => exists k, v = RRes k t
  | APy _, Ok v => exists t, v = RLit t
  | _, Err _ => True
  end.
Proof.
  intros ord w g a lang dt w' r I SH H. pose proof (grows_refl _ I) as GR.
  assert (CL : forall t, node t -> classify ord w 0 g t = (w', r) -> grows w w' /\
     match r with Ok v => exists k, v = RRes k t | Err e => e = TypeError end).
  { intros t N E. destruct (classify_spec _ _ _ _ _ _ _ I SH (i_zero _ I) E) as (I' & X & RS & C & M).
    split; [split; [exact I'|]; split; [exact X|]; split; [intros j J; exact (written_step _ _ _ X RS J)|exact C]|].
    destruct r as [[|t'|k s]|e]; [destruct M|destruct M as (_ & M & _); contradiction|destruct M as (-> & _); eauto|tauto]. }
  destruct a as [t|c s|v]; cbn [objectify] in H.
  - assert (KN : node t -> classify ord w 0 g t = (w', r) -> grows w w' /\
       match r with Ok v => forall t', one_value lang dt (ATerm t) t' <-> rval_term v = Some t'
       | Err e => (e = KeyError /\ ATerm t = APy VOther) \/ (e = TypeError /\ exists t', ATerm t = ATerm t' /\ node t') end /\
       match r with Ok v => exists k, v = RRes k t | Err _ => True end).
    { intros N E. destruct (CL t N E) as [G M]. split; [exact G|]. destruct r as [v|e].
      - destruct M as (k & ->). split; [|eauto]. intro t'. cbn. split; congruence.
      - subst e. split; [|exact Logic.I]. right. eauto. }
    destruct t as [x|n|v l d].
    + exact (KN Logic.I H).
    + exact (KN Logic.I H).
    + inversion H; subst. split; [exact GR|]. split; [|reflexivity]. intro t'. cbn. split; congruence.
  - inversion H; subst. split; [exact GR|]. split; [|reflexivity]. intro t'. cbn. split; congruence.
  - destruct v as [v|z|v|]; cbn in H; inversion H; subst; (split; [exact GR|]); cbn; (split; [|eauto]).
    + intro t. split; congruence.
    + intro t. split.
      * intros (v & C & D & ->). now rewrite (canonical_unique _ _ C D).
      * intros [= <-]. exists (int_str z). split; [apply int_str_canonical|]. split; [apply dec_int_str|reflexivity].
    + intro t. split; congruence.
    + left. auto.
Qed.
Lemma objectify_all_spec : forall ord g lang dt l w w' r, winv w -> shuffle ord -> objectify_all ord w g l lang dt = (w', r) ->
  grows w w' /\
  match r with
  | Ok vs => forall t, (exists a, In a l /\ one_value lang dt a t) <-> (exists v, In v vs /\ rval_term v = Some t)
  | Err e => (e = KeyError /\ In (APy VOther) l) \/ (e = TypeError /\ exists t, In (ATerm t) l /\ node t)
  end.
Proof.
  intros ord g lang dt. induction l as [|a l IH]; intros w w' r I SH H; cbn [objectify_all] in H.
  - inversion H; subst. split; [now apply grows_refl|]. intro t. split; intros (x & [] & _).
  - destruct (objectify ord w g a lang dt) as [w1 r1] eqn:E. destruct (objectify_spec _ _ _ _ _ _ _ _ I SH E) as (G1 & M1 & _).
    destruct r1 as [v|e].
    + destruct (objectify_all ord w1 g l lang dt) as [w2 r2] eqn:E2. destruct (IH _ _ _ (proj1 G1) SH E2) as (G2 & M2).
      injection H as <- <-. split; [exact (grows_trans _ _ _ G1 G2)|]. destruct r2 as [vs|e]; cbn [bind].
      * intro t. cbn [In]. split.
        -- intros (x & [<-|J] & O); [exists v; split; [now left|now apply M1]|]. destruct (proj1 (M2 t)) as (y & K & Q); [eauto|]. eauto.
        -- intros (x & [<-|J] & O); [exists a; split; [now left|now apply M1]|]. destruct (proj2 (M2 t)) as (y & K & Q); [eauto|]. eauto.
      * destruct M2 as [[-> J]|(-> & t & J & N)]; [left; split; [reflexivity|now right]|right; split; [reflexivity|]; exists t; split; [now right|exact N]].
    + injection H as <- <-. split; [exact G1|]. destruct M1 as [[-> ->]|(-> & t & -> & N)]; [left; split; [reflexivity|now left]|].
      right. split; [reflexivity|]. exists t. split; [now left|exact N].
Qed.
Lemma rval_eqb_term : forall a b, rval_eqb a b = true -> rval_term a = rval_term b.
Proof. intros [|t|k s] [|t'|k' s']; cbn; try discriminate; try reflexivity; destruct (term_eq_dec _ _); congruence. Qed.
Lemma dedup_terms : forall l seen t, (exists v, In v l /\ rval_term v = Some t) ->
  (exists v, In v seen /\ rval_term v = Some t) \/ (exists v, In v (dedup seen l) /\ rval_term v = Some t).
Proof.
  induction l as [|x l IH]; intros seen t (v & J & R); [destruct J|]. cbn [dedup]. destruct (existsb (rval_eqb x) seen) eqn:E.
  - destruct J as [->|J]; [|apply IH; eauto]. apply existsb_exists in E. destruct E as (y & Y & Q). left. exists y. split; [exact Y|].
    now rewrite <- (rval_eqb_term _ _ Q).
  - destruct J as [->|J]; [right; exists v; split; [now left|exact R]|].
    destruct (IH (x :: seen) t) as [(y & [<-|Y] & Q)|(y & Y & Q)]; [eauto| | |].
    + right. exists x. split; [now left|exact Q].
    + left. eauto.
    + right. exists y. split; [now right|exact Q].
Qed.
Lemma dedup_sub : forall l seen v, In v (dedup seen l) -> In v l.
Proof. induction l as [|x l IH]; intros seen v; cbn [dedup]; [auto|]. destruct (existsb _ _); cbn; [intro H; right; eauto|]. intros [->|H]; [now left|right; eauto]. Qed.
Lemma lval_terms_in : forall v t, In t (lval_terms v) <-> exists x, In x (match v with LOne x => [x] | LSet l => l end) /\ rval_term x = Some t.
Proof.
  intros v t. unfold lval_terms. rewrite in_flat_map. split; intros (x & J & H); exists x; (split; [exact J|]).
  - destruct (rval_term x); [destruct H as [->|[]]; reflexivity|destruct H].
  - rewrite H. now left.
Qed.
Lemma literalize_spec : forall ord w g v lang dt w' r, winv w -> shuffle ord -> literalize ord w g v lang dt = (w', r) ->
  grows w w' /\
  match r with
  | Ok lv => (forall t, new_value lang dt v t <-> In t (lval_terms lv)) /\
      (match v, lv with SOne _, LOne _ => True | SSet _, LSet _ => True | _, _ => False end)
  | Err e => e = KeyError \/ e = TypeError
  end.
Proof.
  intros ord w g v lang dt w' r I SH H. unfold literalize in H. destruct v as [a|l].
  - destruct (objectify ord w g a lang dt) as [w1 x] eqn:E. injection H as <- <-. destruct (objectify_spec _ _ _ _ _ _ _ _ I SH E) as (G & M & _).
    split; [exact G|]. destruct x as [v|e]; cbn [bind].
    + split; [|exact Logic.I]. intro t. cbn [new_value]. rewrite M, lval_terms_in. split; [intro; exists v; split; [now left|assumption]|].
      intros (x & [<-|[]] & Q). exact Q.
    + tauto.
  - destruct (objectify_all ord w g l lang dt) as [w1 x] eqn:E. injection H as <- <-. destruct (objectify_all_spec _ _ _ _ _ _ _ _ I SH E) as (G & M).
    split; [exact G|]. destruct x as [vs|e]; cbn [bind].
    + split; [|exact Logic.I]. intro t. cbn [new_value]. rewrite M, lval_terms_in. split.
      * intro Q. destruct (dedup_terms vs [] t Q) as [(y & [] & _)|Y]. exact Y.
      * intros (y & J & Q). exists y. split; [exact (dedup_sub _ _ _ J)|exact Q].
    + tauto.
Qed.

(** ** the objects to replace *)
Lemma incl_filter {A} : forall (f : A -> bool) l x, In x (filter f l) -> In x l.
Proof. intros f l x H. apply filter_In in H. tauto. Qed.
Lemma instances_incl : forall ord c g k l w w' ts, instances ord w c g k l = (w', Ok ts) -> forall o, In o ts -> In o l.
Proof.
  induction l as [|t l IH]; intros w w' ts H o J; cbn [instances] in H; [inversion H; subst; exact J|].
  destruct (is_node t); [|right; exact (IH _ _ _ H _ J)].
  destruct (classify ord w c g t) as [w1 [v|e]]; [|discriminate].
  destruct (instances ord w1 c g k l) as [w2 [xs|e]] eqn:E; cbn [bind] in H; [|discriminate]. injection H as <- <-.
  destruct (match v with RRes c' _ => is_subclass w1 c' k | _ => false end); [destruct J as [->|J]; [now left|]|]; right; exact (IH _ _ _ E _ J).
Qed.
Section Replace.
  Variables (g : graph) (s : term) (p : str).
  Hypothesis W : wf g.
  Hypothesis Hs : honoured (Some s).
  Hypothesis Hp : p <> [].
  Let hs := has (g_triples g) s p.
  Definition exactly (os : list term) (P : term -> Prop) : Prop :=
    (forall o, In o os <-> hs o /\ P o) /\ (sane_literals (g_triples g) -> NoDup os).
  Lemma exactly_lists : forall os P, lists os (fun o => hs o /\ P o) -> exactly os P.
  Proof. intros os P [N H]. split; [exact H|auto]. Qed.
  Lemma exactly_iff : forall os P Q, exactly os P -> (forall o, hs o -> (P o <-> Q o)) -> exactly os Q.
  Proof. intros os P Q [H N] E. split; [|exact N]. intro o. rewrite H. split; intros [A B]; split; auto; now apply E. Qed.
  Lemma exactly_all : exactly (objs g s (Some p)) (fun _ => True).
  Proof. apply exactly_lists. eapply lists_iff; [now apply all_lists|]. intro o. unfold hs. tauto. Qed.
  Lemma exactly_app : forall a b P Q, exactly a P -> exactly b Q -> (sane_literals (g_triples g) -> forall o, hs o -> P o -> Q o -> False) ->
    exactly (a ++ b) (fun o => P o \/ Q o).
  Proof.
    intros a b P Q [A1 A2] [B1 B2] D. split.
    - intro o. rewrite in_app_iff, A1, B1. tauto.
    - intro S. apply NoDup_app_intro; auto. intros o X Y. apply A1 in X. apply B1 in Y. exact (D S o (proj1 X) (proj2 X) (proj2 Y)).
  Qed.
  Lemma sane_typed : sane_literals (g_triples g) -> forall l o, hs o -> in_lang l o -> typed o -> False.
  Proof. intros S l o J (v & l' & d & -> & _) (v' & l2 & d' & [= <- <- ->]). exact (S _ _ _ _ J eq_refl). Qed.
  Lemma implicit_objects : forall w c v lang v' os, 
    (lang = if in_scalars w c (Some p) then Some (lang_of w c) else None) ->
    match v, v' with
    | SOne (ATerm (Lit _ _ _ as t)), _ => v' = LOne (RLit t)
    | SOne (APy (VStr x)), _ => v' = LOne (RLit (Lit x lang None))
    | SOne (APy _), _ => exists x d, v' = LOne (RLit (Lit x None d))
    | SOne (ATerm t), _ => exists k, v' = LOne (RRes k t)
    | SOne (ARes c s), _ => v' = LOne (RRes c s)
    | SSet _, LSet _ => True
    | SSet _, LOne _ => False
    end ->
    objects_for_implicit_set w c g s (Some p) v' = Ok os ->
    exactly os (fun o => scalar w c p -> match value_lang lang None v with Some l => in_lang l o \/ typed o \/ node o \/ bare o | None => True end).
  Proof.
    intros w c v lang v' os EL EV H. unfold objects_for_implicit_set in H. destruct (in_scalars w c (Some p)) eqn:E.
    - pose proof (proj1 (in_scalars_spec _ _ _) E) as SC.
      assert (AL : os = objects g s (Some p) -> value_lang lang None v = None ->
        exactly os (fun o => scalar w c p -> match value_lang lang None v with Some l => in_lang l o \/ typed o \/ node o \/ bare o | None => True end)).
      { intros -> ->. eapply exactly_iff; [apply exactly_all|]. intros o _. tauto. }
      assert (LA : forall ch l, os = objects_by_lang g s (Some p) (Some (ch :: l)) ++ objects_by_datatype g s (Some p) None ++ filter is_node (objs g s (Some p)) ++ bare_literals g s (Some p) ->
         value_lang lang None v = Some (ch :: l) ->
        exactly os (fun o => scalar w c p -> match value_lang lang None v with Some l => in_lang l o \/ typed o \/ node o \/ bare o | None => True end)).
      { intros ch l -> ->. eapply exactly_iff.
        - apply exactly_app; [apply exactly_lists; now apply lang_lists|apply exactly_app; [apply exactly_lists; now apply typed_lists|apply exactly_app; [apply exactly_lists; now apply node_lists|apply exactly_lists; now apply bare_lists|]|]|].
          + intros _ o _ N (x & ->). exact N.
          + intros _ o _ (x & l2 & d & ->) [N|(y & Y)]; [exact N|discriminate].
          + intros S o J L [T|[N|(y & ->)]]; [exact (sane_typed S _ _ J L T)|exact (lit_not_node _ _ L N)|]. destruct L as (v0 & l' & d & Y & _). discriminate.
        - intros o _. tauto. }
      destruct v as [[t|c0 s0|[x|z|x|]]|l0]; cbn [value_lang] in *.
      + destruct t as [x|n|x l d].
        * destruct EV as (k & ->). injection H as <-. apply AL; reflexivity.
        * destruct EV as (k & ->). injection H as <-. apply AL; reflexivity.
        * subst v'. destruct l as [[|ch l]|].
          -- injection H as <-. apply AL; reflexivity.
          -- injection H as <-. eapply LA; reflexivity.
          -- injection H as <-. apply AL; reflexivity.
      + subst v'. injection H as <-. apply AL; reflexivity.
      + subst v' lang. destruct (lang_of w c) as [|ch l].
        * injection H as <-. apply AL; reflexivity.
        * injection H as <-. eapply LA; reflexivity.
      + destruct EV as (x & d & ->). injection H as <-. apply AL; reflexivity.
      + destruct EV as (y & d & ->). injection H as <-. apply AL; reflexivity.
      + destruct EV as (y & d & ->). injection H as <-. apply AL; reflexivity.
      + destruct v' as [|vs]; [destruct EV|discriminate].
    - pose proof (proj1 (in_scalars_false _ _ _) E) as SC. injection H as <-.
      eapply exactly_iff; [apply exactly_all|]. intros o _. tauto.
  Qed.
End Replace.
