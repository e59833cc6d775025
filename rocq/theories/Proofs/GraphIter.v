(** Generators of match that stay open while the graph changes (C105). *)
From Verif Require Import Model.Py Model.Terms Model.Graph Spec.GraphSpec Model.GraphRun Spec.IterSpec Proofs.DictLemmas Proofs.GraphInv Proofs.GraphGen Proofs.GraphHist.

Definition k1 (w : which) (t : stmt) : term := match w with SPO => st_s t | POS => st_p t | OSP => st_o t end.
Definition k2 (w : which) (t : stmt) : term := match w with SPO => st_p t | POS => st_o t | OSP => st_s t end.
Definition k3 (w : which) (t : stmt) : term := match w with SPO => st_o t | POS => st_s t | OSP => st_p t end.
Definition outer (g : graph) (w : which) (a : term) := gd (g_index g w) a.
Definition inner (g : graph) (w : which) (a b : term) := gd (outer g w a) b.
Lemma wf_idx : forall g w, wf g -> idx_ok (k1 w) (k2 w) (k3 w) (g_index g w) (g_triples g).
Proof. intros g w (_ & _ & A & B & C). destruct w; assumption. Qed.
Lemma inner_lists : forall g w a b, wf g -> lists (dvals (inner g w a b)) (fun t => In t (g_triples g) /\ k1 w t = a /\ k2 w t = b).
Proof. intros g w a b W. exact (dvals_lists _ _ _ _ _ (wf_idx g w W) a b). Qed.

Lemma NoDup_app_disj {A} : forall (a b : list A), NoDup a -> NoDup b -> (forall x, In x a -> In x b -> False) -> NoDup (a ++ b).
Proof.
  induction a as [|x a IH]; intros b N M D; [exact M|]. inversion N; subst. cbn. constructor; [|apply IH; auto; intros y A1 B1; apply (D y); cbn; auto].
  rewrite in_app_iff. intros [H|H]; [contradiction|]. apply (D x); cbn; auto.
Qed.

(** *** Changes *)
Lemma add_index : forall g t w, g_index (g_add g t) w = tset (g_index g w) (k1 w t) (tset (outer g w (k1 w t)) (k2 w t) (tset (inner g w (k1 w t) (k2 w t)) (k3 w t) t)).
Proof. intros g t w. unfold inner, outer. destruct w; cbn [g_index g_add g_spo g_pos g_osp k1 k2 k3]; apply idx_set_eq. Qed.
Lemma add_present : forall g t, wf g -> In t (g_triples g) -> g_add g t = g.
Proof.
  intros g t W H.
  assert (E : forall w, g_index (g_add g t) w = g_index g w).
  { intro w. rewrite add_index. destruct (wf_idx g w W) as [_ L].
    pose proof (proj2 (L (k1 w t) (k2 w t) (k3 w t) t) (conj H (conj eq_refl (conj eq_refl eq_refl)))) as Q. unfold lookup3 in Q.
    unfold inner, outer. rewrite (dset_same term_eq_dec _ _ _ Q).
    unfold gd in Q at 1. destruct (tget (gd (g_index g w) (k1 w t)) (k2 w t)) as [e|] eqn:E2; [|discriminate].
    unfold gd at 2. rewrite E2. rewrite (dset_same term_eq_dec _ _ _ E2).
    unfold gd in E2. destruct (tget (g_index g w) (k1 w t)) as [d|] eqn:E1; [|discriminate]. unfold gd. rewrite E1. now rewrite (dset_same term_eq_dec _ _ _ E1). }
  pose proof (E SPO) as A. pose proof (E POS) as B. pose proof (E OSP) as C. destruct g as [u ts a b c]. cbn in *. unfold g_add in *. cbn in *.
  rewrite A, B, C. f_equal. unfold set_add. destruct (in_dec stmt_eq_dec t ts); [reflexivity|contradiction].
Qed.
Lemma add_outer : forall g t w a, outer (g_add g t) w a = if term_eq_dec (k1 w t) a then tset (outer g w a) (k2 w t) (tset (inner g w a (k2 w t)) (k3 w t) t) else outer g w a.
Proof. intros g t w a. unfold outer at 1. rewrite add_index, gd_tset. destruct (term_eq_dec (k1 w t) a) as [<-|]; reflexivity. Qed.
Lemma add_inner : forall g t w a b, ~ (k1 w t = a /\ k2 w t = b) -> inner (g_add g t) w a b = inner g w a b.
Proof.
  intros g t w a b N. unfold inner at 1. rewrite add_outer. destruct (term_eq_dec (k1 w t) a) as [E|]; [|reflexivity].
  rewrite gd_tset. destruct (term_eq_dec (k2 w t) b); [tauto|reflexivity].
Qed.
Lemma remove_index : forall g t g', wf g -> In t (g_triples g) -> g_remove g t = (g', Ok tt) ->
  wf g' /\ g_triples g' = set_remove t (g_triples g) /\
  forall w, g_index g' w = tset (g_index g w) (k1 w t) (tset (outer g w (k1 w t)) (k2 w t) (tdel (inner g w (k1 w t) (k2 w t)) (k3 w t))).
Proof.
  intros g t g' W H R. destruct (g_remove_present g t W H) as (g1 & E & W1 & _ & T & A & B & C). rewrite R in E. injection E as <-.
  split; [exact W1|]. split; [exact T|]. intros [| |]; assumption.
Qed.
Lemma remove_outer : forall g t g' w a, wf g -> In t (g_triples g) -> g_remove g t = (g', Ok tt) ->
  outer g' w a = if term_eq_dec (k1 w t) a then tset (outer g w a) (k2 w t) (tdel (inner g w a (k2 w t)) (k3 w t)) else outer g w a.
Proof.
  intros g t g' w a W H R. destruct (remove_index _ _ _ W H R) as (_ & _ & E). unfold outer at 1. rewrite E, gd_tset.
  destruct (term_eq_dec (k1 w t) a) as [<-|]; reflexivity.
Qed.
Lemma remove_inner : forall g t g' w a b, wf g -> In t (g_triples g) -> g_remove g t = (g', Ok tt) ->
  inner g' w a b = if term_eq_dec (k1 w t) a then if term_eq_dec (k2 w t) b then tdel (inner g w a b) (k3 w t) else inner g w a b else inner g w a b.
Proof.
  intros g t g' w a b W H R. unfold inner at 1. rewrite (remove_outer g t g' w a W H R). destruct (term_eq_dec (k1 w t) a) as [E|]; [|reflexivity].
  rewrite gd_tset. destruct (term_eq_dec (k2 w t) b) as [<-|]; reflexivity.
Qed.
Lemma outer_keys : forall g t w, wf g -> In t (g_triples g) -> In (k1 w t) (dkeys (g_index g w)) /\ In (k2 w t) (dkeys (outer g w (k1 w t))).
Proof.
  intros g t w W H. destruct (wf_idx g w W) as [_ L].
  pose proof (proj2 (L (k1 w t) (k2 w t) (k3 w t) t) (conj H (conj eq_refl (conj eq_refl eq_refl)))) as Q. unfold lookup3 in Q.
  unfold gd in Q at 1. destruct (tget (gd (g_index g w) (k1 w t)) (k2 w t)) as [e|] eqn:E2; [|discriminate].
  split; [|exact (dget_Some_key term_eq_dec _ _ _ E2)].
  unfold gd in E2. destruct (tget (g_index g w) (k1 w t)) as [d|] eqn:E1; [|discriminate]. exact (dget_Some_key term_eq_dec _ _ _ E1).
Qed.

(** *** States of a generator *)
Definition have (g : graph) (w : which) (a b : term) : Prop := In a (dkeys (g_index g w)) /\ In b (dkeys (outer g w a)).
Definition keys (g : graph) (x : gen) : Prop :=
  match x with
  | GVals w a b _ _ => have g w a b
  | GNest w a _ orem b _ _ => have g w a b /\ forall k, In k orem -> In k (dkeys (outer g w a))
  | _ => True
  end.
(** the innermost container has its size; so has the other one *)
Definition size1 (g : graph) (x : gen) : Prop :=
  match x with
  | GVals w a b u _ | GNest w a _ _ b u _ => length (inner g w a b) = u
  | GSet u _ => length (g_triples g) = u
  | _ => True
  end.
Definition size2 (g : graph) (x : gen) : Prop := match x with GNest w a ou _ _ _ _ => length (outer g w a) = ou | _ => True end.
Definition sizes (g : graph) (x : gen) : Prop := size1 g x /\ size2 g x.
Definition shape (s p o : oterm) (x : gen) : Prop :=
  match x with
  | GStart _ _ _ => False
  | GDone => True
  | GVals w a b _ rem => NoDup rem /\ (forall t, In t rem -> k1 w t = a /\ k2 w t = b) /\ (forall t, hits s p o t <-> k1 w t = a /\ k2 w t = b)
  | GNest w a _ orem b _ rem => NoDup rem /\ (forall t, In t rem -> k1 w t = a /\ k2 w t = b) /\ NoDup orem /\ ~ In b orem /\ (forall t, hits s p o t <-> k1 w t = a)
  | GSet _ rem => NoDup rem /\ (forall t, hits s p o t)
  end.
Lemma have_tget : forall g w a b, have g w a b -> exists d e, tget (g_index g w) a = Some d /\ tget d b = Some e /\ outer g w a = d /\ inner g w a b = e.
Proof.
  intros g w a b [A B]. destruct (In_key_dget term_eq_dec _ _ A) as [d D]. assert (O : outer g w a = d) by (unfold outer, gd; now rewrite D).
  rewrite O in B. destruct (In_key_dget term_eq_dec _ _ B) as [e E]. exists d, e. repeat split; auto. unfold inner. rewrite O. unfold gd. now rewrite E.
Qed.
Lemma keys_gen : forall g x, keys g x -> gen_keys g x.
Proof.
  intros g [| | |w a ou orem b u rem|] K; try exact Logic.I. destruct K as [K KO]. destruct (have_tget _ _ _ _ K) as (d & e & D & _ & O & _). cbn. exists d. split; [exact D|]. now rewrite <- O.
Qed.
Lemma rest_in : forall g w a ou orem b u rem t, wf g -> In t (gen_rest g (GNest w a ou orem b u rem)) <-> In t rem \/ (In t (g_triples g) /\ k1 w t = a /\ In (k2 w t) orem).
Proof.
  intros g w a ou orem b u rem t W. cbn [gen_rest]. rewrite in_app_iff, in_concat. split.
  - intros [H|(l & L & T)]; [auto|]. apply in_map_iff in L. destruct L as (c & <- & C). apply (inner_lists g w a c W) in T. destruct T as (T & A & <-). auto.
  - intros [H|(T & A & C)]; [auto|]. right. eexists. split; [apply in_map_iff; exists (k2 w t); split; [reflexivity|exact C]|]. apply (inner_lists g w a (k2 w t) W). auto.
Qed.
Lemma NoDup_concat_map : forall g w a orem, wf g -> NoDup orem -> NoDup (concat (map (fun b => dvals (inner g w a b)) orem)).
Proof.
  intros g w a orem W. induction orem as [|b orem IH]; intro N; [constructor|]. inversion N as [|? ? N1 N2]; subst. cbn [map concat].
  apply NoDup_app_disj; [apply (inner_lists g w a b W)|auto|].
  intros t T1 T2. apply (inner_lists g w a b W) in T1. apply in_concat in T2. destruct T2 as (l & L & T2). apply in_map_iff in L. destruct L as (c & <- & C).
  apply (inner_lists g w a c W) in T2. destruct T1 as (_ & _ & <-), T2 as (_ & _ & <-). contradiction.
Qed.
Lemma rest_NoDup : forall g s p o x, wf g -> shape s p o x -> NoDup (gen_rest g x).
Proof.
  intros g s p o [| |w a b u rem|w a ou orem b u rem|u rem] W S; cbn [shape] in S; try (now destruct S); try constructor.
  destruct S as (N & K & NO & NB & _). cbn [gen_rest]. apply NoDup_app_disj; [exact N|exact (NoDup_concat_map g w a orem W NO)|].
  intros t T1 T2. apply K in T1. apply in_concat in T2. destruct T2 as (l & L & T2). apply in_map_iff in L. destruct L as (c & <- & C).
  apply (inner_lists g w a c W) in T2. destruct T1 as (_ & <-), T2 as (_ & _ & <-). contradiction.
Qed.

(** *** One step, whatever has happened to the graph *)
Definition same (x x' : gen) : Prop :=
  match x, x' with
  | GVals _ _ _ u _, GVals _ _ _ u' _ | GSet u _, GSet u' _ => u = u'
  | GNest _ _ _ _ _ _ _, GNest _ _ _ _ _ _ _ => True
  | _, _ => False
  end.
Definition advances (s p o : oterm) (g : graph) (x : gen) (rest : list stmt) (r : graph * res (option (stmt * gen))) : Prop :=
  match rest with
  | [] => r = (g, Ok None)
  | t :: rest' => exists x', r = (g, Ok (Some (t, x'))) /\ gen_rest g x' = rest' /\ keys g x' /\ shape s p o x' /\ (sizes g x -> sizes g x') /\ same x x'
  end.
Lemma nest_any : forall s p o g w a ou, (forall t, hits s p o t <-> k1 w t = a) -> wf g -> In a (dkeys (g_index g w)) ->
  forall orem, NoDup orem -> (forall k, In k orem -> In k (dkeys (outer g w a))) ->
  (nest_outer g w a ou orem = (g, Err RuntimeError) /\ length (outer g w a) <> ou) \/
  (length (outer g w a) = ou /\
   match concat (map (fun b => dvals (inner g w a b)) orem) with
   | [] => nest_outer g w a ou orem = (g, Ok None)
   | t :: rest' => exists x', nest_outer g w a ou orem = (g, Ok (Some (t, x'))) /\ gen_rest g x' = rest' /\ keys g x' /\ shape s p o x' /\ sizes g x' /\ (exists or' b' u' r', x' = GNest w a ou or' b' u' r')
   end).
Proof.
  intros s p o g w a ou HT W HA. destruct (In_key_dget term_eq_dec _ _ HA) as [d D]. assert (O : outer g w a = d) by (unfold outer, gd; now rewrite D).
  induction orem as [|b orem IH]; intros N K; cbn [nest_outer map concat]; rewrite (touch_present _ _ _ _ D), set_index_same, O;
    destruct (length d =? ou) eqn:L.
  - right. apply Nat.eqb_eq in L. auto.
  - left. apply Nat.eqb_neq in L. auto.
  - assert (HB : have g w a b) by (split; [exact HA|apply K; now left]). destruct (have_tget _ _ _ _ HB) as (d' & e & D' & E & _ & I). assert (d' = d) by congruence. subst d'.
    rewrite (touch2_present _ _ _ _ _ D E), set_index_same, I. inversion N as [|? ? N1 N2]; subst.
    destruct (dvals (inner g w a b)) as [|t r] eqn:V.
    + cbn [app]. apply IH; [exact N2|]. intros k J. apply K. now right.
    + right. apply Nat.eqb_eq in L. split; [exact L|]. cbn [app]. eexists. split; [reflexivity|]. split; [reflexivity|].
      split; [split; [exact HB|intros k J; apply K; now right]|]. split; [|split; [split; [reflexivity|exact L]|eauto]].
      pose proof (inner_lists g w a b W) as [ND IN]. rewrite V in ND, IN. inversion ND; subst.
      split; [assumption|]. split; [intros y J; apply (IN y); now right|]. split; [exact N2|]. split; [exact N1|]. exact HT.
  - left. apply Nat.eqb_neq in L. auto.
Qed.
Lemma vals_any : forall g w a b u rem, have g w a b ->
  vals_next g w a b u rem = if length (inner g w a b) =? u then match rem with [] => Ok None | t :: r => Ok (Some (t, GVals w a b u r)) end else Err RuntimeError.
Proof. intros g w a b u rem H. destruct (have_tget _ _ _ _ H) as (d & e & D & E & _ & I). unfold vals_next. now rewrite D, E, I. Qed.
Lemma next_any : forall s p o g x, wf g -> keys g x -> shape s p o x ->
  (gen_next g x = (g, Err RuntimeError) /\ ~ sizes g x) \/ (size1 g x /\ advances s p o g x (gen_rest g x) (gen_next g x)).
Proof.
  intros s p o g [s' p' o'| |w a b u rem|w a ou orem b u rem|u rem] W K S; cbn [shape] in S; try contradiction.
  - right. split; [exact Logic.I|reflexivity].
  - cbn [gen_next keys gen_rest] in *. rewrite (vals_any _ _ _ _ _ _ K). destruct (length (inner g w a b) =? u) eqn:L.
    + apply Nat.eqb_eq in L. right. split; [exact L|]. destruct rem as [|t r]; [reflexivity|]. eexists. split; [reflexivity|]. split; [reflexivity|]. split; [exact K|].
      destruct S as (N & KR & HT). inversion N; subst. split; [split; [assumption|]; split; [intros y J; apply KR; now right|exact HT]|]. split; [intros _; split; [reflexivity|exact Logic.I]|reflexivity].
    + apply Nat.eqb_neq in L. left. split; [reflexivity|]. intros [X _]. contradiction.
  - cbn [gen_next keys] in *. destruct K as [HB KO]. rewrite (vals_any _ _ _ _ _ _ HB). destruct S as (N & KR & NO & NB & HT). destruct (length (inner g w a b) =? u) eqn:L.
    + apply Nat.eqb_eq in L. destruct rem as [|t r].
      * destruct (nest_any s p o g w a ou HT W (proj1 HB) orem NO KO) as [[E NE]|[E A]].
        -- left. split; [exact E|]. intros [_ X]. contradiction.
        -- right. split; [exact L|]. cbn [gen_rest app]. change (fun b0 => dvals (gd (gd (g_index g w) a) b0)) with (fun b0 => dvals (inner g w a b0)).
           unfold advances. destruct (concat (map (fun b0 => dvals (inner g w a b0)) orem)) as [|t r]; [exact A|].
           destruct A as (x' & A & B & C & D & F & (or' & b' & u' & r' & ->)). eexists. split; [exact A|]. split; [exact B|]. split; [exact C|]. split; [exact D|]. split; [auto|exact Logic.I].
      * right. split; [exact L|]. eexists. split; [reflexivity|]. split; [reflexivity|]. split; [split; assumption|]. inversion N; subst.
        split; [|split; [intros [_ X]; split; [reflexivity|exact X]|exact Logic.I]]. split; [assumption|]. split; [intros y J; apply KR; now right|]. auto.
    + apply Nat.eqb_neq in L. left. split; [reflexivity|]. intros [X _]. contradiction.
  - cbn [gen_next gen_rest]. destruct (length (g_triples g) =? u) eqn:L.
    + apply Nat.eqb_eq in L. right. split; [exact L|]. destruct rem as [|t r]; [reflexivity|]. destruct S as (N & HT). inversion N; subst.
      eexists. split; [reflexivity|]. split; [reflexivity|]. split; [exact Logic.I|]. split; [split; assumption|]. split; [intros _; split; [reflexivity|exact Logic.I]|reflexivity].
    + apply Nat.eqb_neq in L. left. split; [reflexivity|]. intros [X _]. contradiction.
Qed.

(** *** The first step *)
Definition begins (s p o : oterm) (g : graph) (rest : list stmt) (r : graph * res (option (stmt * gen))) : Prop :=
  match rest with
  | [] => r = (g, Ok None)
  | t :: rest' => exists x', r = (g, Ok (Some (t, x'))) /\ gen_rest g x' = rest' /\ keys g x' /\ shape s p o x' /\ sizes g x'
  end.
Lemma start_vals : forall s p o g w a b, (forall t, hits s p o t <-> k1 w t = a /\ k2 w t = b) -> wf g ->
  begins s p o g (idx_vals2 (g_index g w) a b) (vals_start g w a b).
Proof.
  intros s p o g w a b HT W. unfold idx_vals2, vals_start, dmem.
  destruct (tget (g_index g w) a) as [d|] eqn:Ea; [|reflexivity]. rewrite (touch_present _ _ _ _ Ea), set_index_same.
  destruct (tget d b) as [e|] eqn:Eb; [|reflexivity]. rewrite (touch2_present _ _ _ _ _ Ea Eb), set_index_same.
  assert (O : outer g w a = d) by (unfold outer, gd; now rewrite Ea). assert (I : inner g w a b = e) by (unfold inner; rewrite O; unfold gd; now rewrite Eb).
  unfold vals_next. rewrite Ea, Eb, Nat.eqb_refl. pose proof (inner_lists g w a b W) as [ND IN]. rewrite I in ND, IN.
  destruct (dvals e) as [|t r] eqn:V; [reflexivity|]. eexists. split; [reflexivity|]. split; [reflexivity|].
  split; [split; [exact (dget_Some_key term_eq_dec _ _ _ Ea)|rewrite O; exact (dget_Some_key term_eq_dec _ _ _ Eb)]|].
  apply NoDup_cons_iff in ND. destruct ND as [_ ND]. split; [|split; [cbn [size1]; now rewrite I|exact Logic.I]]. split; [assumption|]. split; [intros y J; apply (IN y); now right|exact HT].
Qed.
Lemma start_nest : forall s p o g w a, (forall t, hits s p o t <-> k1 w t = a) -> wf g ->
  begins s p o g (idx_vals1 (g_index g w) a) (nest_start g w a).
Proof.
  intros s p o g w a HT W. unfold idx_vals1, nest_start, dmem. destruct (tget (g_index g w) a) as [d|] eqn:Ea; [|reflexivity].
  rewrite (touch_present _ _ _ _ Ea), set_index_same. pose proof (wf_nodup3 g w W) as (_ & N2 & _). specialize (N2 a).
  assert (O : gd (g_index g w) a = d) by (unfold gd; now rewrite Ea). rewrite O in N2. rewrite concat_by_keys by exact N2.
  destruct (nest_any s p o g w a (length d) HT W (dget_Some_key term_eq_dec _ _ _ Ea) (dkeys d) N2) as [[_ X]|[_ A]].
  - unfold outer. now rewrite O.
  - unfold outer in X. rewrite O in X. contradiction.
  - unfold begins. change (fun b => dvals (inner g w a b)) with (fun b => dvals (gd (gd (g_index g w) a) b)) in A. rewrite O in A.
    destruct (concat (map (fun b => dvals (gd d b)) (dkeys d))) as [|t r]; [exact A|]. destruct A as (x' & A & B & C & D & F & _). exists x'. auto.
Qed.
Lemma agrees_some : forall a x y, oterm_truthy (Some a) = true -> x = Some a -> agrees (as_wildcard x) y <-> y = a.
Proof. intros a x y T ->. rewrite (as_wildcard_truthy _ T). unfold agrees. split; [intros [H|H]; [discriminate|now injection H]|intros ->; now right]. Qed.
Lemma agrees_any : forall x y, oterm_truthy x = false -> agrees (as_wildcard x) y.
Proof. intros x y T. rewrite (oterm_truthy_false _ T). now left. Qed.
Lemma agrees_true : forall x y, oterm_truthy x = false -> agrees (as_wildcard x) y <-> True.
Proof. intros x y T. split; [trivial|]. intros _. now apply agrees_any. Qed.
Ltac hit := intro t; unfold hits, fits; cbn [k1 k2]; repeat match goal with
  | T : oterm_truthy (Some ?a) = true |- context [agrees (as_wildcard (Some ?a)) ?y] => rewrite (agrees_some a (Some a) y T eq_refl)
  | T : oterm_truthy ?x = false |- context [agrees (as_wildcard ?x) ?y] => rewrite (agrees_true x y T)
  end; intros; cbn [oterm_truthy] in *; tauto.
Lemma start_any : forall s p o g, wf g -> begins s p o g (g_match g s p o) (gen_next g (GStart s p o)).
Proof.
  intros s p o g W. cbn [gen_next]. unfold g_match.
  assert (NN : oterm_truthy None = false) by reflexivity.
  assert (TS : (forall t, hits s p o t) -> begins s p o g (g_triples g) (match g_triples g with [] => (g, Ok None) | t :: r => (g, Ok (Some (t, GSet (length (g_triples g)) r))) end)).
  { intro HT. pose proof (proj1 W) as ND. destruct (g_triples g) as [|t l] eqn:E; [reflexivity|]. inversion ND; subst.
    eexists. split; [reflexivity|]. split; [reflexivity|]. split; [exact Logic.I|]. split; [split; assumption|]. split; [cbn [size1]; now rewrite E|exact Logic.I]. }
  destruct s as [s|], p as [p|], o as [o|];
  repeat match goal with |- context [if oterm_truthy ?x then _ else _] => let T := fresh "T" in destruct (oterm_truthy x) eqn:T end.
  all: try (apply (start_vals _ _ _ g SPO); [hit|exact W]).
  all: try (apply (start_vals _ _ _ g POS); [hit|exact W]).
  all: try (apply (start_vals _ _ _ g OSP); [hit|exact W]).
  all: try (apply (start_nest _ _ _ g SPO); [hit|exact W]).
  all: try (apply (start_nest _ _ _ g POS); [hit|exact W]).
  all: try (apply (start_nest _ _ _ g OSP); [hit|exact W]).
  all: try (apply TS; hit).
  destruct (g_contains g (Tr s p o)); [|reflexivity]. exists GDone. repeat (split; [reflexivity || exact Logic.I|]). exact Logic.I.
Qed.

(** which kind of loop the first step enters *)
Lemma start_kind : forall s p o g t x, wf g -> ~ one_bound s p o -> gen_next g (GStart s p o) = (g, Ok (Some (t, x))) ->
  match x with GNest _ _ _ _ _ _ _ => False | GDone => bound s /\ bound p /\ bound o | _ => True end.
Proof.
  intros s p o g t x W NB H. unfold one_bound in NB. rewrite <- !oterm_truthy_true in *.
  assert (V : forall w a b, vals_start g w a b = (g, Ok (Some (t, x))) -> match x with GVals _ _ _ _ _ => True | _ => False end).
  { intros w a b. unfold vals_start, dmem. destruct (tget (g_index g w) a) as [d|] eqn:Ea; [|discriminate]. rewrite (touch_present _ _ _ _ Ea), set_index_same.
    destruct (tget d b) as [e|] eqn:Eb; [|discriminate]. rewrite (touch2_present _ _ _ _ _ Ea Eb), set_index_same. unfold vals_next. rewrite Ea, Eb, Nat.eqb_refl.
    destruct (dvals e); [discriminate|]. intros [= <- <-]. exact Logic.I. }
  assert (TS : (match g_triples g with [] => (g, Ok None) | t :: r => (g, Ok (Some (t, GSet (length (g_triples g)) r))) end) = (g, Ok (Some (t, x))) -> match x with GSet _ _ => True | _ => False end).
  { destruct (g_triples g); [discriminate|]. intros [= <- <-]. exact Logic.I. }
  cbn [gen_next] in H. assert (NN : oterm_truthy None = false) by reflexivity.
  destruct s as [s|], p as [p|], o as [o|];
  repeat match type of H with context [if oterm_truthy ?x then _ else _] => let T := fresh "T" in destruct (oterm_truthy x) eqn:T end;
  try (apply V in H; destruct x; tauto); try (apply TS in H; destruct x; tauto);
  try (exfalso; apply NB; first [left; repeat split; congruence|right; left; repeat split; congruence|right; right; repeat split; congruence]).
  destruct (g_contains g (Tr s p o)); [|discriminate]. injection H as <- <-. rewrite <- !oterm_truthy_true. auto.
Qed.

(** *** Changes and states *)
Lemma have_add : forall g t w a b, have g w a b -> have (g_add g t) w a b.
Proof.
  intros g t w a b [A B]. split; [rewrite add_index; apply In_dkeys_dset; now right|]. rewrite add_outer. destruct (term_eq_dec (k1 w t) a); [|exact B].
  apply In_dkeys_dset. now right.
Qed.
Lemma keys_add : forall g t x, keys g x -> keys (g_add g t) x.
Proof.
  intros g t [| |w a b u rem|w a ou orem b u rem|] K; cbn [keys] in *; auto using have_add. destruct K as [H K]. split; [now apply have_add|].
  intros k J. rewrite add_outer. destruct (term_eq_dec (k1 w t) a); [apply In_dkeys_dset; right|]; auto.
Qed.
Lemma remove_keys : forall g t g' w, wf g -> In t (g_triples g) -> g_remove g t = (g', Ok tt) -> dkeys (g_index g' w) = dkeys (g_index g w) /\ forall a, dkeys (outer g' w a) = dkeys (outer g w a).
Proof.
  intros g t g' w W H R. destruct (outer_keys g t w W H) as [A B]. split.
  - destruct (remove_index _ _ _ W H R) as (_ & _ & E). rewrite E. now apply dkeys_dset_in.
  - intro a. rewrite (remove_outer _ _ _ _ _ W H R). destruct (term_eq_dec (k1 w t) a) as [<-|]; [now apply dkeys_dset_in|reflexivity].
Qed.
Lemma keys_remove : forall g t g' x, wf g -> In t (g_triples g) -> g_remove g t = (g', Ok tt) -> keys g x -> keys g' x.
Proof.
  intros g t g' [| |w a b u rem|w a ou orem b u rem|] W H R K; cbn [keys] in *; auto; unfold have in *; destruct (remove_keys _ _ _ w W H R) as [E1 E2]; now rewrite E1, E2.
Qed.
Lemma outer_length : forall g t g' w a, wf g -> In t (g_triples g) -> g_remove g t = (g', Ok tt) -> length (outer g' w a) = length (outer g w a).
Proof. intros g t g' w a W H R. destruct (remove_keys _ _ _ w W H R) as [_ E]. specialize (E a). unfold dkeys in E. apply (f_equal (@length _)) in E. now rewrite !map_length in E. Qed.
(** the innermost container has lost something *)
Definition less (g : graph) (x : gen) : Prop :=
  match x with
  | GVals w a b u _ | GNest w a _ _ b u _ => (length (inner g w a b) < u)%nat
  | GSet u _ => (length (g_triples g) < u)%nat
  | _ => False
  end.
(** a triple the pattern is not about *)
Lemma other_add : forall s p o g t x, shape s p o x -> ~ hits s p o t -> gen_rest (g_add g t) x = gen_rest g x /\ (sizes g x -> sizes (g_add g t) x).
Proof.
  intros s p o g t [| |w a b u rem|w a ou orem b u rem|u rem] S N; cbn [shape] in S; try contradiction; try (split; [reflexivity|auto; fail]).
  - destruct S as (_ & _ & HT). split; [reflexivity|]. intros [A _]. split; [|exact Logic.I]. cbn [size1] in *. rewrite add_inner; [exact A|]. intro X. apply N, HT, X.
  - destruct S as (_ & _ & _ & _ & HT). assert (NK : k1 w t <> a) by (intro X; apply N, HT, X).
    assert (I : forall c, inner (g_add g t) w a c = inner g w a c) by (intro c; apply add_inner; tauto).
    split; [cbn [gen_rest]; f_equal; f_equal; apply map_ext; intro c; apply (f_equal dvals), I|].
    intros [A B]. split; cbn [size1 size2] in *; [now rewrite I|]. rewrite add_outer. destruct (term_eq_dec (k1 w t) a); [contradiction|exact B].
  - destruct S as (_ & HT). destruct (N (HT t)).
Qed.
Lemma other_add_less : forall s p o g t x, shape s p o x -> ~ hits s p o t -> less g x -> less (g_add g t) x.
Proof.
  intros s p o g t [| |w a b u rem|w a ou orem b u rem|u rem] S N L; cbn [shape less] in *; try contradiction.
  - destruct S as (_ & _ & HT). rewrite add_inner; [exact L|]. intro X. apply N, HT, X.
  - destruct S as (_ & _ & _ & _ & HT). rewrite add_inner; [exact L|]. intros [X _]. apply N, HT, X.
  - destruct S as (_ & HT). destruct (N (HT t)).
Qed.
Lemma other_remove : forall s p o g t g' x, wf g -> In t (g_triples g) -> g_remove g t = (g', Ok tt) -> shape s p o x -> ~ hits s p o t ->
  gen_rest g' x = gen_rest g x /\ (less g x -> less g' x) /\ (sizes g x -> sizes g' x).
Proof.
  intros s p o g t g' [| |w a b u rem|w a ou orem b u rem|u rem] W H R S N; cbn [shape] in S; try contradiction; try (split; [reflexivity|]; split; auto; fail).
  - destruct S as (_ & _ & HT). assert (I : inner g' w a b = inner g w a b).
    { rewrite (remove_inner _ _ _ _ _ _ W H R). destruct (term_eq_dec (k1 w t) a), (term_eq_dec (k2 w t) b); try reflexivity. destruct N. now apply HT. }
    split; [reflexivity|]. split; [cbn [less]; now rewrite I|]. intros [A _]. split; [|exact Logic.I]. cbn [size1] in *. now rewrite I.
  - destruct S as (_ & _ & _ & _ & HT). assert (I : forall c, inner g' w a c = inner g w a c).
    { intro c. rewrite (remove_inner _ _ _ _ _ _ W H R). destruct (term_eq_dec (k1 w t) a) as [X|]; [|reflexivity]. destruct N. now apply HT. }
    split; [cbn [gen_rest]; f_equal; f_equal; apply map_ext; intro c; apply (f_equal dvals), I|]. split; [cbn [less]; now rewrite I|].
    intros [A B]. split; cbn [size1 size2] in *; [now rewrite I|]. now rewrite (outer_length _ _ _ _ _ W H R).
  - destruct S as (_ & HT). destruct (N (HT t)).
Qed.
Lemma grow_in : forall s p o g t x y, wf g -> is_triple t -> shape s p o x ->
  (In y (gen_rest g x) -> In y (gen_rest (g_add g t) x)) /\ (In y (gen_rest (g_add g t) x) -> In y (gen_rest g x) \/ y = t).
Proof.
  intros s p o g t x y W T S. destruct x as [| |w a b u rem|w a ou orem b u rem|u rem]; cbn [shape] in S; try contradiction; try (cbn [gen_rest]; split; auto; fail).
  rewrite !rest_in by auto using g_add_wf. rewrite g_add_In. tauto.
Qed.
Lemma shrink_in : forall s p o g t g' x y, wf g -> In t (g_triples g) -> g_remove g t = (g', Ok tt) -> shape s p o x ->
  (In y (gen_rest g' x) -> In y (gen_rest g x)) /\ (In y (gen_rest g x) -> y <> t -> In y (gen_rest g' x)).
Proof.
  intros s p o g t g' x y W H R S. destruct (remove_index _ _ _ W H R) as (W' & E & _).
  destruct x as [| |w a b u rem|w a ou orem b u rem|u rem]; cbn [shape] in S; try contradiction; try (cbn [gen_rest]; split; auto; fail).
  rewrite !rest_in by assumption. rewrite E, set_remove_In. tauto.
Qed.

(** *** Clients *)
Definition out1 (r : res (option (stmt * gen))) : res (option stmt) := do y <- r ; Ok (option_map fst y).
Definition succ_gen (r : res (option (stmt * gen))) : gen := match r with Ok (Some (_, x)) => x | _ => GDone end.
Lemma nth_upd_same {A} : forall (l : list A) i x y, nth_error l i = Some y -> nth_error (upd l i x) i = Some x.
Proof.
  unfold upd. induction l as [|z l IH]; intros [|i] x y H; cbn in *; try discriminate; [reflexivity|]. exact (IH i x y H).
Qed.
Lemma nth_upd_other {A} : forall (l : list A) i j x, i <> j -> nth_error (upd l j x) i = nth_error l i.
Proof.
  unfold upd. induction l as [|z l IH]; intros i [|j] x H; cbn.
  - reflexivity.
  - reflexivity.
  - destruct i; [lia|reflexivity].
  - destruct i as [|i]; [reflexivity|]. cbn. apply IH. lia.
Qed.
Lemma client_next : forall g xs i x r, nth_error xs i = Some x -> gen_next g x = (g, r) -> client_step (g, xs) (EvNext i) = (g, upd xs i (succ_gen r)).
Proof. intros g xs i x r N E. cbn [client_step]. rewrite N, E. destruct r as [[[t y]|]|]; reflexivity. Qed.
Section Client.
  Variables (P : graph -> gen -> list (res (option stmt)) -> Prop) (pa pr : stmt -> Prop).
  Hypothesis HA : forall g x outs t, wf g -> is_triple t -> pa t -> P g x outs -> P (g_add g t) x outs.
  Hypothesis HR : forall g g' x outs t, wf g -> In t (g_triples g) -> g_remove g t = (g', Ok tt) -> pr t -> P g x outs -> P g' x outs.
  Hypothesis HN : forall g x outs, wf g -> P g x outs -> exists r, gen_next g x = (g, r) /\ P g (succ_gen r) (outs ++ [out1 r]).
  Lemma op_keeps : forall op g x outs, wf g -> gop_triples op -> (forall t, puts (EvOp op) t -> pa t) -> (forall t, takes (EvOp op) t -> pr t) ->
    P g x outs -> P (g_step g op) x outs.
  Proof.
    intros [t|ts|t|s p o] g x outs W T A R H; cbn [g_step].
    - apply HA; auto. apply A. reflexivity.
    - cbn [puts gop_triples] in *. unfold g_addAll. clear R. revert g W H. induction ts as [|t ts IH]; intros g W H; cbn [fold_left]; [exact H|].
      apply IH; [intros y J; apply T; now right|intros y J; apply A; now right|apply g_add_wf; [exact W|apply T; now left]|].
      apply HA; [exact W|apply T; now left|apply A; now left|exact H].
    - destruct (in_dec stmt_eq_dec t (g_triples g)) as [I|I]; [|now rewrite g_remove_absent].
      destruct (g_remove_present g t W I) as (g' & E & _). rewrite E. cbn [fst]. apply (HR g g' x outs t W I E); [|exact H]. apply R. reflexivity.
    - rewrite drain_query; auto.
  Qed.
  Lemma client_keeps : forall es g xs x outs i, wf g -> Forall (gen_keys g) xs -> nth_error xs i = Some x -> P g x outs -> Forall ev_triples es ->
    Forall (fun e => (forall t, puts e t -> pa t) /\ (forall t, takes e t -> pr t)) es ->
    let c := client_run (g, xs) es in
    wf (fst c) /\ exists x', nth_error (snd c) i = Some x' /\ P (fst c) x' (outs ++ client_trace i (g, xs) es).
  Proof.
    induction es as [|e es IH]; intros g xs x outs i W K N H T A; cbn [client_trace client_run fold_left].
    - rewrite app_nil_r. cbn. eauto.
    - inversion T as [|? ? T1 T2]; subst. inversion A as [|? ? [A1 A2] A3]; subst. destruct e as [op|s p o|j].
      + cbn [client_step app]. apply (IH _ _ x); auto; [now apply g_step_wf|eapply Forall_impl; [|exact K]; intros; now apply gen_keys_step|now apply op_keeps].
      + cbn [client_step app]. apply (IH _ _ x); auto; [apply Forall_app; split; [exact K|repeat constructor]|].
        rewrite nth_error_app1; [exact N|]. apply nth_error_Some. congruence.
      + destruct (Nat.eqb_spec j i) as [->|NE].
        * destruct (HN g x outs W H) as (r & E & H'). cbn [snd fst]. rewrite (client_next g xs i x r N E), N, E.
          assert (Kx : gen_keys g x) by (rewrite Forall_forall in K; apply K; eapply nth_error_In; eauto).
          destruct (gen_next_pure g x Kx) as (r1 & E1 & K1). rewrite E in E1. injection E1 as <-. cbn [snd]. fold (out1 r).
          change ([out1 r] ++ client_trace i (g, upd xs i (succ_gen r)) es) with ([out1 r] ++ (client_trace i (g, upd xs i (succ_gen r)) es)). rewrite app_assoc.
          apply (IH _ _ (succ_gen r)); auto; [|now apply (nth_upd_same _ _ _ x)].
          apply upd_Forall; [exact K|]. destruct r as [[[t y]|]|]; cbn [succ_gen]; [apply (K1 t y eq_refl)|exact Logic.I|exact Logic.I].
        * cbn [app]. destruct (nth_error xs j) as [y|] eqn:NJ.
          2:{ cbn [client_step]. rewrite NJ. apply (IH _ _ x); auto. }
          assert (Ky : gen_keys g y) by (rewrite Forall_forall in K; apply K; eapply nth_error_In; eauto).
          destruct (gen_next_pure g y Ky) as (r1 & E1 & K1). rewrite (client_next g xs j y r1 NJ E1).
          apply (IH _ _ x); auto; [|now rewrite nth_upd_other by auto].
          apply upd_Forall; [exact K|]. destruct r1 as [[[t z]|]|]; cbn [succ_gen]; [apply (K1 t z eq_refl)|exact Logic.I|exact Logic.I].
  Qed.
End Client.

(** *** Nothing the pattern is about changes *)
Section Calm.
  Variables (s p o : oterm) (G l : list stmt).
  Definition calm_inv (g : graph) (x : gen) (outs : list (res (option stmt))) : Prop :=
    (forall t, hits s p o t -> In t G -> In t (g_triples g)) /\ keys g x /\ shape s p o x /\
    ((sizes g x /\ exists Y, Y ++ gen_rest g x = l /\ outs = map (fun t => Ok (Some t)) Y) \/
     (x = GDone /\ exists n, outs = map (fun t => Ok (Some t)) l ++ repeat (Ok None) n)).
  Lemma calm_next : forall g x outs, wf g -> calm_inv g x outs -> exists r, gen_next g x = (g, r) /\ calm_inv g (succ_gen r) (outs ++ [out1 r]).
  Proof.
    intros g x outs W (M & K & S & [(Z & Y & EY & EO)|(-> & n & EO)]).
    - destruct (next_any s p o g x W K S) as [[_ N]|[_ A]]; [contradiction|]. destruct (gen_rest g x) as [|t rest] eqn:R; cbn [advances] in A.
      + exists (Ok None). split; [exact A|]. split; [exact M|]. split; [exact Logic.I|]. split; [exact Logic.I|]. right. split; [reflexivity|]. exists 1%nat.
        rewrite app_nil_r in EY. subst. reflexivity.
      + destruct A as (x' & E & R' & K' & S' & Z' & _). exists (Ok (Some (t, x'))). split; [exact E|]. split; [exact M|]. split; [exact K'|]. split; [exact S'|]. left.
        split; [now apply Z'|]. exists (Y ++ [t]). cbn [succ_gen]. rewrite R', <- app_assoc. split; [exact EY|]. rewrite map_app. subst. reflexivity.
    - exists (Ok None). split; [reflexivity|]. split; [exact M|]. split; [exact Logic.I|]. split; [exact Logic.I|]. right. split; [reflexivity|]. exists (Datatypes.S n).
      subst. rewrite <- app_assoc. f_equal. cbn. rewrite <- repeat_cons. reflexivity.
  Qed.
  Lemma calm_add : forall g x outs t, wf g -> is_triple t -> (hits s p o t -> In t G) -> calm_inv g x outs -> calm_inv (g_add g t) x outs.
  Proof.
    intros g x outs t W T A H. pose proof H as (M & K & S & D).
    destruct (in_dec stmt_eq_dec t (g_triples g)) as [I|I]; [now rewrite add_present|].
    assert (N : ~ hits s p o t) by (intro X; exact (I (M t X (A X)))). destruct (other_add s p o g t x S N) as [R Z].
    split; [intros y Y1 Y2; apply g_add_In; right; now apply M|]. split; [now apply keys_add|]. split; [exact S|].
    destruct D as [(Z1 & Y & EY & EO)|D]; [left|now right]. split; [now apply Z|]. exists Y. rewrite R. auto.
  Qed.
  Lemma calm_remove : forall g g' x outs t, wf g -> In t (g_triples g) -> g_remove g t = (g', Ok tt) -> ~ hits s p o t -> calm_inv g x outs -> calm_inv g' x outs.
  Proof.
    intros g g' x outs t W I E N (M & K & S & D). destruct (other_remove s p o g t g' x W I E S N) as (R & _ & Z). destruct (remove_index _ _ _ W I E) as (_ & T & _).
    split; [intros y Y1 Y2; rewrite T; apply set_remove_In; split; [now apply M|intros ->; contradiction]|]. split; [exact (keys_remove _ _ _ _ W I E K)|]. split; [exact S|].
    destruct D as [(Z1 & Y & EY & EO)|D]; [left|now right]. split; [now apply Z|]. exists Y. rewrite R. auto.
  Qed.
End Calm.
Lemma calm_outs : forall (l : list stmt) (Y : list stmt) rest n outs, (Y ++ rest = l /\ outs = map (fun t => Ok (Some t)) Y) \/ outs = map (fun t => Ok (Some t)) l ++ repeat (Ok None) n ->
  forall k (r : res (option stmt)), nth_error outs k = Some r -> r = Ok (nth_error l k).
Proof.
  intros l Y rest n outs [[<- ->]| ->] k r H.
  - rewrite nth_error_map in H. destruct (nth_error Y k) as [t|] eqn:E; [|discriminate]. injection H as <-. rewrite nth_error_app1 by (apply nth_error_Some; congruence). now rewrite E.
  - destruct (Nat.lt_ge_cases k (length l)) as [L|L].
    + rewrite nth_error_app1 in H by (now rewrite map_length). rewrite nth_error_map in H. destruct (nth_error l k); [|discriminate]. now injection H as <-.
    + rewrite nth_error_app2 in H by (now rewrite map_length). rewrite (proj2 (nth_error_None l k) L). apply nth_error_In, repeat_spec in H. exact H.
Qed.

(** *** Only additions *)
Lemma yields_app : forall a b, yields (a ++ b) = yields a ++ yields b.
Proof. induction a as [|[[t|]|e] a IH]; intro b; cbn; rewrite ?IH; reflexivity. Qed.
Section Growing.
  Variables (s p o : oterm) (G : list stmt).
  Definition grow_inv (g : graph) (x : gen) (outs : list (res (option stmt))) : Prop :=
    keys g x /\ shape s p o x /\ NoDup (yields outs) /\ (forall t, In t (yields outs) -> ~ In t (gen_rest g x)) /\
    (forall t, In t (yields outs) \/ In t (gen_rest g x) -> In t (g_triples g) /\ hits s p o t) /\
    (forall t, hits s p o t -> In t G -> In t (g_triples g)) /\
    ((forall t, hits s p o t -> In t G -> In t (yields outs) \/ In t (gen_rest g x)) \/ exists e, In (Err e) outs) /\
    (In (Ok None) outs -> x = GDone) /\
    (forall e, In (Err e) outs -> e = RuntimeError /\ exists t, hits s p o t /\ In t (g_triples g) /\ ~ In t G) /\
    ((forall t, hits s p o t -> In t (g_triples g) -> In t G) -> sizes g x).
  Lemma grow_add : forall g x outs t, wf g -> is_triple t -> True -> grow_inv g x outs -> grow_inv (g_add g t) x outs.
  Proof.
    intros g x outs t W T _ H. pose proof H as (K & S & N & D & M & B & C & F & E & Z).
    destruct (in_dec stmt_eq_dec t (g_triples g)) as [I|I]; [now rewrite add_present|].
    pose proof (fun y => grow_in s p o g t x y W T S) as GI.
    assert (D' : forall y, In y (yields outs) -> ~ In y (gen_rest (g_add g t) x)).
    { intros y Y1 Y2. destruct (proj2 (GI y) Y2) as [Y3| ->]; [exact (D y Y1 Y3)|]. destruct (M t (or_introl Y1)) as [X _]. contradiction. }
    assert (HT : In t (gen_rest (g_add g t) x) -> hits s p o t \/ In t (gen_rest g x)).
    { destruct (grow_in s p o g t x t W T S) as [_ _]. intro J. destruct x as [| |w a b u rem|w a ou orem b u rem|u rem]; cbn [shape] in S; try contradiction; try (right; exact J).
      left. destruct S as (_ & KR & _ & _ & HT). apply rest_in in J; [|now apply g_add_wf]. apply HT. destruct J as [J|(_ & J & _)]; [now apply KR|exact J]. }
    split; [now apply keys_add|]. split; [exact S|]. split; [exact N|]. split; [exact D'|].
    split. { intros y [J|J]; [destruct (M y (or_introl J)); split; [apply g_add_In; now right|assumption]|].
             destruct (proj2 (GI y) J) as [J2| ->]; [destruct (M y (or_intror J2)); split; [apply g_add_In; now right|assumption]|].
             split; [apply g_add_In; now left|]. destruct (HT J) as [X|X]; [exact X|]. exact (proj2 (M t (or_intror X))). }
    split; [intros y Y1 Y2; apply g_add_In; right; now apply B|].
    split; [destruct C as [C|C]; [left|now right]; intros y Y1 Y2; destruct (C y Y1 Y2) as [J|J]; [now left|right; now apply GI]|].
    split; [exact F|]. split; [intros e J; destruct (E e J) as [E1 (y & Y1 & Y2 & Y3)]; split; [exact E1|]; exists y; split; [exact Y1|]; split; [apply g_add_In; now right|exact Y3]|].
    intro A. destruct (in_dec stmt_eq_dec t G) as [IG|IG].
    - assert (NH : ~ hits s p o t) by (intro X; exact (I (B t X IG))). apply (other_add s p o g t x S NH). apply Z. intros y Y1 Y2. apply A; [exact Y1|apply g_add_In; now right].
    - assert (NH : ~ hits s p o t) by (intro X; apply IG, A; [exact X|apply g_add_In; now left]).
      apply (other_add s p o g t x S NH). apply Z. intros y Y1 Y2. apply A; [exact Y1|apply g_add_In; now right].
  Qed.
  Lemma grow_remove : forall g g' x outs t, wf g -> In t (g_triples g) -> g_remove g t = (g', Ok tt) -> ~ hits s p o t -> grow_inv g x outs -> grow_inv g' x outs.
  Proof.
    intros g g' x outs t W I R NH (K & S & N & D & M & B & C & F & E & Z).
    destruct (other_remove s p o g t g' x W I R S NH) as (RR & _ & RZ). destruct (remove_index _ _ _ W I R) as (_ & T & _).
    assert (IN : forall y, hits s p o y -> In y (g_triples g') <-> In y (g_triples g)).
    { intros y Y. rewrite T, set_remove_In. split; [tauto|]. intro J. split; [exact J|]. intros ->. contradiction. }
    unfold grow_inv. rewrite RR. split; [exact (keys_remove _ _ _ _ W I R K)|]. split; [exact S|]. split; [exact N|]. split; [exact D|].
    split; [intros y J; destruct (M y J) as [J1 J2]; split; [now apply IN|exact J2]|]. split; [intros y J1 J2; apply IN; auto|]. split; [exact C|]. split; [exact F|].
    split; [intros e J; destruct (E e J) as [E1 (y & Y1 & Y2 & Y3)]; split; [exact E1|]; exists y; split; [exact Y1|]; split; [now apply IN|exact Y3]|].
    intro A. apply RZ, Z. intros y Y1 Y2. apply A; [exact Y1|now apply IN].
  Qed.
  Lemma grow_next : forall g x outs, wf g -> grow_inv g x outs -> exists r, gen_next g x = (g, r) /\ grow_inv g (succ_gen r) (outs ++ [out1 r]).
  Proof.
    intros g x outs W (K & S & N & D & M & B & C & F & E & Z). destruct (next_any s p o g x W K S) as [[EN NZ]|[_ A]].
    - exists (Err RuntimeError). split; [exact EN|]. cbn [succ_gen out1 bind]. unfold grow_inv. rewrite yields_app. cbn [yields]. rewrite app_nil_r. cbn [keys shape gen_rest].
      split; [exact Logic.I|]. split; [exact Logic.I|]. split; [exact N|]. split; [intros t _ []|]. split; [intros t [J|[]]; apply M; now left|]. split; [exact B|].
      split; [right; exists RuntimeError; apply in_app_iff; right; now left|]. split; [auto|].
      split; [|intros _; split; exact Logic.I]. intros e J. apply in_app_iff in J. destruct J as [J|[J|[]]]; [now apply E|]. injection J as <-. split; [reflexivity|].
      destruct (List.find (fun t => if in_dec stmt_eq_dec t G then false else true) (g_match g s p o)) as [t|] eqn:FD.
      + apply find_some in FD. destruct FD as [F1 F2]. apply (g_match_lists g s p o W) in F1. destruct F1 as [F1 F3]. exists t. split; [exact F3|]. split; [exact F1|]. now destruct (in_dec stmt_eq_dec t G).
      + exfalso. apply NZ, Z. intros t T1 T2. pose proof (find_none _ _ FD t) as X. cbn in X. destruct (in_dec stmt_eq_dec t G); [assumption|]. discriminate X.
        apply (g_match_lists g s p o W). split; assumption.
    - destruct (gen_rest g x) as [|t rest] eqn:R; cbn [advances] in A.
      + exists (Ok None). split; [exact A|]. cbn [succ_gen out1 bind option_map]. unfold grow_inv. rewrite yields_app. cbn [yields]. rewrite app_nil_r. cbn [keys shape gen_rest].
        split; [exact Logic.I|]. split; [exact Logic.I|]. split; [exact N|]. split; [intros t _ []|]. split; [intros t [J|[]]; apply M; now left|]. split; [exact B|].
        split; [destruct C as [C|(e & C)]; [now left|right; exists e; apply in_app_iff; now left]|]. split; [auto|].
        split; [|intros _; split; exact Logic.I]. intros e J. apply in_app_iff in J. destruct J as [J|[J|[]]]; [now apply E|discriminate].
      + destruct A as (x' & EN & R' & K' & S' & Z' & _). exists (Ok (Some (t, x'))). split; [exact EN|]. cbn [succ_gen out1 bind option_map fst]. unfold grow_inv. rewrite yields_app. cbn [yields]. rewrite R'.
        assert (ND : NoDup (t :: rest)) by (rewrite <- R; exact (rest_NoDup g s p o x W S)). apply NoDup_cons_iff in ND. destruct ND as [ND1 ND2].
        split; [exact K'|]. split; [exact S'|].
        split. { apply NoDup_app_disj; [exact N|repeat constructor; intros []|]. intros y Y1 [<-|[]]. apply (D t Y1). now left. }
        split. { intros y J1 J2. apply in_app_iff in J1. destruct J1 as [J1|[<-|[]]]; [apply (D y J1); now right|contradiction]. }
        split. { intros y J. apply M. rewrite in_app_iff in J. cbn in J. cbn. tauto. }
        split; [exact B|].
        split. { destruct C as [C|(e & C)]; [left|right; exists e; apply in_app_iff; now left]. intros y Y1 Y2. rewrite in_app_iff. cbn. destruct (C y Y1 Y2) as [J|[J|J]]; auto. }
        split. { intro J. apply in_app_iff in J. destruct J as [J|[J|[]]]; [|discriminate]. rewrite (F J) in R. discriminate R. }
        split. { intros e J. apply in_app_iff in J. destruct J as [J|[J|[]]]; [now apply E|discriminate]. }
        intro A. apply Z', Z, A.
  Qed.
End Growing.

(** *** Only removals *)
Lemma inner_member : forall g t w, wf g -> In t (g_triples g) -> tget (inner g w (k1 w t) (k2 w t)) (k3 w t) = Some t.
Proof. intros g t w W H. destruct (wf_idx g w W) as [_ L]. apply (proj2 (L (k1 w t) (k2 w t) (k3 w t) t) (conj H (conj eq_refl (conj eq_refl eq_refl)))). Qed.
Lemma remove_inner_length : forall g t g' w a b, wf g -> In t (g_triples g) -> g_remove g t = (g', Ok tt) ->
  (k1 w t = a /\ k2 w t = b -> S (length (inner g' w a b)) = length (inner g w a b)) /\ (length (inner g' w a b) <= length (inner g w a b))%nat.
Proof.
  intros g t g' w a b W I R. rewrite (remove_inner _ _ _ _ _ _ W I R). destruct (term_eq_dec (k1 w t) a) as [<-|]; [|split; [tauto|lia]].
  destruct (term_eq_dec (k2 w t) b) as [<-|]; [|split; [tauto|lia]]. pose proof (length_ddel term_eq_dec _ _ _ (inner_member g t w W I)). split; [auto|lia].
Qed.
Lemma less_remove : forall g t g' x, wf g -> In t (g_triples g) -> g_remove g t = (g', Ok tt) -> less g x -> less g' x.
Proof.
  intros g t g' [| |w a b u rem|w a ou orem b u rem|u rem] W I R L; cbn [less] in *; try contradiction.
  - destruct (remove_inner_length g t g' w a b W I R). lia.
  - destruct (remove_inner_length g t g' w a b W I R). lia.
  - destruct (remove_index _ _ _ W I R) as (_ & T & _). rewrite T. pose proof (set_remove_length t _ (proj1 W) I). lia.
Qed.
Lemma less_size : forall g x, less g x -> ~ size1 g x.
Proof. intros g [| | | |] L; cbn [less size1] in *; try contradiction; lia. Qed.
Lemma classic_hits : forall s p o t, hits s p o t \/ ~ hits s p o t.
Proof.
  intros s p o t. unfold hits, fits. assert (D : forall a y, agrees a y \/ ~ agrees a y).
  { intros [a|] y; [destruct (term_eq_dec a y) as [->|N]; [left; now right|right; intros [H|H]; [discriminate|congruence]]|left; now left]. }
  destruct (D (as_wildcard s) (st_s t)), (D (as_wildcard p) (st_p t)), (D (as_wildcard o) (st_o t)); tauto.
Qed.
Section Shrinking.
  Variables (s p o : oterm) (G : list stmt).
  Definition shrink_inv (g : graph) (x : gen) (outs : list (res (option stmt))) : Prop :=
    keys g x /\ shape s p o x /\ NoDup (yields outs) /\ (forall t, In t (yields outs) -> hits s p o t /\ In t G) /\
    (forall t, hits s p o t -> In t (g_triples g) -> In t G) /\
    ((sizes g x /\ (forall t, In t (yields outs) -> ~ In t (gen_rest g x)) /\ (forall t, In t (gen_rest g x) -> In t (g_triples g) /\ hits s p o t) /\
      (forall t, hits s p o t -> In t (g_triples g) -> In t (yields outs) \/ In t (gen_rest g x))) \/
     (less g x /\ exists t, hits s p o t /\ In t G /\ ~ In t (g_triples g)) \/
     (x = GDone /\ exists e, In (Err e) outs)) /\
    (In (Ok None) outs -> x = GDone) /\
    (forall e, In (Err e) outs -> e = RuntimeError /\ exists t, hits s p o t /\ In t G /\ ~ In t (g_triples g)).
  Lemma shrink_add : forall g x outs t, wf g -> is_triple t -> ~ hits s p o t -> shrink_inv g x outs -> shrink_inv (g_add g t) x outs.
  Proof.
    intros g x outs t W T NH (K & S & N & Y & B & C & F & E). destruct (other_add s p o g t x S NH) as [R Z].
    assert (IN : forall y, hits s p o y -> In y (g_triples (g_add g t)) <-> In y (g_triples g)) by (intros y J; rewrite g_add_In; split; [intros [->|]; [contradiction|assumption]|auto]).
    split; [now apply keys_add|]. split; [exact S|]. split; [exact N|]. split; [exact Y|]. split; [intros y J1 J2; apply B; [exact J1|now apply IN]|].
    split. { rewrite R. destruct C as [(C1 & C2 & C3 & C4)|[(C1 & y & Y1 & Y2 & Y3)|C]]; [left|right; left|now right; right].
             - split; [now apply Z|]. split; [exact C2|]. split; [intros y J; destruct (C3 y J); split; [now apply IN|assumption]|]. intros y J1 J2. apply C4; [exact J1|now apply IN].
             - split; [exact (other_add_less s p o g t x S NH C1)|]. exists y. split; [exact Y1|]. split; [exact Y2|]. now rewrite IN. }
    split; [exact F|]. intros e J. destruct (E e J) as [E1 (y & Y1 & Y2 & Y3)]. split; [exact E1|]. exists y. split; [exact Y1|]. split; [exact Y2|]. now rewrite IN.
  Qed.
  Lemma shrink_remove : forall g g' x outs t, wf g -> In t (g_triples g) -> g_remove g t = (g', Ok tt) -> True -> shrink_inv g x outs -> shrink_inv g' x outs.
  Proof.
    intros g g' x outs t W I R _ (K & S & N & Y & B & C & F & E). destruct (remove_index _ _ _ W I R) as (W' & T & _).
    assert (IN : forall y, In y (g_triples g') <-> In y (g_triples g) /\ y <> t) by (intro y; rewrite T; apply set_remove_In).
    split; [exact (keys_remove _ _ _ _ W I R K)|]. split; [exact S|]. split; [exact N|]. split; [exact Y|]. split; [intros y J1 J2; apply IN in J2; now apply B|].
    split; [|split; [exact F|]; intros e J; destruct (E e J) as [E1 (y & Y1 & Y2 & Y3)]; split; [exact E1|]; exists y; split; [exact Y1|]; split; [exact Y2|]; rewrite IN; tauto].
    destruct C as [(C1 & C2 & C3 & C4)|[(C1 & y & Y1 & Y2 & Y3)|C]]; [|right; left; split; [exact (less_remove _ _ _ _ W I R C1)|]; exists y; split; [exact Y1|]; split; [exact Y2|]; rewrite IN; tauto|now right; right].
    assert (LESS : hits s p o t -> less g' x -> less g' x /\ exists y, hits s p o y /\ In y G /\ ~ In y (g_triples g')).
    { intros H L. split; [exact L|]. exists t. split; [exact H|]. split; [now apply B|]. rewrite IN. tauto. }
    pose proof (fun y => shrink_in s p o g t g' x y W I R S) as SI.
    assert (STAY : sizes g' x -> ~ In t (gen_rest g' x) -> sizes g' x /\ (forall y, In y (yields outs) -> ~ In y (gen_rest g' x)) /\ (forall y, In y (gen_rest g' x) -> In y (g_triples g') /\ hits s p o y) /\
      (forall y, hits s p o y -> In y (g_triples g') -> In y (yields outs) \/ In y (gen_rest g' x))).
    { intros Z NT. split; [exact Z|]. split; [intros y J1 J2; apply (C2 y J1); now apply SI|].
      split; [intros y J; destruct (C3 y (proj1 (SI y) J)) as [J1 J2]; split; [apply IN; split; [exact J1|intros ->; contradiction]|exact J2]|].
      intros y J1 J2. apply IN in J2. destruct J2 as [J2 J3]. destruct (C4 y J1 J2) as [J|J]; [now left|]. right. now apply SI. }
    destruct (classic_hits s p o t) as [H|H].
    - destruct x as [| |w a b u rem|w a ou orem b u rem|u rem].
      + destruct S.
      + left. apply STAY; [split; exact Logic.I|intros []].
      + right. left. apply (LESS H). destruct S as (_ & _ & HT). apply HT in H. destruct C1 as [C1 _]. cbn [less size1] in *. destruct (remove_inner_length g t g' w a b W I R) as [L _]. specialize (L H). lia.
      + destruct S as (_ & KR & NO & NB & HT). pose proof (proj1 (HT t) H) as H1. destruct C1 as [C1 C1']. cbn [less size1 size2] in *. destruct (term_eq_dec (k2 w t) b) as [H2|H2].
        * right. left. apply (LESS H). destruct (remove_inner_length g t g' w a b W I R) as [L _]. specialize (L (conj H1 H2)). lia.
        * left. apply STAY; [split; cbn [size1 size2]|].
          -- rewrite (remove_inner _ _ _ _ _ _ W I R). destruct (term_eq_dec (k1 w t) a), (term_eq_dec (k2 w t) b); try contradiction; exact C1.
          -- now rewrite (outer_length _ _ _ _ _ W I R).
          -- rewrite rest_in by exact W'. intros [J|(J & _)]; [apply KR in J; tauto|apply IN in J; tauto].
      + right. left. apply (LESS H). destruct C1 as [C1 _]. cbn [less size1] in *. rewrite T. pose proof (set_remove_length t _ (proj1 W) I). lia.
    - destruct (other_remove s p o g t g' x W I R S H) as (RR & _ & RZ). left. apply STAY; [now apply RZ|]. rewrite RR. intro J. apply C3 in J. tauto.
  Qed.
  Lemma shrink_next : forall g x outs, wf g -> shrink_inv g x outs -> exists r, gen_next g x = (g, r) /\ shrink_inv g (succ_gen r) (outs ++ [out1 r]).
  Proof.
    intros g x outs W (K & S & N & Y & B & C & F & E). destruct C as [(C1 & C2 & C3 & C4)|[(C1 & y & Y1 & Y2 & Y3)|(-> & e & C)]].
    - destruct (next_any s p o g x W K S) as [[_ NZ]|[_ A]]; [contradiction|]. destruct (gen_rest g x) as [|t rest] eqn:R; cbn [advances] in A.
      + exists (Ok None). split; [exact A|]. cbn [succ_gen out1 bind option_map]. unfold shrink_inv. rewrite yields_app. cbn [yields]. rewrite app_nil_r. cbn [keys shape gen_rest].
        split; [exact Logic.I|]. split; [exact Logic.I|]. split; [exact N|]. split; [exact Y|]. split; [exact B|].
        split; [left; split; [split; exact Logic.I|]; split; [intros t _ []|]; split; [intros t []|exact C4]|]. split; [auto|].
        intros e J. apply in_app_iff in J. destruct J as [J|[J|[]]]; [now apply E|discriminate].
      + destruct A as (x' & EN & R' & K' & S' & Z' & _). exists (Ok (Some (t, x'))). split; [exact EN|]. cbn [succ_gen out1 bind option_map fst]. unfold shrink_inv. rewrite yields_app. cbn [yields]. rewrite R'.
        assert (ND : NoDup (t :: rest)) by (rewrite <- R; exact (rest_NoDup g s p o x W S)). apply NoDup_cons_iff in ND. destruct ND as [ND1 ND2].
        destruct (C3 t (or_introl eq_refl)) as [T1 T2].
        split; [exact K'|]. split; [exact S'|].
        split. { apply NoDup_app_disj; [exact N|repeat constructor; intros []|]. intros y Y1 [<-|[]]. apply (C2 t Y1). now left. }
        split. { intros y J. apply in_app_iff in J. destruct J as [J|[<-|[]]]; [now apply Y|]. split; [exact T2|now apply B]. }
        split; [exact B|].
        split. { left. split; [now apply Z'|]. split; [intros y J1 J2; apply in_app_iff in J1; destruct J1 as [J1|[<-|[]]]; [apply (C2 y J1); now right|contradiction]|].
                 split; [intros y J; apply C3; now right|]. intros y J1 J2. rewrite in_app_iff. cbn. destruct (C4 y J1 J2) as [J|[J|J]]; auto. }
        split. { intro J. apply in_app_iff in J. destruct J as [J|[J|[]]]; [|discriminate]. rewrite (F J) in R. discriminate R. }
        intros e J. apply in_app_iff in J. destruct J as [J|[J|[]]]; [now apply E|discriminate].
    - destruct (next_any s p o g x W K S) as [[EN _]|[Z _]]; [|destruct (less_size _ _ C1 Z)].
      exists (Err RuntimeError). split; [exact EN|]. cbn [succ_gen out1 bind]. unfold shrink_inv. rewrite yields_app. cbn [yields]. rewrite app_nil_r. cbn [keys shape gen_rest].
      split; [exact Logic.I|]. split; [exact Logic.I|]. split; [exact N|]. split; [exact Y|]. split; [exact B|].
      split; [right; right; split; [reflexivity|]; exists RuntimeError; apply in_app_iff; right; now left|]. split; [auto|].
      intros e J. apply in_app_iff in J. destruct J as [J|[J|[]]]; [now apply E|]. injection J as <-. eauto.
    - exists (Ok None). split; [reflexivity|]. cbn [succ_gen out1 bind option_map]. unfold shrink_inv. rewrite yields_app. cbn [yields]. rewrite app_nil_r. cbn [keys shape gen_rest].
      split; [exact Logic.I|]. split; [exact Logic.I|]. split; [exact N|]. split; [exact Y|]. split; [exact B|].
      split; [right; right; split; [reflexivity|]; exists e; apply in_app_iff; now left|]. split; [auto|].
      intros e' J. apply in_app_iff in J. destruct J as [J|[J|[]]]; [now apply E|discriminate].
  Qed.
End Shrinking.

(** *** The first next *)
Lemma begin_cases : forall s p o g, wf g -> exists r, gen_next g (GStart s p o) = (g, r) /\
  ((g_match g s p o = [] /\ r = Ok None) \/
   exists t rest x, g_match g s p o = t :: rest /\ r = Ok (Some (t, x)) /\ gen_rest g x = rest /\ keys g x /\ shape s p o x /\ sizes g x).
Proof.
  intros s p o g W. pose proof (start_any s p o g W) as H. destruct (g_match g s p o) as [|t rest]; cbn [begins] in H; [eauto|].
  destruct H as (x & E & R & K & S & Z). exists (Ok (Some (t, x))). split; [exact E|]. right. exists t, rest, x. auto 7.
Qed.
Lemma match_hits : forall s p o g t, wf g -> In t (g_match g s p o) <-> In t (g_triples g) /\ hits s p o t.
Proof. intros s p o g t W. destruct (g_match_lists g s p o W) as [_ H]. apply H. Qed.
Lemma calm_init : forall s p o g r, wf g -> gen_next g (GStart s p o) = (g, r) -> calm_inv s p o (g_triples g) (g_match g s p o) g (succ_gen r) [out1 r].
Proof.
  intros s p o g r W E. destruct (begin_cases s p o g W) as (r' & E' & D). rewrite E in E'. injection E' as <-. split; [auto|].
  destruct D as [(M & ->)|(t & rest & x & M & -> & R & K & S & Z)]; cbn [succ_gen out1 bind option_map fst].
  - split; [exact Logic.I|]. split; [exact Logic.I|]. right. split; [reflexivity|]. exists 1%nat. now rewrite M.
  - split; [exact K|]. split; [exact S|]. left. split; [exact Z|]. exists [t]. rewrite M, R. auto.
Qed.
Lemma grow_init : forall s p o g r, wf g -> gen_next g (GStart s p o) = (g, r) -> grow_inv s p o (g_triples g) g (succ_gen r) [out1 r].
Proof.
  intros s p o g r W E. destruct (begin_cases s p o g W) as (r' & E' & D). rewrite E in E'. injection E' as <-. pose proof (fun t => match_hits s p o g t W) as MH.
  pose proof (proj1 (g_match_lists g s p o W)) as ND.
  destruct D as [(M & ->)|(t & rest & x & M & -> & R & K & S & Z)]; unfold grow_inv; cbn [succ_gen out1 bind option_map fst yields keys shape gen_rest]; rewrite M in MH, ND.
  - split; [exact Logic.I|]. split; [exact Logic.I|]. split; [constructor|]. split; [intros t []|]. split; [intros t [[]|[]]|]. split; [auto|].
    split; [left; intros t T1 T2; destruct (proj2 (MH t) (conj T2 T1))|]. split; [auto|]. split; [intros e [J|[]]; discriminate|]. intros _. split; exact Logic.I.
  - apply NoDup_cons_iff in ND. rewrite R. split; [exact K|]. split; [exact S|]. split; [repeat constructor; intros []|]. split; [intros y [<-|[]]; apply ND|].
    split; [intros y J; apply MH; cbn in *; tauto|]. split; [auto|]. split; [left; intros y T1 T2; destruct (proj2 (MH y) (conj T2 T1)); cbn; auto|].
    split; [intros [J|[]]; discriminate|]. split; [intros e [J|[]]; discriminate|]. intros _. exact Z.
Qed.
Lemma shrink_init : forall s p o g r, wf g -> gen_next g (GStart s p o) = (g, r) -> shrink_inv s p o (g_triples g) g (succ_gen r) [out1 r].
Proof.
  intros s p o g r W E. destruct (begin_cases s p o g W) as (r' & E' & D). rewrite E in E'. injection E' as <-. pose proof (fun t => match_hits s p o g t W) as MH.
  pose proof (proj1 (g_match_lists g s p o W)) as ND.
  destruct D as [(M & ->)|(t & rest & x & M & -> & R & K & S & Z)]; unfold shrink_inv; cbn [succ_gen out1 bind option_map fst yields keys shape gen_rest]; rewrite M in MH, ND.
  - split; [exact Logic.I|]. split; [exact Logic.I|]. split; [constructor|]. split; [intros t []|]. split; [auto|].
    split; [left; split; [split; exact Logic.I|]; split; [intros t []|]; split; [intros t []|]; intros t T1 T2; destruct (proj2 (MH t) (conj T2 T1))|]. split; [auto|]. intros e [J|[]]; discriminate.
  - apply NoDup_cons_iff in ND. rewrite R. split; [exact K|]. split; [exact S|]. split; [repeat constructor; intros []|].
    split; [intros y [<-|[]]; destruct (proj1 (MH t) (or_introl eq_refl)); auto|]. split; [auto|].
    split. { left. split; [exact Z|]. split; [intros y [<-|[]]; apply ND|]. split; [intros y J; apply MH; now right|]. intros y T1 T2. destruct (proj2 (MH y) (conj T2 T1)); cbn; auto. }
    split; [intros [J|[]]; discriminate|]. intros e [J|[]]; discriminate.
Qed.

(** *** Opening a generator *)
Lemma upd_length {A} : forall (l : list A) i x, length (upd l i x) = length l.
Proof. unfold upd. induction l as [|y l IH]; intros [|i] x; cbn; auto. Qed.
Lemma client_length : forall es c, length (snd (client_run c es)) = (length (snd c) + opened es)%nat.
Proof.
  unfold client_run, opened. induction es as [|e es IH]; intros [g xs]; cbn [fold_left filter]; [cbn; lia|]. rewrite IH. destruct e as [op|s p o|j]; cbn [client_step snd length].
  - reflexivity.
  - rewrite app_length. cbn. lia.
  - destruct (nth_error xs j) as [x|]; [|reflexivity]. destruct (gen_next g x) as [g' [[[t y]|]|e]]; cbn [snd]; now rewrite upd_length.
Qed.
Lemma not_started : forall es c i x, nth_error (snd c) i = Some x -> ~ In (EvNext i) es -> nth_error (snd (client_run c es)) i = Some x.
Proof.
  unfold client_run. induction es as [|e es IH]; intros [g xs] i x N J; cbn [fold_left]; [exact N|]. apply IH; [|intro X; apply J; now right].
  destruct e as [op|s p o|j]; cbn [client_step snd] in *.
  - exact N.
  - rewrite nth_error_app1; [exact N|]. apply nth_error_Some. congruence.
  - assert (NE : i <> j) by (intros ->; apply J; now left). destruct (nth_error xs j) as [y|]; [|exact N]. destruct (gen_next g y) as [g' [[[t z]|]|e]]; cbn [snd]; now rewrite nth_upd_other.
Qed.
Lemma opened_at : forall u es0 s p o es1, Forall ev_triples (es0 ++ es1) -> ~ In (EvNext (opened es0)) es1 ->
  let c := client_run (graph_new u, []) (es0 ++ EvMatch s p o :: es1) in
  wf (fst c) /\ Forall (gen_keys (fst c)) (snd c) /\ nth_error (snd c) (opened es0) = Some (GStart s p o).
Proof.
  intros u es0 s p o es1 T J c. apply Forall_app in T. destruct T as [T0 T1].
  assert (T : Forall ev_triples (es0 ++ EvMatch s p o :: es1)) by (apply Forall_app; split; [exact T0|constructor; [exact Logic.I|exact T1]]).
  destruct (client_inv _ (graph_new u) [] (graph_new_wf u) (Forall_nil _) T) as [W K]. split; [exact W|]. split; [exact K|].
  unfold c, client_run. rewrite fold_left_app. cbn [fold_left]. apply not_started; [|exact J]. fold (client_run (graph_new u, []) es0).
  pose proof (client_length es0 (graph_new u, [])) as L. cbn in L. destruct (client_run (graph_new u, []) es0) as [g xs]. cbn [client_step snd] in *.
  rewrite nth_error_app2 by lia. rewrite L, Nat.sub_diag. reflexivity.
Qed.
Lemma run_from_start : forall (P : graph -> gen -> list (res (option stmt)) -> Prop) (pa pr : stmt -> Prop) s p o g xs i es,
  (forall g x outs t, wf g -> is_triple t -> pa t -> P g x outs -> P (g_add g t) x outs) ->
  (forall g g' x outs t, wf g -> In t (g_triples g) -> g_remove g t = (g', Ok tt) -> pr t -> P g x outs -> P g' x outs) ->
  (forall g x outs, wf g -> P g x outs -> exists r, gen_next g x = (g, r) /\ P g (succ_gen r) (outs ++ [out1 r])) ->
  (forall r, gen_next g (GStart s p o) = (g, r) -> P g (succ_gen r) [out1 r]) ->
  wf g -> Forall (gen_keys g) xs -> nth_error xs i = Some (GStart s p o) -> Forall ev_triples es ->
  Forall (fun e => (forall t, puts e t -> pa t) /\ (forall t, takes e t -> pr t)) es ->
  let c := client_run (g, xs) (EvNext i :: es) in
  wf (fst c) /\ exists x', nth_error (snd c) i = Some x' /\ P (fst c) x' (client_trace i (g, xs) (EvNext i :: es)).
Proof.
  intros P pa pr s p o g xs i es HA HR HN HI W K N T A c. destruct (gen_next_pure g (GStart s p o) Logic.I) as (r & E & Kr).
  unfold c. cbn [client_run fold_left client_trace]. rewrite (client_next g xs i _ r N E), Nat.eqb_refl. cbn [fst snd]. rewrite N, E. cbn [snd]. fold (out1 r).
  apply (client_keeps P pa pr HA HR HN es g (upd xs i (succ_gen r)) (succ_gen r) [out1 r] i W); auto.
  - apply upd_Forall; [exact K|]. destruct r as [[[t y]|]|]; cbn [succ_gen]; [exact (Kr t y eq_refl)|exact Logic.I|exact Logic.I].
  - exact (nth_upd_same _ _ _ _ N).
Qed.

(** *** Statements used by Properties/IterProps.v *)
Lemma iter_undisturbed : forall u es0 s p o es1 es2, Forall ev_triples (es0 ++ es1 ++ es2) -> ~ In (EvNext (opened es0)) es1 ->
  let i := opened es0 in let c := client_run (graph_new u, []) (es0 ++ EvMatch s p o :: es1) in let G := g_iter (fst c) in
  Forall (calm s p o G) es2 ->
  exists l, lists l (fun t => In t G /\ hits s p o t) /\
    forall k r, nth_error (client_trace i c (EvNext i :: es2)) k = Some r -> r = Ok (nth_error l k).
Proof.
  intros u es0 s p o es1 es2 T J i c G A. rewrite app_assoc in T. apply Forall_app in T. destruct T as [T T2].
  destruct (opened_at u es0 s p o es1 T J) as (W & K & N). fold c i in W, K, N. exists (g_match (fst c) s p o). split; [exact (g_match_lists _ s p o W)|].
  destruct c as [g xs] eqn:EC. cbn [fst snd] in *. unfold G, g_iter in A.
  destruct (run_from_start (calm_inv s p o (g_triples g) (g_match g s p o)) (fun t => hits s p o t -> In t (g_triples g)) (fun t => ~ hits s p o t) s p o g xs i es2) as (_ & x' & _ & H);
    try assumption.
  - apply calm_add.
  - apply calm_remove.
  - apply calm_next.
  - intros r E. exact (calm_init s p o g r W E).
  - eapply Forall_impl; [|exact A]. intros e Ce. split; [intros t P1 H; now apply (Ce t H)|intros t P1 H; now apply (Ce t H)].
  - destruct H as (_ & _ & _ & [(_ & Y & EY & EO)|(_ & n & EO)]); intros k r; [apply (calm_outs (g_match g s p o) Y (gen_rest (fst (client_run (g, xs) (EvNext i :: es2))) x') 0)|apply (calm_outs _ [] [] n)]; auto.
Qed.
Section Both.
  Variables (u : option str) (es0 : list event) (s p o : oterm) (es1 es2 : list event).
  Let i := opened es0.
  Let c := client_run (graph_new u, []) (es0 ++ EvMatch s p o :: es1).
  Let G := g_iter (fst c).
  Let outs := client_trace i c (EvNext i :: es2).
  Let c2 := client_run c (EvNext i :: es2).
  Hypothesis T : Forall ev_triples (es0 ++ es1 ++ es2).
  Hypothesis J : ~ In (EvNext i) es1.
  Definition kind (n : nat) (x : gen) (outs : list (res (option stmt))) : Prop :=
    Forall (fun r => exists t, r = Ok (Some t)) outs -> match x with GVals _ _ _ u _ | GSet u _ => u = n | _ => False end.
  Let n := length (g_match (fst c) s p o).
  Let flat := ~ one_bound s p o /\ ~ (bound s /\ bound p /\ bound o).
  Lemma dvals_length {K V} : forall d : dict K V, length (dvals d) = length d.
  Proof. intro d. apply map_length. Qed.
  Lemma lists_length {A} : forall (a b : list A) Q, lists a Q -> lists b Q -> length a = length b.
  Proof.
    intros a b Q [N1 H1] [N2 H2]. apply Nat.le_antisymm; apply NoDup_incl_length; auto; intros y Y; [apply H2, H1, Y|apply H1, H2, Y].
  Qed.
  Lemma size_count : forall g x k, wf g -> shape s p o x -> match x with GVals _ _ _ u _ | GSet u _ => u = k | _ => False end ->
    size1 g x <-> length (g_match g s p o) = k.
  Proof.
    intros g [| |w a b v rem|w a ou orem b v rem|v rem] k W S E; try contradiction; cbn [shape size1] in *; subst v.
    - destruct S as (_ & _ & HT). rewrite <- (dvals_length (inner g w a b)).
      assert (L : length (dvals (inner g w a b)) = length (g_match g s p o)).
      { apply (lists_length _ _ (fun t => In t (g_triples g) /\ hits s p o t)); [|exact (g_match_lists g s p o W)].
        eapply lists_iff; [exact (inner_lists g w a b W)|]. intro t. cbn. rewrite (HT t). tauto. }
      now rewrite L.
    - destruct S as (_ & HT). assert (L : length (g_triples g) = length (g_match g s p o)).
      { apply (lists_length _ _ (fun t => In t (g_triples g) /\ hits s p o t)); [|exact (g_match_lists g s p o W)].
        split; [exact (proj1 W)|]. intro t. split; [auto|tauto]. }
      now rewrite L.
  Qed.
  Section Inv.
    Variables (P : graph -> gen -> list (res (option stmt)) -> Prop) (pa pr : stmt -> Prop).
    Hypothesis PK : forall g x outs, P g x outs -> keys g x /\ shape s p o x.
    Hypothesis HA : forall g x outs t, wf g -> is_triple t -> pa t -> P g x outs -> P (g_add g t) x outs.
    Hypothesis HR : forall g g' x outs t, wf g -> In t (g_triples g) -> g_remove g t = (g', Ok tt) -> pr t -> P g x outs -> P g' x outs.
    Hypothesis HN : forall g x outs, wf g -> P g x outs -> exists r, gen_next g x = (g, r) /\ P g (succ_gen r) (outs ++ [out1 r]).
    Hypothesis HI : forall r, gen_next (fst c) (GStart s p o) = (fst c, r) -> P (fst c) (succ_gen r) [out1 r].
    Hypothesis HE : Forall (fun e => (forall t, puts e t -> pa t) /\ (forall t, takes e t -> pr t)) es2.
    Lemma kind_next : forall g x l r, wf g -> P g x l -> kind n x l -> gen_next g x = (g, r) -> kind n (succ_gen r) (l ++ [out1 r]).
    Proof.
      intros g x l r W H KD E F. apply Forall_app in F. destruct F as [F1 F2]. specialize (KD F1). inversion F2 as [|? ? (t & X) _]; subst.
      destruct (PK _ _ _ H) as [K S]. destruct (next_any s p o g x W K S) as [[E2 _]|[_ A]].
      - rewrite E in E2. injection E2 as ->. discriminate X.
      - destruct (gen_rest g x) as [|y rest]; cbn [advances] in A.
        + rewrite E in A. injection A as ->. discriminate X.
        + destruct A as (x' & E2 & _ & _ & _ & _ & SM). rewrite E in E2. injection E2 as ->. cbn [succ_gen].
          destruct x as [| |w a b v rem|w a ou orem b v rem|v rem], x' as [| |w' a' b' v' rem'|w' a' ou' orem' b' v' rem'|v' rem']; cbn [same] in SM; try contradiction; congruence.
    Qed.
    Lemma kind_init : forall r, wf (fst c) -> flat -> gen_next (fst c) (GStart s p o) = (fst c, r) -> kind n (succ_gen r) [out1 r].
    Proof.
      intros r W [F1 F2] E F. inversion F as [|? ? (t & X) _]; subst. destruct r as [[[y x]|]|]; try discriminate X. cbn [succ_gen].
      pose proof (start_kind s p o (fst c) y x W F1 E) as SK. destruct (begin_cases s p o (fst c) W) as (r' & E' & [(_ & ->)|(t' & rest & x' & _ & -> & _ & _ & S & [Z _])]); rewrite E in E'; [discriminate E'|].
      injection E' as <- <-. destruct x as [| |w a b v rem|w a ou orem b v rem|v rem]; try contradiction.
      - symmetry. apply (size_count (fst c) _ v W S eq_refl). exact Z.
      - symmetry. apply (size_count (fst c) _ v W S eq_refl). exact Z.
    Qed.
    Lemma run_inv : wf (fst c) /\ wf (fst c2) /\ exists x', nth_error (snd c2) i = Some x' /\ P (fst c2) x' outs /\ (flat -> kind n x' outs).
    Proof.
      pose proof T as T'. rewrite app_assoc in T'. apply Forall_app in T'. destruct T' as [T1 T2].
      destruct (opened_at u es0 s p o es1 T1 J) as (W & K & N). fold c i in W, K, N. split; [exact W|].
      assert (X : c = (fst c, snd c)) by (destruct c; reflexivity).
      destruct (run_from_start (fun g x l => P g x l /\ (flat -> kind n x l)) pa pr s p o (fst c) (snd c) i es2) as (W2 & x' & N' & H & H'); try assumption.
      - intros g x l t Wg It Pt [H1 H2]. split; auto.
      - intros g g' x l t Wg It E Pt [H1 H2]. split; [eapply HR; eauto|exact H2].
      - intros g x l Wg [H1 H2]. destruct (HN g x l Wg H1) as (r & E & H3). exists r. split; [exact E|]. split; [exact H3|]. intro F. exact (kind_next g x l r Wg H1 (H2 F) E).
      - intros r E. split; [now apply HI|]. intro F. exact (kind_init r W F E).
      - rewrite <- X in *. split; [exact W2|]. exists x'. split; [exact N'|]. split; [exact H|exact H'].
    Qed.
  End Inv.

  Lemma hits_events_grow : Forall (growing s p o) es2 ->
    Forall (fun e => (forall t, puts e t -> True) /\ (forall t, takes e t -> ~ hits s p o t)) es2.
  Proof. apply Forall_impl. intros e H. split; [auto|]. intros t A B. exact (H t B A). Qed.
  Lemma hits_events_shrink : Forall (shrinking s p o) es2 ->
    Forall (fun e => (forall t, puts e t -> ~ hits s p o t) /\ (forall t, takes e t -> True)) es2.
  Proof. apply Forall_impl. intros e H. split; [|auto]. intros t A B. exact (H t B A). Qed.
  Lemma grow_run : Forall (growing s p o) es2 ->
    wf (fst c) /\ wf (fst c2) /\ exists x', nth_error (snd c2) i = Some x' /\ grow_inv s p o (g_triples (fst c)) (fst c2) x' outs /\ (flat -> kind n x' outs).
  Proof.
    intro F. assert (W : wf (fst c)).
    { pose proof T as T'. rewrite app_assoc in T'. apply Forall_app in T'. exact (proj1 (opened_at u es0 s p o es1 (proj1 T') J)). }
    apply (run_inv (grow_inv s p o (g_triples (fst c))) (fun _ => True) (fun t => ~ hits s p o t)).
    - intros g x l H. exact (conj (proj1 H) (proj1 (proj2 H))).
    - apply grow_add.
    - apply grow_remove.
    - apply grow_next.
    - intros r E. exact (grow_init s p o (fst c) r W E).
    - exact (hits_events_grow F).
  Qed.
  Lemma shrink_run : Forall (shrinking s p o) es2 ->
    wf (fst c) /\ wf (fst c2) /\ exists x', nth_error (snd c2) i = Some x' /\ shrink_inv s p o (g_triples (fst c)) (fst c2) x' outs /\ (flat -> kind n x' outs).
  Proof.
    intro F. assert (W : wf (fst c)).
    { pose proof T as T'. rewrite app_assoc in T'. apply Forall_app in T'. exact (proj1 (opened_at u es0 s p o es1 (proj1 T') J)). }
    apply (run_inv (shrink_inv s p o (g_triples (fst c))) (fun t => ~ hits s p o t) (fun _ => True)).
    - intros g x l H. exact (conj (proj1 H) (proj1 (proj2 H))).
    - apply shrink_add.
    - apply shrink_remove.
    - apply shrink_next.
    - intros r E. exact (shrink_init s p o (fst c) r W E).
    - exact (hits_events_shrink F).
  Qed.
  Lemma iter_growing : Forall (growing s p o) es2 -> let G2 := g_iter (fst c2) in
    NoDup (yields outs) /\ (forall t, In t (yields outs) -> hits s p o t /\ In t G2) /\
    (In (Ok None) outs -> (forall e, ~ In (Err e) outs) -> forall t, hits s p o t -> In t G -> In t (yields outs)) /\
    (forall e, In (Err e) outs -> e = RuntimeError /\ exists t, hits s p o t /\ In t G2 /\ ~ In t G).
  Proof.
    intros F G2. destruct (grow_run F) as (W & W2 & x & N & (K & S & ND & D & M & B & C & O & E & Z) & _).
    split; [exact ND|]. split; [intros t H; destruct (M t (or_introl H)); auto|]. split; [|exact E].
    intros ON NE t H I. destruct C as [C|(e & C)]; [|now apply NE in C]. rewrite (O ON) in C. destruct (C t H I) as [|[]]; assumption.
  Qed.
  Lemma iter_shrinking : Forall (shrinking s p o) es2 -> let G2 := g_iter (fst c2) in
    NoDup (yields outs) /\ (forall t, In t (yields outs) -> hits s p o t /\ In t G) /\
    (In (Ok None) outs -> (forall e, ~ In (Err e) outs) -> forall t, hits s p o t -> In t G2 -> In t (yields outs)) /\
    (forall e, In (Err e) outs -> e = RuntimeError /\ exists t, hits s p o t /\ In t G /\ ~ In t G2).
  Proof.
    intros F G2. destruct (shrink_run F) as (W & W2 & x & N & (K & S & ND & Y & B & C & O & E) & _).
    split; [exact ND|]. split; [exact Y|]. split; [|exact E].
    intros ON NE t H I. specialize (O ON). destruct C as [(_ & _ & _ & C)|[(C & _)|(_ & e & C)]]; [|subst x; contradiction|now apply NE in C].
    subst x. destruct (C t H I) as [|[]]; assumption.
  Qed.
  Lemma trace_one : forall x r, nth_error (snd c2) i = Some x -> gen_next (fst c2) x = (fst c2, r) -> client_trace i c2 [EvNext i] = [out1 r].
  Proof. intros x r N E. cbn [client_trace]. rewrite Nat.eqb_refl, N, E. reflexivity. Qed.
  Lemma iter_current : Forall (growing s p o) es2 \/ Forall (shrinking s p o) es2 ->
    forall t, client_trace i c2 [EvNext i] = [Ok (Some t)] -> hits s p o t /\ In t (g_iter (fst c2)) /\ ~ In t (yields outs).
  Proof.
    intros F t H.
    assert (X : exists x, wf (fst c2) /\ nth_error (snd c2) i = Some x /\ keys (fst c2) x /\ shape s p o x /\
      (less (fst c2) x \/ forall y, In y (gen_rest (fst c2) x) -> hits s p o y /\ In y (g_triples (fst c2)) /\ ~ In y (yields outs))).
    { destruct F as [F|F].
      - destruct (grow_run F) as (W & W2 & x & N & (K & S & ND & D & M & B & C & O & E & Z) & _). exists x. do 4 (split; [assumption|]). right.
        intros y Y. destruct (M y (or_intror Y)). split; [assumption|]. split; [assumption|]. intro Q. exact (D y Q Y).
      - destruct (shrink_run F) as (W & W2 & x & N & (K & S & ND & Y & B & C & O & E) & _). exists x. do 4 (split; [assumption|]).
        destruct C as [(_ & C1 & C2 & _)|[(C & _)|(-> & _)]]; [right|now left|right; intros y []].
        intros y Q. destruct (C2 y Q). split; [assumption|]. split; [assumption|]. intro Q2. exact (C1 y Q2 Q). }
    destruct X as (x & W2 & N & K & S & X). destruct (next_any s p o (fst c2) x W2 K S) as [[E _]|[Z A]].
    - rewrite (trace_one x _ N E) in H. discriminate H.
    - destruct (gen_rest (fst c2) x) as [|y rest] eqn:R; cbn [advances] in A.
      + rewrite (trace_one x _ N A) in H. discriminate H.
      + destruct A as (x' & E & _). rewrite (trace_one x _ N E) in H. injection H as <-. destruct X as [X|X]; [|apply X; now left].
        exfalso. destruct x; cbn [less size1] in X, Z; try contradiction; lia.
  Qed.
  Lemma iter_noticed : Forall (growing s p o) es2 \/ Forall (shrinking s p o) es2 -> flat ->
    Forall (fun r => exists t, r = Ok (Some t)) outs ->
    (exists t, hits s p o t /\ ~ (In t G <-> In t (g_iter (fst c2)))) -> client_trace i c2 [EvNext i] = [Err RuntimeError].
  Proof.
    intros F FL A (t & H & D).
    assert (X : exists x, wf (fst c) /\ wf (fst c2) /\ nth_error (snd c2) i = Some x /\ keys (fst c2) x /\ shape s p o x /\ kind n x outs /\
      (incl (g_match (fst c) s p o) (g_match (fst c2) s p o) \/ incl (g_match (fst c2) s p o) (g_match (fst c) s p o))).
    { destruct F as [F|F].
      - destruct (grow_run F) as (W & W2 & x & N & (K & S & _ & _ & _ & B & _) & KD). exists x. specialize (KD FL). do 6 (split; [assumption|]). left.
        intros y Y. apply (match_hits s p o _ y W) in Y. apply (match_hits s p o _ y W2). destruct Y as [Y1 Y2]. auto.
      - destruct (shrink_run F) as (W & W2 & x & N & (K & S & _ & _ & B & _) & KD). exists x. specialize (KD FL). do 6 (split; [assumption|]). right.
        intros y Y. apply (match_hits s p o _ y W2) in Y. apply (match_hits s p o _ y W). destruct Y as [Y1 Y2]. auto. }
    destruct X as (x & W & W2 & N & K & S & KD & I). specialize (KD A).
    destruct (next_any s p o (fst c2) x W2 K S) as [[E _]|[Z _]]; [exact (trace_one x _ N E)|]. exfalso. apply D.
    apply (size_count (fst c2) x n W2 S KD) in Z. unfold n in Z.
    assert (Q : forall y, In y (g_match (fst c) s p o) <-> In y (g_match (fst c2) s p o)).
    { pose proof (proj1 (g_match_lists _ s p o W)) as ND. pose proof (proj1 (g_match_lists _ s p o W2)) as ND2.
      destruct I as [I|I]; intro y; (split; [|]); try apply I; revert y.
      - apply (NoDup_length_incl ND); [lia|exact I].
      - apply (NoDup_length_incl ND2); [lia|exact I]. }
    specialize (Q t). rewrite (match_hits s p o _ t W), (match_hits s p o _ t W2) in Q. unfold G, g_iter. tauto.
  Qed.
End Both.
