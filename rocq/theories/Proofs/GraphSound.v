(** match gives only what is in the dictionaries and the set of a graph, whatever state they are in. *)
From Verif Require Import Model.Py Model.Terms Model.Graph Spec.GraphSpec Proofs.DictLemmas Proofs.GraphInv Proofs.GraphGen Proofs.GraphHist.
From Coq Require Import Lia PeanoNat.

Definition ka (w : which) (t : stmt) : term := match w with SPO => st_s t | POS => st_p t | OSP => st_o t end.
Definition kb (w : which) (t : stmt) : term := match w with SPO => st_p t | POS => st_o t | OSP => st_s t end.
Lemma gd_nil : forall V a, gd (V := V) [] a = [].
Proof. reflexivity. Qed.
Lemma touch_gd : forall V (ix : dict term (dict term V)) a x, gd (fst (touch ix a)) x = gd ix x.
Proof. intros V ix a x. unfold touch. destruct (tget ix a) eqn:E; cbn [fst]; [reflexivity|]. rewrite gd_tset. destruct (term_eq_dec a x) as [<-|]; [|reflexivity]. unfold gd. now rewrite E. Qed.
Lemma touch2_gd : forall ix a b x y, gd (gd (fst (touch2 ix a b)) x) y = gd (gd ix x) y.
Proof.
  intros ix a b x y. unfold touch2. pose proof (gd_touch _ ix a) as H1. pose proof (touch_gd _ ix a) as H2. destruct (touch ix a) as [ix1 d1]. cbn [fst snd] in *.
  pose proof (touch_gd _ d1 b) as H3. destruct (touch d1 b) as [d1' d2]. cbn [fst snd] in *. rewrite gd_tset. destruct (term_eq_dec a x) as [<-|]; [|now rewrite H2]. rewrite H3. now rewrite H1.
Qed.
Lemma touch2_snd : forall ix a b, snd (touch2 ix a b) = gd (gd ix a) b.
Proof.
  intros ix a b. unfold touch2. pose proof (gd_touch _ ix a) as H1. destruct (touch ix a) as [ix1 d1]. cbn [fst snd] in *. pose proof (gd_touch _ d1 b) as H3. destruct (touch d1 b) as [d1' d2]. cbn [fst snd] in *. now subst.
Qed.
Lemma index_set_eq : forall g w ix, g_index (set_index g w ix) w = ix.
Proof. now intros [u ts a b c] [] ix. Qed.
Lemma index_set_neq : forall g w w' ix, w' <> w -> g_index (set_index g w ix) w' = g_index g w'.
Proof. intros [u ts a b c] [] [] ix N; cbn; congruence. Qed.
Lemma triples_set : forall g w ix, g_triples (set_index g w ix) = g_triples g.
Proof. now intros [u ts a b c] [] ix. Qed.

Section Sound.
  Variable E : stmt -> Prop.
  Definition holds (g : graph) : Prop :=
    (forall w a b t, In t (dvals (gd (gd (g_index g w) a) b)) -> ka w t = a /\ kb w t = b /\ E t) /\ forall t, In t (g_triples g) -> E t.
  Lemma holds_set : forall g w ix, holds g -> (forall a b, gd (gd ix a) b = gd (gd (g_index g w) a) b) -> holds (set_index g w ix).
  Proof.
    intros g w ix [H T] X. split; [|intro t; rewrite triples_set; apply T]. intros w' a b t J. assert (D : w' = w \/ w' <> w) by (destruct w, w'; auto; right; discriminate). destruct D as [->|NE].
    - rewrite index_set_eq, X in J. now apply H.
    - rewrite index_set_neq in J by exact NE. now apply H.
  Qed.
  Variable Q : stmt -> Prop.
  Definition sound (x : gen) : Prop :=
    match x with
    | GStart _ _ _ => False
    | GDone => True
    | GVals _ _ _ _ rem | GSet _ rem => forall t, In t rem -> Q t
    | GNest w a _ _ _ _ rem => (forall t, In t rem -> Q t) /\ forall t, ka w t = a -> E t -> Q t
    end.
  Definition good (z : graph * res (option (stmt * gen))) : Prop :=
    holds (fst z) /\ match snd z with Ok (Some (t, x)) => Q t /\ sound x | _ => True end.
  Lemma vals_good : forall g w a b u rem, (forall t, In t rem -> Q t) ->
    match vals_next g w a b u rem with Ok (Some (t, x)) => Q t /\ rem = t :: tl rem /\ sound x | _ => True end.
  Proof.
    intros g w a b u rem R. unfold vals_next. destruct (tget (g_index g w) a) as [d1|]; [|exact Logic.I]. destruct (tget d1 b) as [d2|]; [|exact Logic.I]. destruct (length d2 =? u); [|exact Logic.I].
    destruct rem as [|t r]; [exact Logic.I|]. split; [apply R; now left|]. split; [reflexivity|]. intros x J. apply R. now right.
  Qed.
  Lemma outer_good : forall w a ou orem g, holds g -> (forall t, ka w t = a -> E t -> Q t) -> good (nest_outer g w a ou orem).
  Proof.
    intros w a ou. induction orem as [|b orem IH]; intros g H N; cbn [nest_outer]; pose proof (touch_gd _ (g_index g w) a) as TG; destruct (touch (g_index g w) a) as [ix1 d1]; cbn [fst] in TG;
      (assert (H1 : holds (set_index g w ix1)) by (apply holds_set; [exact H|]; intros x y; now rewrite TG)); destruct (length d1 =? ou); try (split; [exact H1|exact Logic.I]).
    set (g1 := set_index g w ix1) in *. pose proof (touch2_gd (g_index g1 w) a b) as T2. pose proof (touch2_snd (g_index g1 w) a b) as T3. destruct (touch2 (g_index g1 w) a b) as [ix2 d2]. cbn [fst snd] in T2, T3.
    assert (H2 : holds (set_index g1 w ix2)) by (apply holds_set; [exact H1|]; exact T2). destruct (dvals d2) as [|t r] eqn:ED; [now apply IH|].
    assert (A : forall x, In x (t :: r) -> Q x). { intros x J. rewrite <- ED, T3 in J. destruct (proj1 H1 w a b x J) as (K1 & _ & K3). now apply N. }
    split; [exact H2|]. cbn [snd]. split; [apply A; now left|]. split; [intros x J; apply A; now right|exact N].
  Qed.
  Lemma nest_good : forall w a g, holds g -> (forall t, ka w t = a -> E t -> Q t) -> good (nest_start g w a).
  Proof.
    intros w a g H N. unfold nest_start. destruct (dmem term_eq_dec (g_index g w) a); [|split; [exact H|exact Logic.I]].
    pose proof (touch_gd _ (g_index g w) a) as TG. destruct (touch (g_index g w) a) as [ix1 d1]. cbn [fst] in TG. apply outer_good; [|exact N]. apply holds_set; [exact H|]. intros x y. now rewrite TG.
  Qed.
  Lemma start_good : forall w a b g, holds g -> (forall t, ka w t = a -> kb w t = b -> E t -> Q t) -> good (vals_start g w a b).
  Proof.
    intros w a b g H N. unfold vals_start. destruct (dmem term_eq_dec (g_index g w) a); [|split; [exact H|exact Logic.I]].
    pose proof (touch_gd _ (g_index g w) a) as TG. destruct (touch (g_index g w) a) as [ix1 d1]. cbn [fst] in TG. assert (H1 : holds (set_index g w ix1)) by (apply holds_set; [exact H|]; intros x y; now rewrite TG).
    destruct (dmem term_eq_dec d1 b); [|split; [exact H1|exact Logic.I]]. set (g1 := set_index g w ix1) in *. pose proof (touch2_gd (g_index g1 w) a b) as T2. pose proof (touch2_snd (g_index g1 w) a b) as T3. destruct (touch2 (g_index g1 w) a b) as [ix2 d2]. cbn [fst snd] in T2, T3.
    assert (H2 : holds (set_index g1 w ix2)) by (apply holds_set; [exact H1|]; exact T2). split; [exact H2|]. cbn [snd].
    pose proof (vals_good (set_index g1 w ix2) w a b (length d2) (dvals d2)) as V. destruct (vals_next _ w a b (length d2) (dvals d2)) as [[[t x]|]|e]; auto.
    destruct V as (V1 & _ & V3); [|auto]. intros t' J. rewrite T3 in J. destruct (proj1 H1 w a b t' J) as (K1 & K2 & K3). now apply N.
  Qed.
  Lemma next_good : forall g x, holds g -> sound x -> good (gen_next g x).
  Proof.
    intros g x H S. destruct x as [s p o| |w a b u rem|w a ou orem b u rem|u rem]; cbn [gen_next]; [contradiction| | | |].
    - split; [exact H|exact Logic.I].
    - split; [exact H|]. cbn [snd]. pose proof (vals_good g w a b u rem S) as V. destruct (vals_next g w a b u rem) as [[[t x]|]|e]; auto. tauto.
    - destruct S as [S N]. pose proof (vals_good g w a b u rem S) as V. destruct (vals_next g w a b u rem) as [[[t x]|]|e].
      + split; [exact H|]. cbn [snd]. split; [apply V|]. split; [|exact N]. intros y J. apply S. destruct V as (_ & -> & _). now right.
      + now apply outer_good.
      + split; [exact H|exact Logic.I].
    - destruct (length (g_triples g) =? u); [|split; [exact H|exact Logic.I]]. destruct rem as [|t r]; (split; [exact H|]); cbn [snd]; [exact Logic.I|]. split; [apply S; now left|]. intros y J. apply S. now right.
  Qed.
  Lemma drain_good : forall n g x l, holds g -> good (gen_next g x) -> snd (drain n g x) = Ok l -> forall t, In t l -> Q t.
  Proof.
    induction n as [|n IH]; intros g x l H G ED; cbn [drain] in ED; [discriminate|]. destruct (gen_next g x) as [g' [[[t x']|]|e]]; try discriminate.
    - destruct G as [H' [QT SX]]. cbn [fst snd] in *. destruct (drain n g' x') as [g'' [l'|e]] eqn:ED'; [|discriminate]. injection ED as <-. intros y [<-|J]; [exact QT|].
      apply (IH g' x' l' H' (next_good g' x' H' SX)); [now rewrite ED'|exact J].
    - injection ED as <-. contradiction.
  Qed.
End Sound.
Lemma arg_cases : forall o, honoured o -> o = None \/ exists x, o = Some x /\ oterm_truthy o = true.
Proof.
  intros o H. destruct (oterm_truthy o) eqn:T; [|left; pose proof (oterm_truthy_false o T) as X; now rewrite (as_wildcard_honoured o H) in X]. destruct o as [x|]; [|discriminate]. right. now exists x.
Qed.
Lemma match_sound : forall (E : stmt -> Prop) g s p o n l, holds E g -> honoured s -> honoured p -> honoured o ->
  snd (drain n g (GStart s p o)) = Ok l -> forall t, In t l -> E t /\ fits s p o t.
Proof.
  intros E g s p o n l H HS HP HO ED. refine (drain_good E (fun t => E t /\ fits s p o t) n g (GStart s p o) l H _ ED). cbn [gen_next].
  assert (CT : forall t, g_contains g t = true -> E t). { intros t C. apply H. unfold g_contains in C. destruct (in_dec stmt_eq_dec t (g_triples g)); [assumption|discriminate]. }
  assert (AN : forall x, agrees None x) by (intro; now left). assert (AS : forall x y, x = y -> agrees (Some y) x) by (intros x y ->; now right).
  destruct (arg_cases s HS) as [->|(s' & -> & ->)], (arg_cases p HP) as [->|(p' & -> & ->)], (arg_cases o HO) as [->|(o' & -> & ->)]; unfold fits; cbn [oterm_truthy].
  - destruct (g_triples g) as [|t r] eqn:ET; (split; [exact H|]); cbn [snd]; [exact Logic.I|]. assert (A : forall y, In y (t :: r) -> E y) by (intro y; rewrite <- ET; apply H).
    split; [split; [apply A; now left|auto]|]. intros y J. split; [apply A; now right|auto].
  - apply nest_good; [exact H|]. cbn. intros t <- ET. auto.
  - apply nest_good; [exact H|]. cbn. intros t <- ET. auto.
  - apply start_good; [exact H|]. cbn. intros t <- <- ET. auto.
  - apply nest_good; [exact H|]. cbn. intros t <- ET. auto.
  - apply start_good; [exact H|]. cbn. intros t <- <- ET. auto.
  - apply start_good; [exact H|]. cbn. intros t <- <- ET. auto.
  - split; [exact H|]. cbn [snd]. destruct (g_contains g (Tr s' p' o')) eqn:C; [|exact Logic.I]. split; [|exact Logic.I]. split; [now apply CT|]. unfold Tr. cbn. auto.
Qed.
