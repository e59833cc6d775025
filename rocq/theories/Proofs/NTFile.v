(** Proofs for C122: N-Triples files. *)
From Verif Require Import Model.Py Model.Terms Model.Graph Model.Codec Model.NTriples Model.NTStream
  Spec.CodecSpec Spec.GraphSpec Spec.NTSpec Spec.NTTextSpec Spec.NTStreamSpec Proofs.GraphInv Proofs.NTRun Proofs.NTMeans Proofs.NTFinal Proofs.NTStream.
Open Scope N_scope.

Lemma universal_written : forall eol s, linesep eol -> ~ In 13 s -> universal (written eol s) = s.
Proof.
  intros eol s L. unfold written. induction s as [|c s IH]; intro N; [reflexivity|]. cbn [flat_map].
  assert (NC : c <> 13) by (intros ->; apply N; now left). assert (NS : ~ In 13 s) by (intro J; apply N; now right). specialize (IH NS).
  destruct (N.eqb_spec c 10) as [->|N10].
  - destruct L as [<-|[<-|[<-|[]]]]; cbn [app universal N.eqb Pos.eqb]; [now rewrite IH|now rewrite IH|].
    destruct s as [|d s]; [reflexivity|]. rewrite <- IH at 2. cbn [flat_map]. destruct (N.eqb_spec d 10) as [->|ND]; [reflexivity|]. cbn [app]. now rewrite (proj2 (N.eqb_neq d 10) ND).
  - cbn [app universal]. rewrite (proj2 (N.eqb_neq c 13) NC). now rewrite IH.
Qed.

Lemma out_lines : forall ts, Forall tags_one_line ts -> snd (serialize_ntriples ts) = Ok tt ->
  no_blank_line (fst (serialize_ntriples ts)) /\ ~ In 13 (fst (serialize_ntriples ts)).
Proof.
  induction 1 as [|t ts (A & B & C) F IH]; intro H; [split; [exists []; split; constructor|intros []]|].
  cbn [serialize_ntriples] in *. destruct (triple_str t) as [x|e] eqn:E; [|discriminate].
  destruct (serialize_ntriples ts) as [o r]. cbn [fst snd] in *. destruct (IH H) as [NBL NC]. destruct NBL as (ls & LO & NB).
  destruct (one_line_each t x A B C E) as (b & -> & OL). assert (J : In 46 (b ++ [10])).
  { unfold triple_str in E. destruct (term_toNT (st_s t)) as [s'|]; [|discriminate]. destruct (term_toNT (st_p t)) as [p'|]; [|discriminate]. destruct (term_toNT (st_o t)) as [o'|]; [|discriminate].
    cbn [bind] in E. injection E as <-. 
    rewrite !in_app_iff.
    right. right. rewrite in_app_iff. right. right. rewrite in_app_iff. right. cbn. auto. }
  split.
  - exists ((b ++ [10]) :: ls). rewrite <- app_assoc. cbn [app]. split; [constructor; [now apply ol_in10|exact LO]|]. constructor; [|exact NB].
    intro BL. unfold blank_line in BL. rewrite Forall_forall in BL. apply BL in J. lia.
  - rewrite !in_app_iff. intros [[K|[K|[]]]|K]; [|discriminate|now apply NC]. unfold one_line in OL. rewrite Forall_forall in OL. apply OL in K. now destruct K.
Qed.

Lemma nt_tags : forall t, nt_triple t -> tags_one_line t.
Proof.
  assert (K : forall x, nt_object x -> lang_one_line x).
  { intros [i|b|v [l|] d] H; try exact Logic.I. cbn. destruct H as (_ & H & _). destruct l as [|c l]; [constructor|]. apply ol_tag. now apply H. }
  intros t H. unfold nt_triple in H. unfold tags_one_line.
  destruct H as (S & P & O & _). repeat split; [|destruct (st_p t); try contradiction; exact Logic.I|now apply K].
  destruct (st_s t); try contradiction; exact Logic.I.
Qed.

Lemma serialize_app : forall a b ta tb, serialize_ntriples a = (ta, Ok tt) -> serialize_ntriples b = (tb, Ok tt) -> serialize_ntriples (a ++ b) = (ta ++ tb, Ok tt).
Proof.
  induction a as [|t a IH]; intros b ta tb A B; cbn [serialize_ntriples app] in *; [injection A as <-; exact B|].
  destruct (triple_str t) as [x|e]; [|discriminate]. destruct (serialize_ntriples a) as [o r] eqn:E. injection A as <- ->. rewrite (IH b o tb eq_refl B). now rewrite app_assoc.
Qed.

Lemma written_app : forall eol a b, written eol (a ++ b) = written eol a ++ written eol b.
Proof. intros. unfold written. apply flat_map_app. Qed.
(** the second part does not begin with LF, as long as its text does not *)
Lemma written_nolf : forall eol s, nolf s -> nolf (written eol s).
Proof. intros eol [|c s] H; [exact Logic.I|]. cbn in *. now rewrite (proj2 (N.eqb_neq c 10) H). Qed.
Lemma universal_app : forall a b, nolf b -> universal (a ++ b) = universal a ++ universal b.
Proof.
  assert (A : forall n a b, (length a <= n)%nat -> nolf b -> universal (a ++ b) = universal a ++ universal b).
  { induction n as [|n IH]; intros [|c a] b L B; cbn [length] in L; try lia; try reflexivity. cbn [app universal]. destruct (c =? 13).
    - destruct a as [|d a]; cbn [app].
      + destruct b as [|d b]; [reflexivity|]. cbn in B. now rewrite (proj2 (N.eqb_neq d 10) B).
      + cbn [length] in L. destruct (d =? 10); [now rewrite IH by (auto; lia)|]. change (d :: a ++ b) with ((d :: a) ++ b). now rewrite IH by (auto; cbn [length]; lia).
    - now rewrite IH by (auto; lia). }
  intros a b. exact (A (length a) a b (Nat.le_refl _)).
Qed.
Lemma universal_written_app : forall e e' a b, linesep e -> linesep e' -> ~ In 13 a -> ~ In 13 b -> nolf b -> universal (written e a ++ written e' b) = a ++ b.
Proof. intros. rewrite universal_app by now apply written_nolf. now rewrite !universal_written. Qed.
Lemma out_nolf : forall ts t, serialize_ntriples ts = (t, Ok tt) -> Forall tags_one_line ts -> nolf t.
Proof.
  intros [|x ts] t S F; cbn [serialize_ntriples] in S; [injection S as <-; exact Logic.I|]. inversion F as [|? ? (A & B & C) _]; subst.
  destruct (triple_str x) as [l|] eqn:E; [|discriminate]. destruct (serialize_ntriples ts) as [o r]. injection S as <- _.
  destruct (one_line_each x l A B C E) as (b & -> & OL). rewrite <- app_assoc. destruct b as [|c b]; [|inversion OL as [|? ? [K _] _]; subst; exact K].
  exfalso. unfold triple_str in E. destruct (term_toNT (st_s x)) as [s'|]; [|discriminate]. destruct (term_toNT (st_p x)) as [p'|]; [|discriminate]. destruct (term_toNT (st_o x)) as [o'|]; [|discriminate].
  cbn [bind] in E. injection E as E. destruct s' as [|c s']; [discriminate|]. injection E as _ E. destruct s'; discriminate.
Qed.
