(** Turtle output read back with urllib's urljoin. *)
From Verif Require Import Model.Py Model.Terms Model.Codec Model.TurtleTree Model.UrlJoin Model.Turtle Model.TurtleOut Spec.GraphSpec Spec.CodecSpec Spec.CurieSpec Spec.TurtleSpec
  Spec.TurtleTextSpec Spec.TurtleOutSpec Spec.UriSpec Spec.UriTripSpec
  Proofs.CurieLemmas Proofs.TurtleLemmas Proofs.TurtleReject Proofs.TurtleDoc Proofs.TurtleTrip Proofs.TurtleNames Proofs.TurtleRound Proofs.UriLemmas Proofs.UriParse Proofs.UriDots Proofs.UriJoin Proofs.UriAbs Proofs.UriDocs
  Properties.TurtleTripProps.
Open Scope N_scope.

Lemma legal_no_bs : forall s, legal_text s -> ~ In 92 s.
Proof. intros s F J. unfold legal_text in F. rewrite Forall_forall in F. apply (F _ J). right. left. cbn. tauto. Qed.
Lemma legal_visible : forall s, legal_text s -> visible s.
Proof. intros s F. apply Forall_impl with (2 := F). unfold iri_illegal. intros c C. lia || (apply N.nle_gt; intro X; apply C; now left). Qed.
Lemma ends_hash : forall s, ends_in 35 (s ++ [35]).
Proof. intros s. now exists s. Qed.

(** below a base ending in a slash *)
Lemma below_target : forall B R, base_ok B -> ends_with (r_path B) [47] -> r_query B = None -> r_frag B = None ->
  ref_ok B R -> (forall q, r_path R <> 47 :: q) -> no_dot_segment (r_path B ++ r_path R) ->
  exists T, target B R T /\ uri_text T = uri_text B ++ uri_text R.
Proof.
  intros B R HB [x E] Q F (_ & _ & SR & AR & _) NS ND.
  destruct B as [sb ab pb qb fb], R as [sr ar pr qr fr]; cbn in *. subst.
  destruct pr as [|c pr].
  - exists (mkUri sb ab (x ++ [47]) qr fr). split.
    + assert (H := TgEmpty (mkUri sb ab (x ++ [47]) None None) (mkUri None None [] qr fr) eq_refl eq_refl eq_refl). cbn in H. destruct qr; exact H.
    + unfold uri_text, hier_text. cbn. now rewrite !app_nil_r, <- !app_assoc.
  - exists (mkUri sb ab ((x ++ [47]) ++ c :: pr) qr fr). split.
    + apply (TgRel (mkUri sb ab (x ++ [47]) None None) (mkUri None None (c :: pr) qr fr) ((x ++ [47]) ++ c :: pr)); auto; try discriminate.
      * apply (MgDir _ _ (x ++ [47]) []); cbn [r_auth r_path].
        -- right. destruct x; discriminate.
        -- now rewrite app_nil_r.
        -- intros [].
        -- right. eauto.
      * now apply dots_none.
    + unfold uri_text, hier_text. cbn. rewrite !app_nil_r, <- !app_assoc. reflexivity.
Qed.
(** a fragment of the base *)
Lemma fragment_target : forall B f, r_frag B = Some [] -> exists T, target B (mkUri None None [] None (Some f)) T /\ uri_text T = uri_text B ++ f.
Proof.
  intros [sb ab pb qb fb] f E. cbn in E. subst. eexists. split; [now apply TgEmpty|]. unfold uri_text, hier_text. cbn. now rewrite <- !app_assoc.
Qed.

Section Trip.
  Variables bo nk : str -> bool.
  Notation by_url := (resolves_by (urljoin bo nk)).
  Lemma fit_header : forall pm B0 base, header_fit pm B0 base -> header_legal pm base /\ header_means by_url B0 base (base_after B0 base) pm.
  Proof.
    intros pm B0 base (ND & LX & RD & P & HB). split; [split|split; [|split; [|split]]]; auto.
    - intros b E. now apply HB.
    - intros p ns J _. split; now apply (P p ns J).
    - destruct base as [b|]; [|reflexivity]. now apply rfc_incl, HB.
    - intros p ns J _. now apply rfc_incl, (P p ns J).
  Qed.
  Lemma fit_readable : forall pm B0 base x, header_fit pm B0 base -> fit_node pm B0 base x -> readable by_url pm base (base_after B0 base) x.
  Proof.
    intros pm B0 base x HF F. assert (HF' := HF). destruct HF' as (ND & LX & RD & P & HB). destruct x as [s|b|v l d]; cbn [fit_node] in F.
    - destruct F as [O NB L R|p ns r -> C N O D NB PL N92|B R E HB' EW Q FR -> O OC L HR NS NDS|B f E HB' FR -> O OC L N35].
      + apply (C85_full_names by_url pm base (base_after B0 base) s O NB); auto using legal_no_bs. split; auto. now apply rfc_incl.
      + assert (PP : pn_prefix p) by (destruct C as (m1 & m2 & -> & _); apply (P p ns); apply in_elt).
        apply (C85_abbreviated_names by_url pm base (base_after B0 base) p ns r ND C N O PP D NB). auto.
      + subst base. destruct (HB _ eq_refl) as [LB _]. cbn [base_after].
        destruct (below_target B R HB' EW Q FR HR NS NDS) as (T & HT & ET).
        assert (NE : uri_text B <> []) by (destruct HB' as (_ & _ & (s & SB & _) & _); unfold uri_text; rewrite SB; destruct s; discriminate).
        assert (NH : ~ ends_in 35 (uri_text B)).
        { intros [z X]. destruct HB' as (OB & _). assert (NH := no_hash B OB). rewrite (text_frag B), FR in X. cbn [pre_opt] in X. rewrite app_nil_r in X.
          apply NH. rewrite X. apply in_or_app. right. now left. }
        apply (proj2 (C85_based_names by_url pm (uri_text B) (uri_text B) (uri_text R) (uri_text R) O NE OC LB (or_intror (conj NH eq_refl)))); auto using legal_no_bs.
        split; auto. apply rfc_incl. right. exists B, R, T. repeat split; auto. now apply AgRelative.
      + subst base. destruct (HB _ eq_refl) as [LB _]. cbn [base_after].
        destruct (fragment_target B f FR) as (T & HT & ET). set (R := mkUri None None [] None (Some f)) in *.
        assert (NE : uri_text B <> []) by (destruct HB' as (_ & _ & (s & SB & _) & _); unfold uri_text; rewrite SB; destruct s; discriminate).
        assert (EH : ends_in 35 (uri_text B)) by (rewrite (text_frag B), FR; apply ends_hash).
        apply (proj2 (C85_based_names by_url pm (uri_text B) (uri_text B) f (s2l "#" ++ f) O NE OC LB (or_introl (conj EH eq_refl)))); auto using legal_no_bs.
        assert (LR : legal_text (s2l "#" ++ f)).
        { constructor; auto. unfold iri_illegal. cbn. intuition (discriminate || lia). }
        split; auto. apply rfc_incl. right. exists B, R, T. repeat split; auto. apply AgRelative; auto.
        split; [|split; [|split; [|split; [|split; [|split; [|split]]]]]]; cbn; auto; try discriminate.
        * repeat split; cbn; auto; try discriminate.
          -- apply Forall_forall. intros c C ->. contradiction.
          -- intros [q X]. discriminate.
          -- intros _ _ a b X. destruct a; discriminate.
        * apply legal_visible. exact LR.
        * intros (y & z & X). destruct y; discriminate.
        * split; [intros [y X]; destruct y; discriminate|]. intros y seg z X. destruct y; [destruct seg|]; discriminate.
    - intros t E. discriminate E.
    - destruct F as [LD F]. apply C85_literals; auto. intros p ns J. now apply (P p ns).
  Qed.
  Lemma fit_readable_graph : forall pm B0 base G, header_fit pm B0 base -> fit_graph pm B0 base G -> readable_graph by_url pm base (base_after B0 base) G.
  Proof.
    intros pm B0 base G HF F t J NC. destruct (F t J NC) as (A & B & C & D).
    split; [|split; [|split]]; try (apply fit_readable; now auto). intro X. apply fit_readable; auto. intros os x LO I. apply fit_readable; eauto.
  Qed.
End Trip.
