(** Lemmas for C101: the exceptions of urljoin. *)
From Verif Require Import Model.Py Model.Terms Model.Codec Model.UrlJoin Model.Turtle Spec.UriSpec Proofs.CurieLemmas Proofs.UriLemmas Proofs.UriParse Proofs.UriAbs.
Open Scope N_scope.

Lemma bool_eq_iff : forall a b P Q, (a = true <-> P) -> (b = true <-> Q) -> (Bool.eqb a b = true <-> (P <-> Q)).
Proof. intros a b P Q A B. rewrite Bool.eqb_true_iff. rewrite <- A, <- B. destruct a, b; intuition congruence. Qed.
Lemma check_netloc_spec : forall bo nk a, check_netloc bo nk a = true <-> host_taken bo nk a.
Proof.
  intros bo nk a. unfold check_netloc, host_taken.
  assert (E := bool_eq_iff _ _ _ _ (in_char 91 a) (in_char 93 a)).
  assert (A : (if forallb (fun c => c <? 128) a then true else nk a) = true <-> (Exists (fun c => 128 <= c) a -> nk a = true)).
  { destruct (forallb (fun c => c <? 128) a) eqn:F.
    - split; auto. intros _ X. exfalso. rewrite forallb_forall in F. apply Exists_exists in X. destruct X as (c & J & K). apply F, N.ltb_lt in J. lia.
    - split; [auto|]. intro H. apply H. apply Exists_exists. assert (G : ~ Forall (fun c => c < 128) a).
      { intro G. rewrite Forall_forall in G. assert (forallb (fun c => c <? 128) a = true); [|congruence]. apply forallb_forall. intros x J. apply N.ltb_lt. auto. }
      rewrite <- Exists_Forall_neg in G; [|intro c; destruct (N.lt_ge_cases c 128); [now left|right; lia]]. apply Exists_exists in G. destruct G as (c & J & K). exists c. split; auto. lia. }
  destruct (Bool.eqb (str_in_char 91 a) (str_in_char 93 a)) eqn:Q; cbn [negb].
  - rewrite andb_true_iff, A.
    assert (B : (if str_in_char 91 a then bo (fst (fst (partition (snd (partition a 91)) 93))) else true) = true <->
      (forall x h y, a = x ++ 91 :: h ++ 93 :: y -> ~ In 91 x -> ~ In 93 h -> bo h = true) /\ (forall x h, a = x ++ 91 :: h -> ~ In 91 x -> ~ In 93 h -> bo h = true)).
    { destruct (str_in_char 91 a) eqn:O.
      - apply in_char in O. apply in_split in O. destruct O as (x & r & O).
        assert (O' : exists x r, a = x ++ 91 :: r /\ ~ In 91 x).
        { clear -O. revert x O. induction a as [|c a IH]; intros x O; [destruct x; discriminate|]. destruct (N.eq_dec c 91) as [->|N]; [exists [], a; auto|].
          destruct x as [|d x]; injection O as -> O; [congruence|]. destruct (IH x O) as (x' & r' & -> & K). exists (d :: x'), r'. split; auto. intros [J|J]; auto. }
        clear x r O. destruct O' as (x & r & -> & N). rewrite (partition_at x 91 r N). cbn [snd].
        destruct (in_dec N.eq_dec 93 r) as [I|I].
        + assert (I' : exists h y, r = h ++ 93 :: y /\ ~ In 93 h).
          { clear -I. induction r as [|c r IH]; [destruct I|]. destruct (N.eq_dec c 93) as [->|N]; [exists [], r; auto|]. destruct I as [I|I]; [congruence|].
            destruct (IH I) as (h & y & -> & K). exists (c :: h), y. split; auto. intros [J|J]; auto. }
          destruct I' as (h & y & -> & K). rewrite (partition_at h 93 y K). cbn [fst]. split.
          * intro H. split.
            -- intros x' h' y' E1 N' K'. destruct (split_unique 91 x (h ++ 93 :: y) x' (h' ++ 93 :: y') N N' E1) as [-> E2]. destruct (split_unique 93 h y h' y' K K' E2) as [-> _]. exact H.
            -- intros x' h' E1 N' K'. destruct (split_unique 91 x (h ++ 93 :: y) x' h' N N' E1) as [-> <-]. exfalso. apply K'. apply in_elt.
          * intros [H _]. now apply (H x h y).
        + rewrite (partition_none r 93 I). cbn [fst]. split.
          * intro H. split.
            -- intros x' h' y' E1 N' K'. destruct (split_unique 91 x r x' (h' ++ 93 :: y') N N' E1) as [-> ->]. exfalso. apply I. apply in_elt.
            -- intros x' h' E1 N' K'. destruct (split_unique 91 x r x' h' N N' E1) as [-> <-]. exact H.
          * intros [_ H]. now apply (H x r).
      - assert (N : ~ In 91 a) by (intro X; apply in_char in X; congruence). split; [|auto]. intros _. split.
        + intros x h y -> _ _. exfalso. apply N. apply in_elt.
        + intros x h -> _ _. exfalso. apply N. apply in_elt. }
    rewrite B. apply proj1 in E. specialize (E eq_refl). tauto.
  - split; [discriminate|]. intros [H _]. apply E in H. discriminate.
Qed.

Section Err.
  Variables bo nk : str -> bool.
  Lemma parse_error : forall u d e, urlparse bo nk u d = Err e -> e = ValueError.
  Proof.
    intros u d e. unfold urlparse. destruct (split_scheme _ d) as [sc u1]. destruct (if startswith u1 _ then _ else _) as [nl u2].
    destruct (check_netloc bo nk nl); [|congruence]. destruct (partition u2 35) as [[u3 ?] f]. destruct (partition u3 63) as [[u4 ?] q].
    destruct (if str_mem sc uses_params && _ then _ else _) as [p ps]. discriminate.
  Qed.
  Lemma join_error : forall b u e, smart_urljoin (urljoin bo nk) b u = Err e -> e = ValueError.
  Proof.
    intros b u e. unfold smart_urljoin, urljoin. destruct (negb (str_truthy b)); [discriminate|]. destruct (negb (str_truthy u)); [discriminate|].
    destruct (urlparse bo nk b []) as [pb|x] eqn:PB; cbn [bind]; [|intros [= <-]; now apply parse_error in PB].
    destruct (urlparse bo nk u (u_scheme pb)) as [pu|x] eqn:PU; cbn [bind]; [|intros [= <-]; now apply parse_error in PU].
    destruct (_ || _); [discriminate|]. destruct (_ && _); [discriminate|]. destruct (_ && _); discriminate.
  Qed.
  Lemma join_iff : forall b u, b <> [] -> u <> [] -> (exists x, smart_urljoin (urljoin bo nk) b u = Ok x) <->
    exists pb pu, urlparse bo nk b [] = Ok pb /\ urlparse bo nk u (u_scheme pb) = Ok pu.
  Proof.
    intros b u B U. unfold smart_urljoin, urljoin. destruct b as [|cb b]; [congruence|]. destruct u as [|cu u]; [congruence|]. cbn [str_truthy negb]. split.
    - intros (x & H). destruct (urlparse bo nk (cb :: b) []) as [pb|] eqn:PB; [|discriminate H]. cbn [bind] in H.
      destruct (urlparse bo nk (cu :: u) (u_scheme pb)) as [pu|] eqn:PU; [|discriminate H]. eauto.
    - intros (pb & pu & -> & H). cbn [bind]. rewrite H. cbn [bind]. destruct (_ || _); [eexists; reflexivity|]. destruct (_ && _); [eexists; reflexivity|]. destruct (_ && _); eexists; reflexivity.
  Qed.
  Lemma host_none : host_taken bo nk [].
  Proof. repeat split; try (intros []; fail); try (intros [|? ?]; discriminate). intro H. inversion H. Qed.
  Lemma oval_host : forall o, host_taken bo nk (oval o) <-> forall a, o = Some a -> host_taken bo nk a.
  Proof. intros [a|]; cbn [oval]; split; [intros H b [= <-]; auto|auto|discriminate|intros _; apply host_none]. Qed.
  Lemma host_dec : forall o, (exists a, o = Some a /\ ~ host_taken bo nk a) \/ (forall a, o = Some a -> host_taken bo nk a).
  Proof.
    intros [a|]; [|right; discriminate]. destruct (check_netloc bo nk a) eqn:C.
    - right. intros b [= <-]. now apply check_netloc_spec.
    - left. exists a. split; auto. intro H. apply check_netloc_spec in H. congruence.
  Qed.
  Lemma join_exactly : forall B R, uri_ok B -> uri_ok R -> visible (uri_text B) -> visible (uri_text R) -> uri_text B <> [] -> uri_text R <> [] ->
    (exists x, smart_urljoin (urljoin bo nk) (uri_text B) (uri_text R) = Ok x) <->
    forall a, r_auth B = Some a \/ r_auth R = Some a -> host_taken bo nk a.
  Proof.
    intros B R OB OR VB VR NB NR. rewrite join_iff by assumption. rewrite urlparse_gen by assumption. split.
    - intros (pb & pu & PB & PU). rewrite urlparse_gen in PU by assumption.
      destruct (check_netloc bo nk (oval (r_auth B))) eqn:CB; [|discriminate PB]. destruct (check_netloc bo nk (oval (r_auth R))) eqn:CR; [|discriminate PU].
      apply check_netloc_spec in CB. apply check_netloc_spec in CR. rewrite oval_host in CB, CR. intros a [H|H]; auto.
    - intro H. assert (CB : check_netloc bo nk (oval (r_auth B)) = true) by (apply check_netloc_spec, oval_host; auto).
      assert (CR : check_netloc bo nk (oval (r_auth R)) = true) by (apply check_netloc_spec, oval_host; auto).
      rewrite CB. eexists. eexists. split; [reflexivity|]. rewrite urlparse_gen by assumption. rewrite CR. reflexivity.
  Qed.
  Lemma plain_taken : forall a, Forall (fun c => c <> 91 /\ c <> 93 /\ c < 128) a -> host_taken bo nk a.
  Proof. intros a H. apply check_netloc_spec. now apply plain_host_ok. Qed.
  Lemma parse_plain : forall u d, Forall (fun c => c <> 91 /\ c <> 93 /\ c < 128) u -> exists p, urlparse bo nk u d = Ok p.
  Proof.
    intros u d H. unfold urlparse. destruct (split_scheme (filter safe_char (lstrip_c0 u)) d) as [sc u1] eqn:E1.
    assert (I1 : incl u1 u).
    { intros x J. apply lstrip_incl. assert (K : In x (filter safe_char (lstrip_c0 u))); [|apply filter_In in K; tauto].
      unfold split_scheme in E1. destruct (partition (filter safe_char (lstrip_c0 u)) 58) as [[a f] r] eqn:P. apply partition_incl in P. destruct P as [_ P].
      destruct f; [|injection E1 as <- <-; exact J]. destruct a as [|c a]; [injection E1 as <- <-; exact J|]. destruct (_ && _); injection E1 as <- <-; auto. }
    destruct (if startswith u1 _ then _ else _) as [nl u2] eqn:E2.
    assert (I2 : incl nl u).
    { destruct (startswith u1 [47; 47]); [|injection E2 as <- <-; intros x []]. apply netloc_incl in E2. destruct E2 as [A _]. intros x J. apply I1. apply A in J.
      rewrite <- (firstn_skipn 2 u1). apply in_or_app. now right. }
    assert (C : check_netloc bo nk nl = true).
    { apply check_netloc_spec, plain_taken. apply Forall_forall. intros c J. rewrite Forall_forall in H. apply H, I2, J. }
    rewrite C. destruct (partition u2 35) as [[u3 ?] f]. destruct (partition u3 63) as [[u4 ?] q].
    destruct (if str_mem sc uses_params && _ then _ else _) as [p ps]. eexists. reflexivity.
  Qed.
  Lemma join_plain : forall b u, Forall (fun c => c <> 91 /\ c <> 93 /\ c < 128) (b ++ u) -> exists x, smart_urljoin (urljoin bo nk) b u = Ok x.
  Proof.
    intros b u H. apply Forall_app in H. destruct H as [B U]. destruct b as [|cb b]; [eexists; reflexivity|]. destruct u as [|cu u]; [eexists; reflexivity|].
    apply join_iff; [discriminate|discriminate|]. destruct (parse_plain (cb :: b) [] B) as (pb & PB). destruct (parse_plain (cu :: u) (u_scheme pb) U) as (pu & PU). eauto.
  Qed.
End Err.
