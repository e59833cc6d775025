(** urljoin on references with a scheme or an authority; no "<" out of nothing. *)
From Verif Require Import Model.Py Model.Codec Model.UrlJoin Model.Turtle Spec.TurtleSpec Spec.UriSpec Proofs.CurieLemmas Proofs.TurtleLemmas Proofs.UriLemmas Proofs.UriParse Proofs.UriDots Proofs.UriJoin.
Open Scope N_scope.

(** ** paths without dot segments *)
Lemma dots_none_segs : forall l o, Forall no_slash l -> Forall (fun x => x <> s2l "." /\ x <> s2l "..") l -> dots_removed o (segs_text l) (o ++ segs_text l).
Proof.
  induction l as [|x l IH]; intros o N D.
  - cbn. rewrite app_nil_r. apply DrEnd.
  - inversion_clear N. inversion_clear D as [|? ? [D1 D2] D3]. change (segs_text (x :: l)) with (47 :: x ++ segs_text l).
    apply DrE; auto using segs_text_next. replace (o ++ 47 :: x ++ segs_text l) with ((o ++ 47 :: x) ++ segs_text l) by (now rewrite <- app_assoc). auto.
Qed.
Lemma dots_none : forall p, no_dot_segment p -> dots_removed [] p p.
Proof.
  intros p H. assert (E := split_slash_segs p). assert (NS := split_slash_no_slash p).
  assert (D : Forall (fun x => x <> s2l "." /\ x <> s2l "..") (split_slash p)).
  { apply Forall_forall. intros x X. apply in_split in X. destruct X as (l1 & l2 & X). rewrite X, segs_text_app in E.
    change (segs_text (x :: l2)) with (47 :: x ++ segs_text l2) in E. destruct l1 as [|y l1].
    - cbn in E. injection E as E. apply (H [] x (segs_text l2)); auto using segs_text_next.
    - change (segs_text (y :: l1)) with (47 :: y ++ segs_text l1) in E. injection E as E.
      apply (H ((y ++ segs_text l1) ++ [47]) x (segs_text l2)); auto using segs_text_next.
      + rewrite <- E. rewrite <- !app_assoc. reflexivity.
      + right. eexists. reflexivity. }
  destruct (split_slash p) as [|x l] eqn:S; [now apply split_slash_ne in S|].
  change (segs_text (x :: l)) with (47 :: x ++ segs_text l) in E. injection E as <-.
  inversion_clear NS. inversion_clear D as [|? ? [D1 D2] D3]. destruct x as [|c x].
  - apply (dots_none_segs l []); auto.
  - apply DrF; auto using segs_text_next; [discriminate|]. apply (dots_none_segs l (c :: x)); auto.
Qed.

(** ** urlparse of a legal text *)
Definition low_scheme (r : uri) (d : str) : str := match r_scheme r with Some s => map lower_char s | None => d end.
Lemma lower_id : forall s, lower_case s -> map lower_char s = s.
Proof.
  induction s as [|c s IH]; intros H; cbn; [reflexivity|]. inversion_clear H. rewrite IH by auto. f_equal.
  unfold lower_char, in_range. destruct (N.leb_spec 65 c), (N.leb_spec c 90); cbn; auto. lia.
Qed.
Lemma low_scheme_id : forall r s d, lower_scheme r -> r_scheme r = Some s -> low_scheme r d = s.
Proof. intros r s d H E. unfold low_scheme. rewrite E. apply lower_id, H, E. Qed.

Lemma mem_iff : forall s l, str_mem s l = true <-> In s l.
Proof. intros. unfold str_mem. destruct in_dec; split; congruence || auto. Qed.
Lemma relative_iff : forall s, s <> [] -> str_mem s uses_relative = true <-> In s relative_schemes.
Proof.
  intros s N. rewrite mem_iff. change uses_relative with ([] :: relative_schemes). split; [intros [X|X]; [congruence|exact X]|now right].
Qed.

(** the whole is put together again, but for an empty fragment *)
Lemma reassembled : forall R s a, uri_kept R -> r_auth R = Some a -> s <> [] -> str_mem s uses_netloc = true ->
  urlunparse (let pp := params_of (str_mem s uses_params) (r_path R) in mkParsed s a (fst pp) (snd pp) (oval (r_query R)) (oval (r_frag R)))
  = s ++ [58] ++ [47; 47] ++ a ++ r_path R ++ pre_opt [63] (r_query R) ++ opt_txt 35 (oval (r_frag R)).
Proof.
  intros R s a ((OK & _) & Q & E) A N1 N2. cbv zeta. rewrite urlunparse_net by auto.
  destruct (params_of (str_mem s uses_params) (r_path R)) as [p ps] eqn:PP. cbn [fst snd].
  destruct (params_spec _ _ _ _ PP E) as (d & x & -> & _ & _ & EP & _). rewrite <- app_assoc, <- EP.
  destruct OK as (_ & _ & _ & _ & _ & H & _). rewrite A in H. rewrite opt_txt_ne by auto.
  do 4 f_equal. f_equal. destruct H as [->|[q ->]]; [reflexivity|apply rooted_slash].
Qed.

Lemma text_frag : forall R, uri_text R = (match r_scheme R with Some s => s ++ [58] | None => [] end ++ pre_opt [47; 47] (r_auth R) ++ r_path R ++ pre_opt [63] (r_query R)) ++ pre_opt [35] (r_frag R).
Proof. intros. unfold uri_text, hier_text. now rewrite <- !app_assoc. Qed.
Lemma no_hash : forall R, uri_ok R ->
  ~ In 35 (match r_scheme R with Some s => s ++ [58] | None => [] end ++ pre_opt [47; 47] (r_auth R) ++ r_path R ++ pre_opt [63] (r_query R)).
Proof.
  intros R (S1 & S2 & S3 & S4 & _). rewrite !in_app_iff. intros X. destruct X as [X|[X|[X|X]]].
  - destruct (r_scheme R); [|destruct X]. apply in_app_or in X. destruct X as [X|[X|[]]]; [|discriminate]. now apply scheme_no_colon in S1.
  - destruct (r_auth R); cbn in X; [|destruct X]. destruct X as [X|[X|X]]; try discriminate. cbn in S2. rewrite Forall_forall in S2. apply S2 in X. tauto.
  - rewrite Forall_forall in S3. apply S3 in X. tauto.
  - destruct (r_query R); cbn in X; [|destruct X]. destruct X as [X|X]; try discriminate. cbn in S4. rewrite Forall_forall in S4. apply S4 in X. congruence.
Qed.
Lemma smart_same : forall uj base u, uj base u = Ok u -> smart_urljoin uj base u = Ok u.
Proof. intros uj base u E. unfold smart_urljoin. rewrite E. cbn. destruct (endswith_char u 35); reflexivity. Qed.

(** references with a scheme *)
Lemma join_absolute : forall bo nk B R s, uri_legal B -> lower_scheme B -> uri_kept R -> r_scheme R = Some s -> lower_case s ->
  uri_text B = [] \/ r_scheme B <> Some s \/ ~ In s relative_schemes \/ (exists c a, r_auth R = Some (c :: a)) ->
  smart_urljoin (urljoin bo nk) (uri_text B) (uri_text R) = Ok (uri_text R).
Proof.
  intros bo nk B R s (OB & VB & HB) LB KR SR LR C. assert (KR' := KR). destruct KR' as ((OR & VR & HR) & QR & ER).
  assert (NS : s <> []) by (destruct OR as (S1 & _); rewrite SR in S1; destruct S1 as (c & r & -> & _); discriminate).
  assert (NR : uri_text R <> []) by (unfold uri_text; rewrite SR; destruct s; [congruence|discriminate]).
  destruct (uri_text B) as [|b0 bs] eqn:TB; [apply smart_same; reflexivity|]. rewrite <- TB in *.
  assert (NB : uri_text B <> []) by (rewrite TB; discriminate).
  destruct C as [C|C]; [congruence|].
  assert (PB := urlparse_text bo nk B [] OB VB HB). assert (PR := urlparse_text bo nk R (low_scheme B []) OR VR HR).
  cbv zeta in PB, PR. fold (low_scheme B []) in PB. fold (low_scheme R (low_scheme B [])) in PR.
  assert (LS : low_scheme R (low_scheme B []) = s) by (apply low_scheme_id; auto; intros s' E; congruence). rewrite LS in PR.
  assert (J : urljoin bo nk (uri_text B) (uri_text R) =
     if negb (str_eqb s (low_scheme B [])) || negb (str_mem s uses_relative) then Ok (uri_text R)
     else if str_mem s uses_netloc && str_truthy (oval (r_auth R))
     then Ok (urlunparse (let pp := params_of (str_mem s uses_params) (r_path R) in mkParsed s (oval (r_auth R)) (fst pp) (snd pp) (oval (r_query R)) (oval (r_frag R))))
     else urljoin bo nk (uri_text B) (uri_text R)).
  { unfold urljoin. rewrite (truthy_ne _ NB), (truthy_ne _ NR). cbn [negb]. rewrite PB. cbn [bind u_scheme]. rewrite PR. cbn [bind u_scheme u_netloc].
    destruct (negb (str_eqb s (low_scheme B [])) || negb (str_mem s uses_relative)); [reflexivity|].
    destruct (str_mem s uses_netloc && str_truthy (oval (r_auth R))); reflexivity. }
  destruct (negb (str_eqb s (low_scheme B [])) || negb (str_mem s uses_relative)) eqn:E1; [now apply smart_same|].
  apply orb_false_iff in E1. destruct E1 as [E1 E2]. apply negb_false_iff in E1. apply negb_false_iff in E2.
  assert (IS : In s relative_schemes) by (now apply relative_iff).
  destruct C as [C|[C|(c & a & C)]].
  - exfalso. unfold str_eqb in E1. destruct str_eq_dec as [E|]; [|discriminate]. unfold low_scheme in E.
    destruct (r_scheme B) as [sb|] eqn:SB; [|congruence]. rewrite lower_id in E by (now apply LB). congruence.
  - contradiction.
  - destruct (relative_facts s IS) as (_ & _ & S2 & _). rewrite S2, C in J. cbn [oval str_truthy andb] in J.
    assert (RE := reassembled R s (c :: a) KR C NS S2). cbv zeta in RE, J. rewrite RE in J. clear RE.
    rewrite (text_frag R), SR, C in J |- *.
    apply smart_frag.
    + assert (X := no_hash R OR). now rewrite SR, C in X.
    + assert (X := no_hash R OR). now rewrite SR, C in X.
    + destruct OR as (_ & _ & _ & _ & F & _). exact F.
    + rewrite J. cbn [pre_opt]. now rewrite <- !app_assoc.
Qed.

(** references with an authority but no scheme *)
Lemma join_network : forall bo nk B R s c a, uri_legal B -> r_scheme B = Some s -> In s relative_schemes ->
  uri_kept R -> r_scheme R = None -> r_auth R = Some (c :: a) ->
  smart_urljoin (urljoin bo nk) (uri_text B) (uri_text R) = Ok (s ++ [58] ++ uri_text R).
Proof.
  intros bo nk B R s c a (OB & VB & HB) SB IS KR SR AR. assert (KR' := KR). destruct KR' as ((OR & VR & HR) & QR & ER).
  destruct (relative_facts s IS) as (S0 & S1 & S2 & S3 & S4).
  assert (NR : uri_text R <> []) by (unfold uri_text, hier_text; rewrite SR, AR; discriminate).
  assert (NB : uri_text B <> []) by (unfold uri_text; rewrite SB; destruct s; [congruence|discriminate]).
  assert (PB := urlparse_text bo nk B [] OB VB HB). assert (PR := urlparse_text bo nk R s OR VR HR).
  cbv zeta in PB, PR. rewrite SB, S3 in PB. rewrite SR in PR.
  assert (J : urljoin bo nk (uri_text B) (uri_text R) =
    Ok (urlunparse (let pp := params_of (str_mem s uses_params) (r_path R) in mkParsed s (oval (r_auth R)) (fst pp) (snd pp) (oval (r_query R)) (oval (r_frag R))))).
  { unfold urljoin. rewrite (truthy_ne _ NB), (truthy_ne _ NR). cbn [negb]. rewrite PB. cbn [bind u_scheme]. rewrite PR. cbn [bind u_scheme u_netloc].
    rewrite str_eqb_refl, S1, S2, AR. reflexivity. }
  assert (RE := reassembled R s (c :: a) KR AR S0 S2). rewrite AR in J. cbv zeta in RE, J. cbn [oval] in J. rewrite RE in J. clear RE.
  assert (NH := no_hash R OR). assert (TF := text_frag R). rewrite SR, AR in NH, TF. rewrite app_nil_l in NH, TF.
  set (h := pre_opt [47; 47] (Some (c :: a)) ++ r_path R ++ pre_opt [63] (r_query R)) in *.
  rewrite TF in J |- *. rewrite (app_assoc [58]), app_assoc. apply smart_frag.
  - exact NH.
  - rewrite in_app_iff. intros [X|[X|X]]; [exact (S4 X)|discriminate|exact (NH X)].
  - destruct OR as (_ & _ & _ & _ & F & _). exact F.
  - rewrite J. subst h. cbn [pre_opt]. now rewrite <- !app_assoc.
Qed.

(** ** "<" *)
Section NoChar.
Variable k60 : char.
Hypothesis K60 : k60 = 60 \/ 128 <= k60.
Notation nolt s := (~ In k60 s).
Ltac kd := first [discriminate | destruct K60; lia].
Lemma nolt_incl : forall a b : str, incl a b -> nolt b -> nolt a.
Proof. intros a b I N X. apply N, I, X. Qed.
Lemma nolt_app : forall a b : str, nolt (a ++ b) <-> nolt a /\ nolt b.
Proof. intros. rewrite in_app_iff. tauto. Qed.
Lemma lstrip_incl : forall s, incl (lstrip_c0 s) s.
Proof. induction s as [|c r IH]; cbn; [apply incl_refl|]. destruct (c <=? 32); [apply incl_tl, IH|apply incl_refl]. Qed.
Lemma partition_incl : forall s c a b d, partition s c = (a, b, d) -> incl a s /\ incl d s.
Proof.
  intros s c a b d H. apply partition_spec in H. destruct H as [_ [[_ ->]|(_ & -> & ->)]].
  - split; intros x X; apply in_or_app; [now left|right; now right].
  - split; [apply incl_refl|intros x []].
Qed.
Lemma netloc_incl : forall s a b, split_netloc s = (a, b) -> incl a s /\ incl b s.
Proof.
  induction s as [|c r IH]; intros a b H; cbn in H; [injection H as <- <-; split; apply incl_refl|].
  destruct ((c =? 47) || (c =? 63) || (c =? 35)); [injection H as <- <-; split; [intros x []|apply incl_refl]|].
  destruct (split_netloc r) as [a' b'] eqn:E. injection H as <- <-. destruct (IH _ _ eq_refl) as [A B]. split.
  - intros x [->|X]; [now left|right; auto].
  - apply incl_tl, B.
Qed.
Lemma params_incl : forall b u p ps, params_of b u = (p, ps) -> incl p u /\ incl ps u.
Proof.
  intros b u p ps H. unfold params_of in H. destruct (b && str_in_char 59 u); [|injection H as <- <-; split; [apply incl_refl|intros x []]].
  unfold split_params in H. destruct (last_slash u) as [d l] eqn:E. apply last_slash_spec in E. destruct E as (-> & _).
  destruct (partition l 59) as [[a f] q] eqn:P. apply partition_incl in P. destruct P as [A B]. destruct f; injection H as <- <-.
  - split; [apply incl_app; [apply incl_appl, incl_refl|apply incl_appr, A]|apply incl_appr, B].
  - split; [apply incl_refl|intros x []].
Qed.
Lemma lower_nolt : forall s, nolt s -> nolt (map lower_char s).
Proof.
  intros s N X. apply in_map_iff in X. destruct X as (c & E & X). unfold lower_char, in_range in E.
  destruct (N.leb_spec 65 c), (N.leb_spec c 90); cbn in E; try (subst; contradiction). lia.
Qed.
Definition nolt_parsed (u : parsed) : Prop := nolt (u_scheme u) /\ nolt (u_netloc u) /\ nolt (u_path u) /\ nolt (u_params u) /\ nolt (u_query u) /\ nolt (u_fragment u).
Lemma urlparse_nolt : forall bo nk s d u, urlparse bo nk s d = Ok u -> nolt s -> nolt d -> nolt_parsed u.
Proof.
  intros bo nk s d u H N D. unfold urlparse in H.
  assert (N1 : nolt (filter safe_char (lstrip_c0 s))) by (intros X; apply filter_In in X; destruct X as [X _]; apply lstrip_incl in X; contradiction).
  set (s1 := filter safe_char (lstrip_c0 s)) in *. clearbody s1.
  destruct (split_scheme s1 d) as [sc s2] eqn:E2.
  assert (N2 : nolt sc /\ nolt s2).
  { unfold split_scheme in E2. destruct (partition s1 58) as [[a f] r] eqn:P. apply partition_incl in P. destruct P as [A B].
    destruct f; [|injection E2 as <- <-; auto]. destruct a as [|c a]; [injection E2 as <- <-; auto|].
    destruct (ascii_letter c && forallb scheme_char (c :: a)); injection E2 as <- <-; auto.
    split; [apply (lower_nolt (c :: a)); eapply nolt_incl; eauto|eapply nolt_incl; eauto]. }
  destruct (if startswith s2 [47; 47] then split_netloc (skipn 2 s2) else ([], s2)) as [nl s3] eqn:E3.
  assert (N3 : nolt nl /\ nolt s3).
  { destruct (startswith s2 [47; 47]).
    - apply netloc_incl in E3. destruct E3 as [A B]. assert (N2' : nolt (skipn 2 s2)).
      { intros X. apply (proj2 N2). rewrite <- (firstn_skipn 2 s2). apply in_or_app. now right. }
      split; eapply nolt_incl; eauto.
    - injection E3 as <- <-. split; [intros []|apply N2]. }
  destruct (check_netloc bo nk nl); [|discriminate].
  destruct (partition s3 35) as [[s4 f4] fr] eqn:E4. apply partition_incl in E4. destruct E4 as [A4 B4].
  destruct (partition s4 63) as [[s5 f5] qu] eqn:E5. apply partition_incl in E5. destruct E5 as [A5 B5].
  fold (params_of (str_mem sc uses_params) s5) in H. destruct (params_of (str_mem sc uses_params) s5) as [p ps] eqn:E6. apply params_incl in E6. destruct E6 as [A6 B6].
  injection H as <-. unfold nolt_parsed. cbn.
  assert (N5 : nolt s5) by (eapply nolt_incl; [|apply N3]; eapply incl_tran; eauto).
  repeat split; try tauto.
  - eapply nolt_incl; eauto.
  - eapply nolt_incl; eauto.
  - eapply nolt_incl; [|apply N3]. eapply incl_tran; eauto.
  - eapply nolt_incl; [|apply N3]. eauto.
Qed.
Lemma opt_txt_nolt : forall c q, c <> k60 -> nolt q -> nolt (opt_txt c q).
Proof. intros c [|x q] C N; cbn; [intros []|]. intros [X|X]; [congruence|exact (N X)]. Qed.
Lemma urlunparse_nolt : forall u, nolt_parsed u -> nolt (urlunparse u).
Proof.
  intros [sc nl p ps q f] (A & B & C & D & E & F). cbn in *. unfold urlunparse. cbn [u_scheme u_netloc u_path u_params u_query u_fragment].
  fold (opt_txt 59 ps). fold (opt_txt 63 q). fold (opt_txt 35 f).
  assert (P : nolt (p ++ opt_txt 59 ps)) by (apply nolt_app; split; auto; apply opt_txt_nolt; auto; kd).
  set (url := p ++ opt_txt 59 ps) in *. clearbody url.
  rewrite !nolt_app. repeat split.
  - destruct (str_truthy sc); [|intros []]. apply nolt_app. split; auto. intros [X|[]]. kd.
  - destruct (_ || _); auto. cbn [app]. intros [X|[X|X]]; try kd. apply in_app_or in X. destruct X as [X|X]; [auto|].
    destruct (_ && _); [destruct X as [X|X]; [kd|]|]; auto.
  - apply opt_txt_nolt; auto. kd.
  - apply opt_txt_nolt; auto. kd.
Qed.
Lemma segs_nolt : forall l, Forall (fun s => nolt s) l -> nolt (segs_text l).
Proof. induction l as [|x l IH]; intros H; [intros []|]. inversion_clear H. cbn. intros [X|X]; [kd|]. apply in_app_or in X. destruct X; [auto|apply IH in H1; auto]. Qed.
Lemma split_nolt : forall s, nolt s -> Forall (fun x => nolt x) (split_slash s).
Proof.
  induction s as [|c r IH]; intros N; cbn; [repeat constructor; intros []|].
  assert (IH' : Forall (fun x => nolt x) (split_slash r)) by (apply IH; intros X; apply N; now right).
  destruct (c =? 47); [constructor; [intros []|auto]|]. destruct (split_slash r); [repeat constructor; intros [X|[]]; apply N; now left|].
  inversion_clear IH'. constructor; auto. intros [X|X]; [apply N; now left|auto].
Qed.
Lemma path_nolt : forall bp p, nolt bp -> nolt p -> nolt (resolved_path (join_segments bp p)).
Proof.
  intros bp p NB NP.
  assert (J : Forall (fun x => nolt x) (join_segments bp p)).
  { unfold join_segments. apply split_nolt in NB. apply split_nolt in NP. destruct (startswith p [47]); [auto|].
    assert (Q : Forall (fun x => nolt x) (base_parts bp ++ split_slash p)).
    { apply Forall_app. split; auto. unfold base_parts. destruct (str_truthy _); auto using Forall_removelast. }
    unfold filter_inner. destruct (base_parts bp ++ split_slash p) as [|x [|y r]]; auto. inversion_clear Q. constructor; auto.
    apply Forall_app. split.
    - apply Forall_forall. intros z Z. apply filter_In in Z. destruct Z as [Z _].
      assert (W := Forall_removelast _ _ H0). rewrite Forall_forall in W. apply W, Z.
    - constructor; [|constructor]. rewrite Forall_forall in H0. apply H0.
      assert (L : y :: r = removelast (y :: r) ++ [last (y :: r) []]) by (apply app_removelast_last; kd).
      rewrite L at 2. apply in_or_app. right. now left. }
  unfold resolved_path. cbv zeta.
  assert (L : Forall (fun x => nolt x) (if seg_dot (last (join_segments bp p) []) || seg_dots (last (join_segments bp p) []) then resolve [] (join_segments bp p) ++ [[]] else resolve [] (join_segments bp p))).
  { assert (R : Forall (fun x => nolt x) (resolve [] (join_segments bp p))) by (apply resolve_all; auto).
    destruct (_ || _); auto. apply Forall_app. split; auto. }
  set (l := if seg_dot _ || _ then _ else _) in *. clearbody l. destruct (join_slash l) as [|c q] eqn:E; [intros [X|[]]; kd|].
  destruct l as [|x l]; [kd|]. apply segs_nolt in L. rewrite join_segs in L by kd. rewrite E in L. intros X. apply L. now right.
Qed.
Lemma urljoin_nochar : forall bo nk b u j, nolt b -> nolt u -> urljoin bo nk b u = Ok j -> nolt j.
Proof.
  intros bo nk b u j NB NU H. unfold urljoin in H. destruct (str_truthy b); cbn [negb] in H; [|injection H as <-; auto].
  destruct (str_truthy u); cbn [negb] in H; [|injection H as <-; auto].
  apply bind_ok in H. destruct H as (pb & E1 & H). apply bind_ok in H. destruct H as (pu & E2 & H).
  assert (B := urlparse_nolt _ _ _ _ _ E1 NB ltac:(intros [])). assert (U := urlparse_nolt _ _ _ _ _ E2 NU (proj1 B)).
  destruct B as (B1 & B2 & B3 & B4 & B5 & B6). assert (U' := U). destruct U' as (U1 & U2 & U3 & U4 & U5 & U6).
  destruct (_ || _); [injection H as <-; auto|]. destruct (_ && _); [injection H as <-; now apply urlunparse_nolt|].
  destruct (_ && _); injection H as <-; apply urlunparse_nolt; unfold nolt_parsed; cbn [u_scheme u_netloc u_path u_params u_query u_fragment].
  - repeat split; auto; [destruct (str_mem (u_scheme pu) uses_netloc); auto|destruct (str_truthy (u_query pu)); auto].
  - repeat split; auto; [destruct (str_mem (u_scheme pu) uses_netloc); auto|now apply path_nolt].
Qed.
End NoChar.
Lemma urljoin_clean : forall bo nk, uj_clean (urljoin bo nk).
Proof. intros bo nk b u j. apply urljoin_nochar. now left. Qed.
