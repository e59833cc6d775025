(** urljoin follows RFC 3986. *)
From Verif Require Import Model.Py Model.Codec Model.UrlJoin Model.Turtle Spec.TurtleSpec Spec.UriSpec Proofs.CurieLemmas Proofs.TurtleLemmas Proofs.UriLemmas Proofs.UriParse Proofs.UriDots.
Open Scope N_scope.

(** ** splitting paths *)
Lemma split_slash_ne : forall s, split_slash s <> [].
Proof. induction s as [|c r IH]; cbn; [discriminate|]. destruct (c =? 47); [discriminate|]. destruct (split_slash r); discriminate. Qed.
Lemma split_slash_app : forall a b, split_slash (a ++ 47 :: b) = split_slash a ++ split_slash b.
Proof.
  induction a as [|c a IH]; intros b; cbn; [reflexivity|]. rewrite IH. destruct (c =? 47); [reflexivity|].
  assert (N := split_slash_ne a). destruct (split_slash a); [congruence|reflexivity].
Qed.
Lemma split_slash_one : forall s, no_slash s -> split_slash s = [s].
Proof.
  induction s as [|c r IH]; intros H; cbn; [reflexivity|]. destruct (N.eqb_spec c 47); [exfalso; apply H; now left|].
  rewrite IH; [reflexivity|]. intros X. apply H. now right.
Qed.
Lemma split_slash_segs : forall p, segs_text (split_slash p) = 47 :: p.
Proof.
  induction p as [|c r IH]; cbn [split_slash]; [reflexivity|]. destruct (N.eqb_spec c 47).
  - subst. change (segs_text ([] :: split_slash r)) with ([47] ++ segs_text (split_slash r)). rewrite IH. reflexivity.
  - destruct (split_slash r) as [|x l]; [now apply (f_equal (@length _)) in IH|]. unfold segs_text in *. cbn in *. congruence.
Qed.
Lemma split_slash_no_slash : forall p, Forall no_slash (split_slash p).
Proof.
  induction p as [|c r IH]; cbn; [repeat constructor; intros []|]. destruct (N.eqb_spec c 47).
  - constructor; [intros []|exact IH].
  - destruct (split_slash r); [repeat constructor; intros [X|[]]; auto|]. inversion_clear IH. constructor; auto. intros [X|X]; auto.
Qed.
Lemma dir_segs : forall d, d = [] \/ ends_with d [47] ->
  exists l, Forall no_slash l /\ (forall a, no_slash a -> split_slash (d ++ a) = l ++ [a]) /\
    (forall t, segs_text l ++ 47 :: t = 47 :: d ++ t) /\ (no_empty_segment (47 :: d) -> Forall (fun x => x <> []) l).
Proof.
  assert (K : forall d l, (forall t, segs_text l ++ 47 :: t = 47 :: d ++ t) -> no_empty_segment (47 :: d) -> Forall (fun x => x <> []) l).
  { intros d l H N. apply Forall_forall. intros x X ->. apply in_split in X. destruct X as (l1 & l2 & ->). apply N.
    specialize (H []). rewrite app_nil_r in H. rewrite segs_text_app in H.
    change (segs_text ([] :: l2)) with (47 :: segs_text l2) in H. rewrite <- H, <- app_assoc. cbn.
    destruct l2 as [|y l2]; [exists (segs_text l1), []; reflexivity|].
    exists (segs_text l1). unfold segs_text. cbn. eauto. }
  intros d [->|[x ->]].
  - exists []. split; [constructor|]. split; [intros a H; cbn; now apply split_slash_one|]. split; [reflexivity|intros _; constructor].
  - exists (split_slash x). assert (E : forall t, segs_text (split_slash x) ++ 47 :: t = 47 :: (x ++ [47]) ++ t).
    { intros t. rewrite split_slash_segs, <- app_assoc. reflexivity. }
    split; [apply split_slash_no_slash|]. split; [|split; [exact E|apply K, E]].
    intros a H. rewrite <- app_assoc. cbn. rewrite split_slash_app, (split_slash_one a H). reflexivity.
Qed.

(** ** one joined path *)
Lemma path_step : forall l a ps, Forall no_slash l -> Forall (fun x => x <> []) l -> no_slash a -> no_slash ps ->
  (ps <> [] -> a <> s2l "." /\ a <> s2l "..") ->
  dots_removed [] (segs_text l ++ 47 :: a ++ opt_txt 59 ps) (rooted (resolved_path ([] :: l ++ [a]) ++ opt_txt 59 ps)).
Proof.
  intros l a ps Nl El Na Np D. destruct (resolved_rooted l a (opt_txt 59 ps) El Nl Na) as [_ ->].
  assert (Ns : no_slash (a ++ opt_txt 59 ps)).
  { intros X. apply in_app_or in X. destruct X as [X|X]; [auto|]. unfold opt_txt in X. destruct ps; cbn in X; [contradiction|].
    destruct X as [X|X]; [discriminate|]. apply Np, X. }
  replace (segs_text l ++ 47 :: a ++ opt_txt 59 ps) with (segs_text (l ++ [a ++ opt_txt 59 ps])) by (now rewrite segs_text_app, segs_text1).
  replace (segs_text (last_step (resolve [] l) a) ++ opt_txt 59 ps) with (segs_text (last_step (resolve [] l) (a ++ opt_txt 59 ps))).
  - apply (dots_segs l []); auto.
  - destruct ps as [|c ps]; [unfold opt_txt; cbn; now rewrite !app_nil_r|]. destruct D as [D1 D2]; [discriminate|].
    assert (Z : forall t, a <> s2l "." -> a <> s2l ".." -> t = [] \/ (exists r, t = 59 :: r) -> last_step (resolve [] l) (a ++ t) = resolve [] l ++ [a ++ t]).
    { intros t A1 A2 T. unfold last_step.
      replace (seg_dots (a ++ t)) with false.
      - replace (seg_dot (a ++ t)) with false; [reflexivity|]. symmetry. apply seg_dot_f. intros E.
        destruct T as [->|[r ->]]; [rewrite app_nil_r in E; auto|].
        destruct a as [|x [|y a]]; cbn in E; try discriminate.
      - symmetry. apply seg_dots_f. intros E. destruct T as [->|[r ->]]; [rewrite app_nil_r in E; auto|].
        destruct a as [|x [|y [|z a]]]; cbn in E; try discriminate. }
    rewrite Z by (auto; right; unfold opt_txt; cbn; eauto).
    assert (Z0 := Z []). rewrite app_nil_r in Z0. rewrite Z0 by auto.
    rewrite !segs_text_app, !segs_text1, <- app_assoc. reflexivity.
Qed.
Lemma filter_inner_root : forall m x, filter_inner ([] :: m ++ [x]) = [] :: filter str_truthy m ++ [x].
Proof.
  intros m x. unfold filter_inner. destruct (m ++ [x]) as [|y r] eqn:E; [destruct m; discriminate|].
  rewrite <- E, removelast_last, last_last. reflexivity.
Qed.
Lemma filter_full : forall l, Forall (fun x : str => x <> []) l -> filter str_truthy l = l.
Proof. induction l as [|x l IH]; intros H; cbn; [reflexivity|]. inversion_clear H. destruct x; [congruence|]. cbn. now rewrite IH. Qed.
Lemma base_segs : forall lb aB, Forall (fun x => x <> []) lb ->
  forall bp, split_slash bp = [] :: lb ++ [aB] -> forall l a, Forall (fun x => x <> []) l ->
  filter_inner (base_parts bp ++ l ++ [a]) = [] :: (lb ++ l) ++ [a].
Proof.
  intros lb aB Hb bp E l a Hl. unfold base_parts. rewrite E. change ([] :: lb ++ [aB]) with (([] :: lb) ++ [aB]).
  rewrite last_last, removelast_last. destruct aB as [|c aB]; cbn [str_truthy].
  - rewrite <- app_assoc. cbn [app]. replace (lb ++ [] :: l ++ [a]) with ((lb ++ [] :: l) ++ [a]) by (now rewrite <- app_assoc).
    rewrite filter_inner_root, filter_app. cbn. now rewrite !filter_full.
  - cbn [app]. rewrite app_assoc, filter_inner_root, filter_full; [reflexivity|]. apply Forall_app; auto.
Qed.

(** ** the schemes *)
Lemma relative_facts : forall s, In s relative_schemes ->
  s <> [] /\ str_mem s uses_relative = true /\ str_mem s uses_netloc = true /\ map lower_char s = s /\ ~ In 35 s.
Proof.
  assert (H : forallb (fun s => str_truthy s && str_mem s uses_relative && str_mem s uses_netloc && str_eqb (map lower_char s) s && negb (str_in_char 35 s)) relative_schemes = true)
    by (vm_compute; reflexivity).
  intros s I. rewrite forallb_forall in H. specialize (H s I). rewrite !andb_true_iff in H. destruct H as [[[[A B] C] D] E].
  repeat split; auto.
  - intros ->. discriminate.
  - unfold str_eqb in D. destruct str_eq_dec; [auto|discriminate].
  - intros X. apply in_char in X. rewrite X in E. discriminate.
Qed.

(** ** fragments *)
Lemma smart_frag : forall uj base U f X, ~ In 35 U -> ~ In 35 X -> opt_all (fun c => c <> 35) f ->
  uj base (U ++ pre_opt [35] f) = Ok (X ++ opt_txt 35 (oval f)) ->
  smart_urljoin uj base (U ++ pre_opt [35] f) = Ok (X ++ pre_opt [35] f).
Proof.
  intros uj base U f X NU NX HF E. unfold smart_urljoin. rewrite E. cbn [bind]. f_equal.
  assert (F : forall s, ~ In 35 s -> endswith_char s 35 = false).
  { intros s N. apply not_true_is_false. intros H. apply ends_app in H. destruct H as [r ->]. apply N, in_or_app. right. now left. }
  destruct f as [[|c f]|]; cbn [pre_opt oval opt_txt str_truthy app].
  - change (opt_txt 35 []) with (@nil N). rewrite app_nil_r, (F X NX).
    assert (Z : endswith_char (U ++ [35]) 35 = true) by (apply ends_app; eauto). rewrite Z. reflexivity.
  - change (opt_txt 35 (c :: f)) with (35 :: c :: f).
    assert (Z : endswith_char (U ++ 35 :: c :: f) 35 = false).
    { apply not_true_is_false. intros H. apply ends_app in H. destruct H as [r H]. cbn in HF. rewrite Forall_forall in HF.
      assert (I : In 35 (c :: f)).
      { destruct (c :: f) as [|y l] eqn:G using rev_ind; [discriminate|]. clear IHl.
        change (U ++ 35 :: l ++ [y]) with (U ++ (35 :: l) ++ [y]) in H. rewrite app_assoc in H. apply app_inj_tail in H.
        destruct H as [_ ->]. apply in_or_app. right. now left. }
      apply HF in I. congruence. }
    rewrite Z. reflexivity.
  - change (opt_txt 35 []) with (@nil N). rewrite !app_nil_r, (F U NU). reflexivity.
Qed.
Lemma dots_incl : forall o i t, dots_removed o i t -> incl t (o ++ i).
Proof.
  intros o i t H. induction H; intros x X; try (apply IHdots_removed in X); rewrite ?in_app_iff in *; cbn in *; rewrite ?in_app_iff in *; try tauto.
  - destruct H; rewrite ?in_app_iff in *; cbn in *; tauto.
  - destruct H; rewrite ?in_app_iff in *; cbn in *; tauto.
Qed.
Lemma opt_txt_ne : forall c o, o <> Some [] -> opt_txt c (oval o) = pre_opt [c] o.
Proof. intros c [[|x o]|] H; try reflexivity. congruence. Qed.

Lemma str_eqb_refl : forall s, str_eqb s s = true.
Proof. intros. unfold str_eqb. destruct str_eq_dec; congruence. Qed.
Lemma truthy_ne : forall s, s <> [] -> str_truthy s = true.
Proof. now intros [|c s]. Qed.

(** what urljoin does with a reference that has neither scheme nor authority *)
Lemma urljoin_relative : forall bo nk B R s a, uri_ok B -> visible (uri_text B) -> r_scheme B = Some s -> In s relative_schemes ->
  r_auth B = Some a -> plain_host a ->
  uri_ok R -> visible (uri_text R) -> r_scheme R = None -> r_auth R = None -> uri_text R <> [] ->
  let bp := params_of (str_mem s uses_params) (r_path B) in
  let rp := params_of (str_mem s uses_params) (r_path R) in
  urljoin bo nk (uri_text B) (uri_text R) =
  Ok (s ++ [58] ++ [47; 47] ++ a ++
      if negb (str_truthy (fst rp)) && negb (str_truthy (snd rp))
      then rooted (fst bp ++ opt_txt 59 (snd bp)) ++ opt_txt 63 (if str_truthy (oval (r_query R)) then oval (r_query R) else oval (r_query B)) ++ opt_txt 35 (oval (r_frag R))
      else rooted (resolved_path (join_segments (fst bp) (fst rp)) ++ opt_txt 59 (snd rp)) ++ opt_txt 63 (oval (r_query R)) ++ opt_txt 35 (oval (r_frag R))).
Proof.
  intros bo nk B R s a OB VB SB IS AB PH OR VR SR AR NE bp rp.
  destruct (relative_facts s IS) as (S0 & S1 & S2 & S3 & S4).
  assert (NB : uri_text B <> []) by (unfold uri_text; rewrite SB; destruct s; [congruence|discriminate]).
  unfold urljoin. rewrite (truthy_ne _ NB), (truthy_ne _ NE). cbn [negb].
  rewrite (urlparse_text bo nk B []) by (auto; rewrite AB; intros ? X; injection X as <-; auto).
  cbn [bind]. cbv zeta. rewrite SB, AB. rewrite S3. cbn [u_scheme].
  rewrite (urlparse_text bo nk R s) by (auto; rewrite AR; discriminate).
  cbn [bind]. cbv zeta. rewrite SR, AR. cbn [u_scheme u_netloc u_path u_params u_query u_fragment oval].
  rewrite str_eqb_refl, S1, S2. cbn [negb orb andb str_truthy].
  fold bp. fold rp. destruct (negb (str_truthy (fst rp)) && negb (str_truthy (snd rp))); rewrite urlunparse_net by auto; reflexivity.
Qed.

Lemma join_relative : forall bo nk B R, base_ok B -> ref_ok B R ->
  exists T, target B R T /\ smart_urljoin (urljoin bo nk) (uri_text B) (uri_text R) = Ok (uri_text T).
Proof.
  intros bo nk B R (OB & VB & (s & SB & IS) & (a & AB & PH) & EB & PB & QB) (OR & VR & SR & AR & ER & PR & QR & Z).
  destruct (relative_facts s IS) as (S0 & S1 & S2 & S3 & S4).
  assert (OB' := OB). destruct OB' as (_ & BA & BP & BQ & BF & BH & _). rewrite AB in BA, BH. cbn in BA.
  assert (OR' := OR). destruct OR' as (_ & _ & RP & RQ & RF & _ & _).
  destruct (uri_text R) as [|u0 u] eqn:UR.
  { (* the empty reference *)
    specialize (Z eq_refl). unfold uri_text, hier_text in UR. rewrite SR, AR in UR. cbn in UR.
    apply app_eq_nil in UR. destruct UR as [P UR]. apply app_eq_nil in UR. destruct UR as [Q F].
    assert (QN : r_query R = None) by (destruct (r_query R); [discriminate|reflexivity]).
    assert (FN : r_frag R = None) by (destruct (r_frag R); [discriminate|reflexivity]).
    eexists. split; [apply TgEmpty; auto|]. unfold smart_urljoin, urljoin.
    assert (NB : uri_text B <> []) by (unfold uri_text; rewrite SB; destruct s; [congruence|discriminate]).
    rewrite (truthy_ne _ NB). cbn [negb str_truthy bind endswith_char andb]. f_equal.
    unfold uri_text, hier_text. cbn [r_scheme r_auth r_path r_query r_frag]. now rewrite QN, FN, Z. }
  rewrite <- UR in VR. assert (NE : uri_text R <> []) by (rewrite UR; discriminate). rewrite <- UR. clear u0 u UR Z.
  assert (J := urljoin_relative bo nk B R s a OB VB SB IS AB PH OR VR SR AR NE). cbv zeta in J.
  set (bp := params_of (str_mem s uses_params) (r_path B)) in *.
  set (rp := params_of (str_mem s uses_params) (r_path R)) in *.
  assert (TR : uri_text R = (r_path R ++ pre_opt [63] (r_query R)) ++ pre_opt [35] (r_frag R)).
  { unfold uri_text, hier_text. rewrite SR, AR. cbn [pre_opt app]. now rewrite app_assoc. }
  assert (N35 : forall o, opt_all (fun c => c <> 35) o -> ~ In 35 (pre_opt [63] o)).
  { intros [o|] H; cbn; [|intros []]. intros [X|X]; [discriminate|]. cbn in H. rewrite Forall_forall in H. apply H in X. congruence. }
  assert (P35 : forall p, Forall (fun c => c <> 63 /\ c <> 35) p -> ~ In 35 p).
  { intros p H X. rewrite Forall_forall in H. apply H in X. tauto. }
  assert (NU : ~ In 35 (r_path R ++ pre_opt [63] (r_query R))).
  { intros X. apply in_app_or in X. destruct X as [X|X]; [now apply P35 in X|]. now apply N35 in X. }
  (* enough: the text before the fragment *)
  assert (FIN : forall p q, (forall c, In c p -> c <> 35) -> opt_all (fun c => c <> 35) q -> 
     urljoin bo nk (uri_text B) (uri_text R) = Ok (s ++ [58] ++ [47; 47] ++ a ++ p ++ pre_opt [63] q ++ opt_txt 35 (oval (r_frag R))) ->
     smart_urljoin (urljoin bo nk) (uri_text B) (uri_text R) = Ok (uri_text (mkUri (r_scheme B) (r_auth B) p q (r_frag R)))).
  { intros p q Hp Hq E. rewrite TR in *.
    rewrite (smart_frag (urljoin bo nk) (uri_text B) _ (r_frag R) (s ++ [58] ++ [47; 47] ++ a ++ p ++ pre_opt [63] q)); auto.
    - unfold uri_text, hier_text. cbn [r_scheme r_auth r_path r_query r_frag]. rewrite SB, AB. cbn [pre_opt]. now rewrite <- !app_assoc.
    - rewrite !in_app_iff. intros X. destruct X as [X|[X|[X|[X|[X|X]]]]]; auto.
      + destruct X as [X|[]]; discriminate.
      + destruct X as [X|[X|[]]]; discriminate.
      + rewrite Forall_forall in BA. apply BA in X. tauto.
      + apply Hp in X. congruence.
      + now apply N35 in X.
    - rewrite E. now rewrite <- !app_assoc. }
  destruct rp as [p ps] eqn:ERP. subst rp. destruct (params_spec _ _ _ _ ERP (proj1 PR)) as (d & x & Ep & Nx & Dd & EPR & Nps).
  destruct bp as [p' ps'] eqn:EBP. subst bp. destruct (params_spec _ _ _ _ EBP (proj1 PB)) as (d' & x' & Ep' & Nx' & Dd' & EPB & Nps').
  cbn [fst snd] in J.
  assert (NDOT : ps <> [] -> x <> s2l "." /\ x <> s2l "..").
  { intros H. apply (proj2 PR d x ps); auto. rewrite EPR. destruct ps; [congruence|reflexivity]. }
  assert (TXT : forall m t, dots_removed [] m t -> (forall c, In c m -> c <> 35) -> forall c, In c t -> c <> 35).
  { intros m t H K c I. apply dots_incl in H. apply H in I. cbn in I. auto. }
  assert (QRT : opt_txt 63 (oval (r_query R)) = pre_opt [63] (r_query R)) by (now apply opt_txt_ne).
  destruct (r_path R) as [|c0 rest] eqn:PTH.
  - (* empty path *)
    rewrite params_nil in ERP. injection ERP as <- <-. cbn [str_truthy negb andb] in J.
    eexists. split; [apply TgEmpty; auto|]. apply FIN.
    + intros c I. rewrite Forall_forall in BP. apply BP in I. tauto.
    + destruct (r_query R); auto.
    + rewrite J. do 6 f_equal.
      * rewrite Ep', <- app_assoc, <- EPB. destruct BH as [->|[q ->]]; [reflexivity|apply rooted_slash].
      * f_equal. destruct (r_query R) as [[|q0 q]|]; [congruence|reflexivity|]. cbn [oval str_truthy]. now apply opt_txt_ne.
  - rewrite <- PTH in *.
    assert (TRUE : negb (str_truthy p) && negb (str_truthy ps) = false).
    { destruct p; [|reflexivity]. destruct ps; [|reflexivity]. exfalso. symmetry in Ep. apply app_eq_nil in Ep. destruct Ep as [-> ->].
      cbn in EPR. congruence. }
    rewrite TRUE in J. rewrite QRT in J.
    destruct (N.eqb_spec c0 47).
    + (* rooted *)
      subst c0.
      assert (D : exists d0, d = 47 :: d0 /\ (d0 = [] \/ ends_with d0 [47])).
      { destruct d as [|z d0].
        - exfalso. cbn in EPR. destruct x as [|y x]; cbn in EPR.
          + unfold opt_txt in EPR. destruct ps; cbn in EPR; congruence.
          + rewrite PTH in EPR. injection EPR as E _. apply Nx. left. congruence.
        - cbn in EPR. rewrite PTH in EPR. injection EPR as <- E. exists d0. split; auto. destruct Dd as [Dd|[y Dd]]; [discriminate|].
          destruct y as [|y0 y]; cbn in Dd; [injection Dd as E1; left; auto|injection Dd as E1 E2; right; exists y; auto]. }
      destruct D as (d0 & -> & Dd0). destruct (dir_segs d0 Dd0) as (l & L1 & L2 & L3 & L4).
      assert (El : Forall (fun x => x <> []) l).
      { apply L4. intros (x1 & y1 & E). apply ER. exists x1, (y1 ++ x ++ opt_txt 59 ps). rewrite EPR, E, <- app_assoc. reflexivity. }
      assert (JS : join_segments p' p = [] :: l ++ [x]).
      { unfold join_segments. rewrite Ep. cbn [app]. rewrite sw_slash, N.eqb_refl. change (split_slash (47 :: d0 ++ x)) with ([] :: split_slash (d0 ++ x)).
        now rewrite L2. }
      assert (DR := path_step l x ps L1 El Nx Nps NDOT). rewrite L3 in DR.
      replace (47 :: d0 ++ x ++ opt_txt 59 ps) with (r_path R) in DR.
      rewrite JS in J. eexists. split; [eapply TgRoot; eauto|]. apply FIN; auto.
      eapply TXT; [exact DR|]. intros c I. rewrite Forall_forall in RP. apply RP in I. tauto.
    + (* relative *)
      assert (SW : startswith p [47] = false).
      { rewrite Ep. destruct d as [|z d0].
        - destruct x as [|y x]; [reflexivity|]. cbn [app]. rewrite sw_slash. apply N.eqb_neq. intros <-. apply Nx. now left.
        - cbn [app] in *. rewrite sw_slash. rewrite PTH in EPR. injection EPR as <- _. apply N.eqb_neq. auto. }
      destruct (dir_segs d Dd) as (l & L1 & L2 & L3 & L4).
      assert (El : Forall (fun x => x <> []) l).
      { apply L4. intros (x1 & y1 & E). destruct x1 as [|z x1].
        - cbn in E. injection E as E. rewrite EPR, E in PTH. cbn in PTH. injection PTH as <- _. contradiction.
        - cbn in E. injection E as <- E. apply ER. exists x1, (y1 ++ x ++ opt_txt 59 ps). rewrite EPR, E, <- app_assoc. reflexivity. }
      assert (SP : split_slash p = l ++ [x]) by (rewrite Ep; now apply L2).
      assert (M : exists lb m, Forall no_slash lb /\ Forall (fun x => x <> []) lb /\ merged B (r_path R) m /\
                   m = segs_text (lb ++ l) ++ 47 :: x ++ opt_txt 59 ps /\ join_segments p' p = [] :: (lb ++ l) ++ [x] /\ (forall c, In c m -> c <> 35)).
      { assert (TXTL : segs_text l ++ 47 :: x ++ opt_txt 59 ps = 47 :: r_path R) by (rewrite L3, <- EPR; reflexivity).
        assert (RC : forall c, In c (r_path R) -> c <> 35) by (intros c I; rewrite Forall_forall in RP; apply RP in I; tauto).
        destruct BH as [BE|[q BE]].
        - exists [], (47 :: r_path R). split; [constructor|]. split; [constructor|]. split; [now apply (MgAuth B _ a)|].
          split; [now rewrite app_nil_l, TXTL|]. split; [|intros c [<-|I]; [discriminate|auto]].
          unfold join_segments. rewrite SW, SP. rewrite BE in EPB. symmetry in EPB. apply app_eq_nil in EPB. destruct EPB as [-> EPB].
          apply app_eq_nil in EPB. destruct EPB as [-> EPB]. rewrite Ep'. cbn [app].
          change (base_parts []) with [@nil N]. cbn [app]. rewrite filter_inner_root, filter_full; auto.
        - assert (D : exists d0, d' = 47 :: d0 /\ (d0 = [] \/ ends_with d0 [47])).
          { destruct d' as [|z d0].
            - exfalso. cbn in EPB. rewrite BE in EPB. destruct x' as [|y x']; cbn in EPB.
              + unfold opt_txt in EPB. destruct ps'; cbn in EPB; [discriminate|injection EPB; discriminate].
              + injection EPB as <- _. apply Nx'. now left.
            - cbn in EPB. rewrite BE in EPB. injection EPB as <- E. exists d0. split; auto. destruct Dd' as [Dd'|[y Dd']]; [discriminate|].
              destruct y as [|y0 y]; cbn in Dd'; [injection Dd' as E1; left; auto|injection Dd' as E1 E2; right; exists y; auto]. }
          destruct D as (d0 & -> & Dd0). destruct (dir_segs d0 Dd0) as (lb & K1 & K2 & K3 & K4).
          assert (Elb : Forall (fun x => x <> []) lb).
          { apply K4. intros (x1 & y1 & E). apply EB. exists x1, (y1 ++ x' ++ opt_txt 59 ps'). rewrite EPB, E, <- app_assoc. reflexivity. }
          exists lb, ((47 :: d0) ++ r_path R). split; [exact K1|]. split; [exact Elb|].
          split.
          { apply (MgDir B (r_path R) (47 :: d0) (x' ++ opt_txt 59 ps')).
            - right. rewrite BE. discriminate.
            - exact EPB.
            - intros I. apply in_app_or in I. destruct I as [I|I]; [auto|]. unfold opt_txt in I. destruct ps'; cbn in I; [contradiction|].
              destruct I as [I|I]; [discriminate|]. apply Nps', I.
            - right. destruct Dd' as [X|X]; [discriminate|exact X]. }
          split; [rewrite segs_text_app, <- app_assoc, TXTL; symmetry; apply K3|].
          split.
          { unfold join_segments. rewrite SW, SP. apply (base_segs lb x' Elb p'); auto. rewrite Ep'.
            change ((47 :: d0) ++ x') with (47 :: d0 ++ x'). change (split_slash (47 :: d0 ++ x')) with ([] :: split_slash (d0 ++ x')).
            now rewrite K2. }
          intros c I. apply in_app_or in I. destruct I as [I|I]; [|auto]. rewrite Forall_forall in BP.
          assert (I' : In c (r_path B)) by (rewrite EPB; apply in_or_app; now left). apply BP in I'. tauto. }
      destruct M as (lb & m & K1 & K2 & MG & EM & JS & MC).
      assert (DR := path_step (lb ++ l) x ps (proj2 (Forall_app _ _ _) (conj K1 L1)) (proj2 (Forall_app _ _ _) (conj K2 El)) Nx Nps NDOT).
      rewrite <- EM in DR. rewrite JS in J. eexists. split.
      * eapply TgRel; eauto; rewrite PTH; [discriminate|]. intros q X. injection X as X _. auto.
      * apply FIN; auto. eapply TXT; eauto.
Qed.
