(** urlparse on the text of the components. *)
From Verif Require Import Model.Py Model.Codec Model.UrlJoin Spec.UriSpec Proofs.CurieLemmas Proofs.UriLemmas.
Open Scope N_scope.

Definition oval (o : option str) : str := match o with Some x => x | None => [] end.
Definition opt_txt (c : char) (q : str) : str := if str_truthy q then c :: q else [].

(** ** strings *)
Lemma partition_at : forall a sep b, ~ In sep a -> partition (a ++ sep :: b) sep = (a, true, b).
Proof.
  induction a as [|c a IH]; intros sep b H; cbn.
  - now rewrite N.eqb_refl.
  - destruct (N.eqb_spec c sep); [exfalso; apply H; left; auto|]. rewrite IH; [reflexivity|]. intros X. apply H. now right.
Qed.
Lemma partition_none : forall a sep, ~ In sep a -> partition a sep = (a, false, []).
Proof.
  induction a as [|c a IH]; intros sep H; cbn; [reflexivity|].
  destruct (N.eqb_spec c sep); [exfalso; apply H; left; auto|]. rewrite IH; [reflexivity|]. intros X. apply H. now right.
Qed.
Lemma partition_opt : forall a c o, ~ In c a -> exists b, partition (a ++ pre_opt [c] o) c = (a, b, oval o).
Proof.
  intros a c [x|] H; cbn.
  - rewrite partition_at by auto. eauto.
  - rewrite app_nil_r, partition_none by auto. eauto.
Qed.
Lemma lstrip_visible : forall s, visible s -> lstrip_c0 s = s.
Proof. intros [|c r] H; cbn; [reflexivity|]. inversion_clear H. destruct (N.leb_spec c 32); [lia|reflexivity]. Qed.
Lemma filter_visible : forall s, visible s -> filter safe_char s = s.
Proof.
  induction s as [|c r IH]; intros H; cbn; [reflexivity|]. inversion_clear H. rewrite (IH H1).
  unfold safe_char. destruct (N.eqb_spec c 9), (N.eqb_spec c 13), (N.eqb_spec c 10); try lia. reflexivity.
Qed.
Lemma split_netloc_at : forall a s, Forall (fun c => c <> 47 /\ c <> 63 /\ c <> 35) a ->
  (s = [] \/ exists c r, s = c :: r /\ (c = 47 \/ c = 63 \/ c = 35)) -> split_netloc (a ++ s) = (a, s).
Proof.
  induction a as [|c a IH]; intros s H Hs; cbn.
  - destruct Hs as [->|(c & r & -> & H1)]; [reflexivity|]. cbn.
    destruct H1 as [->|[->| ->]]; reflexivity.
  - inversion_clear H as [|? ? (A & B & C) D]. rewrite (IH s D Hs).
    destruct (N.eqb_spec c 47), (N.eqb_spec c 63), (N.eqb_spec c 35); try contradiction. reflexivity.
Qed.

(** ** schemes *)
Lemma ascii_letter_iff : forall c, ascii_letter c = true <-> alpha c.
Proof. intros. unfold ascii_letter, in_range, alpha. rewrite orb_true_iff, !andb_true_iff, !N.leb_le. lia. Qed.
Lemma scheme_char_iff : forall c, scheme_char c = true <-> schar c.
Proof.
  intros. unfold scheme_char, schar, in_range. rewrite !orb_true_iff, ascii_letter_iff, andb_true_iff, !N.leb_le, !N.eqb_eq. tauto.
Qed.
Lemma schar_not : forall c, schar c -> c <> 47 /\ c <> 63 /\ c <> 35 /\ c <> 58.
Proof. unfold schar, alpha. intros. lia. Qed.
Lemma scheme_no_colon : forall s, scheme_name s -> ~ In 58 s /\ ~ In 35 s.
Proof.
  intros s (c & r & -> & A & F). rewrite Forall_forall in F. split; intros [X|X]; subst.
  all: try (unfold alpha in A; lia). all: apply F, schar_not in X; tauto.
Qed.
Lemma split_scheme_some : forall s rest d, scheme_name s -> split_scheme (s ++ 58 :: rest) d = (map lower_char s, rest).
Proof.
  intros s rest d H. unfold split_scheme. rewrite partition_at by (now apply scheme_no_colon).
  destruct H as (c & r & -> & A & F). apply ascii_letter_iff in A. rewrite A. cbn [andb forallb].
  unfold scheme_char at 1. rewrite A. cbn [orb andb].
  replace (forallb scheme_char r) with true; [reflexivity|]. symmetry. apply forallb_forall. intros x X.
  rewrite Forall_forall in F. apply scheme_char_iff, F, X.
Qed.
Lemma split_scheme_none : forall s d,
  (forall c a b, s = c :: a ++ 58 :: b -> alpha c -> Forall schar a -> False) -> split_scheme s d = (d, s).
Proof.
  intros s d H. unfold split_scheme. destruct (partition s 58) as [[a f] r] eqn:P. apply partition_spec in P.
  destruct P as [N [[-> E]|(-> & -> & ->)]]; [|reflexivity]. destruct a as [|c a]; [reflexivity|].
  destruct (ascii_letter c) eqn:A; [|reflexivity]. destruct (forallb scheme_char (c :: a)) eqn:F; [|reflexivity].
  exfalso. eapply (H c a r); [exact E|now apply ascii_letter_iff|].
  cbn in F. apply andb_true_iff in F. destruct F as [_ F]. rewrite forallb_forall in F. apply Forall_forall.
  intros x X. apply scheme_char_iff, F, X.
Qed.
(** the first colon of a path without a colon in its first segment *)
Lemma no_scheme_path : forall p t, (forall a b, p = a ++ 58 :: b -> In 47 a) ->
  (t = [] \/ exists c r, t = c :: r /\ (c = 63 \/ c = 35)) ->
  forall a b, Forall schar a -> p ++ t = a ++ 58 :: b -> False.
Proof.
  intros p t Hp Ht a b F E.
  assert (K : forall p a, Forall schar a -> p ++ t = a ++ 58 :: b -> exists b', p = a ++ 58 :: b').
  { clear p Hp a F E. induction p as [|x p IH]; intros a F E; cbn in E.
    - exfalso. destruct Ht as [->|(c & r & -> & C)].
      + destruct a; discriminate.
      + destruct a as [|y a]; cbn in E; injection E as E1 E2; subst; [lia|]. inversion_clear F. apply schar_not in H. lia.
    - destruct a as [|y a]; cbn in E; injection E as E1 E2; subst; [exists p; reflexivity|].
      inversion_clear F. destruct (IH a H0 E2) as [b' ->]. exists b'. reflexivity. }
  destruct (K p a F E) as [b' ->]. assert (I := Hp a b' eq_refl). rewrite Forall_forall in F.
  apply F, schar_not in I. tauto.
Qed.

(** ** parameters of the last segment *)
Lemma last_slash_spec : forall s d l, last_slash s = (d, l) ->
  s = d ++ l /\ no_slash l /\ (d = [] \/ ends_with d [47]).
Proof.
  induction s as [|c r IH]; intros d l H; cbn in H.
  - injection H as <- <-. repeat split; auto. intros [].
  - destruct (last_slash r) as [d' l'] eqn:E. destruct (IH _ _ eq_refl) as (A & B & C). destruct d' as [|x d'].
    + destruct (N.eqb_spec c 47); injection H as <- <-; subst.
      * repeat split; auto. right. exists []. reflexivity.
      * repeat split; auto. intros [X|X]; auto.
    + injection H as <- <-. subst. repeat split; auto. right. destruct C as [C|[z C]]; [discriminate|].
      exists (c :: z). rewrite C. reflexivity.
Qed.
Definition params_of (b : bool) (p : str) : str * str := if b && str_in_char 59 p then split_params p else (p, []).
Lemma params_spec : forall b u p ps, params_of b u = (p, ps) -> ~ ends_with u [59] ->
  exists d a, p = d ++ a /\ no_slash a /\ (d = [] \/ ends_with d [47]) /\ u = d ++ a ++ opt_txt 59 ps /\ no_slash ps.
Proof.
  intros b u p ps H N. unfold params_of in H.
  assert (D : forall q, exists d a, q = d ++ a /\ no_slash a /\ (d = [] \/ ends_with d [47])).
  { intros q. destruct (last_slash q) as [d l] eqn:E. apply last_slash_spec in E. exists d, l. tauto. }
  assert (Z : forall q, q = u -> (p, ps) = (q, []) -> exists d a, p = d ++ a /\ no_slash a /\ (d = [] \/ ends_with d [47]) /\ u = d ++ a ++ opt_txt 59 ps /\ no_slash ps).
  { intros q -> X. injection X as -> ->. destruct (D u) as (d & a & A & B & C). exists d, a.
    rewrite app_nil_r. repeat split; auto. intros []. }
  destruct (b && str_in_char 59 u); [|now apply (Z u)].
  unfold split_params in H. destruct (last_slash u) as [d l] eqn:E. apply last_slash_spec in E. destruct E as (E1 & E2 & E3).
  destruct (partition l 59) as [[a f] q] eqn:P. apply partition_spec in P. destruct P as [NP [[-> P]|(-> & -> & ->)]].
  - injection H as <- <-. exists d, a. subst. repeat split; auto.
    + intros X. apply E2. apply in_or_app. now left.
    + destruct q; [|reflexivity]. exfalso. apply N. exists (d ++ a). now rewrite app_assoc.
    + intros X. apply E2. apply in_or_app. right. now right.
  - now apply (Z u).
Qed.
Lemma params_nil : forall b, params_of b [] = ([], []).
Proof. intros []; reflexivity. Qed.

(** ** network locations *)
Lemma in_char : forall c s, str_in_char c s = true <-> In c s.
Proof.
  intros. unfold str_in_char. rewrite existsb_exists. split.
  - intros (x & A & B). apply N.eqb_eq in B. now subst.
  - intros H. exists c. split; auto. apply N.eqb_refl.
Qed.
Lemma plain_host_ok : forall bo nk a, plain_host a -> check_netloc bo nk a = true.
Proof.
  intros bo nk a H. unfold plain_host in H. rewrite Forall_forall in H. unfold check_netloc.
  replace (str_in_char 91 a) with false. 2: { symmetry. apply not_true_is_false. rewrite in_char. intros X. apply H in X. lia. }
  replace (str_in_char 93 a) with false. 2: { symmetry. apply not_true_is_false. rewrite in_char. intros X. apply H in X. lia. }
  cbn. replace (forallb (fun c => c <? 128) a) with true; [reflexivity|]. symmetry. apply forallb_forall.
  intros x X. apply H in X. apply N.ltb_lt. lia.
Qed.

Lemma sw2_path : forall p t, ~ (exists q, p = 47 :: 47 :: q) -> (t = [] \/ exists c r, t = c :: r /\ (c = 63 \/ c = 35)) ->
  startswith (p ++ t) [47; 47] = false.
Proof.
  intros p t H Ht. apply not_true_is_false. intros E.
  assert (K : forall s, startswith s [47; 47] = true -> exists q, s = 47 :: 47 :: q).
  { intros [|a [|b s]] X; cbn [startswith] in X; try discriminate.
    - rewrite andb_false_r in X. discriminate.
    - rewrite sw_nil, andb_true_r in X. apply andb_true_iff in X. destruct X as [X Y].
      apply N.eqb_eq in X. apply N.eqb_eq in Y. subst. eauto. }
  apply K in E. destruct E as [q E]. destruct p as [|a [|b p]]; cbn in E.
  - destruct Ht as [->|(c & r & -> & C)]; [discriminate|]. injection E as E1 E2. lia.
  - destruct Ht as [->|(c & r & -> & C)]; [discriminate|]. injection E as E1 E2 E3. lia.
  - injection E as -> -> E. apply H. eauto.
Qed.

Lemma qf_next : forall q f, (pre_opt [63] q ++ pre_opt [35] f) = [] \/
  exists c r, pre_opt [63] q ++ pre_opt [35] f = c :: r /\ (c = 63 \/ c = 35).
Proof. intros [q|] [f|]; cbn; eauto 8. Qed.

(** ** urlparse *)
Lemma urlparse_gen : forall bo nk R d, uri_ok R -> visible (uri_text R) ->
  urlparse bo nk (uri_text R) d = if check_netloc bo nk (oval (r_auth R)) then
  Ok (let sc := match r_scheme R with Some s => map lower_char s | None => d end in
      let pp := params_of (str_mem sc uses_params) (r_path R) in
      mkParsed sc (oval (r_auth R)) (fst pp) (snd pp) (oval (r_query R)) (oval (r_frag R)))
  else Err ValueError.
Proof.
  intros bo nk R d (S1 & S2 & S3 & S4 & S5 & S6 & S7) V. unfold urlparse. rewrite lstrip_visible, filter_visible by auto.
  assert (SS : split_scheme (uri_text R) d = (match r_scheme R with Some s => map lower_char s | None => d end, hier_text R)).
  { unfold uri_text. destruct (r_scheme R) as [s|].
    - rewrite <- app_assoc. cbn [app]. now apply split_scheme_some.
    - cbn [app]. apply split_scheme_none. intros c a b E AL F. unfold hier_text in E. destruct (r_auth R) as [au|].
      + cbn in E. injection E as E1 E2. unfold alpha in AL. lia.
      + cbn [pre_opt app] in E. eapply (no_scheme_path _ _ (S7 eq_refl eq_refl) (qf_next (r_query R) (r_frag R)) (c :: a)).
        * constructor; [now left|exact F].
        * exact E. }
  rewrite SS. cbv beta iota.
  assert (SN : (if startswith (hier_text R) [47; 47] then split_netloc (skipn 2 (hier_text R)) else ([], hier_text R))
               = (oval (r_auth R), r_path R ++ pre_opt [63] (r_query R) ++ pre_opt [35] (r_frag R))).
  { unfold hier_text. destruct (r_auth R) as [au|]; cbn [pre_opt oval].
    - cbn [app startswith]. rewrite !N.eqb_refl, sw_nil. cbn [andb skipn]. apply split_netloc_at; [exact S2|].
      destruct S6 as [->|[q ->]]; [|right; cbn; eauto 6].
      destruct (qf_next (r_query R) (r_frag R)) as [->|(c & r & -> & C)]; [left; reflexivity|right; cbn; exists c, r; tauto].
    - cbn [app]. rewrite sw2_path; [reflexivity|exact S6|apply qf_next]. }
  rewrite SN. cbv beta iota.
  destruct (check_netloc bo nk (oval (r_auth R))); [|reflexivity].
  rewrite app_assoc.
  destruct (partition_opt (r_path R ++ pre_opt [63] (r_query R)) 35 (r_frag R)) as [b1 P1].
  { intros X. apply in_app_or in X. rewrite Forall_forall in S3. destruct X as [X|X]; [apply S3 in X; tauto|].
    destruct (r_query R) as [q|]; cbn in X; [|contradiction]. destruct X as [X|X]; [discriminate|].
    cbn in S4. rewrite Forall_forall in S4. apply S4 in X. congruence. }
  rewrite P1. cbv beta iota.
  destruct (partition_opt (r_path R) 63 (r_query R)) as [b2 P2].
  { intros X. rewrite Forall_forall in S3. apply S3 in X. tauto. }
  rewrite P2. cbv beta iota zeta. fold (params_of (str_mem (match r_scheme R with Some s => map lower_char s | None => d end) uses_params) (r_path R)).
  destruct (params_of _ (r_path R)) as [p ps] eqn:PP. reflexivity.
Qed.
Lemma urlparse_text : forall bo nk R d, uri_ok R -> visible (uri_text R) -> (forall a, r_auth R = Some a -> plain_host a) ->
  urlparse bo nk (uri_text R) d =
  Ok (let sc := match r_scheme R with Some s => map lower_char s | None => d end in
      let pp := params_of (str_mem sc uses_params) (r_path R) in
      mkParsed sc (oval (r_auth R)) (fst pp) (snd pp) (oval (r_query R)) (oval (r_frag R))).
Proof.
  intros bo nk R d O V HA. rewrite urlparse_gen by assumption.
  replace (check_netloc bo nk (oval (r_auth R))) with true; [reflexivity|].
  symmetry. destruct (r_auth R) as [au|]; cbn; [apply plain_host_ok, HA; reflexivity|reflexivity].
Qed.

(** ** urlunparse *)
Lemma urlunparse_net : forall s n p ps q f, s <> [] -> str_mem s uses_netloc = true ->
  urlunparse (mkParsed s n p ps q f) = s ++ [58] ++ [47; 47] ++ n ++ rooted (p ++ opt_txt 59 ps) ++ opt_txt 63 q ++ opt_txt 35 f.
Proof.
  intros s n p ps q f Hs Hn. unfold urlunparse. cbn [u_scheme u_netloc u_path u_params u_query u_fragment].
  fold (opt_txt 59 ps). fold (opt_txt 63 q). fold (opt_txt 35 f). rewrite Hn. destruct s as [|c s]; [congruence|].
  cbn [str_truthy andb]. rewrite orb_true_r. cbn [orb]. fold (rooted (p ++ opt_txt 59 ps)).
  now rewrite <- !app_assoc.
Qed.
