(** turtle_repr (C47). *)
From Verif Require Import Model.Py Model.Terms Model.Graph Model.Codec Model.Curie Model.Resource Model.TurtleTree Model.Turtle Model.TurtleOut
  Spec.CodecSpec Spec.CurieSpec Spec.TurtleSpec Spec.TurtleTextSpec Proofs.CurieLemmas Proofs.CurieMore Proofs.TurtleLemmas Proofs.TurtleEsc.
Open Scope N_scope.

(** ** Names in the xsd namespace *)
Lemma xsd_not_scheme : ~ In (s2l "xsd") schemes.
Proof. intro J. assert (X : (if in_dec str_eq_dec (s2l "xsd") schemes then true else false) = false) by (vm_compute; reflexivity).
  destruct (in_dec _ _ _); [discriminate|contradiction]. Qed.
Lemma xsd_splits : forall n, splits (s2l "xsd:" ++ n) (s2l "xsd") n.
Proof. intro n. split; [|left; reflexivity]. intro J. cbn in J. intuition discriminate. Qed.
Lemma xsd_unbracketed : forall n i, ~ bracketed (s2l "xsd:" ++ n) i.
Proof. intros n i B. discriminate B. Qed.
Lemma resolve_xsd : forall pm ns n, n <> [] -> lookup pm (s2l "xsd") ns -> pm_resolve pm (s2l "xsd:" ++ n) = Ok (ns ++ n).
Proof.
  intros pm ns n N L. unfold pm_resolve. apply parse_curie_ok. apply (MeansPlain _ _ _ _ (s2l "xsd") n).
  - apply xsd_unbracketed.
  - discriminate.
  - apply xsd_splits.
  - apply xsd_not_scheme.
  - apply (MeansPrefix _ _ _ (s2l "xsd") n ns); auto. apply xsd_splits.
Qed.
Lemma resolve_xsd_unbound : forall pm n, n <> [] -> unbound pm (s2l "xsd") -> pm_resolve pm (s2l "xsd:" ++ n) = Err ValueError.
Proof.
  intros pm n N U. unfold pm_resolve. destruct (parse_curie (s2l "xsd:" ++ n) pm) as [iri|e] eqn:E.
  - exfalso. apply parse_curie_ok in E. destruct E as [i B _|p r _ _ S I _|p r _ _ S I M].
    + now apply xsd_unbracketed in B.
    + destruct (splits_fun _ _ _ _ _ S (xsd_splits n)) as [-> ->]. now apply xsd_not_scheme.
    + destruct M as [p' ns S' _ _|p' r' ns S' _ L _].
      * destruct (splits_fun _ _ _ _ _ S' (xsd_splits n)) as [_ X]. congruence.
      * destruct (splits_fun _ _ _ _ _ S' (xsd_splits n)) as [-> ->]. apply lookup_sget in L. apply unbound_sget in U. congruence.
  - apply parse_curie_err in E. destruct E as [[E _]|[_ [-> _]]]; auto. discriminate E.
Qed.

Definition xsd_names : list str := map s2l ["integer"; "decimal"; "double"; "boolean"]%string.
Lemma verbatim_spec : forall pm ns d names, lookup pm (s2l "xsd") ns -> Forall (fun n => n <> []) names ->
  repr_verbatim pm (map (fun n => s2l "xsd:" ++ n) names) d = Ok (if in_dec str_eq_dec d (map (fun n => ns ++ n) names) then true else false).
Proof.
  intros pm ns d names L. induction 1 as [|n names N F IH]; [reflexivity|]. cbn [map repr_verbatim].
  rewrite (resolve_xsd pm ns n N L). cbn [bind]. unfold str_eqb. destruct (str_eq_dec d (ns ++ n)) as [->|ND].
  - destruct (in_dec str_eq_dec (ns ++ n) ((ns ++ n) :: map (fun n => ns ++ n) names)) as [i|NI]; [reflexivity|].
    exfalso. apply NI. now left.
  - rewrite IH. f_equal. destruct (in_dec str_eq_dec d (map (fun n => ns ++ n) names)) as [i|NI];
      destruct (in_dec str_eq_dec d ((ns ++ n) :: map (fun n => ns ++ n) names)) as [i'|NI']; auto.
    + exfalso. apply NI'. now right.
    + exfalso. destruct i' as [E|i']; auto.
Qed.
Lemma repr_lit : forall pm base ns v l, lookup pm (s2l "xsd") ns ->
  turtle_repr pm base (Lit v l None) = Ok (turtle_string_escape v ++ match l with Some (c :: t) => 64 :: c :: t | _ => [] end) /\
  turtle_repr pm base (Lit v l (Some (ns ++ s2l "string"))) = Ok (turtle_string_escape v) /\
  (forall d, In d xsd_names -> turtle_repr pm base (Lit v l (Some (ns ++ d))) = Ok v) /\
  (forall d, d <> ns ++ s2l "string" -> (forall n, In n xsd_names -> d <> ns ++ n) ->
     turtle_repr pm base (Lit v l (Some d)) = Ok (turtle_string_escape v ++ [94] ++ repr_iri pm None d)).
Proof.
  intros pm base ns v l L.
  assert (RS := resolve_xsd pm ns (s2l "string") ltac:(discriminate) L).
  change (s2l "xsd:" ++ s2l "string") with (s2l "xsd:string") in RS.
  assert (VB := fun d => verbatim_spec pm ns d xsd_names L ltac:(repeat constructor; discriminate)).
  change (map (fun n => s2l "xsd:" ++ n) xsd_names) with (map s2l ["xsd:integer"; "xsd:decimal"; "xsd:double"; "xsd:boolean"]%string) in VB.
  assert (TS : forall d, turtle_repr pm base (Lit v l (Some d)) =
     if str_eqb d (ns ++ s2l "string") then Ok (turtle_string_escape v)
     else Ok (if in_dec str_eq_dec d (map (fun n => ns ++ n) xsd_names) then v else repr_typed pm v d)).
  { intro d. unfold turtle_repr. rewrite RS. cbn [bind]. destruct (str_eqb d (ns ++ s2l "string")); auto. rewrite VB. cbn [bind].
    now destruct (in_dec _ _ _). }
  split; [|split; [|split]].
  - unfold turtle_repr. rewrite RS. cbn [bind]. destruct l as [[|c t]|]; reflexivity.
  - rewrite TS. unfold str_eqb. destruct (str_eq_dec _ _) as [_|N]; [reflexivity|contradiction].
  - intros d D. rewrite TS. unfold str_eqb. destruct (str_eq_dec _ _) as [E|_].
    + apply app_inv_head in E. subst d. exfalso. cbn in D. intuition discriminate.
    + destruct (in_dec _ _ _) as [_|N]; auto. exfalso. apply N. now apply in_map.
  - intros d D1 D2. rewrite TS. unfold str_eqb. destruct (str_eq_dec _ _) as [E|_]; [contradiction|].
    destruct (in_dec _ _ _) as [I|_]; [|reflexivity]. exfalso. apply in_map_iff in I. destruct I as (n & <- & I). now apply (D2 n).
Qed.
Lemma repr_lit_no_xsd : forall pm base v l d, unbound pm (s2l "xsd") -> turtle_repr pm base (Lit v l d) = Err ValueError.
Proof.
  intros pm base v l d U. unfold turtle_repr.
  assert (RS := resolve_xsd_unbound pm (s2l "string") ltac:(discriminate) U).
  change (s2l "xsd:" ++ s2l "string") with (s2l "xsd:string") in RS. now rewrite RS.
Qed.

(** ** A single caret is no Turtle *)
Lemma last_two : forall (x y : char) a b c d, a ++ x :: b = c ++ y :: d -> ~ In x d -> ~ In y b -> x = y.
Proof.
  intros x y a. induction a as [|e a IH]; intros b c d E X Y; destruct c as [|f c]; cbn in E.
  - congruence.
  - injection E as -> E. exfalso. apply Y. rewrite E. apply in_elt.
  - injection E as -> E. exfalso. apply X. rewrite <- E. apply in_elt.
  - injection E as -> E. eauto.
Qed.
Lemma last_split : forall (x : char) a b c d, a ++ x :: b = c ++ x :: d -> ~ In x d -> ~ In x b -> a = c /\ b = d.
Proof.
  intros x a. induction a as [|e a IH]; intros b c d E X Y; destruct c as [|f c]; cbn in E.
  - split; congruence.
  - injection E as -> E. exfalso. apply Y. rewrite E. apply in_elt.
  - injection E as -> E. exfalso. apply X. rewrite <- E. apply in_elt.
  - injection E as -> E. destruct (IH _ _ _ E X Y) as [-> ->]. auto.
Qed.
Lemma string_ends : forall body s r x, string_text body s -> s ++ x = 34 :: r -> exists m, s = m ++ [34].
Proof.
  intros body s r x T E. inversion T as [q b Q U|q b Q U]; subst.
  - cbn in E. injection E as -> _. exists (34 :: body). now rewrite <- app_comm_cons.
  - cbn in E. injection E as -> _. exists ([34; 34; 34] ++ body ++ [34; 34]). now rewrite <- !app_assoc.
Qed.
Lemma ws_not : forall w c, ws0 w -> c = 34 \/ c = 94 -> ~ In c w.
Proof. intros w c F C J. unfold ws0 in F. rewrite Forall_forall in F. apply F in J. unfold ws in J. lia. Qed.
Lemma hexdigit_range : forall c, hexdigit c = true -> c <> 34 /\ c <> 94.
Proof.
  intros c H. unfold hexdigit in H. rewrite !orb_true_iff, !andb_true_iff, !N.leb_le in H. lia.
Qed.
Lemma units_iri_not : forall s, units (fun c => ~ iri_illegal c) false s -> ~ In 94 s /\ ~ In 34 s.
Proof.
  induction 1 as [|u s U _ IH]; [split; intros []|]. assert (X : ~ In 94 u /\ ~ In 34 u).
  { destruct U as [c C N|k c E _|h L F|h L F]; [|discriminate|..].
    - split; intros [->|[]]; apply C; unfold iri_illegal; [right; left; cbn; tauto|auto].
    - rewrite Forall_forall in F. split; intros [J|[J|J]]; try discriminate; apply F in J; apply hexdigit_range in J; tauto.
    - rewrite Forall_forall in F. split; intros [J|[J|J]]; try discriminate; apply F in J; apply hexdigit_range in J; tauto. }
  split; intro J; apply in_app_or in J; tauto.
Qed.
Lemma pn_char_not : forall c, pn_char c \/ c = 46 \/ c = 58 -> c <> 34 /\ c <> 94.
Proof.
  intros c H. unfold pn_char, pn_u, pn_base, letter, digit10, between in H. lia.
Qed.
Lemma pn_prefix_not : forall s, pn_prefix s -> ~ In 94 s /\ ~ In 34 s.
Proof.
  intros s [->|(c & r & -> & B & F & _)]; [split; intros []|]. rewrite Forall_forall in F.
  assert (X : forall x, In x (c :: r) -> x <> 34 /\ x <> 94).
  { intros x [<-|J]; apply pn_char_not; [unfold pn_char, pn_u; tauto|]. apply F in J. tauto. }
  split; intro J; apply X in J; tauto.
Qed.
Lemma plx_not : forall s, plx s -> ~ In 94 s /\ ~ In 34 s.
Proof.
  intros s [a b A B|c C].
  - apply hexdigit_range in A, B. split; cbn; intuition congruence.
  - unfold local_esc in C. cbn in C. split; cbn; intuition congruence.
Qed.
Lemma local_rest_not : forall s, local_rest s -> ~ In 94 s /\ ~ In 34 s.
Proof.
  induction 1 as [|c r C _ IH|r _ _ IH|x r X _ IH].
  - split; intros [].
  - assert (Y := pn_char_not c ltac:(tauto)). split; intros [J|J]; tauto || intuition congruence.
  - split; intros [J|J]; tauto || discriminate.
  - apply plx_not in X. split; intro J; apply in_app_or in J; tauto.
Qed.
Lemma pn_local_not : forall s, pn_local s -> ~ In 94 s /\ ~ In 34 s.
Proof.
  destruct 1 as [|c r C R|x r X R].
  - split; intros [].
  - apply local_rest_not in R. assert (Y := pn_char_not c ltac:(unfold pn_char; tauto)). split; intros [J|J]; tauto || intuition congruence.
  - apply local_rest_not in R. apply plx_not in X. split; intro J; apply in_app_or in J; tauto.
Qed.
Lemma iri_text_not : forall i t, iri_text i t -> ~ In 94 t /\ ~ In 34 t.
Proof.
  destruct 1 as [body U|ns ln P L].
  - apply units_iri_not in U. split; intro J; cbn in J; destruct J as [J|J]; try discriminate; apply in_app_or in J; destruct J as [J|[J|[]]]; tauto || discriminate.
  - apply pn_prefix_not in P. apply pn_local_not in L. split; intro J; apply in_app_or in J; destruct J as [J|[J|J]]; tauto || discriminate.
Qed.
Lemma lang_tag_not : forall t, lang_tag t -> ~ In 94 t /\ ~ In 34 t.
Proof.
  intros t (a & r & -> & F & _ & S). assert (X : forall s, Forall alnum s -> ~ In 94 s /\ ~ In 34 s).
  { intros s G. rewrite Forall_forall in G. split; intro J; apply G in J; unfold alnum, letter, digit10, between in J; lia. }
  assert (A : ~ In 94 a /\ ~ In 34 a) by (apply X; apply Forall_impl with (2 := F); unfold alnum; tauto).
  assert (B : ~ In 94 r /\ ~ In 34 r).
  { induction S as [|s r G _ _ IH]; [split; intros []|]. apply X in G.
    split; (intros [J|J]; [discriminate J|]); apply in_app_or in J; tauto. }
  split; intro J; apply in_app_or in J; tauto.
Qed.

Lemma caret_unreadable : forall b r, ~ In 34 r -> ~ In 94 r -> ~ reads_literal (34 :: b ++ [34; 94] ++ r).
Proof.
  intros b r N34 N94 (x & T).
  assert (E1 : 34 :: b ++ [34; 94] ++ r = (34 :: b ++ [34]) ++ 94 :: r) by (cbn; now rewrite <- app_assoc).
  inversion T as [body s S E|body s w tag S W L E|body s w w' i t S W W' I E|k s K E|s B E]; subst.
  - destruct (string_ends _ _ (b ++ [34; 94] ++ r) [] S ltac:(rewrite app_nil_r; reflexivity)) as [m M]. rewrite E1 in M. symmetry in M.
    apply last_two in M; [discriminate| |]; cbn; intuition discriminate.
  - destruct (string_ends _ _ _ _ S H) as [m ->]. change (34 :: b ++ 34 :: 94 :: r) with (34 :: b ++ [34; 94] ++ r) in H. rewrite E1, <- app_assoc in H. change (m ++ 34 :: (w ++ [64] ++ tag) = (34 :: b ++ [34]) ++ 94 :: r) in H.
    apply lang_tag_not in L. apply last_two in H; [discriminate|exact N34|].
    intro J. apply in_app_or in J. destruct J as [J|[J|J]]; [|discriminate|tauto]. now apply (ws_not w 94) in J; auto.
  - destruct (string_ends _ _ _ _ S H) as [m ->]. apply iri_text_not in I.
    change (34 :: b ++ 34 :: 94 :: r) with (34 :: b ++ [34; 94] ++ r) in H.
    rewrite E1 in H. change ((m ++ [34]) ++ w ++ [94] ++ 94 :: (w' ++ t) = (34 :: b ++ [34]) ++ 94 :: r) in H.
    rewrite !app_assoc in H.
    apply last_split in H; [|exact N94|].
    + destruct H as [H _]. rewrite app_comm_cons in H. apply app_inj_tail in H. destruct H as [_ H]. discriminate H.
    + intro J. apply in_app_or in J. destruct J as [J|J]; [|tauto]. now apply (ws_not w' 94) in J; auto.
  - assert (X : forall sg d, sign sg -> digits d -> forall y, sg ++ d ++ y = 34 :: b ++ [34; 94] ++ r -> sg = [] /\ d = [] /\ y = 34 :: b ++ [34; 94] ++ r).
    { intros sg d SG D y Y. destruct SG as [->|[->| ->]]; try discriminate Y. destruct d as [|c d]; auto. exfalso.
      cbn in Y. injection Y as -> _. inversion D; subst. unfold digit10, between in *. lia. }
    destruct k; cbn in K.
    + destruct K as (sg & d & E & SG & D & _). rewrite <- (app_nil_r d) in E. symmetry in E. apply X in E; auto. destruct E as (_ & _ & E). discriminate.
    + destruct K as (sg & d & f & E & SG & D & _). symmetry in E. apply X in E; auto. destruct E as (_ & _ & E). discriminate.
    + destruct K as (sg & m & e & E & SG & (c & sg' & d' & -> & C & _) & [(d & f & -> & D & _)|[D _]]).
      * rewrite <- app_assoc in E. symmetry in E. apply X in E; auto. destruct E as (_ & _ & E). discriminate.
      * symmetry in E. apply X in E; auto. destruct E as (_ & _ & E). injection E as E _. lia.
  - destruct B as [B|B]; discriminate B.
Qed.

(** ** The characters of a shown IRI *)
Lemma replace_ne_In : forall old new k s c, In c (replace_ne old new k s) -> In c s \/ In c new.
Proof.
  intros old new k s. revert k. induction s as [|d s IH]; intros k c J; [destruct J|]. cbn [replace_ne] in J. destruct k as [|k].
  - destruct (startswith (d :: s) old).
    + apply in_app_or in J. destruct J as [J|J]; auto. apply IH in J. cbn. tauto.
    + destruct J as [<-|J]; [left; now left|]. apply IH in J. cbn. tauto.
  - apply IH in J. cbn. tauto.
Qed.
Lemma replace_In : forall s old new c, In c (replace s old new) -> In c s \/ In c new.
Proof.
  intros s [|o old] new c J; [|eapply replace_ne_In; exact J]. cbn [replace] in J. apply in_app_or in J. destruct J as [J|J]; auto.
  apply in_concat in J. destruct J as (x & X & J). apply in_map_iff in X. destruct X as (d & <- & D).
  apply in_app_or in J. destruct J as [J|[<-|[]]]; auto.
Qed.
Lemma shrink_In : forall pm s c, In c (pm_shrink pm s) -> In c s \/ c = 58 \/ exists p ns, In (p, ns) pm /\ In c p.
Proof.
  intros pm s c J. unfold pm_shrink in J. destruct (to_curie_choice s pm (s2l ":") false) as [[E _]|(m1 & p & ns & m2 & -> & _ & _ & _ & E)]; rewrite E in J.
  - auto.
  - apply replace_In in J. destruct J as [J|J]; auto. apply in_app_or in J. destruct J as [J|[<-|[]]]; auto.
    right. right. exists p, ns. split; auto. apply in_elt.
Qed.
Lemma repr_iri_In : forall pm s c, In c (repr_iri pm None s) -> In c s \/ c = 58 \/ c = 60 \/ c = 62 \/ exists p ns, In (p, ns) pm /\ In c p.
Proof.
  intros pm s c J. unfold repr_iri in J. cbn [str_truthy] in J. destruct (str_eqb (pm_shrink pm s) s).
  - cbn [app] in J. destruct J as [<-|J]; auto. apply in_app_or in J. destruct J as [J|[<-|[]]]; auto. apply shrink_In in J. tauto.
  - apply shrink_In in J. tauto.
Qed.
Lemma typed_unreadable : forall pm v d, Forall (fun c => ~ iri_illegal c) d -> (forall p ns, In (p, ns) pm -> pn_prefix p) ->
  ~ reads_literal (repr_typed pm v d).
Proof.
  intros pm v d F P. unfold repr_typed. rewrite escape_exact. rewrite <- !app_assoc. cbn [app].
  rewrite Forall_forall in F. apply (caret_unreadable (raw_after_backslash false v) (repr_iri pm None d)); intro J; apply repr_iri_In in J.
  - destruct J as [J|[J|[J|[J|(p & ns & J & K)]]]]; try discriminate.
    + apply F in J. apply J. unfold iri_illegal. auto.
    + apply P in J. apply pn_prefix_not in J. tauto.
  - destruct J as [J|[J|[J|[J|(p & ns & J & K)]]]]; try discriminate.
    + apply F in J. apply J. unfold iri_illegal. right. left. cbn. tauto.
    + apply P in J. apply pn_prefix_not in J. tauto.
Qed.
(** for examples *)
Lemma legal_iri_forall : forall s, legal_iri s = true -> last s 0 <> 10 -> Forall (fun c => ~ iri_illegal c) s.
Proof.
  intros s H N. apply legal_iri_spec in H. destruct H as [H|(r & -> & _)]; auto. exfalso. apply N. apply last_last.
Qed.
Lemma letters_prefix : forall s, Forall letter s -> pn_prefix s.
Proof.
  intros [|c s] F; [now left|]. right. exists c, s. inversion F as [|? ? C G]; subst. rewrite Forall_forall in G. repeat split; auto.
  - now left.
  - rewrite Forall_forall. intros x J. left. left. left. left. auto.
  - intros [x ->]. assert (X := G 46 ltac:(apply in_or_app; right; now left)). unfold letter, between in X. lia.
Qed.
