(** Turtle output with labels (C117): the text and what it means. *)
From Coq Require Import Permutation Sorted.
From Verif Require Import Model.Py Model.Terms Model.Graph Model.GraphRun Model.Curie Model.TurtleTree Model.Turtle Model.TurtleParse Model.Resource Model.ResourceRun Model.TurtleOut Model.TurtleNamed
  Spec.GraphSpec Spec.CodecSpec Spec.CurieSpec Spec.TurtleSpec Spec.TurtleTextSpec Spec.ResourceSpec Spec.TurtleOutSpec Spec.TurtleNameSpec
  Proofs.DictLemmas Proofs.GraphInv Proofs.GraphHist Proofs.ResourceLemmas Proofs.ListClass Proofs.TurtleWrite Proofs.TurtleLayout Proofs.TurtleDoc Proofs.TurtleReject Proofs.TurtleTokens Proofs.TurtleScan Proofs.TurtleTrip Proofs.TurtleRound Properties.TurtleTextProps.
Open Scope N_scope.

(** ** Names *)
Section Names.
  Variables (names : nat -> res str) (pm : dict str str) (base : option str).
  Hypothesis LB : labels names.
  Definition wfn (nm : name_map) : Prop := NoDup (map fst nm) /\ forall k b n, nth_error nm k = Some (b, n) -> names k = Ok n.
  Definition grows (nm nm' : name_map) : Prop := exists r, nm' = nm ++ r.
  Lemma grows_refl : forall nm, grows nm nm.
  Proof. intro nm. exists []. now rewrite app_nil_r. Qed.
  Lemma grows_trans : forall a b c, grows a b -> grows b c -> grows a c.
  Proof. intros a b c [r ->] [q ->]. exists (r ++ q). now rewrite app_assoc. Qed.
  Definition rep (nm : name_map) (x : term) (n : str) : Prop :=
    match x with BNode b => In (b, n) nm | _ => turtle_repr pm base x = Ok n end.
  Lemma rep_grows : forall nm nm' x n, grows nm nm' -> rep nm x n -> rep nm' x n.
  Proof. intros nm nm' [s|b|v l d] n [r ->] H; cbn in *; auto. apply in_app_iff. now left. Qed.
  Lemma wfn_fun : forall nm b n n', wfn nm -> In (b, n) nm -> In (b, n') nm -> n = n'.
  Proof.
    intros nm b n n' [ND _] J K. induction nm as [|[b' m] nm IH]; [destruct J|]. cbn in ND. apply NoDup_cons_iff in ND. destruct ND as [NI ND].
    destruct J as [J|J], K as [K|K]; [congruence| | |now apply IH]; exfalso; apply NI; [injection J as -> _; exact (in_map fst _ _ K)|injection K as -> _; exact (in_map fst _ _ J)].
  Qed.
  Lemma wfn_inj : forall nm b b' n, wfn nm -> In (b, n) nm -> In (b', n) nm -> b = b'.
  Proof.
    intros nm b b' n [_ W] J K. apply In_nth_error in J, K. destruct J as [j J], K as [k K]. assert (j = k) by (apply (proj2 LB j k n); [now apply (W j b)|now apply (W k b')]). subst. congruence.
  Qed.
  Lemma wfn_label : forall nm b n, wfn nm -> In (b, n) nm -> TurtleTextSpec.label n.
  Proof. intros nm b n [_ W] J. apply In_nth_error in J. destruct J as [j J]. destruct (proj1 LB j) as (s & E & L). rewrite (W _ _ _ J) in E. now injection E as ->. Qed.
  Lemma repr_n_ok : forall nm x, wfn nm -> ((forall b, x <> BNode b) -> exists n, turtle_repr pm base x = Ok n) ->
    exists nm' n, repr_n names pm base nm x = (nm', Ok n) /\ grows nm nm' /\ wfn nm' /\ rep nm' x n.
  Proof.
    intros nm x W H. destruct x as [s|b|v l d]; [destruct H as [n E]; [discriminate|]; exists nm, n; cbn [repr_n]; rewrite E; split; [reflexivity|]; split; [apply grows_refl|auto]| |
      destruct H as [n E]; [discriminate|]; exists nm, n; cbn [repr_n]; rewrite E; split; [reflexivity|]; split; [apply grows_refl|auto]].
    cbn [repr_n]. destruct (dget N.eq_dec nm b) as [n|] eqn:E.
    - exists nm, n. split; [reflexivity|]. split; [apply grows_refl|]. split; [exact W|]. cbn. now apply dget_Some_In in E.
    - destruct (proj1 LB (length nm)) as (s & ES & _). rewrite ES. exists (nm ++ [(b, s)]), s. split; [reflexivity|]. split; [now exists [(b, s)]|]. split; [|cbn; apply in_app_iff; right; now left].
      destruct W as [ND W]. split.
      + rewrite map_app. cbn. apply NoDup_snoc; [exact ND|]. apply dget_None_iff in E. exact E.
      + intros k b' n' J. destruct (Nat.lt_ge_cases k (length nm)) as [LT|GE]; [rewrite nth_error_app1 in J by exact LT; now apply (W k b')|].
        rewrite nth_error_app2 in J by exact GE. destruct (k - length nm)%nat as [|j] eqn:EK; [|destruct j; discriminate]. injection J as <- <-. replace k with (length nm) by lia. exact ES.
  Qed.
  Lemma named_n_ok : forall nodes nm, wfn nm -> (forall x, In x nodes -> (forall b, x <> BNode b) -> exists n, turtle_repr pm base x = Ok n) ->
    exists nm' l, named_n names pm base nm nodes = (nm', Ok l) /\ grows nm nm' /\ wfn nm' /\ map snd l = nodes /\ Forall (fun nx => rep nm' (snd nx) (fst nx)) l.
  Proof.
    induction nodes as [|x nodes IH]; intros nm W H; [exists nm, []; split; [reflexivity|]; split; [apply grows_refl|]; auto|].
    destruct (repr_n_ok nm x W) as (nm1 & n & E & G1 & W1 & R1); [apply H; now left|]. destruct (IH nm1 W1) as (nm2 & l & E2 & G2 & W2 & M & F); [intros y J; apply H; now right|].
    exists nm2, ((n, x) :: l). cbn [named_n]. rewrite E, E2. split; [reflexivity|]. split; [now apply (grows_trans _ nm1)|]. split; [exact W2|]. split; [cbn; now rewrite M|]. constructor; [|exact F]. cbn. now apply (rep_grows nm1).
  Qed.
  (** sorting *)
  Definition comparable (a b : str * term) : Prop := exists r, pair_lt a b = Ok r.
  Lemma sort_insert_ok : forall x l, Forall (fun y => comparable y x) l -> exists l', sort_insert x l = Ok l'.
  Proof.
    intros x l F. induction F as [|y l [r E] F [l' IH]]; [now exists [x]|]. cbn [sort_insert]. rewrite E. cbn [bind]. destruct r; [rewrite IH; cbn; eauto|eauto].
  Qed.
  Lemma sort_ok : forall l, (forall a b, In a l -> In b l -> comparable a b) -> exists l', sort_pairs l = Ok l' /\ Permutation l l'.
  Proof.
    intros l H. assert (X : exists l', sort_pairs l = Ok l').
    { induction l as [|x l IH]; [now exists []|]. destruct IH as [l1 E]; [intros a b J K; apply H; now right|]. cbn [sort_pairs]. rewrite E. cbn [bind]. apply sort_insert_ok. apply Forall_forall. intros y J.
      apply H; [right; apply (Permutation_in _ (Permutation_sym (sort_perm _ _ E)) J)|now left]. }
    destruct X as [l' E]. exists l'. split; [exact E|now apply sort_perm].
  Qed.
  Lemma comparable_cases : forall a b, is_iri a /\ is_iri b \/ fst a <> fst b \/ a = b -> comparable a b.
  Proof.
    intros a b [[A B]|[N| ->]]; [now apply pair_lt_iri| |].
    - unfold comparable, pair_lt. destruct (str_eq_dec (fst a) (fst b)); [contradiction|eauto].
    - unfold comparable, pair_lt. destruct (str_eq_dec (fst b) (fst b)); [|congruence]. destruct (term_eq_dec (snd b) (snd b)); [eauto|congruence].
  Qed.
End Names.
Lemma iri_no_label : forall i s, iri_text i s -> ~ TurtleTextSpec.label s.
Proof.
  intros i s T (c & r & E & _). destruct T as [body u|p l PP PL].
  - discriminate E.
  - destruct PP as [->|(x & q & -> & PB & _)]; [discriminate E|]. cbn in E. injection E as -> _. unfold pn_base, TurtleTextSpec.letter, between in PB. lia.
Qed.

(** ** The text *)
Section LayoutN.
  Variables (names : nat -> res str) (ord : list term -> list term) (fuel : nat) (pm : dict str str) (base : option str) (g : graph).
  Hypothesis LB : labels names.
  Hypothesis RG : reachable g.
  Hypothesis SH : shuffle ord.
  Notation G := (g_iter g).
  Variables (early : world -> Prop) (w : world) (ns : str).
  Hypotheses (WR : wreach_if early w) (LX : lookup pm (s2l "xsd") ns) (US : usual w G (g_subjects g) fuel).
  Notation objs_of s p := (map st_o (g_match g (Some s) (Some p) None)).
  Notation preds_of s := (nodup term_eq_dec (map st_p (g_match g (Some s) None None))).
  Notation rp := (rep pm base).
  (** the text of an object *)
  Definition text_n (nm : name_map) (o : term) (t : str) : Prop :=
    object_text pm base G o t \/ ~ list_cell G o /\ exists b, o = BNode b /\ In (b, t) nm.
  Lemma text_grows : forall nm nm' o t, grows nm nm' -> text_n nm o t -> text_n nm' o t.
  Proof. intros nm nm' o t [r ->] [H|(N & b & E & J)]; [now left|]. right. split; [exact N|]. exists b. split; [exact E|]. apply in_app_iff. now left. Qed.
  Definition ok_object (o : term) : Prop := is_object g o /\ (list_cell G o -> printable_object G o).
  Lemma elements_same : forall vs nm b fin t, write_elements pm base b vs fin = (t, Ok tt) -> elements_n names pm base nm b vs fin = (nm, (t, Ok tt)).
  Proof.
    induction vs as [|v vs IH]; intros nm b fin t E; cbn [write_elements elements_n] in *; [now injection E as <- ->|].
    destruct v as [os|[|x|c su]]; try discriminate. destruct x as [s|bb|a l d]; [| discriminate |].
    - cbn [repr_n]. destruct (turtle_repr pm base (Iri s)) as [n|e]; [|discriminate]. destruct (write_elements pm base false vs fin) as [t2 x] eqn:E2. injection E as <- ->. now rewrite (IH nm false fin t2 E2).
    - cbn [repr_n]. destruct (turtle_repr pm base (Lit a l d)) as [n|e]; [|discriminate]. destruct (write_elements pm base false vs fin) as [t2 x] eqn:E2. injection E as <- ->. now rewrite (IH nm false fin t2 E2).
  Qed.
  Lemma object_same : forall nm o w' t, write_object ord fuel pm base g w o = (w', (t, Ok tt)) -> object_n names ord fuel pm base g w nm o = (w', nm, (t, Ok tt)).
  Proof.
    intros nm o w' t E. unfold write_object, object_n in *. destruct (is_list w 1 g o) as [[|]|e]; [| |discriminate].
    - destruct (list_iter ord fuel w 1 g (as_subject o)) as [w1 [vs fin]]. destruct (write_elements pm base true vs fin) as [t1 [[]|e]] eqn:E1; [|discriminate]. injection E as <- <-. now rewrite (elements_same _ nm _ _ _ E1).
    - destruct o as [s|b|v l d]; cbn [repr_n]; [|discriminate|]; destruct (turtle_repr pm base _) as [n|e]; try discriminate; now injection E as <- <-.
  Qed.
  Lemma object_laid_n : forall nm o, wfn names nm -> ok_object o -> exists nm' t, object_n names ord fuel pm base g w nm o = (w, nm', (t, Ok tt)) /\ grows nm nm' /\ wfn names nm' /\ text_n nm' o t.
  Proof.
    intros nm o W [IO PO]. assert (HO : honoured (Some o)) by (destruct IO as (s & p & J); destruct US as (_ & U2 & _); apply (U2 _ J)).
    destruct (list_class_reached _ _ WR) as [LC _]. destruct (is_list_spec w g o RG LC HO) as [[IL CL]|[IL CL]].
    - destruct (object_laid ord fuel pm base g RG SH early w ns WR LX US o IO (PO CL)) as (t & E & T). exists nm, t. split; [now apply object_same|]. split; [apply grows_refl|]. split; [exact W|now left].
    - destruct o as [s|b|v l d].
      + destruct (object_laid ord fuel pm base g RG SH early w ns WR LX US (Iri s) IO) as (t & E & T); [left; split; [exact CL|discriminate]|]. exists nm, t. split; [now apply object_same|]. split; [apply grows_refl|]. split; [exact W|now left].
      + unfold object_n. rewrite IL. destruct (repr_n_ok names pm base LB nm (BNode b) W) as (nm' & n & E & GR & W' & R); [intro X; now destruct (X b)|]. rewrite E. exists nm', n. split; [reflexivity|]. split; [exact GR|]. split; [exact W'|]. right. split; [exact CL|]. exists b. split; [reflexivity|exact R].
      + destruct (object_laid ord fuel pm base g RG SH early w ns WR LX US (Lit v l d) IO) as (t & E & T); [left; split; [exact CL|discriminate]|]. exists nm, t. split; [now apply object_same|]. split; [apply grows_refl|]. split; [exact W|now left].
  Qed.
  Lemma objects_laid_n : forall ind l nm, wfn names nm -> Forall ok_object l -> exists nm' ol, grows nm nm' /\ wfn names nm' /\ map snd ol = l /\
    Forall (fun to => text_n nm' (snd to) (fst to)) ol /\
    forall sep, objects_n names ord fuel pm base g w nm sep ind l = (w, nm', ((match l with [] => [] | _ => sep end) ++ TurtleOutSpec.objs_text ind ol, Ok tt)).
  Proof.
    intros ind l. induction l as [|o l IH]; intros nm W F.
    - exists nm, []. split; [apply grows_refl|]. auto.
    - inversion F as [|? ? O F']; subst. destruct (object_laid_n nm o W O) as (nm1 & t & EO & G1 & W1 & T). destruct (IH nm1 W1 F') as (nm2 & ol & G2 & W2 & <- & FT & E).
      exists nm2, ((t, o) :: ol). split; [now apply (grows_trans _ nm1)|]. split; [exact W2|]. split; [reflexivity|]. split; [constructor; [cbn; now apply (text_grows nm1)|exact FT]|]. intro sep.
      cbn [objects_n]. rewrite EO, E. f_equal. f_equal. f_equal. destruct ol as [|[t2 o2] ol]; cbn [map TurtleOutSpec.objs_text]; [now rewrite !app_nil_r|].
      rewrite <- !app_assoc. reflexivity.
  Qed.
  Definition laid_pred_n (nm : name_map) (s : term) (e : pred_part) : Prop :=
    let '(pn, p, ol) := e in
    turtle_repr pm base p = Ok pn /\ lists (map snd ol) (fun o => In (Tr s p o) G) /\ Forall (fun to => text_n nm (snd to) (fst to)) ol.
  Definition laid_block_n (nm : name_map) (b : subj_part) : Prop :=
    let '(sn, s, pl) := b in
    rp nm s sn /\ lists (map (fun e => snd (fst e)) pl) (fun p => exists o, In (Tr s p o) G) /\ Forall (laid_pred_n nm s) pl.
  Lemma laid_pred_grows : forall nm nm' s e, grows nm nm' -> laid_pred_n nm s e -> laid_pred_n nm' s e.
  Proof. intros nm nm' s [[pn p] ol] GR (A & B & F). split; [exact A|]. split; [exact B|]. eapply Forall_impl; [|exact F]. intros to. now apply text_grows. Qed.
  Lemma laid_block_grows : forall nm nm' b, grows nm nm' -> laid_block_n nm b -> laid_block_n nm' b.
  Proof. intros nm nm' [[sn s] pl] GR (A & B & F). split; [now apply (rep_grows pm base nm)|]. split; [exact B|]. eapply Forall_impl; [|exact F]. intros e. now apply laid_pred_grows. Qed.
  Notation ok_pred s p := (exists i, p = Iri i /\ i <> [] /\ forall o, In (Tr s p o) G -> ok_object o).
  Lemma predicates_laid_n : forall s n l nm, wfn names nm -> honoured (Some s) -> Forall (fun np => turtle_repr pm base (snd np) = Ok (fst np) /\ ok_pred s (snd np)) l ->
    exists nm' pl, grows nm nm' /\ wfn names nm' /\ map fst pl = l /\ Forall (laid_pred_n nm' s) pl /\
    forall sep, predicates_n names ord fuel pm base g w nm s sep n l = (w, nm', ((match l with [] => [] | _ => sep end) ++ preds_text n pl, Ok tt)).
  Proof.
    intros s n l. induction l as [|[pn p] l IH]; intros nm W Hs F; [exists nm, []; split; [apply grows_refl|]; auto|].
    inversion F as [|? ? [R (i & Ep & NE & OK)] F']; subst. cbn [fst snd] in *. subst p.
    assert (OL : lists (objs_of s (Iri i)) (fun o => In (Tr s (Iri i) o) G)) by exact (objs_lists g s i (reachable_wf _ RG) Hs NE).
    destruct (objects_laid_n (spaces (n + length pn + 1)) (objs_of s (Iri i)) nm W) as (nm1 & ol & G1 & W1 & EO & FO & EW).
    { apply Forall_forall. intros o J. apply OL in J. auto. }
    destruct (IH nm1 W1 Hs F') as (nm2 & pl & G2 & W2 & <- & FL & E).
    exists nm2, ((pn, Iri i, ol) :: pl). split; [now apply (grows_trans _ nm1)|]. split; [exact W2|]. split; [reflexivity|]. split.
    { constructor; [|exact FL]. apply (laid_pred_grows nm1); [exact G2|]. cbn [laid_pred_n]. rewrite EO. auto. }
    intro sep. cbn [predicates_n]. rewrite EW. rewrite E. f_equal. f_equal.
    assert (EQ : forall x : list term, (match x with [] => [] | _ => [] end : str) = []) by (now intros []). rewrite EQ. cbn [app].
    change (spaces (n + length pn + 1)) with (blanks (n + length pn + 1)). destruct pl as [|e pl]; cbn [map preds_text pred_text].
    - rewrite !app_nil_r. reflexivity.
    - cbn [app]. rewrite <- !app_assoc. reflexivity.
  Qed.
  (** the names of predicates need no labels *)
  Lemma named_iris : forall nodes nm, Forall (fun x => exists i, x = Iri i) nodes -> named_n names pm base nm nodes = (nm, named pm base nodes).
  Proof.
    intros nodes nm F. induction F as [|x nodes [i ->] F IH]; [reflexivity|]. cbn [named_n named repr_n]. destruct (turtle_repr pm base (Iri i)) as [n|e]; [|reflexivity]. rewrite IH. cbn [bind]. destruct (named pm base nodes); reflexivity.
  Qed.
  Lemma subjects_laid_n : forall l nm, wfn names nm -> Forall (fun nx => rp nm (snd nx) (fst nx) /\ honoured (Some (snd nx)) /\ forall p o, In (Tr (snd nx) p o) G -> ok_object o) l ->
    exists nm' bl, grows nm nm' /\ wfn names nm' /\ map fst bl = l /\ Forall (laid_block_n nm') bl /\
      subjects_n names ord fuel pm base g w nm l = (w, nm', (concat (map block_text bl), Ok tt)).
  Proof.
    pose proof US as (U1 & U2 & CL & U4). induction l as [|[sn s] l IH]; intros nm W F; [exists nm, []; split; [apply grows_refl|]; auto|].
    inversion F as [|? ? (R & Hs & OK) F']; subst. cbn [fst snd] in *.
    assert (PI : forall p, In p (preds_of s) -> exists i, p = Iri i /\ i <> []).
    { intros p J. apply preds_In in J; auto. destruct J as [o J]. destruct (U2 _ J) as [(_ & i & Ei) (_ & Hp & _)]. cbn in Ei, Hp. subst p. exists i. split; [reflexivity|]. intros ->. now apply Hp. }
    assert (PF : Forall (fun x => exists i, x = Iri i) (preds_of s)) by (apply Forall_forall; intros p J; destruct (PI p J) as (i & -> & _); eauto).
    cbn [subjects_n]. unfold sorted_n. rewrite (named_iris _ nm PF).
    destruct (sorted_nodes pm base (preds_of s)) as [(ps & EP & _)|(_ & b & J)].
    { apply Forall_forall. intros p J. destruct (PI p J) as (i & -> & _). exact Logic.I. }
    2:{ destruct (PI _ J) as (i & X & _). discriminate X. }
    pose proof EP as EP'. unfold turtle_sorted_names in EP'. destruct (named pm base (preds_of s)) as [l1|e]; [|discriminate]. cbn [bind] in EP'. rewrite EP'.
    destruct (sorted_names_sorted pm base (preds_of s) ps) as (SS & LP & RP); auto; [apply NoDup_nodup|].
    destruct (predicates_laid_n s (S (length sn)) ps nm W Hs) as (nm1 & pl & G1 & W1 & <- & FP & EW).
    { rewrite Forall_forall in *. intros np J. split; [auto|]. destruct (PI (snd np)) as (i & Ei & NE); [apply LP; now apply in_map|]. exists i. rewrite <- Ei. eauto. }
    destruct (IH nm1 W1) as (nm2 & bl & G2 & W2 & <- & FL & E).
    { eapply Forall_impl; [|exact F']. intros nx (A & B & C). split; [now apply (rep_grows pm base nm)|auto]. }
    exists nm2, ((sn, s, pl) :: bl). split; [now apply (grows_trans _ nm1)|]. split; [exact W2|]. split; [reflexivity|]. split.
    - constructor; [|exact FL]. apply (laid_block_grows nm1); [exact G2|]. cbn [laid_block_n]. split; [now apply (rep_grows pm base nm)|]. split; [|exact FP]. rewrite map_map in LP.
      eapply lists_iff; [exact LP|]. intro p. cbn beta. now apply preds_In.
    - rewrite EW, E. f_equal. f_equal. cbn [map concat block_text].
      assert (EQ : forall x : list (str * term), (match x with [] => [] | _ => [] end : str) = []) by (now intros []). rewrite EQ. cbn [app]. rewrite <- !app_assoc. reflexivity.
  Qed.
  Definition laid_out_n (nm : name_map) (bl : list subj_part) : Prop :=
    lists (map (fun b => snd (fst b)) bl) (fun s => In s (g_subjects g) /\ ~ list_cell G s) /\ Forall (laid_block_n nm) bl.
  (** the names of IRIs among the subjects are no labels *)
  Hypothesis NL : forall s i n, In s (g_subjects g) -> ~ list_cell G s -> s = Iri i -> turtle_repr pm base s = Ok n -> ~ TurtleTextSpec.label n.
  Lemma serialize_n_layout : printable_named G -> exists nm bl, wfn names nm /\ laid_out_n nm bl /\
    serialize_n names ord fuel pm base g w = (w, nm, (header pm base ++ concat (map block_text bl), Ok tt)).
  Proof.
    intros PN. destruct (list_class_reached _ _ WR) as [L _]. pose proof US as (U1 & U2 & CL & U4). unfold serialize_n.
    destruct (plain_subjects_ok g w (g_subjects g) L) as (l & E & M). rewrite E.
    assert (ML : forall s, In s l <-> In s (g_subjects g) /\ ~ list_cell G s).
    { intro s. rewrite M. split; intros [J K]; (split; [exact J|]); destruct (is_list_spec w g s RG L (proj2 (U1 s J))) as [[X Y]|[X Y]]; congruence || contradiction || assumption. }
    assert (NDs : NoDup l) by (eapply plain_subjects_sub; [exact E|]; exact (listed_NoDup g SPO (reachable_wf _ RG))).
    destruct (named_n_ok names pm base LB l []) as (nm & l1 & EN & _ & W & MS & FR).
    { split; [constructor|]. intros [|k] b n X; discriminate. }
    { intros x J NB. apply (repr_total pm base ns); auto. }
    unfold sorted_n. rewrite EN. rewrite Forall_forall in FR.
    assert (KIND : forall a, In a l1 -> is_iri a /\ ~ TurtleTextSpec.label (fst a) \/ exists b, snd a = BNode b /\ In (b, fst a) nm).
    { intros [n x] J. pose proof (FR _ J) as R. assert (JX : In x l) by (rewrite <- MS; exact (in_map snd _ _ J)). apply ML in JX. destruct JX as [J1 J2]. cbn [fst snd] in *. destruct x as [i|b|v lg d]; [left|right; eauto|destruct (proj1 (U1 _ J1))].
      split; [now exists i|]. exact (NL (Iri i) i n J1 J2 eq_refl R). }
    destruct (sort_ok l1) as (sl & ES & PE).
    { intros a b J K. apply comparable_cases. destruct (KIND a J) as [[A1 A2]|(x & A1 & A2)], (KIND b K) as [[B1 B2]|(y & B1 & B2)].
      - left. auto.
      - right. left. intro X. apply A2. rewrite X. exact (wfn_label names LB nm y _ W B2).
      - right. left. intro X. apply B2. rewrite <- X. exact (wfn_label names LB nm x _ W A2).
      - destruct (str_eq_dec (fst a) (fst b)) as [X|X]; [right; right|right; left; exact X]. rewrite X in A2. assert (x = y) by exact (wfn_inj names LB nm x y _ W A2 B2). subst y. destruct a, b. cbn in *. congruence. }
    rewrite ES. assert (JS : forall nx, In nx sl -> In (snd nx) (g_subjects g) /\ ~ list_cell G (snd nx)).
    { intros nx J. apply ML. rewrite <- MS. apply in_map. apply (Permutation_in _ (Permutation_sym PE) J). }
    destruct (subjects_laid_n sl nm W) as (nm' & bl & GR & W' & EB & FB & EW).
    { apply Forall_forall. intros nx J. split; [apply FR; apply (Permutation_in _ (Permutation_sym PE) J)|]. destruct (JS nx J) as [J1 J2]. split; [exact (proj2 (U1 _ J1))|].
      intros p o T. split; [now exists (snd nx), p|]. intro CO. right. split; [exact CO|]. exact (PN _ T J2 CO). }
    exists nm', bl. rewrite EW. split; [exact W'|]. split; [|reflexivity]. split; [|exact FB]. rewrite <- (map_map fst snd), EB. eapply lists_iff; [|exact ML].
    assert (P2 : Permutation (map snd sl) l) by (rewrite <- MS; apply Permutation_map; now apply Permutation_sym). split; [eapply Permutation_NoDup; [apply Permutation_sym; exact P2|exact NDs]|].
    intro x. split; [apply (Permutation_in _ P2)|apply (Permutation_in _ (Permutation_sym P2))].
  Qed.
End LayoutN.

(** ** What the text means *)
Section TripN.
  Variables (names : nat -> res str) (resolves : str -> str -> str -> Prop).
  Variables (pm : dict str str) (base : option str) (B : str) (g : graph) (nm : name_map).
  Notation G := (g_iter g).
  Hypotheses (LB : labels names) (W : wfn names nm) (RD : readable_graph resolves pm base B G).
  Notation MO := (obj_means resolves).
  Notation MP := (pol_means resolves).
  Definition name_of (b : N) : str := match dget N.eq_dec nm b with Some n => n | None => [] end.
  Definition rho_of (L : str -> N) (b : N) : N := L (name_of b).
  Lemma name_of_In : forall b n, In (b, n) nm -> name_of b = n.
  Proof. intros b n J. unfold name_of. rewrite (In_dget N.eq_dec nm b n); [reflexivity|exact (proj1 W)|exact J]. Qed.
  Definition obj_trip_n (o : term) (t : str) (ob : tobj) (k : nat) : Prop :=
    obj_text true ob t /\ obj_flat ob = true /\ (nested ob = true -> list_cell G o) /\ (forall b, o = BNode b -> ~ list_cell G o -> In (b, name_of b) nm /\ In (name_of b) (obj_labels ob)) /\
    forall e L bs, env_with pm B e -> length bs = k -> exists x ts, MO e L ob x ts bs /\ forall s p, reads_named (rho_of L) G (Tr s p o) (tr3 (renamed (rho_of L) s) p x :: ts) bs.
  Lemma object_trip_n : forall s p o t, In (Tr s p o) G -> ~ list_cell G s -> text_n pm base g nm o t -> exists ob k, obj_trip_n o t ob k.
  Proof.
    intros s p o t J NC [OT|(NL & b & -> & JB)].
    - destruct (object_trip resolves pm base B G RD s p o t J NC OT) as (ob & k & T & FL & NS & M). exists ob, k. do 3 (split; [assumption|]). 
      assert (NB : ~ list_cell G o -> forall b, o <> BNode b).
      { intros NL b ->. destruct OT as [[_ X]|[X _]]; [discriminate X|contradiction]. }
      split; [intros b E NL; now destruct (NB NL b)|].
      intros e L bs H X. destruct (M e L bs H X) as (x & ts & MX & RA). exists x, ts. split; [exact MX|]. intros s' p'. specialize (RA s' p').
      remember (Tr s' p' o) as tr eqn:ET. remember (tr3 s' p' x :: ts) as tl eqn:EL. destruct RA as [s1 p1 o1 NL|s1 p1 o1 os bs LC LO LN].
      + injection ET as -> -> ->. injection EL as <- <-. replace (read_back o) with (read_back (renamed (rho_of L) o)) by (destruct o as [|b|]; try reflexivity; now destruct (NB NL b)). now apply rn_plain.
      + injection ET as -> -> ->. injection EL as <- <-. now apply rn_list.
    - pose proof (name_of_In _ _ JB) as En. subst t. exists (TLabel (name_of b)), 0%nat. split; [apply ot_label; exact (wfn_label names LB nm b _ W JB)|]. do 2 (split; [reflexivity || discriminate|]). split.
      { intros b' E _. injection E as <-. split; [exact JB|now left]. }
      intros e L [|] H X; [|discriminate]. exists (BNode (rho_of L b)), []. split; [apply om_label|]. intros s' p'. exact (rn_plain (rho_of L) G s' p' (BNode b) NL).
  Qed.
  Lemma all_named_app : forall rho l l' ts ts' bs bs', all_named rho G l ts bs -> all_named rho G l' ts' bs' -> all_named rho G (l ++ l') (ts ++ ts') (bs ++ bs').
  Proof.
    intros rho l l' ts ts' bs bs' A A'. induction A as [|t l ts1 bs1 ts2 bs2 R A IH]; [exact A'|]. cbn. rewrite <- !app_assoc. now constructor.
  Qed.
  (** the objects of one predicate *)
  Lemma objects_trip_n : forall ind s p ol, gap ind -> ~ list_cell G s -> Forall (fun to => In (Tr s p (snd to)) G) ol ->
    Forall (fun to => text_n pm base g nm (snd to) (fst to)) ol -> ol <> [] ->
    exists obs k, TurtleTextSpec.objs_text true obs (TurtleOutSpec.objs_text ind ol) /\ objs_flat obs = true /\ length ol = length (nested_flags obs) /\
      (some_nested obs = true -> exists o, In o (map snd ol) /\ list_cell G o) /\
      (forall b, In (BNode b) (map snd ol) -> ~ list_cell G (BNode b) -> In (b, name_of b) nm /\ In (name_of b) (objs_labels obs)) /\
      forall e L v r bs bs', env_with pm B e -> length bs = k -> verb_means resolves e v p -> forall tsr, MP e L (renamed (rho_of L) s) r tsr bs' ->
        exists ts, MP e L (renamed (rho_of L) s) (PCons v obs r) (ts ++ tsr) (bs ++ bs') /\ all_named (rho_of L) G (map (fun to => Tr s p (snd to)) ol) ts bs.
  Proof.
    intros ind s p ol GI NC. induction ol as [|[t o] ol IH]; intros FI FT NE; [now destruct NE|].
    inversion FI as [|? ? I0 FI']; subst. inversion FT as [|? ? T0 FT']; subst. cbn [fst snd] in *.
    destruct (object_trip_n s p o t I0 NC T0) as (ob & k & TX & FL & NS & LS & M). destruct ol as [|to ol].
    - exists (OCons ob ONil), k. split; [now apply os_one|]. split; [cbn; now rewrite FL|]. split; [reflexivity|]. split; [|split].
      { cbn. rewrite orb_false_r. intro X. exists o. auto. }
      { intros b [E|[]] NL. cbn in E. subst o. cbn. rewrite app_nil_r. now apply LS. }
      intros e L v r bs bs' H X V tsr R. destruct (M e L bs H X) as (x & ts & MX & RA). exists (tr3 (renamed (rho_of L) s) p x :: ts). split.
      + change ((tr3 (renamed (rho_of L) s) p x :: ts) ++ tsr) with (tr3 (renamed (rho_of L) s) p x :: ts ++ tsr). apply pm_cons; auto. now constructor.
      + cbn [map snd]. rewrite <- (app_nil_r (tr3 (renamed (rho_of L) s) p x :: ts)), <- (app_nil_r bs). apply an_cons; [apply RA|constructor].
    - destruct (IH FI' FT' ltac:(discriminate)) as (obs & k' & TX' & FL' & LN & NS' & LS' & M'). exists (OCons ob obs), (k + k')%nat. split; [|split; [|split; [|split; [|split]]]].
      + destruct to as [t' o'].
        change (TurtleOutSpec.objs_text ind ((t, o) :: (t', o') :: ol)) with (t ++ [] ++ [44] ++ (newline ++ ind) ++ TurtleOutSpec.objs_text ind ((t', o') :: ol)).
        apply os_cons; auto; [constructor|]. apply gap_app; [exact gap_nl|exact GI].
      + cbn. now rewrite FL, FL'.
      + cbn [nested_flags length]. rewrite <- LN. reflexivity.
      + cbn [some_nested]. intro X. apply orb_prop in X. destruct X as [X|X]; [exists o; split; [now left|auto]|]. destruct (NS' X) as (y & J & C). exists y. split; [now right|exact C].
      + intros b J NL. cbn [objs_labels]. rewrite in_app_iff. destruct J as [E|J]; [cbn in E; subst o; destruct (LS b eq_refl NL); auto|]. destruct (LS' b J NL); auto.
      + intros e L v r bs bs' H X V tsr R. destruct (split_len bs k k' X) as (b1 & b2 & -> & X1 & X2).
        destruct (M e L b1 H X1) as (x & ts & MX & RA). destruct (M' e L v r b2 bs' H X2 V tsr R) as (ts' & MR & AR).
        exists ((tr3 (renamed (rho_of L) s) p x :: ts) ++ ts'). split.
        * rewrite <- !app_assoc. change ((tr3 (renamed (rho_of L) s) p x :: ts) ++ ts' ++ tsr) with (tr3 (renamed (rho_of L) s) p x :: ts ++ (ts' ++ tsr)). now apply pm_cons.
        * cbn [map snd]. apply an_cons; [apply RA|exact AR].
  Qed.
  (** the predicates of one subject *)
  Lemma predicates_trip_n : forall s n pl, ~ list_cell G s -> Forall (laid_pred_n pm base g nm s) pl ->
    Forall (fun e => exists o, In (Tr s (snd (fst e)) o) G) pl -> Forall (fun e => exists i, snd (fst e) = Iri i) pl -> pl <> [] ->
    exists pol k t, preds_text n pl = t ++ [10] /\ pol_text true pol t /\ (lists_alone G -> pol_flat pol = true) /\
      (forall b p, In p (map (fun e => snd (fst e)) pl) -> In (Tr s p (BNode b)) G -> ~ list_cell G (BNode b) -> In (b, name_of b) nm /\ In (name_of b) (pol_labels pol)) /\
      forall e L bs, env_with pm B e -> length bs = k -> exists ts, MP e L (renamed (rho_of L) s) pol ts bs /\ all_named (rho_of L) G (concat (map (pred_stmts s) pl)) ts bs.
  Proof.
    intros s n pl NC. induction pl as [|[[pn p] ol] pl IH]; intros FL FO FI NE; [now destruct NE|].
    inversion FL as [|? ? H0 FL']; subst. inversion FO as [|? ? [o0 O0] FO']; subst. inversion FI as [|? ? [i Ei] FI']; subst. cbn [fst snd] in *. subst p.
    destruct H0 as (RP & [ND LI] & FT).
    assert (FG : Forall (fun to => In (Tr s (Iri i) (snd to)) G) ol) by (apply Forall_forall; intros to J; apply LI; now apply in_map).
    assert (NEo : ol <> []) by (intros ->; apply LI in O0; destruct O0).
    destruct (objects_trip_n (blanks (n + length pn + 1)) s (Iri i) ol (gap_blanks _) NC FG FT NEo) as (obs & k & TX & FLo & LN & NS & LS & M).
    destruct (iri_reads resolves pm base B i pn (proj1 (proj2 (RD _ O0 NC))) RP) as (ii & TI & MI).
    assert (FLAT : lists_alone G -> negb (several obs && some_nested obs) && objs_flat obs = true).
    { intro LA. rewrite FLo, andb_true_r. destruct (some_nested obs) eqn:SN; [|now rewrite andb_false_r]. destruct (NS eq_refl) as (o & J & C). rewrite andb_true_r.
      assert (AL : forall x, In x (map snd ol) -> x = o). { intros x X. apply LI in J, X. exact (LA s (Iri i) o x J X C). }
      destruct ol as [|a [|b ol]]; [now destruct NEo| |].
      - destruct obs as [|? [|? ?]]; try reflexivity. discriminate LN.
      - exfalso. cbn in AL. assert (X := AL (snd a) ltac:(auto)). assert (Y := AL (snd b) ltac:(auto)). cbn in ND. inversion ND as [|? ? NI _]. apply NI. left. congruence. }
    assert (LS0 : forall b, In (Tr s (Iri i) (BNode b)) G -> ~ list_cell G (BNode b) -> In (b, name_of b) nm /\ In (name_of b) (objs_labels obs)).
    { intros b J NL. apply LS; [|exact NL]. now apply LI. }
    assert (AP : apart true [32] (TurtleOutSpec.objs_text (blanks (n + length pn + 1)) ol)) by (split; [exact gap_sp|left; discriminate]).
    destruct pl as [|e pl].
    - exists (PCons (VIri ii) obs PNil), k, ((pn ++ [32] ++ TurtleOutSpec.objs_text (blanks (n + length pn + 1)) ol) ++ [32] ++ [59]). split; [|split; [|split; [|split]]].
      + cbn [preds_text pred_text]. rewrite <- !app_assoc. reflexivity.
      + apply pt_semi; [|exact gap_sp]. apply pt_one; auto. now constructor.
      + intro LA. cbn [pol_flat]. now rewrite (FLAT LA).
      + intros b p [E|[]] J NL. cbn in E. subst p. cbn [pol_labels]. rewrite app_nil_r. auto.
      + intros en L bs H X. destruct (M en L (VIri ii) PNil bs [] H X ltac:(constructor; auto) [] ltac:(constructor)) as (ts & MR & AR). rewrite !app_nil_r in MR.
        exists ts. split; [exact MR|]. cbn [map concat pred_stmts fst snd]. now rewrite app_nil_r.
    - destruct (IH FL' FO' FI' ltac:(discriminate)) as (pol & k' & t' & E' & T' & FL2 & LS2 & M').
      exists (PCons (VIri ii) obs pol), (k + k')%nat, (pn ++ [32] ++ TurtleOutSpec.objs_text (blanks (n + length pn + 1)) ol ++ ([32] ++ [59] ++ ([10] ++ blanks n)) ++ t'). split; [|split; [|split; [|split]]].
      + change (preds_text n ((pn, Iri i, ol) :: e :: pl)) with (pred_text n (pn, Iri i, ol) ++ blanks n ++ preds_text n (e :: pl)). rewrite E'.
        cbn [pred_text]. rewrite <- !app_assoc. reflexivity.
      + apply pt_cons; auto; [now constructor|]. apply sm_one; [exact gap_sp|]. apply gap_app; [exact gap_nl|apply gap_blanks].
      + intro LA. cbn [pol_flat]. now rewrite (FLAT LA), (FL2 LA).
      + intros b p IP J NL. cbn [pol_labels]. rewrite in_app_iff. destruct IP as [E|IP]; [cbn in E; subst p; destruct (LS0 b J NL); auto|]. destruct (LS2 b p IP J NL); auto.
      + intros en L bs H X. destruct (split_len bs k k' X) as (b1 & b2 & -> & X1 & X2). destruct (M' en L b2 H X2) as (ts2 & MR2 & AR2).
        destruct (M en L (VIri ii) pol b1 b2 H X1 ltac:(constructor; auto) ts2 MR2) as (ts & MR & AR). exists (ts ++ ts2). split; [exact MR|].
        change (concat (map (pred_stmts s) ((pn, Iri i, ol) :: e :: pl))) with (pred_stmts s (pn, Iri i, ol) ++ concat (map (pred_stmts s) (e :: pl))). apply all_named_app; auto.
  Qed.
  (** a subject *)
  Lemma subject_trip : forall s sn p0 o0, In (Tr s p0 o0) G -> ~ list_cell G s -> node s -> rep pm base nm s sn ->
    exists ob, subject_form ob /\ obj_text true ob sn /\ obj_flat ob = true /\ (forall b, s = BNode b -> In (b, name_of b) nm /\ In (name_of b) (obj_labels ob)) /\
      forall e L, env_with pm B e -> MO e L ob (renamed (rho_of L) s) [] [].
  Proof.
    intros s sn p0 o0 J NC NO R. destruct s as [i|b|v l d]; [| |destruct NO].
    - destruct (iri_reads resolves pm base B i sn (proj1 (RD _ J NC)) R) as (ii & TI & MI). exists (TIri ii). split; [exact Logic.I|]. split; [now constructor|]. split; [reflexivity|]. split; [discriminate|].
      intros e L H. constructor. auto.
    - cbn in R. pose proof (name_of_In _ _ R) as En. subst sn. exists (TLabel (name_of b)). split; [exact Logic.I|]. split; [apply ot_label; exact (wfn_label names LB nm b _ W R)|]. split; [reflexivity|]. split; [intros b' E; injection E as <-; split; [exact R|now left]|].
      intros e L H. apply om_label.
  Qed.
  Lemma blocks_trip_n : forall bl, (forall t, In t G -> exists i, st_p t = Iri i) -> Forall (laid_block_n pm base g nm) bl ->
    Forall (fun b => ~ list_cell G (snd (fst b)) /\ node (snd (fst b)) /\ exists p o, In (Tr (snd (fst b)) p o) G) bl ->
    exists d k, doc_text true d (concat (map block_text bl)) /\ (lists_alone G -> forallb stmt_flat d = true) /\
      (forall t b, In t G -> In (st_s t) (map (fun b => snd (fst b)) bl) -> st_graph t = None -> st_s t = BNode b \/ st_o t = BNode b /\ ~ list_cell G (BNode b) -> In (b, name_of b) nm /\ In (name_of b) (doc_labels d)) /\
      forall e L bs, env_with pm B e -> length bs = k -> exists ts, doc_means resolves L e d ts bs /\ all_named (rho_of L) G (concat (map block_stmts bl)) ts bs.
  Proof.
    intros bl IP FB FC. induction FB as [|[[sn s] pl] bl H0 FB IH].
    - exists [], 0%nat. split; [constructor; left; constructor|]. split; [reflexivity|]. split; [intros t b _ []|]. intros e L [|] H X; [|discriminate]. exists []. split; constructor.
    - inversion FC as [|? ? (NC & NO & p0 & o0 & J0) FC']; subst. cbn [fst snd] in *. destruct (IH FC') as (d & k & T & FL & LS & M).
      destruct H0 as (RS & [ND LI] & FP).
      assert (NEp : pl <> []). { intros ->. assert (X : In p0 []) by (apply (LI p0); eauto). destruct X. }
      assert (FO : Forall (fun e : pred_part => exists o, In (Tr s (snd (fst e)) o) G) pl).
      { apply Forall_forall. intros e J. apply LI. exact (in_map (fun e => snd (fst e)) _ _ J). }
      assert (FI : Forall (fun e : pred_part => exists j, snd (fst e) = Iri j) pl).
      { rewrite Forall_forall in FO |- *. intros e J. destruct (FO e J) as [o X]. exact (IP _ X). }
      destruct (predicates_trip_n s (S (length sn)) pl NC FP FO FI NEp) as (pol & k1 & t & E & TP & FL1 & LS1 & M1).
      destruct (subject_trip s sn p0 o0 J0 NC NO RS) as (ob & SF & TO & FO1 & LSs & MS).
      exists (STriples ob pol :: d), (k1 + k)%nat. split; [|split; [|split]].
      + cbn [map concat]. unfold block_text at 1. rewrite E.
        replace ((sn ++ s2l " " ++ (t ++ [10]) ++ blanks (S (length sn)) ++ s2l "." ++ newline ++ newline) ++ concat (map block_text bl)) with
          ((sn ++ [32] ++ t ++ ([10] ++ blanks (S (length sn))) ++ [46]) ++ (newline ++ newline) ++ concat (map block_text bl)).
        2:{ rewrite <- !app_assoc. reflexivity. }
        apply (dx_first true _ false); [| |discriminate].
        * apply sx_triples; auto; [split; [exact gap_sp|left; discriminate]|apply gap_app; [exact gap_nl|apply gap_blanks]|left; discriminate].
        * apply dx_gap; [|exact T]. apply gap_app; exact gap_nl.
      + intro LA. cbn [forallb stmt_flat]. now rewrite FO1, (FL1 LA), (FL LA).
      + intros x b J JS T4 C. cbn [doc_labels]. rewrite !in_app_iff. destruct JS as [ES|JS]; [|destruct (LS x b J JS T4 C); auto]. cbn in ES. destruct C as [C|[C NL]].
        * destruct (LSs b) as [A1 A2]; [congruence|auto].
        * assert (JX : In (Tr s (st_p x) (BNode b)) G) by (destruct x as [xs xp xo xg]; cbn in *; subst; exact J). destruct (LS1 b (st_p x)) as [A1 A2]; auto. apply LI. eauto.
      + intros e L bs H X. destruct (split_len bs k1 k X) as (b1 & b2 & -> & X1 & X2). destruct (M1 e L b1 H X1) as (ts1 & A1 & R1). destruct (M e L b2 H X2) as (ts2 & A2 & R2).
        exists (ts1 ++ ts2). split.
        * exact (dm_triples resolves L e ob pol d (renamed (rho_of L) s) [] ts1 ts2 [] b1 b2 (MS e L H) A1 A2).
        * change (concat (map block_stmts ((sn, s, pl) :: bl))) with (block_stmts (sn, s, pl) ++ concat (map block_stmts bl)). apply all_named_app; auto.
  Qed.
End TripN.

(** ** The whole document *)
Section WholeN.
  Variables (names : nat -> res str) (resolves : str -> str -> str -> Prop).
  Variables (pm : dict str str) (base : option str) (B0 B : str) (g : graph) (nm : name_map) (bl : list subj_part).
  Notation G := (g_iter g).
  Notation subjects := (g_subjects g).
  Hypotheses (LB : labels names) (W : wfn names nm).
  Hypotheses (RD : readable_graph resolves pm base B G) (HL : header_legal pm base) (HM : header_means resolves B0 base B pm).
  Hypotheses (RT : forall t, In t G -> exists i, st_p t = Iri i) (NS : no_stale_subjects G subjects)
    (TR : forall t, In t G -> In (st_s t) subjects) (T4 : forall t, In t G -> st_graph t = None)
    (PS : forall s, In s subjects -> node s)
    (LO : laid_out_n pm base g nm bl).
  Lemma blocks_n_NoDup : NoDup (concat (map block_stmts bl)) /\ forall t, In t (concat (map block_stmts bl)) <-> In t G /\ ~ list_cell G (st_s t).
  Proof.
    destruct LO as ([ND LI] & FB). rewrite Forall_forall in FB.
    assert (IN : forall b p o, In b bl -> In p (snd b) -> In o (snd p) -> In (Tr (snd (fst b)) (snd (fst p)) (snd o)) G).
    { intros [[sn s] pl] [[pn p] ol] o J K O. apply FB in J. destruct J as (_ & _ & FP). rewrite Forall_forall in FP. apply FP in K. destruct K as (_ & [_ L2] & _).
      cbn [fst snd] in *. apply L2. now apply in_map. }
    split.
    - apply concat_NoDup.
      + eapply NoDup_map_inv. exact ND.
      + intros [[sn s] pl] J. apply FB in J. destruct J as (_ & [N1 _] & FP). unfold block_stmts. cbn [fst snd]. apply concat_NoDup.
        * eapply NoDup_map_inv. exact N1.
        * intros [[pn p] ol] K. rewrite Forall_forall in FP. apply FP in K. destruct K as (_ & [N2 _] & _). unfold pred_stmts. cbn [fst snd].
          rewrite <- (map_map snd (fun o => Tr s p o)). apply FinFun.Injective_map_NoDup; [|exact N2]. intros x y E. injection E. auto.
        * intros e e' t K K' T T'. unfold pred_stmts in T, T'. apply in_map_iff in T, T'. destruct T as (to & <- & _). destruct T' as (to' & E & _). injection E as E _.
          clear - N1 K K' E. induction pl as [|x pl IH]; [destruct K|]. cbn in N1. inversion N1 as [|? ? NI N2]; subst. destruct K as [->|K], K' as [->|K']; auto.
          -- exfalso. apply NI. rewrite <- E. exact (in_map (fun e => snd (fst e)) _ _ K').
          -- exfalso. apply NI. rewrite E. exact (in_map (fun e => snd (fst e)) _ _ K).
      + intros b b' t K K' T T'. unfold block_stmts in T, T'. apply in_concat in T, T'. destruct T as (x & X & T). destruct T' as (x' & X' & T'). apply in_map_iff in X, X'.
        destruct X as (e & <- & _). destruct X' as (e' & <- & _). unfold pred_stmts in T, T'. apply in_map_iff in T, T'. destruct T as (to & <- & _). destruct T' as (to' & E & _).
        injection E as E _ _. clear - ND K K' E. induction bl as [|y l IH]; [destruct K|]. cbn in ND. inversion ND as [|? ? NI N2]; subst. destruct K as [->|K], K' as [->|K']; auto.
        -- exfalso. apply NI. rewrite <- E. exact (in_map (fun e => snd (fst e)) _ _ K').
        -- exfalso. apply NI. rewrite E. exact (in_map (fun e => snd (fst e)) _ _ K).
    - intro t. split.
      + intro T. apply in_concat in T. destruct T as (x & X & T). apply in_map_iff in X. destruct X as (b & <- & K). unfold block_stmts in T. apply in_concat in T.
        destruct T as (x & X & T). apply in_map_iff in X. destruct X as (e & <- & K2). unfold pred_stmts in T. apply in_map_iff in T. destruct T as (to & <- & K3).
        split; [eapply IN; eauto|]. cbn [st_s Tr]. apply LI. exact (in_map (fun b => snd (fst b)) _ _ K).
      + intros [T C]. assert (S : In (st_s t) (map (fun b => snd (fst b)) bl)) by (apply LI; auto). apply in_map_iff in S. destruct S as ([[sn s] pl] & E & K). cbn [fst snd] in E. subst s.
        assert (K0 := K). apply FB in K. destruct K as (_ & [_ LP] & FP). assert (Et : t = Tr (st_s t) (st_p t) (st_o t)) by (assert (X := T4 t T); destruct t; cbn in X; subst; reflexivity).
        assert (P : In (st_p t) (map (fun e => snd (fst e)) pl)) by (apply LP; exists (st_o t); now rewrite <- Et).
        apply in_map_iff in P. destruct P as ([[pn p] ol] & E & K). cbn [fst snd] in E. subst p. assert (K1 := K). rewrite Forall_forall in FP. apply FP in K. destruct K as (_ & [_ LL] & _).
        assert (O : In (st_o t) (map snd ol)) by (apply LL; now rewrite <- Et). apply in_map_iff in O. destruct O as (to & E & K2).
        apply in_concat. exists (block_stmts (sn, st_s t, pl)). split; [now apply in_map|]. unfold block_stmts. cbn [fst snd]. apply in_concat.
        exists (pred_stmts (st_s t) (pn, st_p t, ol)). split; [now apply in_map|]. unfold pred_stmts. cbn [fst snd]. apply in_map_iff. exists to. split; [|exact K2]. rewrite E. now symmetry.
  Qed.
  Lemma whole_trip_n : exists d k, doc_text true d (header pm base ++ concat (map block_text bl)) /\ (lists_alone G -> forallb stmt_flat d = true) /\
    (forall b, blank_of G b -> In (b, name_of nm b) nm /\ In (name_of nm b) (doc_labels d)) /\
    forall L bs, length bs = k -> exists ts, doc_means resolves L (env0 B0) d ts bs /\ (NoDup bs -> graph_named (rho_of nm L) G ts bs).
  Proof.
    assert (LO' := LO). destruct LO' as ([_ LI] & FB).
    destruct (blocks_trip_n names resolves pm base B g nm LB W RD bl RT FB) as (d & k & T & FL & LS & M).
    { apply Forall_forall. intros b J. assert (X := proj1 (LI (snd (fst b))) (in_map (fun b => snd (fst b)) _ _ J)). destruct X as [X C]. split; [exact C|]. split; [now apply PS|now apply NS]. }
    exists (directives pm base ++ d), k. split; [now apply header_text|]. split; [|split].
    - intro LA. rewrite forallb_app, (FL LA), andb_true_r. unfold directives. rewrite forallb_app. apply andb_true_intro. split; [now destruct base|].
      apply forallb_forall. intros x J. apply in_map_iff in J. destruct J as (y & <- & _). reflexivity.
    - intros b (t & J & NC & C). destruct (LS t b J) as [A1 A2]; [apply LI; auto|auto|exact C|]. split; [exact A1|].
      assert (DL : forall l, (forall x, In x l -> match x with STriples _ _ => False | _ => True end) -> doc_labels (l ++ d) = doc_labels d).
      { induction l as [|x l IH]; intro H; [reflexivity|]. assert (X := H x (or_introl eq_refl)). cbn [app doc_labels]. destruct x; try contradiction; apply IH; intros y K; apply H; now right. }
      rewrite DL; [exact A2|]. intros x K. unfold directives in K. apply in_app_iff in K. destruct K as [K|K]; [destruct base; [destruct K as [<-|[]]; exact Logic.I|destruct K]|].
      apply in_map_iff in K. destruct K as (y & <- & _). exact Logic.I.
    - destruct (header_doc_means resolves B0 base B pm HL HM) as (e & EW & HD). intros L bs X. destruct (M e L bs EW X) as (ts & D & A).
      exists ts. split; [now apply HD|]. intro N. exists (concat (map block_stmts bl)). destruct blocks_n_NoDup. auto.
  Qed.
End WholeN.

Section RoundN.
  Variables (names : nat -> res str) (ord : list term -> list term) (fuel : nat) (pm : dict str str) (base : option str) (g : graph) (early : world -> Prop) (w : world) (ns : str).
  Hypotheses (LB : labels names) (RG : reachable g) (SH : shuffle ord) (WR : wreach_if early w) (LX : lookup pm (s2l "xsd") ns).
  Hypotheses (US : usual w (g_iter g) (g_subjects g) fuel) (PN : printable_named (g_iter g)) (NS : no_stale_subjects (g_iter g) (g_subjects g)).
  Lemma round_trip_n : forall resolves B0 B, header_legal pm base -> header_means resolves B0 base B pm -> readable_graph resolves pm base B (g_iter g) ->
    exists t nm d k name, serialize_n names ord fuel pm base g w = (w, nm, (t, Ok tt)) /\ doc_text true d t /\ (lists_alone (g_iter g) -> forallb stmt_flat d = true) /\
      (forall b, blank_of (g_iter g) b -> In (b, name b) nm /\ In (name b) (doc_labels d)) /\
      (forall b b', blank_of (g_iter g) b -> blank_of (g_iter g) b' -> name b = name b' -> b = b') /\
      wfn names nm /\
      forall L bs, length bs = k -> exists ts, doc_means resolves L (env0 B0) d ts bs /\ (NoDup bs -> graph_named (fun b => L (name b)) (g_iter g) ts bs).
  Proof.
    intros resolves B0 B HL HM RD.
    destruct (serialize_n_layout names ord fuel pm base g LB RG SH early w ns WR LX US) as (nm & bl & W & LO & E); [|exact PN|].
    { intros s i n J NC -> R. destruct (NS _ J) as (p & o & K). destruct (iri_reads resolves pm base B i n (proj1 (RD _ K NC)) R) as (ii & TI & _). exact (iri_no_label ii n TI). }
    pose proof US as (U1 & U2 & _). destruct (whole_trip_n names resolves pm base B0 B g nm bl LB W RD HL HM) as (d & k & T & F & LS & M); auto.
    - intros t J. apply U2 in J. exact (proj2 (proj1 J)).
    - intros t J. destruct (in_use_always_listed g t RG J) as [X _]. exact X.
    - intros t J. destruct (reachable_wf _ RG) as (_ & HT & _). exact (HT t J).
    - intros s J. exact (proj1 (U1 s J)).
    - exists (header pm base ++ concat (map block_text bl)), nm, d, k, (name_of nm). do 4 (split; [assumption|]). split; [|split; [exact W|exact M]].
      intros b b' H H' X. destruct (LS b H) as [J _]. destruct (LS b' H') as [J' _]. rewrite X in J. exact (wfn_inj names LB nm b b' _ W J J').
  Qed.
  Lemma own_round_trip_n : forall uj n h B0 B, uj_clean uj -> ~ In 60 B0 -> header_legal pm base -> header_means (resolves_by uj) B0 base B pm ->
    readable_graph (resolves_by uj) pm base B (g_iter g) -> lists_alone (g_iter g) ->
    exists t nm n' h' rho ts bs, serialize_n names ord fuel pm base g w = (w, nm, (t, Ok tt)) /\ turtle_parse uj n B0 h (SrcStr t) = Some (n', h', Ok tt) /\
      graph_named rho (g_iter g) ts bs /\ (forall a, In a bs -> n <= a < n') /\
      (forall b, blank_of (g_iter g) b -> n <= rho b < n' /\ ~ In (rho b) bs) /\
      (forall b b', blank_of (g_iter g) b -> blank_of (g_iter g) b' -> rho b = rho b' -> b = b') /\
      (forall x, In x (g_iter h') <-> In x (g_iter h) \/ In x ts).
  Proof.
    intros uj n h B0 B U N60 HL HM RD LA. destruct (round_trip_n (resolves_by uj) B0 B HL HM RD) as (t & nm & d & k & name & E & T & F & LS & IJ & _ & M).
    destruct (M (fun _ => 0) (repeat 0 k) (repeat_length _ _)) as (ts0 & D0 & _).
    destruct (C83_adds_the_triples_of_the_text uj n B0 h d t _ _ _ U N60 T (F LA) D0) as (n' & h' & L & ts & bs & P & D & ND & X & X2 & X3 & Y).
    exists t, nm, n', h', (fun b => L (name b)), ts, bs. do 2 (split; [assumption|]). split; [|split; [exact X|split; [|split; [|exact Y]]]].
    - destruct (firstn_pad bs k) as (bs' & r & r' & LN & Q).
      destruct (M L bs' LN) as (ts' & D' & GR). destruct (doc_det (resolves_by uj)) with (1 := resolves_fun uj) (2 := D) (3 := D') (4 := Q) as [-> ->]. auto.
    - intros b H. apply X2. now apply LS.
    - intros b b' H H' Q. apply IJ; auto. apply X3; auto; now apply LS.
  Qed.
End RoundN.

(** ** Generators without next *)
Section NoNext.
  Variables (ord : list term -> list term) (fuel : nat) (pm : dict str str) (base : option str) (g : graph).
  Lemma repr_none : forall x, repr_n no_next pm base [] x = ([], turtle_repr pm base x).
  Proof. now intros []. Qed.
  Lemma named_none : forall l, named_n no_next pm base [] l = ([], named pm base l).
  Proof. induction l as [|x l IH]; [reflexivity|]. cbn [named_n named]. rewrite repr_none. destruct (turtle_repr pm base x) as [n|e]; [|reflexivity]. rewrite IH. cbn [bind]. now destruct (named pm base l). Qed.
  Lemma sorted_none : forall l, sorted_n no_next pm base [] l = ([], turtle_sorted_names pm base l).
  Proof. intro l. unfold sorted_n, turtle_sorted_names. rewrite named_none. now destruct (named pm base l). Qed.
  Lemma elements_none : forall vs b fin, elements_n no_next pm base [] b vs fin = ([], write_elements pm base b vs fin).
  Proof.
    induction vs as [|v vs IH]; intros b fin; [reflexivity|]. cbn [elements_n write_elements]. destruct v as [os|[|x|c su]]; try reflexivity. rewrite repr_none.
    destruct (turtle_repr pm base x) as [n|e]; [|reflexivity]. rewrite IH. now destruct (write_elements pm base false vs fin).
  Qed.
  Lemma object_none : forall w o, object_n no_next ord fuel pm base g w [] o = (fst (write_object ord fuel pm base g w o), [], snd (write_object ord fuel pm base g w o)).
  Proof.
    intros w o. unfold object_n, write_object. destruct (is_list w 1 g o) as [[|]|e]; [| |reflexivity].
    - destruct (list_iter ord fuel w 1 g (as_subject o)) as [w' [vs fin]]. rewrite elements_none. now destruct (write_elements pm base true vs fin).
    - rewrite repr_none. reflexivity.
  Qed.
  Lemma objects_none : forall ind l w sep, objects_n no_next ord fuel pm base g w [] sep ind l = (fst (write_objects ord fuel pm base g w sep ind l), [], snd (write_objects ord fuel pm base g w sep ind l)).
  Proof.
    intros ind l. induction l as [|o l IH]; intros w sep; [reflexivity|]. cbn [objects_n write_objects]. rewrite object_none. destruct (write_object ord fuel pm base g w o) as [w1 [t [[]|e]]]; cbn [fst snd]; [|reflexivity].
    rewrite IH. now destruct (write_objects ord fuel pm base g w1 _ ind l) as [w2 [t2 x]].
  Qed.
  Lemma predicates_none : forall s n l w sep, predicates_n no_next ord fuel pm base g w [] s sep n l = (fst (write_predicates ord fuel pm base g w s sep n l), [], snd (write_predicates ord fuel pm base g w s sep n l)).
  Proof.
    intros s n l. induction l as [|[pn p] l IH]; intros w sep; [reflexivity|]. cbn [predicates_n write_predicates]. rewrite objects_none.
    destruct (write_objects ord fuel pm base g w [] _ _) as [w1 [t [[]|e]]]; cbn [fst snd]; [|reflexivity]. rewrite IH. now destruct (write_predicates ord fuel pm base g w1 s _ n l) as [w2 [t2 x]].
  Qed.
  Lemma subjects_none : forall l w, subjects_n no_next ord fuel pm base g w [] l = (fst (write_subjects ord fuel pm base g w l), [], snd (write_subjects ord fuel pm base g w l)).
  Proof.
    induction l as [|[sn s] l IH]; intro w; [reflexivity|]. cbn [subjects_n write_subjects]. rewrite sorted_none. destruct (turtle_sorted_names pm base _) as [ps|e]; [|reflexivity]. rewrite predicates_none.
    destruct (write_predicates ord fuel pm base g w s [] _ ps) as [w1 [t [[]|e]]]; cbn [fst snd]; [|reflexivity]. rewrite IH. now destruct (write_subjects ord fuel pm base g w1 l) as [w2 [t2 x]].
  Qed.
  Lemma serialize_none : forall w, serialize_n no_next ord fuel pm base g w = (fst (serialize_turtle ord fuel pm base g w), [], snd (serialize_turtle ord fuel pm base g w)).
  Proof.
    intro w. unfold serialize_n, serialize_turtle. destruct (plain_subjects g w (g_subjects g)) as [l|e]; [|reflexivity]. cbn [bind]. rewrite sorted_none. destruct (turtle_sorted_names pm base l) as [l'|e]; [|reflexivity].
    rewrite subjects_none. now destruct (write_subjects ord fuel pm base g w l') as [w2 [t2 x]].
  Qed.
End NoNext.
