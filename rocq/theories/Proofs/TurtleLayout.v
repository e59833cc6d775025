(** serialize_turtle: the text it writes. *)
From Coq Require Import Permutation Sorted.
From Verif Require Import Model.Py Model.Terms Model.Graph Model.GraphRun Model.Curie Model.TurtleTree Model.Resource Model.ResourceRun Model.TurtleOut
  Spec.GraphSpec Spec.CurieSpec Spec.TurtleSpec Spec.ResourceSpec Spec.TurtleOutSpec
  Proofs.GraphInv Proofs.GraphHist Proofs.CurieLemmas Proofs.LangLemmas Proofs.ResourceLemmas Proofs.ClassLemmas Proofs.ResourceMore Proofs.TurtleRepr Proofs.ListClass
  Proofs.TurtleWrite.
Open Scope N_scope.

(** ** Sorting *)
Lemma str_ltb_lt : forall a b, str_ltb a b = true <-> str_lt a b.
Proof.
  induction a as [|c a IH]; intros [|d b]; cbn [str_ltb]; split; intro H; try discriminate; try (now inversion H); try apply lt_nil; try reflexivity.
  - apply orb_prop in H. destruct H as [H|H]; [constructor; now apply N.ltb_lt|]. apply andb_prop in H. destruct H as [H1 H2]. apply N.eqb_eq in H1. subst. apply lt_tail. now apply IH.
  - inversion H as [|? ? ? ? L|? ? ? L]; subst; [apply N.ltb_lt in L; now rewrite L|]. rewrite N.eqb_refl. apply IH in L. rewrite L. now rewrite orb_true_r.
Qed.
Lemma str_total : forall a b, str_lt a b \/ a = b \/ str_lt b a.
Proof.
  induction a as [|c a IH]; intros [|d b]; [auto|left; constructor|right; right; constructor|].
  destruct (N.lt_trichotomy c d) as [L|[->|L]]; [left; now constructor| |right; right; now constructor].
  destruct (IH b) as [L|[->|L]]; [left; now apply lt_tail|right; left; reflexivity|right; right; now apply lt_tail].
Qed.
Lemma str_lt_trans : forall a b c, str_lt a b -> str_lt b c -> str_lt a c.
Proof.
  intros a b c H. revert c. induction H as [x s|x y a b L|x a b L IH]; intros e H2; inversion H2; subst; try apply lt_nil; try (apply lt_head; lia); apply lt_tail; auto.
Qed.
Lemma before_trans : forall a b c, before a b -> before b c -> before a c.
Proof.
  intros [n x] [m y] [k z] [A|[A (i & j & X & Y & L)]] [B|[B (i' & j' & X' & Y' & L')]]; unfold before in *; cbn [fst snd] in *; subst.
  - left. eauto using str_lt_trans.
  - auto.
  - auto.
  - injection X' as <-. right. split; [reflexivity|]. exists i, j'. eauto using str_lt_trans.
Qed.
Lemma pair_lt_before : forall a b, is_iri a -> is_iri b -> exists r, pair_lt a b = Ok r /\ (r = true <-> before a b).
Proof.
  intros [n x] [m y] [i Hi] [j Hj]. cbn in Hi, Hj. subst. unfold pair_lt, before. cbn [fst snd].
  assert (IR : forall a, ~ str_lt a a) by (intro a; induction a as [|c a IH]; intro H; inversion H; subst; [lia|auto]).
  destruct (str_eq_dec n m) as [->|N].
  - destruct (term_eq_dec (Iri i) (Iri j)) as [E|E].
    + injection E as ->. exists false. split; [reflexivity|]. split; [discriminate|]. intros [H|[_ (a & b & A & B & H)]]; [now apply IR in H|].
      injection A as <-. injection B as <-. now apply IR in H.
    + cbn [node_lt]. exists (str_ltb i j). split; [reflexivity|]. rewrite str_ltb_lt. split; [intro L; right; split; [reflexivity|eauto]|].
      intros [H|[_ (a & b & A & B & H)]]; [now apply IR in H|]. injection A as <-. injection B as <-. exact H.
  - exists (str_ltb n m). split; [reflexivity|]. rewrite str_ltb_lt. split; [auto|]. intros [H|[H _]]; [exact H|contradiction].
Qed.
Lemma before_total : forall a b, is_iri a -> is_iri b -> a <> b -> before a b \/ before b a.
Proof.
  intros [n x] [m y] [i Hi] [j Hj] N. cbn in Hi, Hj. subst. unfold before. cbn [fst snd].
  destruct (str_total n m) as [L|[->|L]]; auto. destruct (str_total i j) as [L|[->|L]]; [left; right|now destruct N|right; right]; (split; [reflexivity|eauto]).
Qed.
Lemma sort_insert_sorted : forall x l l', is_iri x -> Forall is_iri l -> ~ In x l -> StronglySorted before l -> sort_insert x l = Ok l' -> StronglySorted before l'.
Proof.
  intros x. induction l as [|y l IH]; intros l' X F NI S H; cbn [sort_insert] in H.
  - injection H as <-. repeat constructor.
  - inversion F as [|? ? Y F']; subst. inversion S as [|? ? S' A]; subst. destruct (pair_lt_before y x Y X) as (r & E & B). rewrite E in H. cbn [bind] in H. destruct r.
    + destruct (sort_insert x l) as [l1|e] eqn:EI; [|discriminate]. injection H as <-. constructor; [apply (IH l1); auto; intro J; apply NI; now right|].
      apply sort_insert_perm in EI. eapply Permutation_Forall; [exact EI|]. constructor; [now apply B|exact A].
    + injection H as <-. assert (XY : before x y).
      { destruct (before_total x y X Y) as [L|L]; [intros ->; apply NI; now left|exact L|]. apply B in L. discriminate. }
      constructor; [exact S|]. constructor; [exact XY|]. rewrite Forall_forall in *. intros z Z. eapply before_trans; eauto.
Qed.
Lemma sort_sorted : forall l l', Forall is_iri l -> NoDup l -> sort_pairs l = Ok l' -> StronglySorted before l'.
Proof.
  induction l as [|x l IH]; intros l' F N H; cbn [sort_pairs] in H; [injection H as <-; constructor|].
  inversion F; subst. inversion N; subst. destruct (sort_pairs l) as [l1|e] eqn:E; [|discriminate]. cbn [bind] in H. pose proof (sort_perm _ _ E) as P.
  eapply sort_insert_sorted; [..|exact H]; auto; [eapply Permutation_Forall; eauto|]. intro J. apply (Permutation_in _ (Permutation_sym P)) in J. contradiction.
Qed.
Lemma sorted_names_sorted : forall pm base nodes l, NoDup nodes -> Forall (fun x => exists i, x = Iri i) nodes -> turtle_sorted_names pm base nodes = Ok l ->
  StronglySorted before l /\ lists (map snd l) (fun x => In x nodes) /\ Forall (fun nx => turtle_repr pm base (snd nx) = Ok (fst nx)) l.
Proof.
  intros pm base nodes l ND F H. destruct (sorted_ok _ _ _ _ H) as [P R]. unfold turtle_sorted_names in H. destruct (named pm base nodes) as [l1|e] eqn:E; [|discriminate]. cbn [bind] in H.
  apply named_ok in E. destruct E as [E _]. split; [|split; [|exact R]].
  - eapply sort_sorted; [| |exact H].
    + subst nodes. rewrite Forall_forall in *. intros nx J. apply F. now apply in_map.
    + subst nodes. eapply NoDup_map_inv; exact ND.
  - split; [eapply Permutation_NoDup; [apply Permutation_sym; exact P|exact ND]|]. intro x. split; apply Permutation_in; [exact P|now apply Permutation_sym].
Qed.

Section Layout.
  Variables (ord : list term -> list term) (fuel : nat) (pm : dict str str) (base : option str) (g : graph).
  Hypothesis RG : reachable g.
  Hypothesis SH : shuffle ord.
  Notation G := (g_iter g).
  Variables (early : world -> Prop) (w : world) (ns : str).
  Hypotheses (WR : wreach_if early w) (LX : lookup pm (s2l "xsd") ns) (US : usual w G (g_subjects g) fuel).

  Notation objs_of s p := (map st_o (g_match g (Some s) (Some p) None)).
  Notation preds_of s := (nodup term_eq_dec (map st_p (g_match g (Some s) None None))).
  Lemma object_laid : forall o, is_object g o -> printable_object G o -> exists t, write_object ord fuel pm base g w o = (w, (t, Ok tt)) /\ object_text pm base G o t.
  Proof.
    intros o O P. destruct (object_written ord fuel pm base g RG SH early w ns WR LX US o O) as (t & [(_ & E & D)|[N _]]); [|contradiction].
    exists t. split; [exact E|]. exact D.
  Qed.
  Lemma objects_laid : forall ind l, Forall (fun o => is_object g o /\ printable_object G o) l -> exists ol, map snd ol = l /\
    Forall (fun to => object_text pm base G (snd to) (fst to)) ol /\
    forall sep, write_objects ord fuel pm base g w sep ind l = (w, ((match l with [] => [] | _ => sep end) ++ objs_text ind ol, Ok tt)).
  Proof.
    intros ind l F. induction F as [|o l [O P] F (ol & <- & FT & E)].
    - exists []. repeat split; auto. 
    - destruct (object_laid o O P) as (t & EO & T). exists ((t, o) :: ol). split; [reflexivity|]. split; [constructor; auto|]. intro sep.
      cbn [write_objects]. rewrite EO, E. f_equal. f_equal. f_equal. destruct ol as [|[t2 o2] ol]; cbn [map objs_text]; [now rewrite !app_nil_r|].
      rewrite <- !app_assoc. reflexivity.
  Qed.
  Notation ok_pred s p := (exists i, p = Iri i /\ i <> [] /\ forall o, In (Tr s p o) G -> printable_object G o).
  Lemma predicates_laid : forall s n l, honoured (Some s) -> Forall (fun np => turtle_repr pm base (snd np) = Ok (fst np) /\ ok_pred s (snd np)) l ->
    exists pl, map fst pl = l /\ Forall (laid_pred pm base G s) pl /\
    forall sep, write_predicates ord fuel pm base g w s sep n l = (w, ((match l with [] => [] | _ => sep end) ++ preds_text n pl, Ok tt)).
  Proof.
    intros s n l Hs F. induction F as [|[pn p] l [R (i & Ep & NE & OK)] F (pl & <- & FL & E)]; [exists []; auto|]. cbn [fst snd] in *. subst p.
    assert (OL : lists (objs_of s (Iri i)) (fun o => In (Tr s (Iri i) o) G)) by exact (objs_lists g s i (reachable_wf _ RG) Hs NE).
    destruct (objects_laid (spaces (n + length pn + 1)) (objs_of s (Iri i))) as (ol & EO & FO & EW).
    { apply Forall_forall. intros o J. apply OL in J. split; [now exists s, (Iri i)|auto]. }
    exists ((pn, Iri i, ol) :: pl). split; [reflexivity|]. split; [constructor; [|exact FL]; cbn [laid_pred]; rewrite EO; auto|]. intro sep.
    cbn [write_predicates]. rewrite EW. rewrite E. f_equal. f_equal.
    assert (EQ : forall x : list term, (match x with [] => [] | _ => [] end : str) = []) by (now intros []). rewrite EQ. cbn [app].
    change (spaces (n + length pn + 1)) with (blanks (n + length pn + 1)). destruct pl as [|e pl]; cbn [map preds_text pred_text].
    - rewrite !app_nil_r. reflexivity.
    - cbn [app]. rewrite <- !app_assoc. reflexivity.
  Qed.
  Lemma subjects_laid : forall l, Forall (fun nx => turtle_repr pm base (snd nx) = Ok (fst nx) /\ honoured (Some (snd nx)) /\
      forall p o, In (Tr (snd nx) p o) G -> printable_object G o) l ->
    exists bl, map fst bl = l /\ Forall (laid_block pm base G) bl /\ write_subjects ord fuel pm base g w l = (w, (concat (map block_text bl), Ok tt)).
  Proof.
    intros l F. pose proof US as (U1 & U2 & CL & U4). induction F as [|[sn s] l (R & Hs & OK) F (bl & <- & FL & E)]; [exists []; auto|]. cbn [fst snd] in *.
    assert (PI : forall p, In p (preds_of s) -> exists i, p = Iri i /\ i <> []).
    { intros p J. apply preds_In in J; auto. destruct J as [o J]. destruct (U2 _ J) as [(_ & i & Ei) (_ & Hp & _)]. cbn in Ei, Hp. subst p. exists i. split; [reflexivity|]. intros ->. now apply Hp. }
    cbn [write_subjects].
    destruct (sorted_nodes pm base (preds_of s)) as [(ps & EP & _)|(_ & b & J)].
    { apply Forall_forall. intros p J. destruct (PI p J) as (i & -> & _). exact Logic.I. }
    2:{ destruct (PI _ J) as (i & X & _). discriminate X. }
    rewrite EP. destruct (sorted_names_sorted pm base (preds_of s) ps) as (SS & LP & RP); auto; [apply NoDup_nodup|apply Forall_forall; intros p J; destruct (PI p J) as (i & -> & _); eauto|].
    destruct (predicates_laid s (S (length sn)) ps Hs) as (pl & <- & FP & EW).
    { rewrite Forall_forall in *. intros np J. split; [auto|]. destruct (PI (snd np)) as (i & Ei & NE); [apply LP; now apply in_map|]. exists i. rewrite <- Ei. eauto. }
    exists ((sn, s, pl) :: bl). split; [reflexivity|]. split.
    - constructor; [|exact FL]. cbn [laid_block]. split; [exact R|]. split; [|split; [exact SS|exact FP]]. rewrite map_map in LP.
      eapply lists_iff; [exact LP|]. intro p. cbn beta. now apply preds_In.
    - rewrite EW, E. f_equal. f_equal. cbn [map concat block_text].
      assert (EQ : forall x : list (str * term), (match x with [] => [] | _ => [] end : str) = []) by (now intros []). rewrite EQ. cbn [app]. rewrite <- !app_assoc. reflexivity.
  Qed.
  Lemma serialize_layout : printable G (g_subjects g) -> exists bl, laid_out pm base G (g_subjects g) bl /\
    serialize_turtle ord fuel pm base g w = (w, (header pm base ++ concat (map block_text bl), Ok tt)).
  Proof.
    intros [P1 P2]. destruct (list_class_reached _ _ WR) as [L _]. pose proof US as (U1 & U2 & CL & U4). unfold serialize_turtle.
    destruct (plain_subjects_ok g w (g_subjects g) L) as (l & E & M). rewrite E. cbn [bind].
    assert (ML : forall s, In s l <-> In s (g_subjects g) /\ ~ list_cell G s).
    { intro s. rewrite M. split; intros [J K]; (split; [exact J|]); destruct (is_list_spec w g s RG L (proj2 (U1 s J))) as [[X Y]|[X Y]]; congruence || contradiction || assumption. }
    assert (NDs : NoDup l) by (eapply plain_subjects_sub; [exact E|]; exact (listed_NoDup g SPO (reachable_wf _ RG))).
    assert (IR : Forall (fun x => exists i, x = Iri i) l).
    { apply Forall_forall. intros s J. apply ML in J. destruct J as [J NL]. destruct (U1 s J) as [N _]. destruct s as [i|b|v lg d]; [eauto|now destruct (P1 _ J NL b)|destruct N]. }
    destruct (sorted_nodes pm base l) as [(sl & ES & _)|(_ & b & J)].
    { apply Forall_forall. intros s J. apply ML in J. exact (proj1 (U1 s (proj1 J))). }
    2:{ rewrite Forall_forall in IR. destruct (IR _ J) as [i X]. discriminate X. }
    rewrite ES. destruct (sorted_names_sorted pm base l sl NDs IR ES) as (SS & LS & RS).
    destruct (subjects_laid sl) as (bl & <- & FB & EW).
    { rewrite Forall_forall in *. intros nx J. split; [auto|]. assert (JS : In (snd nx) l) by (apply LS; now apply in_map). apply ML in JS. destruct JS as [JS NL].
      split; [exact (proj2 (U1 _ JS))|]. intros p o T. exact (P2 _ T NL). }
    exists bl. rewrite EW. split; [|reflexivity]. split; [|split; [exact SS|exact FB]]. rewrite map_map in LS. eapply lists_iff; [exact LS|]. exact ML.
  Qed.
End Layout.

(** ** The output depends on the triples only *)
Lemma str_lt_irrefl : forall a, ~ str_lt a a.
Proof. induction a as [|c a IH]; intro H; inversion H; subst; [lia|auto]. Qed.
Lemma before_irrefl : forall a, ~ before a a.
Proof. intros [n x] [H|[_ (i & j & A & B & H)]]; [now apply str_lt_irrefl in H|]. cbn in *. subst. injection B as <-. now apply str_lt_irrefl in H. Qed.
Lemma sorted_unique : forall l l', StronglySorted before l -> StronglySorted before l' -> (forall x, In x l <-> In x l') -> l = l'.
Proof.
  induction l as [|x l IH]; intros [|y l'] S S' E.
  - reflexivity.
  - destruct (proj2 (E y) ltac:(now left)).
  - destruct (proj1 (E x) ltac:(now left)).
  - inversion S as [|? ? S1 A1]; subst. inversion S' as [|? ? S2 A2]; subst. rewrite Forall_forall in A1, A2.
    assert (x = y).
    { destruct (proj1 (E x) ltac:(now left)) as [->|J]; [reflexivity|]. destruct (proj2 (E y) ltac:(now left)) as [->|J']; [reflexivity|].
      exfalso. apply (before_irrefl x). eapply before_trans; [apply A1, J'|apply A2, J]. }
    subst y. f_equal. apply IH; auto. intro z. specialize (E z). cbn in E. split; intro J.
    + destruct (proj1 E (or_intror J)) as [<-|K]; [|exact K]. now destruct (before_irrefl x (A1 _ J)).
    + destruct (proj2 E (or_intror J)) as [<-|K]; [|exact K]. now destruct (before_irrefl x (A2 _ J)).
Qed.
Lemma same_cells : forall G G' o, same_elements G G' -> list_cell G o <-> list_cell G' o.
Proof. intros G G' o E. split; intros [x X]; exists x; now apply E. Qed.
Lemma same_path : forall G G' f r n s os e, same_elements G G' -> path G f r n s os e -> path G' f r n s os e.
Proof.
  intros G G' f r n s os e E. induction 1 as [s|s o s' os e (A & B & C & D & F) P IH]; [constructor|]. apply path_cell with (s' := s'); [|exact IH].
  repeat (split; [assumption|]). split; [|split; [|exact F]]; intro x; rewrite <- (E _); [apply C|apply D].
Qed.
Lemma repr_fun : forall pm base os ns ns', Forall2 (fun x n => turtle_repr pm base x = Ok n) os ns -> Forall2 (fun x n => turtle_repr pm base x = Ok n) os ns' -> ns = ns'.
Proof. intros pm base os ns ns' F. revert ns'. induction F; intros ns' F'; inversion F'; subst; auto. f_equal; [congruence|auto]. Qed.
Lemma object_text_fun : forall pm base g g' o t t', same_elements (g_iter g) (g_iter g') ->
  object_text pm base (g_iter g) o t -> object_text pm base (g_iter g') o t' -> t = t'.
Proof.
  intros pm base g g' o t t' E [[N R]|[L (os & ns & P & F & ->)]] [[N' R']|[L' (os' & ns' & P' & F' & ->)]].
  - congruence.
  - apply (same_cells _ _ _ E) in L'. contradiction.
  - apply (same_cells _ _ _ E) in L. contradiction.
  - apply (same_path _ _ _ _ _ _ _ _ E) in P. destruct (path_end g' _ _ _ P _ _ P' ltac:(auto) ltac:(auto)) as [<- _]. now rewrite (repr_fun _ _ _ _ _ F F').
Qed.
Lemma named_same : forall {A B} pm base (l : list (str * term * A)) (l' : list (str * term * B)),
  StronglySorted before (map fst l) -> StronglySorted before (map fst l') ->
  (forall x, In x l -> turtle_repr pm base (snd (fst x)) = Ok (fst (fst x))) -> (forall x, In x l' -> turtle_repr pm base (snd (fst x)) = Ok (fst (fst x))) ->
  (forall x, In x (map (fun e => snd (fst e)) l) <-> In x (map (fun e => snd (fst e)) l')) -> map fst l = map fst l'.
Proof.
  intros A B pm base l l' S S' R R' E. apply sorted_unique; auto. intros [n x]. split; intro J; apply in_map_iff in J; destruct J as ([[n1 x1] a] & X & J); cbn in X; injection X as -> ->.
  - assert (K := proj1 (E x) (in_map (fun e => snd (fst e)) _ _ J)). apply in_map_iff in K. destruct K as ([[n2 x2] b] & X & K). cbn in X. subst x2.
    specialize (R _ J). specialize (R' _ K). cbn in R, R'. assert (n2 = n) by congruence. subst. exact (in_map fst _ _ K).
  - assert (K := proj2 (E x) (in_map (fun e => snd (fst e)) _ _ J)). apply in_map_iff in K. destruct K as ([[n2 x2] b] & X & K). cbn in X. subst x2.
    specialize (R _ K). specialize (R' _ J). cbn in R, R'. assert (n2 = n) by congruence. subst. exact (in_map fst _ _ K).
Qed.
Lemma pred_text_fun : forall pm base g g' s n pl pl', same_elements (g_iter g) (g_iter g') -> one_object (g_iter g) ->
  Forall (laid_pred pm base (g_iter g) s) pl -> Forall (laid_pred pm base (g_iter g') s) pl' -> map fst pl = map fst pl' -> preds_text n pl = preds_text n pl'.
Proof.
  intros pm base g g' s n pl pl' E O F. revert pl'. induction F as [|[[pn p] ol] pl H F IH]; intros [|[[pn' p'] ol'] pl'] F' X; cbn [map] in X; try discriminate; [reflexivity|].
  injection X as <- <- X. inversion F' as [|? ? H' F'']; subst. specialize (IH _ F'' X).
  assert (PT : pred_text n (pn, p, ol) = pred_text n (pn, p, ol')).
  { cbn [pred_text]. do 3 f_equal. destruct H as (_ & [N L] & T). destruct H' as (_ & [N' L'] & T').
    assert (AL : forall o o', In o (map snd ol) \/ In o (map snd ol') -> In o' (map snd ol) \/ In o' (map snd ol') -> o = o').
    { intros o o' J J'. apply (O s p); [destruct J as [J|J]; [now apply L|apply L' in J; now apply E]|destruct J' as [J'|J']; [now apply L|apply L' in J'; now apply E]]. }
    assert (SM : forall o, In o (map snd ol) <-> In o (map snd ol')) by (intro o; rewrite L, L'; apply E).
    destruct ol as [|[t o] [|[t2 o2] ol]]; destruct ol' as [|[t' o'] [|[t2' o2'] ol']]; cbn [map snd] in *;
      try (exfalso; apply (SM o); now left); try (exfalso; apply (SM o'); now left); auto.
    all: try (exfalso; inversion N as [|? ? N1 _]; apply N1; left; apply AL; left; cbn; auto; fail).
    all: try (exfalso; inversion N' as [|? ? N1 _]; apply N1; left; apply AL; right; cbn; auto; fail).
    assert (o = o') by (apply AL; cbn; auto). subst o'. inversion T; inversion T'; subst. cbn. eapply object_text_fun; eauto. }
  cbn [preds_text]. destruct pl as [|e pl], pl' as [|e' pl']; cbn [map] in X; try discriminate; [exact PT|]. now rewrite PT, IH.
Qed.
Lemma layout_unique : forall pm base g g' ss ss' bl bl', same_elements (g_iter g) (g_iter g') -> same_elements ss ss' -> one_object (g_iter g) ->
  laid_out pm base (g_iter g) ss bl -> laid_out pm base (g_iter g') ss' bl' -> concat (map block_text bl) = concat (map block_text bl').
Proof.
  intros pm base g g' ss ss' bl bl' E ES O (L & S & F) (L' & S' & F').
  assert (X : map fst bl = map fst bl').
  { apply (named_same pm base); auto.
    - intros [[n s] pl] J. rewrite Forall_forall in F. exact (proj1 (F _ J)).
    - intros [[n s] pl] J. rewrite Forall_forall in F'. exact (proj1 (F' _ J)).
    - intro s. rewrite (proj2 L s), (proj2 L' s), (ES s), (same_cells _ _ s E). tauto. }
  clear L L' S S'. revert bl' F' X. induction F as [|[[n s] pl] bl LB F IH]; [|destruct LB as (R & LP & SP & FP)]; intros [|[[n' s'] pl'] bl'] F' X; cbn [map] in X; try discriminate; [reflexivity|].
  injection X as <- <- X. inversion F' as [|? ? LB' F'']; subst. destruct LB' as (R' & LP' & SP' & FP'). cbn [map concat]. rewrite (IH _ F'' X). f_equal. cbn [block_text]. do 2 f_equal. f_equal.
  eapply pred_text_fun; eauto. apply (named_same pm base); auto.
  - intros [[pn p] ol] J. rewrite Forall_forall in FP. exact (proj1 (FP _ J)).
  - intros [[pn p] ol] J. rewrite Forall_forall in FP'. exact (proj1 (FP' _ J)).
  - intro p. rewrite (proj2 LP p), (proj2 LP' p). split; intros [o J]; exists o; now apply E.
Qed.

Lemma same_elements_sym : forall {A} (l l' : list A), same_elements l l' -> same_elements l' l.
Proof. intros A l l' E x. symmetry. apply E. Qed.
Lemma printable_same : forall G G' ss ss', same_elements G G' -> same_elements ss ss' -> printable G ss -> printable G' ss'.
Proof.
  intros G G' ss ss' E ES [A B]. split.
  - intros s J N. apply A; [now apply ES|]. now rewrite (same_cells _ _ s E).
  - intros t J N. rewrite <- (same_cells _ _ _ E) in N. destruct (B t (proj2 (E t) J) N) as [[C D]|(C & os & P & F)].
    + left. split; [now rewrite <- (same_cells _ _ _ E)|exact D].
    + right. split; [now rewrite <- (same_cells _ _ _ E)|]. exists os. split; [exact (same_path _ _ _ _ _ _ _ _ E P)|exact F].
Qed.
