(** Proofs for C121: streams in terms of the grammar of C95. *)
From Verif Require Import Model.Py Model.Terms Model.Graph Model.Codec Model.NTriples Model.TurtleTree Model.NTStream
  Spec.CodecSpec Spec.GraphSpec Spec.NTSpec Spec.TurtleSpec Spec.TurtleTextSpec Spec.NTTextSpec Spec.NTStreamSpec Proofs.DictLemmas Proofs.CodecLemmas Proofs.NTLex Proofs.NTDoc Proofs.NTCallbacks Proofs.NTRun
  Proofs.GraphInv Proofs.ThreadLemmas Proofs.TurtleLemmas Proofs.TurtleTokens Proofs.NTGrammar Proofs.NTMeans.
Open Scope N_scope.

(** ** one line *)
Lemma line_run : forall q n b s, binv n b -> exists b' r, lark_run q b s = (b', r) /\ binv n b' /\ bext b b' /\
  ((exists d ts, r = Ok ts /\ nt_doc own q d s /\ (forall x, In x (labels_of d) -> sget (bs_map b') x <> None) /\ forall bf, bext b' bf -> Forall2 (line_means (fl bf)) d ts) \/
   (exists e, r = Err e /\ fault q s e)).
Proof.
  intros q n b s I. unfold lark_run. destruct (lark_parse q s) as [l|e] eqn:P.
  - assert (D := proj1 (parse_iff q l s) P). destruct (doc_run n l b (doc_at_wf _ _ _ D) I) as (b' & r & E & I' & X & C).
    exists b', r. split; [exact E|]. split; [exact I'|]. split; [exact X|]. destruct C as [(ts & -> & K & M)|(e & -> & B & NM)].
    + left. exists l, ts. auto.
    + right. exists e. split; [reflexivity|]. eapply ft_escape; eauto.
  - rewrite (lark_parse_err q s e P) in *. do 2 eexists. split; [reflexivity|]. split; [exact I|]. split; [apply bext_refl|].
    right. eexists. split; [reflexivity|]. apply ft_syntax; [|apply callbacks_raise]. intros l D. apply parse_iff in D. congruence.
Qed.

Definition heads (tss : list (list stmt)) : list stmt := flat_map (firstn 1) tss.
Lemma heads_In : forall tss t, In t (heads tss) <-> first_of tss t.
Proof.
  intros tss t. unfold heads, first_of. rewrite in_flat_map. split.
  - intros ([|a u] & J & H); [destruct H|]. destruct H as [->|[]]. now exists u.
  - intros (u & J). exists (t :: u). split; [exact J|now left].
Qed.
Lemma labels_cat : forall a b x, In x (labels_of (a ++ b)) <-> In x (labels_of a) \/ In x (labels_of b).
Proof. intros. unfold labels_of. rewrite map_app, concat_app, in_app_iff. tauto. Qed.

(** ** the loop *)
Definition good_run (q : bool) (b' : bstate) (g : graph) (lines : list str) (g' : graph) : Prop :=
  exists ds tss, stream_docs q lines ds /\ (forall x, In x (labels_of (concat ds)) -> sget (bs_map b') x <> None) /\
    (forall bf, bext b' bf -> docs_mean (fl bf) ds tss) /\ g' = g_addAll g (heads tss).

Lemma good_cons : forall q b1 b2 g s lines d t ts g', s <> [] -> bext b1 b2 -> nt_doc own q d s ->
  (forall x, In x (labels_of d) -> sget (bs_map b1) x <> None) -> (forall bf, bext b1 bf -> Forall2 (line_means (fl bf)) d (t :: ts)) ->
  good_run q b2 (g_add g t) lines g' -> good_run q b2 g (s :: lines) g'.
Proof.
  intros q b1 b2 g s lines d t ts g' NE X D K M (ds & tss & SD & KD & MD & ->).
  exists (d :: ds), ((t :: ts) :: tss). split; [|split; [|split]].
  - unfold stream_docs. destruct s as [|c s]; [contradiction|]. cbn [filter nonempty]. constructor; [|exact SD]. split; [exact D|].
    intros ->. specialize (M b1 (bext_refl b1)). inversion M.
  - intros x J. cbn [concat] in J. apply labels_cat in J. destruct J as [J|J]; [eapply known_ext; eauto|now apply KD].
  - intros bf Xf. constructor; [apply M; eapply bext_trans; eauto|now apply MD].
  - reflexivity.
Qed.

Lemma loop_run : forall q n lines b g, binv n b -> exists b' g' r, stream_loop q b g lines = (b', g', r) /\ binv n b' /\ bext b b' /\
  ((r = Ok tt /\ good_run q b' g lines g') \/
   (exists e before s after, r = Err e /\ lines = before ++ s :: after /\ fault q s e /\ good_run q b' g before g')).
Proof.
  intros q n lines. induction lines as [|s lines IH]; intros b g I.
  - exists b, g, (Ok tt). split; [reflexivity|]. split; [exact I|]. split; [apply bext_refl|]. left. split; [reflexivity|].
    exists [], []. split; [constructor|]. split; [intros x []|]. split; [constructor|reflexivity].
  - destruct s as [|c s].
    + cbn [stream_loop]. destruct (IH b g I) as (b' & g' & r & E & I' & X & C). exists b', g', r. split; [exact E|]. split; [exact I'|]. split; [exact X|].
      destruct C as [C|(e & bf & y & af & -> & -> & F & G)]; [left; exact C|].
      right. exists e, ([] :: bf), y, af. split; [reflexivity|]. split; [reflexivity|]. split; [exact F|exact G].
    + destruct (line_run q n b (c :: s) I) as (b1 & r1 & E1 & I1 & X1 & C1).
      cbn [stream_loop]. rewrite E1. destruct C1 as [(d & ts & -> & D & K & M)|(e & -> & F)].
      * destruct ts as [|t ts].
        -- exists b1, g. eexists. split; [reflexivity|]. split; [exact I1|]. split; [exact X1|]. right. exists RuntimeError, [], (c :: s), lines.
           split; [reflexivity|]. split; [reflexivity|]. split.
           ++ apply ft_empty; [discriminate|]. specialize (M b1 (bext_refl b1)). inversion M; subst. exact D.
           ++ exists [], []. split; [constructor|]. split; [intros x []|]. split; [constructor|reflexivity].
        -- destruct (IH b1 (g_add g t) I1) as (b' & g' & r & E & I' & X & C). exists b', g', r. split; [exact E|]. split; [exact I'|]. split; [eapply bext_trans; eauto|].
           destruct C as [[-> G]|(e & bf & y & af & -> & -> & F & G)].
           ++ left. split; [reflexivity|]. eapply good_cons; eauto. discriminate.
           ++ right. exists e, ((c :: s) :: bf), y, af. split; [reflexivity|]. split; [reflexivity|]. split; [exact F|]. eapply good_cons; eauto. discriminate.
      * exists b1, g. eexists. split; [reflexivity|]. split; [exact I1|]. split; [exact X1|]. right. exists e, [], (c :: s), lines.
        split; [reflexivity|]. split; [reflexivity|]. split; [exact F|]. exists [], []. split; [constructor|]. split; [intros x []|]. split; [constructor|reflexivity].
Qed.

Lemma fresh_inv : forall n b l, binv n b -> (forall x, In x (labels_of l) -> sget (bs_map b) x <> None) -> fresh_labels n (bs_next b) l (fl b).
Proof.
  intros n b l (Ln & R & J) K. split.
  - intros x Jx. specialize (K x Jx). unfold fl. destruct (sget (bs_map b) x) as [a|] eqn:G; [|contradiction]. now apply (R x a).
  - intros x y Jx Jy. pose proof (K x Jx) as Kx. pose proof (K y Jy) as Ky. unfold fl. destruct (sget (bs_map b) x) as [a|] eqn:G; [|contradiction].
    destruct (sget (bs_map b) y) as [a'|] eqn:G'; [|contradiction]. intros <-. now apply (J x y a).
Qed.

Lemma stream_cases : forall q n g lines, exists n' g' r, parse_stream q n g lines = (n', g', r) /\
  ((r = Ok tt /\ exists ds L tss, stream_docs q lines ds /\ docs_mean L ds tss /\ fresh_labels n n' (concat ds) L /\ g' = g_addAll g (heads tss)) \/
   (exists e before s after ds L tss, r = Err e /\ lines = before ++ s :: after /\ fault q s e /\
      stream_docs q before ds /\ docs_mean L ds tss /\ fresh_labels n n' (concat ds) L /\ g' = g_addAll g (heads tss))).
Proof.
  intros q n g lines. destruct (loop_run q n lines (prepare n) g (prepare_inv n)) as (b & g' & r & E & I & X & C).
  exists (bs_next b), g', r. unfold parse_stream. rewrite E. split; [reflexivity|].
  destruct C as [[-> (ds & tss & SD & K & M & G)]|(e & bf & y & af & -> & -> & F & (ds & tss & SD & K & M & G))].
  - left. split; [reflexivity|]. exists ds, (fl b), tss. split; [exact SD|]. split; [apply M, bext_refl|]. split; [now apply fresh_inv|exact G].
  - right. exists e, bf, y, af, ds, (fl b), tss. split; [reflexivity|]. split; [reflexivity|]. split; [exact F|]. split; [exact SD|]. split; [apply M, bext_refl|]. split; [now apply fresh_inv|exact G].
Qed.

(** a line with a fault is in no stream that means something *)
Lemma fault_not : forall q s e d L ts, fault q s e -> nt_doc own q d s -> d <> [] -> ~ Forall2 (line_means L) d ts.
Proof.
  intros q s e d L ts F D ND M. destruct F as [NE D0|e d0 _ D0 N|e N _].
  - apply ND. exact (doc_unique q d [] s D D0).
  - rewrite (doc_unique q d0 d s D0 D) in N. exact (N L ts M).
  - exact (N d D).
Qed.
Lemma fault_nonempty : forall q s e, fault q s e -> s <> [].
Proof.
  intros q s e F ->. assert (Z : nt_doc own q [] []) by (apply nd_none, ls_end; constructor).
  destruct F as [NE _|e d _ D N|e N _]; [now apply NE| |exact (N [] Z)].
  rewrite (doc_unique q d [] [] D Z) in N. apply (N (fun _ => 0) []). constructor.
Qed.
Lemma docs_fault : forall q before s after e ds L tss, fault q s e -> stream_docs q (before ++ s :: after) ds -> ~ docs_mean L ds tss.
Proof.
  intros q before s after e ds L tss F SD M. unfold stream_docs in SD. rewrite filter_app in SD. apply Forall2_app_inv_l in SD. destruct SD as (d1 & d2 & _ & S2 & ->).
  pose proof (fault_nonempty q s e F) as NE. destruct s as [|c s]; [now apply NE|]. cbn [filter nonempty] in S2. inversion S2 as [|x d r3 d3 [D ND] HH E1 E2]; subst.
  apply Forall2_app_inv_l in M. destruct M as (t1 & t2 & _ & M & _). inversion M; subst. eapply fault_not; eauto.
Qed.

(** ** lines of texts *)
Lemma split_lines : forall s, lines_of s (split_lf s).
Proof.
  assert (A : forall s, match split_lf s with [] => s = [] | _ => True end /\ lines_of s (split_lf s)).
  { induction s as [|c s [IH1 IH2]]; [split; constructor|]. cbn [split_lf]. destruct (N.eqb_spec c 10) as [->|NC].
    - split; [exact Logic.I|]. exact (lo_line [] s (split_lf s) (fun x => x) IH2).
    - destruct (split_lf s) as [|l ls].
      + subst s. split; [exact Logic.I|]. constructor; [discriminate|]. intros [H|[]]. now apply NC.
      + split; [exact Logic.I|]. inversion IH2 as [|l0 NE N10|l0 s' ls0 N10 LO]; subst.
        * constructor; [discriminate|]. intros [H|H]; [now apply NC|now apply N10].
        * apply (lo_line (c :: l0)); [|exact LO]. intros [H|H]; [now apply NC|now apply N10]. }
  intro s. apply A.
Qed.
Lemma lines_concat : forall s ls, lines_of s ls -> concat ls = s.
Proof. induction 1; cbn [concat]; [reflexivity|apply app_nil_r|]. rewrite IHlines_of, <- app_assoc. reflexivity. Qed.
Lemma lines_nonempty : forall s ls, lines_of s ls -> filter nonempty ls = ls.
Proof.
  induction 1 as [|l NE|l s ls _ _ IH]; [reflexivity| |].
  - destruct l; [contradiction|reflexivity].
  - destruct l; cbn [app filter nonempty]; now rewrite IH.
Qed.

(** ** no line ends inside statements *)
Lemma ol_app : forall a b, one_line a -> one_line b -> one_line (a ++ b).
Proof. intros. apply Forall_app. now split. Qed.
Lemma ol_blanks : forall w, blanks w -> one_line w.
Proof. intros w H. eapply Forall_impl; [|exact H]. intros c [->| ->]; split; discriminate. Qed.
Lemma ol_hex : forall h, Forall (fun c => hexdigit c = true) h -> one_line h.
Proof. intros h H. eapply Forall_impl; [|exact H]. intros c Hc. split; intros ->; vm_compute in Hc; discriminate. Qed.
Lemma ol_unit : forall (ok : char -> Prop) e u, (forall c, ok c -> c <> 10 /\ c <> 13) -> unit1 ok e u -> one_line u.
Proof.
  intros ok e u K H. destruct H as [c O _|k c _ E|h _ H|h _ H].
  - constructor; [now apply K|constructor].
  - constructor; [split; discriminate|]. constructor; [|constructor]. split; intros ->; inversion E; subst; repeat match goal with J : In _ _ |- _ => cbn in J; intuition discriminate end.
  - constructor; [split; discriminate|]. constructor; [split; discriminate|]. now apply ol_hex.
  - constructor; [split; discriminate|]. constructor; [split; discriminate|]. now apply ol_hex.
Qed.
Lemma legal_ol : forall c, ~ iri_illegal c -> c <> 10 /\ c <> 13.
Proof. intros c H. split; intros ->; apply H; left; lia. Qed.
Lemma ol_blank_units : forall i t, blank_units i t -> one_line t.
Proof.
  induction 1 as [|c i t B _ IH|u i t U _ IH]; [constructor| |].
  - constructor; [|exact IH]. destruct B as [->| ->]; split; discriminate.
  - apply ol_app; [|exact IH]. eapply ol_unit; [|exact U]. exact legal_ol.
Qed.
Lemma ol_quoted : forall b, quoted_body b -> one_line b.
Proof.
  induction 1 as [|u s U _ IH]; [constructor|]. apply ol_app; [|exact IH]. eapply ol_unit; [|exact U]. cbn. tauto.
Qed.
Lemma ol_label : forall s, wide_label s -> one_line s.
Proof.
  intros s (c & r & -> & W & F & _). assert (K : forall x, wide_char x -> x <> 10 /\ x <> 13).
  { intros x H. unfold wide_char, between in H. lia. }
  constructor; [split; discriminate|]. constructor; [split; discriminate|]. constructor; [now apply K|].
  eapply Forall_impl; [|exact F]. intros x [H|[->| ->]]; [now apply K|split; discriminate..].
Qed.
Lemma ol_tag : forall l, langtag_ok l -> one_line l.
Proof.
  assert (K : forall c, ascii_letter c = true -> c <> 10 /\ c <> 13) by (intros c H; split; intros ->; vm_compute in H; discriminate).
  intros l (t0 & ts & -> & (_ & F) & G). apply ol_app; [eapply Forall_impl; [|exact F]; exact K|].
  induction G as [|t ts (_ & H) _ IH]; [constructor|]. cbn [map concat app]. constructor; [split; discriminate|]. apply ol_app; [|exact IH].
  eapply Forall_impl; [|exact H]. intros c [J|[->|[->| ->]]]; [now apply K|split; discriminate..].
Qed.
Lemma ol_iri : forall x t, iri_at own x t -> one_line t.
Proof. intros x t H. inversion H as [i u U]; subst. constructor; [split; discriminate|]. apply ol_app; [eapply ol_blank_units; exact U|]. constructor; [split; discriminate|constructor]. Qed.
Lemma ol_subject : forall x t, subject_at own x t -> one_line t.
Proof. intros x t H. inversion H; subst; [eapply ol_iri; eauto|now apply ol_label]. Qed.
Lemma ol_one : forall c, c <> 10 -> c <> 13 -> one_line [c].
Proof. intros. constructor; [now split|constructor]. Qed.
Lemma ol_cons : forall c s, c <> 10 -> c <> 13 -> one_line s -> one_line (c :: s).
Proof. intros. constructor; [now split|assumption]. Qed.
Lemma ol_object : forall x t, object_at own x t -> one_line t.
Proof.
  intros x t H. inversion H as [? ? S|b Q|b w l Q W K|b w w' i u Q W W' U]; subst; [eapply ol_subject; eauto|..];
    repeat first [apply Forall_nil | apply ol_cons; [discriminate|discriminate|] | apply ol_app | now apply ol_quoted | now apply ol_blanks | now apply ol_tag | eapply ol_blank_units; exact U].
Qed.
Lemma ol_line : forall q x t, line_at own q x t -> one_line t.
Proof.
  intros q x t H. destruct H; repeat match goal with A : apart2 _ _ _ _ |- _ => destruct A as [? _] end;
    repeat first [apply ol_app | apply ol_one; discriminate | now apply ol_blanks | eapply ol_iri; eassumption | eapply ol_subject; eassumption | eapply ol_object; eassumption].
Qed.
Lemma line_nonblank : forall q x t, line_at own q x t -> In 46 t.
Proof. intros q x t H. destruct H; rewrite !in_app_iff; cbn; tauto. Qed.

(** ** documents of single lines *)
Lemma ol_in10 : forall s, one_line s -> ~ In 10 s.
Proof. intros s H J. unfold one_line in H. rewrite Forall_forall in H. apply H in J. now destruct J. Qed.
Lemma blanks_in10 : forall s, blanks s -> ~ In 10 s.
Proof. intros. now apply ol_in10, ol_blanks. Qed.
Lemma first_split : forall (a b c d : str), ~ In 10 a -> ~ In 10 c -> a ++ 10 :: b = c ++ 10 :: d -> a = c /\ b = d.
Proof.
  induction a as [|x a IH]; intros b [|y c] d A C E; cbn in E.
  - injection E as <-. now split.
  - injection E as <- _. destruct C. now left.
  - injection E as -> _. destruct A. now left.
  - injection E as <- E. destruct (IH b c d (fun H => A (or_intror H)) (fun H => C (or_intror H)) E) as [-> ->]. now split.
Qed.
Lemma ends10 : forall e, line_ends e -> ~ In 13 e -> exists e', e = 10 :: e' /\ Forall (fun c => c = 10 \/ c = 13) e'.
Proof.
  intros [|c e] [NE F] N; [contradiction|]. inversion F as [|? ? [->| ->] F']; subst; [now exists e|]. destruct N. now left.
Qed.
Lemma empty_doc : forall q l s, nt_doc own q l s -> l = [] -> Forall (fun c => c = 32 \/ c = 9 \/ c = 10 \/ c = 13) s.
Proof.
  intros q l s D E. destruct D as [l s H|x t l r]; [|discriminate].
  assert (B : forall w, blanks w -> Forall (fun c => c = 32 \/ c = 9 \/ c = 10 \/ c = 13) w) by (intros w J; eapply Forall_impl; [|exact J]; unfold blank1; tauto).
  destruct H as [w W|w e w' W [_ F] W'|]; [now apply B| |discriminate]. apply Forall_app. split; [now apply B|]. apply Forall_app. split; [|now apply B].
  eapply Forall_impl; [|exact F]. cbn. tauto.
Qed.
Lemma nonblank_doc : forall q l s, nt_doc own q l s -> ~ In 13 s -> ~ blank_line s -> l <> [].
Proof.
  intros q l s D N B E. apply B. pose proof (empty_doc q l s D E) as F. unfold blank_line. rewrite Forall_forall in *. intros c J. destruct (F c J) as [H|[H|[H|H]]]; auto.
  subst c. now destruct N.
Qed.

Definition starts (q : bool) (l : list rstmt) (s : str) : Prop :=
  (l = [] /\ s = []) \/ exists x t l' r, l = x :: l' /\ s = t ++ r /\ line_at own q x t /\ lines_at own q l' r.

(** a line with a statement *)
Lemma one_doc : forall q d a, nt_doc own q d (a ++ [10]) -> d <> [] -> ~ In 10 a -> ~ In 13 a ->
  exists x t w, d = [x] /\ a = t ++ w /\ line_at own q x t /\ blanks w.
Proof.
  intros q d a D ND N10 N13.
  assert (C : forall w e z, blanks w -> line_ends e -> forall p, ~ In 10 p -> p ++ w ++ e ++ z = a ++ [10] -> p ++ w = a /\ z = []).
  { intros w e z W E p Np H. assert (N13' : ~ In 13 e).
    { intro J. assert (K : In 13 (a ++ [10])) by (rewrite <- H, !in_app_iff; tauto). apply in_app_iff in K. destruct K as [K|[K|[]]]; [now apply N13|discriminate]. }
    destruct (ends10 e E N13') as (e' & -> & F). rewrite app_assoc in H. cbn [app] in H. apply first_split in H; [| |exact N10].
    - destruct H as [-> H]. split; [reflexivity|]. destruct e'; [exact H|discriminate].
    - rewrite in_app_iff. intros [K|K]; [now apply Np|exact (blanks_in10 w W K)]. }
  inversion D as [l s H EA EB|x t l r LT LR EA EB]; subst.
  - inversion H as [w W E1 E2|w e w' W E W' E1 E2|w e x t l r W E LT LR E1 E2]; subst; [now destruct ND|now destruct ND|].
    exfalso. pose proof (line_nonblank q x t LT) as J. destruct (C w e (t ++ r) W E [] (fun f => f) E2) as [_ Z]. apply app_eq_nil in Z. destruct Z as [-> _]. destruct J.
  - pose proof (ol_in10 t (ol_line q x t LT)) as Nt. inversion LR as [w W E1 E2|w e w' W E W' E1 E2|w e x' t' l' r' W E LT' LR' E1 E2]; subst.
    + exfalso. assert (J : In 10 (a ++ [10])) by (rewrite in_app_iff; right; now left). rewrite <- EB in J. apply in_app_iff in J. destruct J as [J|J]; [now apply Nt|exact (blanks_in10 _ W J)].
    + destruct (C w e w' W E t Nt EB) as [<- _]. exists x, t, w. auto.
    + exfalso. pose proof (line_nonblank q x' t' LT') as J. destruct (C w e (t' ++ r') W E t Nt EB) as [_ Z]. apply app_eq_nil in Z. destruct Z as [-> _]. destruct J.
Qed.
Lemma one_doc_last : forall q d a, nt_doc own q d a -> d <> [] -> ~ In 10 a -> ~ In 13 a ->
  exists x t w, d = [x] /\ a = t ++ w /\ line_at own q x t /\ blanks w.
Proof.
  intros q d a D ND N10 N13.
  assert (C : forall w e z p, line_ends e -> p ++ w ++ e ++ z = a -> False).
  { intros w e z p E H. assert (N13' : ~ In 13 e) by (intro J; apply N13; rewrite <- H, !in_app_iff; tauto).
    destruct (ends10 e E N13') as (e' & -> & F). apply N10. rewrite <- H, !in_app_iff. right. right. left. now left. }
  inversion D as [l s H EA EB|x t l r LT LR EA EB]; subst.
  - destruct H as [w W|w e w' W E W'|w e x t l r W E LT LR]; [now destruct ND|now destruct ND|]. destruct (C w e (t ++ r) [] E eq_refl).
  - inversion LR as [w W E1 E2|w e w' W E W' E1 E2|w e x' t' l' r' W E LT' LR' E1 E2]; subst.
    + exists x, t, r. auto.
    + destruct (C w e w' t E eq_refl).
    + destruct (C w e (t' ++ r') t E eq_refl).
Qed.

Lemma join_lines : forall q s ls, lines_of s ls -> ~ In 13 s -> forall ds, Forall2 (fun x d => nt_doc own q d x /\ d <> []) ls ds ->
  starts q (concat ds) s /\ Forall (fun d => length d = 1%nat) ds.
Proof.
  intros q s ls H. induction H as [|a NE N10|a s ls N10 LO IH]; intros N13 ds F.
  - inversion F; subst. split; [left; now split|constructor].
  - inversion F as [|? d ? ds' [D ND] F' E1 E2]; subst. inversion F'; subst. destruct (one_doc_last q d a D ND N10 N13) as (x & t & w & -> & -> & LT & W).
    split; [|repeat constructor]. right. exists x, t, [], w. split; [reflexivity|]. split; [reflexivity|]. split; [exact LT|]. now constructor.
  - inversion F as [|? d ? ds' [D ND] F' E1 E2]; subst.
    assert (A13 : ~ In 13 a) by (intro J; apply N13; rewrite in_app_iff; now left).
    assert (S13 : ~ In 13 s) by (intro J; apply N13; rewrite in_app_iff; right; now right).
    destruct (one_doc q d a D ND N10 A13) as (x & t & w & -> & -> & LT & W). destruct (IH S13 ds' F') as [ST SG]. split; [|now constructor].
    assert (E10 : line_ends [10]) by (split; [discriminate|constructor; [now left|constructor]]).
    right. exists x, t, (concat ds'), (w ++ [10] ++ s). split; [reflexivity|]. split; [now rewrite <- app_assoc|]. split; [exact LT|].
    destruct ST as [[-> ->]|(x2 & t2 & l2 & r2 & -> & -> & LT2 & LR2)].
    + apply (ls_eol own q w [10] []); [exact W|exact E10|constructor].
    + now apply ls_cons.
Qed.
Lemma starts_doc : forall q l s, starts q l s -> nt_doc own q l s.
Proof. intros q l s [[-> ->]|(x & t & l' & r & -> & -> & A & B)]; [apply nd_none, ls_end; constructor|now apply nd_first]. Qed.

Lemma cut_lines : forall q s ls, lines_of s ls -> ~ In 13 s -> Forall (fun x => ~ blank_line x) ls -> forall l, nt_doc own q l s ->
  exists ds, Forall2 (fun x d => nt_doc own q d x /\ d <> []) ls ds /\ concat ds = l.
Proof.
  intros q s ls H. induction H as [|a NE N10|a s ls N10 LO IH]; intros N13 NB l D.
  - exists []. split; [constructor|]. assert (Z : nt_doc own q [] []) by (apply nd_none, ls_end; constructor). exact (doc_unique q [] l [] Z D).
  - exists [l]. split; [|apply app_nil_r]. constructor; [|constructor]. split; [exact D|]. inversion NB; subst. eapply nonblank_doc; eauto.
  - assert (S13 : ~ In 13 s) by (intro J; apply N13; rewrite in_app_iff; right; now right). inversion NB as [|? ? NB1 NB2]; subst.
    assert (E13 : forall p w e z, p ++ w ++ e ++ z = a ++ 10 :: s -> ~ In 13 e) by (intros p w e z E J; apply N13; rewrite <- E, !in_app_iff; tauto).
    assert (E10 : line_ends [10]) by (split; [discriminate|constructor; [now left|constructor]]).
    assert (BL : forall w e z, blanks w -> line_ends e -> w ++ e ++ z = a ++ 10 :: s -> False).
    { intros w e z W E EQ. destruct (ends10 e E (E13 [] w e z EQ)) as (e' & -> & _). cbn [app] in EQ. apply first_split in EQ; [|now apply blanks_in10|exact N10].
      destruct EQ as [-> _]. apply NB1. apply Forall_app. split; [|constructor; [auto|constructor]]. eapply Forall_impl; [|exact W]. unfold blank1. tauto. }
    inversion D as [l' s' H EA EB|x t l' r LT LR EA EB]; subst.
    + exfalso. inversion H as [w W E1 E2|w e w' W E W' E1 E2|w e x' t' l' r' W E LT' LR' E1 E2]; subst.
      * apply (blanks_in10 _ W). rewrite in_app_iff. right. now left.
      * exact (BL w e w' W E E2).
      * exact (BL w e (t' ++ r') W E E2).
    + pose proof (ol_in10 t (ol_line q x t LT)) as Nt. rename EB into EQ.
      assert (Q : exists w, blanks w /\ a = t ++ w /\ nt_doc own q l' s).
      { inversion LR as [w W E1 E2|w e w' W E W' E1 E2|w e x' t' l2 r' W E LT' LR' E1 E2]; subst.
        - exfalso. assert (J : In 10 (t ++ r)) by (rewrite EQ, in_app_iff; right; now left). apply in_app_iff in J. destruct J as [J|J]; [now apply Nt|exact (blanks_in10 _ W J)].
        - destruct (ends10 e E (E13 t w e w' EQ)) as (e' & -> & F). rewrite app_assoc in EQ. cbn [app] in EQ. apply first_split in EQ; [| |exact N10].
          + destruct EQ as [<- <-]. exists w. split; [exact W|]. split; [reflexivity|]. apply nd_none. destruct e' as [|c e']; [now apply ls_end|]. apply (ls_eol own q [] (c :: e') w'); [constructor| |exact W']. split; [discriminate|exact F].
          + rewrite in_app_iff. intros [K|K]; [now apply Nt|exact (blanks_in10 w W K)].
        - destruct (ends10 e E (E13 t w e (t' ++ r') EQ)) as (e' & -> & F). rewrite app_assoc in EQ. cbn [app] in EQ. apply first_split in EQ; [| |exact N10].
          + destruct EQ as [<- <-]. exists w. split; [exact W|]. split; [reflexivity|]. destruct e' as [|c e']; [exact (nd_first own q x' t' l2 r' LT' LR')|]. apply nd_none. apply (ls_cons own q [] (c :: e')); [constructor| |exact LT'|exact LR']. split; [discriminate|exact F].
          + rewrite in_app_iff. intros [K|K]; [now apply Nt|exact (blanks_in10 w W K)]. }
      destruct Q as (w & W & -> & D'). destruct (IH S13 NB2 l' D') as (ds & F & <-). exists ([x] :: ds). split; [|reflexivity]. constructor; [|exact F]. split; [|discriminate].
      rewrite <- app_assoc. apply nd_first; [exact LT|]. rewrite <- (app_nil_r (w ++ [10])), <- app_assoc. apply (ls_eol own q w [10] []); [exact W|exact E10|constructor].
Qed.

(** ** universal newlines *)
Lemma universal_no_cr : forall s, ~ In 13 (universal s).
Proof.
  assert (A : forall n s, (length s <= n)%nat -> ~ In 13 (universal s)).
  { induction n as [|n IH]; intros [|c s] L; cbn [universal length] in *; try (intros []; fail); [lia|].
    destruct (N.eqb_spec c 13) as [->|NC].
    - intros [H|H]; [discriminate|]. destruct s as [|d s]; [destruct H|]. cbn [length] in L. destruct (d =? 10); revert H; apply IH; cbn [length]; lia.
    - intros [H|H]; [now apply NC|]. revert H. apply IH. lia. }
  intro s. exact (A (length s) s (Nat.le_refl _)).
Qed.
Definition nolf (s : str) : Prop := match s with c :: _ => c <> 10 | [] => True end.
Definition eols (e : str) : Prop := Forall (fun c => c = 10 \/ c = 13) e.

Lemma universal_line : forall a b, one_line a -> universal (a ++ b) = a ++ universal b.
Proof.
  induction a as [|c a IH]; intros b H; [reflexivity|]. inversion H as [|? ? [_ N] H']; subst. cbn [app universal]. rewrite (proj2 (N.eqb_neq c 13) N). now rewrite IH.
Qed.
Lemma universal_ends : forall e b, eols e -> nolf b -> exists e', eols e' /\ (e <> [] -> e' <> []) /\ universal (e ++ b) = e' ++ universal b.
Proof.
  assert (A : forall n e b, (length e <= n)%nat -> eols e -> nolf b -> exists e', eols e' /\ (e <> [] -> e' <> []) /\ universal (e ++ b) = e' ++ universal b).
  { induction n as [|n IH]; intros [|c e] b L E B; cbn [length] in L; try lia; try (exists []; split; [constructor|]; split; [auto|reflexivity]).
    inversion E as [|? ? Hc E']; subst. cbn [app universal]. destruct Hc as [->| ->]; cbn [N.eqb Pos.eqb].
    - destruct (IH e b ltac:(lia) E' B) as (e' & F & _ & ->). exists (10 :: e'). split; [constructor; auto|]. split; [discriminate|reflexivity].
    - destruct e as [|d e].
      + exists [10]. split; [constructor; [auto|constructor]|]. split; [discriminate|]. cbn [app]. destruct b as [|d b]; [reflexivity|]. cbn in B. now rewrite (proj2 (N.eqb_neq d 10) B).
      + cbn [app]. inversion E' as [|? ? Hd E'']; subst. cbn [length] in L. destruct (N.eqb_spec d 10) as [->|ND].
        * destruct (IH e b ltac:(lia) E'' B) as (e' & F & _ & ->). exists (10 :: e'). split; [constructor; auto|]. split; [discriminate|reflexivity].
        * destruct (IH (d :: e) b ltac:(cbn [length]; lia) E' B) as (e' & F & _ & Q). cbn [app] in Q. rewrite Q. exists (10 :: e'). split; [constructor; auto|]. split; [discriminate|reflexivity]. }
  intros e b. exact (A (length e) e b (Nat.le_refl _)).
Qed.
Lemma universal_line_inv : forall a s b, one_line a -> universal s = a ++ b -> exists s', s = a ++ s' /\ universal s' = b.
Proof.
  induction a as [|c a IH]; intros s b H E; [now exists s|]. inversion H as [|? ? [N10 N13] H']; subst. destruct s as [|d s]; cbn [universal app] in E; [discriminate|].
  destruct (N.eqb_spec d 13); injection E as E1 E2; [now destruct N10|]. destruct (IH s b H' E2) as (s' & -> & U). exists s'. now subst.
Qed.
Lemma universal_ends_inv : forall e s b, eols e -> universal s = e ++ b -> exists e' s', eols e' /\ (e <> [] -> e' <> []) /\ s = e' ++ s' /\ universal s' = b.
Proof.
  induction e as [|c e IH]; intros s b H E; [exists [], s; repeat split; auto; constructor|]. inversion H as [|? ? Hc H']; subst. destruct s as [|d s]; cbn [universal app] in E; [discriminate|].
  destruct (N.eqb_spec d 13) as [->|ND]; injection E as E1 E2.
  - destruct s as [|x s].
    + destruct (IH [] b H' E2) as (e' & s' & F & _ & Q & U). exists (13 :: e'), s'. split; [constructor; auto|]. split; [discriminate|]. split; [now rewrite Q|exact U].
    + destruct (N.eqb_spec x 10) as [->|NX].
      * destruct (IH s b H' E2) as (e' & s' & F & _ & Q & U). exists (13 :: 10 :: e'), s'. split; [constructor; [auto|constructor; auto]|]. split; [discriminate|]. split; [now rewrite Q|exact U].
      * destruct (IH (x :: s) b H' E2) as (e' & s' & F & _ & Q & U). exists (13 :: e'), s'. split; [constructor; auto|]. split; [discriminate|]. split; [now rewrite Q|exact U].
  - subst d. destruct (IH s b H' E2) as (e' & s' & F & _ & Q & U). exists (c :: e'), s'. split; [constructor; auto|]. split; [discriminate|]. split; [now rewrite Q|exact U].
Qed.
Lemma ol_nolf : forall a b, one_line a -> a <> [] -> nolf (a ++ b).
Proof. intros [|c a] b H N; [contradiction|]. inversion H as [|? ? [K _] _]; subst. exact K. Qed.
Lemma blanks_nolf : forall w, blanks w -> nolf w.
Proof. intros [|c w] H; [exact Logic.I|]. inversion H as [|? ? [->| ->] _]; subst; cbn; discriminate. Qed.
Lemma line_nolf : forall q x t r, line_at own q x t -> nolf (t ++ r).
Proof. intros q x t r H. apply ol_nolf; [eapply ol_line; eauto|]. intros ->. exact (line_nonblank q x [] H). Qed.

Lemma universal_lines_at : forall q l s, lines_at own q l s -> lines_at own q l (universal s).
Proof.
  induction 1 as [w W|w e w' W [NE F] W'|w e x t l r W [NE F] LT LR IH].
  - rewrite <- (app_nil_r w), universal_line by now apply ol_blanks. cbn. rewrite app_nil_r. now constructor.
  - rewrite universal_line by now apply ol_blanks. destruct (universal_ends e w' F (blanks_nolf w' W')) as (e' & F' & NE' & ->).
    rewrite <- (app_nil_r w'), universal_line by now apply ol_blanks. cbn [universal]. rewrite app_nil_r. apply ls_eol; auto. split; auto.
  - rewrite universal_line by now apply ol_blanks. destruct (universal_ends e (t ++ r) F (line_nolf q x t r LT)) as (e' & F' & NE' & ->).
    rewrite (universal_line t r) by (eapply ol_line; eauto). apply ls_cons; auto. split; auto.
Qed.
Lemma universal_doc : forall q l s, nt_doc own q l s -> nt_doc own q l (universal s).
Proof.
  intros q l s [l' s' H|x t l' r LT LR]; [now apply nd_none, universal_lines_at|].
  rewrite universal_line by (eapply ol_line; eauto). apply nd_first; [exact LT|now apply universal_lines_at].
Qed.
Lemma universal_lines_at_inv : forall q l u, lines_at own q l u -> forall s, universal s = u -> lines_at own q l s.
Proof.
  intros q l u H. induction H as [w W|w e w' W [NE F] W'|w e x t l r W [NE F] LT LR IH]; intros s E.
  - rewrite <- (app_nil_r w) in E. destruct (universal_line_inv w s [] (ol_blanks w W) E) as (s' & -> & U).
    destruct s' as [|c s']; [rewrite app_nil_r; now constructor|]. cbn in U. destruct (c =? 13); discriminate.
  - destruct (universal_line_inv w s (e ++ w') (ol_blanks w W) E) as (s1 & -> & U1). destruct (universal_ends_inv e s1 w' F U1) as (e' & s2 & F' & NE' & -> & U2).
    rewrite <- (app_nil_r w') in U2. destruct (universal_line_inv w' s2 [] (ol_blanks w' W') U2) as (s3 & -> & U3).
    destruct s3 as [|c s3]; [|cbn in U3; destruct (c =? 13); discriminate]. rewrite app_nil_r. apply ls_eol; auto. split; auto.
  - destruct (universal_line_inv w s _ (ol_blanks w W) E) as (s1 & -> & U1). destruct (universal_ends_inv e s1 _ F U1) as (e' & s2 & F' & NE' & -> & U2).
    destruct (universal_line_inv t s2 r (ol_line q x t LT) U2) as (s3 & -> & U3). apply ls_cons; auto. split; auto.
Qed.
Lemma universal_doc_inv : forall q l s, nt_doc own q l (universal s) -> nt_doc own q l s.
Proof.
  intros q l s H. inversion H as [l' s' H' EA EB|x t l' r LT LR EA EB]; subst; [apply nd_none; eapply universal_lines_at_inv; eauto|].
  destruct (universal_line_inv t s r (ol_line q x t LT) (eq_sym EB)) as (s' & -> & U). apply nd_first; [exact LT|]. eapply universal_lines_at_inv; eauto.
Qed.

(** ** the stream and the string *)
Lemma tr_doc_cons : forall b x l, tr_doc b (x :: l) = let '(b1, t) := tr_stmt b x in
  match t with Err e => (b1, Err e) | Ok t' => let '(b2, ts) := tr_doc b1 l in (b2, do ts' <- ts ; Ok (t' :: ts')) end.
Proof. reflexivity. Qed.
Lemma loop_singles : forall q ls xs, Forall2 (fun s x => s <> [] /\ lark_parse q s = Ok [x]) ls xs -> forall b g b' g',
  stream_loop q b g ls = (b', g', Ok tt) <-> exists ts, tr_doc b xs = (b', Ok ts) /\ g' = g_addAll g ts.
Proof.
  intros q ls xs H. induction H as [|s x ls xs [NE P] _ IH]; intros b g b' g'.
  - cbn. split; [intro E; injection E as <- <-; now exists []|]. intros (ts & E & ->). injection E as <- <-. reflexivity.
  - destruct s as [|c s]; [contradiction|]. cbn [stream_loop]. unfold lark_run. rewrite P, tr_doc_cons, tr_doc_cons. destruct (tr_stmt b x) as [b1 [t|e]].
    + cbn [tr_doc bind]. rewrite IH. split.
      * intros (ts & E & ->). exists (t :: ts). rewrite E. split; reflexivity.
      * intros (ts & E & ->). destruct (tr_doc b1 xs) as [b2 [ts'|e]]; cbn [bind] in E; [|discriminate]. injection E as <- <-. exists ts'. split; reflexivity.
    + split; [discriminate|]. intros (ts & E & _). discriminate.
Qed.
Lemma filter_le : forall {A} (f : A -> bool) l, (length (filter f l) <= length l)%nat.
Proof. induction l as [|x l IH]; cbn; [lia|]. destruct (f x); cbn; lia. Qed.
Lemma singles : forall q ls ds, Forall2 (fun x d => nt_doc own q d x /\ d <> []) ls ds -> filter nonempty ls = ls -> Forall (fun d => length d = 1%nat) ds ->
  exists xs, concat ds = xs /\ Forall2 (fun s x => s <> [] /\ lark_parse q s = Ok [x]) ls xs.
Proof.
  intros q ls ds H. induction H as [|s d ls ds [D ND] _ IH]; intros FN FL; [exists []; now split|]. inversion FL as [|? ? L1 FL']; subst.
  destruct s as [|c s].
  - exfalso. cbn [filter nonempty] in FN. pose proof (f_equal (@length _) FN) as FL2. pose proof (filter_le nonempty ls) as LL. cbn [length] in FL2. lia.
  - cbn [filter nonempty] in FN. injection FN as FN. destruct (IH FN FL') as (xs & <- & F). destruct d as [|x [|y d]]; try discriminate L1. exists (x :: concat ds). split; [reflexivity|]. constructor; [|exact F].
    split; [discriminate|]. now apply parse_iff.
Qed.

Lemma lines_string : forall q n g u s n' g', ~ In 13 u -> (forall l, nt_doc own q l u <-> nt_doc own q l s) ->
  parse_stream q n g (split_lf u) = (n', g', Ok tt) <-> parse_string q n g s = (n', g', Ok tt) /\ Forall (fun x => ~ blank_line x) (split_lf u).
Proof.
  intros q n g u s n' g' N13 EQ. pose proof (split_lines u) as LO. pose proof (lines_nonempty u _ LO) as FN.
  assert (K : forall ds, Forall2 (fun x d => nt_doc own q d x /\ d <> []) (split_lf u) ds ->
    (parse_stream q n g (split_lf u) = (n', g', Ok tt) <-> parse_string q n g s = (n', g', Ok tt))).
  { intros ds F. destruct (join_lines q u _ LO N13 ds F) as [ST SG]. destruct (singles q _ ds F FN SG) as (xs & EX & F1).
    assert (P : lark_parse q s = Ok xs) by (apply parse_iff, EQ; rewrite <- EX; now apply starts_doc).
    unfold parse_stream, parse_string, lark_run. rewrite P. split.
    - intro H. destruct (stream_loop q (prepare n) g (split_lf u)) as [[b g1] r] eqn:E. injection H as <- <- ->. apply (loop_singles q _ xs F1) in E. destruct E as (ts & -> & ->). reflexivity.
    - intro H. destruct (tr_doc (prepare n) xs) as [b [ts|e]] eqn:E; [|discriminate]. injection H as <- <-.
      assert (E2 : stream_loop q (prepare n) g (split_lf u) = (b, g_addAll g ts, Ok tt)) by (apply (loop_singles q _ xs F1); exists ts; now split). now rewrite E2. }
  split.
  - intro H. destruct (stream_cases q n g (split_lf u)) as (n1 & g1 & r & E & [(-> & ds & L & tss & SD & M & _)|(e & bf & y & af & ds & L & tss & -> & _)]); rewrite E in H; [|discriminate].
    unfold stream_docs in SD. rewrite FN in SD. rewrite <- E in H. split; [now apply (K ds SD)|].
    clear - SD N13 LO. assert (A : Forall (fun x => ~ In 13 x) (split_lf u)).
    { apply Forall_forall. intros x J C. apply N13. rewrite <- (lines_concat u _ LO). apply in_concat. now exists x. }
    clear LO N13. revert A. induction SD as [|x d ls ds [D ND] _ IH]; intro A; [constructor|]. inversion A; subst. constructor; [|auto]. intro B. apply ND. clear - D B.
    destruct D as [l s H|y t l r LT LR].
    + destruct H as [| |w e y t l r W E LT LR]; [reflexivity|reflexivity|]. exfalso. assert (J : In 46 (w ++ e ++ t ++ r)) by (rewrite !in_app_iff; right; right; left; exact (line_nonblank q y t LT)).
      unfold blank_line in B. rewrite Forall_forall in B. apply B in J. lia.
    + exfalso. assert (J : In 46 (t ++ r)) by (rewrite in_app_iff; left; exact (line_nonblank q y t LT)). unfold blank_line in B. rewrite Forall_forall in B. apply B in J. lia.
  - intros [H NB]. destruct (run_cases q n g s) as (m & _ & [(l & L & ts & D & E & _)|[(l & e & D & E & _)|(e & E & _)]]); rewrite E in H; try discriminate. rewrite <- E in H.
    apply EQ in D. destruct (cut_lines q u _ LO N13 NB l D) as (ds & F & _). now apply (K ds F).
Qed.

(** ** the two functions of the model on texts *)
Lemma lines_unique : forall s ls, lines_of s ls -> ls = split_lf s.
Proof.
  assert (A : forall l s, ~ In 10 l -> split_lf (l ++ 10 :: s) = (l ++ [10]) :: split_lf s).
  { induction l as [|c l IH]; intros s N; [reflexivity|]. cbn [app split_lf]. destruct (N.eqb_spec c 10) as [->|NC]; [destruct N; now left|]. now rewrite IH by (intro J; apply N; now right). }
  assert (B : forall l, l <> [] -> ~ In 10 l -> split_lf l = [l]).
  { induction l as [|c l IH]; intros NE N; [contradiction|]. cbn [split_lf]. destruct (N.eqb_spec c 10) as [->|NC]; [destruct N; now left|]. destruct l as [|d l]; [reflexivity|].
    rewrite IH; [reflexivity|discriminate|]. intro J. apply N. now right. }
  induction 1 as [|l NE N|l s ls N _ IH]; [reflexivity|symmetry; now apply B|]. now rewrite A, IH.
Qed.
Lemma newlines_universal : forall s u, newlines s u <-> u = universal s.
Proof.
  intros s u. split.
  - induction 1 as [|c s u N _ IH|s u _ IH|s u NL _ IH]; [reflexivity|..]; cbn [universal].
    + rewrite (proj2 (N.eqb_neq c 13) N). now rewrite IH.
    + cbn. now rewrite IH.
    + cbn [N.eqb Pos.eqb]. rewrite IH. destruct s as [|d s]; [reflexivity|]. cbn [hd_error] in NL. destruct (N.eqb_spec d 10) as [->|]; [now destruct NL|reflexivity].
  - intros ->. revert s. assert (A : forall n s, (length s <= n)%nat -> newlines s (universal s)).
    { induction n as [|n IH]; intros [|c s] L; cbn [length] in L; try lia; try constructor. cbn [universal]. destruct (N.eqb_spec c 13) as [->|NC]; [|constructor; [exact NC|apply IH; lia]].
      destruct s as [|d s]; [apply (nw_cr [] []); [discriminate|constructor]|]. cbn [length] in L. destruct (N.eqb_spec d 10) as [->|ND].
      - apply nw_crlf. apply IH. lia.
      - apply nw_cr; [cbn; congruence|]. apply IH. cbn [length]. lia. }
    intro s. exact (A (length s) s (Nat.le_refl _)).
Qed.
