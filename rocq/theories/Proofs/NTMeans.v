(** Proofs for C95: what N-Triples documents mean. *)
From Verif Require Import Model.Py Model.Terms Model.Graph Model.Codec Model.NTriples Model.TurtleTree
  Spec.CodecSpec Spec.GraphSpec Spec.NTSpec Spec.TurtleSpec Spec.TurtleTextSpec Spec.NTTextSpec Proofs.DictLemmas Proofs.CodecLemmas Proofs.NTLex Proofs.NTDoc Proofs.NTCallbacks Proofs.NTRun
  Proofs.GraphInv Proofs.ThreadLemmas Proofs.TurtleLemmas Proofs.TurtleTokens Proofs.NTGrammar.
Open Scope N_scope.

(** ** bodies *)
Lemma blank_units_units : forall i t, blank_units i t -> units (fun c => ~ iri_illegal c) false i.
Proof. induction 1; auto; now constructor. Qed.
Lemma body_cases : forall b, escaped_text b -> (exists v, denotes b v /\ decode_literal b = Ok v) \/
  ((forall v, ~ denotes b v) /\ (decode_literal b = Err ValueError \/ decode_literal b = Err OverflowError)).
Proof.
  intros b E. destruct (decode_literal b) as [v|e] eqn:D.
  - left. exists v. split; auto. now apply decode_denotes.
  - right. split; [intros v V; apply denotes_decode in V; congruence|]. revert e D.
    induction E as [|c s Hc Hs IH|k c s Hk Hs IH|h s L F Hs IH|h s L F Hs IH]; intros e D.
    + discriminate.
    + rewrite decode_plain in D by auto. destruct (decode_literal s); [discriminate|]. injection D as <-. now apply IH.
    + rewrite decode_short in D by (inversion Hk; subst; vm_compute; discriminate). destruct (decode_literal s); [discriminate|]. injection D as <-. now apply IH.
    + rewrite decode_u in D; [|auto|eapply Forall_impl; [|exact F]; intros a Ha; rewrite hexdigit_is_hex; auto]. destruct (chr (int16 h)) as [c|e'] eqn:C; cbn [bind] in D.
      * destruct (decode_literal s); [discriminate|]. injection D as <-. now apply IH.
      * injection D as <-. unfold chr in C. destruct (int16 h <=? 1114111); [discriminate|]. destruct (int16 h <=? 2147483647); injection C as <-; auto.
    + rewrite decode_U in D; [|auto|eapply Forall_impl; [|exact F]; intros a Ha; rewrite hexdigit_is_hex; auto]. destruct (chr (int16 h)) as [c|e'] eqn:C; cbn [bind] in D.
      * destruct (decode_literal s); [discriminate|]. injection D as <-. now apply IH.
      * injection D as <-. unfold chr in C. destruct (int16 h <=? 1114111); [discriminate|]. destruct (int16 h <=? 2147483647); injection C as <-; auto.
Qed.
(** trees whose bodies are sequences of characters and escapes *)
Definition node_wf (x : rterm) : Prop :=
  match x with RIri i => escaped_text i | RBn _ => True | RLit b (RType i) => escaped_text b /\ escaped_text i | RLit b _ => escaped_text b end.
Definition line_wf (x : rstmt) : Prop := node_wf (r_s x) /\ node_wf (r_p x) /\ node_wf (r_o x) /\ match r_g x with Some g => node_wf g | None => True end.
Lemma iri_at_wf : forall x t, iri_at own x t -> node_wf x.
Proof. intros x t H. inversion H as [i u U]; subst. cbn. eapply units_escaped. eapply blank_units_units. exact U. Qed.
Lemma subject_at_wf : forall x t, subject_at own x t -> node_wf x.
Proof. intros x t H. inversion H; subst; [eapply iri_at_wf; eauto|exact I]. Qed.
Lemma object_at_wf : forall x t, object_at own x t -> node_wf x.
Proof.
  intros x t H. inversion H as [? ? S|b Q|b w l Q W K|b w w' i u Q W W' U]; subst; cbn; try (eapply units_escaped; exact Q).
  - eapply subject_at_wf; eauto.
  - split; [eapply units_escaped; exact Q|]. eapply units_escaped. eapply blank_units_units. exact U.
Qed.
Lemma line_at_wf : forall q x t, line_at own q x t -> line_wf x.
Proof. intros q x t H. destruct H; repeat split; cbn; eauto using subject_at_wf, object_at_wf, iri_at_wf. Qed.
Lemma lines_at_wf : forall q l s, lines_at own q l s -> Forall line_wf l.
Proof. induction 1; constructor; eauto using line_at_wf. Qed.
Lemma doc_at_wf : forall q l s, nt_doc own q l s -> Forall line_wf l.
Proof. intros q l s H. destruct H; [eauto using lines_at_wf|]. constructor; eauto using line_at_wf, lines_at_wf. Qed.

(** ** the transformer *)
Definition means_ex (x : rterm) : Prop := exists L t, node_means L x t.
Definition bad (e : exn) : Prop := e = ValueError \/ e = OverflowError.
(** tables and labels *)
Definition given (b : bstate) (L : str -> N) (ls : list str) : Prop := forall l, In l ls -> sget (bs_map b) l = Some (L l).
Definition fl (b : bstate) (l : str) : N := match sget (bs_map b) l with Some x => x | None => 0 end.
Lemma known_given : forall b bf ls, (forall l, In l ls -> sget (bs_map b) l <> None) -> bext b bf -> given b (fl bf) ls.
Proof.
  intros b bf ls K [_ X] l J. unfold fl. destruct (sget (bs_map b) l) as [a|] eqn:E; [|exfalso; now apply (K l J)]. now rewrite (X _ _ E).
Qed.
Lemma term_run : forall n x b, node_wf x -> binv n b ->
  exists b' r, tr_term b x = (b', r) /\ binv n b' /\ bext b b' /\
    ((exists t, r = Ok t /\ (forall l, In l (node_labels x) -> sget (bs_map b') l <> None) /\ forall bf, bext b' bf -> node_means (fl bf) x t) \/
     (exists e, r = Err e /\ bad e /\ forall L t, ~ node_means L x t)).
Proof.
  intros n x b W I. destruct x as [i|l|v k].
  - exists b. cbn [tr_term]. eexists. split; [reflexivity|]. split; [auto|]. split; [apply bext_refl|]. destruct (body_cases i W) as [(u & D & ->)|(N & [-> | ->])]; cbn [bind].
    + left. exists (Iri u). split; auto. split; [intros l []|]. intros bf _. now constructor.
    + right. eexists. split; [reflexivity|]. split; [now left|]. intros L t M. inversion M; subst. now apply (N v).
    + right. eexists. split; [reflexivity|]. split; [now right|]. intros L t M. inversion M; subst. now apply (N v).
  - cbn [tr_term]. destruct (make_bnode b l) as [b' t] eqn:M. destruct (make_bnode_spec n b l b' t I M) as (I' & X & a & -> & G). exists b', (Ok (BNode a)).
    split; auto. split; auto. split; auto. left. exists (BNode a). split; auto. split; [intros l' [<-|[]]; congruence|].
    intros bf [_ Xf]. replace a with (fl bf l) by (unfold fl; now rewrite (Xf _ _ G)). constructor.
  - exists b. cbn [tr_term]. destruct k as [|l|d]; cbn in W.
    + eexists. split; [reflexivity|]. split; [auto|]. split; [apply bext_refl|]. destruct (body_cases v W) as [(u & D & ->)|(N & [-> | ->])]; cbn [bind].
      * left. eexists. split; [reflexivity|]. split; [intros l []|]. intros bf _. now constructor.
      * right. eexists. split; [reflexivity|]. split; [now left|]. intros L t M. inversion M; subst. eapply N; eauto.
      * right. eexists. split; [reflexivity|]. split; [now right|]. intros L t M. inversion M; subst. eapply N; eauto.
    + eexists. split; [reflexivity|]. split; [auto|]. split; [apply bext_refl|]. destruct (body_cases v W) as [(u & D & ->)|(N & [-> | ->])]; cbn [bind].
      * left. eexists. split; [reflexivity|]. split; [intros l' []|]. intros bf _. now constructor.
      * right. eexists. split; [reflexivity|]. split; [now left|]. intros L t M. inversion M; subst. eapply N; eauto.
      * right. eexists. split; [reflexivity|]. split; [now right|]. intros L t M. inversion M; subst. eapply N; eauto.
    + destruct W as [Wv Wd]. eexists. split; [reflexivity|]. split; [auto|]. split; [apply bext_refl|]. destruct (body_cases d Wd) as [(y & Dy & ->)|(N & [-> | ->])]; cbn [bind].
      * destruct (body_cases v Wv) as [(u & D & ->)|(N & [-> | ->])]; cbn [bind].
        -- left. eexists. split; [reflexivity|]. split; [intros l' []|]. intros bf _. now constructor.
        -- right. eexists. split; [reflexivity|]. split; [now left|]. intros L t M. inversion M; subst. eapply N; eauto.
        -- right. eexists. split; [reflexivity|]. split; [now right|]. intros L t M. inversion M; subst. eapply N; eauto.
      * right. eexists. split; [reflexivity|]. split; [now left|]. intros L t M. inversion M; subst. eapply N; eauto.
      * right. eexists. split; [reflexivity|]. split; [now right|]. intros L t M. inversion M; subst. eapply N; eauto.
Qed.
Lemma known_ext : forall b b' l, bext b b' -> sget (bs_map b) l <> None -> sget (bs_map b') l <> None.
Proof. intros b b' l [_ X] K. destruct (sget (bs_map b) l) eqn:E; [|contradiction]. now rewrite (X _ _ E). Qed.
Lemma stmt_run : forall n x b, line_wf x -> binv n b ->
  exists b' r, tr_stmt b x = (b', r) /\ binv n b' /\ bext b b' /\
    ((exists t, r = Ok t /\ (forall l, In l (line_labels x) -> sget (bs_map b') l <> None) /\ forall bf, bext b' bf -> line_means (fl bf) x t) \/
     (exists e, r = Err e /\ bad e /\ forall L t, ~ line_means L x t)).
Proof.
  intros n [s p o g] b (Ws & Wp & Wo & Wg) I. cbn [r_s r_p r_o r_g] in *.
  destruct (term_run n s b Ws I) as (b1 & r1 & E1 & I1 & X1 & C1). destruct (term_run n p b1 Wp I1) as (b2 & r2 & E2 & I2 & X2 & C2).
  destruct (term_run n o b2 Wo I2) as (b3 & r3 & E3 & I3 & X3 & C3). unfold tr_stmt. cbn [r_s r_p r_o r_g]. rewrite E1, E2, E3. unfold line_labels. cbn [r_s r_p r_o r_g].
  assert (X12 : bext b b2) by (eapply bext_trans; eauto). assert (X13 : bext b b3) by (eapply bext_trans; eauto). assert (X23 : bext b1 b3) by (eapply bext_trans; eauto).
  destruct g as [g|]; cbn [tr_graph].
  - destruct (term_run n g b3 Wg I3) as (b4 & r4 & E4 & I4 & X4 & C4). rewrite E4. exists b4. eexists. split; [reflexivity|]. split; auto. split; [eapply bext_trans; eauto|].
    destruct C1 as [(t1 & -> & K1 & M1)|(e & -> & B & NM)]; [|right; exists e; repeat split; auto; intros L t M; inversion M; subst; eapply NM; eauto].
    destruct C2 as [(t2 & -> & K2 & M2)|(e & -> & B & NM)]; [|right; exists e; repeat split; auto; intros L t M; inversion M; subst; eapply NM; eauto].
    destruct C3 as [(t3 & -> & K3 & M3)|(e & -> & B & NM)]; [|right; exists e; repeat split; auto; intros L t M; inversion M; subst; eapply NM; eauto].
    destruct C4 as [(t4 & -> & K4 & M4)|(e & -> & B & NM)]; [|right; exists e; repeat split; auto; intros L t M; inversion M; subst; eapply NM; eauto].
    left. cbn [bind]. eexists. split; [reflexivity|]. split.
    + intros l J. rewrite !in_app_iff in J. destruct J as [J|[J|[J|J]]]; auto.
      * apply (known_ext b1); [eapply bext_trans; eauto|auto].
      * apply (known_ext b2); [eapply bext_trans; eauto|auto].
      * apply (known_ext b3); auto.
    + intros bf Xf. assert (bext b3 bf) by (eapply bext_trans; eauto). apply lm_quad; [apply M1|apply M2|apply M3|apply M4]; eauto using bext_trans.
  - exists b3. eexists. split; [reflexivity|]. split; auto. split; auto.
    destruct C1 as [(t1 & -> & K1 & M1)|(e & -> & B & NM)]; [|right; exists e; repeat split; auto; intros L t M; inversion M; subst; eapply NM; eauto].
    destruct C2 as [(t2 & -> & K2 & M2)|(e & -> & B & NM)]; [|right; exists e; repeat split; auto; intros L t M; inversion M; subst; eapply NM; eauto].
    destruct C3 as [(t3 & -> & K3 & M3)|(e & -> & B & NM)]; [|right; exists e; repeat split; auto; intros L t M; inversion M; subst; eapply NM; eauto].
    left. cbn [bind]. eexists. split; [reflexivity|]. split.
    + intros l J. rewrite !in_app_iff in J. destruct J as [J|[J|[J|[]]]]; auto.
      * apply (known_ext b1); auto.
      * apply (known_ext b2); auto.
    + intros bf Xf. apply lm_triple; [apply M1|apply M2|apply M3]; eauto using bext_trans.
Qed.
Lemma doc_run : forall n l b, Forall line_wf l -> binv n b ->
  exists b' r, tr_doc b l = (b', r) /\ binv n b' /\ bext b b' /\
    ((exists ts, r = Ok ts /\ (forall x, In x (labels_of l) -> sget (bs_map b') x <> None) /\ forall bf, bext b' bf -> Forall2 (line_means (fl bf)) l ts) \/
     (exists e, r = Err e /\ bad e /\ forall L ts, ~ Forall2 (line_means L) l ts)).
Proof.
  intros n l. induction l as [|x l IH]; intros b W I.
  - exists b. eexists. split; [reflexivity|]. split; auto. split; [apply bext_refl|]. left. exists []. split; [reflexivity|]. split; [intros x []|]. intros bf _. constructor.
  - inversion W; subst. destruct (stmt_run n x b H1 I) as (b1 & r1 & E1 & I1 & X1 & C1). cbn [tr_doc]. rewrite E1.
    destruct C1 as [(t & -> & K1 & M1)|(e & -> & B & NM)].
    + destruct (IH b1 H2 I1) as (b2 & r2 & E2 & I2 & X2 & C2). rewrite E2. exists b2. eexists. split; [reflexivity|]. split; auto. split; [eapply bext_trans; eauto|].
      destruct C2 as [(ts & -> & K2 & M2)|(e & -> & B & NM)].
      * left. exists (t :: ts). split; auto. split.
        -- intros y J. unfold labels_of in J. cbn [map concat] in J. apply in_app_or in J. destruct J as [J|J]; [apply (known_ext b1); auto|auto].
        -- intros bf Xf. constructor; auto. apply M1. eapply bext_trans; eauto.
      * right. exists e. split; auto. split; auto. intros L ts F. inversion F; subst. eapply NM; eauto.
    + exists b1. eexists. split; [reflexivity|]. split; auto. split; auto. right. exists e. split; auto. split; auto. intros L ts F. inversion F; subst. eapply NM; eauto.
Qed.
(** ** whole calls *)
Lemma run_cases : forall q n g s, exists n', n <= n' /\
  ((exists l L ts, nt_doc own q l s /\ parse_string q n g s = (n', g_addAll g ts, Ok tt) /\ Forall2 (line_means L) l ts /\ fresh_labels n n' l L) \/
   (exists l e, nt_doc own q l s /\ parse_string q n g s = (n', g, Err e) /\ bad e /\ forall L ts, ~ Forall2 (line_means L) l ts) \/
   (exists e, parse_string q n g s = (n', g, Err e) /\ error_of s e /\ forall l, ~ nt_doc own q l s)).
Proof.
  intros q n g s. unfold parse_string, lark_run. destruct (lark_parse q s) as [l|e] eqn:P.
  - assert (D := proj1 (parse_iff q l s) P). destruct (doc_run n l (prepare n) (doc_at_wf _ _ _ D) (prepare_inv n)) as (b & r & E & (Ln & R & J) & X & C). rewrite E.
    exists (bs_next b). split; auto. destruct C as [(ts & -> & K & M)|(e & -> & B & NM)].
    + left. exists l, (fl b), ts. split; auto. split; auto. split; [apply M; apply bext_refl|]. split.
      * intros x Jx. specialize (K x Jx). unfold fl. destruct (sget (bs_map b) x) as [a|] eqn:G; [|contradiction]. now apply (R x a).
      * intros x y Jx Jy. pose proof (K x Jx) as Kx. pose proof (K y Jy) as Ky. unfold fl. destruct (sget (bs_map b) x) as [a|] eqn:G; [|contradiction].
        destruct (sget (bs_map b) y) as [a'|] eqn:G'; [|contradiction]. intros <-. now apply (J x y a).
    + right. left. exists l, e. auto.
  - exists n. split; [lia|]. right. right. rewrite (lark_parse_err q s e P) in *. eexists. split; [reflexivity|]. split; [apply callbacks_raise|]. intros l D. apply parse_iff in D. congruence.
Qed.
Lemma doc_unique : forall q l l' s, nt_doc own q l s -> nt_doc own q l' s -> l = l'.
Proof. intros q l l' s D D'. apply parse_iff in D, D'. congruence. Qed.
