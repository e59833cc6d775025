(** The callbacks that have run when the parser finds a syntax error. *)
From Verif Require Import Model.Py Model.Terms Model.Graph Model.Codec Model.NTriples Spec.CodecSpec Spec.NTSpec
  Proofs.CodecLemmas Proofs.NTLex Proofs.NTDoc.
Open Scope N_scope.

Lemma doc_cbs_fuel : forall q n m st s, (length s < n)%nat -> (length s < m)%nat -> doc_cbs q n st s = doc_cbs q m st s.
Proof.
  intros q n. induction n as [|n IH]; intros m st s Hn Hm; [lia|]. destruct m as [|m]; [lia|]. cbn [doc_cbs].
  pose proof (skip_ws_length s) as HL. destruct (skip_ws s) as [|c r] eqn:E; [reflexivity|]. simpl in HL.
  pose proof (skip_eol_length r) as HE.
  destruct (is_eol c).
  - destruct st; try reflexivity; apply IH; lia.
  - destruct st; try reflexivity; destruct (p_stmt q s) as [[x t]|] eqn:P; try reflexivity;
      apply p_stmt_sfx, sfx_length in P; rewrite (IH m AfterStmt t); try reflexivity; lia.
Qed.
Definition cbs (q : bool) (st : docst) (s : str) : list str := doc_cbs q (S (length s)) st s.
Lemma cbs_eq : forall q st s, cbs q st s =
  match skip_ws s with
  | [] => []
  | c :: r =>
      if is_eol c then match st with AfterEol => [] | _ => cbs q AfterEol (skip_eol r) end
      else match st with
           | AfterStmt => []
           | _ => stmt_cbs q s ++ match p_stmt q s with Some (_, t) => cbs q AfterStmt t | None => [] end
           end
  end.
Proof.
  intros q st s. unfold cbs at 1. cbn [doc_cbs]. pose proof (skip_ws_length s) as HL.
  destruct (skip_ws s) as [|c r] eqn:E; [reflexivity|]. simpl in HL. pose proof (skip_eol_length r) as HE.
  destruct (is_eol c).
  - destruct st; try reflexivity; apply doc_cbs_fuel; lia.
  - destruct st; try reflexivity; destruct (p_stmt q s) as [[x t]|] eqn:P; try reflexivity;
      apply p_stmt_sfx, sfx_length in P; unfold cbs; rewrite (doc_cbs_fuel q (length s) (S (length t)) AfterStmt t); try reflexivity; lia.
Qed.

(** ** what follows the line end does not matter *)
Section Local.
Variable e : char.
Variable rest : str.
Hypothesis He : is_eol e = true.
Lemma iri_cb_ext : forall i t, iri_cb i (t ++ e :: rest) = iri_cb i t.
Proof.
  intros i t. unfold iri_cb. rewrite skip_ws_ext, p_bnode_ext by assumption. destruct (skip_ws t) as [|c r]; cbn [app].
  - apply is_eol_spec in He. destruct He; subst e; reflexivity.
  - rewrite lex_string_ext by assumption. destruct (lex_string LNormal r) as [[? ?]|]; destruct (p_bnode t) as [[? ?]|]; reflexivity.
Qed.
Lemma lit_cb_ext : forall q b t, lit_cb q b (t ++ e :: rest) = lit_cb q b t.
Proof.
  intros q b t. unfold lit_cb. rewrite (starts_ext e rest He); [reflexivity|]. apply (e_neq e He). destruct q; reflexivity.
Qed.
Lemma term_cbs_ext : forall q x t, term_cbs q x (t ++ e :: rest) = term_cbs q x t.
Proof. intros q [i|l|b [|l|d]] t; cbn [term_cbs]; rewrite ?iri_cb_ext, ?lit_cb_ext; reflexivity. Qed.
Lemma stmt_cbs_ext : forall q s, stmt_cbs q (s ++ e :: rest) = stmt_cbs q s.
Proof.
  intros q s. unfold stmt_cbs. rewrite p_subject_ext by assumption. destruct (p_subject s) as [[a s1]|]; [|reflexivity]. cbn [ext].
  rewrite term_cbs_ext, p_iri_ext by assumption. destruct (p_iri s1) as [[b s2]|]; [|reflexivity]. cbn [ext].
  rewrite term_cbs_ext, p_object_ext by assumption. destruct (p_object s2) as [[c s3]|]; [|reflexivity]. cbn [ext].
  rewrite term_cbs_ext, p_iri_ext by assumption. destruct q; [|reflexivity]. destruct (p_iri s3) as [[g s4]|]; [|reflexivity]. cbn [ext].
  now rewrite term_cbs_ext.
Qed.
End Local.
Lemma cbs_line : forall q st s e rest, clean_line s -> is_eol e = true -> st <> AfterStmt ->
  cbs q st (s ++ e :: rest) = stmt_cbs q s ++ match line q s with Some x => cbs q AfterEol (skip_eol rest) | None => [] end.
Proof.
  intros q st s e rest [Hn Hb] He Hst. rewrite cbs_eq. rewrite skip_ws_ext by assumption.
  destruct (skip_ws s) as [|c r] eqn:E; [exfalso; apply Hb; now apply skip_ws_blank|]. cbn [app].
  rewrite (skip_ws_no_eol s c r Hn E). rewrite p_stmt_ext, stmt_cbs_ext by assumption. unfold line.
  destruct st; try congruence; (destruct (p_stmt q s) as [[x t]|] eqn:P; [|reflexivity]); cbn [ext]; f_equal;
    (assert (Ht : no_eol t) by (eapply sfx_no_eol; [apply sfx_sfx0; eapply p_stmt_sfx; eassumption|assumption]));
    rewrite (cbs_eq q AfterStmt), skip_ws_ext by assumption;
    (destruct (skip_ws t) as [|d u] eqn:W; cbn [app]; [now rewrite He|]);
    now rewrite (skip_ws_no_eol t d u Ht W).
Qed.
Fixpoint seq_cbs (q : bool) (ss : list str) : list str :=
  match ss with
  | [] => []
  | s :: r => stmt_cbs q s ++ match line q s with Some _ => seq_cbs q r | None => [] end
  end.
Lemma cbs_text : forall q ss st, Forall clean_line ss -> st <> AfterStmt -> cbs q st (text ss) = seq_cbs q ss.
Proof.
  intros q ss st H. revert st. induction H as [|s ss Hs Hss IH]; intros st Hst; [reflexivity|].
  rewrite text_cons, cbs_line by (first [assumption|reflexivity]). cbn [seq_cbs]. f_equal.
  destruct (line q s) as [x|]; [|reflexivity]. rewrite skip_eol_text by assumption. now rewrite IH by discriminate.
Qed.

(** ** a statement that is parsed has had all its callbacks *)
Definition term_texts (x : rterm) : list str :=
  match x with
  | RIri i => [i]
  | RBn _ => []
  | RLit b (RType d) => [d; b]
  | RLit b _ => [b]
  end.
Definition stmt_texts (x : rstmt) : list str :=
  term_texts (r_s x) ++ term_texts (r_p x) ++ term_texts (r_o x) ++ match r_g x with Some g => term_texts g | None => [] end.

Lemma iri_cb_starts : forall i t, (exists y u, p_iri t = Some (y, u)) \/ (exists y u, p_object t = Some (y, u)) \/ (exists u, p_dot t = Some u) -> iri_cb i t = [i].
Proof.
  intros i t H. unfold iri_cb.
  assert (K : match skip_ws t with c :: r => (c =? 60) || (c =? 46) || (c =? 95) && is_some (p_bnode t) || (c =? 34) && is_some (lex_string LNormal r) | [] => false end = true); [|now rewrite K].
  assert (PI : forall y u, p_iri t = Some (y, u) -> match skip_ws t with c :: r => (c =? 60) || (c =? 46) || (c =? 95) && is_some (p_bnode t) || (c =? 34) && is_some (lex_string LNormal r) | [] => false end = true).
  { intros y u P. unfold p_iri in P. destruct (skip_ws t) as [|c r]; [discriminate|]. destruct (c =? 60); [reflexivity|discriminate]. }
  destruct H as [(y & u & H)|[(y & u & H)|(u & H)]].
  - eauto.
  - unfold p_object, p_subject in H. unfold starts in H. destruct (skip_ws t) as [|c r] eqn:E; [eauto|]. cbn [tl] in H.
    destruct (c =? 34) eqn:C.
    + unfold p_literal in H. destruct (lex_string LNormal r); [|discriminate]. cbn [is_some]. now rewrite orb_true_r.
    + destruct (c =? 95) eqn:D; [|eauto]. rewrite H. cbn [is_some andb]. rewrite orb_true_r. reflexivity.
  - unfold p_dot in H. destruct (skip_ws t) as [|c r]; [discriminate|]. destruct (c =? 46); [|discriminate]. now rewrite orb_true_r.
Qed.
Lemma p_iri_starts : forall t y u, p_iri t = Some (y, u) -> starts 60 t = true.
Proof. intros t y u H. unfold p_iri in H. unfold starts. destruct (skip_ws t) as [|c r]; [discriminate|]. now destruct (c =? 60). Qed.
Lemma p_dot_starts : forall t u, p_dot t = Some u -> starts 46 t = true.
Proof. intros t u H. unfold p_dot in H. unfold starts. destruct (skip_ws t) as [|c r]; [discriminate|]. now destruct (c =? 46). Qed.
Lemma p_subject_node : forall s x t, p_subject s = Some (x, t) -> match x with RLit _ _ => False | _ => True end.
Proof.
  intros s x t H. unfold p_subject in H. destruct (starts 95 s).
  - unfold p_bnode in H. destruct (skip_ws s) as [|c [|d r]]; try discriminate. destruct ((c =? 95) && (d =? 58)); [|discriminate].
    destruct (lex_label r) as [[? ?]|]; [|discriminate]. injection H as <- _. exact I.
  - unfold p_iri in H. destruct (skip_ws s) as [|c r]; [discriminate|]. destruct (c =? 60); [|discriminate].
    destruct (lex_iri LNormal r) as [[? ?]|]; [|discriminate]. injection H as <- _. exact I.
Qed.
Lemma p_iri_iri : forall s x t, p_iri s = Some (x, t) -> exists i, x = RIri i.
Proof.
  intros s x t H. unfold p_iri in H. destruct (skip_ws s) as [|c r]; [discriminate|]. destruct (c =? 60); [|discriminate].
  destruct (lex_iri LNormal r) as [[i ?]|]; [|discriminate]. injection H as <- _. eauto.
Qed.
Lemma stmt_cbs_ok : forall q s x t, p_stmt q s = Some (x, t) -> stmt_cbs q s = stmt_texts x.
Proof.
  intros q s x t H. unfold p_stmt in H. unfold stmt_cbs.
  destruct (p_subject s) as [[a s1]|] eqn:E1; [|discriminate].
  destruct (p_iri s1) as [[b s2]|] eqn:E2; [|discriminate].
  destruct (p_object s2) as [[c s3]|] eqn:E3; [|discriminate].
  assert (K1 : term_cbs q a s1 = term_texts a).
  { apply p_subject_node in E1. destruct a as [i|l|? ?]; [|reflexivity|contradiction]. cbn [term_cbs term_texts]. apply iri_cb_starts. eauto. }
  destruct (p_iri_iri _ _ _ E2) as [i ->].
  assert (K2 : term_cbs q (RIri i) s2 = [i]) by (apply iri_cb_starts; eauto).
  rewrite K1, K2. destruct q.
  - destruct (p_iri s3) as [[g s4]|] eqn:E4; [|discriminate]. destruct (p_dot s4) as [r|] eqn:E5; [|discriminate]. injection H as <- <-.
    destruct (p_iri_iri _ _ _ E4) as [j ->]. unfold stmt_texts. cbn [r_s r_p r_o r_g term_texts]. do 2 f_equal. f_equal.
    + destruct c as [k|l|v [|l|d]]; cbn [term_cbs term_texts]; unfold lit_cb; rewrite ?(p_iri_starts _ _ _ E4), ?iri_cb_starts by eauto; reflexivity.
    + apply iri_cb_starts; eauto.
  - destruct (p_dot s3) as [r|] eqn:E5; [|discriminate]. injection H as <- <-.
    unfold stmt_texts. cbn [r_s r_p r_o r_g term_texts]. do 2 f_equal. f_equal.
    destruct c as [k|l|v [|l|d]]; cbn [term_cbs term_texts]; unfold lit_cb; rewrite ?(p_dot_starts _ _ E5), ?iri_cb_starts by eauto; reflexivity.
Qed.
Lemma cbs_ok : forall q s st l, doc q st s = Ok l -> cbs q st s = concat (map stmt_texts l).
Proof.
  intros q s. induction s as [s IH] using strong_list_ind. intros st l H. rewrite doc_eq in H. rewrite cbs_eq.
  pose proof (skip_ws_length s) as HL.
  destruct (skip_ws s) as [|c r]; [injection H as <-; reflexivity|]. simpl in HL. pose proof (skip_eol_length r) as HE.
  destruct (is_eol c).
  - destruct st; try discriminate; (apply IH; [lia|exact H]).
  - destruct st; try discriminate; destruct (p_stmt q s) as [[x t]|] eqn:P; try discriminate; rewrite (stmt_cbs_ok _ _ _ _ P);
      apply p_stmt_sfx, sfx_length in P; apply bind_ok in H; destruct H as (l' & H & H'); injection H' as <-;
      cbn [map concat]; f_equal; (apply IH; [assumption|exact H]).
Qed.

(** ** exceptions *)
Definition decodes (s : str) : Prop := exists v, decode_literal s = Ok v.
Lemma raised_app : forall a b, Forall decodes a -> raised (a ++ b) = raised b.
Proof. intros a b H. induction H as [|s a [v E] H IH]; [reflexivity|]. cbn [app raised]. now rewrite E. Qed.
Lemma raised_ok : forall a, Forall decodes a -> raised a = LarkError.
Proof. intros a H. rewrite <- (app_nil_r a), raised_app; auto. Qed.
(** the run of a term, in terms of its texts *)
Definition term_case (x : rterm) (r : res term) : Prop :=
  match r with
  | Ok _ => Forall decodes (term_texts x)
  | Err e => forall b, raised (term_texts x ++ b) = e
  end.
Lemma tr_term_case : forall b x, term_case x (snd (tr_term b x)).
Proof.
  intros b [i|l|v k].
  - cbn [tr_term snd]. destruct (decode_literal i) as [u|e] eqn:D; cbn [bind term_case term_texts].
    + constructor; [eexists; eauto|apply Forall_nil].
    + intro. cbn [app raised]. now rewrite D.
  - cbn [tr_term]. destruct (make_bnode b l). apply Forall_nil.
  - cbn [tr_term snd]. destruct k as [|l|d]; cbn [term_texts].
    1,2: destruct (decode_literal v) as [u|e] eqn:D; cbn [bind term_case term_texts]; [constructor; [eexists; eauto|apply Forall_nil]|intro; cbn [app raised]; now rewrite D].
    destruct (decode_literal d) as [w|e] eqn:D'; cbn [bind term_case term_texts].
    + destruct (decode_literal v) as [u|e] eqn:D; cbn [bind term_case term_texts].
      * constructor; [eexists; eauto|]. constructor; [eexists; eauto|apply Forall_nil].
      * intro. cbn [app raised]. now rewrite D', D.
    + intro. cbn [app raised]. now rewrite D'.
Qed.
Lemma tr_stmt_case : forall b x, match snd (tr_stmt b x) with
  | Ok _ => Forall decodes (stmt_texts x) | Err e => forall u, raised (stmt_texts x ++ u) = e end.
Proof.
  intros b x. unfold tr_stmt. pose proof (tr_term_case b (r_s x)) as A1. destruct (tr_term b (r_s x)) as [b1 r1]. cbn [snd] in A1.
  pose proof (tr_term_case b1 (r_p x)) as A2. destruct (tr_term b1 (r_p x)) as [b2 r2]. cbn [snd] in A2.
  pose proof (tr_term_case b2 (r_o x)) as A3. destruct (tr_term b2 (r_o x)) as [b3 r3]. cbn [snd] in A3.
  assert (A4 : match snd (tr_graph b3 (r_g x)) with
    | Ok _ => Forall decodes (match r_g x with Some g => term_texts g | None => [] end)
    | Err e => forall u, raised (match r_g x with Some g => term_texts g | None => [] end ++ u) = e end).
  { destruct (r_g x) as [g|]; cbn [tr_graph]; [|apply Forall_nil]. pose proof (tr_term_case b3 g) as A. destruct (tr_term b3 g) as [b4 [y|e]]; exact A. }
  destruct (tr_graph b3 (r_g x)) as [b4 r4]. cbn [snd] in *. unfold stmt_texts.
  destruct r1 as [t1|e1]; cbn [bind term_case] in *; [|intro; rewrite <- app_assoc; apply A1].
  destruct r2 as [t2|e2]; cbn [bind term_case] in *; [|intro; rewrite <- !app_assoc, raised_app by assumption; apply A2].
  destruct r3 as [t3|e3]; cbn [bind term_case] in *; [|intro; rewrite <- !app_assoc, !raised_app by assumption; apply A3].
  destruct r4 as [t4|e4]; cbn [bind] in *; [|intro; rewrite <- !app_assoc, !raised_app by assumption; apply A4].
  repeat (apply Forall_app; split); assumption.
Qed.
Lemma tr_doc_case : forall l b, match snd (tr_doc b l) with
  | Ok _ => Forall decodes (concat (map stmt_texts l)) | Err e => forall u, raised (concat (map stmt_texts l) ++ u) = e end.
Proof.
  induction l as [|x l IH]; intro b; [apply Forall_nil|]. cbn [tr_doc map concat]. pose proof (tr_stmt_case b x) as A. destruct (tr_stmt b x) as [b1 [t|e]]; cbn [snd] in *.
  - specialize (IH b1). destruct (tr_doc b1 l) as [b2 [ts|e]]; cbn [snd bind] in *.
    + apply Forall_app; auto.
    + intro u. rewrite <- app_assoc, raised_app by assumption. apply IH.
  - intro u. rewrite <- app_assoc. apply A.
Qed.
(** ** a run with a syntax error, and the error of any run *)
Lemma lark_run_err : forall q b s, lark_parse q s = Err LarkError -> lark_run q b s = (b, Err (raised (callbacks q s))).
Proof. intros q b s H. unfold lark_run. now rewrite H. Qed.
Lemma lark_run_error : forall q b s e, snd (lark_run q b s) = Err e -> e = raised (callbacks q s).
Proof.
  intros q b s e H. destruct (lark_parse q s) as [l|x] eqn:P.
  - unfold lark_run in H. rewrite P in H. pose proof (tr_doc_case l b) as K. rewrite H in K. change (callbacks q s) with (cbs q AtStart s).
    rewrite (cbs_ok q s AtStart l P). rewrite <- (app_nil_r (concat _)). symmetry. apply K.
  - rewrite (lark_parse_err q s x P) in P. rewrite (lark_run_err q b s P) in H. cbn [snd] in H. congruence.
Qed.
Lemma lark_run_done : forall q b s ts, snd (lark_run q b s) = Ok ts -> Forall decodes (callbacks q s).
Proof.
  intros q b s ts H. destruct (lark_parse q s) as [l|x] eqn:P.
  - unfold lark_run in H. rewrite P in H. pose proof (tr_doc_case l b) as K. rewrite H in K. change (callbacks q s) with (cbs q AtStart s).
    now rewrite (cbs_ok q s AtStart l P).
  - rewrite (lark_parse_err q s x P) in P. rewrite (lark_run_err q b s P) in H. discriminate.
Qed.
Lemma tr_doc_ok : forall l b, Forall decodes (concat (map stmt_texts l)) -> exists ts, snd (tr_doc b l) = Ok ts.
Proof.
  intros l b D. pose proof (tr_doc_case l b) as K. destruct (snd (tr_doc b l)) as [ts|e]; [eauto|].
  pose proof (K []) as K1. pose proof (K [s2l "\U00110000"]) as K2. rewrite raised_app in K1, K2 by assumption. subst e. discriminate K2.
Qed.
Lemma lark_ok_iff : forall q b s, (exists ts, snd (lark_run q b s) = Ok ts) <-> (exists l, lark_parse q s = Ok l) /\ Forall decodes (callbacks q s).
Proof.
  intros q b s. split.
  - intros [ts H]. split; [|eapply lark_run_done; eauto]. destruct (lark_parse q s) as [l|x] eqn:P; [eauto|].
    rewrite (lark_parse_err q s x P) in P. rewrite (lark_run_err q b s P) in H. discriminate.
  - intros [[l P] D]. unfold lark_run. rewrite P. apply tr_doc_ok. change (callbacks q s) with (cbs q AtStart s) in D. now rewrite (cbs_ok q s AtStart l P) in D.
Qed.

(** ** where the escapes of the texts come from *)
Lemma big_escape_app : forall a s b, big_escape s -> big_escape (a ++ s ++ b).
Proof.
  intros a s b (x & h & y & n & -> & L & H & G). exists (a ++ x), h, (y ++ b), n. split; [|auto]. now rewrite <- !app_assoc; cbn [app]; rewrite <- app_assoc.
Qed.
Lemma app_head_eq : forall (a b x y : str), length a = length b -> a ++ x = b ++ y -> a = b.
Proof.
  induction a as [|c a IH]; intros [|d b] x y L E; try discriminate; [reflexivity|]. cbn [app length] in *. injection E as -> E. f_equal. eapply IH; eauto.
Qed.
Lemma lex_hex : forall k r i t, lex_iri (LHex k) r = Some (i, t) -> exists h r' i', r = h ++ r' /\ i = h ++ i' /\ length h = S k.
Proof.
  induction k as [|k IH]; intros [|c r] i t H; try discriminate; cbn [lex_iri] in H; (destruct (is_hex c); [|discriminate]);
    apply cons_tok_some in H; destruct H as (l' & H & ->).
  - exists [c], r, l'. auto.
  - apply IH in H. destruct H as (h & r' & i' & -> & -> & L). exists (c :: h), r', i'. cbn [app length]. auto.
Qed.
Lemma lex_iri_esc : forall r st i t a h b, lex_iri st r = Some (i, t) -> i = a ++ 92 :: 85 :: h ++ b -> length h = 8%nat ->
  exists a' b', r = a' ++ 92 :: 85 :: h ++ b'.
Proof.
  induction r as [|c r IH]; intros st i t a h b H E L; [discriminate|].
  assert (C : forall st' l', lex_iri st' r = Some (l', t) -> (exists a1, l' = a1 ++ 92 :: 85 :: h ++ b) -> exists a' b', c :: r = a' ++ 92 :: 85 :: h ++ b').
  { intros st' l' H' [a1 E']. destruct (IH st' l' t a1 h b H' E' L) as (a' & b' & ->). exists (c :: a'), b'. reflexivity. }
  assert (X : forall l', c :: l' = a ++ 92 :: 85 :: h ++ b -> c <> 92 -> exists a1, l' = a1 ++ 92 :: 85 :: h ++ b).
  { intros l' E' N. destruct a as [|d a]; cbn [app] in E'; injection E' as E1 E2; [congruence|eauto]. }
  cbn [lex_iri] in H. destruct st as [| |k].
  - destruct (c =? 62) eqn:E62; [injection H as <- _; destruct a; discriminate E|]. destruct (is_ws c) eqn:W; [eapply C; [exact H|exists a; exact E]|].
    destruct (c =? 92) eqn:E92.
    + apply cons_tok_some in H. destruct H as (l' & H & ->). apply N.eqb_eq in E92. subst c. destruct a as [|d a].
      * cbn [app] in E. injection E as ->. destruct r as [|c r]; [discriminate|]. cbn [lex_iri] in H.
        destruct (c =? 117) eqn:E117; [apply cons_tok_some in H; destruct H as (l2 & H & H'); injection H' as <- _; discriminate E117|].
        destruct (c =? 85) eqn:E85; [|discriminate]. apply cons_tok_some in H. destruct H as (l2 & H & H'). injection H' as H1 H2. subst c l2.
        apply lex_hex in H. destruct H as (h2 & r' & i' & -> & E2 & L2). exists [], r'. cbn [app]. do 3 f_equal.
        symmetry. rewrite (app_head_eq h2 h i' b); auto; congruence.
      * cbn [app] in E. injection E as E1 E2. eapply C; [exact H|eauto].
    + destruct (iri_char c); [|discriminate]. apply cons_tok_some in H. destruct H as (l' & H & ->). apply N.eqb_neq in E92. eapply C; [exact H|]. now apply X.
  - destruct (c =? 117) eqn:E1; [|destruct (c =? 85) eqn:E2; [|discriminate]]; apply cons_tok_some in H; destruct H as (l' & H & ->);
      (eapply C; [exact H|]); apply X; auto; intros ->; discriminate.
  - destruct (is_hex c) eqn:E1; [|discriminate]. destruct k; apply cons_tok_some in H; destruct H as (l' & H & ->);
      (eapply C; [exact H|]); apply X; auto; intros ->; discriminate.
Qed.
Lemma lex_string_pre : forall s st l t, lex_string st s = Some (l, t) -> s = l ++ 34 :: t.
Proof.
  induction s as [|c r IH]; intros st l t H; [discriminate|]. cbn [lex_string] in H. destruct st as [| |k].
  - destruct (c =? 34) eqn:E; [apply N.eqb_eq in E; injection H as <- <-; now subst|]. destruct (c =? 92).
    + apply cons_tok_some in H. destruct H as (l' & H & ->). apply IH in H. cbn [app]. congruence.
    + destruct ((c =? 10) || (c =? 13)); [discriminate|]. apply cons_tok_some in H. destruct H as (l' & H & ->). apply IH in H. cbn [app]. congruence.
  - destruct (c =? 117); [|destruct (c =? 85); [|destruct (echar_char c); [|discriminate]]]; apply cons_tok_some in H; destruct H as (l' & H & ->); apply IH in H; cbn [app]; congruence.
  - destruct (is_hex c); [|discriminate]. apply cons_tok_some in H. destruct H as (l' & H & ->). apply IH in H. cbn [app]. congruence.
Qed.
(** [s] has a big escape if the text [x] has *)
Definition from (s x : str) : Prop := big_escape x -> big_escape s.
Lemma from_sfx : forall s t x, sfx0 s t -> from t x -> from s x.
Proof. intros s t x (p & -> & _) H B. rewrite <- (app_nil_r t). apply big_escape_app. auto. Qed.
Lemma p_iri_from : forall s i t, p_iri s = Some (RIri i, t) -> from s i.
Proof.
  intros s i t H. unfold p_iri in H. eapply from_sfx; [apply skip_ws_sfx|]. destruct (skip_ws s) as [|c r]; [discriminate|]. destruct (c =? 60); [|discriminate].
  destruct (lex_iri LNormal r) as [[j u]|] eqn:E; [|discriminate]. injection H as -> _. intros (a & h & b & n & Ei & L & G).
  destruct (lex_iri_esc _ _ _ _ _ _ _ E Ei L) as (a' & b' & ->). exists (c :: a'), h, b', n. auto.
Qed.
Lemma from_tail : forall c s x, from s x -> from (c :: s) x.
Proof. intros c s x H B. apply H in B. apply (big_escape_app [c] s []) in B. now rewrite app_nil_r in B. Qed.
Lemma from_pre : forall l t x, from t x -> from (l ++ t) x.
Proof. intros l t x H. induction l; [exact H|]. cbn [app]. now apply from_tail. Qed.
Lemma p_subject_from : forall s x t y, p_subject s = Some (x, t) -> In y (term_texts x) -> from s y.
Proof.
  intros s x t y H J. pose proof (p_subject_node _ _ _ H) as N. destruct x as [i|l|? ?]; [|contradiction|contradiction].
  destruct J as [<-|[]]. unfold p_subject in H. destruct (starts 95 s); [|eapply p_iri_from; eauto].
  unfold p_bnode in H. destruct (skip_ws s) as [|c [|d r]]; try discriminate. destruct ((c =? 95) && (d =? 58)); [|discriminate]. destruct (lex_label r) as [[? ?]|]; discriminate.
Qed.
Lemma p_object_from : forall s x t y, p_object s = Some (x, t) -> In y (term_texts x) -> from s y.
Proof.
  intros s x t y H J. unfold p_object in H. destruct (starts 34 s) eqn:S; [|eapply p_subject_from; eauto].
  eapply from_sfx; [apply skip_ws_sfx|]. rewrite (starts_spec _ _ S). apply from_tail. remember (tl (skip_ws s)) as r eqn:R. clear S R.
  unfold p_literal in H. destruct (lex_string LNormal r) as [[b u]|] eqn:E; [|discriminate]. apply lex_string_pre in E. subst r.
  assert (B : from (b ++ 34 :: u) b) by (intro K; apply (big_escape_app [] b (34 :: u)) in K; exact K).
  destruct (starts 94 u).
  - destruct (p_datatype (skip_ws u)) as [[d v]|] eqn:D; [|discriminate]. injection H as <- <-. destruct J as [<-|[<-|[]]]; [|exact B].
    apply from_pre, from_tail. eapply from_sfx; [apply skip_ws_sfx|]. destruct (skip_ws u) as [|c1 [|c2 w]]; try discriminate. unfold p_datatype in D.
    destruct ((c1 =? 94) && (c2 =? 94)); [|discriminate]. destruct (p_iri w) as [[[i| |] ?]|] eqn:P; try discriminate. injection D as -> ->.
    do 2 apply from_tail. eapply p_iri_from; eauto.
  - destruct (starts 64 u).
    + destruct (lex_lang (tl (skip_ws u))) as [[? ?]|]; [|discriminate]. injection H as <- <-. destruct J as [<-|[]]. exact B.
    + injection H as <- <-. destruct J as [<-|[]]. exact B.
Qed.
Lemma iri_cb_in : forall i t y, In y (iri_cb i t) -> y = i.
Proof. intros i t y H. unfold iri_cb in H. match type of H with In _ (if ?c then _ else _) => destruct c end; [destruct H as [<-|[]]; reflexivity|contradiction]. Qed.
Lemma lit_cb_in : forall q i t y, In y (lit_cb q i t) -> y = i.
Proof. intros q i t y H. unfold lit_cb in H. match type of H with In _ (if ?c then _ else _) => destruct c end; [destruct H as [<-|[]]; reflexivity|contradiction]. Qed.
Lemma term_cbs_in : forall q x t y, In y (term_cbs q x t) -> In y (term_texts x).
Proof.
  intros q [i|l|b [|l|d]] t y H; cbn [term_cbs term_texts] in *; rewrite ?in_app_iff in H.
  - apply iri_cb_in in H. left. auto.
  - exact H.
  - apply lit_cb_in in H. left. auto.
  - apply lit_cb_in in H. left. auto.
  - destruct H as [H|H]; [apply iri_cb_in in H; left; auto|apply lit_cb_in in H; right; left; auto].
Qed.
Lemma stmt_cbs_from : forall q s y, In y (stmt_cbs q s) -> from s y.
Proof.
  intros q s y H. unfold stmt_cbs in H. destruct (p_subject s) as [[a s1]|] eqn:E1; [|contradiction].
  rewrite !in_app_iff in H. destruct H as [H|H]; [apply term_cbs_in in H; eapply p_subject_from; eauto|].
  apply p_subject_sfx, sfx_sfx0 in E1. eapply from_sfx; [exact E1|]. clear E1. destruct (p_iri s1) as [[b s2]|] eqn:E2; [|contradiction].
  rewrite !in_app_iff in H. destruct H as [H|H].
  { apply term_cbs_in in H. destruct (p_iri_iri _ _ _ E2) as [i ->]. destruct H as [<-|[]]. eapply p_iri_from; eauto. }
  apply p_iri_sfx, sfx_sfx0 in E2. eapply from_sfx; [exact E2|]. clear E2. destruct (p_object s2) as [[c s3]|] eqn:E3; [|contradiction].
  rewrite !in_app_iff in H. destruct H as [H|H]; [apply term_cbs_in in H; eapply p_object_from; eauto|].
  apply p_object_sfx, sfx_sfx0 in E3. eapply from_sfx; [exact E3|]. destruct q; [|contradiction]. destruct (p_iri s3) as [[g s4]|] eqn:E4; [|contradiction].
  apply term_cbs_in in H. destruct (p_iri_iri _ _ _ E4) as [i ->]. destruct H as [<-|[]]. eapply p_iri_from; eauto.
Qed.
Lemma skip_eol_pre : forall s, exists p, s = p ++ skip_eol s.
Proof. induction s as [|c r [p IH]]; cbn [skip_eol]; [exists []; reflexivity|]. destruct (is_eol c); [exists (c :: p); cbn [app]; congruence|exists []; reflexivity]. Qed.
Lemma cbs_from : forall q s st y, In y (cbs q st s) -> from s y.
Proof.
  intros q s. induction s as [s IH] using strong_list_ind. intros st y H. rewrite cbs_eq in H. pose proof (skip_ws_length s) as HL.
  destruct (skip_ws s) as [|c r] eqn:W; [contradiction|]. simpl in HL. pose proof (skip_eol_length r) as HE.
  destruct (is_eol c).
  - assert (K : In y (cbs q AfterEol (skip_eol r))) by (destruct st; [exact H|exact H|contradiction]).
    eapply from_sfx; [apply skip_ws_sfx|]. rewrite W. apply from_tail. destruct (skip_eol_pre r) as [p E]. rewrite E. apply from_pre. apply (IH (skip_eol r)) in K; [exact K|lia].
  - assert (K : In y (stmt_cbs q s ++ match p_stmt q s with Some (_, t) => cbs q AfterStmt t | None => [] end)) by (destruct st; [exact H|contradiction|exact H]).
    apply in_app_or in K. destruct K as [K|K]; [eapply stmt_cbs_from; eauto|]. destruct (p_stmt q s) as [[x t]|] eqn:P; [|contradiction].
    apply p_stmt_sfx in P. eapply from_sfx; [apply sfx_sfx0; exact P|]. eapply IH; [now apply sfx_length|eauto].
Qed.
(** which exceptions a call with a syntax error can raise *)
Lemma raised_cases : forall l, raised l = LarkError \/ (raised l = ValueError \/ raised l = OverflowError) /\ exists x, In x l /\ big_escape x.
Proof.
  induction l as [|x l IH]; [left; reflexivity|]. cbn [raised]. destruct (decode_literal x) as [v|e] eqn:D.
  - destruct IH as [IH|(IH & y & J & B)]; [left; exact IH|]. right. split; [exact IH|]. exists y. split; [right|]; auto.
  - right. apply decode_raises in D. destruct D as [D B]. split; [exact D|]. exists x. split; [now left|exact B].
Qed.
Lemma callbacks_raise : forall q s, raised (callbacks q s) = LarkError \/
  (raised (callbacks q s) = ValueError \/ raised (callbacks q s) = OverflowError) /\ big_escape s.
Proof.
  intros q s. destruct (raised_cases (callbacks q s)) as [H|(H & x & J & B)]; [left; exact H|]. right. split; [exact H|].
  apply (cbs_from q s AtStart x J). exact B.
Qed.
