(** Lemmas behind C27-C34. *)
From Verif Require Import Model.Py Model.Terms Model.Graph Model.Codec Model.NTriples Spec.CodecSpec Spec.NTSpec Spec.GraphSpec
  Proofs.DictLemmas Proofs.CodecLemmas Proofs.IriLemmas Proofs.NTLex Proofs.CodecMore Proofs.NTDoc Proofs.NTCallbacks
  Proofs.GraphInv Proofs.GraphHist Proofs.NTRun.
Open Scope N_scope.

(** ** C27 *)
Lemma string_atomic : forall q n g s m g' e, parse_string q n g s = (m, g', Err e) -> g' = g.
Proof.
  intros q n g s m g' e H. unfold parse_string in H. destruct (lark_run q (prepare n) s) as [b [ts|x]]; inversion H; reflexivity.
Qed.
Lemma g_addAll_cons : forall g t ts, g_addAll g (t :: ts) = g_addAll (g_add g t) ts.
Proof. reflexivity. Qed.

Definition first_triple (q : bool) (l : str) (t : stmt) : Prop := exists b b' r, lark_run q b l = (b', Ok (t :: r)).
Lemma stream_loop_err : forall q lines b g b' g' e, stream_loop q b g lines = (b', g', Err e) ->
  exists l1 bad l2 ts b1, lines = l1 ++ bad :: l2 /\ Forall2 (first_triple q) (filter nonempty l1) ts /\
    g' = g_addAll g ts /\ stream_loop q b g l1 = (b1, g', Ok tt) /\ stream_loop q b1 g' [bad] = (b', g', Err e).
Proof.
  intros q lines. induction lines as [|l r IH]; intros b g b' g' e H; [discriminate|].
  destruct l as [|c l].
  - cbn [stream_loop] in H. destruct (IH _ _ _ _ _ H) as (l1 & bad & l2 & ts & b1 & -> & F & G & S & B).
    exists ([] :: l1), bad, l2, ts, b1. split; [reflexivity|]. split; [exact F|]. split; [exact G|]. split; [exact S|exact B].
  - cbn [stream_loop] in H. destruct (lark_run q b (c :: l)) as [b2 [[|t ts']|x]] eqn:R.
    + inversion H; subst. exists [], (c :: l), r, [], b. split; [reflexivity|]. split; [constructor|]. split; [reflexivity|].
      split; [reflexivity|]. cbn [stream_loop]. now rewrite R.
    + destruct (IH _ _ _ _ _ H) as (l1 & bad & l2 & ts & b1 & -> & F & G & S & B).
      exists ((c :: l) :: l1), bad, l2, (t :: ts), b1. split; [reflexivity|]. split.
      { cbn [filter nonempty]. constructor; [|exact F]. exists b, b2, ts'. exact R. }
      split; [exact G|]. split; [|exact B]. cbn [stream_loop]. now rewrite R.
    + inversion H; subst. exists [], (c :: l), r, [], b. split; [reflexivity|]. split; [constructor|]. split; [reflexivity|].
      split; [reflexivity|]. cbn [stream_loop]. now rewrite R.
Qed.
Lemma stream_partial : forall q n g lines m g' e, parse_stream q n g lines = (m, g', Err e) ->
  exists before bad after ts m1, lines = before ++ bad :: after /\
    Forall2 (first_triple q) (filter nonempty before) ts /\ g' = g_addAll g ts /\
    parse_stream q n g before = (m1, g', Ok tt) /\ parse_stream q n g (before ++ [bad]) = (m, g', Err e).
Proof.
  intros q n g lines m g' e H. unfold parse_stream in H. destruct (stream_loop q (prepare n) g lines) as [[b g1] r] eqn:S.
  inversion H; subst. destruct (stream_loop_err _ _ _ _ _ _ _ S) as (l1 & bad & l2 & ts & b1 & E & F & G & S1 & S2).
  exists l1, bad, l2, ts, (bs_next b1). split; [exact E|]. split; [exact F|]. split; [exact G|]. unfold parse_stream.
  rewrite S1. split; [reflexivity|].
  assert (A : forall lines b g b1 g1 l2, stream_loop q b g lines = (b1, g1, Ok tt) -> stream_loop q b g (lines ++ l2) = stream_loop q b1 g1 l2).
  { clear. induction lines as [|l r IH]; intros b g b1 g1 l2 H; [inversion H; reflexivity|]. destruct l as [|c l].
    - cbn [stream_loop app] in *. now apply IH.
    - cbn [stream_loop app] in *. destruct (lark_run q b (c :: l)) as [b2 [[|t ts']|x]]; try discriminate. now apply IH. }
  rewrite (A _ _ _ _ _ [bad] S1), S2. reflexivity.
Qed.

(** ** C28 *)
Lemma lark_run_line : forall q b s, clean_line s -> lark_run q b (lf s) =
  match line q s with
  | Some x => match tr_stmt b x with (b1, Ok t) => (b1, Ok [t]) | (b1, Err e) => (b1, Err e) end
  | None => (b, Err (raised (stmt_cbs q s)))
  end.
Proof.
  intros q b s C. unfold lark_run. rewrite parse_one by assumption. change (callbacks q (lf s)) with (cbs q AtStart (s ++ [10])).
  rewrite cbs_line by (first [assumption|reflexivity|discriminate]). destruct (line q s) as [x|]; [|now rewrite app_nil_r].
  cbn [tr_doc]. destruct (tr_stmt b x) as [b1 [t|e]]; reflexivity.
Qed.
Lemma lf_cons : forall s, exists c l, lf s = c :: l.
Proof. intros [|c s]; unfold lf; cbn [app]; eauto. Qed.
Lemma stream_lines : forall q ss, Forall clean_line ss -> forall b g b' g',
  stream_loop q b g (map lf ss) = (b', g', Ok tt) <->
  exists l ts, seq_lines q ss = Ok l /\ tr_doc b l = (b', Ok ts) /\ g' = g_addAll g ts.
Proof.
  intros q ss F. induction F as [|s ss C F IH]; intros b g b' g'.
  - cbn [map stream_loop seq_lines]. split.
    + intro H. inversion H; subst. exists [], []. repeat split.
    + intros (l & ts & A & B & D). inversion A; subst. cbn [tr_doc] in B. inversion B; subst. reflexivity.
  - cbn [map]. destruct (lf_cons s) as (c & r & E).
    assert (U : stream_loop q b g (lf s :: map lf ss) = match lark_run q b (lf s) with
      | (b', Err e) => (b', g, Err e) | (b', Ok []) => (b', g, Err RuntimeError)
      | (b', Ok (t :: _)) => stream_loop q b' (g_add g t) (map lf ss) end) by (rewrite E; reflexivity).
    rewrite U, lark_run_line by assumption. cbn [seq_lines]. destruct (line q s) as [x|].
    2:{ split; [discriminate|]. intros (l & ts & A & _). discriminate. }
    destruct (tr_stmt b x) as [b1 [t|e]] eqn:T.
    + rewrite IH. split.
      * intros (l & ts & A & B & D). exists (x :: l), (t :: ts). rewrite A. split; [reflexivity|]. cbn [tr_doc].
        rewrite T, B. split; [reflexivity|exact D].
      * intros (l & ts & A & B & D). apply bind_ok in A. destruct A as (l' & A & A'). apply Ok_inj in A'. subst l.
        cbn [tr_doc] in B. rewrite T in B. destruct (tr_doc b1 l') as [b2 [ts'|e]] eqn:B2; inversion B; subst.
        exists l', ts'. auto.
    + split; [discriminate|]. intros (l & ts & A & B & D). apply bind_ok in A. destruct A as (l' & A & A'). apply Ok_inj in A'. subst l.
      cbn [tr_doc] in B. rewrite T in B. discriminate.
Qed.
Lemma stream_string_agree : forall q n g ss m g', Forall clean_line ss ->
  parse_stream q n g (map lf ss) = (m, g', Ok tt) <-> parse_string q n g (text ss) = (m, g', Ok tt).
Proof.
  intros q n g ss m g' F. unfold parse_stream, parse_string, lark_run. rewrite parse_text by assumption. split.
  - intro H. destruct (stream_loop q (prepare n) g (map lf ss)) as [[b g1] r] eqn:S. inversion H; subst.
    apply (stream_lines q ss F) in S. destruct S as (l & ts & A & B & D). rewrite A, B, D. reflexivity.
  - intro H. destruct (seq_lines q ss) as [l|e] eqn:A; [|destruct e; discriminate].
    destruct (tr_doc (prepare n) l) as [b [ts|e]] eqn:B; inversion H; subst.
    assert (S : stream_loop q (prepare n) g (map lf ss) = (b, g_addAll g ts, Ok tt)).
    { apply (stream_lines q ss F). exists l, ts. auto. }
    now rewrite S.
Qed.
Lemma stream_blank : forall q n g ss b rest m g', Forall clean_line ss -> blank b ->
  parse_string q n g (text ss) = (m, g', Ok tt) ->
  parse_stream q n g (map lf ss ++ lf b :: rest) = (m, g', Err RuntimeError).
Proof.
  intros q n g ss b rest m g' F B H. apply (stream_string_agree q n g ss m g' F) in H. unfold parse_stream in *.
  destruct (stream_loop q (prepare n) g (map lf ss)) as [[b1 g1] r] eqn:S. inversion H; subst.
  assert (A : forall lines b g b1 g1 l2, stream_loop q b g lines = (b1, g1, Ok tt) -> stream_loop q b g (lines ++ l2) = stream_loop q b1 g1 l2).
  { clear. induction lines as [|l r IH]; intros b g b1 g1 l2 H; [inversion H; reflexivity|]. destruct l as [|c l].
    - cbn [stream_loop app] in *. now apply IH.
    - cbn [stream_loop app] in *. destruct (lark_run q b (c :: l)) as [b2 [[|t ts']|x]]; try discriminate. now apply IH. }
  rewrite (A _ _ _ _ _ (lf b :: rest) S). destruct (lf_cons b) as (c & r & E).
  assert (R : lark_run q b1 (lf b) = (b1, Ok [])) by (unfold lark_run; rewrite parse_blank by assumption; reflexivity).
  rewrite E in *. cbn [stream_loop]. rewrite R. reflexivity.
Qed.
(** extra line ends change nothing for the string parser *)
Lemma skip_eol_all : forall e s, Forall (fun c => is_eol c = true) e -> skip_eol (e ++ s) = skip_eol s.
Proof. induction 1 as [|c e Hc He IH]; [reflexivity|]. cbn [app skip_eol]. now rewrite Hc. Qed.
Lemma seq_lines_app : forall q a b, seq_lines q (a ++ b) = do x <- seq_lines q a ; do y <- seq_lines q b ; Ok (x ++ y).
Proof.
  induction a as [|s a IH]; intro b.
  - cbn [app seq_lines bind]. destruct (seq_lines q b); reflexivity.
  - cbn [app seq_lines]. destruct (line q s) as [x|]; [|reflexivity]. rewrite IH. destruct (seq_lines q a) as [l|e]; [|reflexivity].
    cbn [bind]. destruct (seq_lines q b); reflexivity.
Qed.
Lemma doc_ends : forall q ss ss2 e st, Forall clean_line ss -> Forall clean_line ss2 -> Forall (fun c => is_eol c = true) e ->
  ss <> [] -> st <> AfterStmt -> doc q st (text ss ++ e ++ text ss2) = seq_lines q (ss ++ ss2).
Proof.
  intros q ss ss2 e st F F2 He. revert st. induction F as [|s ss C F IH]; intros st N Hst; [congruence|].
  rewrite text_cons. rewrite <- app_assoc. cbn [app]. rewrite doc_line by (first [assumption|reflexivity]). cbn [seq_lines app].
  destruct (line q s) as [x|]; [|reflexivity]. destruct ss as [|s' ss].
  - cbn [text map concat app]. rewrite skip_eol_all by assumption. rewrite skip_eol_text by assumption.
    rewrite doc_text by (first [assumption|discriminate]). reflexivity.
  - assert (E : skip_eol (text (s' :: ss) ++ e ++ text ss2) = text (s' :: ss) ++ e ++ text ss2).
    { rewrite text_cons, <- app_assoc. inversion F; subst. now apply skip_eol_clean. }
    rewrite E, IH by discriminate. reflexivity.
Qed.
Lemma cbs_ends : forall q ss ss2 e st, Forall clean_line ss -> Forall clean_line ss2 -> Forall (fun c => is_eol c = true) e ->
  ss <> [] -> st <> AfterStmt -> cbs q st (text ss ++ e ++ text ss2) = seq_cbs q (ss ++ ss2).
Proof.
  intros q ss ss2 e st F F2 He. revert st. induction F as [|s ss C F IH]; intros st N Hst; [congruence|].
  rewrite text_cons. rewrite <- app_assoc. cbn [app]. rewrite cbs_line by (first [assumption|reflexivity]). cbn [seq_cbs app]. f_equal.
  destruct (line q s) as [x|]; [|reflexivity]. destruct ss as [|s' ss].
  - cbn [text map concat app]. rewrite skip_eol_all by assumption. rewrite skip_eol_text by assumption.
    rewrite cbs_text by (first [assumption|discriminate]). reflexivity.
  - assert (E : skip_eol (text (s' :: ss) ++ e ++ text ss2) = text (s' :: ss) ++ e ++ text ss2).
    { rewrite text_cons, <- app_assoc. inversion F; subst. now apply skip_eol_clean. }
    rewrite E, IH by discriminate. reflexivity.
Qed.
Lemma string_extra_ends : forall q n g ss ss2 e, Forall clean_line ss -> Forall clean_line ss2 -> Forall (fun c => is_eol c = true) e ->
  ss <> [] -> parse_string q n g (text ss ++ e ++ text ss2) = parse_string q n g (text (ss ++ ss2)).
Proof.
  intros q n g ss ss2 e F F2 He N. unfold parse_string, lark_run. rewrite parse_text by (apply Forall_app; auto).
  change (lark_parse q (text ss ++ e ++ text ss2)) with (doc q AtStart (text ss ++ e ++ text ss2)).
  rewrite doc_ends by (first [assumption|discriminate]). change (callbacks q (text ss ++ e ++ text ss2)) with (cbs q AtStart (text ss ++ e ++ text ss2)).
  change (callbacks q (text (ss ++ ss2))) with (cbs q AtStart (text (ss ++ ss2))). rewrite cbs_ends, cbs_text by (first [assumption|discriminate|apply Forall_app; auto]). reflexivity.
Qed.
Lemma cr_loses : forall q n g x y m g', clean_line x -> clean_line y ->
  parse_string q n g (x ++ 13 :: lf y) = (m, g', Ok tt) ->
  exists t1 t2, g' = g_addAll g [t1; t2] /\ parse_stream q n g [x ++ 13 :: lf y] = (m, g_addAll g [t1], Ok tt).
Proof.
  intros q n g x y m g' Cx Cy H. unfold parse_string in H.
  assert (P : lark_parse q (x ++ 13 :: lf y) = seq_lines q [x; y]).
  { change (doc q AtStart (x ++ 13 :: lf y) = seq_lines q [x; y]). rewrite doc_line by (first [assumption|reflexivity|discriminate]).
    cbn [seq_lines]. destruct (line q x) as [a|]; [|reflexivity]. unfold lf. rewrite skip_eol_clean by assumption.
    rewrite doc_line by (first [assumption|reflexivity|discriminate]). destruct (line q y); reflexivity. }
  assert (R : lark_run q (prepare n) (x ++ 13 :: lf y) = match seq_lines q [x; y] with
    | Err LarkError => (prepare n, Err (raised (callbacks q (x ++ 13 :: lf y)))) | Err e => (prepare n, Err e) | Ok l => tr_doc (prepare n) l end)
    by (unfold lark_run; now rewrite P).
  assert (NE : exists c r, x ++ 13 :: lf y = c :: r) by (destruct x; cbn [app]; eauto).
  destruct NE as (c & r & E). unfold parse_stream. rewrite E in *. cbn [stream_loop]. rewrite R in *. cbn [seq_lines] in *.
  destruct (line q x) as [a|]; [|discriminate]. destruct (line q y) as [d|]; [|discriminate]. cbn [bind tr_doc] in *.
  destruct (tr_stmt (prepare n) a) as [b1 [t1|]]; [|discriminate]. destruct (tr_stmt b1 d) as [b2 [t2|]]; [|discriminate].
  cbn [bind] in *. inversion H; subst. exists t1, t2. split; reflexivity.
Qed.

(** ** C30 *)
Lemma contains_addAll : forall g ts t, g_contains (g_addAll g ts) t = g_contains g t || g_contains (g_addAll (graph_new None) ts) t.
Proof.
  intros g ts t. apply eq_true_iff_eq. rewrite orb_true_iff, !g_contains_true, !g_addAll_In. simpl. tauto.
Qed.
Lemma string_adds : forall q n g s m g' r m0 d r0,
  parse_string q n g s = (m, g', r) -> parse_string_new q n s = (m0, d, r0) ->
  r0 = r /\ m0 = m /\ forall t, g_contains g' t = g_contains g t || g_contains d t.
Proof.
  intros q n g s m g' r m0 d r0 H H0. unfold parse_string_new, parse_string in *.
  destruct (lark_run q (prepare n) s) as [b [ts|e]]; inversion H; inversion H0; subst; (split; [reflexivity|split; [reflexivity|]]).
  - apply contains_addAll.
  - intro t. now rewrite orb_false_r.
Qed.
Lemma stream_loop_adds : forall q lines b g b' g' r, stream_loop q b g lines = (b', g', r) ->
  exists ts, g' = g_addAll g ts /\ forall h, stream_loop q b h lines = (b', g_addAll h ts, r).
Proof.
  intros q lines. induction lines as [|l rest IH]; intros b g b' g' r H.
  - inversion H; subst. exists []. split; reflexivity.
  - destruct l as [|c l]; cbn [stream_loop] in *; [eauto|].
    destruct (lark_run q b (c :: l)) as [b2 [[|t ts']|x]].
    + inversion H; subst. exists []. split; reflexivity.
    + destruct (IH _ _ _ _ _ H) as (ts & -> & K). exists (t :: ts). split; [reflexivity|]. intro h. rewrite K. reflexivity.
    + inversion H; subst. exists []. split; reflexivity.
Qed.
Lemma stream_adds : forall q n g lines m g' r m0 d r0,
  parse_stream q n g lines = (m, g', r) -> parse_stream q n (graph_new None) lines = (m0, d, r0) ->
  r0 = r /\ m0 = m /\ forall t, g_contains g' t = g_contains g t || g_contains d t.
Proof.
  intros q n g lines m g' r m0 d r0 H H0. unfold parse_stream in *.
  destruct (stream_loop q (prepare n) g lines) as [[b g1] r1] eqn:S. inversion H; subst.
  destruct (stream_loop_adds _ _ _ _ _ _ _ S) as (ts & -> & K). rewrite K in H0. inversion H0; subst.
  split; [reflexivity|]. split; [reflexivity|]. apply contains_addAll.
Qed.

(** ** C31 *)
Lemma iri_blank_lex : forall c, iri_blank c -> iri_char c = true \/ is_ws c = true.
Proof.
  intros c [->|[->|[L H]]]; [right; reflexivity|right; reflexivity|left]. apply iri_char_spec.
  cbn [s2l N_of_ascii] in H. change (s2l "<>""{}|^`\") with [60; 62; 34; 123; 125; 124; 94; 96; 92] in H. cbn [In] in H.
  repeat split; try assumption; intros ->; tauto.
Qed.
Lemma no_blanks_no_bs : forall s, Forall iri_blank s -> decode_literal (no_blanks s) = Ok (no_blanks s).
Proof.
  intros s F. apply decode_no_backslash. intro X. unfold no_blanks in X. apply filter_In in X. destruct X as [X _].
  rewrite Forall_forall in F. apply F in X. destruct X as [X|[X|[_ X]]]; try discriminate. apply X. vm_compute. tauto.
Qed.
Lemma p_iri_blanks : forall s r, Forall iri_blank s -> p_iri (60 :: s ++ 62 :: r) = Some (RIri (no_blanks s), r).
Proof.
  intros s r F. unfold p_iri. cbn [skip_ws]. change (is_ws 60) with false. cbv iota. change (60 =? 60) with true. cbv iota.
  rewrite lex_iri_blanks; [reflexivity|]. eapply Forall_impl; [|exact F]. apply iri_blank_lex.
Qed.
Lemma iri_blank_line : forall a b c, Forall iri_blank a -> Forall iri_blank b -> Forall iri_blank c ->
  lark_parse false (iri_doc a b c) = Ok [RSt (RIri (no_blanks a)) (RIri (no_blanks b)) (RIri (no_blanks c)) None].
Proof.
  intros a b c Fa Fb Fc. change (doc false AtStart (iri_doc a b c) = Ok [RSt (RIri (no_blanks a)) (RIri (no_blanks b)) (RIri (no_blanks c)) None]).
  rewrite doc_eq. unfold iri_doc. set (w := a ++ 62 :: 32 :: 60 :: b ++ 62 :: 32 :: 60 :: c ++ 62 :: 32 :: 46 :: [10]).
  assert (SW : skip_ws (60 :: w) = 60 :: w) by reflexivity. rewrite SW. change (is_eol 60) with false. cbv iota.
  assert (P : p_stmt false (60 :: w) = Some (RSt (RIri (no_blanks a)) (RIri (no_blanks b)) (RIri (no_blanks c)) None, [10])).
  { unfold p_stmt, p_subject, starts. rewrite SW. change (60 =? 95) with false. cbv iota. unfold w. rewrite p_iri_blanks by assumption.
    destruct (p_ws (60 :: b ++ 62 :: 32 :: 60 :: c ++ 62 :: 32 :: 46 :: [10])) as (-> & _). rewrite p_iri_blanks by assumption.
    destruct (p_ws (60 :: c ++ 62 :: 32 :: 46 :: [10])) as (_ & _ & _ & -> & _).
    unfold p_object, p_subject, starts. cbn [skip_ws]. change (is_ws 60) with false. cbv iota.
    change (60 =? 34) with false. change (60 =? 95) with false. cbv iota. rewrite p_iri_blanks by assumption. reflexivity. }
  rewrite P. reflexivity.
Qed.
Lemma blanks_dropped : forall n g a b c, Forall iri_blank a -> Forall iri_blank b -> Forall iri_blank c ->
  parse_string false n g (iri_doc a b c) = (n, g_add g (Tr (Iri (no_blanks a)) (Iri (no_blanks b)) (Iri (no_blanks c))), Ok tt).
Proof.
  intros n g a b c Fa Fb Fc. unfold parse_string, lark_run. rewrite iri_blank_line by assumption.
  cbn [tr_doc]. unfold tr_stmt. cbn [r_s r_p r_o r_g tr_term tr_graph].
  rewrite !no_blanks_no_bs by assumption. reflexivity.
Qed.

(** ** C32 *)
Definition raw_lang_ok (x : rterm) : Prop := match x with RLit _ (RLang l) => langtag_ok l | _ => True end.
Definition raw_langs_ok (x : rstmt) : Prop :=
  raw_lang_ok (r_s x) /\ raw_lang_ok (r_p x) /\ raw_lang_ok (r_o x) /\ match r_g x with Some g => raw_lang_ok g | None => True end.
Lemma p_iri_lang : forall s x t, p_iri s = Some (x, t) -> raw_lang_ok x.
Proof.
  intros s x t H. unfold p_iri in H. destruct (skip_ws s) as [|c r]; [discriminate|]. destruct (c =? 60); [|discriminate].
  destruct (lex_iri LNormal r) as [[? ?]|]; inversion H; exact I.
Qed.
Lemma p_subject_lang : forall s x t, p_subject s = Some (x, t) -> raw_lang_ok x.
Proof.
  intros s x t H. unfold p_subject in H. destruct (starts 95 s); [|eapply p_iri_lang; eassumption].
  unfold p_bnode in H. destruct (skip_ws s) as [|c [|d r]]; try discriminate. destruct ((c =? 95) && (d =? 58)); [|discriminate].
  destruct (lex_label r) as [[? ?]|]; inversion H; exact I.
Qed.
Lemma p_object_lang : forall s x t, p_object s = Some (x, t) -> raw_lang_ok x.
Proof.
  intros s x t H. unfold p_object in H. destruct (starts 34 s); [|eapply p_subject_lang; eassumption].
  unfold p_literal in H. destruct (lex_string LNormal (tl (skip_ws s))) as [[b u]|]; [|discriminate].
  destruct (starts 94 u).
  - destruct (p_datatype (skip_ws u)) as [[? ?]|]; inversion H; exact I.
  - destruct (starts 64 u); [|inversion H; exact I].
    destruct (lex_lang (tl (skip_ws u))) as [[l v]|] eqn:L; inversion H; subst. apply lex_lang_sound in L. apply L.
Qed.
Lemma p_stmt_lang : forall q s x t, p_stmt q s = Some (x, t) -> raw_langs_ok x.
Proof.
  intros q s x t H. unfold p_stmt in H. destruct (p_subject s) as [[a s1]|] eqn:A; [|discriminate].
  destruct (p_iri s1) as [[b s2]|] eqn:B; [|discriminate]. destruct (p_object s2) as [[c s3]|] eqn:C; [|discriminate].
  apply p_subject_lang in A. apply p_iri_lang in B. apply p_object_lang in C. destruct q.
  - destruct (p_iri s3) as [[g s4]|] eqn:G; [|discriminate]. apply p_iri_lang in G. destruct (p_dot s4); inversion H; subst.
    repeat split; assumption.
  - destruct (p_dot s3); inversion H; subst. repeat split; assumption.
Qed.
Lemma doc_lang : forall q s st l, doc q st s = Ok l -> Forall raw_langs_ok l.
Proof.
  intros q s. induction s as [s IH] using strong_list_ind. intros st l H. rewrite doc_eq in H.
  pose proof (skip_ws_length s) as HL. destruct (skip_ws s) as [|c r]; [inversion H; constructor|]. simpl in HL.
  pose proof (skip_eol_length r) as HE. destruct (is_eol c).
  - destruct st; try discriminate; (apply (IH (skip_eol r)) in H; [exact H|lia]).
  - destruct st; try discriminate; destruct (p_stmt q s) as [[x t]|] eqn:P; try discriminate;
      apply bind_ok in H; destruct H as (l' & H & H'); apply Ok_inj in H'; subst l;
      (constructor; [eapply p_stmt_lang; eassumption|]); apply p_stmt_sfx, sfx_length in P;
      (apply (IH t) in H; [exact H|assumption]).
Qed.
Lemma tr_term_lang : forall b x b' t, raw_lang_ok x -> tr_term b x = (b', Ok t) -> lang_accepted t.
Proof.
  intros b [s|l|v k] b' t R H; cbn [tr_term] in H.
  - destruct (decode_literal s); inversion H; exact I.
  - unfold make_bnode in H. destruct (dget str_eq_dec (bs_map b) l); inversion H; exact I.
  - destruct k as [|l|d].
    + destruct (decode_literal v); inversion H; exact I.
    + destruct (decode_literal v); inversion H; exact R.
    + destruct (decode_literal d); [|inversion H]. destruct (decode_literal v); inversion H; exact I.
Qed.
Lemma tr_stmt_lang : forall b x b' t, raw_langs_ok x -> tr_stmt b x = (b', Ok t) -> langs_accepted t.
Proof.
  intros b x b' t (A & B & C & _) H. unfold tr_stmt in H. destruct (tr_term b (r_s x)) as [b1 s] eqn:S.
  destruct (tr_term b1 (r_p x)) as [b2 p] eqn:P. destruct (tr_term b2 (r_o x)) as [b3 o] eqn:O.
  destruct (tr_graph b3 (r_g x)) as [b4 g]. assert (H' := f_equal snd H). cbn [snd] in H'. clear H.
  apply bind_ok in H'. destruct H' as (s' & -> & H). apply bind_ok in H. destruct H as (p' & -> & H).
  apply bind_ok in H. destruct H as (o' & -> & H). apply bind_ok in H. destruct H as (g' & _ & H). apply Ok_inj in H. subst t.
  repeat split; cbn [st_s st_p st_o]; eapply tr_term_lang; [|eassumption| |eassumption| |eassumption]; assumption.
Qed.
Lemma tr_doc_lang : forall l b b' ts, Forall raw_langs_ok l -> tr_doc b l = (b', Ok ts) -> Forall langs_accepted ts.
Proof.
  induction l as [|x l IH]; intros b b' ts F H; cbn [tr_doc] in H; [inversion H; constructor|]. inversion F; subst.
  destruct (tr_stmt b x) as [b1 [t|e]] eqn:T; [|discriminate]. destruct (tr_doc b1 l) as [b2 [ts'|e]] eqn:D; inversion H; subst.
  constructor; [eapply tr_stmt_lang; eassumption|eapply IH; eassumption].
Qed.
Lemma parsed_langs : forall q n s m g, parse_string_new q n s = (m, g, Ok tt) -> forall t, In t (g_iter g) -> langs_accepted t.
Proof.
  intros q n s m g H t Ht. unfold parse_string_new, parse_string, lark_run in H.
  destruct (lark_parse q s) as [l|e] eqn:L; [|destruct e; discriminate]. apply (doc_lang q s AtStart) in L.
  destruct (tr_doc (prepare n) l) as [b [ts|]] eqn:T; inversion H; subst. apply tr_doc_lang in T; [|assumption].
  unfold g_iter in Ht. apply g_addAll_In in Ht. destruct Ht as [Ht|[]]. rewrite Forall_forall in T. auto.
Qed.
Lemma lang_round_trip_iff : forall n s p v l, clean_iri s -> clean_iri p -> py_str v -> l <> [] ->
  stable (Tr (Iri s) (Iri p) (Lit v (Some l) None)) ->
  exists x, triple_str (Tr (Iri s) (Iri p) (Lit v (Some l) None)) = Ok x /\
  (langtag_ok l <-> exists m g, parse_string_new false n x = (m, g, Ok tt) /\ g_iter g = [Tr (Iri s) (Iri p) (Lit v (Some l) None)]).
Proof.
  intros n s p v l Cs Cp Pv NE St. set (t := Tr (Iri s) (Iri p) (Lit v (Some l) None)) in *.
  assert (E : exists x, triple_str t = Ok x).
  { unfold triple_str, t. cbn [st_s st_p st_o Tr term_toNT]. rewrite (iri_toNT_ok s), (iri_toNT_ok p) by assumption. cbn [bind].
    unfold lit_toNT. destruct l; [congruence|]. cbn [bind]. eauto. }
  destruct E as (x & E). exists x. split; [exact E|]. split.
  - intro L. assert (F : Forall nt_triple [t]).
    { constructor; [|constructor]. split; [exact Cs|]. split; [exact Cp|]. split; [|reflexivity]. split; [exact Pv|].
      split; [intros y [= <-] _; exact L|discriminate]. }
    destruct (round_trip_stable [t] n (graph_new None) F (Forall_cons _ St (Forall_nil _))) as (tx & n' & f & A & _ & _ & D).
    cbn [serialize_ntriples] in A. rewrite E in A. rewrite app_nil_r in A. inversion A; subst tx.
    exists n'. eexists. split; [exact D|]. reflexivity.
  - intros (m & g & P & G). apply (parsed_langs _ _ _ _ _ P t). rewrite G. now left.
Qed.
Lemma quoted_slash : forall s, clean_iri s -> ~ In 92 (quoted s).
Proof. intros s [H _] J. apply quoted_uri in H. rewrite Forall_forall in H. apply H in J. discriminate J. Qed.
Lemma bad_tag_rejected : forall n g s p v l, clean_iri s -> clean_iri p -> py_str v -> l <> [] -> Forall tag_char l -> ~ langtag_ok l ->
  exists x, triple_str (Tr (Iri s) (Iri p) (Lit v (Some l) None)) = Ok x /\ parse_string false n g x = (n, g, Err LarkError).
Proof.
  intros n g s p v l Cs Cp Pv NE F NL. destruct l as [|lc lr]; [congruence|].
  eexists. split.
  { unfold triple_str. cbn [st_s st_p st_o Tr term_toNT]. rewrite (iri_toNT_ok s), (iri_toNT_ok p) by assumption. cbn [bind lit_toNT]. reflexivity. }
  set (l := lc :: lr) in *.
  set (x := (60 :: quoted s ++ [62]) ++ [32] ++ (60 :: quoted p ++ [62]) ++ [32] ++ (([34] ++ nt_escape v ++ [34]) ++ [64] ++ l) ++ s2l " ." ++ [10]).
  assert (P : lark_parse false x = Err LarkError /\ raised (callbacks false x) = LarkError).
  { change (doc false AtStart x = Err LarkError /\ raised (cbs false AtStart x) = LarkError). rewrite doc_eq, cbs_eq. unfold x. cbn [app skip_ws]. change (is_ws 60) with false. cbv iota.
    change (is_eol 60) with false. cbv iota.
    match goal with |- match p_stmt false ?y with _ => _ end = _ /\ _ => assert (Q : p_stmt false y = None /\ Forall (fun z => z = quoted s \/ z = quoted p) (stmt_cbs false y)) end.
    2:{ destruct Q as [-> Q]. split; [reflexivity|]. rewrite app_nil_r. apply raised_ok. eapply Forall_impl; [|exact Q]. intros z [->| ->]; eexists; apply decode_no_backslash; apply quoted_slash; assumption. }
    unfold stmt_cbs, p_stmt, p_subject, starts. cbn [skip_ws]. change (is_ws 60) with false. cbv iota. change (60 =? 95) with false. cbv iota.
    rewrite <- app_assoc. cbn [app]. rewrite p_iri_text by assumption.
    match goal with |- context [p_iri (32 :: ?y)] => destruct (p_ws y) as (-> & _) end.
    rewrite <- app_assoc. cbn [app]. rewrite p_iri_text by assumption.
    match goal with |- context [p_object (32 :: ?y)] => destruct (p_ws y) as (_ & _ & _ & -> & _) end.
    unfold p_object. rewrite <- !app_assoc. cbn [app]. unfold starts at 1. cbn [skip_ws]. change (is_ws 34) with false. cbv iota.
    change (34 =? 34) with true. cbv iota. cbn [tl]. unfold p_literal. rewrite <- ?app_assoc. cbn [app].
    rewrite lex_string_escape by assumption. unfold starts. cbn [skip_ws]. change (is_ws 64) with false. cbv iota.
    change (64 =? 94) with false. change (64 =? 64) with true. cbv iota. cbn [tl].
    assert (FC : forall i u, i = quoted s \/ i = quoted p -> Forall (fun z => z = quoted s \/ z = quoted p) (term_cbs false (RIri i) u))
      by (intros i u Q; apply Forall_forall; intros z J; apply iri_cb_in in J; now subst).
    match goal with |- context [lex_lang ?y] => destruct (lex_lang y) as [[l1 t]|] eqn:L end; [|split; [reflexivity|]; apply Forall_app; split; [auto|]; apply Forall_app; split; [auto|apply Forall_nil]].
    apply lex_lang_sound in L. destruct L as [E L].
    assert (K : exists c u, t = c :: u /\ tag_char c).
    { change (l ++ 32 :: 46 :: [10] = l1 ++ t) in E.
      assert (T1 : exists u, l = l1 ++ u).
      { pose proof (langtag_chars _ L) as [Fl _]. clear - E Fl. revert l1 E Fl. induction l as [|c l IH]; intros [|d l1] E Fl.
        - exists []. reflexivity.
        - cbn [app] in E. injection E as E1 E2. subst d. apply Forall_inv in Fl. destruct Fl as [Fl|[Fl|[Fl|[Fl|Fl]]]]; discriminate Fl.
        - exists (c :: l). reflexivity.
        - cbn [app] in E. injection E as E1 E2. subst d. apply Forall_inv_tail in Fl. destruct (IH l1 E2 Fl) as [u ->]. exists u. reflexivity. }
      destruct T1 as [u U]. destruct u as [|c u].
      - rewrite app_nil_r in U. subst l1. contradiction.
      - rewrite U in E. rewrite <- app_assoc in E. apply app_inv_head in E. subst t. exists c. eexists. split; [reflexivity|].
        rewrite U in F. apply Forall_app in F. destruct F as [_ F]. inversion F; assumption. }
    destruct K as (c & u & -> & Tc). unfold p_dot. cbn [skip_ws].
    assert (is_ws c = false /\ (c =? 46) = false) as [W E46].
    2:{ split; [now rewrite W, E46|]. apply Forall_app; split; [auto|]. apply Forall_app; split; [auto|]. apply Forall_app; split; [|apply Forall_nil].
        unfold term_cbs, lit_cb, starts. cbn [skip_ws]. rewrite W, E46. apply Forall_nil. }
    unfold tag_char, ascii_letter in Tc. unfold is_ws. rewrite !orb_false_iff, !N.eqb_neq.
    destruct Tc as [Tc|[Tc|Tc]]; [|lia|lia]. apply orb_true_iff in Tc. rewrite !andb_true_iff, !N.leb_le in Tc. lia. }
  destruct P as [P Q]. unfold parse_string. rewrite lark_run_err, Q by assumption. reflexivity.
Qed.

(** ** C33 *)
Definition line_head (c : char) : Prop := c = 32 \/ c = 9 \/ c = 10 \/ c = 13 \/ c = 60 \/ c = 95.
Definition heads (s : str) : Prop := forall p c r, s = p ++ 10 :: c :: r -> line_head c.
Lemma heads_prefix : forall p s, no_eol p -> heads s -> heads (p ++ s).
Proof.
  induction p as [|a p IH]; intros s N H; [exact H|]. inversion N; subst. intros [|x q] c r E; cbn [app] in E; inversion E; subst.
  - discriminate.
  - eapply (IH s H3 H). eassumption.
Qed.
Lemma heads_cons : forall a s, heads s -> match s with c :: _ => line_head c | [] => True end -> heads (a :: s).
Proof.
  intros a s H1 H2 [|x q] c r E; cbn [app] in E; inversion E; subst; [exact H2|]. eapply H1. reflexivity.
Qed.
Lemma p_stmt_head : forall q s x t, p_stmt q s = Some (x, t) -> match skip_ws s with c :: _ => c = 60 \/ c = 95 | [] => True end.
Proof.
  intros q s x t H. unfold p_stmt in H. destruct (p_subject s) as [[a s1]|] eqn:A; [|discriminate].
  unfold p_subject, starts in A. destruct (skip_ws s) as [|c r] eqn:E; [exact I|]. destruct (c =? 95) eqn:C; [right; now apply N.eqb_eq|].
  unfold p_iri in A. rewrite E in A. destruct (c =? 60) eqn:C'; [left; now apply N.eqb_eq|discriminate].
Qed.
Lemma head_skip : forall s c r, skip_ws s = c :: r -> line_head c -> match s with d :: _ => line_head d | [] => True end.
Proof.
  intros [|d s] c r H L; [exact I|]. cbn [skip_ws] in H. destruct (is_ws d) eqn:W.
  - apply is_ws_spec in W. destruct W as [->| ->]; [left|right; left]; reflexivity.
  - inversion H; subst. exact L.
Qed.
Lemma doc_heads : forall q s st l, doc q st s = Ok l ->
  (st <> AfterStmt -> match s with c :: _ => line_head c | [] => True end) /\ heads s.
Proof.
  intros q s. induction s as [s IH] using strong_list_ind. intros st l H. rewrite doc_eq in H.
  pose proof (skip_ws_length s) as HL. destruct (skip_ws_sfx s) as (w & Ew & Nw).
  destruct (skip_ws s) as [|c r] eqn:SW.
  - rewrite app_nil_r in Ew. subst w. split.
    + intros _. destruct s as [|d s']; [exact I|]. apply skip_ws_blank in SW. inversion SW; subst. apply is_ws_spec in H2.
      destruct H2 as [->| ->]; [left|right; left]; reflexivity.
    + intros p d u E. exfalso. rewrite E in Nw. apply Forall_app in Nw. destruct Nw as [_ Nw]. inversion Nw; discriminate.
  - simpl in HL. pose proof (skip_eol_length r) as HE. destruct (is_eol c) eqn:EC.
    + assert (D : doc q AfterEol (skip_eol r) = Ok l) by (destruct st; [exact H|exact H|discriminate]).
      apply (IH (skip_eol r)) in D; [|lia]. destruct D as [D1 D2]. split.
      * intros _. eapply head_skip; [exact SW|]. apply is_eol_spec in EC. destruct EC as [->| ->]; unfold line_head; tauto.
      * rewrite Ew. apply heads_prefix; [assumption|].
        assert (R : heads r /\ match r with c :: _ => line_head c | [] => True end).
        { specialize (D1 ltac:(discriminate)). clear - D1 D2. induction r as [|d r IHr]; [split; [exact D2|exact I]|].
          cbn [skip_eol] in *. destruct (is_eol d) eqn:E; [|split; assumption]. destruct (IHr D1 D2) as [A B].
          split; [now apply heads_cons|]. apply is_eol_spec in E. destruct E as [->| ->]; unfold line_head; tauto. }
        apply heads_cons; apply R.
    + destruct st; try discriminate; (destruct (p_stmt q s) as [[x t]|] eqn:P; [|discriminate]);
      (split; [intros _; eapply head_skip; [exact SW|]; apply p_stmt_head in P; rewrite SW in P; unfold line_head; tauto|]);
      apply bind_ok in H; destruct H as (l' & H & _); pose proof (p_stmt_sfx _ _ _ _ P) as X; pose proof (sfx_length _ _ X);
      (apply (IH t) in H; [|assumption]); destruct H as [_ H]; apply sfx_sfx0 in X; destruct X as (pp & -> & Np);
      now apply heads_prefix.
Qed.
Lemma letter_line_rejected : forall q n g pre c r, ascii_letter c = true -> (pre = [] \/ exists p, pre = p ++ [10]) ->
  exists e, parse_string q n g (pre ++ c :: r) = (n, g, Err e) /\ error_of (pre ++ c :: r) e.
Proof.
  intros q n g pre c r L HP. unfold parse_string, lark_run.
  destruct (lark_parse q (pre ++ c :: r)) as [l|e] eqn:P.
  - exfalso. apply (doc_heads q _ AtStart) in P. destruct P as [P1 P2]. assert (X : line_head c).
    { destruct HP as [->|[p ->]]; [apply P1; discriminate|]. rewrite <- app_assoc in P2. eapply P2. reflexivity. }
    destruct X as [->|[->|[->|[->|[->| ->]]]]]; discriminate.
  - apply lark_parse_err in P. subst e. eexists. split; [reflexivity|]. apply callbacks_raise.
Qed.
Lemma nquads_app : forall a b, snd (serialize_nquads a) = Ok tt ->
  fst (serialize_nquads (a ++ b)) = fst (serialize_nquads a) ++ fst (serialize_nquads b).
Proof.
  induction a as [|t a IH]; intros b H; [reflexivity|]. cbn [app serialize_nquads] in *.
  destruct (stmt_str t) as [x|e]; [|discriminate]. specialize (IH b).
  destruct (serialize_nquads a) as [o r]. destruct (serialize_nquads (a ++ b)) as [o' r']. cbn [fst snd] in *.
  rewrite IH by assumption. now rewrite app_assoc.
Qed.
Lemma quad_ends : forall t x, stmt_str t = Ok x -> exists p, x = p ++ [10].
Proof.
  intros [s p o [g|]] x H; cbn [stmt_str st_graph] in H.
  - apply Ok_inj in H. subst x. unfold quad_str. eexists. rewrite !app_assoc. reflexivity.
  - unfold triple_str in H. apply bind_ok in H. destruct H as (a & _ & H). apply bind_ok in H. destruct H as (b & _ & H).
    apply bind_ok in H. destruct H as (c & _ & H). apply Ok_inj in H. subst x. eexists. rewrite !app_assoc. reflexivity.
Qed.
Lemma nquads_ends : forall a, fst (serialize_nquads a) = [] \/ exists p, fst (serialize_nquads a) = p ++ [10].
Proof.
  induction a as [|t a IH]; [now left|]. cbn [serialize_nquads]. destruct (stmt_str t) as [x|] eqn:E; [|now left].
  apply quad_ends in E. destruct E as [p ->]. destruct (serialize_nquads a) as [o r]. cbn [fst] in *. right.
  destruct IH as [->|[p' ->]]; [exists p; now rewrite app_nil_r|]. exists ((p ++ [10]) ++ p'). now rewrite app_assoc.
Qed.
Lemma nquads_quads_ok : forall a, Forall (fun t => st_graph t <> None) a -> snd (serialize_nquads a) = Ok tt.
Proof.
  induction 1 as [|t a H F IH]; [reflexivity|]. cbn [serialize_nquads stmt_str].
  destruct t as [s p o [g|]]; [|cbn [st_graph] in H; congruence]. cbn [stmt_str st_graph]. destruct (serialize_nquads a). exact IH.
Qed.
Lemma nquads_unreadable : forall ts n g c r p o gr, Forall (fun t => st_graph t <> None) ts -> ascii_letter c = true ->
  In (St (Iri (c :: r)) p o gr) ts ->
  snd (serialize_nquads ts) = Ok tt /\
  exists e, parse_string true n g (fst (serialize_nquads ts)) = (n, g, Err e) /\ error_of (fst (serialize_nquads ts)) e.
Proof.
  intros ts n g c r p o gr F L H. split; [now apply nquads_quads_ok|]. apply in_split in H. destruct H as (a & b & ->).
  apply Forall_app in F. destruct F as [Fa Fb]. rewrite nquads_app by (now apply nquads_quads_ok).
  inversion Fb; subst. cbn [st_graph] in H1. destruct gr as [gr|]; [|congruence].
  cbn [serialize_nquads stmt_str st_graph st_s st_p st_o]. destruct (serialize_nquads b) as [ob rb]. cbn [fst].
  unfold quad_str. cbn [term_str app]. apply letter_line_rejected; [assumption|apply nquads_ends].
Qed.
Lemma nquads_ambiguous : forall s p x l d g, quad_str s p (Iri x) g = quad_str s p (Lit x l d) g.
Proof. reflexivity. Qed.

(** ** C34 *)
Ltac same_keys := repeat (match goal with |- context [term_eq_dec ?x ?x] => destruct (term_eq_dec x x) as [_|?]; [|congruence] end;
  cbn [dget dset touch touch2 fst snd app]).
Lemma two_quads : forall s p o g1 g2, g1 <> g2 ->
  g_addAll (graph_new None) [Qd s p o g1; Qd s p o g2] =
  mkGraph (Some (Iri (s2l "None"))) [Qd s p o g1; Qd s p o g2]
    [(s, [(p, [(o, Qd s p o g2)])])] [(p, [(o, [(s, Qd s p o g2)])])] [(o, [(s, [(p, Qd s p o g2)])])].
Proof.
  intros s p o g1 g2 H. unfold g_addAll. cbn [fold_left]. unfold g_add, graph_new. cbn [g_triples g_uri g_spo g_pos g_osp].
  assert (T : set_add (Qd s p o g2) (set_add (Qd s p o g1) []) = [Qd s p o g1; Qd s p o g2]).
  { unfold set_add. destruct (in_dec stmt_eq_dec (Qd s p o g1) []) as [[]|_]. cbn [app].
    destruct (in_dec stmt_eq_dec (Qd s p o g2) [Qd s p o g1]) as [[E|[]]|_]; [|reflexivity]. inversion E. contradiction. }
  rewrite T. unfold Qd. cbn [st_s st_p st_o]. unfold idx_set, touch. cbn [dget dset]. f_equal; same_keys; reflexivity.
Qed.
Lemma truthy_some : forall x, x <> empty_iri -> oterm_truthy (Some x) = true.
Proof. intros x H. apply oterm_truthy_true. split; [discriminate|congruence]. Qed.
Lemma two_quads_match : forall s p o g1 g2 a b c k, g1 <> g2 -> s <> empty_iri -> p <> empty_iri -> o <> empty_iri ->
  argof s a -> argof p b -> argof o c -> (3 <= k)%nat ->
  snd (drain k (g_addAll (graph_new None) [Qd s p o g1; Qd s p o g2]) (GStart a b c)) =
  Ok (match a, b, c with
      | None, None, None => [Qd s p o g1; Qd s p o g2]
      | Some _, Some _, Some _ => []
      | _, _, _ => [Qd s p o g2]
      end).
Proof.
  intros s p o g1 g2 a b c k G Hs Hp Ho A B C K. rewrite two_quads by assumption.
  destruct k as [|[|[|k]]]; try lia. clear K.
  pose proof (truthy_some s Hs) as Ts. pose proof (truthy_some p Hp) as Tp. pose proof (truthy_some o Ho) as To.
  assert (F : forall u, g_contains (mkGraph u [Qd s p o g1; Qd s p o g2] [(s, [(p, [(o, Qd s p o g2)])])] [(p, [(o, [(s, Qd s p o g2)])])] [(o, [(s, [(p, Qd s p o g2)])])]) (Tr s p o) = false).
  { intro u. unfold g_contains. cbn [g_triples]. destruct (in_dec stmt_eq_dec (Tr s p o) _) as [[E|[E|[]]]|_]; [| |reflexivity]; inversion E. }
  destruct A as [->| ->]; destruct B as [->| ->]; destruct C as [->| ->]; cbn [drain gen_next]; rewrite ?Ts, ?Tp, ?To, ?F;
    [reflexivity| | | | | | |reflexivity];
    repeat (progress (unfold vals_start, nest_start, vals_next, dmem, touch2, touch;
      cbn [drain gen_next nest_outer vals_next set_index g_index g_uri g_triples g_spo g_pos g_osp dget dset dkeys dvals map length fst snd tl Nat.eqb];
      same_keys)); reflexivity.
Qed.
Lemma two_quads_remove : forall s p o g1 g2 x y, g1 <> g2 -> (x = g1 /\ y = g2) \/ (x = g2 /\ y = g1) ->
  let g := g_addAll (graph_new None) [Qd s p o g1; Qd s p o g2] in
  snd (g_remove g (Qd s p o x)) = Ok tt /\ snd (g_remove (fst (g_remove g (Qd s p o x))) (Qd s p o y)) = Err KeyError.
Proof.
  intros s p o g1 g2 x y G H. cbv zeta. rewrite two_quads by assumption.
  assert (R : forall u v ts, In (Qd s p o v) ts ->
    g_remove (mkGraph u ts [(s, [(p, [(o, Qd s p o g2)])])] [(p, [(o, [(s, Qd s p o g2)])])] [(o, [(s, [(p, Qd s p o g2)])])]) (Qd s p o v) =
    (mkGraph u (set_remove (Qd s p o v) ts) [(s, [(p, [])])] [(p, [(o, [])])] [(o, [(s, [])])], Ok tt)).
  { intros u v ts I. unfold g_remove. cbn [g_triples]. destruct (in_dec stmt_eq_dec (Qd s p o v) ts) as [_|N]; [|contradiction].
    unfold idx_del, Qd. cbn [st_s st_p st_o g_spo g_pos g_osp g_uri]. unfold touch. cbn [dget dset ddel].
    repeat (progress (same_keys; cbn [dget dset ddel])). reflexivity. }
  rewrite R by (destruct H as [[-> _]|[-> _]]; cbn [In]; tauto). split; [reflexivity|]. cbn [fst].
  unfold g_remove. cbn [g_triples].
  assert (I : In (Qd s p o y) (set_remove (Qd s p o x) [Qd s p o g1; Qd s p o g2])).
  { apply set_remove_In. split; [destruct H as [[_ ->]|[_ ->]]; cbn [In]; tauto|]. intro E. inversion E. destruct H as [[-> ->]|[-> ->]]; congruence. }
  destruct (in_dec stmt_eq_dec (Qd s p o y) _) as [_|N]; [|contradiction].
  unfold idx_del, Qd. cbn [st_s st_p st_o g_spo g_pos g_osp g_uri]. unfold touch. cbn [dget dset ddel]. same_keys. reflexivity.
Qed.
