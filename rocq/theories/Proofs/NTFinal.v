(** The statements of Properties/NTProps.v in terms of the specification side. *)
From Verif Require Import Model.Py Model.Terms Model.Graph Model.Codec Model.NTriples Spec.CodecSpec Spec.NTSpec Spec.GraphSpec
  Proofs.DictLemmas Proofs.CodecLemmas Proofs.IriLemmas Proofs.NTLex Proofs.CodecMore Proofs.NTDoc Proofs.NTCallbacks
  Proofs.GraphInv Proofs.GraphHist Proofs.NTRun Proofs.NTMore.
Open Scope N_scope.

Lemma one_line_iff : forall s, one_line s <-> no_eol s.
Proof.
  intro s. unfold one_line, no_eol. rewrite !Forall_forall. split; intros H c Hc; specialize (H c Hc).
  - now apply not_eol.
  - split; intros ->; discriminate H.
Qed.
Lemma all_blank_iff : forall s, all_blank s <-> blank s.
Proof.
  intro s. unfold all_blank, blank. rewrite !Forall_forall. split; intros H c Hc; specialize (H c Hc); now apply is_ws_spec.
Qed.
Lemma proper_line_iff : forall s, proper_line s <-> clean_line s.
Proof. intro s. unfold proper_line, clean_line. now rewrite one_line_iff, all_blank_iff. Qed.
Lemma proper_lines : forall ss, Forall proper_line ss -> Forall clean_line ss.
Proof. intros ss F. eapply Forall_impl; [|exact F]. intro s. apply proper_line_iff. Qed.

Lemma one_line_each : forall t x, lang_one_line (st_s t) -> lang_one_line (st_p t) -> lang_one_line (st_o t) ->
  triple_str t = Ok x -> exists body, x = body ++ [10] /\ one_line body.
Proof.
  intros t x A B C H.
  assert (K : forall y, lang_one_line y -> lang_clean y).
  { intros [| |? [l|] ?] Y; try exact I. now apply one_line_iff. }
  destruct (one_line_per_triple t x (K _ A) (K _ B) (K _ C) H) as (b & E & N). exists b. split; [exact E|]. now apply one_line_iff.
Qed.
(** splitting the text at line ends gives one line per triple *)
Lemma count_lines : forall ts, Forall (fun t => lang_one_line (st_s t) /\ lang_one_line (st_p t) /\ lang_one_line (st_o t)) ts ->
  snd (serialize_ntriples ts) = Ok tt ->
  exists ls, fst (serialize_ntriples ts) = text ls /\ Forall one_line ls /\ length ls = length ts.
Proof.
  induction 1 as [|t ts (A & B & C) F IH]; intro H; [exists []; repeat split; constructor|].
  cbn [serialize_ntriples] in *. destruct (triple_str t) as [x|e] eqn:E; [|discriminate].
  destruct (serialize_ntriples ts) as [o r]. cbn [fst snd] in *. destruct (IH H) as (ls & -> & Fl & L).
  destruct (one_line_each t x A B C E) as (b & -> & N). exists (b :: ls). rewrite text_cons, <- app_assoc. split; [reflexivity|].
  split; [now constructor|]. simpl. now rewrite L.
Qed.

Lemma agree : forall q n g ss m g', Forall proper_line ss ->
  parse_stream q n g (map lf ss) = (m, g', Ok tt) <-> parse_string q n g (text ss) = (m, g', Ok tt).
Proof. intros. apply stream_string_agree. now apply proper_lines. Qed.
Lemma string_error : forall q n g s m g' e, parse_string q n g s = (m, g', Err e) -> e = raised (callbacks q s).
Proof.
  intros q n g s m g' e H. unfold parse_string in H. apply (lark_run_error q (prepare n)). destruct (lark_run q (prepare n) s) as [b [ts|x]]; [discriminate|]. cbn [snd]. congruence.
Qed.
Lemma stream_error : forall q ss, Forall clean_line ss -> forall b g b' g' e, stream_loop q b g (map lf ss) = (b', g', Err e) -> e = raised (seq_cbs q ss).
Proof.
  intros q ss F. induction F as [|s ss C F IH]; intros b g b' g' e H; [discriminate|]. cbn [map] in H. destruct (lf_cons s) as (c & r & E).
  assert (U : stream_loop q b g (lf s :: map lf ss) = match lark_run q b (lf s) with
      | (b', Err e) => (b', g, Err e) | (b', Ok []) => (b', g, Err RuntimeError)
      | (b', Ok (t :: _)) => stream_loop q b' (g_add g t) (map lf ss) end) by (rewrite E; reflexivity).
  rewrite U, lark_run_line in H by assumption. cbn [seq_cbs]. unfold line in *. destruct (p_stmt q s) as [[x t]|] eqn:P.
  - destruct (skip_ws t) as [|d u].
    + rewrite (stmt_cbs_ok _ _ _ _ P). pose proof (tr_stmt_case b x) as K. destruct (tr_stmt b x) as [b1 [y|z]]; cbn [snd] in K.
      * rewrite raised_app by assumption. eapply IH; eauto.
      * rewrite K. congruence.
    + rewrite app_nil_r. congruence.
  - rewrite app_nil_r. congruence.
Qed.
Lemma agree_fail : forall q n g ss e, Forall proper_line ss ->
  (exists m g', parse_stream q n g (map lf ss) = (m, g', Err e)) <-> (exists m g', parse_string q n g (text ss) = (m, g', Err e)).
Proof.
  intros q n g ss e F. pose proof (agree q n g ss) as A. pose proof (proper_lines ss F) as C.
  assert (S : forall m g' x, parse_stream q n g (map lf ss) = (m, g', Err x) -> x = raised (seq_cbs q ss)).
  { intros m g' x H. unfold parse_stream in H. destruct (stream_loop q (prepare n) g (map lf ss)) as [[b g1] r] eqn:L. injection H as _ _ ->. eapply stream_error; eauto. }
  assert (T : forall m g' x, parse_string q n g (text ss) = (m, g', Err x) -> x = raised (seq_cbs q ss)).
  { intros m g' x H. rewrite <- (cbs_text q ss AtStart) by (first [assumption|discriminate]). eapply string_error. exact H. }
  destruct (parse_stream q n g (map lf ss)) as [[m1 g1] [[]|e1]]; destruct (parse_string q n g (text ss)) as [[m2 g2] [[]|e2]].
  - split; intros (m & g' & H); discriminate.
  - exfalso. specialize (A m1 g1 F). destruct A as [A _]. specialize (A eq_refl). discriminate.
  - exfalso. specialize (A m2 g2 F). destruct A as [_ A]. specialize (A eq_refl). discriminate.
  - rewrite (S _ _ _ eq_refl), (T _ _ _ eq_refl). split; intros (m & g' & H); injection H as _ _ <-; eauto.
Qed.
(** the first line with an error decides which exception it is *)
Lemma cbs_lines : forall q ss, Forall clean_line ss -> forall st r, st <> AfterStmt -> ss <> [] ->
  cbs q st (text ss ++ r) = seq_cbs q ss ++ match seq_lines q ss with Ok _ => cbs q AfterEol (skip_eol r) | Err _ => [] end.
Proof.
  intros q ss F. induction F as [|s ss C F IH]; intros st r Hst N; [congruence|]. rewrite text_cons, <- app_assoc. cbn [app].
  rewrite cbs_line by (first [assumption|reflexivity]). cbn [seq_cbs seq_lines]. rewrite <- app_assoc. f_equal. destruct (line q s); [|reflexivity].
  destruct ss as [|s' ss]; [reflexivity|].
  assert (E : skip_eol (text (s' :: ss) ++ r) = text (s' :: ss) ++ r) by (rewrite text_cons, <- app_assoc; inversion F; subst; now apply skip_eol_clean).
  rewrite E, IH by discriminate. destruct (seq_lines q (s' :: ss)); reflexivity.
Qed.
Lemma doc_lines : forall q ss, Forall clean_line ss -> forall st r, st <> AfterStmt -> ss <> [] ->
  doc q st (text ss ++ r) = do a <- seq_lines q ss ; do b <- doc q AfterEol (skip_eol r) ; Ok (a ++ b).
Proof.
  intros q ss F. induction F as [|s ss C F IH]; intros st r Hst N; [congruence|]. rewrite text_cons, <- app_assoc. cbn [app].
  rewrite doc_line by (first [assumption|reflexivity]). cbn [seq_lines]. destruct (line q s); [|reflexivity].
  destruct ss as [|s' ss]; [cbn [text map concat app seq_lines bind]; destruct (doc q AfterEol (skip_eol r)); reflexivity|].
  assert (E : skip_eol (text (s' :: ss) ++ r) = text (s' :: ss) ++ r) by (rewrite text_cons, <- app_assoc; inversion F; subst; now apply skip_eol_clean).
  rewrite E, IH by discriminate. destruct (seq_lines q (s' :: ss)) as [l|]; [|reflexivity]. cbn [bind]. destruct (doc q AfterEol (skip_eol r)); reflexivity.
Qed.
Lemma first_error : forall q n g ss r e, Forall proper_line ss -> snd (parse_string q n g (text ss)) = Err e -> snd (parse_string q n g (text ss ++ r)) = Err e.
Proof.
  intros q n g ss r e F H. apply proper_lines in F. destruct ss as [|s0 ss0] eqn:Ess; [discriminate H|]. rewrite <- Ess in *. assert (N : ss <> []) by congruence. clear Ess s0 ss0.
  destruct (parse_string q n g (text ss)) as [[m g'] [[]|x]] eqn:P; [discriminate|]. cbn [snd] in H. injection H as ->.
  pose proof (string_error _ _ _ _ _ _ _ P) as E. change (callbacks q (text ss)) with (cbs q AtStart (text ss)) in E. rewrite cbs_text in E by (first [assumption|discriminate]).
  destruct (parse_string q n g (text ss ++ r)) as [[m1 g1] [[]|x]] eqn:P1; cbn [snd].
  - exfalso. unfold parse_string, lark_run in P1, P.
    change (lark_parse q (text ss ++ r)) with (doc q AtStart (text ss ++ r)) in P1. rewrite doc_lines in P1 by (first [assumption|discriminate]).
    rewrite parse_text in P by assumption. destruct (seq_lines q ss) as [l|z]; cbn [bind] in P1; [|destruct z; discriminate P1].
    destruct (doc q AfterEol (skip_eol r)) as [l2|z]; cbn [bind] in P1; [|destruct z; discriminate P1].
    assert (TD : forall l b b' z l2, tr_doc b l = (b', Err z) -> exists b2 z2, tr_doc b (l ++ l2) = (b2, Err z2)).
    { clear. induction l as [|y l IH]; intros b b' z l2 H; [discriminate|]. cbn [tr_doc app] in *. destruct (tr_stmt b y) as [b1 [t|w]]; [|eauto].
      destruct (tr_doc b1 l) as [b3 [ts|w]] eqn:E; [discriminate|]. destruct (IH b1 b3 w l2 E) as (b4 & w4 & ->). cbn [bind]. eauto. }
    destruct (tr_doc (prepare n) l) as [b [ts|z]] eqn:T; [discriminate P|]. destruct (TD _ _ _ _ l2 T) as (b2 & z2 & T2). rewrite T2 in P1. discriminate.
  - apply string_error in P1. change (callbacks q (text ss ++ r)) with (cbs q AtStart (text ss ++ r)) in P1. rewrite cbs_lines in P1 by (first [assumption|discriminate]).
    f_equal. rewrite P1, E. destruct (seq_lines q ss) as [l|z] eqn:S; [|now rewrite app_nil_r].
    unfold parse_string, lark_run in P. rewrite parse_text, S in P by assumption. pose proof (tr_doc_case l (prepare n)) as K.
    destruct (tr_doc (prepare n) l) as [b [ts|z]]; [discriminate P|]. cbn [snd] in K.
    assert (Q : seq_cbs q ss = concat (map stmt_texts l)).
    { rewrite <- (cbs_text q ss AtStart) by (first [assumption|discriminate]). apply cbs_ok. rewrite doc_text by (first [assumption|discriminate]). exact S. }
    rewrite Q. rewrite K. rewrite <- (app_nil_r (concat _)). now rewrite K.
Qed.
Lemma decisive_line : forall q n g ss s r e m h n1 g1, Forall proper_line ss -> proper_line s ->
  parse_string q n g (text ss) = (m, h, Ok tt) -> snd (parse_string q n1 g1 (lf s)) = Err e -> snd (parse_string q n g (text ss ++ lf s ++ r)) = Err e.
Proof.
  intros q n g ss s r e m h n1 g1 F C A B. assert (T : text ss ++ lf s ++ r = text (ss ++ [s]) ++ r).
  { unfold text. rewrite map_app, concat_app. cbn [map concat]. now rewrite app_nil_r, <- app_assoc. }
  rewrite T. apply first_error; [apply Forall_app; auto|]. assert (FC : Forall clean_line (ss ++ [s])) by (apply proper_lines, Forall_app; auto).
  assert (Cs : Forall clean_line [s]) by (apply proper_lines; auto).
  destruct (parse_string q n1 g1 (lf s)) as [[m2 g2] [[]|x]] eqn:P2; [discriminate|]. cbn [snd] in B. injection B as ->.
  assert (TS : lf s = text [s]) by (unfold text; cbn [map concat]; now rewrite app_nil_r). rewrite TS in P2.
  pose proof (string_error _ _ _ _ _ _ _ P2) as E2. change (callbacks q (text [s])) with (cbs q AtStart (text [s])) in E2. rewrite cbs_text in E2 by (first [assumption|discriminate]).
  pose proof (lark_run_done q (prepare n) (text ss)) as D. assert (L : exists l, seq_lines q ss = Ok l /\ Forall decodes (seq_cbs q ss)).
  { unfold parse_string in A. destruct (lark_run q (prepare n) (text ss)) as [b [ts|]] eqn:R; [|discriminate]. specialize (D ts eq_refl).
    change (callbacks q (text ss)) with (cbs q AtStart (text ss)) in D. rewrite cbs_text in D by (first [now apply proper_lines|discriminate]).
    unfold lark_run in R. rewrite parse_text in R by (now apply proper_lines). destruct (seq_lines q ss) as [l|z]; [eauto|destruct z; discriminate]. }
  destruct L as (l & L & DC).
  assert (SC : seq_cbs q (ss ++ [s]) = seq_cbs q ss ++ seq_cbs q [s]).
  { clear - L. revert l L. induction ss as [|y ss IH]; intros l L; [reflexivity|]. cbn [seq_lines seq_cbs app] in *. destruct (line q y); [|discriminate].
    apply bind_ok in L. destruct L as (l' & L & _). rewrite (IH _ L). cbn [seq_cbs]. now rewrite <- app_assoc. }
  destruct (parse_string q n g (text (ss ++ [s]))) as [[m3 g3] [[]|x]] eqn:P3; cbn [snd].
  - exfalso. assert (O : exists ts, snd (lark_run q (prepare n) (text (ss ++ [s]))) = Ok ts).
    { unfold parse_string in P3. destruct (lark_run q (prepare n) (text (ss ++ [s]))) as [b [ts|]]; [exists ts; reflexivity|discriminate]. }
    apply lark_ok_iff in O. destruct O as [[l3 O] D3]. change (callbacks q (text (ss ++ [s]))) with (cbs q AtStart (text (ss ++ [s]))) in D3. rewrite cbs_text, SC in D3 by (first [assumption|discriminate]).
    apply Forall_app in D3. destruct D3 as [_ D3]. rewrite parse_text, seq_lines_app, L in O by assumption. cbn [bind] in O.
    assert (O' : exists ts, snd (lark_run q (prepare n1) (text [s])) = Ok ts).
    { apply lark_ok_iff. rewrite parse_text by assumption. split; [destruct (seq_lines q [s]); [eauto|discriminate]|].
      change (callbacks q (text [s])) with (cbs q AtStart (text [s])). now rewrite cbs_text by (first [assumption|discriminate]). }
    destruct O' as [ts O']. unfold parse_string in P2. destruct (lark_run q (prepare n1) (text [s])) as [b [?|]]; [discriminate P2|discriminate O'].
  - f_equal. apply string_error in P3. change (callbacks q (text (ss ++ [s]))) with (cbs q AtStart (text (ss ++ [s]))) in P3. rewrite cbs_text, SC, raised_app in P3 by (first [assumption|discriminate]). congruence.
Qed.
Lemma blank_stream : forall q n g ss b rest m g', Forall proper_line ss -> all_blank b ->
  parse_string q n g (text ss) = (m, g', Ok tt) ->
  parse_stream q n g (map lf ss ++ lf b :: rest) = (m, g', Err RuntimeError).
Proof. intros. apply stream_blank; [now apply proper_lines|now apply all_blank_iff|assumption]. Qed.
Lemma extra_ends : forall q n g ss ss2 e, Forall proper_line ss -> Forall proper_line ss2 -> Forall (fun c => c = 10 \/ c = 13) e ->
  ss <> [] -> parse_string q n g (text ss ++ e ++ text ss2) = parse_string q n g (text (ss ++ ss2)).
Proof.
  intros. apply string_extra_ends; try assumption; try (now apply proper_lines). eapply Forall_impl; [|eassumption]. intro c. apply is_eol_spec.
Qed.
Lemma cr_line : forall q n g x y m g', proper_line x -> proper_line y ->
  parse_string q n g (x ++ 13 :: lf y) = (m, g', Ok tt) ->
  exists t1 t2, g' = g_addAll g [t1; t2] /\ parse_stream q n g [x ++ 13 :: lf y] = (m, g_addAll g [t1], Ok tt).
Proof. intros q n g x y m g' A B. apply cr_loses; now apply proper_line_iff. Qed.

(** a whitespace-only line after another line end is refused by the string parser *)
Lemma blank_line_refused : forall q n g ss w rest, Forall proper_line ss -> ss <> [] -> all_blank w -> w <> [] ->
  snd (parse_string q n g (text ss ++ lf w ++ rest)) = match snd (parse_string q n g (text ss)) with Ok _ => Err LarkError | Err e => Err e end.
Proof.
  intros q n g ss w rest F N W NW. apply proper_lines in F. apply all_blank_iff in W.
  assert (D : forall st, st <> AfterStmt -> doc q st (text ss ++ lf w ++ rest) = Err LarkError).
  { revert N. induction F as [|s ss C F IH]; intros N st Hst; [congruence|]. rewrite text_cons, <- app_assoc. cbn [app].
    rewrite doc_line by (first [assumption|reflexivity]). destruct (line q s); [|reflexivity]. destruct ss as [|s' ss].
    - cbn [text map concat app].
      assert (E : skip_eol (lf w ++ rest) = w ++ 10 :: rest).
      { unfold lf. rewrite <- app_assoc. cbn [app]. destruct w as [|c w]; [congruence|]. cbn [app skip_eol].
        assert (is_eol c = false) as -> by (inversion W; now apply ws_not_eol). reflexivity. }
      rewrite E, doc_eq, skip_ws_ext by reflexivity. rewrite (proj2 (skip_ws_blank w) W). reflexivity.
    - assert (E : skip_eol (text (s' :: ss) ++ lf w ++ rest) = text (s' :: ss) ++ lf w ++ rest).
      { rewrite text_cons, <- app_assoc. inversion F; subst. now apply skip_eol_clean. }
      rewrite E, IH by discriminate. reflexivity. }
  assert (D' : forall st, st <> AfterStmt -> cbs q st (text ss ++ lf w ++ rest) = seq_cbs q ss).
  { clear D. revert N. induction F as [|s ss C F IH]; intros N st Hst; [congruence|]. rewrite text_cons, <- app_assoc. cbn [app].
    rewrite cbs_line by (first [assumption|reflexivity]). cbn [seq_cbs]. f_equal. destruct (line q s); [|reflexivity]. destruct ss as [|s' ss].
    - cbn [text map concat app].
      assert (E : skip_eol (lf w ++ rest) = w ++ 10 :: rest).
      { unfold lf. rewrite <- app_assoc. cbn [app]. destruct w as [|c w]; [congruence|]. cbn [app skip_eol].
        assert (is_eol c = false) as -> by (inversion W; now apply ws_not_eol). reflexivity. }
      rewrite E, cbs_eq, skip_ws_ext by reflexivity. rewrite (proj2 (skip_ws_blank w) W). reflexivity.
    - assert (E : skip_eol (text (s' :: ss) ++ lf w ++ rest) = text (s' :: ss) ++ lf w ++ rest).
      { rewrite text_cons, <- app_assoc. inversion F; subst. now apply skip_eol_clean. }
      rewrite E, IH by discriminate. reflexivity. }
  unfold parse_string. rewrite (lark_run_err q (prepare n) (text ss ++ lf w ++ rest)) by (apply (D AtStart); discriminate). cbn [snd].
  change (callbacks q (text ss ++ lf w ++ rest)) with (cbs q AtStart (text ss ++ lf w ++ rest)). rewrite D' by discriminate.
  rewrite <- (cbs_text q ss AtStart) by (first [assumption|discriminate]). change (cbs q AtStart (text ss)) with (callbacks q (text ss)).
  pose proof (lark_run_error q (prepare n) (text ss)) as E1. pose proof (lark_run_done q (prepare n) (text ss)) as E2.
  destruct (lark_run q (prepare n) (text ss)) as [b [ts|e]]; cbn [snd] in *.
  - now rewrite (raised_ok _ (E2 ts eq_refl)).
  - now rewrite <- (E1 e eq_refl).
Qed.

(** C73: a language tag can smuggle in further triples *)
Lemma lang_injection : forall s p v l t2 x2, clean_iri s -> clean_iri p -> l <> [] -> triple_str t2 = Ok x2 ->
  exists evil, triple_str (Tr (Iri s) (Iri p) (Lit v (Some evil) None)) =
    Ok (fst (serialize_ntriples [Tr (Iri s) (Iri p) (Lit v (Some l) None); t2])).
Proof.
  intros s p v l t2 x2 Cs Cp NE E2.
  assert (K : exists y, x2 = y ++ s2l " ." ++ [10]).
  { unfold triple_str in E2. apply bind_ok in E2. destruct E2 as (a & _ & H). apply bind_ok in H. destruct H as (b & _ & H).
    apply bind_ok in H. destruct H as (c & _ & H). apply Ok_inj in H. subst x2. exists (a ++ [32] ++ b ++ [32] ++ c).
    rewrite <- !app_assoc. reflexivity. }
  destruct K as [y ->]. exists (l ++ (s2l " ." ++ [10]) ++ y). cbn [serialize_ntriples]. rewrite E2.
  unfold triple_str. cbn [st_s st_p st_o Tr term_toNT]. rewrite (iri_toNT_ok s), (iri_toNT_ok p) by assumption. cbn [bind].
  destruct l as [|lc lr]; [congruence|]. cbn [lit_toNT bind app fst]. f_equal. rewrite app_nil_r.
  cbn [app]. rewrite <- !app_assoc. cbn [app]. rewrite <- !app_assoc. cbn [app]. rewrite <- !app_assoc. cbn [app]. rewrite <- ?app_assoc. cbn [app]. reflexivity.
Qed.
Lemma smuggled_triples : forall n s p v l t2, clean_iri s -> clean_iri p -> py_str v -> l <> [] -> langtag_ok l -> nt_triple t2 ->
  exists evil x m f, triple_str (Tr (Iri s) (Iri p) (Lit v (Some evil) None)) = Ok x /\
    parse_string_new false n x = (m, g_addAll (graph_new None) (map (back f) [Tr (Iri s) (Iri p) (Lit v (Some l) None); t2]), Ok tt).
Proof.
  intros n s p v l t2 Cs Cp Pv NE L H2. set (t1 := Tr (Iri s) (Iri p) (Lit v (Some l) None)).
  assert (F : Forall nt_triple [t1; t2]).
  { constructor; [|constructor; [exact H2|constructor]]. split; [exact Cs|]. split; [exact Cp|]. split; [|reflexivity]. split; [exact Pv|].
    split; [intros y [= <-] _; exact L|discriminate]. }
  destruct (triple_line t2 H2) as (b & E2 & _). destruct (lang_injection s p v l t2 _ Cs Cp NE E2) as (evil & E).
  destruct (round_trip [t1; t2] n (graph_new None) F) as (tx & n' & f & A & _ & _ & D).
  fold t1 in E. rewrite A in E. exists evil, tx, n', f. split; [exact E|exact D].
Qed.

(** C74: every statement the N-Quads parser yields names its graph by an IRI *)
Lemma p_iri_is_iri : forall s x t, p_iri s = Some (x, t) -> exists i, x = RIri i.
Proof.
  intros s x t H. unfold p_iri in H. destruct (skip_ws s) as [|c r]; [discriminate|]. destruct (c =? 60); [|discriminate].
  destruct (lex_iri LNormal r) as [[i ?]|]; inversion H; eauto.
Qed.
Lemma p_stmt_graph : forall q s x t, p_stmt q s = Some (x, t) ->
  if q then exists i, r_g x = Some (RIri i) else r_g x = None.
Proof.
  intros q s x t H. unfold p_stmt in H. destruct (p_subject s) as [[a s1]|]; [|discriminate].
  destruct (p_iri s1) as [[b s2]|]; [|discriminate]. destruct (p_object s2) as [[c s3]|]; [|discriminate]. destruct q.
  - destruct (p_iri s3) as [[g s4]|] eqn:G; [|discriminate]. apply p_iri_is_iri in G. destruct G as [i ->].
    destruct (p_dot s4); inversion H; subst. exists i. reflexivity.
  - destruct (p_dot s3); inversion H; subst. reflexivity.
Qed.
Lemma doc_graph : forall q s st l, doc q st s = Ok l ->
  Forall (fun x : rstmt => if q then exists i : str, r_g x = Some (RIri i) else r_g x = None) l.
Proof.
  intros q s. induction s as [s IH] using strong_list_ind. intros st l H. rewrite doc_eq in H.
  pose proof (skip_ws_length s) as HL. destruct (skip_ws s) as [|c r]; [inversion H; constructor|]. simpl in HL.
  pose proof (skip_eol_length r) as HE. destruct (is_eol c).
  - destruct st; try discriminate; (apply (IH (skip_eol r)) in H; [exact H|lia]).
  - destruct st; try discriminate; destruct (p_stmt q s) as [[x t]|] eqn:P; try discriminate;
      apply bind_ok in H; destruct H as (l' & H & H'); apply Ok_inj in H'; subst l;
      (constructor; [eapply p_stmt_graph; eassumption|]); apply p_stmt_sfx, sfx_length in P;
      (apply (IH t) in H; [exact H|assumption]).
Qed.
Lemma tr_stmt_graph : forall (q : bool) b x b' t, (if q then exists i, r_g x = Some (RIri i) else r_g x = None) ->
  tr_stmt b x = (b', Ok t) -> graph_kind q t.
Proof.
  intros q b x b' t R H. unfold tr_stmt in H. destruct (tr_term b (r_s x)) as [b1 s]. destruct (tr_term b1 (r_p x)) as [b2 p].
  destruct (tr_term b2 (r_o x)) as [b3 o]. destruct (tr_graph b3 (r_g x)) as [b4 g] eqn:G.
  assert (H' := f_equal snd H). cbn [snd] in H'. clear H.
  apply bind_ok in H'. destruct H' as (s' & _ & H). apply bind_ok in H. destruct H as (p' & _ & H).
  apply bind_ok in H. destruct H as (o' & _ & H). apply bind_ok in H. destruct H as (g' & Hg & H). apply Ok_inj in H. subst t.
  unfold graph_kind. cbn [st_graph]. destruct q.
  - destruct R as [i R]. rewrite R in G. cbn [tr_graph tr_term] in G. subst g. destruct (decode_literal i); inversion G. eauto.
  - rewrite R in G. cbn [tr_graph] in G. inversion G; subst. inversion H1. reflexivity.
Qed.
Lemma tr_doc_graph : forall (q : bool) l b b' ts, Forall (fun x : rstmt => if q then exists i, r_g x = Some (RIri i) else r_g x = None) l ->
  tr_doc b l = (b', Ok ts) -> Forall (graph_kind q) ts.
Proof.
  intros q. induction l as [|x l IH]; intros b b' ts F H; cbn [tr_doc] in H; [inversion H; constructor|]. inversion F; subst.
  destruct (tr_stmt b x) as [b1 [t|e]] eqn:T; [|discriminate]. destruct (tr_doc b1 l) as [b2 [ts'|e]] eqn:D; inversion H; subst.
  constructor; [eapply tr_stmt_graph; eassumption|eapply IH; eassumption].
Qed.
Lemma parsed_graphs : forall q n g s m g' r, parse_string q n g s = (m, g', r) ->
  forall t, In t (g_iter g') -> In t (g_iter g) \/ graph_kind q t.
Proof.
  intros q n g s m g' r H t Ht. unfold parse_string, lark_run in H.
  destruct (lark_parse q s) as [l|e] eqn:L; [|destruct e; inversion H; subst; now left]. apply (doc_graph q s AtStart) in L.
  destruct (tr_doc (prepare n) l) as [b [ts|]] eqn:T; inversion H; subst; [|now left]. apply (tr_doc_graph q) in T; [|assumption].
  unfold g_iter in *. apply g_addAll_In in Ht. destruct Ht as [Ht|Ht]; [|now left]. right. rewrite Forall_forall in T. auto.
Qed.
(** no text is accepted by both parsers, unless it has no statement at all *)
Lemma disjoint_languages : forall n1 n2 s m1 g1 m2 g2,
  parse_string_new false n1 s = (m1, g1, Ok tt) -> parse_string_new true n2 s = (m2, g2, Ok tt) ->
  g_iter g1 = [] /\ g_iter g2 = [].
Proof.
  assert (D : forall s st l1 l2, doc false st s = Ok l1 -> doc true st s = Ok l2 -> l1 = [] /\ l2 = []).
  { intro s. induction s as [s IH] using strong_list_ind. intros st l1 l2 H1 H2. rewrite doc_eq in H1, H2.
    pose proof (skip_ws_length s) as HL. destruct (skip_ws s) as [|c r]; [inversion H1; inversion H2; auto|]. simpl in HL.
    pose proof (skip_eol_length r) as HE. destruct (is_eol c).
    - destruct st; try discriminate; (eapply (IH (skip_eol r)); [lia|exact H1|exact H2]).
    - assert (X : forall x1 t1 x2 t2, p_stmt false s = Some (x1, t1) -> p_stmt true s = Some (x2, t2) -> False).
      { intros x1 t1 x2 t2 P1 P2. unfold p_stmt in *. destruct (p_subject s) as [[a s1]|]; [|discriminate].
        destruct (p_iri s1) as [[b s2]|]; [|discriminate]. destruct (p_object s2) as [[d s3]|]; [|discriminate].
        unfold p_iri in P2. unfold p_dot in P1. destruct (skip_ws s3) as [|y ys]; [discriminate|].
        destruct (y =? 46) eqn:Y; [|discriminate]. apply N.eqb_eq in Y. subst y. discriminate. }
      destruct st; try discriminate; destruct (p_stmt false s) as [[x1 t1]|]; try discriminate;
        destruct (p_stmt true s) as [[x2 t2]|]; try discriminate; exfalso; eapply X; reflexivity. }
  intros n1 n2 s m1 g1 m2 g2 H1 H2. unfold parse_string_new, parse_string, lark_run in *.
  destruct (lark_parse false s) as [l1|e] eqn:L1; [|destruct e; discriminate]. destruct (lark_parse true s) as [l2|e] eqn:L2; [|destruct e; discriminate].
  destruct (D s AtStart l1 l2 L1 L2) as [-> ->]. cbn [tr_doc] in *. inversion H1; inversion H2; subst. split; reflexivity.
Qed.
