(** Rules and grammar files of Model/Bnf.v (C109). *)
From Verif Require Import Model.Py Model.Bnf Spec.BnfSpec Proofs.BnfLex Proofs.BnfParse.
From Verif Require Proofs.LangLemmas.
From Coq Require Import ZArith.

Lemma startswith_line : forall p l, startswith l (s2l p) = true <-> line_starts p l.
Proof.
  intros p l. unfold line_starts. generalize (s2l p) as q. clear p. intro q. revert l. induction q as [|c q IH]; intro l; cbn [startswith].
  - split; [intros _; exists l; reflexivity|intros _; now destruct l].
  - destruct l as [|d l]; [split; [discriminate|intros (r & E); discriminate]|]. cbn [startswith]. rewrite andb_true_iff, N.eqb_eq, IH. split.
    + intros [-> (r & ->)]. exists r. reflexivity.
    + intros (r & E). cbn in E. injection E as -> ->. split; [reflexivity|]. now exists r.
Qed.
Lemma strip_stripped : forall l x, stripped l x -> strip l = x.
Proof.
  intros l x (w & w' & -> & B & B' & [->|(c & y & d & z & E1 & E2 & NC & ND)]); unfold strip.
  - cbn [app]. rewrite rstrip_blanks; [reflexivity|]. intros a J. apply in_app_or in J. destruct J; auto.
  - assert (R : rstrip x = x) by (rewrite E2; now apply rstrip_last). rewrite app_assoc, rstrip_trail by exact B'. rewrite rstrip_app by (rewrite R, E1; discriminate).
    rewrite R, lstrip_blanks by exact B. rewrite E1. cbn [lstrip]. destruct (b_space c) eqn:E; [|reflexivity]. apply space_blank in E. contradiction.
Qed.
Lemma stripped_strip : forall l, stripped l (strip l).
Proof.
  assert (RS : forall s, exists w, s = rstrip s ++ w /\ blanks w /\ (rstrip s = [] \/ exists z d, rstrip s = z ++ [d] /\ ~ blank d)).
  { induction s as [|c s (w & E & B & X)]; [exists []; split; [reflexivity|split; [intros c []|now left]]|]. cbn [rstrip]. destruct (rstrip s) as [|e r] eqn:R.
    - cbn [app] in E. destruct (b_space c) eqn:S.
      + exists (c :: s). split; [reflexivity|]. split; [|now left]. intros a [<-|J]; [now apply space_blank|]. rewrite E in J. now apply B.
      + exists w. split; [cbn; now rewrite E at 1|]. split; [exact B|]. right. exists [], c. split; [reflexivity|]. intro Y. apply space_blank in Y. congruence.
    - exists w. split; [cbn; cbn in E; now rewrite E at 1|]. split; [exact B|]. right. destruct X as [X|(z & d & X & Y)]; [discriminate|]. exists (c :: z), d. rewrite X. auto. }
  assert (LS : forall s, exists w, s = w ++ lstrip s /\ blanks w /\ (lstrip s = [] \/ exists c y, lstrip s = c :: y /\ ~ blank c)).
  { induction s as [|c s (w & E & B & X)]; [exists []; split; [reflexivity|split; [intros c []|now left]]|]. cbn [lstrip]. destruct (b_space c) eqn:S.
    - exists (c :: w). split; [cbn; now rewrite <- E|]. split; [|exact X]. intros a [<-|J]; [now apply space_blank|now apply B].
    - exists []. split; [reflexivity|]. split; [intros a []|]. right. exists c, s. split; [reflexivity|]. intro Y. apply space_blank in Y. congruence. }
  intro l. unfold strip. destruct (RS l) as (w' & E & B' & X). destruct (LS (rstrip l)) as (w & E2 & B & Y). exists w, w'. rewrite app_assoc, <- E2. split; [exact E|]. split; [exact B|]. split; [exact B'|].
  destruct Y as [Y|(c & y & Y & NC)]; [now left|]. right. destruct X as [X|(z & d & X & ND)]; [rewrite X in Y; discriminate|]. exists c, y. rewrite Y.
  assert (NE : c :: y <> []) by discriminate. destruct (exists_last NE) as (z' & d' & E3). exists d', z'. split; [reflexivity|]. split; [exact E3|]. split; [exact NC|].
  rewrite Y in E2. rewrite E2, E3, app_assoc in X. apply app_inj_tail in X. destruct X as [_ ->]. exact ND.
Qed.

(** ** Files *)
Lemma each_rest : forall more r x ls, rule_rest more r -> each_rule x (more ++ ls) = each_rule (x ++ r) ls.
Proof.
  intros more r x ls H. revert x. induction H as [|l more r C H IH|l more y r NC NR ST H IH]; intro x; cbn [app each_rule].
  - now rewrite app_nil_r.
  - apply startswith_line in C. rewrite C. apply IH.
  - destruct (startswith l (s2l "/*")) eqn:E1; [exfalso; now apply NC, startswith_line|]. destruct (startswith l (s2l "[")) eqn:E2; [exfalso; apply NR; left; now apply startswith_line|].
    destruct (startswith l (s2l "@")) eqn:E3; [exfalso; apply NR; right; now apply startswith_line|]. cbn [orb]. rewrite (strip_stripped _ _ ST), IH, app_assoc. reflexivity.
Qed.
Lemma rule_not_comment : forall l, rule_line l -> startswith l (s2l "/*") = false /\ startswith l (s2l "[") || startswith l (s2l "@") = true.
Proof.
  intros l H. split; [|destruct H as [H|H]; apply startswith_line in H; rewrite H; [reflexivity|apply orb_true_r]].
  destruct H as [(r & ->)|(r & ->)]; reflexivity.
Qed.
Lemma stripped_nonempty : forall l x, rule_line l -> stripped l x -> x <> [].
Proof.
  intros l x H ST ->. destruct ST as (w & w' & -> & B & B' & _). assert (BB : blanks (w ++ w')) by (intros c J; apply in_app_or in J; destruct J; auto). cbn [app] in H.
  destruct H as [(r & E)|(r & E)]; rewrite E in BB; assert (X := BB _ (or_introl eq_refl)); unfold blank in X; cbn in X; lia.
Qed.
Lemma each_file : forall rs ls, file_of rs ls -> forall r0, each_rule r0 ls = match r0 with [] => rs | _ => r0 :: rs end.
Proof.
  induction 1 as [|l x more r rs ls RL ST RR F IH]; intro r0; [reflexivity|]. cbn [each_rule]. destruct (rule_not_comment l RL) as [E1 E2]. rewrite E1, E2, (strip_stripped _ _ ST).
  rewrite (each_rest _ _ _ _ RR), IH. pose proof (stripped_nonempty _ _ RL ST) as NE. destruct x as [|c x]; [congruence|]. cbn [app]. destruct r0; reflexivity.
Qed.
Theorem file_rules : forall rs ls, file_of rs ls -> each_rule [] ls = rs.
Proof. intros rs ls F. exact (each_file rs ls F []). Qed.
(** comments *)
Lemma each_comments : forall ls r, each_rule r ls = each_rule r (filter (fun l => negb (startswith l (s2l "/*"))) ls).
Proof.
  induction ls as [|l ls IH]; intro r; [reflexivity|]. cbn [each_rule filter]. destruct (startswith l (s2l "/*")) eqn:E; cbn [negb]; [apply IH|]. cbn [each_rule]. rewrite E.
  destruct (startswith l (s2l "[") || startswith l (s2l "@")); [destruct r; now rewrite IH|apply IH].
Qed.

(** ** Rules *)
Lemma startswith_app : forall p s, startswith (p ++ s) p = true.
Proof. induction p as [|c p IH]; intro s; [now destruct s|]. cbn [app startswith]. now rewrite N.eqb_refl, IH. Qed.
Lemma split1s_at : forall a s, ~ In 58%N a -> split1s (a ++ s2l "::=" ++ s) (s2l "::=") = Ok (a, s).
Proof.
  induction a as [|c a IH]; intros s NI.
  - cbn [app]. unfold split1s at 1. destruct (s2l "::=" ++ s) eqn:E; rewrite <- E, startswith_app; [discriminate|]. reflexivity.
  - cbn [app]. cbn [split1s]. assert (X : startswith (c :: a ++ s2l "::=" ++ s) (s2l "::=") = false).
    { change (s2l "::=") with [58; 58; 61]%N. cbn [startswith]. destruct (N.eqb_spec 58 c); [exfalso; apply NI; now left|reflexivity]. }
    rewrite X, IH by (intro J; apply NI; now right). reflexivity.
Qed.
Lemma name_not_blank : forall x, name_ok x -> forall c, In c x -> word_char c.
Proof. intros [|d x] H c J; [contradiction|]. destruct H as [L W]. destruct J as [<-|J]; [now left|auto]. Qed.
Lemma strip_name : forall x w1 w2, name_ok x -> blanks w1 -> blanks w2 -> strip (w1 ++ x ++ w2) = x.
Proof.
  intros x w1 w2 N B1 B2. apply strip_stripped. exists w1, w2. split; [reflexivity|]. split; [exact B1|]. split; [exact B2|]. right. pose proof (name_not_blank x N) as W.
  assert (NE : x <> []) by (destruct x; [contradiction|discriminate]). destruct x as [|c y]; [congruence|]. destruct (exists_last NE) as (z & d & E). exists c, y, d, z. split; [reflexivity|]. split; [exact E|].
  split; apply word_not_blank, W; [now left|]. rewrite E. apply in_or_app. right. now left.
Qed.
Theorem rule_reads : forall num sym e r, rule_text num sym e r -> rule_parts r = Ok (num, sym, Some e).
Proof.
  intros num sym e r (w1 & w2 & s & ts & -> & NN & B1 & B2 & NM & G & NE & P). unfold rule_parts.
  change (s2l "[" ++ num ++ s2l "]" ++ w1 ++ sym ++ w2 ++ s2l "::=" ++ s) with ((91%N :: num) ++ 93%N :: (w1 ++ sym ++ w2 ++ s2l "::=" ++ s)).
  rewrite partition_at by (intros [X|X]; [discriminate|contradiction]).
  replace (w1 ++ sym ++ w2 ++ s2l "::=" ++ s) with ((w1 ++ sym ++ w2) ++ s2l "::=" ++ s) by (now rewrite <- !app_assoc).
  rewrite split1s_at.
  - cbn [bind fst snd]. rewrite (ebnf_reads e ts s G P NE). cbn [bind fst snd]. now rewrite strip_name.
  - intro J. apply in_app_or in J. destruct J as [J|J]; [apply B1 in J; unfold blank in J; cbn in J; lia|]. apply in_app_or in J. destruct J as [J|J]; [|apply B2 in J; unfold blank in J; cbn in J; lia].
    apply (name_not_blank _ NM) in J. unfold word_char, letter in J. lia.
Qed.

(** ** Tables *)
Lemma rule_no_at : forall num sym e r, rule_text num sym e r -> r <> s2l "@terminals".
Proof. intros num sym e r (w1 & w2 & s & ts & -> & _) E. discriminate. Qed.
Lemma rows_table : forall prefix es rs b rows numbers error, Forall2 entry_text es rs -> table (html_expr prefix false false) b es rows ->
  NoDup (entry_nums es) -> (forall n, In n (entry_nums es) -> ~ In n numbers) -> rows_go prefix b numbers error rs = Ok rows.
Proof.
  intros prefix es rs b rows numbers error F T. revert rs numbers F. induction T as [b|b es rows T IH|b num sym e h es rows H T IH]; intros rs numbers F ND FR.
  - inversion F; subst. reflexivity.
  - inversion F as [|x y xs ys E F']; subst. cbn in E. subst y. cbn [rows_go]. destruct (str_eq_dec (s2l "@terminals") (s2l "@terminals")); [|congruence]. now apply IH.
  - inversion F as [|x y xs ys E F']; subst. cbn in E. cbn [rows_go]. destruct (str_eq_dec y (s2l "@terminals")) as [X|_]; [exfalso; now apply (rule_no_at _ _ _ _ E)|].
    rewrite (rule_reads _ _ _ _ E). cbn [bind]. rewrite H. cbn [bind]. cbn in ND, FR. apply NoDup_cons_iff in ND. destruct ND as [NI ND].
    destruct (in_dec str_eq_dec num numbers) as [X|_]; [exfalso; exact (FR num (or_introl eq_refl) X)|]. rewrite (IH ys (num :: numbers) F' ND); [reflexivity|].
    intros n J [<-|K]; [contradiction|]. exact (FR n (or_intror J) K).
Qed.
Theorem file_table : forall prefix es rs ls rows, file_of rs ls -> Forall2 entry_text es rs -> table (html_expr prefix false false) false es rows ->
  NoDup (entry_nums es) -> to_HTML prefix ls = Ok rows.
Proof. intros prefix es rs ls rows F E T ND. unfold to_HTML. rewrite (file_rules _ _ F). apply (rows_table prefix es); auto. Qed.

(** ** Numbers *)
Definition row_num (r : row) : str := fst (fst (fst r)).
Lemma rows_numbers : forall prefix rs b numbers error rows, rows_go prefix b numbers error rs = Ok rows ->
  (forall r n s e, In r rs -> rule_parts r = Ok (n, s, e) -> ~ line_starts "ERROR-" n) ->
  NoDup (map row_num rows) /\
  (forall n, In n (map row_num rows) -> (~ line_starts "ERROR-" n /\ ~ In n numbers) \/ exists k, (error <= k)%Z /\ n = s2l "ERROR-" ++ Curie.int_str k).
Proof.
  intros prefix. induction rs as [|r rs IH]; intros b numbers error rows E H; cbn [rows_go] in E.
  - injection E as <-. split; [constructor|intros n []].
  - assert (H' : forall q n s e, In q rs -> rule_parts q = Ok (n, s, e) -> ~ line_starts "ERROR-" n) by (intros q n s e J; apply H; now right).
    destruct (str_eq_dec r (s2l "@terminals")); [eapply IH; eassumption|].
    destruct (rule_parts r) as [[[num sym] [e|]]|x] eqn:R; cbn [bind] in E; try discriminate. pose proof (H r num sym _ (or_introl eq_refl) R) as NE.
    destruct (html_expr prefix false false e) as [h|x]; cbn [bind] in E; [|discriminate]. destruct (in_dec str_eq_dec num numbers) as [J|NJ].
    + destruct (rows_go prefix b numbers (error + 1) rs) as [l|x] eqn:L; cbn [bind] in E; [|discriminate]. injection E as <-. destruct (IH _ _ _ _ L H') as [ND K]. cbn [map row_num fst]. split.
      * constructor; [|exact ND]. intro J2. destruct (K _ J2) as [[A _]|(k & LE & A)]; [apply A; eexists; reflexivity|]. apply (app_inv_head (s2l "ERROR-")) in A. apply LangLemmas.int_str_inj in A. lia.
      * intros n0 [<-|J2]; [right; exists error; split; [lia|reflexivity]|]. destruct (K _ J2) as [A|(k & LE & A)]; [now left|]. right. exists k. split; [lia|exact A].
    + destruct (rows_go prefix b (num :: numbers) error rs) as [l|x] eqn:L; cbn [bind] in E; [|discriminate]. injection E as <-. destruct (IH _ _ _ _ L H') as [ND K]. cbn [map row_num fst]. split.
      * constructor; [|exact ND]. intro J2. destruct (K _ J2) as [[_ A]|(k & LE & A)]; [apply A; now left|]. apply NE. subst num. eexists. reflexivity.
      * intros n0 [<-|J2]; [left; auto|]. destruct (K _ J2) as [[A B]|X]; [|now right]. left. split; [exact A|]. intro C. apply B. now right.
Qed.
