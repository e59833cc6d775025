(** C107-C110: the EBNF reader of scripts/bnf2html and its HTML. *)
From Verif Require Import Model.Py Model.Bnf Spec.BnfSpec.
From Verif Require Import Proofs.BnfLex Proofs.BnfParse Proofs.BnfTotal Proofs.BnfSound Proofs.BnfRules Proofs.BnfHtml.
From Coq Require Import Lia ZArith.

(** ** C107: reading expressions *)
Theorem C107_reads : forall e ts s, g_alt e ts -> Spelled ts s -> ts <> [] -> ebnf s = Ok (Some e, []).
Proof. exact ebnf_reads. Qed.
Theorem C107_every_tree : forall e,
  writable e <-> exists ts s, g_alt e ts /\ ts <> [] /\ Spelled ts s /\ ebnf s = Ok (Some e, []).
Proof.
  intro e. split.
  - intro W. destruct (every_tree e W) as (ts & s & G & NE & P). exists ts, s. repeat split; auto. exact (ebnf_reads e ts s G P NE).
  - intros (ts & s & _ & _ & _ & E). pose proof (ebnf_good s) as G. rewrite E in G. apply G.
Qed.
(** a - b* | ( | 'x' )+ *)
Definition ex_toks : list btok := [BId (s2l "a"); BPunct 45; BId (s2l "b"); BPunct 124; BPunct 40; BPunct 124; BLit (s2l "x"); BPunct 41; BPunct 43].
Definition ex_tree : expr := EAlt [EDiff (EId (s2l "a")) (EId (s2l "b")); EPost 43 (EAlt [ESeq []; ELit (s2l "x")])].
Definition ex_text : str := s2l " a -b|(|'x')+ ".
Lemma ex_toks_alt : g_alt ex_tree ex_toks.
Proof.
  apply (ga_many _ _ [] [BId (s2l "a"); BPunct 45; BId (s2l "b")] [BPunct 124; BPunct 40; BPunct 124; BLit (s2l "x"); BPunct 41; BPunct 43]).
  - apply gs_one, gi_one, (gd_diff _ _ [BId (s2l "a")] [BId (s2l "b")]); repeat constructor.
  - apply (gb_cons _ [] [BPunct 40; BPunct 124; BLit (s2l "x"); BPunct 41; BPunct 43] []); [|constructor].
    apply gs_one, gi_one, gd_post, (go_op 43 _ [BPunct 40; BPunct 124; BLit (s2l "x"); BPunct 41]); [cbn; auto|].
    apply (gp_group _ [BPunct 124; BLit (s2l "x")]), ga_first_empty, (gb_cons _ [] [BLit (s2l "x")] []); [|constructor]. repeat constructor.
Qed.
Lemma ex_no_blanks : blanks [].
Proof. intros c []. Qed.
Lemma ex_space : blanks [32%N].
Proof. intros c [<-|[]]. cbn. tauto. Qed.
Lemma ex_not_word : forall c, In c [32; 124; 45; 41]%N -> ~ word_char c.
Proof. intros c J. unfold word_char, letter. cbn in J. lia. Qed.
Lemma ex_spelled : Spelled ex_toks ex_text.
Proof.
  exists (s2l " a -b|(|'x')+"), [32%N]. split; [reflexivity|]. split; [exact ex_space|]. split; [|discriminate]. unfold ex_toks.
  apply (sp_cons [32%N] _ (s2l "a") _ (s2l " -b|(|'x')+")); [exact ex_space|apply tt_id; [right; split; discriminate|intros ? []]| |intros _; apply ex_not_word; cbn; auto].
  apply (sp_cons [32%N] _ (s2l "-") _ (s2l "b|(|'x')+")); [exact ex_space|apply tt_punct; cbn; tauto| |intros []].
  apply (sp_cons [] _ (s2l "b") _ (s2l "|(|'x')+")); [exact ex_no_blanks|apply tt_id; [right; split; discriminate|intros ? []]| |intros _; apply ex_not_word; cbn; auto].
  apply (sp_cons [] _ (s2l "|") _ (s2l "(|'x')+")); [exact ex_no_blanks|apply tt_punct; cbn; tauto| |intros []].
  apply (sp_cons [] _ (s2l "(") _ (s2l "|'x')+")); [exact ex_no_blanks|apply tt_punct; cbn; tauto| |intros []].
  apply (sp_cons [] _ (s2l "|") _ (s2l "'x')+")); [exact ex_no_blanks|apply tt_punct; cbn; tauto| |intros []].
  apply (sp_cons [] _ (s2l "'x'") _ (s2l ")+")); [exact ex_no_blanks|apply (tt_single (s2l "x")); cbn; intros [X|[]]; discriminate| |intros []].
  apply (sp_cons [] _ (s2l ")") _ (s2l "+")); [exact ex_no_blanks|apply tt_punct; cbn; tauto| |intros []].
  apply (sp_cons [] _ (s2l "+") _ []); [exact ex_no_blanks|apply tt_punct; cbn; tauto|constructor|intros []].
Qed.
Example C107_reads_ex : g_alt ex_tree ex_toks /\ Spelled ex_toks ex_text /\ ex_toks <> [] /\ ebnf ex_text = Ok (Some ex_tree, []).
Proof. split; [exact ex_toks_alt|]. split; [exact ex_spelled|]. split; [discriminate|]. vm_compute. reflexivity. Qed.
Lemma ex_tree_writable : writable ex_tree.
Proof.
  assert (N : forall c, In c (s2l "ab") -> name_ok [c]) by (intros c [<-|[<-|[]]]; (split; [right; split; discriminate|intros d []])).
  split; [cbn; lia|]. split; [split; apply N; cbn; auto|]. split; [|exact Logic.I]. split; [cbn; auto|]. split; [cbn; lia|]. split; [split; [discriminate|exact Logic.I]|].
  split; [|exact Logic.I]. left. intros [X|[]]; discriminate.
Qed.
Example C107_every_tree_ex : writable ex_tree /\ ~ writable (EAlt [EId (s2l "a")]) /\ ~ writable (ELit (s2l "'" ++ [34%N])).
Proof. split; [exact ex_tree_writable|]. split; [cbn; lia|]. cbn. tauto. Qed.

(** ** C108: any text *)
Theorem C108_total : forall s,
  match ebnf s with
  | Ok (e, rest) => length rest <= length s /\ (forall x, e = Some x -> writable x)
  | Err x => In x [IndexError; ValueError; AttributeError; UnboundLocalError; SyntaxError]
  end.
Proof.
  intro s. pose proof (ebnf_good s) as G. unfold good in G. destruct (ebnf s) as [[[e|] r]|x].
  - split; [lia|]. intros y [= <-]. apply G.
  - split; [lia|discriminate].
  - exact G.
Qed.
Theorem C108_in_order : forall ts s, Spelled ts s -> ts <> [] ->
  match ebnf s with
  | Ok (e, rest) => exists read unread, ts = read ++ unread /\ Spelled unread rest /\
                      (forall x, e = Some x -> marks x = filter (fun t => negb (grouping t)) read)
  | Err x => x = SyntaxError \/
             x = IndexError /\ (exists us, ts = us ++ [BPunct 45]) \/
             x = UnboundLocalError /\ (exists us, ts = us ++ [BPunct 40])
  end.
Proof.
  intros ts s P NE. pose proof (ebnf_sound s ts P NE) as G. destruct (ebnf s) as [[[e|] r]|x]; [| |exact G].
  - destruct G as (a & b & E & Pb & M). exists a, b. split; [exact E|]. split; [exact Pb|]. intros y [= <-]. exact M.
  - destruct G as (a & b & E & Pb). exists a, b. split; [exact E|]. split; [exact Pb|]. discriminate.
Qed.
Example C108_total_ex :
  ebnf [] = Err UnboundLocalError /\ ebnf (s2l " ") = Err IndexError /\ ebnf (s2l "a 'b") = Err ValueError /\ ebnf (s2l "#") = Err AttributeError /\
  ebnf (s2l "a - )") = Err SyntaxError.
Proof. vm_compute. repeat split. Qed.
Example C108_in_order_ex :
  ebnf (s2l "a - b*") = Ok (Some (EDiff (EId (s2l "a")) (EId (s2l "b"))), s2l "*") /\
  ebnf (s2l "a -") = Err IndexError /\ ebnf (s2l "a (") = Err UnboundLocalError /\ ebnf (s2l "a | | b") = Ok (None, s2l " | b").
Proof. vm_compute. repeat split. Qed.
(** not every text that is read to its end is in the notation: a parenthesis too many *)
Lemma ex_extra : Spelled [BId (s2l "a"); BPunct 41] (s2l "a)").
Proof.
  exists (s2l "a)"), []. split; [reflexivity|]. split; [exact ex_no_blanks|]. split; [|discriminate].
  apply (sp_cons [] _ (s2l "a") _ (s2l ")")); [exact ex_no_blanks|apply tt_id; [right; split; discriminate|intros ? []]| |intros _; apply ex_not_word; cbn; auto].
  apply (sp_cons [] _ (s2l ")") _ []); [exact ex_no_blanks|apply tt_punct; cbn; tauto|constructor|intros []].
Qed.
Theorem C108_only_notation_refuted : exists ts s e, Spelled ts s /\ ebnf s = Ok (Some e, []) /\ ~ exists e', g_alt e' ts.
Proof.
  exists [BId (s2l "a"); BPunct 41], (s2l "a)"), (EId (s2l "a")). split; [exact ex_extra|]. split; [vm_compute; reflexivity|]. intros (e & G).
  apply alt_balanced in G. discriminate.
Qed.

(** empty alternatives after the first, unclosed groups *)
Theorem C108_empty_alternative_refuted : exists s, s = s2l "a |" /\ ebnf s = ebnf (s2l "a") /\ ebnf (s2l "a") = ebnf (s2l "(a").
Proof. exists (s2l "a |"). vm_compute. repeat split. Qed.

(** ** C109: rules and files *)
Theorem C109_rule : forall num sym e r, rule_text num sym e r -> rule_parts r = Ok (num, sym, Some e).
Proof. exact rule_reads. Qed.
Theorem C109_file : forall rs ls, file_of rs ls -> each_rule [] ls = rs.
Proof. exact file_rules. Qed.
Theorem C109_comments : forall prefix ls ls' c, comment_line c -> to_HTML prefix (ls ++ c :: ls') = to_HTML prefix (ls ++ ls').
Proof.
  intros prefix ls ls' c C. apply startswith_line in C. unfold to_HTML. rewrite (each_comments (ls ++ c :: ls')), (each_comments (ls ++ ls')), !filter_app. cbn [filter]. now rewrite C.
Qed.
Theorem C109_table : forall prefix es rs ls rows,
  file_of rs ls -> Forall2 entry_text es rs -> NoDup (entry_nums es) -> table (html_expr prefix false false) false es rows ->
  to_HTML prefix ls = Ok rows.
Proof. intros. eapply file_table; eauto. Qed.
Theorem C109_numbers : forall prefix ls rows, to_HTML prefix ls = Ok rows ->
  (forall r n s e, In r (each_rule [] ls) -> rule_parts r = Ok (n, s, e) -> ~ line_starts "ERROR-" n) ->
  NoDup (map (fun r : row => fst (fst (fst r))) rows).
Proof. intros prefix ls rows E H. exact (proj1 (rows_numbers prefix _ _ _ _ _ E H)). Qed.
Theorem C109_total : forall prefix ls,
  match to_HTML prefix ls with
  | Ok rows => length rows = length (filter (fun r => if str_eq_dec r (s2l "@terminals") then false else true) (each_rule [] ls))
  | Err x => In x [AssertionError; ValueError; IndexError; AttributeError; UnboundLocalError; SyntaxError; TypeError; UnicodeDecodeError]
  end.
Proof. intros. apply rows_total. Qed.
Definition ex_file : list str := [s2l "[1] x ::= y |"; s2l "/* a comment"; s2l "   'z'"; s2l ""; s2l "@terminals "; s2l "[2] y ::= [a-z]+"].
Lemma ex_bars : Spelled [BId (s2l "y"); BPunct 124; BLit (s2l "z")] (s2l " y |'z'").
Proof.
  exists (s2l " y |'z'"), []. split; [reflexivity|]. split; [exact ex_no_blanks|]. split; [|discriminate].
  apply (sp_cons [32%N] _ (s2l "y") _ (s2l " |'z'")); [exact ex_space|apply tt_id; [right; split; discriminate|intros ? []]| |intros _; apply ex_not_word; cbn; auto].
  apply (sp_cons [32%N] _ (s2l "|") _ (s2l "'z'")); [exact ex_space|apply tt_punct; cbn; tauto| |intros []].
  apply (sp_cons [] _ (s2l "'z'") _ []); [exact ex_no_blanks|apply (tt_single (s2l "z")); cbn; intros [X|[]]; discriminate|constructor|intros []].
Qed.
Lemma ex_class : Spelled [BSet (s2l "a-z"); BPunct 43] (s2l " [a-z]+").
Proof.
  exists (s2l " [a-z]+"), []. split; [reflexivity|]. split; [exact ex_no_blanks|]. split; [|discriminate].
  apply (sp_cons [32%N] _ (s2l "[a-z]") _ (s2l "+")); [exact ex_space|apply (tt_set (s2l "a-z")); cbn; intuition discriminate| |intros []].
  apply (sp_cons [] _ (s2l "+") _ []); [exact ex_no_blanks|apply tt_punct; cbn; tauto|constructor|intros []].
Qed.
Lemma ex_rule1 : rule_text (s2l "1") (s2l "x") (EAlt [EId (s2l "y"); ELit (s2l "z")]) (s2l "[1] x ::= y |'z'").
Proof.
  exists [32%N], [32%N], (s2l " y |'z'"), [BId (s2l "y"); BPunct 124; BLit (s2l "z")]. split; [reflexivity|]. split; [cbn; intros [X|[]]; discriminate|].
  split; [exact ex_space|]. split; [exact ex_space|]. split; [split; [right; split; discriminate|intros d []]|]. split; [|split; [discriminate|exact ex_bars]].
  apply (ga_many _ _ [] [BId (s2l "y")] [BPunct 124; BLit (s2l "z")]); [repeat constructor|]. apply (gb_cons _ [] [BLit (s2l "z")] []); repeat constructor.
Qed.
Lemma ex_rule2 : rule_text (s2l "2") (s2l "y") (EPost 43 (ESet (s2l "a-z"))) (s2l "[2] y ::= [a-z]+").
Proof.
  exists [32%N], [32%N], (s2l " [a-z]+"), [BSet (s2l "a-z"); BPunct 43]. split; [reflexivity|]. split; [cbn; intros [X|[]]; discriminate|].
  split; [exact ex_space|]. split; [exact ex_space|]. split; [split; [right; split; discriminate|intros d []]|]. split; [|split; [discriminate|exact ex_class]].
  apply ga_one, gs_one, gi_one, gd_post, (go_op 43 _ [BSet (s2l "a-z")]); [cbn; auto|repeat constructor].
Qed.
Lemma ex_no_comment : forall c x, c <> 47%N -> ~ comment_line (c :: x).
Proof. intros c x N (r & E). injection E as E _. contradiction. Qed.
Lemma ex_no_rule : forall c x, c <> 91%N -> c <> 64%N -> ~ rule_line (c :: x).
Proof. intros c x N M [(r & E)|(r & E)]; injection E as E _; contradiction. Qed.
Lemma ex_strip : forall l x w w' c y d z, l = w ++ x ++ w' -> blanks w -> blanks w' -> x = c :: y -> x = z ++ [d] -> ~ blank c -> ~ blank d -> stripped l x.
Proof. intros l x w w' c y d z E B B' X1 X2 N1 N2. exists w, w'. split; [exact E|]. split; [exact B|]. split; [exact B'|]. right. exists c, y, d, z. auto. Qed.
Lemma ex_file_of : file_of [s2l "[1] x ::= y |'z'"; s2l "@terminals"; s2l "[2] y ::= [a-z]+"] ex_file.
Proof.
  assert (NB : forall c, (33 <= c)%N -> ~ blank c) by (intros c L J; unfold blank in J; cbn in J; lia).
  apply (fo_rule (s2l "[1] x ::= y |") (s2l "[1] x ::= y |") [s2l "/* a comment"; s2l "   'z'"; s2l ""] (s2l "'z'")); [left; now exists (s2l "1] x ::= y |")| | |].
  - apply (ex_strip _ _ [] [] 91%N (s2l "1] x ::= y |") 124%N (s2l "[1] x ::= y ")); auto using ex_no_blanks; apply NB; discriminate.
  - apply rr_comment; [now exists (s2l " a comment")|]. change (s2l "'z'") with (s2l "'z'" ++ []). apply rr_line; [apply ex_no_comment; discriminate|apply ex_no_rule; discriminate| |].
    + apply (ex_strip _ _ (s2l "   ") [] 39%N (s2l "z'") 39%N (s2l "'z")); auto using ex_no_blanks; try (apply NB; discriminate). intros c J. cbn in J. assert (c = 32%N) as -> by intuition. cbn. tauto.
    + apply (rr_line [] [] [] []); [intros (r & E); discriminate|intros [(r & E)|(r & E)]; discriminate| |constructor]. exists [], []. repeat split; auto using ex_no_blanks.
  - apply (fo_rule (s2l "@terminals ") (s2l "@terminals") [] []); [right; now exists (s2l "terminals ")| |constructor|].
    + apply (ex_strip _ _ [] [32%N] 64%N (s2l "terminals") 115%N (s2l "@terminal")); auto using ex_no_blanks, ex_space; apply NB; discriminate.
    + apply (fo_rule (s2l "[2] y ::= [a-z]+") (s2l "[2] y ::= [a-z]+") [] [] [] []); [left; now exists (s2l "2] y ::= [a-z]+")| |constructor|constructor].
      apply (ex_strip _ _ [] [] 91%N (s2l "2] y ::= [a-z]+") 43%N (s2l "[2] y ::= [a-z]")); auto using ex_no_blanks; apply NB; discriminate.
Qed.
Definition ex_entries : list entry :=
  [Rule (s2l "1") (s2l "x") (EAlt [EId (s2l "y"); ELit (s2l "z")]); Terminals; Rule (s2l "2") (s2l "y") (EPost 43 (ESet (s2l "a-z")))].
Definition ex_rows : list row :=
  [(s2l "1", s2l "x", s2l "<a href='#p-grammar-production-y'>y</a> <code>| </code> '<code class='grammar-literal'>z</code>'", false);
   (s2l "2", s2l "y", s2l "[<code class='grammar-chars'>a-z</code>]<code class='grammar-plus'>+</code>", true)].
Example C109_rule_ex : rule_text (s2l "1") (s2l "x") (EAlt [EId (s2l "y"); ELit (s2l "z")]) (s2l "[1] x ::= y |'z'").
Proof. exact ex_rule1. Qed.
Example C109_file_ex : file_of [s2l "[1] x ::= y |'z'"; s2l "@terminals"; s2l "[2] y ::= [a-z]+"] ex_file.
Proof. exact ex_file_of. Qed.
Example C109_comments_ex : comment_line (s2l "/* a comment") /\ exists rows, to_HTML [] ex_file = Ok rows /\ length rows = 2.
Proof. split; [now exists (s2l " a comment")|]. eexists. split; [vm_compute; reflexivity|reflexivity]. Qed.
Example C109_table_ex :
  Forall2 entry_text ex_entries [s2l "[1] x ::= y |'z'"; s2l "@terminals"; s2l "[2] y ::= [a-z]+"] /\
  NoDup (entry_nums ex_entries) /\ table (html_expr (s2l "p") false false) false ex_entries ex_rows /\ to_HTML (s2l "p") ex_file = Ok ex_rows.
Proof.
  split; [constructor; [exact ex_rule1|constructor; [reflexivity|constructor; [exact ex_rule2|constructor]]]|]. split; [|split; [|vm_compute; reflexivity]].
  - constructor; [cbn; intros [X|[]]; discriminate|constructor; [intros []|constructor]].
  - apply tb_rule; [vm_compute; reflexivity|]. apply tb_terminals, tb_rule; [vm_compute; reflexivity|constructor].
Qed.
Example C109_total_ex : to_HTML [] [s2l "[1] x"] = Err ValueError /\ to_HTML [] [s2l "x ::= a"] = Err AssertionError /\
  to_HTML [] [s2l "[1] x ::= a | | b"] = Err TypeError.
Proof. vm_compute. auto. Qed.
Example C109_numbers_ex : forall r n s e, In r (each_rule [] [s2l "[1] x ::= a"; s2l "[1] y ::= b"; s2l "[1] z ::= c"]) -> rule_parts r = Ok (n, s, e) -> ~ line_starts "ERROR-" n.
Proof.
  intros r n s e J E (x & ->). change (each_rule [] [s2l "[1] x ::= a"; s2l "[1] y ::= b"; s2l "[1] z ::= c"]) with [s2l "[1] x ::= a"; s2l "[1] y ::= b"; s2l "[1] z ::= c"] in J.
  destruct J as [<-|[<-|[<-|[]]]]; vm_compute in E; discriminate.
Qed.
Example C109_numbers_rows : exists rows, to_HTML [] [s2l "[1] x ::= a"; s2l "[1] y ::= b"; s2l "[1] z ::= c"] = Ok rows /\
  map (fun r : row => fst (fst (fst r))) rows = [s2l "1"; s2l "ERROR-1"; s2l "ERROR-2"].
Proof. eexists. split; [vm_compute; reflexivity|vm_compute; reflexivity]. Qed.
(** without that hypothesis two rows can have one number *)
Theorem C109_numbers_refuted : exists ls rows, to_HTML [] ls = Ok rows /\ ~ NoDup (map (fun r : row => fst (fst (fst r))) rows).
Proof.
  exists [s2l "[1] x ::= a"; s2l "[1] y ::= b"; s2l "[ERROR-1] z ::= c"]. eexists. split; [vm_compute; reflexivity|]. cbn [map fst]. intro H.
  apply NoDup_cons_iff in H. destruct H as [_ H]. apply NoDup_cons_iff in H. apply (proj1 H). now left.
Qed.
(** the end of a line does not end a name *)
Theorem C109_line_break_refuted : exists rows, to_HTML [] [s2l "[1] x ::= a"; s2l "  b"] = Ok rows /\ to_HTML [] [s2l "[1] x ::= ab"] = Ok rows /\
  to_HTML [] [s2l "[1] x ::= a b"] <> Ok rows.
Proof. eexists. split; [vm_compute; reflexivity|]. split; [vm_compute; reflexivity|]. vm_compute. discriminate. Qed.
(** what follows the expression in a rule is dropped *)
Theorem C109_unread_refuted : exists rest, rest <> [] /\ rule_parts (s2l "[1] x ::= a" ++ rest) = rule_parts (s2l "[1] x ::= a").
Proof. exists (s2l " ) b c"). split; [discriminate|vm_compute; reflexivity]. Qed.

(** ** C110: the HTML of an expression *)
Theorem C110_escape : forall x,
  match escape x with
  | Ok h => (forall c, In c x -> (c < 128)%N) /\ html_items MText h = Some (map Chr x)
  | Err e => e = UnicodeDecodeError /\ exists c, In c x /\ (128 <= c)%N
  end.
Proof.
  intro x. unfold escape. destruct (forallb (fun c => c <? 128)%N x) eqn:E.
  - split; [|apply escape_items]. rewrite forallb_forall in E. intros c J. now apply N.ltb_lt, E.
  - split; [reflexivity|]. induction x as [|c x IH]; [discriminate|]. cbn [forallb] in E. destruct (N.ltb_spec c 128); [|exists c; split; [now left|assumption]].
    destruct (IH E) as (d & J & L). exists d. split; [now right|exact L].
Qed.
Theorem C110_outcome : forall prefix e nested alternation,
  match html_expr prefix nested alternation e with
  | Ok _ => ascii_expr e
  | Err x => x = UnicodeDecodeError /\ ~ ascii_expr e
  end.
Proof. intros prefix e n al. destruct (html_ascii prefix e n al) as [[(h & E) A]|[E A]]; rewrite E; auto. Qed.
Theorem C110_shown : forall prefix e h, (forall c, In c prefix -> c <> 60%N /\ c <> 62%N) -> writable e ->
  html_expr prefix false false e = Ok h ->
  exists its ts, html_items MText h = Some its /\ elements (tags its) /\ Spelled ts (shown_text its) /\
    marks e = filter (fun t => negb (grouping t)) ts.
Proof.
  intros prefix e h PO W E. assert (A : ascii_expr e) by (pose proof (C110_outcome prefix e false false) as O; now rewrite E in O).
  destruct (html_shows prefix e PO W A) as (h' & its & ts & E' & I & T & P & M & _). rewrite E in E'. injection E' as <-. exists its, ts. auto.
Qed.
Theorem C110_faithful : forall prefix e h its, (forall c, In c prefix -> c <> 60%N /\ c <> 62%N) -> writable e -> faithful false false e -> e <> ESeq [] ->
  html_expr prefix false false e = Ok h -> html_items MText h = Some its -> ebnf (shown_text its) = Ok (Some e, []).
Proof.
  intros prefix e h its PO W F NE E I. assert (A : ascii_expr e) by (pose proof (C110_outcome prefix e false false) as O; now rewrite E in O).
  destruct (html_shows prefix e PO W A) as (h' & its' & ts & E' & I' & T & P & M & G & NT). rewrite E in E'. injection E' as <-. rewrite I in I'. injection I' as <-.
  apply (ebnf_reads e ts); [now apply G|exact P|]. intro X. exact (NE (NT X)).
Qed.
Definition ex_shown : expr := EAlt [EDiff (EId (s2l "a")) (ESet (s2l "&")); EPost 42 (ESeq [EId (s2l "b"); EPost 63 (ELit (s2l "<"))])].
Lemma ex_shown_ok : writable ex_shown /\ faithful false false ex_shown.
Proof.
  assert (N : forall c, In c (s2l "ab") -> name_ok [c]) by (intros c [<-|[<-|[]]]; (split; [right; split; discriminate|intros d []])).
  split.
  - split; [cbn; lia|]. split; [split; [apply N; cbn; auto|cbn; intros [X|[]]; discriminate]|]. split; [|exact Logic.I]. split; [cbn; auto|]. split; [cbn; lia|].
    split; [apply N; cbn; auto|]. split; [|exact Logic.I]. split; [cbn; auto|]. left. intros [X|[]]; discriminate.
  - split; [|cbn; intros [X|[]]; discriminate]. split; [split; [exact Logic.I|left; exact Logic.I]|]. split; [|exact Logic.I]. split; [exact Logic.I|]. split; [exact Logic.I|exact Logic.I].
Qed.
Example C110_escape_ex : escape (s2l "a<&b") = Ok (s2l "a&lt;&amp;b") /\ escape [200%N] = Err UnicodeDecodeError.
Proof. vm_compute. auto. Qed.
Example C110_outcome_ex : html_expr [] false false (ELit [200%N]) = Err UnicodeDecodeError.
Proof. reflexivity. Qed.
Example C110_shown_ex : writable ex_shown /\ exists h its, html_expr [] false false ex_shown = Ok h /\ html_items MText h = Some its /\
  shown_text its = s2l "a-[&] |  (b '<'?)*".
Proof. split; [apply ex_shown_ok|]. eexists. eexists. split; [vm_compute; reflexivity|]. split; [vm_compute; reflexivity|vm_compute; reflexivity]. Qed.
Example C110_faithful_ex : writable ex_shown /\ faithful false false ex_shown /\ ex_shown <> ESeq [] /\
  ebnf (s2l "a-[&] |  (b '<'?)*") = Ok (Some ex_shown, []).
Proof. split; [apply ex_shown_ok|]. split; [apply ex_shown_ok|]. split; [discriminate|]. vm_compute. reflexivity. Qed.
(** some trees are not told apart by their HTML *)
Theorem C110_grouping_refuted : exists e e', ebnf (s2l "(a (b|c))*") = Ok (Some e, []) /\ ebnf (s2l "((a b)|c)*") = Ok (Some e', []) /\
  e <> e' /\ html_expr [] false false e = html_expr [] false false e'.
Proof. eexists. eexists. split; [vm_compute; reflexivity|]. split; [vm_compute; reflexivity|]. split; [discriminate|vm_compute; reflexivity]. Qed.

Print Assumptions C107_reads.
Print Assumptions C107_every_tree.
Print Assumptions C108_total.
Print Assumptions C108_in_order.
Print Assumptions C108_only_notation_refuted.
Print Assumptions C108_empty_alternative_refuted.
Print Assumptions C109_rule.
Print Assumptions C109_file.
Print Assumptions C109_comments.
Print Assumptions C109_table.
Print Assumptions C109_total.
Print Assumptions C109_numbers.
Print Assumptions C109_numbers_refuted.
Print Assumptions C109_line_break_refuted.
Print Assumptions C109_unread_refuted.
Print Assumptions C110_escape.
Print Assumptions C110_outcome.
Print Assumptions C110_shown.
Print Assumptions C110_faithful.
Print Assumptions C110_grouping_refuted.
