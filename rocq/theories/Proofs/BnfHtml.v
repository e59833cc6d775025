(** The HTML of expressions (C110). *)
From Verif Require Import Model.Py Model.Bnf Spec.BnfSpec Proofs.BnfLex Proofs.BnfParse Proofs.BnfTotal Proofs.BnfSound.

(** ** Scanning *)
Lemma items_app : forall a m ia b, html_items m a = Some ia -> html_items m (a ++ b) = option_map (app ia) (html_items MText b).
Proof.
  induction a as [|c a IH]; intros m ia b E; cbn [html_items app] in *.
  - destruct m; try discriminate. injection E as <-. destruct (html_items MText b); reflexivity.
  - assert (K : forall (x : item) m', option_map (cons x) (html_items m' a) = Some ia -> option_map (cons x) (html_items m' (a ++ b)) = option_map (app ia) (html_items MText b)).
    { intros x m' F. destruct (html_items m' a) as [i|] eqn:F'; [|discriminate]. injection F as <-. rewrite (IH m' i b F'). destruct (html_items MText b); reflexivity. }
    destruct m as [|acc|acc].
    + destruct (c =? 60)%N; [now apply IH|]. destruct (c =? 38)%N; [now apply IH|]. destruct (c =? 62)%N; [discriminate|]. now apply K.
    + destruct (c =? 62)%N; [now apply K|]. destruct (c =? 60)%N; [discriminate|]. now apply IH.
    + destruct (c =? 59)%N; [|now apply IH]. destruct (entity acc); [now apply K|discriminate].
Qed.
Lemma items_two : forall a b ia ib, html_items MText a = Some ia -> html_items MText b = Some ib -> html_items MText (a ++ b) = Some (ia ++ ib).
Proof. intros a b ia ib A B. rewrite (items_app _ _ _ b A), B. reflexivity. Qed.
Lemma tags_app : forall a b, tags (a ++ b) = tags a ++ tags b.
Proof. intros. apply flat_map_app. Qed.
Lemma shown_app : forall a b, shown_text (a ++ b) = shown_text a ++ shown_text b.
Proof. intros. apply flat_map_app. Qed.
Lemma shown_chars : forall x, shown_text (map Chr x) = x.
Proof. induction x as [|c x IH]; [reflexivity|]. cbn. now f_equal. Qed.
Lemma tags_chars : forall x, tags (map Chr x) = [].
Proof. induction x as [|c x IH]; [reflexivity|exact IH]. Qed.
Lemma elements_app : forall a b, elements a -> elements b -> elements (a ++ b).
Proof. induction 1 as [|n at_ l N A E IH]; intro H; [exact H|]. cbn [app]. constructor; auto. Qed.
(** plain characters *)
Definition plain (c : char) : Prop := c <> 60%N /\ c <> 38%N /\ c <> 62%N.
Lemma items_plain : forall x, (forall c, In c x -> plain c) -> html_items MText x = Some (map Chr x).
Proof.
  induction x as [|c x IH]; intro H; [reflexivity|]. cbn [html_items map]. destruct (H c (or_introl eq_refl)) as (A & B & C). apply N.eqb_neq in A, B, C. rewrite A, B, C, IH; [reflexivity|].
  intros d J. apply H. now right.
Qed.
Lemma items_tag : forall x acc, (forall c, In c x -> c <> 60%N /\ c <> 62%N) -> forall r, html_items (MTag acc) (x ++ 62%N :: r) = option_map (cons (Tag (acc ++ x))) (html_items MText r).
Proof.
  induction x as [|c x IH]; intros acc H r.
  - cbn [app html_items]. change (62 =? 62)%N with true. cbv iota. now rewrite app_nil_r.
  - cbn [app html_items]. destruct (H c (or_introl eq_refl)) as [A B]. apply N.eqb_neq in A, B. rewrite B, A, IH by (intros d J; apply H; now right). now rewrite <- app_assoc.
Qed.
Lemma items_start : forall x, (forall c, In c x -> c <> 60%N /\ c <> 62%N) -> html_items MText (60%N :: x ++ [62%N]) = Some [Tag x].
Proof. intros x H. cbn [html_items]. change (60 =? 60)%N with true. cbv iota. now rewrite items_tag. Qed.
Lemma escape_items : forall x, html_items MText (flat_map escape_char x) = Some (map Chr x).
Proof.
  induction x as [|c x IH]; [reflexivity|]. cbn [flat_map map]. change (Chr c :: map Chr x) with ([Chr c] ++ map Chr x). apply items_two; [|exact IH]. unfold escape_char.
  destruct (N.eqb_spec c 38) as [->|A]; [reflexivity|]. destruct (N.eqb_spec c 60) as [->|B]; [reflexivity|]. destruct (N.eqb_spec c 62) as [->|C]; [reflexivity|].
  destruct (N.eqb_spec c 34) as [->|D]; [reflexivity|]. destruct (N.eqb_spec c 39) as [->|E]; [reflexivity|]. apply (items_plain [c]). intros d [<-|[]]. repeat split; assumption.
Qed.
Lemma escape_ok : forall x, (forall c, In c x -> (c < 128)%N) -> escape x = Ok (flat_map escape_char x).
Proof.
  intros x H. unfold escape. assert (E : forallb (fun c => c <? 128)%N x = true) by (apply forallb_forall; intros c J; now apply N.ltb_lt, H). now rewrite E.
Qed.
Lemma escape_err : forall x, ~ (forall c, In c x -> (c < 128)%N) -> escape x = Err UnicodeDecodeError.
Proof.
  intros x H. unfold escape. destruct (forallb (fun c => c <? 128)%N x) eqn:E; [|reflexivity]. exfalso. apply H. intros c J. rewrite forallb_forall in E. now apply N.ltb_lt, E.
Qed.

(** ** Texts of tokens, put together *)
Inductive loose : list btok -> str -> Prop :=
| lo_nil w : blanks w -> loose [] w
| lo_cons w t x ts s : blanks w -> tok_text t x -> loose ts s -> (open_ended t -> match s with c :: _ => ~ word_char c | [] => True end) -> loose (t :: ts) (w ++ x ++ s).
Definition calm_text (s : str) : Prop := match s with c :: _ => ~ word_char c | [] => True end.
Definition piece (ts : list btok) (x : str) : Prop := forall us s, loose us s -> calm_text s -> loose (ts ++ us) (x ++ s).
Lemma piece_nil : piece [] [].
Proof. intros us s L _. exact L. Qed.
Lemma piece_blank : forall w, blanks w -> piece [] w.
Proof.
  intros w B us s L _. cbn [app]. destruct L as [w' B'|w' t x ts s B' T L O].
  - constructor. intros c J. apply in_app_or in J. destruct J; auto.
  - rewrite app_assoc. constructor; auto. intros c J. apply in_app_or in J. destruct J; auto.
Qed.
Lemma piece_tok : forall t x, tok_text t x -> piece [t] x.
Proof. intros t x T us s L C. change (x ++ s) with ([] ++ x ++ s). cbn [app]. change (x ++ s) with ([] ++ x ++ s). constructor; auto. intros c []. Qed.
Lemma piece_app : forall a b x y, piece a x -> piece b y -> (y = [] -> b = []) -> (forall c r, y = c :: r -> ~ word_char c) -> piece (a ++ b) (x ++ y).
Proof.
  intros a b x y A B N C us s L S. rewrite <- !app_assoc. apply A; [now apply B|]. destruct y as [|c y]; [cbn [app]; exact S|]. cbn. eapply C. reflexivity.
Qed.
Lemma loose_spelled : forall ts s, loose ts s -> exists s0 w, s = s0 ++ w /\ blanks w /\ spelled ts s0.
Proof.
  induction 1 as [w B|w t x ts s B T L (s0 & w' & -> & B' & P) O]; [exists [], w; repeat split; auto; constructor|]. exists (w ++ x ++ s0), w'. rewrite <- !app_assoc. split; [reflexivity|]. split; [exact B'|]. constructor; auto.
  intro H. specialize (O H). destruct s0; [exact Logic.I|exact O].
Qed.
Lemma piece_spelled : forall ts s, piece ts s -> (ts = [] -> s = []) -> Spelled ts s.
Proof.
  intros ts s P N. specialize (P [] [] (lo_nil [] (fun c J => match J with end)) Logic.I). rewrite !app_nil_r in P. destruct (loose_spelled _ _ P) as (s0 & w & E & B & S). exists s0, w. split; [exact E|]. split; [exact B|]. split; [exact S|].
  intro X. specialize (N X). rewrite N in E. symmetry in E. apply app_eq_nil in E. now destruct E.
Qed.

(** ** What is shown *)
Fixpoint shown (nested alternation : bool) (e : expr) : list btok :=
  match e with
  | EId x => [BId x] | ELit l => [BLit l] | ESet l => [BSet l] | EHash x => [BHash x]
  | EPost c a => shown true false a ++ [BPunct c]
  | EDiff a b => shown false false a ++ BPunct 45 :: shown false false b
  | ESeq l => if nested && negb alternation then BPunct 40 :: flat_map (shown false false) l ++ [BPunct 41] else flat_map (shown true false) l
  | EAlt l => let c := tl (flat_map (fun a => BPunct 124 :: shown true true a) l) in if nested then BPunct 40 :: c ++ [BPunct 41] else c
  end.
Lemma marks_flat : forall (f : expr -> list btok) l, (forall x, In x l -> marks_of (f x) = marks x) -> marks_of (flat_map f l) = flat_map marks l.
Proof.
  induction l as [|x l IH]; intro H; [reflexivity|]. cbn [flat_map]. rewrite marks_of_app, IH, H; [reflexivity|now left|]. intros y J. apply H. now right.
Qed.
Lemma shown_marks : forall e, writable e -> forall n al, marks_of (shown n al e) = marks e.
Proof.
  intro e. induction e using expr_ind'; intros W n al; cbn [shown marks]; try reflexivity.
  - destruct W as [J W]. rewrite marks_of_app, IHe by exact W. now rewrite op_mark.
  - destruct W as [W1 W2]. rewrite marks_of_app, IHe1 by exact W1. cbn. now rewrite <- (IHe2 W2 false false).
  - destruct W as [_ W]. rewrite <- all_writable_fix in W. rewrite all_writable_in in W. rewrite Forall_forall in H. destruct (n && negb al).
    + change (BPunct 40 :: ?x) with ([BPunct 40] ++ x). rewrite !marks_of_app, marks_flat by (intros; apply H; auto). cbn. now rewrite app_nil_r.
    + rewrite marks_flat by (intros; apply H; auto). reflexivity.
  - destruct W as [NL W]. rewrite <- all_writable_fix in W. rewrite all_writable_in in W. rewrite Forall_forall in H.
    assert (C : marks_of (tl (flat_map (fun a => BPunct 124 :: shown true true a) l)) = flat_map marks l).
    { rewrite <- (marks_flat (fun a => BPunct 124 :: shown true true a) l) by (intros; cbn; apply H; auto). destruct l as [|a l]; [reflexivity|]. reflexivity. }
    destruct n; [|exact C]. change (BPunct 40 :: ?x) with ([BPunct 40] ++ x). rewrite !marks_of_app, C. cbn. now rewrite app_nil_r.
Qed.

Definition good_html (ts : list btok) (h : str) : Prop :=
  exists its, html_items MText h = Some its /\ elements (tags its) /\ piece ts (shown_text its).
Lemma loose_blank : forall us s w, loose us s -> blanks w -> loose us (w ++ s).
Proof.
  intros us s w L B. destruct L as [w' B'|w' t x ts s B' T L O].
  - constructor. intros c J. apply in_app_or in J. destruct J; auto.
  - rewrite app_assoc. constructor; auto. intros c J. apply in_app_or in J. destruct J; auto.
Qed.
Lemma piece_pre : forall b y w, piece b y -> blanks w -> piece b (w ++ y).
Proof. intros b y w P B us s L S. rewrite <- app_assoc. apply loose_blank; auto. Qed.
Lemma piece_punct : forall c b y, In c [40; 63; 41; 42; 43; 124; 45]%N -> piece b y -> piece (BPunct c :: b) (c :: y).
Proof.
  intros c b y J P us s L S. cbn [app]. change (c :: y ++ s) with ([] ++ [c] ++ y ++ s). constructor; [intros d []|now constructor|now apply P|intros []].
Qed.
Lemma space_ok : blanks (s2l " ").
Proof. intros c [<-|[]]. unfold blank. cbn. tauto. Qed.
Lemma space_calm : ~ word_char 32.
Proof. unfold word_char, letter. lia. Qed.
Lemma join_seq : forall (f : expr -> list btok) l hs, Forall2 (fun e h => good_html (f e) h) l hs -> good_html (flat_map f l) (join (s2l " ") hs).
Proof.
  intros f l hs F. induction F as [|e h l hs (i1 & E1 & T1 & P1) F IH]; [exists []; repeat split; [constructor|exact piece_nil]|]. cbn [flat_map]. destruct hs as [|h2 hs].
  - inversion F; subst. cbn. rewrite app_nil_r. exists i1. auto.
  - destruct IH as (i2 & E2 & T2 & P2). change (join (s2l " ") (h :: h2 :: hs)) with (h ++ s2l " " ++ join (s2l " ") (h2 :: hs)).
    exists (i1 ++ [Chr 32%N] ++ i2). split; [apply items_two; [exact E1|]; now apply items_two|]. rewrite !tags_app, !shown_app. split; [apply elements_app; auto|].
    apply piece_app; auto; [apply piece_pre; [exact P2|exact space_ok]|discriminate|]. intros c r X. injection X as <- _. exact space_calm.
Qed.
Definition bar_items : list item := [Chr 32%N; Tag (s2l "code"); Chr 124%N; Chr 32%N; Tag (s2l "/code"); Chr 32%N].
Lemma join_bars : forall (f : expr -> list btok) l hs, Forall2 (fun e h => good_html (f e) h) l hs ->
  good_html (tl (flat_map (fun a => BPunct 124 :: f a) l)) (join (s2l " <code>| </code> ") hs).
Proof.
  intros f l hs F. induction F as [|e h l hs (i1 & E1 & T1 & P1) F IH]; [exists []; repeat split; [constructor|exact piece_nil]|]. destruct hs as [|h2 hs].
  - inversion F; subst. cbn. rewrite app_nil_r. exists i1. auto.
  - destruct l as [|e2 l]; [inversion F|]. destruct IH as (i2 & E2 & T2 & P2).
    change (join (s2l " <code>| </code> ") (h :: h2 :: hs)) with (h ++ s2l " <code>| </code> " ++ join (s2l " <code>| </code> ") (h2 :: hs)).
    change (tl (flat_map (fun a => BPunct 124 :: f a) (e :: e2 :: l))) with (f e ++ BPunct 124 :: tl (flat_map (fun a => BPunct 124 :: f a) (e2 :: l))).
    exists (i1 ++ bar_items ++ i2). split; [apply items_two; [exact E1|]; now apply items_two|]. rewrite !tags_app, !shown_app. split.
    + apply elements_app; [exact T1|]. apply elements_app; [|exact T2]. apply (el_cons (s2l "code") [] []); [now right|now left|constructor].
    + apply piece_app; auto; [|discriminate|intros c r X; injection X as <- _; exact space_calm].
      change (shown_text bar_items) with (s2l " " ++ [124%N] ++ s2l "  "). rewrite <- !app_assoc. apply piece_pre; [|exact space_ok]. apply piece_punct; [cbn; tauto|]. apply piece_pre; [exact P2|]. intros c [<-|[<-|[]]]; unfold blank; cbn; tauto.
Qed.
Lemma good_paren : forall ts h, good_html ts h -> good_html (BPunct 40 :: ts ++ [BPunct 41]) (s2l "(" ++ h ++ s2l ")").
Proof.
  intros ts h (i & E & T & P). exists ([Chr 40%N] ++ i ++ [Chr 41%N]). split; [apply items_two; [reflexivity|]; now apply items_two|]. rewrite !tags_app, !shown_app. cbn [tags flat_map app]. rewrite app_nil_r. split; [exact T|].
  apply piece_punct; [cbn; tauto|]. apply piece_app; [exact P| |discriminate|].
  - apply piece_punct; [cbn; tauto|]. exact piece_nil.
  - intros c r X. injection X as <- _. unfold word_char, letter. lia.
Qed.
(** an operator after an expression *)
Lemma good_op : forall ts h c hc ic, good_html ts h -> In c [63; 42; 43]%N -> html_items MText hc = Some ic -> elements (tags ic) -> shown_text ic = [c] -> good_html (ts ++ [BPunct c]) (h ++ hc).
Proof.
  intros ts h c hc ic (i & E & T & P) J EC TC SC. exists (i ++ ic). split; [now apply items_two|]. rewrite tags_app, shown_app, SC. split; [now apply elements_app|].
  apply piece_app; [exact P| |discriminate|].
  - apply piece_punct; [cbn in J |- *; tauto|exact piece_nil].
  - intros d r X. injection X as <- _. cbn in J. unfold word_char, letter. lia.
Qed.
(** something in a code element *)
Lemma good_code : forall t x pre post attrs, tok_text t (pre ++ x ++ post) -> (forall c, In c (pre ++ post) -> plain c) -> (forall c, In c attrs -> c <> 60%N /\ c <> 62%N) ->
  good_html [t] (pre ++ (60%N :: (s2l "code " ++ attrs) ++ [62%N]) ++ flat_map escape_char x ++ s2l "</code>" ++ post).
Proof.
  intros t x pre post attrs T PL A. exists (map Chr pre ++ [Tag (s2l "code " ++ attrs)] ++ map Chr x ++ [Tag (s2l "/code")] ++ map Chr post). split.
  - apply items_two; [apply items_plain; intros c J; apply PL, in_or_app; now left|]. apply items_two.
    { apply items_start. intros c J. apply in_app_or in J. destruct J as [J|J]; [|now apply A]. cbn in J. repeat destruct J as [<-|J]; try contradiction; split; discriminate. }
    apply items_two; [apply escape_items|]. apply items_two; [reflexivity|]. apply items_plain. intros c J. apply PL, in_or_app. now right.
  - rewrite !tags_app, !shown_app, !shown_chars, !tags_chars. cbn [tags shown_text flat_map app]. split; [|now apply piece_tok].
    change (s2l "code " ++ attrs) with (s2l "code" ++ (s2l " " ++ attrs)). apply (el_cons (s2l "code") (s2l " " ++ attrs) []); [now right|right; now exists attrs|constructor].
Qed.

Fixpoint all_ascii (l : list expr) : Prop := match l with [] => True | x :: r => ascii_expr x /\ all_ascii r end.
Lemma all_ascii_fix : forall l, all_ascii l = (fix all l := match l with [] => True | x :: r => ascii_expr x /\ all r end) l.
Proof. reflexivity. Qed.
Lemma all_ascii_in : forall l, all_ascii l <-> forall x, In x l -> ascii_expr x.
Proof.
  induction l as [|x l IH]; cbn [all_ascii In]; [split; [intros _ y []|auto]|]. rewrite IH. split; [intros [A B] y [<-|J]; auto|]. intro H. split; [apply H; now left|]. intros y J. apply H. now right.
Qed.
Lemma all_ok_map : forall (f : expr -> res str) (R : expr -> str -> Prop) l, (forall x, In x l -> exists h, f x = Ok h /\ R x h) -> exists hs, all_ok (map f l) = Ok hs /\ Forall2 R l hs.
Proof.
  induction l as [|x l IH]; intro H; [exists []; split; [reflexivity|constructor]|]. destruct (H x (or_introl eq_refl)) as (h & E & Q). destruct IH as (hs & E2 & F); [intros y J; apply H; now right|].
  exists (h :: hs). cbn [map all_ok]. rewrite E. cbn [bind]. rewrite E2. split; [reflexivity|now constructor].
Qed.
Section Html.
  Variable prefix : str.
  Hypothesis PO : forall c, In c prefix -> c <> 60%N /\ c <> 62%N.
  Lemma html_good : forall e, writable e -> ascii_expr e -> forall n al, exists h, html_expr prefix n al e = Ok h /\ good_html (shown n al e) h.
  Proof.
    intro e. induction e using expr_ind'; intros W A n al; cbn [html_expr shown].
    - (* name *) eexists. split; [reflexivity|]. set (pre := match prefix with [] => [] | _ => prefix ++ s2l "-" end).
      assert (NP : forall c, In c pre -> c <> 60%N /\ c <> 62%N) by (intros c J; unfold pre in J; destruct prefix; [contradiction|apply in_app_or in J; destruct J as [J|[<-|[]]]; [auto|split; discriminate]]).
      assert (WX : forall c, In c x -> word_char c) by (destruct x as [|d x]; [contradiction|]; destruct W as [L W]; intros c [<-|J]; [now left|auto]).
      assert (PX : forall c, In c x -> plain c) by (intros c J; apply WX in J; unfold word_char, letter in J; repeat split; lia).
      exists ([Tag (s2l "a" ++ s2l " " ++ (s2l "href='#" ++ pre ++ s2l "grammar-production-" ++ x ++ s2l "'"))] ++ map Chr x ++ [Tag (s2l "/a")]). split; [|split].
      + replace (s2l "<a href='#" ++ pre ++ s2l "grammar-production-" ++ x ++ s2l "'>" ++ x ++ s2l "</a>")
          with ((60%N :: (s2l "a" ++ s2l " " ++ (s2l "href='#" ++ pre ++ s2l "grammar-production-" ++ x ++ s2l "'")) ++ [62%N]) ++ x ++ s2l "</a>").
        * apply items_two; [|apply items_two; [now apply items_plain|reflexivity]]. apply items_start. intros c J. rewrite !in_app_iff in J.
          assert (Z : forall l, forallb (fun c => negb (c =? 60)%N && negb (c =? 62)%N) l = true -> In c l -> c <> 60%N /\ c <> 62%N).
          { intros l E K. rewrite forallb_forall in E. specialize (E c K). apply andb_true_iff in E. destruct E as [E1 E2]. apply negb_true_iff, N.eqb_neq in E1, E2. auto. }
          destruct J as [J|[J|[J|[J|[J|[J|J]]]]]]; [revert J; apply Z; reflexivity|revert J; apply Z; reflexivity|revert J; apply Z; reflexivity|now apply NP|revert J; apply Z; reflexivity| |revert J; apply Z; reflexivity].
          apply PX in J. destruct J as (B & _ & C). auto.
        * cbn. f_equal. rewrite <- !app_assoc. cbn. rewrite <- !app_assoc. reflexivity.
      + rewrite !tags_app, tags_chars. cbn [tags flat_map app]. apply (el_cons (s2l "a") (s2l " " ++ (s2l "href='#" ++ pre ++ s2l "grammar-production-" ++ x ++ s2l "'")) []); [now left|right; eexists; reflexivity|constructor].
      + rewrite !shown_app, shown_chars. cbn [shown_text flat_map app]. rewrite app_nil_r. apply piece_tok. destruct x as [|c x]; [contradiction|]. destruct W as [L W]. now constructor.
    - (* literal *) rewrite escape_ok by exact A. cbn [bind]. eexists. split; [reflexivity|]. unfold str_in_char. destruct (existsb (N.eqb 39) x) eqn:E.
      + assert (J : In 39%N x) by (apply existsb_exists in E; destruct E as (c & J & K); apply N.eqb_eq in K; now subst c). destruct W as [W|W]; [contradiction|].
        apply (good_code (BLit x) x [34%N] [34%N] (s2l "class=" ++ [34%N] ++ s2l "grammar-literal" ++ [34%N])); [now apply tt_double|intros c [<-|[<-|[]]]; repeat split; discriminate|].
        intros c J2. vm_compute in J2. repeat destruct J2 as [<-|J2]; try contradiction; split; discriminate.
      + assert (J : ~ In 39%N x) by (intro J; apply not_true_iff_false in E; apply E, existsb_exists; exists 39%N; split; [exact J|reflexivity]).
        apply (good_code (BLit x) x [39%N] [39%N] (s2l "class='grammar-literal'")); [now apply tt_single|intros c [<-|[<-|[]]]; repeat split; discriminate|].
        intros c J2. vm_compute in J2. repeat destruct J2 as [<-|J2]; try contradiction; split; discriminate.
    - (* class *) rewrite escape_ok by exact A. cbn [bind]. eexists. split; [reflexivity|].
      apply (good_code (BSet x) x [91%N] [93%N] (s2l "class='grammar-chars'")); [now apply tt_set|intros c [<-|[<-|[]]]; repeat split; discriminate|].
      intros c J2. vm_compute in J2. repeat destruct J2 as [<-|J2]; try contradiction; split; discriminate.
    - (* hash *) rewrite escape_ok by exact A. cbn [bind]. eexists. split; [reflexivity|].
      replace (s2l "<code class='grammar-char-escape'>" ++ flat_map escape_char x ++ s2l "</code>") with ([] ++ (60%N :: (s2l "code " ++ s2l "class='grammar-char-escape'") ++ [62%N]) ++ flat_map escape_char x ++ s2l "</code>" ++ []) by (cbn [app]; rewrite app_nil_r; reflexivity).
      destruct W as (y & -> & N & W). apply (good_code (BHash (35%N :: y)) (35%N :: y) [] []); [cbn [app]; rewrite app_nil_r; now apply tt_hash|intros c []|].
      intros c J2. vm_compute in J2. repeat destruct J2 as [<-|J2]; try contradiction; split; discriminate.
    - (* operator *) destruct W as [J W]. destruct (IHe W A true false) as (h & E & G). rewrite E. cbn [bind]. eexists. split; [reflexivity|]. destruct J as [<-|[<-|[<-|[]]]].
      + apply (good_op _ _ _ _ [Chr 63%N] G); [cbn; tauto|reflexivity|constructor|reflexivity].
      + apply (good_op _ _ _ _ [Tag (s2l "code class='grammar-star'"); Chr 42%N; Tag (s2l "/code")] G); [cbn; tauto|reflexivity| |reflexivity].
        apply (el_cons (s2l "code") (s2l " class='grammar-star'") []); [now right|right; eexists; reflexivity|constructor].
      + apply (good_op _ _ _ _ [Tag (s2l "code class='grammar-plus'"); Chr 43%N; Tag (s2l "/code")] G); [cbn; tauto|reflexivity| |reflexivity].
        apply (el_cons (s2l "code") (s2l " class='grammar-plus'") []); [now right|right; eexists; reflexivity|constructor].
    - (* difference *) destruct W as [W1 W2]. destruct A as [A1 A2]. destruct (IHe1 W1 A1 false false) as (h1 & E1 & (i1 & I1 & T1 & P1)). destruct (IHe2 W2 A2 false false) as (h2 & E2 & (i2 & I2 & T2 & P2)). rewrite E1. cbn [bind]. rewrite E2. cbn [bind]. eexists. split; [reflexivity|].
      exists (i1 ++ [Tag (s2l "code class='grammar-diff'"); Chr 45%N; Tag (s2l "/code")] ++ i2). split; [apply items_two; [exact I1|]; now apply items_two|]. rewrite !tags_app, !shown_app. split.
      + apply elements_app; [exact T1|]. apply elements_app; [|exact T2]. apply (el_cons (s2l "code") (s2l " class='grammar-diff'") []); [now right|right; eexists; reflexivity|constructor].
      + apply piece_app; [exact P1| |discriminate|intros c r X; injection X as <- _; unfold word_char, letter; lia]. cbn [shown_text flat_map app]. apply piece_punct; [cbn; tauto|exact P2].
    - (* sequence *) destruct W as [_ W]. rewrite <- all_writable_fix in W. rewrite all_writable_in in W. cbn in A. rewrite <- all_ascii_fix in A. rewrite all_ascii_in in A. rewrite Forall_forall in H. destruct (n && negb al).
      + destruct (all_ok_map (html_expr prefix false false) (fun e h => good_html (shown false false e) h) l) as (hs & E & F); [intros x J; now apply H; auto|]. rewrite E. cbn [bind]. eexists. split; [reflexivity|]. apply good_paren, join_seq, F.
      + destruct (all_ok_map (html_expr prefix true false) (fun e h => good_html (shown true false e) h) l) as (hs & E & F); [intros x J; now apply H; auto|]. rewrite E. cbn [bind]. eexists. split; [reflexivity|]. apply join_seq, F.
    - (* alternatives *) destruct W as [_ W]. rewrite <- all_writable_fix in W. rewrite all_writable_in in W. cbn in A. rewrite <- all_ascii_fix in A. rewrite all_ascii_in in A. rewrite Forall_forall in H.
      destruct (all_ok_map (html_expr prefix true true) (fun e h => good_html (shown true true e) h) l) as (hs & E & F); [intros x J; now apply H; auto|]. rewrite E. cbn [bind]. eexists. split; [reflexivity|]. apply join_bars in F. destruct n; [now apply good_paren|exact F].
  Qed.
End Html.

(** ** Reading the shown text *)
Lemma leaf_prim : forall e n al, is_leaf e -> g_prim e (shown n al e).
Proof. intros [] n al L; try contradiction; repeat constructor. Qed.
Lemma items_map : forall f l, l <> [] -> (forall x, In x l -> g_diff x (f x)) -> g_items l (flat_map f l).
Proof.
  induction l as [|x l IH]; intros N H; [congruence|]. destruct l as [|y l].
  - cbn. rewrite app_nil_r. constructor. apply H. now left.
  - change (flat_map f (x :: y :: l)) with (f x ++ flat_map f (y :: l)). apply gi_more; [apply H; now left|]. apply IH; [discriminate|]. intros z J. apply H. now right.
Qed.
Lemma bars_map : forall f l, (forall x, In x l -> g_seq x (f x)) -> g_bars l (flat_map (fun x => BPunct 124 :: f x) l).
Proof.
  induction l as [|x l IH]; intro H; [constructor|]. cbn [flat_map]. rewrite <- app_comm_cons. apply gb_cons; [apply H; now left|]. apply IH. intros z J. apply H. now right.
Qed.
Definition no_group (e : expr) : Prop := match e with ESeq _ | EAlt _ => False | _ => True end.
Definition no_oper (e : expr) : Prop := match e with EPost _ _ | EDiff _ _ => False | _ => True end.
Lemma all_in : forall (P : expr -> Prop) l, (fix all l := match l with [] => True | x :: r => P x /\ all r end) l -> forall x, In x l -> P x.
Proof. induction l as [|y l IH]; intros H x J; [contradiction|]. destruct H as [A B]. destruct J as [<-|J]; auto. Qed.
Lemma faithful_reads : forall e, writable e ->
  (faithful true false e -> (no_oper e -> g_prim e (shown true false e)) /\ g_diff e (shown true false e)) /\
  (faithful false false e -> no_group e -> g_diff e (shown false false e) /\ (forall c a, e = EPost c a -> g_post e (shown false false e))) /\
  (faithful true true e -> e <> ESeq [] -> g_seq e (shown true true e)) /\
  (faithful false false e -> g_alt e (shown false false e)).
Proof.
  intro e. induction e using expr_ind'; intro W.
  1-4: repeat split; intros; try discriminate; cbn [shown]; repeat constructor.
  - (* operator *) destruct W as [J W]. destruct (IHe W) as (H1 & _). clear IHe.
    assert (G : forall n al, faithful n al (EPost c e) -> g_post (EPost c e) (shown n al (EPost c e))).
    { intros n al F. cbn [shown]. cbn in F. apply go_op; [exact J|]. destruct e; try contradiction; apply H1; auto; exact Logic.I. }
    split; [intro F; split; [intros []|constructor; now apply (G true false)]|]. split; [intros F _; split; [constructor; now apply (G false false)|intros; now apply (G false false)]|].
    split; [intros F _; apply gs_one, gi_one, gd_post; now apply (G true true)|intro F; apply ga_one, gs_one, gi_one, gd_post; now apply (G false false)].
  - (* difference *) destruct W as [W1 W2]. destruct (IHe1 W1) as (_ & H1 & _).
    assert (G : forall n al, faithful n al (EDiff e1 e2) -> g_diff (EDiff e1 e2) (shown n al (EDiff e1 e2))).
    { intros n al [L2 F]. cbn [shown]. apply gd_diff; [|now apply leaf_prim]. destruct F as [L1|(c & x & -> & F)]; [constructor; now apply leaf_prim|]. exact (proj2 (H1 F Logic.I) c x eq_refl). }
    split; [intro F; split; [intros []|now apply (G true false)]|]. split; [intros F _; split; [now apply (G false false)|discriminate]|].
    split; [intros F _; apply gs_one, gi_one; now apply (G true true)|intro F; apply ga_one, gs_one, gi_one; now apply (G false false)].
  - (* sequence *) destruct W as [NL W]. rewrite <- all_writable_fix in W. rewrite all_writable_in in W. rewrite Forall_forall in H.
    assert (IN : forall f, (forall x, In x l -> g_diff x (f x)) -> l = [] \/ g_seq (ESeq l) (flat_map f l)).
    { intros f K. destruct l as [|a [|b l]]; [now left|cbn in NL; lia|]. right. apply gs_many, items_map; [discriminate|exact K]. }
    assert (T1 : faithful true false (ESeq l) -> forall x, In x l -> g_diff x (shown false false x)).
    { intros F x J. cbn in F. pose proof (all_in (fun x => match x with ESeq _ | EAlt _ => False | _ => faithful false false x end) l F x J) as FX. cbv beta in FX.
      destruct (H x J (W x J)) as (_ & H2 & _). destruct x; try contradiction; apply H2; auto; exact Logic.I. }
    assert (T2 : forall n al, n && negb al = false -> faithful n al (ESeq l) -> forall x, In x l -> g_diff x (shown true false x)).
    { intros n al E F x J. cbn in F. rewrite E in F. pose proof (all_in (faithful true false) l F x J) as FX. apply (H x J (W x J)), FX. }
    assert (P : faithful true false (ESeq l) -> g_prim (ESeq l) (shown true false (ESeq l))).
    { intro F. cbn [shown andb negb]. apply gp_group. destruct (IN _ (T1 F)) as [->|G]; [exact ga_empty|now apply ga_one]. }
    split; [intro F; split; [intros _; now apply P|do 2 constructor; now apply P]|]. split; [intros _ []|]. split.
    + intros F NE. cbn [shown andb negb]. destruct (IN _ (T2 true true eq_refl F)) as [->|G]; [congruence|exact G].
    + intro F. cbn [shown andb negb]. destruct (IN _ (T2 false false eq_refl F)) as [->|G]; [exact ga_empty|now apply ga_one].
  - (* choice *) destruct W as [NL W]. rewrite <- all_writable_fix in W. rewrite all_writable_in in W. rewrite Forall_forall in H.
    assert (G : forall n al, faithful n al (EAlt l) -> g_alt (EAlt l) (tl (flat_map (fun a => BPunct 124 :: shown true true a) l))).
    { intros n al [F NE]. destruct l as [|a [|b l]]; [cbn in NL; lia|cbn in NL; lia|].
      assert (B : g_bars (b :: l) (flat_map (fun a => BPunct 124 :: shown true true a) (b :: l))).
      { apply bars_map. intros x J. apply (H x (or_intror J) (W x (or_intror J))); [exact (all_in (faithful true true) (a :: b :: l) F x (or_intror J))|]. intros ->. now apply NE. }
      change (tl (flat_map (fun a => BPunct 124 :: shown true true a) (a :: b :: l))) with (shown true true a ++ flat_map (fun a => BPunct 124 :: shown true true a) (b :: l)).
      assert (FA : faithful true true a) by exact (proj1 F). destruct (H a (or_introl eq_refl) (W a (or_introl eq_refl))) as (_ & _ & H3 & _).
      assert (D : a = ESeq [] \/ a <> ESeq []) by (destruct a as [| | | | | |[|]|]; (now left) || (right; discriminate)). destruct D as [->|D]; [now apply ga_first_empty|]. apply ga_many; [now apply H3|exact B]. }
    assert (P : forall al, faithful true al (EAlt l) -> g_prim (EAlt l) (shown true al (EAlt l))) by (intros al F; cbn [shown]; apply gp_group; exact (G true al F)).
    split; [intro F; split; [intros _; now apply P|do 2 constructor; now apply P]|]. split; [intros _ []|]. split; [intros F _; do 4 constructor; now apply P|exact (G false false)].
Qed.
Lemma shown_nonempty : forall x al, writable x -> al = false -> shown true al x <> [].
Proof.
  intros x al W ->. destruct x; cbn [shown andb negb]; try discriminate; intro E; apply app_eq_nil in E; destruct E; discriminate.
Qed.
Lemma shown_top : forall e, writable e -> shown false false e = [] -> e = ESeq [].
Proof.
  intros e W E. destruct e as [x|x|x|x|c a|a b|l|l]; cbn [shown andb negb] in E; try discriminate; try (apply app_eq_nil in E; destruct E; discriminate).
  - destruct l as [|x l]; [reflexivity|]. cbn [flat_map] in E. apply app_eq_nil in E. destruct E as [E _]. exfalso. destruct W as [_ [W _]]. now apply (shown_nonempty x false W eq_refl).
  - destruct W as [NL _]. destruct l as [|a [|b l]]; [cbn in NL; lia|cbn in NL; lia|]. cbn in E. apply app_eq_nil in E. destruct E; discriminate.
Qed.
Theorem html_shows : forall prefix e, (forall c, In c prefix -> c <> 60%N /\ c <> 62%N) -> writable e -> ascii_expr e ->
  exists h its ts, html_expr prefix false false e = Ok h /\ html_items MText h = Some its /\ elements (tags its) /\
    Spelled ts (shown_text its) /\ marks e = filter (fun t => negb (grouping t)) ts /\ (faithful false false e -> g_alt e ts) /\ (ts = [] -> e = ESeq []).
Proof.
  intros prefix e PO W A. destruct (html_good prefix PO e W A false false) as (h & E & (its & I & T & P)). exists h, its, (shown false false e).
  split; [exact E|]. split; [exact I|]. split; [exact T|]. split.
  - apply piece_spelled; [exact P|]. intro N. pose proof (shown_top e W N) as X. subst e. cbn in E. injection E as <-. cbn in I. injection I as <-. reflexivity.
  - split; [symmetry; exact (shown_marks e W false false)|]. split; [apply (faithful_reads e W)|exact (shown_top e W)].
Qed.
(** ** Bytes that are not ASCII *)
Lemma all_ok_cases : forall (f : expr -> res str) l, (forall x, In x l -> (exists h, f x = Ok h) /\ ascii_expr x \/ f x = Err UnicodeDecodeError /\ ~ ascii_expr x) ->
  (exists hs, all_ok (map f l) = Ok hs) /\ all_ascii l \/ all_ok (map f l) = Err UnicodeDecodeError /\ ~ all_ascii l.
Proof.
  induction l as [|x l IH]; intro H; [left; split; [now exists []|exact Logic.I]|]. cbn [map all_ok all_ascii]. destruct (H x (or_introl eq_refl)) as [[(h & E) A]|[E A]]; rewrite E; cbn [bind]; [|right; tauto].
  destruct IH as [[(hs & E2) A2]|[E2 A2]]; [intros y J; apply H; now right| |]; rewrite E2; cbn [bind]; [left; split; [eauto|auto]|right; tauto].
Qed.
Theorem html_ascii : forall prefix e n al, (exists h, html_expr prefix n al e = Ok h) /\ ascii_expr e \/ html_expr prefix n al e = Err UnicodeDecodeError /\ ~ ascii_expr e.
Proof.
  intros prefix e. assert (ES : forall x, (forall c, In c x -> (c < 128)%N) \/ ~ (forall c, In c x -> (c < 128)%N)).
  { induction x as [|c x IH]; [left; intros c []|]. destruct (N.ltb_spec c 128); [|right; intro K; specialize (K c (or_introl eq_refl)); lia]. destruct IH as [A|A]; [left; intros d [<-|J]; auto|right; intro K; apply A; intros d J; apply K; now right]. }
  assert (EE : forall x f, (exists h, (do y <- escape x; Ok (f y : str)) = Ok h) /\ (forall c, In c x -> (c < 128)%N) \/ (do y <- escape x; Ok (f y : str)) = Err UnicodeDecodeError /\ ~ (forall c, In c x -> (c < 128)%N)).
  { intros x f. destruct (ES x) as [A|A]; [left; rewrite (escape_ok x A); split; [eexists; reflexivity|exact A]|right; rewrite (escape_err x A); split; [reflexivity|exact A]]. }
  induction e using expr_ind'; intros n al; cbn [html_expr ascii_expr].
  - left. split; [eauto|exact Logic.I].
  - exact (EE x (fun h => if str_in_char 39 x then _ else _)).
  - exact (EE x _).
  - exact (EE x _).
  - destruct (IHe true false) as [[(h & E) A]|[E A]]; rewrite E; cbn [bind]; [left|right]; eauto.
  - destruct (IHe1 false false) as [[(h & E) A]|[E A]]; rewrite E; cbn [bind]; [|right; tauto]. destruct (IHe2 false false) as [[(h2 & E2) A2]|[E2 A2]]; rewrite E2; cbn [bind]; [left; eauto|right; tauto].
  - rewrite <- all_ascii_fix. rewrite Forall_forall in H. destruct (n && negb al).
    + destruct (all_ok_cases (html_expr prefix false false) l) as [[(hs & E) A]|[E A]]; [intros x J; now apply H| |]; rewrite E; cbn [bind]; [left|right]; eauto.
    + destruct (all_ok_cases (html_expr prefix true false) l) as [[(hs & E) A]|[E A]]; [intros x J; now apply H| |]; rewrite E; cbn [bind]; [left|right]; eauto.
  - rewrite <- all_ascii_fix. rewrite Forall_forall in H.
    destruct (all_ok_cases (html_expr prefix true true) l) as [[(hs & E) A]|[E A]]; [intros x J; now apply H| |]; rewrite E; cbn [bind]; [left|right]; eauto.
Qed.

(** ** Outcomes of a file *)
Lemma split1s_err : forall s sep x, split1s s sep = Err x -> x = ValueError.
Proof.
  induction s as [|c s IH]; intros sep x E; cbn [split1s] in E; destruct (startswith _ sep); try discriminate; [now injection E|].
  destruct (split1s s sep) as [[a b]|y] eqn:D; cbn [bind] in E; [discriminate|]. injection E as <-. exact (IH _ _ D).
Qed.
Lemma rows_total : forall prefix rs b numbers error,
  match rows_go prefix b numbers error rs with
  | Ok rows => length rows = length (filter (fun r => if str_eq_dec r (s2l "@terminals") then false else true) rs)
  | Err x => In x [AssertionError; ValueError; IndexError; AttributeError; UnboundLocalError; SyntaxError; TypeError; UnicodeDecodeError]
  end.
Proof.
  intros prefix. induction rs as [|r rs IH]; intros b numbers error; [reflexivity|]. cbn [rows_go filter]. destruct (str_eq_dec r (s2l "@terminals")); [apply IH|].
  destruct (rule_parts r) as [[[num sym] e]|x] eqn:E; cbn [bind].
  - destruct e as [e|]; [|cbn; tauto]. pose proof (html_ascii prefix e false false) as [[(h & H) _]|[H _]]; rewrite H; cbn [bind]; [|cbn; tauto].
    destruct (in_dec str_eq_dec num numbers).
    + specialize (IH b numbers (error + 1)%Z). destruct (rows_go prefix b numbers (error + 1)%Z rs); cbn [bind]; [cbn [length]; now rewrite IH|exact IH].
    + specialize (IH b (num :: numbers) error). destruct (rows_go prefix b (num :: numbers) error rs); cbn [bind]; [cbn [length]; now rewrite IH|exact IH].
  - unfold rule_parts in E. destruct (partition r 93) as [[[|c a] f] r1]; [injection E as <-; cbn; tauto|]. destruct f; [|injection E as <-; cbn; tauto].
    destruct (split1s r1 (s2l "::=")) as [[u v]|y] eqn:D; cbn [bind fst snd] in E; [|injection E as <-; rewrite (split1s_err _ _ _ D); cbn; tauto].
    pose proof (ebnf_good v) as G. destruct (ebnf v) as [[e w]|y]; cbn [bind] in E; [discriminate|]. injection E as <-. cbn in G. unfold parse_error in G. cbn in *. tauto.
Qed.
