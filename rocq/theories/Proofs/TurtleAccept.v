(** Every text of a document in the strict reading is parsed into that document (C82). *)
From Verif Require Import Model.Py Model.Terms Model.Codec Model.NTriples Model.TurtleTree Model.Turtle Model.TurtleParse
  Spec.CodecSpec Spec.TurtleSpec Spec.TurtleTextSpec Proofs.CodecLemmas Proofs.CurieLemmas Proofs.TurtleScan Proofs.TurtleTok Proofs.TurtleStr.
Open Scope N_scope.

(** the result, unless the fuel runs out *)
Definition runs {A} (x : res A) (v : A) : Prop := x = Err OutOfFuel \/ x = Ok v.
Lemma runs_ok : forall A (v : A), runs (Ok v) v.
Proof. intros. now right. Qed.
Lemma runs_bind : forall A B (x : res A) (v : A) (f : A -> res B) u, runs x v -> runs (f v) u -> runs (bind x f) u.
Proof. intros A B x v f u [->| ->] R; [now left|exact R]. Qed.

(** ** How texts start *)
Definition starts (bad : list char) (s : str) : Prop := exists c r, s = c :: r /\ is_tws c = false /\ ~ In c bad.
Definition objbad : list char := [35; 41; 44; 59; 64; 93; 94].
Lemma starts_solid : forall bad s, In 35 bad -> starts bad s -> solid s.
Proof. intros bad s J (c & r & -> & W & N). exists c, r. repeat split; auto. intros ->. auto. Qed.
Lemma starts_app : forall bad s k, starts bad s -> starts bad (s ++ k).
Proof. intros bad s k (c & r & -> & W & N). exists c, (r ++ k). auto. Qed.
Lemma starts_c : forall (bad : list char) c r, is_tws c = false -> existsb (N.eqb c) bad = false -> starts bad (c :: r).
Proof.
  intros bad c r W N. exists c, r. repeat split; auto. intro J.
  assert (X : existsb (N.eqb c) bad = true) by (apply existsb_exists; exists c; split; [auto|apply N.eqb_refl]). congruence.
Qed.
Lemma base_starts : forall c r, pn_base c -> starts (46 :: objbad) (c :: r).
Proof.
  intros c r B. exists c, r. split; auto. split; [|cbn; cls; lia]. apply (iff_false _ _ (is_tws_iff c)). cls. lia.
Qed.
Lemma weaken : forall s, starts (46 :: objbad) s -> starts objbad s.
Proof. intros s (c & r & -> & W & N). exists c, r. repeat split; auto. intro J. apply N. now right. Qed.
Lemma iri_starts : forall i s, iri_text i s -> starts (46 :: objbad) s.
Proof.
  intros i s [b U|ns ln P L]; [now apply starts_c|]. destruct P as [->|(c & r & -> & B & _)]; [now apply starts_c|]. cbn [app]. now apply base_starts.
Qed.
Lemma verb_starts : forall v s, verb_text v s -> starts (46 :: objbad) s.
Proof. intros v s [|i t I]; [now apply starts_c|now apply iri_starts in I]. Qed.
Lemma lit_starts : forall g x s, lit_text g x s -> starts objbad s.
Proof.
  assert (Z : forall b s, string_text b s -> starts objbad s).
  { intros b s S. destruct (string_head b s S) as (q & r & -> & Q & _). destruct Q; subst; now apply starts_c. }
  assert (D : forall d k, digits d -> d <> [] -> starts objbad (d ++ k)).
  { intros [|c d] k D N; [congruence|]. inversion D as [|? ? C _]; subst. exists c, (d ++ k). split; auto.
    split; [apply (iff_false _ _ (is_tws_iff c))|]; cbn; cls; lia. }
  assert (G : forall sg k, sign sg -> starts objbad k -> starts objbad (sg ++ k)).
  { intros sg k [->|[->| ->]] H; auto; now apply starts_c. }
  assert (E : forall d f k, digits d -> starts objbad ((d ++ [46] ++ f) ++ k)).
  { intros [|c d] f k H; [now apply starts_c|]. rewrite <- app_assoc. apply D; auto. discriminate. }
  intros g x s L. destruct L as [b s S|b s w tag S _ _|b s w w' i t S _ _ _|k s T|s [->| ->]].
  - eauto.
  - apply starts_app. eauto.
  - apply starts_app. eauto.
  - destruct k; cbn [num_text] in T.
    + destruct T as (sg & d & -> & SG & DG & N). apply G; auto. rewrite <- (app_nil_r d). now apply D.
    + destruct T as (sg & d & f & -> & SG & DG & FG & N). apply G; auto. rewrite <- (app_nil_r (d ++ _)). now apply E.
    + destruct T as (sg & m & e & -> & SG & EX & [(d & f & -> & DG & FG & N)|(DG & N)]); apply G; auto.
  - now apply starts_c.
  - now apply starts_c.
Qed.
Lemma obj_starts : forall b o s, obj_text b o s -> starts objbad s.
Proof.
  intros b o s [i t I|t (c & r & -> & _)|w _|l w t _ _|p w t w' _ _ _|x t L]; try now apply starts_c.
  - now apply weaken, (iri_starts i).
  - now apply (lit_starts gap x).
Qed.
Lemma objs_starts : forall b o s, objs_text b o s -> starts objbad s.
Proof. intros b o s [x t T|x t w w' r t' T _ _ _]; [now apply (obj_starts b x)|]. now apply starts_app, (obj_starts b x). Qed.
Lemma items_starts : forall b o s, items_text b o s -> o <> ONil -> starts objbad s.
Proof.
  intros b o s [|x t w T _|x t w r t' T _ _ _] N; [congruence|..]; now apply starts_app, (obj_starts b x).
Qed.
Lemma pol_starts : forall b p s, pol_text b p s -> starts (46 :: objbad) s.
Proof. intros b p s T. induction T as [v s w os t V _ _|p s w _ IH _|v s w os t m p t2 V _ _ _ _ _]; apply starts_app; auto; now apply (verb_starts v). Qed.

(** ** What follows a term *)
Definition sfx (k : str) : Prop := forall c r, skip false k = c :: r -> c <> 64 /\ c <> 94.
Definition good (k : str) : Prop := fol k /\ sfx k.
Lemma gap_brk : forall w k, gap w -> w <> [] -> brk (w ++ k).
Proof.
  intros w k G N. right. destruct G as [|c s W _|x s _ _]; [congruence|..]; cbn [app]; eexists _, _; (split; [reflexivity|]); [now left|right; cbn; tauto].
Qed.
Lemma apart_good : forall w t k, apart true w t -> starts objbad t -> good (w ++ t ++ k).
Proof.
  intros w t k [G A] S. split.
  - left. destruct w as [|c w]; [|apply gap_brk; [auto|discriminate]]. destruct (A eq_refl) as [N|(c & r & -> & J)]; [congruence|].
    right. exists c, (r ++ k). split; auto. right. cbn in *. tauto.
  - intros c r E. rewrite skip_gap, skip_solid in E; auto; [|apply (starts_solid objbad); cbn; auto]. destruct S as (d & x & -> & _ & N).
    injection E as <- _. cbn in N. split; intros ->; tauto.
Qed.
Lemma skip_c : forall c r, is_tws c = false -> c <> 35 -> skip false (c :: r) = c :: r.
Proof. intros c r W C. cbn [skip]. rewrite W. now fals C. Qed.
Lemma gap_good : forall w c r, gap w -> In c [41; 93; 44; 59] -> good (w ++ c :: r).
Proof.
  intros w c r G J. split.
  - left. destruct w as [|d w]; [|apply gap_brk; [auto|discriminate]]. right. exists c, r. split; auto. right. cbn in *. tauto.
  - intros d x E. rewrite skip_gap, skip_c in E by (auto; cbn in J; decompose [or] J; subst; try discriminate; try reflexivity; tauto).
    injection E as <- _. cbn in J. decompose [or] J; subst; split; try discriminate; tauto.
Qed.
Lemma dot_good : forall w r, gap w -> (w <> [] \/ stops r) -> good (w ++ 46 :: r).
Proof.
  intros w r G A. split.
  - destruct w as [|d w]; [|left; apply gap_brk; [auto|discriminate]]. right. exists r. split; auto. apply stops_brk. destruct A; [congruence|auto].
  - intros d x E. rewrite skip_gap, skip_c in E by (auto; discriminate). injection E as <- _. split; discriminate.
Qed.
Lemma fol_noq : forall k, fol k -> noq 34 k /\ noq 39 k.
Proof.
  intros k F. split; intros c r ->; destruct F as [[|(d & x & E & J)]|(x & E & _)]; try discriminate; injection E as -> _; try discriminate;
    apply ender_not in J; tauto.
Qed.
Lemma brk_starts : forall w k, gap w -> w <> [] -> fol (w ++ k).
Proof. intros w k G N. left. now apply gap_brk. Qed.

(** ** Terms *)
Lemma p_tiri_gap : forall w s, gap w -> p_tiri (w ++ s) = p_tiri s.
Proof. intros w s G. unfold p_tiri. now rewrite skip_gap. Qed.
Lemma pn_head : forall ns x, pn_prefix ns -> exists c r, ns ++ 58 :: x = c :: r /\ (c = 58 \/ pn_base c).
Proof. intros ns x [->|(c & r & -> & B & _)]; cbn [app]; eauto. Qed.
Lemma p_tiri_ok : forall i s k, iri_text i s -> fol k -> p_tiri (s ++ k) = Some (i, k).
Proof.
  intros i s k I F. unfold p_tiri. rewrite skip_solid by (apply (starts_solid (46 :: objbad)); [cbn; tauto|now apply (iri_starts i)]).
  destruct I as [b U|ns ln P L].
  - cbn [app head_is tl]. change (60 =? 60) with true. cbv iota. rewrite <- app_assoc. cbn [app]. now rewrite lex_ref_ok.
  - destruct (pn_head ns (ln ++ k) P) as (c & r & E & C). assert (X : head_is 60 ((ns ++ 58 :: ln) ++ k) = false).
    { rewrite <- app_assoc. cbn [app]. rewrite E. cbn [head_is]. apply N.eqb_neq. cls. lia. }
    rewrite X, lex_pname_ok by auto. reflexivity.
Qed.
Lemma p_verb_gap : forall w s, gap w -> p_verb (w ++ s) = p_verb s.
Proof. intros w s G. unfold p_verb. now rewrite p_tiri_gap, skip_gap. Qed.
Lemma p_verb_ok : forall v s k, verb_text v s -> fol k -> p_verb (s ++ k) = Some (v, k).
Proof.
  intros v s k V F. unfold p_verb. destruct V as [|i s I].
  - cbn [app]. assert (E : p_tiri (97 :: k) = None).
    { unfold p_tiri. rewrite skip_c by (auto; discriminate). cbn [head_is]. change (97 =? 60) with false. cbv iota.
      change (97 :: k) with (97 :: [] ++ k). rewrite lex_pname_none; auto. discriminate. }
    rewrite E, skip_c by (auto; discriminate). reflexivity.
  - now rewrite (p_tiri_ok i).
Qed.
Lemma p_rdf_literal_ok : forall b sf s k, lit_text gap (TStr b sf) s -> good k ->
  exists q r, s = q :: r /\ (q = 34 \/ q = 39) /\ p_rdf_literal q (s ++ k) = Some (TStr b sf, k).
Proof.
  intros b sf s k L [F X]. inversion L as [b' x S|b' x w tag S W T|b' x w w' i t S W W' I|? ? ?|? ?]; subst.
  - destruct (string_head _ _ S) as (q & r & -> & Q & H). exists q, r. split; auto. split; auto. unfold p_rdf_literal.
    rewrite H by (apply fol_noq; auto). destruct (skip false k) as [|c y] eqn:E; [reflexivity|]. destruct (X _ _ E) as [X1 X2].
    cbn [head_is]. fals X1. destruct (startswith (c :: y) [94; 94]) eqn:Z; [|reflexivity]. apply startswith_spec in Z. destruct Z as [z Z].
    injection Z as -> _. congruence.
  - destruct (string_head _ _ S) as (q & r & -> & Q & H). exists q, (r ++ w ++ [64] ++ tag). split; auto. split; auto. unfold p_rdf_literal.
    replace (((q :: r) ++ w ++ [64] ++ tag) ++ k) with ((q :: r) ++ w ++ 64 :: tag ++ k) by now rewrite <- !app_assoc.
    rewrite H. 2-3: destruct w as [|c w]; [intros c y E; injection E as <- _; discriminate|apply fol_noq, brk_starts; [auto|discriminate]].
    rewrite skip_gap, skip_c by (auto; discriminate). cbn [head_is]. change (64 =? 64) with true. cbv iota. cbn [tl]. now rewrite lex_tag_ok.
  - destruct (string_head _ _ S) as (q & r & -> & Q & H). exists q, (r ++ w ++ [94; 94] ++ w' ++ t). split; auto. split; auto. unfold p_rdf_literal.
    replace (((q :: r) ++ w ++ [94; 94] ++ w' ++ t) ++ k) with ((q :: r) ++ w ++ 94 :: 94 :: w' ++ t ++ k) by now rewrite <- !app_assoc.
    rewrite H. 2-3: destruct w as [|c w]; [intros c y E; injection E as <- _; discriminate|apply fol_noq, brk_starts; [auto|discriminate]].
    rewrite skip_gap, skip_c by (auto; discriminate). cbn [head_is]. change (94 =? 64) with false. cbv iota.
    assert (Z : startswith (94 :: 94 :: w' ++ t ++ k) [94; 94] = true) by (apply startswith_spec; eexists; reflexivity).
    rewrite Z. cbn [skipn]. rewrite p_tiri_gap, (p_tiri_ok i) by auto. reflexivity.
Qed.
Lemma no_number : forall c r, In c [116; 102] -> lex_number (c :: r) = None.
Proof. intros c r [<-|[<-|[]]]; reflexivity. Qed.
Lemma p_obj_eq : forall n s, p_obj (S n) s =
  let s := skip false s in
  match s with
  | [] => Err LarkError
  | c :: r =>
      if c =? 60 then do x <- t_ok (p_tiri s) ; Ok (TIri (fst x), snd x)
      else if c =? 95 then
        match r with
        | d :: r' => if d =? 58 then do x <- t_ok (lex_blabel r') ; Ok (TLabel (c :: d :: fst x), snd x) else Err LarkError
        | [] => Err LarkError
        end
      else if c =? 40 then do x <- p_items n r ; Ok (TColl (fst x), snd x)
      else if c =? 91 then
        if head_is 93 (skip_tws r) then Ok (TAnon, tl (skip_tws r))
        else
          do x <- p_pol n r ;
          let t := skip false (snd x) in
          if head_is 93 t then Ok (TProps (fst x), tl t) else Err LarkError
      else if (c =? 34) || (c =? 39) then do x <- t_ok (p_rdf_literal c s) ; Ok (TLit (fst x), snd x)
      else
        match lex_pname s with
        | Some (tok, t) => Ok (TIri (TPn tok), t)
        | None =>
            match lex_number s with
            | Some (x, t) => Ok (TLit x, t)
            | None => do x <- t_ok (p_bool s) ; Ok (TLit (fst x), snd x)
            end
        end
  end.
Proof. reflexivity. Qed.
Lemma p_items_eq : forall n s, p_items (S n) s =
  let s := skip false s in
  if head_is 41 s then Ok (ONil, tl s)
  else do x <- p_obj n s ; do y <- p_items n (snd x) ; Ok (OCons (fst x) (fst y), snd y).
Proof. reflexivity. Qed.
Lemma p_objs_eq : forall n s, p_objs (S n) s =
  do x <- p_obj n s ;
  let t := skip false (snd x) in
  if head_is 44 t then do y <- p_objs n (tl t) ; Ok (OCons (fst x) (fst y), snd y)
  else Ok (OCons (fst x) ONil, snd x).
Proof. reflexivity. Qed.
Lemma p_pol_eq : forall n s, p_pol (S n) s =
  do v <- t_ok (p_verb s) ;
  do x <- p_objs n (snd v) ;
  do y <- p_more n (snd x) ;
  Ok (PCons (fst v) (fst x) (fst y), snd y).
Proof. reflexivity. Qed.
Lemma p_more_eq : forall n s, p_more (S n) s =
  let t := skip false s in
  if head_is 59 t then
    let t' := skip false (tl t) in
    if head_is 46 t' || head_is 93 t' || head_is 59 t' then p_more n (tl t) else p_pol n (tl t)
  else Ok (PNil, s).
Proof. reflexivity. Qed.
Lemma p_obj_gap : forall n w s, gap w -> p_obj n (w ++ s) = p_obj n s.
Proof. intros [|n] w s G; [reflexivity|]. rewrite !p_obj_eq. now rewrite skip_gap. Qed.
Lemma p_items_gap : forall n w s, gap w -> p_items n (w ++ s) = p_items n s.
Proof. intros [|n] w s G; [reflexivity|]. rewrite !p_items_eq. now rewrite skip_gap. Qed.
Lemma p_objs_gap : forall n w s, gap w -> p_objs n (w ++ s) = p_objs n s.
Proof. intros [|n] w s G; [reflexivity|]. rewrite !p_objs_eq. now rewrite p_obj_gap. Qed.
Lemma p_pol_gap : forall n w s, gap w -> p_pol n (w ++ s) = p_pol n s.
Proof. intros [|n] w s G; [reflexivity|]. rewrite !p_pol_eq. now rewrite p_verb_gap. Qed.
Lemma skip_starts : forall bad s k, In 35 bad -> starts bad s -> skip false (s ++ k) = s ++ k.
Proof. intros bad s k J S. apply skip_solid. eapply starts_solid; eauto. Qed.
Lemma starts_head : forall bad s k c, starts bad s -> In c bad -> head_is c (s ++ k) = false.
Proof. intros bad s k c (d & r & -> & _ & N) J. cbn [app head_is]. apply N.eqb_neq. intros ->. auto. Qed.

Lemma number_head : forall n s, num_text n s -> exists c r, s = c :: r /\ (c = 43 \/ c = 45 \/ c = 46 \/ digit10 c).
Proof.
  assert (D : forall d k, digits d -> d <> [] -> exists c r, d ++ k = c :: r /\ (c = 43 \/ c = 45 \/ c = 46 \/ digit10 c)).
  { intros [|c d] k H N; [congruence|]. inversion H; subst. exists c, (d ++ k). auto. }
  assert (E : forall d f k, digits d -> exists c r, (d ++ [46] ++ f) ++ k = c :: r /\ (c = 43 \/ c = 45 \/ c = 46 \/ digit10 c)).
  { intros [|c d] f k H; [exists 46, (f ++ k); auto|]. rewrite <- app_assoc. apply D; auto. discriminate. }
  assert (G : forall sg k, sign sg -> (exists c r, k = c :: r /\ (c = 43 \/ c = 45 \/ c = 46 \/ digit10 c)) ->
    exists c r, sg ++ k = c :: r /\ (c = 43 \/ c = 45 \/ c = 46 \/ digit10 c)).
  { intros sg k [->|[->| ->]] H; cbn [app]; eauto 6. }
  intros n s T. destruct n; cbn [num_text] in T.
  - destruct T as (sg & d & -> & SG & DG & N). apply G; auto. rewrite <- (app_nil_r d). now apply D.
  - destruct T as (sg & d & f & -> & SG & DG & FG & N). apply G; auto. rewrite <- (app_nil_r (d ++ _)). now apply E.
  - destruct T as (sg & m & e & -> & SG & EX & [(d & f & -> & DG & FG & N)|(DG & N)]); apply G; auto.
Qed.
Lemma starts_self : forall x k, startswith (x ++ k) x = true.
Proof. intros x k. apply startswith_spec. now exists k. Qed.
Lemma p_obj_lit : forall x s n k, lit_text gap x s -> good k -> p_obj (S n) (s ++ k) = Ok (TLit x, k).
Proof.
  intros x s n k L G. rewrite p_obj_eq. cbv zeta. rewrite (skip_starts objbad) by (cbn; auto; apply (lit_starts gap x); auto).
  destruct x as [b sf|m y|y].
  - destruct (p_rdf_literal_ok b sf s k L G) as (q & r & -> & Q & E). cbn [app] in *.
    assert (X : q <> 60 /\ q <> 95 /\ q <> 40 /\ q <> 91) by (destruct Q; subst; repeat split; discriminate).
    destruct X as (X1 & X2 & X3 & X4). fals X1. fals X2. fals X3. fals X4.
    assert (Y : (q =? 34) || (q =? 39) = true) by (rewrite orb_true_iff, !N.eqb_eq; exact Q). rewrite Y, E. reflexivity.
  - inversion L as [| | |? ? T|]; subst. destruct (number_head m s T) as (c & r & -> & C). assert (E := lex_number_ok m _ k T (proj1 G)). cbn [app] in *.
    assert (X : c <> 60 /\ c <> 95 /\ c <> 40 /\ c <> 91 /\ c <> 34 /\ c <> 39 /\ c <> 58 /\ ~ pn_base c) by (cls; lia).
    destruct X as (X1 & X2 & X3 & X4 & X5 & X6 & X7 & X8). fals X1. fals X2. fals X3. fals X4. fals X5. fals X6. cbn [orb].
    assert (Z : lex_pname (c :: r ++ k) = None). { unfold lex_pname. cbn [lex_ns]. fals X7. rewrite (iff_false _ _ (t_base_iff c)) by auto. reflexivity. }
    rewrite Z, E. reflexivity.
  - inversion L as [| | | |? T]; subst.
    assert (X : exists c r, s = c :: r /\ In c [116; 102] /\ Forall (fun x => pn_char x) r /\ c <> 58).
    { destruct T as [-> | ->]; eexists _, _; (split; [reflexivity|]); (split; [cbn; tauto|]); (split; [|discriminate]);
        repeat apply Forall_cons; try apply Forall_nil; apply t_char_iff; reflexivity. }
    destruct X as (c & r & E & J & F & C).
    assert (Y : c <> 60 /\ c <> 95 /\ c <> 40 /\ c <> 91 /\ c <> 34 /\ c <> 39) by (cbn in J; lia).
    destruct Y as (X1 & X2 & X3 & X4 & X5 & X6).
    assert (B : p_bool (s ++ k) = Some (TBool s, k)) by (destruct T as [-> | ->]; unfold p_bool; [|change (startswith (s2l "false" ++ k) (s2l "true")) with false; cbv iota];
      rewrite starts_self; reflexivity).
    rewrite E in *. cbn [app] in *. fals X1. fals X2. fals X3. fals X4. fals X5. fals X6. cbn [orb].
    rewrite lex_pname_none, no_number, B by (auto; apply (proj1 G)). reflexivity.
Qed.
Lemma p_obj_iri : forall i s n k, iri_text i s -> good k -> p_obj (S n) (s ++ k) = Ok (TIri i, k).
Proof.
  intros i s n k T G. assert (I := T). rewrite p_obj_eq. cbv zeta. rewrite (skip_starts (46 :: objbad)) by (cbn; auto; now apply (iri_starts i)).
  destruct T as [b U|ns ln P L].
  - cbn [app]. change (60 =? 60) with true. cbv iota. change (60 :: (b ++ [62]) ++ k) with (([60] ++ b ++ [62]) ++ k).
    rewrite (p_tiri_ok (TRef b)) by (auto; apply (proj1 G)). reflexivity.
  - assert (E := lex_pname_ok ns ln k P L (proj1 G)). destruct (pn_head ns (ln ++ k) P) as (c & r & H & C).
    rewrite <- app_assoc in *. cbn [app] in *. rewrite H in *.
    assert (X : c <> 60 /\ c <> 95 /\ c <> 40 /\ c <> 91 /\ c <> 34 /\ c <> 39) by (cls; lia).
    destruct X as (X1 & X2 & X3 & X4 & X5 & X6). fals X1. fals X2. fals X3. fals X4. fals X5. fals X6. cbn [orb]. rewrite E. reflexivity.
Qed.

(** ** Objects, lists and property lists *)
Definition semi_ok (k : str) : Prop := exists c r, skip false k = c :: r /\ In c [46; 93; 59].
Definition nocomma (k : str) : Prop := head_is 44 (skip false k) = false.
Lemma semi_nocomma : forall k, semi_ok k -> nocomma k.
Proof. intros k (c & r & E & J). unfold nocomma. rewrite E. cbn in *. apply N.eqb_neq. lia. Qed.
Lemma semis_shape : forall m, semis m -> exists w r, m = w ++ 59 :: r /\ gap w.
Proof. intros m [w w' G _|w x G _]; cbn [app]; eauto. Qed.
Lemma p_more_semis : forall m t2 k p k2, semis m -> starts (46 :: objbad) t2 -> (forall n, runs (p_pol n (t2 ++ k)) (p, k2)) ->
  forall n, runs (p_more n (m ++ t2 ++ k)) (p, k2).
Proof.
  intros m t2 k p k2 M S R. induction M as [w w' G G'|w m G M IH]; intros [|n]; try (now left); rewrite p_more_eq; cbv zeta;
    rewrite <- !app_assoc, skip_gap by auto; cbn [app]; rewrite skip_c by (auto; discriminate); cbn [head_is tl]; change (59 =? 59) with true; cbv iota.
  - rewrite skip_gap, (skip_starts (46 :: objbad)) by (cbn; auto).
    rewrite !(starts_head (46 :: objbad)) by (auto; cbn; tauto). cbn [orb]. rewrite p_pol_gap by auto. apply R.
  - destruct (semis_shape m M) as (x & r & E & GX). assert (Y : skip false (m ++ t2 ++ k) = 59 :: r ++ t2 ++ k).
    { rewrite E, <- app_assoc, skip_gap by auto. cbn [app]. now rewrite skip_c by (auto; discriminate). }
    rewrite Y. cbn [head_is]. change (59 =? 59) with true. rewrite !orb_true_r. apply IH.
Qed.

Definition PO (o : tobj) (s : str) : Prop := forall n k, good k -> runs (p_obj n (s ++ k)) (o, k).
Definition PI (l : tobjs) (s : str) : Prop := forall n k, runs (p_items n (s ++ 41 :: k)) (l, k).
Definition PL (l : tobjs) (s : str) : Prop := forall n k, good k -> nocomma k -> runs (p_objs n (s ++ k)) (l, k).
Definition PP (p : tpol) (s : str) : Prop := forall n k k2, good k -> semi_ok k -> (forall m, runs (p_more m k) (PNil, k2)) -> runs (p_pol n (s ++ k)) (p, k2).
Lemma p_obj_props : forall p w s w', gap w -> pol_text true p s -> PP p s -> gap w' -> forall n k, runs (p_obj n (([91] ++ w ++ s ++ w' ++ [93]) ++ k)) (TProps p, k).
Proof.
  intros p w s w' G T IH G' [|n] k; [now left|]. rewrite p_obj_eq. cbv zeta. cbn [app]. rewrite skip_c by (auto; discriminate).
  change (91 =? 60) with false. change (91 =? 95) with false. change (91 =? 40) with false. change (91 =? 91) with true. cbv iota.
  rewrite <- !app_assoc. cbn [app].
  assert (X : head_is 93 (skip_tws (w ++ s ++ w' ++ 93 :: k)) = false).
  { clear IH. induction G as [|c w W _ IHG|x w N _ IHG].
    - cbn [app]. apply pol_starts in T. destruct T as (c & r & -> & W & N). cbn [app skip_tws]. rewrite W. cbn [head_is].
      apply N.eqb_neq. intros ->. apply N. cbn. tauto.
    - cbn [app skip_tws]. apply is_tws_iff in W. now rewrite W.
    - reflexivity. }
  rewrite X, p_pol_gap by auto. eapply runs_bind.
  - apply (IH n (w' ++ 93 :: k) (w' ++ 93 :: k)).
    + apply gap_good; cbn; auto.
    + exists 93, k. rewrite skip_gap, skip_c by (auto; discriminate). split; auto. cbn. tauto.
    + intros [|m]; [now left|]. right. rewrite p_more_eq. cbv zeta. rewrite skip_gap, skip_c by (auto; discriminate). reflexivity.
  - cbn [fst snd]. rewrite skip_gap, skip_c by (auto; discriminate). apply runs_ok.
Qed.
Lemma all_ok : (forall o s, obj_text true o s -> PO o s) /\ (forall l s, items_text true l s -> PI l s) /\
  (forall l s, objs_text true l s -> PL l s) /\ (forall p s, pol_text true p s -> PP p s).
Proof.
  assert (H1 : forall i s, iri_text i s -> PO (TIri i) s).
  { intros i s I [|n] k G; [now left|]. right. now apply p_obj_iri. }
  assert (H2 : forall s, label s -> PO (TLabel s) s).
  { intros s (c & r & -> & C & F & N) [|n] k G; [now left|]. right. rewrite p_obj_eq. cbv zeta. cbn [app]. rewrite skip_c by (auto; discriminate).
    change (95 =? 60) with false. change (95 =? 95) with true. change (58 =? 58) with true. cbv iota.
    rewrite lex_blabel_ok by (auto; apply (proj1 G)). reflexivity. }
  assert (H3 : forall w, ws0 w -> PO TAnon ([91] ++ w ++ [93])).
  { intros w W [|n] k G; [now left|]. right. rewrite p_obj_eq. cbv zeta. cbn [app]. rewrite skip_c by (auto; discriminate).
    change (91 =? 60) with false. change (91 =? 95) with false. change (91 =? 40) with false. change (91 =? 91) with true. cbv iota.
    rewrite <- app_assoc, skip_tws_ws by auto. reflexivity. }
  assert (H4 : forall l w s, gap w -> items_text true l s -> PI l s -> PO (TColl l) ([40] ++ w ++ s ++ [41])).
  { intros l w s G _ IH [|n] k K; [now left|]. rewrite p_obj_eq. cbv zeta. cbn [app]. rewrite skip_c by (auto; discriminate).
    change (40 =? 60) with false. change (40 =? 95) with false. change (40 =? 40) with true. cbv iota.
    rewrite <- !app_assoc, p_items_gap by auto. eapply runs_bind; [apply IH|]. apply runs_ok. }
  assert (H5 : forall p w s w', gap w -> pol_text true p s -> PP p s -> gap w' -> PO (TProps p) ([91] ++ w ++ s ++ w' ++ [93])).
  { intros p w s w' G T IH G' n k _. now apply p_obj_props. }
  assert (H6 : forall x s, lit_text gap x s -> PO (TLit x) s).
  { intros x s L [|n] k G; [now left|]. right. now apply p_obj_lit. }
  assert (I1 : PI ONil []).
  { intros [|n] k; [now left|]. right. reflexivity. }
  assert (I2 : forall o s w, obj_text true o s -> PO o s -> gap w -> PI (OCons o ONil) (s ++ w)).
  { intros o s w T IH G [|n] k; [now left|]. rewrite p_items_eq. cbv zeta. rewrite <- app_assoc.
    assert (S := obj_starts _ _ _ T). rewrite (skip_starts objbad) by (cbn; auto). rewrite (starts_head objbad) by (auto; cbn; tauto).
    eapply runs_bind; [apply IH; apply gap_good; cbn; auto|]. cbn [snd]. eapply runs_bind.
    - rewrite p_items_gap by auto. apply (I1 n k).
    - apply runs_ok. }
  assert (I3 : forall o s w r t, obj_text true o s -> PO o s -> apart true w t -> items_text true r t -> PI r t -> r <> ONil -> PI (OCons o r) (s ++ w ++ t)).
  { intros o s w r t T IH A TI IHI NE [|n] k; [now left|]. rewrite p_items_eq. cbv zeta. rewrite <- !app_assoc.
    assert (S := obj_starts _ _ _ T). rewrite (skip_starts objbad) by (cbn; auto). rewrite (starts_head objbad) by (auto; cbn; tauto).
    eapply runs_bind; [apply IH; apply apart_good; auto; eapply items_starts; eauto|]. cbn [snd]. eapply runs_bind.
    - rewrite p_items_gap by (destruct A; auto). apply IHI.
    - apply runs_ok. }
  assert (L1 : forall o s, obj_text true o s -> PO o s -> PL (OCons o ONil) s).
  { intros o s T IH [|n] k G C; [now left|]. rewrite p_objs_eq. eapply runs_bind; [apply IH; auto|]. cbn [snd]. cbv zeta. rewrite C. apply runs_ok. }
  assert (L2 : forall o s w w' r t, obj_text true o s -> PO o s -> gap w -> gap w' -> objs_text true r t -> PL r t -> PL (OCons o r) (s ++ w ++ [44] ++ w' ++ t)).
  { intros o s w w' r t T IH G G' TL IHL [|n] k K C; [now left|]. rewrite p_objs_eq. rewrite <- !app_assoc. cbn [app].
    eapply runs_bind; [apply IH; apply gap_good; cbn; auto|]. cbn [snd]. cbv zeta. rewrite skip_gap, skip_c by (auto; discriminate).
    cbn [head_is tl]. change (44 =? 44) with true. cbv iota. eapply runs_bind.
    - rewrite p_objs_gap by auto. apply IHL; auto.
    - apply runs_ok. }
  assert (P1 : forall v s w os t, verb_text v s -> apart true w t -> objs_text true os t -> PL os t -> PP (PCons v os PNil) (s ++ w ++ t)).
  { intros v s w os t V A T IH [|n] k k2 G SK M; [now left|]. rewrite p_pol_eq. rewrite <- !app_assoc.
    rewrite (p_verb_ok v) by (auto; apply apart_good; auto; eapply objs_starts; eauto). cbn [t_ok bind snd]. eapply runs_bind.
    - rewrite p_objs_gap by (destruct A; auto). apply IH; auto. now apply semi_nocomma.
    - cbn [snd]. eapply runs_bind; [apply M|]. apply runs_ok. }
  assert (P2 : forall p s w, pol_text true p s -> PP p s -> gap w -> PP p (s ++ w ++ [59])).
  { intros p s w T IH G n k k2 K SK M. rewrite <- !app_assoc. cbn [app]. apply IH.
    - apply gap_good; cbn; auto.
    - exists 59, k. rewrite skip_gap, skip_c by (auto; discriminate). split; auto. cbn. tauto.
    - intros [|m]; [now left|]. rewrite p_more_eq. cbv zeta. rewrite skip_gap, skip_c by (auto; discriminate). cbn [head_is tl].
      change (59 =? 59) with true. cbv iota. destruct SK as (c & r & E & J). rewrite E. cbn [head_is].
      assert (X : (c =? 46) || (c =? 93) || (c =? 59) = true) by (rewrite !orb_true_iff, !N.eqb_eq; cbn in J; lia). rewrite X. apply M. }
  assert (P3 : forall v s w os t m p t2, verb_text v s -> apart true w t -> objs_text true os t -> PL os t -> semis m -> pol_text true p t2 -> PP p t2 ->
    PP (PCons v os p) (s ++ w ++ t ++ m ++ t2)).
  { intros v s w os t m p t2 V A T IH M TP IHP [|n] k k2 G SK MO; [now left|]. rewrite p_pol_eq. rewrite <- !app_assoc.
    rewrite (p_verb_ok v) by (auto; apply apart_good; auto; eapply objs_starts; eauto). cbn [t_ok bind snd].
    destruct (semis_shape m M) as (x & r & E & GX). eapply runs_bind.
    - rewrite p_objs_gap by (destruct A; auto). apply IH.
      + rewrite E, <- app_assoc. cbn [app]. apply gap_good; cbn; auto.
      + unfold nocomma. rewrite E, <- app_assoc. cbn [app]. rewrite skip_gap, skip_c by (auto; discriminate). reflexivity.
    - cbn [snd]. eapply runs_bind.
      + apply p_more_semis; [auto|eapply pol_starts; eauto|]. intro j. apply IHP; auto.
      + apply runs_ok. }
  repeat split; intros o s T.
  - now apply (obj_text_i true PO PI PL PP).
  - now apply (items_text_i true PO PI PL PP).
  - now apply (objs_text_i true PO PI PL PP).
  - now apply (pol_text_i true PO PI PL PP).
Qed.

(** ** Statements *)
Lemma p_end_ok : forall w k, gap w -> p_end (w ++ 46 :: k) = Some k.
Proof. intros w k G. unfold p_end. rewrite skip_gap, skip_c by (auto; discriminate). reflexivity. Qed.
Lemma p_ref_ok : forall w b k, gap w -> iri_text (TRef b) ([60] ++ b ++ [62]) -> p_ref (w ++ 60 :: b ++ 62 :: k) = Some (b, k).
Proof.
  intros w b k G I. unfold p_ref. rewrite skip_gap, skip_c by (auto; discriminate). cbn [head_is tl]. change (60 =? 60) with true. cbv iota.
  inversion I; subst; now apply lex_ref_ok.
Qed.
Lemma ns_ok : forall w1 ns k, gap w1 -> pn_prefix ns -> lex_ns (skip false (w1 ++ ns ++ 58 :: k)) = Some (ns, k).
Proof.
  intros w1 ns k G P. rewrite skip_gap by auto. assert (S : solid (ns ++ [58])).
  { apply (starts_solid (46 :: objbad)); [cbn; tauto|]. apply (iri_starts (TPn (ns ++ 58 :: []))). constructor; [auto|constructor]. }
  replace (ns ++ 58 :: k) with ((ns ++ [58]) ++ k) by now rewrite <- app_assoc. rewrite skip_solid by auto. rewrite <- app_assoc. now apply lex_ns_ok.
Qed.
Lemma p_prefix_ok : forall dot w1 ns w2 b w3 k, gap w1 -> pn_prefix ns -> gap w2 -> iri_text (TRef b) ([60] ++ b ++ [62]) -> gap w3 ->
  p_prefix dot (w1 ++ ns ++ 58 :: w2 ++ 60 :: b ++ 62 :: (if dot then w3 ++ 46 :: k else k)) = Some (SPrefix ns b, k).
Proof. intros dot w1 ns w2 b w3 k G P G2 I G3. unfold p_prefix. rewrite ns_ok, p_ref_ok by auto. destruct dot; [now rewrite p_end_ok|reflexivity]. Qed.
Lemma p_base_ok : forall dot w1 b w3 k, gap w1 -> iri_text (TRef b) ([60] ++ b ++ [62]) -> gap w3 ->
  p_base dot (w1 ++ 60 :: b ++ 62 :: (if dot then w3 ++ 46 :: k else k)) = Some (SBase b, k).
Proof. intros dot w1 b w3 k G I G3. unfold p_base. rewrite p_ref_ok by auto. destruct dot; [now rewrite p_end_ok|reflexivity]. Qed.
Lemma strict_case : forall k c, In k (s2l "PREFIXBASE") -> any_case true k c -> pn_char c /\ c <> 58 /\ c <> 95 /\ c <> 60 /\ c <> 40 /\ c <> 91 /\ is_tws c = false /\ c <> 35 /\ c <> 64.
Proof.
  intros k c J A. assert (X : TurtleTextSpec.letter k). { apply letter_iff. cbn in J. repeat (destruct J as [<-|J]; [reflexivity|]). destruct J. }
  assert (Y : 65 <= k <= 90). { cbn in J. lia. }
  assert (Z : TurtleTextSpec.letter c) by (unfold any_case in A; unfold TurtleTextSpec.letter, between in *; destruct A as [->|[->|[A _]]]; [lia|lia|discriminate]).
  assert (is_tws c = false) by (apply (iff_false _ _ (is_tws_iff c)); cls; lia). split; [left; left; left; exact Z|]. cls. repeat split; auto; lia.
Qed.
Lemma cases_loose : forall w k, Forall2 (any_case true) w k -> Forall2 (any_case false) w k.
Proof. induction 1; constructor; auto. now apply any_case_loose. Qed.
Lemma keyword_starts : forall w k, (forall x, In x w -> In x (s2l "PREFIXBASE")) -> w <> [] -> Forall2 (any_case true) w k ->
  forall x, fol x -> starts_subject (k ++ x) = false /\ solid k /\ startswith (k ++ x) (s2l "@prefix") = false /\ startswith (k ++ x) (s2l "@base") = false.
Proof.
  intros w k J NE F x X. destruct F as [|a c w k A F]; [congruence|]. destruct (strict_case a c (J a ltac:(now left)) A) as (C1 & C2 & C3 & C4 & C5 & C6 & C7 & C8 & C9).
  assert (R : Forall (fun x => pn_char x) k).
  { clear - J F. assert (J' : forall x, In x w -> In x (s2l "PREFIXBASE")) by (intros; apply J; now right). clear J.
    induction F as [|b d w k B _ IH]; constructor; [|apply IH; intros; apply J'; now right]. eapply strict_case; [apply J'; now left|eauto]. }
  split.
  - unfold starts_subject. cbn [app existsb head_is]. fals C4. fals C3. fals C5. fals C6. cbn [orb]. now rewrite lex_pname_none.
  - split; [now exists c, k|]. cbn [app]. change (s2l "@prefix") with (64 :: s2l "prefix"). change (s2l "@base") with (64 :: s2l "base").
    cbn [startswith]. split; apply andb_false_iff; left; apply N.eqb_neq; congruence.
Qed.
Lemma stmt_runs : forall x tight s, stmt_text true x tight s -> forall n k, (tight = true -> stops k) -> runs (p_tstmt n (s ++ k)) (x, k).
Proof.
  intros x tight s T n k K. unfold p_tstmt. cbv zeta.
  destruct T as [ns w1 w2 b w3 P G1 N1 G2 I G3|w1 b w3 G1 I G3|kw ns w1 w2 b KW P G1 N1 G2 I|kw w1 b KW G1 I|s t w p t2 w2 tight SF TO A TP G2 TI|q t w2 TO G2].
  - right. replace ((s2l "@prefix" ++ w1 ++ ns ++ [58] ++ w2 ++ [60] ++ b ++ [62] ++ w3 ++ [46]) ++ k)
      with (s2l "@prefix" ++ w1 ++ ns ++ 58 :: w2 ++ 60 :: b ++ 62 :: w3 ++ 46 :: k) by now rewrite <- !app_assoc.
    set (y := w1 ++ _). rewrite skip_solid by (eexists _, _; split; [reflexivity|split; [reflexivity|discriminate]]).
    change (starts_subject (s2l "@prefix" ++ y)) with false. cbv iota. unfold p_directive. rewrite starts_self.
    change (skipn 7 (s2l "@prefix" ++ y)) with y. subst y. rewrite (p_prefix_ok true) by auto. reflexivity.
  - right. replace ((s2l "@base" ++ w1 ++ [60] ++ b ++ [62] ++ w3 ++ [46]) ++ k)
      with (s2l "@base" ++ w1 ++ 60 :: b ++ 62 :: w3 ++ 46 :: k) by now rewrite <- !app_assoc.
    set (y := w1 ++ _). rewrite skip_solid by (eexists _, _; split; [reflexivity|split; [reflexivity|discriminate]]).
    change (starts_subject (s2l "@base" ++ y)) with false. cbv iota. unfold p_directive. rewrite starts_self.
    change (startswith (s2l "@base" ++ y) (s2l "@prefix")) with false. cbv iota.
    change (skipn 5 (s2l "@base" ++ y)) with y. subst y. rewrite (p_base_ok true) by auto. reflexivity.
  - right. replace ((kw ++ w1 ++ ns ++ [58] ++ w2 ++ [60] ++ b ++ [62]) ++ k)
      with (kw ++ w1 ++ ns ++ 58 :: w2 ++ 60 :: b ++ 62 :: k) by now rewrite <- !app_assoc.
    destruct (keyword_starts (s2l "PREFIX") kw) with (x := w1 ++ ns ++ 58 :: w2 ++ 60 :: b ++ 62 :: k) as (E1 & E2 & E3 & E4);
      [intros x J; cbn in *; tauto|discriminate|exact KW|apply brk_starts; auto|].
    rewrite skip_solid, E1 by auto. unfold p_directive. rewrite E3, E4, keyword_ok by (now apply cases_loose).
    rewrite (p_prefix_ok false w1 ns w2 b []) by (auto; constructor). reflexivity.
  - right. replace ((kw ++ w1 ++ [60] ++ b ++ [62]) ++ k) with (kw ++ w1 ++ 60 :: b ++ 62 :: k) by now rewrite <- !app_assoc.
    destruct (keyword_starts (s2l "BASE") kw) with (x := w1 ++ 60 :: b ++ 62 :: k) as (E1 & E2 & E3 & E4);
      [intros x J; cbn in *; tauto|discriminate|exact KW| |].
    { destruct w1 as [|c w1]; [|apply brk_starts; [auto|discriminate]]. left. right. eexists _, _. split; [reflexivity|]. right. cbn. tauto. }
    rewrite skip_solid, E1 by auto. unfold p_directive. rewrite E3, E4.
    assert (Z : keyword (s2l "PREFIX") (kw ++ w1 ++ 60 :: b ++ 62 :: k) = None).
    { inversion KW as [|? c ? kw' A F]; subst. cbn [app]. change (s2l "PREFIX") with (80 :: s2l "REFIX"). cbn [keyword].
      assert (X : same_letter 80 c = false); [|now rewrite X]. apply (iff_false _ _ (same_letter_iff 80 c)). change (any_case true 66 c) in A.
      unfold any_case in *. lia. }
    rewrite Z, keyword_ok by (now apply cases_loose).
    rewrite (p_base_ok false w1 b []) by (auto; constructor). reflexivity.
  - rewrite <- !app_assoc. cbn [app]. assert (S := obj_starts _ _ _ TO). rewrite (skip_starts objbad) by (cbn; auto).
    assert (GK : good (w2 ++ 46 :: k)) by (apply dot_good; auto; destruct (TI eq_refl); auto).
    assert (SS : starts_subject (t ++ w ++ t2 ++ w2 ++ 46 :: k) = true).
    { clear - TO SF A TP. assert (X : forall c r, In c [60; 95; 40; 91] -> starts_subject (c :: r) = true).
      { intros c r J. unfold starts_subject. cbn in J. repeat (destruct J as [<-|J]; [reflexivity|]). destruct J. }
      destruct TO as [i t I|t (c & r & -> & _)|v _|l v t _ _|p' v t v' _ _ _|x t L]; try (apply X; cbn; tauto).
      - destruct I as [b U|ns ln P L]; [apply X; cbn; tauto|]. unfold starts_subject.
        rewrite lex_pname_ok; [now rewrite orb_true_r|auto|auto|]. apply apart_good; auto. eapply weaken, pol_starts; eauto.
      - destruct SF. }
    rewrite SS. unfold p_triples. eapply runs_bind.
    + apply (proj1 all_ok s t TO). apply apart_good; auto. eapply weaken, pol_starts; eauto.
    + cbn [fst snd]. destruct A as [G A]. assert (SP := pol_starts _ _ _ TP).
      rewrite skip_gap, (skip_starts (46 :: objbad)), (starts_head (46 :: objbad)) by (cbn; auto).
      assert (R : runs (do y <- p_pol n (w ++ t2 ++ w2 ++ 46 :: k) ;
        do e <- t_ok (match p_end (snd y) with Some t' => Some (tt, t') | None => None end) ; Ok (STriples s (fst y), snd e)) (STriples s p, k)).
      { eapply runs_bind.
        - rewrite p_pol_gap by auto. apply (proj2 (proj2 (proj2 all_ok)) p t2 TP n (w2 ++ 46 :: k) (w2 ++ 46 :: k)); auto.
          + exists 46, k. rewrite skip_gap, skip_c by (auto; discriminate). split; auto. cbn. tauto.
          + intros [|m]; [now left|]. right. rewrite p_more_eq. cbv zeta. rewrite skip_gap, skip_c by (auto; discriminate). reflexivity.
        - cbn [fst snd]. rewrite p_end_ok by auto. apply runs_ok. }
      destruct s; try exact R. destruct SF.
  - rewrite <- !app_assoc. cbn [app]. assert (S := obj_starts _ _ _ TO). rewrite (skip_starts objbad) by (cbn; auto).
    inversion TO as [| | | |p' w t' w' G T' G'|]; subst.
    assert (SS : starts_subject (([91] ++ w ++ t' ++ w' ++ [93]) ++ w2 ++ 46 :: k) = true) by reflexivity.
    rewrite SS. unfold p_triples. eapply runs_bind.
    + apply (p_obj_props q w t' w'); auto. apply (proj2 (proj2 (proj2 all_ok))); auto.
    + cbn [fst snd]. rewrite skip_gap, skip_c by (auto; discriminate). apply runs_ok.
Qed.

(** ** Documents *)
Lemma stmt_solid : forall x tight s, stmt_text true x tight s -> solid s.
Proof.
  intros x tight s T. destruct T as [ns w1 w2 b w3 P G1 N1 G2 I G3|w1 b w3 G1 I G3|kw ns w1 w2 b KW P G1 N1 G2 I|kw w1 b KW G1 I|s t w p t2 w2 tight SF TO A TP G2 TI|q t w2 TO G2].
  - eexists _, _. split; [reflexivity|]. split; [reflexivity|discriminate].
  - eexists _, _. split; [reflexivity|]. split; [reflexivity|discriminate].
  - inversion KW as [|? c ? k A F]; subst. apply strict_case in A; [|cbn; tauto]. exists c. cbn [app]. eexists. split; [reflexivity|]. tauto.
  - inversion KW as [|? c ? k A F]; subst. apply strict_case in A; [|cbn; tauto]. exists c. cbn [app]. eexists. split; [reflexivity|]. tauto.
  - apply (starts_solid objbad); [cbn; auto|]. eapply starts_app, obj_starts; eauto.
  - apply (starts_solid objbad); [cbn; auto|]. eapply starts_app, obj_starts; eauto.
Qed.
Lemma p_tdoc_eq : forall k fuel s, p_tdoc k fuel s =
  match skip false s with
  | [] => Ok []
  | _ :: _ => match k with O => Err OutOfFuel | S k' => do x <- p_tstmt fuel s ; do l <- p_tdoc k' fuel (snd x) ; Ok (fst x :: l) end
  end.
Proof. intros [|k] fuel s; reflexivity. Qed.
Lemma doc_runs : forall d s, doc_text true d s -> forall k fuel, runs (p_tdoc k fuel s) d.
Proof.
  induction 1 as [w G|x tight s r t T D IH ST|w d t G D IH]; intros k fuel; rewrite p_tdoc_eq.
  - rewrite skip_last by auto. apply runs_ok.
  - assert (S := stmt_solid _ _ _ T). rewrite skip_solid by auto. destruct S as (c & q & -> & _). cbn [app]. destruct k as [|k]; [now left|].
    eapply runs_bind; [apply (stmt_runs _ _ _ T); auto|]. cbn [snd]. eapply runs_bind; [apply IH|]. apply runs_ok.
  - rewrite skip_gap by auto. specialize (IH k fuel). rewrite p_tdoc_eq in IH. unfold p_tstmt in *. now rewrite skip_gap by auto.
Qed.
