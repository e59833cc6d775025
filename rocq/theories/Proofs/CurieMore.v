(** More lemmas behind C37-C44: replace, the round trip, maps, profiles, tags, ints. *)
From Coq Require Import DecimalN DecimalZ DecimalPos DecimalFacts.
From Verif Require Import Model.Py Model.Terms Model.Curie Spec.CurieSpec Proofs.DictLemmas Proofs.CodecLemmas Proofs.CurieLemmas.
Open Scope N_scope.

(** ** str.replace *)
Lemma replace_skip : forall old new k a r, length a = k -> replace_ne old new k (a ++ r) = replace_ne old new 0 r.
Proof.
  intros old new. induction k as [|k IH]; intros [|c a] r L; try discriminate; [reflexivity|].
  cbn [app replace_ne]. apply IH. now inversion L.
Qed.
Lemma replace_absent : forall old new s, ~ occurs_in old s -> replace_ne old new 0 s = s.
Proof.
  intros old new. induction s as [|c s IH]; intro N; [reflexivity|]. cbn [replace_ne].
  destruct (startswith (c :: s) old) eqn:E.
  - exfalso. apply N. apply startswith_spec in E. destruct E as [r E]. exists [], r. exact E.
  - f_equal. apply IH. intros (a & b & ->). apply N. exists (c :: a), b. reflexivity.
Qed.
Lemma replace_head : forall ns new rest, ns <> [] -> replace (ns ++ rest) ns new = new ++ replace rest ns new.
Proof.
  intros [|c ns] new rest N; [congruence|]. unfold replace. cbn [app replace_ne].
  assert (E : startswith (c :: ns ++ rest) (c :: ns) = true) by (apply startswith_spec; exists rest; reflexivity).
  rewrite E. f_equal. cbn [length pred]. apply replace_skip. reflexivity.
Qed.
Lemma replace_once : forall ns new rest, ns <> [] -> ~ occurs_in ns rest -> replace (ns ++ rest) ns new = new ++ rest.
Proof.
  intros ns new rest N O. rewrite replace_head by assumption. f_equal. destruct ns as [|c ns]; [congruence|]. now apply replace_absent.
Qed.

Lemma chosen_fun : forall m uri p ns p' ns', chosen m uri p ns -> chosen m uri p' ns' -> p = p' /\ ns = ns'.
Proof.
  intros m uri p ns p' ns' (m1 & m2 & E & P & F & G) (m1' & m2' & E' & P' & F' & G').
  subst m. revert m1' E' F'. revert F.
  induction m1 as [|[a b] m1 IH]; intros F [|[a' b'] m1'] E' F'; cbn [app] in E'.
  - inversion E'; auto.
  - inversion E'; subst. exfalso. pose proof (F' _ _ (or_introl eq_refl) P) as X.
    pose proof (G p' ns') as Y. assert (Z : In (p', ns') (m1' ++ (p', ns') :: m2')) by (apply in_or_app; right; now left).
    specialize (Y Z P'). lia.
  - inversion E'; subst. exfalso. pose proof (F _ _ (or_introl eq_refl) P') as X.
    pose proof (G' p ns) as Y. assert (Z : In (p, ns) (m1 ++ (p, ns) :: m2)) by (apply in_or_app; right; now left).
    specialize (Y Z P). lia.
  - injection E' as -> -> E'. refine (IH _ m1' E' _).
    + intros q n I'. apply (F q). now right.
    + intros q n I'. apply (F' q). now right.
Qed.
Lemma to_curie_chosen : forall uri m sep ex p ns, chosen m uri p ns ->
  to_curie uri m sep ex = (if ex then 91 :: replace uri ns (p ++ sep) ++ [93] else replace uri ns (p ++ sep)).
Proof.
  intros uri m sep ex p ns C. destruct (to_curie_choice uri m sep ex) as [[_ N]|(m1 & p' & ns' & m2 & E & P & F & G & R)].
  - exfalso. destruct C as (m1 & m2 & -> & P & _). eapply N; [|exact P]. apply in_or_app. right. now left.
  - assert (C' : chosen m uri p' ns') by (exists m1, m2; auto). destruct (chosen_fun _ _ _ _ _ _ C C') as [-> ->]. exact R.
Qed.
(** C38 *)
Lemma to_curie_spec : forall uri m sep ex,
  ((forall p ns, ~ chosen m uri p ns) /\ (forall p ns, In (p, ns) m -> ~ prefix_of ns uri) /\ to_curie uri m sep ex = uri) \/
  (exists p ns rest, chosen m uri p ns /\ uri = ns ++ rest /\
     to_curie uri m sep ex = (if ex then 91 :: replace uri ns (p ++ sep) ++ [93] else replace uri ns (p ++ sep)) /\
     (ns <> [] -> replace uri ns (p ++ sep) = p ++ sep ++ replace rest ns (p ++ sep))).
Proof.
  intros uri m sep ex. destruct (to_curie_choice uri m sep ex) as [[E N]|(m1 & p & ns & m2 & E & P & F & G & R)].
  - left. split; [|split; [exact N|exact E]]. intros p ns (m1 & m2 & -> & P & _). eapply N; [|exact P]. apply in_or_app. right. now left.
  - right. destruct P as [rest ->]. exists p, ns, rest. split; [exists m1, m2; split; [exact E|]; split; [exists rest; reflexivity|]; auto|].
    split; [reflexivity|]. split; [exact R|]. intro N. rewrite replace_head by assumption. now rewrite <- app_assoc.
Qed.
Lemma chosen_lookup : forall m uri p ns, NoDup (map fst m) -> chosen m uri p ns -> lookup m p ns.
Proof.
  intros m uri p ns D (m1 & m2 & -> & _). exists m1, m2. split; [reflexivity|]. rewrite map_app in D. cbn in D.
  apply NoDup_remove_2 in D. intro X. apply D. apply in_or_app. now left.
Qed.
Lemma round_trip_curie : forall m p ns rest, NoDup (map fst m) -> chosen m (ns ++ rest) p ns -> ns <> [] -> ~ occurs_in ns rest ->
  ~ In 58 p -> ~ In p schemes -> (rest <> [] \/ unbound m []) -> (forall i, ~ bracketed (p ++ 58 :: rest) i) ->
  parse_curie (to_curie (ns ++ rest) m [58] false) m = Ok (ns ++ rest).
Proof.
  intros m p ns rest D C N O P S R B. rewrite (to_curie_chosen _ _ _ _ _ _ C), replace_once by assumption. rewrite <- app_assoc.
  cbn [app]. apply parse_curie_ok. assert (X : splits (p ++ 58 :: rest) p rest) by (split; auto).
  apply MeansPlain with (p := p) (r := rest); auto; [destruct p; discriminate|].
  apply MeansPrefix with (p := p) (r := rest) (ns := ns); auto. eapply chosen_lookup; eassumption.
Qed.
Lemma round_trip_explicit : forall m p ns rest, NoDup (map fst m) -> chosen m (ns ++ rest) p ns -> ns <> [] -> ~ occurs_in ns rest ->
  ~ In 58 p -> (rest <> [] \/ unbound m []) ->
  parse_curie (to_curie (ns ++ rest) m [58] true) m = Ok (ns ++ rest).
Proof.
  intros m p ns rest D C N O P R. rewrite (to_curie_chosen _ _ _ _ _ _ C), replace_once by assumption. rewrite <- app_assoc.
  cbn [app]. apply parse_curie_ok. assert (X : splits (p ++ 58 :: rest) p rest) by (split; auto).
  apply MeansBracketed with (inner := p ++ 58 :: rest); [unfold bracketed; now rewrite <- !app_assoc|].
  apply MeansPrefix with (p := p) (r := rest) (ns := ns); auto. eapply chosen_lookup; eassumption.
Qed.

(** ** term maps *)
Lemma find_first : forall (m : dict str str) iri, match find (fun kv => if str_eq_dec (snd kv) iri then true else false) m with
  | Some (t, v) => v = iri /\ exists a b, m = a ++ (t, iri) :: b /\ ~ In iri (map snd a)
  | None => ~ In iri (map snd m) end.
Proof.
  induction m as [|[t v] m IH]; intro iri; cbn [find snd map]; [intros []|]. destruct (str_eq_dec v iri) as [->|N].
  - split; [reflexivity|]. exists [], m. split; [reflexivity|intros []].
  - specialize (IH iri). destruct (find _ m) as [[t' v']|].
    + destruct IH as [E (a & b & -> & F)]. split; [exact E|]. exists ((t, v) :: a), b. split; [reflexivity|].
      intros [X|X]; [cbn in X; congruence|contradiction].
    + intros [X|X]; [congruence|contradiction].
Qed.
Lemma tm_shrink_spec : forall m iri,
  (exists a t b, tm_items m = a ++ (t, iri) :: b /\ ~ In iri (map snd a) /\ tm_shrink m iri = t) \/
  (~ In iri (map snd (tm_items m)) /\ tm_shrink m iri = iri).
Proof.
  intros m iri. unfold tm_shrink. pose proof (find_first (tm_items m) iri) as H. destruct (find _ (tm_items m)) as [[t v]|].
  - left. destruct H as [-> (a & b & E & F)]. exists a, t, b. auto.
  - right. auto.
Qed.
Lemma tm_round_trip : forall m iri, NoDup (map fst (tm_items m)) -> In iri (map snd (tm_items m)) ->
  tm_resolve m (tm_shrink m iri) = Some iri.
Proof.
  intros m iri D I. destruct (tm_shrink_spec m iri) as [(a & t & b & E & F & ->)|[N _]]; [|contradiction].
  assert (L : sget (tm_items m) t = Some iri).
  { apply In_dget; [exact D|]. rewrite E. apply in_or_app. right. now left. }
  unfold tm_resolve. rewrite L. now destruct (tm_default m).
Qed.
Lemma tm_resolve_spec : forall m term, tm_resolve m term =
  match sget (tm_items m) term with Some v => Some v | None => option_map (fun d => d ++ term) (tm_default m) end.
Proof. intros m term. unfold tm_resolve. destruct (tm_default m), (sget (tm_items m) term); reflexivity. Qed.

(** ** addAll *)
Lemma addAll_keep_spec : forall o m, NoDup (map fst o) ->
  (forall k, sget (addAll_keep m o) k = merged false (sget m k) (sget o k)) /\
  addAll_keep m o = m ++ filter (fun kv => negb (dmem str_eq_dec m (fst kv))) o.
Proof.
  induction o as [|[k v] o IH]; intros m D.
  - cbn. split; [intro k; destruct (sget m k); reflexivity|now rewrite app_nil_r].
  - inversion D as [|? ? N D']; subst. unfold addAll_keep. cbn [fold_left fst snd filter]. fold (addAll_keep (if dmem str_eq_dec m k then m else sset m k v) o).
    destruct (dmem str_eq_dec m k) eqn:M; cbn [negb].
    + destruct (IH m D') as [A B]. split; [|exact B]. intro k'. rewrite A. cbn [dget]. destruct (str_eq_dec k' k) as [->|]; [|reflexivity].
      unfold dmem in M. destruct (sget m k); [reflexivity|discriminate].
    + destruct (IH (sset m k v) D') as [A B]. apply dmem_false in M. split.
      * intro k'. rewrite A, dget_dset. cbn [dget]. destruct (str_eq_dec k k') as [->|Ne].
        -- destruct (str_eq_dec k' k'); [|congruence]. cbn [merged]. destruct (sget m k') eqn:E; [|reflexivity].
           exfalso. apply M. eapply dget_Some_key. exact E.
        -- destruct (str_eq_dec k' k); [congruence|reflexivity].
      * rewrite B. rewrite dkeys_dset_notin by assumption. rewrite <- app_assoc. cbn [app]. f_equal. f_equal.
        apply filter_ext_in. intros [k' v'] I. cbn [fst]. f_equal. unfold dmem. rewrite <- dkeys_dset_notin with (eqd := str_eq_dec) by assumption.
        rewrite dget_dset_neq; [reflexivity|]. intros ->. apply N. apply in_map_iff. exists (k', v'). auto.
Qed.
Lemma map_addAll_spec : forall m o ov k, NoDup (map fst o) ->
  sget (map_addAll m o ov) k = merged ov (sget m k) (sget o k).
Proof.
  intros m o [] k D; cbn [map_addAll].
  - rewrite dupdate_get by exact D. cbn [merged]. destruct (sget o k); reflexivity.
  - now apply addAll_keep_spec.
Qed.
Lemma NoDup_addAll_keep : forall o m, NoDup (map fst m) -> NoDup (map fst (addAll_keep m o)).
Proof.
  induction o as [|[k v] o IH]; intros m D; [exact D|]. unfold addAll_keep. cbn [fold_left fst snd].
  fold (addAll_keep (if dmem str_eq_dec m k then m else sset m k v) o). apply IH. destruct (dmem str_eq_dec m k); [exact D|]. now apply NoDup_dset.
Qed.
Lemma NoDup_map_addAll : forall m o ov, NoDup (map fst m) -> NoDup (map fst (map_addAll m o ov)).
Proof. intros m o [] D; [now apply NoDup_dupdate|now apply NoDup_addAll_keep]. Qed.
