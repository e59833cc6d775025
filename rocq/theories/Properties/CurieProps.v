(** Properties C35-C44 and C75-C76: CURIEs, maps, profiles, language tags,
    literal construction. *)
From Verif Require Import Model.Py Model.Terms Model.Curie Spec.CurieSpec Spec.ProfileSpec
  Proofs.CurieLemmas Proofs.CurieMore Proofs.ProfileLemmas Proofs.LangLemmas.
Open Scope N_scope.

Definition ex_m : dict str str := [(s2l "ex", s2l "http://ex/"); (s2l "rdfs", s2l "http://www.w3.org/2000/01/rdf-schema#"); (s2l "exa", s2l "http://ex/a/")].
Definition ex_d : dict str str := ([], s2l "http://default/") :: ex_m.

(** ** C35 *)
Theorem C35_absolute_iris_are_not_rewritten : forall prefixes scheme rest, In scheme registered_schemes ->
  parse_curie (scheme ++ 58 :: rest) prefixes = Ok (scheme ++ 58 :: rest).
Proof. exact absolute_untouched'. Qed.
Example C35_example : In (s2l "http") registered_schemes /\ In (s2l "urn") registered_schemes /\
  parse_curie (s2l "http://a/b:c") [(s2l "http", s2l "gotcha:")] = Ok (s2l "http://a/b:c") /\
  parse_curie (s2l "[http://a/b:c]") [(s2l "http", s2l "gotcha:")] = Ok (s2l "gotcha://a/b:c").
Proof. split; [now vm_compute; tauto|]. split; [vm_compute; tauto|]. split; vm_compute; reflexivity. Qed.

(** ** C36 *)
Theorem C36_parse_curie_result : forall curie prefixes iri,
  parse_curie curie prefixes = Ok iri <-> curie_means registered_schemes prefixes curie iri.
Proof. exact parse_curie_ok. Qed.
Theorem C36_parse_curie_error : forall curie prefixes e, parse_curie curie prefixes = Err e <->
  (curie = [] /\ e = IndexError) \/
  (curie <> [] /\ e = ValueError /\
   ((exists i, bracketed curie i /\ body_unknown prefixes i) \/
    ((forall i, ~ bracketed curie i) /\ (exists p r, splits curie p r /\ ~ In p registered_schemes) /\ body_unknown prefixes curie))).
Proof. exact parse_curie_err. Qed.
Example C36_example :
  parse_curie (s2l "ex:a:b") ex_m = Ok (s2l "http://ex/a:b") /\
  parse_curie (s2l "[ex:a]") ex_m = Ok (s2l "http://ex/a") /\
  parse_curie (s2l "thing") ex_d = Ok (s2l "http://default/thing") /\
  parse_curie (s2l "ex:") ex_d = Ok (s2l "http://default/ex") /\
  parse_curie (s2l "ex:") ex_m = Ok (s2l "http://ex/") /\
  parse_curie (s2l "HTTP://a") ex_m = Err ValueError /\
  parse_curie (s2l "[]") ex_d = Ok (s2l "http://default/") /\
  parse_curie [] ex_d = Err IndexError.
Proof. vm_compute. repeat split. Qed.

(** ** C37 *)
Theorem C37_shrink_then_resolve : forall m p ns rest, NoDup (map fst m) ->
  chosen m (ns ++ rest) p ns -> ns <> [] -> ~ occurs_in ns rest -> ~ In 58 p -> ~ In p registered_schemes ->
  (rest <> [] \/ unbound m []) -> (forall i, ~ bracketed (p ++ 58 :: rest) i) ->
  pm_resolve m (pm_shrink m (ns ++ rest)) = Ok (ns ++ rest).
Proof. exact round_trip_curie. Qed.
Theorem C37_explicit_curie_then_resolve : forall m p ns rest, NoDup (map fst m) ->
  chosen m (ns ++ rest) p ns -> ns <> [] -> ~ occurs_in ns rest -> ~ In 58 p -> (rest <> [] \/ unbound m []) ->
  parse_curie (to_curie (ns ++ rest) m [58] true) m = Ok (ns ++ rest).
Proof. exact round_trip_explicit. Qed.
(** each proviso is needed: dropping one (all the others hold) there is a URI
    that does not come back *)
Definition comes_back (m : dict str str) (uri : str) : bool :=
  match pm_resolve m (pm_shrink m uri) with Ok x => str_eqb x uri | Err _ => false end.
Theorem C37_repeated_namespace_refuted : exists m p ns rest, NoDup (map fst m) /\ chosen m (ns ++ rest) p ns /\ ns <> [] /\
  ~ In 58 p /\ ~ In p registered_schemes /\ rest <> [] /\ (forall i, ~ bracketed (p ++ 58 :: rest) i) /\ comes_back m (ns ++ rest) = false.
Proof.
  exists [(s2l "x", s2l "a/")], (s2l "x"), (s2l "a/"), (s2l "b/a/").
  split; [repeat constructor; intros []|]. split; [exists [], []; split; [reflexivity|]; split; [eexists; reflexivity|]; split; intros ? ? []|].
  split; [discriminate|]. split; [vm_compute; intros [X|[]]; discriminate|].
  split; [intro X; vm_compute in X; repeat (destruct X as [X|X]; [discriminate|]); exact X|]. split; [discriminate|].
  split; [intros i X; discriminate|vm_compute; reflexivity].
Qed.
Theorem C37_empty_namespace_refuted : exists m p rest, NoDup (map fst m) /\ chosen m rest p [] /\
  ~ In 58 p /\ ~ In p registered_schemes /\ rest <> [] /\ (forall i, ~ bracketed (p ++ 58 :: rest) i) /\ comes_back m rest = false.
Proof.
  exists [(s2l "x", [])], (s2l "x"), (s2l "ab").
  split; [repeat constructor; intros []|]. split; [exists [], []; split; [reflexivity|]; split; [eexists; reflexivity|]; split; intros ? ? []|].
  split; [vm_compute; intros [X|[]]; discriminate|].
  split; [intro X; vm_compute in X; repeat (destruct X as [X|X]; [discriminate|]); exact X|]. split; [discriminate|].
  split; [intros i X; discriminate|vm_compute; reflexivity].
Qed.
Lemma ex_no_occ : forall ns s, forallb (fun k => negb (startswith (skipn k s) ns)) (seq 0 (S (length s))) = true -> ~ occurs_in ns s.
Proof.
  intros ns s H (a & b & ->). rewrite forallb_forall in H. specialize (H (length a)).
  rewrite skipn_app, skipn_all, Nat.sub_diag in H. cbn [skipn app] in H.
  assert (S : startswith (ns ++ b) ns = true) by (apply startswith_spec; exists b; reflexivity). rewrite S in H.
  discriminate H. apply in_seq. rewrite app_length. lia.
Qed.
Theorem C37_colon_in_prefix_refuted : exists m p ns rest, NoDup (map fst m) /\ chosen m (ns ++ rest) p ns /\ ns <> [] /\
  ~ occurs_in ns rest /\ ~ In p registered_schemes /\ rest <> [] /\ (forall i, ~ bracketed (p ++ 58 :: rest) i) /\ comes_back m (ns ++ rest) = false.
Proof.
  exists [(s2l "x:y", s2l "a/")], (s2l "x:y"), (s2l "a/"), (s2l "b").
  split; [repeat constructor; intros []|]. split; [exists [], []; split; [reflexivity|]; split; [eexists; reflexivity|]; split; intros ? ? []|].
  split; [discriminate|]. split; [apply ex_no_occ; vm_compute; reflexivity|].
  split; [intro X; vm_compute in X; repeat (destruct X as [X|X]; [discriminate|]); exact X|]. split; [discriminate|].
  split; [intros i X; discriminate|vm_compute; reflexivity].
Qed.
Theorem C37_scheme_prefix_refuted : exists m p ns rest, NoDup (map fst m) /\ chosen m (ns ++ rest) p ns /\ ns <> [] /\
  ~ occurs_in ns rest /\ ~ In 58 p /\ rest <> [] /\ (forall i, ~ bracketed (p ++ 58 :: rest) i) /\ comes_back m (ns ++ rest) = false.
Proof.
  exists [(s2l "tag", s2l "a/")], (s2l "tag"), (s2l "a/"), (s2l "b").
  split; [repeat constructor; intros []|]. split; [exists [], []; split; [reflexivity|]; split; [eexists; reflexivity|]; split; intros ? ? []|].
  split; [discriminate|]. split; [apply ex_no_occ; vm_compute; reflexivity|].
  split; [intro X; vm_compute in X; repeat (destruct X as [X|X]; [discriminate|]); exact X|]. split; [discriminate|].
  split; [intros i X; discriminate|vm_compute; reflexivity].
Qed.
Theorem C37_empty_remainder_refuted : exists m p ns, NoDup (map fst m) /\ chosen m (ns ++ []) p ns /\ ns <> [] /\
  ~ In 58 p /\ ~ In p registered_schemes /\ (forall i, ~ bracketed (p ++ [58]) i) /\ comes_back m ns = false.
Proof.
  exists [(s2l "x", s2l "a/"); ([], s2l "d/")], (s2l "x"), (s2l "a/").
  split; [repeat constructor; cbn; intuition discriminate|].
  split; [exists [], [([], s2l "d/")]; split; [reflexivity|]; split; [eexists; reflexivity|]; split; [intros ? ? []|intros ? ? [[= <- <-]|[]] [r R]; discriminate]|].
  split; [discriminate|]. split; [vm_compute; intros [X|[]]; discriminate|].
  split; [intro X; vm_compute in X; repeat (destruct X as [X|X]; [discriminate|]); exact X|].
  split; [intros i X; discriminate|vm_compute; reflexivity].
Qed.
Theorem C37_bracketed_result_refuted : exists m p ns rest, NoDup (map fst m) /\ chosen m (ns ++ rest) p ns /\ ns <> [] /\
  ~ occurs_in ns rest /\ ~ In 58 p /\ ~ In p registered_schemes /\ rest <> [] /\ comes_back m (ns ++ rest) = false.
Proof.
  exists [(s2l "[x", s2l "a/")], (s2l "[x"), (s2l "a/"), (s2l "b]").
  split; [repeat constructor; intros []|]. split; [exists [], []; split; [reflexivity|]; split; [eexists; reflexivity|]; split; intros ? ? []|].
  split; [discriminate|]. split; [apply ex_no_occ; vm_compute; reflexivity|]. split; [vm_compute; intros [X|[X|[]]]; discriminate|].
  split; [intro X; vm_compute in X; repeat (destruct X as [X|X]; [discriminate|]); exact X|]. split; [discriminate|].
  vm_compute; reflexivity.
Qed.
Example C37_example : NoDup (map fst ex_d) /\ chosen ex_d (s2l "http://ex/a/" ++ s2l "b") (s2l "exa") (s2l "http://ex/a/") /\
  ~ occurs_in (s2l "http://ex/a/") (s2l "b") /\ ~ In 58 (s2l "exa") /\ ~ In (s2l "exa") registered_schemes /\
  pm_shrink ex_d (s2l "http://ex/a/b") = s2l "exa:b" /\ comes_back ex_d (s2l "http://ex/a/b") = true.
Proof.
  split; [repeat constructor; cbn; intuition discriminate|]. split.
  - exists (firstn 3 ex_d), []. split; [reflexivity|]. split; [eexists; reflexivity|]. split; [|intros ? ? []].
    intros p ns I [r R]. cbn [firstn ex_d ex_m In] in I.
    destruct I as [E|[E|[E|[]]]]; injection E as <- <-; [discriminate R|vm_compute; lia|discriminate R].
  - split; [apply ex_no_occ; vm_compute; reflexivity|]. split; [vm_compute; intuition discriminate|].
    split; [intro X; vm_compute in X; repeat (destruct X as [X|X]; [discriminate|]); exact X|]. split; vm_compute; reflexivity.
Qed.

(** ** C38 *)
Theorem C38_to_curie_uses_the_longest_namespace : forall uri m sep explicit,
  ((forall p ns, ~ chosen m uri p ns) /\ (forall p ns, In (p, ns) m -> ~ prefix_of ns uri) /\ to_curie uri m sep explicit = uri) \/
  (exists p ns rest, chosen m uri p ns /\ uri = ns ++ rest /\
     to_curie uri m sep explicit = (if explicit then 91 :: replace uri ns (p ++ sep) ++ [93] else replace uri ns (p ++ sep)) /\
     (ns <> [] -> replace uri ns (p ++ sep) = p ++ sep ++ replace rest ns (p ++ sep))).
Proof. exact to_curie_spec. Qed.
Theorem C38_choice_is_unique : forall m uri p ns p' ns', chosen m uri p ns -> chosen m uri p' ns' -> p = p' /\ ns = ns'.
Proof. exact chosen_fun. Qed.
Theorem C38_single_occurrence : forall m p ns rest sep, chosen m (ns ++ rest) p ns -> ns <> [] -> ~ occurs_in ns rest ->
  to_curie (ns ++ rest) m sep false = p ++ sep ++ rest.
Proof.
  intros m p ns rest sep C N O. rewrite (to_curie_chosen _ _ _ _ _ _ C), replace_once by assumption. now rewrite app_assoc.
Qed.
Example C38_example :
  to_curie (s2l "http://ex/a/b") ex_m (s2l ":") false = s2l "exa:b" /\
  to_curie (s2l "http://ex/b") ex_m (s2l ":") true = s2l "[ex:b]" /\
  to_curie (s2l "http://ex/a/b") [(s2l "p", s2l "http://ex/"); (s2l "q", s2l "http://ex/")] (s2l ":") false = s2l "p:a/b" /\
  to_curie (s2l "ftp://x") ex_m (s2l ":") true = s2l "ftp://x" /\
  (* every occurrence is replaced *)
  to_curie (s2l "http://ex/?u=http://ex/") ex_m (s2l ":") false = s2l "ex:?u=ex:".
Proof. vm_compute. repeat split. Qed.

(** ** C39 *)
Theorem C39_resolve_shrink : forall m iri, NoDup (map fst (tm_items m)) -> In iri (map snd (tm_items m)) ->
  tm_resolve m (tm_shrink m iri) = Some iri.
Proof. exact tm_round_trip. Qed.
Theorem C39_shrink_first_term : forall m iri,
  (exists a t b, tm_items m = a ++ (t, iri) :: b /\ ~ In iri (map snd a) /\ tm_shrink m iri = t) \/
  (~ In iri (map snd (tm_items m)) /\ tm_shrink m iri = iri).
Proof. exact tm_shrink_spec. Qed.
Theorem C39_resolve : forall m term, tm_resolve m term =
  match dget str_eq_dec (tm_items m) term with Some v => Some v | None => option_map (fun d => d ++ term) (tm_default m) end.
Proof. exact tm_resolve_spec. Qed.
Example C39_example : let m := mkTM [(s2l "a", s2l "http://a"); (s2l "b", s2l "http://a")] (Some (s2l "http://v/")) in
  NoDup (map fst (tm_items m)) /\ In (s2l "http://a") (map snd (tm_items m)) /\
  tm_shrink m (s2l "http://a") = s2l "a" /\ tm_resolve m (s2l "b") = Some (s2l "http://a") /\
  tm_resolve m (s2l "zz") = Some (s2l "http://v/zz") /\ tm_resolve (mkTM (tm_items m) None) (s2l "zz") = None /\
  tm_shrink m (s2l "http://zz") = s2l "http://zz".
Proof. vm_compute. repeat split; try (right; now left); try (now left). repeat constructor; cbn; intuition discriminate. Qed.

(** ** C40 *)
Theorem C40_addAll : forall m other override k, NoDup (map fst other) ->
  dget str_eq_dec (map_addAll m other override) k = merged override (dget str_eq_dec m k) (dget str_eq_dec other k).
Proof. exact map_addAll_spec. Qed.
Theorem C40_addAll_keeps_order : forall m other, NoDup (map fst other) ->
  map_addAll m other false = m ++ filter (fun kv => negb (dmem str_eq_dec m (fst kv))) other.
Proof. intros m o D. exact (proj2 (addAll_keep_spec o m D)). Qed.
Theorem C40_importProfile : forall h i j o, reach h -> (i < length (h_profs h))%nat -> (j < length (h_profs h))%nat ->
  let h' := pstep h (ImportProfile i j o) in
  (forall k, dget str_eq_dec (prof_pm h' i) k = merged o (dget str_eq_dec (prof_pm h i) k) (dget str_eq_dec (prof_pm h j) k)) /\
  (forall k, dget str_eq_dec (tm_items (prof_tm h' i)) k = merged o (dget str_eq_dec (tm_items (prof_tm h i)) k) (dget str_eq_dec (tm_items (prof_tm h j)) k)) /\
  tm_default (prof_tm h' i) = tm_default (prof_tm h i) /\
  (forall a, a <> fst (prof h i) -> pm_at h' a = pm_at h a) /\
  (forall a, a <> snd (prof h i) -> tm_at h' a = tm_at h a) /\
  h_profs h' = h_profs h.
Proof. exact import_profile. Qed.
Definition ex_h : heap := prun heap0
  [ NewProfile None None; NewProfile None None; SetPrefix 0 (s2l "ex") (s2l "http://one/"); SetPrefix 1 (s2l "ex") (s2l "http://two/");
    SetPrefix 1 (s2l "b") (s2l "http://b/"); SetTerm 1 (s2l "t") (s2l "http://t") ].
Lemma ex_h_reach : reach ex_h.
Proof. eexists. split; [|reflexivity]. cbn. repeat split; try discriminate; lia. Qed.
Example C40_example : reach ex_h /\ length (h_profs ex_h) = 2%nat /\
  let keep := pstep ex_h (ImportProfile 0 1 false) in
  let over := pstep ex_h (ImportProfile 0 1 true) in
  dget str_eq_dec (prof_pm keep 0) (s2l "ex") = Some (s2l "http://one/") /\
  dget str_eq_dec (prof_pm over 0) (s2l "ex") = Some (s2l "http://two/") /\
  dget str_eq_dec (prof_pm keep 0) (s2l "b") = Some (s2l "http://b/") /\
  dget str_eq_dec (tm_items (prof_tm keep 0)) (s2l "t") = Some (s2l "http://t").
Proof. split; [exact ex_h_reach|]. vm_compute. repeat split. Qed.

(** ** C41 *)
Theorem C41_new_profile : forall h p t, reach h -> pop_ok h (NewProfile p t) ->
  let h' := pstep h (NewProfile p t) in
  let n := length (h_profs h) in
  length (h_profs h') = S n /\
  (forall k, dget str_eq_dec (prof_pm h' n) k =
     match dget str_eq_dec (given_pm h p) k with
     | Some x => Some x
     | None => if str_eq_dec (s2l "rdf") k then Some w3_rdf else if str_eq_dec (s2l "xsd") k then Some w3_xsd else None
     end) /\
  tm_items (prof_tm h' n) = tm_items (given_tm h t) /\
  (forall a, p = Some a -> pm_at h a = [] -> fst (prof h' n) <> a /\ pm_at h' a = []) /\
  (forall a, p = Some a -> pm_at h a <> [] -> fst (prof h' n) = a) /\
  (forall b, t = Some b -> tm_items (tm_at h b) = [] -> snd (prof h' n) <> b /\ tm_at h' b = tm_at h b /\ tm_default (prof_tm h' n) = None) /\
  (forall b, t = Some b -> tm_items (tm_at h b) <> [] -> snd (prof h' n) = b).
Proof. exact new_profile_bindings. Qed.
Theorem C41_profiles_always_know_rdf_and_xsd : forall h i, reach h -> (i < length (h_profs h))%nat ->
  dget str_eq_dec (prof_pm h i) (s2l "rdf") <> None /\ dget str_eq_dec (prof_pm h i) (s2l "xsd") <> None.
Proof. intros h i R L. apply reach_knows in R. exact (Forall_nth_lt _ _ (O, O) _ R L). Qed.
(** an empty map is replaced, a non-empty one is adopted and written to *)
Definition ex_h2 : heap := prun ex_h [CreatePrefixMap 0 true; CreatePrefixMap 0 true; MapSet 3 (s2l "rdf") (s2l "http://mine#")].
Example C41_example : reach ex_h2 /\ pop_ok ex_h2 (NewProfile (Some 2%nat) None) /\ pop_ok ex_h2 (NewProfile (Some 3%nat) None) /\
  let a := pstep ex_h2 (NewProfile (Some 2%nat) None) in
  let b := pstep ex_h2 (NewProfile (Some 3%nat) None) in
  prof a 2 = (4%nat, 2%nat) /\ pm_at a 2 = [] /\ prof b 2 = (3%nat, 2%nat) /\
  pm_at b 3 = [(s2l "rdf", s2l "http://mine#"); (s2l "xsd", xsd_ns)] /\
  profile_resolve a 2 (s2l "xsd:int") = Ok (Some (xsd "int")) /\ profile_resolve b 2 (s2l "rdf:type") = Ok (Some (s2l "http://mine#type")).
Proof.
  split; [apply reach_run; [exact ex_h_reach|cbn; repeat split; lia]|]. split; [split; [intros a [= <-]; vm_compute; lia|discriminate]|].
  split; [split; [intros a [= <-]; vm_compute; lia|discriminate]|]. vm_compute. repeat split.
Qed.

(** ** C42 *)
Theorem C42_createProfile_shares_prefixes : forall h env ops, reach h -> (env < length (h_profs h))%nat ->
  let n := length (h_profs h) in
  let h' := prun (pstep h (CreateProfile env false)) ops in
  (n < length (h_profs h'))%nat /\ fst (prof h' n) = fst (prof h' env) /\
  (tm_items (prof_tm h env) <> [] -> snd (prof h' n) = snd (prof h' env)) /\
  (tm_items (prof_tm h env) = [] -> snd (prof h' n) <> snd (prof h' env)).
Proof. exact create_profile_shares. Qed.
Theorem C42_setPrefix_changes_both : forall h env ops who k v, reach h -> (env < length (h_profs h))%nat ->
  let n := length (h_profs h) in
  let h1 := pstep h (CreateProfile env false) in
  valid_run h1 ops -> who = env \/ who = n ->
  let h' := pstep (prun h1 ops) (SetPrefix who k v) in
  prof_pm h' env = prof_pm h' n /\ dget str_eq_dec (prof_pm h' env) k = Some v /\
  (forall k', k' <> k -> dget str_eq_dec (prof_pm h' env) k' = dget str_eq_dec (prof_pm (prun h1 ops) env) k').
Proof.
  intros h env ops who k v R L n h1 V W h'.
  destruct (create_profile_shares h env ops R L) as (Ln & S & _). fold n h1 in Ln, S.
  pose proof (reach_ok _ (reach_run h1 ops (reach_run h [CreateProfile env false] R (conj L I)) V)) as OK.
  assert (Le : (env < length (h_profs (prun h1 ops)))%nat) by (unfold n in Ln; lia).
  assert (Lw : (who < length (h_profs (prun h1 ops)))%nat) by (destruct W as [-> | ->]; assumption).
  assert (Ew : fst (prof (prun h1 ops) who) = fst (prof (prun h1 ops) env)) by (destruct W as [-> | ->]; [reflexivity|exact S]).
  split; [unfold prof_pm; f_equal; symmetry; exact S|]. split.
  - unfold h'. rewrite (set_prefix_get _ who k v OK Lw env Le). destruct (Nat.eq_dec _ _); [|congruence]. destruct (str_eq_dec k k); congruence.
  - intros k' Nk. unfold h'. rewrite (set_prefix_get _ who k v OK Lw env Le). destruct (Nat.eq_dec _ _); [|congruence]. destruct (str_eq_dec k k'); congruence.
Qed.
(** assignments to a copy are exactly what the copy sees, and no profile sees them *)
Theorem C42_createPrefixMap_is_independent : forall h env e ops, reach h -> (env < length (h_profs h))%nat ->
  let a := length (h_pms h) in
  let h1 := pstep h (CreatePrefixMap env e) in
  valid_run h1 ops -> Forall (no_adopt_pm a) ops ->
  pm_at h1 a = (if e then [] else prof_pm h env) /\
  pm_at (prun h1 ops) a = dupdate str_eq_dec (pm_at h1 a) (pm_writes a ops) /\
  forall i, (i < length (h_profs (prun h1 ops)))%nat -> prof_pm (prun h1 ops) i = prof_pm (prun h1 (skip_pm a ops)) i.
Proof. exact create_prefix_map. Qed.
Theorem C42_createTermMap_is_independent : forall h env e ops, reach h -> (env < length (h_profs h))%nat ->
  let a := length (h_tms h) in
  let h1 := pstep h (CreateTermMap env e) in
  valid_run h1 ops -> Forall (no_adopt_tm a) ops ->
  tm_at h1 a = mkTM (if e then [] else tm_items (prof_tm h env)) None /\
  tm_at (prun h1 ops) a = mkTM (dupdate str_eq_dec (tm_items (tm_at h1 a)) (tm_writes a ops)) None /\
  forall i, (i < length (h_profs (prun h1 ops)))%nat -> prof_tm (prun h1 ops) i = prof_tm (prun h1 (skip_tm a ops)) i.
Proof. exact create_term_map. Qed.
Example C42_example : reach ex_h /\
  let h1 := pstep ex_h (CreateProfile 1 false) in
  let h2 := prun h1 [SetPrefix 2 (s2l "n") (s2l "http://n/"); SetTerm 1 (s2l "u") (s2l "http://u"); SetPrefix 1 (s2l "ex") (s2l "http://new/")] in
  profile_resolve h2 1 (s2l "n:x") = Ok (Some (s2l "http://n/x")) /\ profile_resolve h2 2 (s2l "ex:x") = Ok (Some (s2l "http://new/x")) /\
  profile_resolve h2 2 (s2l "u") = Ok (Some (s2l "http://u")) /\ profile_resolve h2 0 (s2l "n:x") = Err ValueError /\
  (* profile 0 has no terms: its term map is not shared *)
  profile_resolve (prun ex_h [CreateProfile 0 false; SetTerm 0 (s2l "u") (s2l "http://u")]) 2 (s2l "u") = Ok None /\
  (* a copied map sees its own writes only *)
  let h3 := prun ex_h [CreatePrefixMap 1 false; SetPrefix 1 (s2l "n") (s2l "http://n/"); MapSet 2 (s2l "m") (s2l "http://m/")] in
  map fst (pm_at h3 2) = map s2l ["rdf"; "xsd"; "ex"; "b"; "m"]%string /\ map fst (prof_pm h3 1) = map s2l ["rdf"; "xsd"; "ex"; "b"; "n"]%string.
Proof. split; [exact ex_h_reach|]. vm_compute. repeat split. Qed.

(** ** C43 *)
Theorem C43_lang_match_characterised : forall a b, lang_match (Some a) (Some b) = true <->
  exists p r r', tag_split a p r /\ tag_split b p r' /\ (r = [] \/ r' = [] \/ r = r').
Proof. exact lang_match_spec. Qed.
Theorem C43_lang_match_reflexive : forall a, lang_match a a = true.
Proof. exact lang_match_refl. Qed.
Theorem C43_lang_match_symmetric : forall a b, lang_match a b = lang_match b a.
Proof. exact lang_match_sym. Qed.
Theorem C43_none_matches_only_none : forall a, lang_match None a = true <-> a = None.
Proof. intros [a|]; cbn; split; congruence. Qed.
Theorem C43_lang_match_transitive_refuted : exists a b c, lang_match a b = true /\ lang_match b c = true /\ lang_match a c = false.
Proof. exists (Some (s2l "en-us")), (Some (s2l "en")), (Some (s2l "en-gb")). vm_compute. auto. Qed.
Example C43_example :
  lang_match (Some (s2l "en")) (Some (s2l "en-US")) = true /\ lang_match (Some (s2l "en-GB-x")) (Some (s2l "en-GB")) = false /\
  lang_match (Some (s2l "EN")) (Some (s2l "en")) = false /\ lang_match (Some []) (Some (s2l "-x")) = true /\
  lang_match (Some (s2l "e")) (Some (s2l "en")) = false.
Proof. vm_compute. auto. Qed.

(** ** C44 *)
Theorem C44_strings_are_kept : forall s l d, literal_new (VStr s) l d = Ok (Lit s l d).
Proof. reflexivity. Qed.
Theorem C44_ints : forall z l d, exists s, dec_value s = Some z /\ canonical_int s /\
  literal_new (VInt z) l d = Ok (Lit s l (match d with Some x => Some x | None => Some (s2l "http://www.w3.org/2001/XMLSchema#integer") end)).
Proof.
  intros z l d. exists (int_str z). split; [apply dec_int_str|]. split; [apply int_str_canonical|]. now destruct d.
Qed.
Theorem C44_decimal_text_determines_the_int : forall a b l l' d d' t, literal_new (VInt a) l d = Ok t -> literal_new (VInt b) l' d' = Ok t -> a = b.
Proof.
  intros a b l l' d d' t A B. unfold literal_new in A, B. injection A as A. injection B as B. rewrite <- B in A. injection A as A _ _. now apply int_str_inj.
Qed.
Theorem C44_other_types : forall v l d e, literal_new v l d = Err e <-> v = VOther /\ e = KeyError.
Proof. intros [] l d e; cbn; split; try discriminate; try (intros [H _]; discriminate); intro H; [inversion H; auto|now destruct H as [_ ->]]. Qed.
Example C44_example :
  literal_new (VInt (-120)) None None = Ok (Lit (s2l "-120") None (Some (xsd "integer"))) /\
  literal_new (VInt 0) (Some (s2l "en")) (Some (s2l "d")) = Ok (Lit (s2l "0") (Some (s2l "en")) (Some (s2l "d"))) /\
  dec_value (s2l "-120") = Some (-120)%Z /\ literal_new VOther None None = Err KeyError.
Proof. vm_compute. auto. Qed.

(** ** C75: copies and derived profiles lose the default vocabulary *)
Theorem C75_createTermMap_loses_the_default : forall h env term, reach h -> (env < length (h_profs h))%nat ->
  dget str_eq_dec (tm_items (prof_tm h env)) term = None ->
  let h1 := pstep h (CreateTermMap env false) in
  tm_resolve (tm_at h1 (length (h_tms h))) term = None /\
  tm_resolve (prof_tm h1 env) term = option_map (fun d => d ++ term) (tm_default (prof_tm h env)).
Proof.
  intros h env term R L N h1. destruct (create_term_map h env false [] R L I (Forall_nil _)) as (E & _ & _). fold h1 in E. rewrite E, !tm_resolve_spec.
  cbn [tm_items tm_default]. rewrite N. split; [reflexivity|].
  assert (X : prof_tm h1 env = prof_tm h env).
  { destruct (prof_range _ _ (reach_ok h R) L) as [_ Lt]. unfold prof_tm, h1, tm_at. cbn [pstep tm_alloc fst h_tms]. now rewrite app_nth1. }
  rewrite X, N. reflexivity.
Qed.
Theorem C75_createProfile_without_terms_loses_the_default : forall h env term, reach h -> (env < length (h_profs h))%nat ->
  tm_items (prof_tm h env) = [] ->
  tm_resolve (prof_tm (pstep h (CreateProfile env false)) (length (h_profs h))) term = None.
Proof.
  intros h env term R L E. destruct (prof_range _ _ (reach_ok h R) L) as [Lp Lt].
  assert (P : pop_ok h (NewProfile (Some (fst (prof h env))) (Some (snd (prof h env))))) by (split; intros ? [= <-]; assumption).
  destruct (new_profile_bindings h _ _ R P) as (_ & _ & T & _ & _ & D & _). destruct (D _ eq_refl E) as (_ & _ & D').
  change (pstep h (NewProfile (Some (fst (prof h env))) (Some (snd (prof h env))))) with (pstep h (CreateProfile env false)) in *.
  rewrite tm_resolve_spec, T, D'. cbn [given_tm]. unfold prof_tm in E. rewrite E. reflexivity.
Qed.
Example C75_example : let h := pstep ex_h (SetDefaultVocabulary 0 (s2l "http://v/")) in
  let h1 := prun h [CreateTermMap 0 false; CreateProfile 0 false] in
  reach h /\ tm_items (prof_tm h 0) = [] /\ profile_resolve h1 0 (s2l "name") = Ok (Some (s2l "http://v/name")) /\
  tm_resolve (tm_at h1 2) (s2l "name") = None /\ profile_resolve h1 2 (s2l "name") = Ok None.
Proof. split; [apply (reach_run ex_h [SetDefaultVocabulary 0 (s2l "http://v/")]); [exact ex_h_reach|cbn; split; [lia|exact I]]|]. vm_compute. repeat split. Qed.

(** ** C76: Profile.resolve and parse_curies *)
Theorem C76_profile_resolve : forall h i s,
  (In 58 s -> (exists iri, profile_resolve h i s = Ok (Some iri) /\ curie_means registered_schemes (prof_pm h i) s iri) \/
              (profile_resolve h i s = Err ValueError /\ forall iri, ~ curie_means registered_schemes (prof_pm h i) s iri)) /\
  (~ In 58 s -> profile_resolve h i s = Ok (tm_resolve (prof_tm h i) s)).
Proof.
  intros h i s. unfold profile_resolve, str_in_char. split; intro C.
  - assert (X : existsb (N.eqb 58) s = true) by (apply existsb_exists; exists 58; split; [exact C|reflexivity]). rewrite X. unfold pm_resolve.
    destruct (parse_curie s (prof_pm h i)) as [iri|e] eqn:P; cbn [bind].
    + left. exists iri. split; [reflexivity|]. now apply parse_curie_ok.
    + right. assert (E : e = ValueError) by (apply parse_curie_err in P; destruct P as [[-> _]|(_ & -> & _)]; [destruct C|reflexivity]). subst e. split; [reflexivity|].
      intros iri M. apply parse_curie_ok in M. congruence.
  - assert (X : existsb (N.eqb 58) s = false).
    { destruct (existsb (N.eqb 58) s) eqn:E; [|reflexivity]. apply existsb_exists in E. destruct E as (x & I & E). apply N.eqb_eq in E. subst x. contradiction. }
    rewrite X. reflexivity.
Qed.
Theorem C76_parse_curies : forall cs m,
  (snd (parse_curies cs m) = Ok tt /\ Forall2 (fun c x => parse_curie c m = Ok x) cs (fst (parse_curies cs m))) \/
  (exists a c b e, cs = a ++ c :: b /\ Forall2 (fun c x => parse_curie c m = Ok x) a (fst (parse_curies cs m)) /\
     parse_curie c m = Err e /\ snd (parse_curies cs m) = Err e).
Proof.
  induction cs as [|c cs IH]; intro m; cbn [parse_curies]; [left; split; [reflexivity|constructor]|].
  destruct (parse_curie c m) as [x|e] eqn:P.
  - specialize (IH m). destruct (parse_curies cs m) as [xs r]. cbn [fst snd] in *. destruct IH as [[-> F]|(a & c' & b & e & -> & F & Q & ->)].
    + left. split; [reflexivity|]. now constructor.
    + right. exists (c :: a), c', b, e. split; [reflexivity|]. split; [now constructor|]. auto.
  - right. exists [], c, cs, e. split; [reflexivity|]. split; [constructor|]. auto.
Qed.
Example C76_example :
  profile_resolve ex_h 0 (s2l "nope:x") = Err ValueError /\ profile_resolve ex_h 0 (s2l "nope") = Ok None /\
  profile_resolve ex_h 0 [] = Ok None /\
  parse_curies [s2l "ex:a"; s2l "http://x"; s2l "no:b"; s2l "ex:c"] ex_m = ([s2l "http://ex/a"; s2l "http://x"], Err ValueError).
Proof. vm_compute. repeat split. Qed.

(** ** C78: setters *)
Theorem C78_prefix_setters : forall h i k v op, reach h -> (i < length (h_profs h))%nat ->
  op = SetPrefix i k v \/ (k = [] /\ op = SetDefaultPrefix i v) ->
  let h' := pstep h op in
  dget str_eq_dec (prof_pm h' i) k = Some v /\
  (forall k', k' <> k -> dget str_eq_dec (prof_pm h' i) k' = dget str_eq_dec (prof_pm h i) k') /\
  (forall a, a <> fst (prof h i) -> pm_at h' a = pm_at h a) /\ h_tms h' = h_tms h /\ h_profs h' = h_profs h.
Proof. exact prefix_setters. Qed.
Theorem C78_setTerm : forall h i k v, reach h -> (i < length (h_profs h))%nat ->
  let h' := pstep h (SetTerm i k v) in
  tm_resolve (prof_tm h' i) k = Some v /\
  (forall k', k' <> k -> tm_resolve (prof_tm h' i) k' = tm_resolve (prof_tm h i) k') /\
  (forall a, a <> snd (prof h i) -> tm_at h' a = tm_at h a) /\ h_pms h' = h_pms h /\ h_profs h' = h_profs h.
Proof. exact set_term. Qed.
Theorem C78_setDefaultVocabulary : forall h i v, reach h -> (i < length (h_profs h))%nat ->
  let h' := pstep h (SetDefaultVocabulary i v) in
  (forall k, tm_resolve (prof_tm h' i) k = match dget str_eq_dec (tm_items (prof_tm h i)) k with Some x => Some x | None => Some (v ++ k) end) /\
  (forall a, a <> snd (prof h i) -> tm_at h' a = tm_at h a) /\ h_pms h' = h_pms h /\ h_profs h' = h_profs h.
Proof. exact set_vocabulary. Qed.
(** a name with the prefix just set means the new namespace and the reference;
    with setDefaultPrefix the prefix is empty *)
Theorem C78_names_use_the_new_prefix : forall h i k v op x, reach h -> (i < length (h_profs h))%nat ->
  op = SetPrefix i k v \/ (k = [] /\ op = SetDefaultPrefix i v) ->
  ~ In 58 k -> ~ In k registered_schemes -> ~ prefix_of [91] k -> x <> [] ->
  profile_resolve (pstep h op) i (k ++ 58 :: x) = Ok (Some (v ++ x)).
Proof. exact new_prefix_used. Qed.
Example C78_example : reach ex_h /\
  let h := prun ex_h [SetDefaultPrefix 0 (s2l "http://d/"); SetPrefix 0 (s2l "q") (s2l "http://q/"); SetTerm 0 (s2l "t") (s2l "http://t/");
                      SetDefaultVocabulary 0 (s2l "http://v/")] in
  profile_resolve h 0 (s2l ":x") = Ok (Some (s2l "http://d/x")) /\ profile_resolve h 0 (s2l "q:x") = Ok (Some (s2l "http://q/x")) /\
  profile_resolve h 0 (s2l "t") = Ok (Some (s2l "http://t/")) /\ profile_resolve h 0 (s2l "u") = Ok (Some (s2l "http://v/u")) /\
  profile_resolve h 1 (s2l ":x") = Err ValueError /\ profile_resolve h 1 (s2l "u") = Ok None /\
  ~ In 58 (s2l "q") /\ ~ In (s2l "q") registered_schemes /\ ~ prefix_of [91] (s2l "q").
Proof.
  split; [exact ex_h_reach|]. cbv zeta. repeat (split; [vm_compute; reflexivity|]). split; [|split].
  - intros [H|[]]. discriminate.
  - assert (X : (if in_dec str_eq_dec (s2l "q") registered_schemes then true else false) = false) by (vm_compute; reflexivity).
    destruct (in_dec _ _ _); [discriminate|assumption].
  - intros [r H]. discriminate H.
Qed.

Print Assumptions C35_absolute_iris_are_not_rewritten.
Print Assumptions C36_parse_curie_result.
Print Assumptions C36_parse_curie_error.
Print Assumptions C37_shrink_then_resolve.
Print Assumptions C37_explicit_curie_then_resolve.
Print Assumptions C38_to_curie_uses_the_longest_namespace.
Print Assumptions C39_resolve_shrink.
Print Assumptions C40_addAll.
Print Assumptions C40_importProfile.
Print Assumptions C41_new_profile.
Print Assumptions C42_createProfile_shares_prefixes.
Print Assumptions C42_setPrefix_changes_both.
Print Assumptions C42_createPrefixMap_is_independent.
Print Assumptions C42_createTermMap_is_independent.
Print Assumptions C43_lang_match_characterised.
Print Assumptions C44_ints.
Print Assumptions C44_decimal_text_determines_the_int.
Print Assumptions C75_createTermMap_loses_the_default.
Print Assumptions C75_createProfile_without_terms_loses_the_default.
Print Assumptions C76_profile_resolve.
Print Assumptions C76_parse_curies.
Print Assumptions C78_prefix_setters.
Print Assumptions C78_setTerm.
Print Assumptions C78_setDefaultVocabulary.
Print Assumptions C78_names_use_the_new_prefix.
Print Assumptions C37_repeated_namespace_refuted.
Print Assumptions C37_empty_namespace_refuted.
Print Assumptions C37_colon_in_prefix_refuted.
Print Assumptions C37_scheme_prefix_refuted.
Print Assumptions C37_empty_remainder_refuted.
Print Assumptions C37_bracketed_result_refuted.
Print Assumptions C38_choice_is_unique.
Print Assumptions C38_single_occurrence.
Print Assumptions C39_shrink_first_term.
Print Assumptions C39_resolve.
Print Assumptions C40_addAll_keeps_order.
Print Assumptions C41_profiles_always_know_rdf_and_xsd.
Print Assumptions C43_lang_match_reflexive.
Print Assumptions C43_lang_match_symmetric.
Print Assumptions C43_none_matches_only_none.
Print Assumptions C43_lang_match_transitive_refuted.
Print Assumptions C44_strings_are_kept.
Print Assumptions C44_other_types.
