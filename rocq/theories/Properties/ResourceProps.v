(** Properties C54-C64 and C77: Resource, its classes and List. *)
From Coq Require Import Permutation.
From Verif Require Import Model.Py Model.Terms Model.Graph Model.GraphRun Model.Codec Model.Curie Model.Resource Model.ResourceRun
  Spec.GraphSpec Spec.CurieSpec Spec.ResourceSpec
  Proofs.GraphInv Proofs.GraphHist Proofs.ResourceLemmas Proofs.ClassLemmas Proofs.ResourceRead Proofs.ResourceWrite Proofs.ResourceSet
  Proofs.ResourceAccept Proofs.ResourceMore.
Open Scope N_scope.

(** ** the examples: a class Person (2) for ex:Person with the scalar ex:name, a
    class Agent (3) for ex:Agent *)
Definition ex_pre : dict str str := [(s2l "ex", s2l "http://ex/")].
Definition ex_w1 := fst (make_class world0 (s2l "Person") [0%nat] ex_pre [s2l "ex:name"] None None).
Definition ex_w2 := fst (register_class ex_w1 (s2l "ex:Person") 2).
Definition ex_w3 := fst (make_class ex_w2 (s2l "Agent") [0%nat] ex_pre [] None None).
Definition ex_w := fst (register_class ex_w3 (s2l "ex:Agent") 3).
Definition ex_iri (s : string) : str := s2l "http://ex/" ++ s2l s.
Definition ex (s : string) : term := Iri (ex_iri s).
Definition ex_type : str := rdf_ns ++ s2l "type".
Definition ex_en (s : string) : term := Lit (s2l s) (Some (s2l "en")) None.
Definition ex_de (s : string) : term := Lit (s2l s) (Some (s2l "de")) None.
Definition ex_str (s : string) : term := Lit (s2l s) None None.
Definition ex_ts : list stmt :=
  [Tr (ex "a") (ex "name") (ex_en "Ann"); Tr (ex "a") (ex "name") (ex_de "Anne"); Tr (ex "a") (ex "name") (ex_str "A");
   Tr (ex "a") (ex "knows") (ex "b"); Tr (ex "a") (ex "knows") (ex "c"); Tr (ex "a") (ex "knows") (ex_de "x");
   Tr (ex "b") (Iri ex_type) (ex "Person"); Tr (ex "b") (Iri ex_type) (ex "Agent"); Tr (ex "c") (Iri ex_type) (ex "Agent");
   Tr (ex "b") (ex "name") (ex_en "Bob")].
Definition ex_g : graph := g_addAll (graph_new None) ex_ts.
Definition same_order (l : list term) : list term := l.

Lemma same_order_shuffles : shuffle same_order.
Proof. intro l. apply Permutation_refl. Qed.
Lemma ex_valid : forall c, (c < 4)%nat -> valid ex_w c.
Proof. intros c H. unfold valid. replace (length (w_classes ex_w)) with 4%nat by (vm_compute; reflexivity). exact H. Qed.
Lemma ex_reach : wreach ex_w.
Proof.
  unfold ex_w, ex_w3, ex_w2, ex_w1.
  assert (V : forall w c, (c <? length (w_classes w))%nat = true -> valid w c) by (intros w c H; now apply Nat.ltb_lt in H).
  assert (NC : forall w, forallb (fun x => match fst x with KTypes _ => false | _ => true end) (w_reg w) = true -> no_cached w).
  { intros w H us k J. rewrite forallb_forall in H. specialize (H _ J). discriminate. }
  apply wr_register; [|apply NC; vm_compute; reflexivity|apply V; vm_compute; reflexivity].
  apply wr_class; [|discriminate|constructor; [apply V; vm_compute; reflexivity|constructor]].
  apply wr_register; [|apply NC; vm_compute; reflexivity|apply V; vm_compute; reflexivity].
  apply wr_class; [|discriminate|constructor; [apply V; vm_compute; reflexivity|constructor]].
  apply wr_start.
Qed.
Lemma ex_reachable : reachable ex_g.
Proof.
  apply (reach_step (graph_new None) (OpAddAll ex_ts) (reach_new None)). intros t J.
  assert (X : forallb (fun t => match st_graph t with None => true | _ => false end) ex_ts = true) by (vm_compute; reflexivity).
  rewrite forallb_forall in X. specialize (X t J). unfold is_triple. destruct (st_graph t); [discriminate|reflexivity].
Qed.
Lemma ex_means : forall c key p, resolve ex_w c (s2l key) = Ok (Some p) -> key_means ex_w c (s2l key) p.
Proof. intros c key p H. now apply resolve_means. Qed.

Lemma ex_scalar : forall w c p, in_scalars w c (Some p) = true -> scalar w c p.
Proof. intros w c p H. now apply in_scalars_spec. Qed.
Lemma ex_not_scalar : forall w c p, in_scalars w c (Some p) = false -> ~ scalar w c p.
Proof. intros w c p H. now apply in_scalars_false. Qed.

(** ** C54 *)
Theorem C54_reading : forall ord w c g s k p inst, reachable g -> honoured (Some s) -> p <> [] -> key_means w c (key_text k) p ->
  class_key k = None ->
  let sel := selected (g_iter g) s p (scalar w c p) (lang_of w c) inst k in
  exists os, lists os sel /\
    (exists b, contains ord w c g s k = (w, Ok b) /\ (b = true <-> exists o, sel o)) /\
    (~ scalar w c p \/ unfiltered k -> getitem ord w c g s k = (w, Ok (Many os))) /\
    (scalar w c p -> ~ unfiltered k ->
       ((forall o, ~ sel o) -> getitem ord w c g s k = (w, Ok (One RNone))) /\
       (forall o, sel o -> (forall o', sel o' -> o' = o) ->
          getitem ord w c g s k = let '(w', x) := classify ord w c g o in (w', do v <- x ; Ok (One v))) /\
       (forall o o', sel o -> sel o' -> o <> o' -> getitem ord w c g s k = (w, Err ValueError))) /\
    ((forall o, ~ sel o) -> get_scalar ord w c g s k = (w, Ok RNone)) /\
    (forall o, sel o -> (forall o', sel o' -> o' = o) -> get_scalar ord w c g s k = classify ord w c g o) /\
    (forall o o', sel o -> sel o' -> o <> o' -> get_scalar ord w c g s k = (w, Err ValueError)).
Proof. exact read_selection. Qed.
Theorem C54_reading_by_class : forall ord w c g s t k p tp, reachable g -> honoured (Some s) -> p <> [] -> key_means w c t p ->
  shuffle ord -> wreach w -> valid w c -> written w k -> key_means w c (s2l "rdf:type") tp -> ~ has (g_iter g) s p empty_iri ->
  let sel o := has (g_iter g) s p o /\ instance w (g_iter g) tp k o in
  (exists w', contains ord w c g s (KPair t (FClass k)) = (w', Err TypeError) /\ getitem ord w c g s (KPair t (FClass k)) = (w', Err TypeError) /\
     get_scalar ord w c g s (KPair t (FClass k)) = (w', Err TypeError)) \/
  (exists w' os, lists os sel /\
     (exists b, contains ord w c g s (KPair t (FClass k)) = (w', Ok b) /\ (b = true <-> exists o, sel o)) /\
     (~ scalar w c p -> getitem ord w c g s (KPair t (FClass k)) = (w', Ok (Many os))) /\
     (scalar w c p -> (forall o, ~ sel o) -> getitem ord w c g s (KPair t (FClass k)) = (w', Ok (One RNone))) /\
     (scalar w c p -> forall o, sel o -> (forall o', sel o' -> o' = o) ->
        getitem ord w c g s (KPair t (FClass k)) = let '(w2, x) := classify ord w' c g o in (w2, do v <- x ; Ok (One v))) /\
     (scalar w c p -> forall o o', sel o -> sel o' -> o <> o' -> getitem ord w c g s (KPair t (FClass k)) = (w', Err ValueError))).
Proof. exact read_by_class. Qed.
Theorem C54_bad_keys : forall ord w c g s k, (forall p, ~ key_means w c (key_text k) p) -> (In 58 (key_text k) \/ key_text k = []) ->
  exists e, (e = ValueError \/ e = IndexError) /\
  contains ord w c g s k = (w, Err e) /\ getitem ord w c g s k = (w, Err e) /\ get_scalar ord w c g s k = (w, Err e) /\
  delitem ord w c g s k = (w, g, Err e) /\ forall v, setitem ord w c g s k v = (w, g, Err e).
Proof. exact bad_keys. Qed.
Example C54_example :
  honoured (Some (ex "a")) /\ key_means ex_w 2 (s2l "ex:name") (ex_iri "name") /\ scalar ex_w 2 (ex_iri "name") /\
  ~ scalar ex_w 2 (ex_iri "knows") /\ reachable ex_g /\
  getitem same_order ex_w 2 ex_g (ex "a") (KName (s2l "ex:name")) = (ex_w, Ok (One (RLit (ex_en "Ann")))) /\
  getitem same_order ex_w 2 ex_g (ex "a") (KPair (s2l "ex:name") (FLang (s2l "de"))) = (ex_w, Ok (One (RLit (ex_de "Anne")))) /\
  getitem same_order ex_w 2 ex_g (ex "a") (KPair (s2l "ex:name") FNone) = (ex_w, Ok (Many [ex_en "Ann"; ex_de "Anne"; ex_str "A"])) /\
  getitem same_order ex_w 2 ex_g (ex "a") (KName (s2l "ex:knows")) = (ex_w, Ok (Many [ex "b"; ex "c"; ex_de "x"])) /\
  getitem same_order ex_w 2 ex_g (ex "a") (KPair (s2l "ex:knows") (FLang (s2l "de"))) = (ex_w, Ok (Many [ex_de "x"; ex "b"; ex "c"])) /\
  getitem same_order ex_w 2 ex_g (ex "a") (KName (s2l "nope:x")) = (ex_w, Err ValueError).
Proof.
  split; [discriminate|]. split; [apply ex_means; vm_compute; reflexivity|].
  split; [apply ex_scalar; vm_compute; reflexivity|]. split; [apply ex_not_scalar; vm_compute; reflexivity|]. split; [exact ex_reachable|].
  repeat split; vm_compute; reflexivity.
Qed.
Example C54_class_example :
  shuffle same_order /\ wreach ex_w /\ valid ex_w 2 /\ key_means ex_w 2 (s2l "rdf:type") ex_type /\ written ex_w 2 /\
  ~ has (g_iter ex_g) (ex "a") (ex_iri "knows") empty_iri /\
  snd (getitem same_order ex_w 2 ex_g (ex "a") (KPair (s2l "ex:knows") (FClass 2))) = Ok (Many [ex "b"]) /\
  snd (getitem same_order ex_w 2 ex_g (ex "a") (KPair (s2l "ex:knows") (FClass 3))) = Ok (Many [ex "b"; ex "c"]).
Proof.
  split; [exact same_order_shuffles|]. split; [exact ex_reach|]. split; [apply ex_valid; lia|]. split; [apply ex_means; vm_compute; reflexivity|].
  split; [split; [apply ex_valid; lia|]; intros us J; vm_compute in J; intuition discriminate|].
  split; [intro J; vm_compute in J; intuition discriminate|]. split; vm_compute; reflexivity.
Qed.

(** ** C55 *)
Theorem C55_deleting : forall ord w c g s k p inst, reachable g -> honoured (Some s) -> p <> [] -> key_means w c (key_text k) p ->
  class_key k = None ->
  exists g', delitem ord w c g s k = (w, g', Ok tt) /\ reachable g' /\
    forall t, In t (g_iter g') <-> In t (g_iter g) /\
      ~ (exists o, selected (g_iter g) s p (scalar w c p) (lang_of w c) inst k o /\ t = Tr s (Iri p) o).
Proof. exact delete_selection. Qed.
Theorem C55_deleting_by_class : forall ord w c g s t k p tp, reachable g -> honoured (Some s) -> p <> [] -> key_means w c t p ->
  shuffle ord -> wreach w -> valid w c -> written w k -> key_means w c (s2l "rdf:type") tp -> ~ has (g_iter g) s p empty_iri ->
  exists w' g' r, delitem ord w c g s (KPair t (FClass k)) = (w', g', r) /\
    ((r = Err TypeError /\ g' = g) \/
     (r = Ok tt /\ reachable g' /\
      forall x, In x (g_iter g') <-> In x (g_iter g) /\ ~ (exists o, instance w (g_iter g) tp k o /\ x = Tr s (Iri p) o))).
Proof. exact delete_by_class. Qed.
Example C55_example :
  honoured (Some (ex "a")) /\ key_means ex_w 2 (s2l "ex:knows") (ex_iri "knows") /\
  (let '(_, g', r) := delitem same_order ex_w 2 ex_g (ex "a") (KPair (s2l "ex:knows") (FClass 2)) in
   r = Ok tt /\ (length (g_iter ex_g), length (g_iter g')) = (10%nat, 9%nat) /\ ~ In (Tr (ex "a") (ex "knows") (ex "b")) (g_iter g')) /\
  (let '(_, g', r) := delitem same_order ex_w 2 ex_g (ex "a") (KName (s2l "ex:name")) in
   r = Ok tt /\ length (g_iter g') = 9%nat /\ ~ In (Tr (ex "a") (ex "name") (ex_en "Ann")) (g_iter g')).
Proof.
  split; [discriminate|]. split; [apply ex_means; vm_compute; reflexivity|].
  split; (vm_compute; split; [reflexivity|]; split; [reflexivity|]; intuition discriminate).
Qed.

(** ** C56 *)
Theorem C56_frame : forall ord w c g s k p v w' g' r, reachable g -> key_means w c (key_text k) p ->
  setitem ord w c g s k v = (w', g', r) ->
  reachable g' /\
  (forall t, ~ (st_s t = s /\ st_p t = Iri p) -> (In t (g_iter g') <-> In t (g_iter g))) /\
  (forall e, r = Err e -> (forall t, In t (g_iter g') -> In t (g_iter g)) /\ (e <> KeyError -> g' = g)).
Proof. exact set_frame. Qed.
(** what the objects are after a successful assignment *)
Theorem C56_contents : forall ord w c g s k p v w' g' r tp sc, reachable g -> honoured (Some s) -> p <> [] -> key_means w c (key_text k) p ->
  wreach w -> shuffle ord -> valid w c -> key_means w c (s2l "rdf:type") tp -> (sc = true <-> scalar w c p) ->
  (forall kc, class_key k = Some kc -> written w kc /\ ~ has (g_iter g) s p empty_iri) ->
  setitem ord w c g s k v = (w', g', r) ->
  let lang := text_lang sc (lang_of w c) k in
  (r = Ok tt -> forall t, In t (g_iter g') <->
     (In t (g_iter g) /\ ~ (exists o, t = Tr s (Iri p) o /\
        replaced (instance w (g_iter g) tp) (scalar w c p) (value_lang lang (text_type k) v) k o)) \/
     (exists o, t = Tr s (Iri p) o /\ new_value lang (text_type k) v o)) /\
  (sane_literals (g_iter g) -> (forall a, In a (values v) -> a <> APy VOther) -> r <> Err KeyError).
Proof. exact set_contents. Qed.
(** when it is accepted *)
Theorem C56_accepted_only_if : forall ord w c g s k p v w' g' r tp tp0 sc, reachable g -> honoured (Some s) -> p <> [] -> key_means w c (key_text k) p ->
  wreach w -> shuffle ord -> valid w c -> key_means w c (s2l "rdf:type") tp -> key_means w 0 (s2l "rdf:type") tp0 -> (sc = true <-> scalar w c p) ->
  (forall kc, class_key k = Some kc -> written w kc /\ ~ has (g_iter g) s p empty_iri) -> (forall a, In a (values v) -> usable w a) ->
  setitem ord w c g s k v = (w', g', r) ->
  let lang := text_lang sc (lang_of w c) k in
  r = Ok tt -> form_ok (scalar w c p) k v /\
    forall t f, k = KPair t f -> ~ falsy f -> forall o, new_value lang (text_type k) v o ->
      exists a, In a (values v) /\ one_value lang (text_type k) a o /\ value_fits w (instance w (g_iter g) tp0) f a o.
Proof. exact set_accepts_only. Qed.
Theorem C56_accepted_if : forall ord w c g s k p v w' g' r tp tp0 sc, reachable g -> honoured (Some s) -> p <> [] -> key_means w c (key_text k) p ->
  wreach w -> shuffle ord -> valid w c -> key_means w c (s2l "rdf:type") tp -> key_means w 0 (s2l "rdf:type") tp0 -> (sc = true <-> scalar w c p) ->
  (forall kc, class_key k = Some kc -> written w kc /\ ~ has (g_iter g) s p empty_iri) -> (forall a, In a (values v) -> usable w a) ->
  setitem ord w c g s k v = (w', g', r) ->
  let lang := text_lang sc (lang_of w c) k in
  sane_literals (g_iter g) -> (forall a, In a (values v) -> a <> APy VOther) -> form_ok (scalar w c p) k v ->
  (forall t f, k = KPair t f -> ~ falsy f -> forall a o, In a (values v) -> one_value lang (text_type k) a o ->
     value_fits w (instance w (g_iter g) tp0) f a o) ->
  r = Ok tt \/ (r = Err TypeError /\ (class_key k <> None \/ exists t, In (ATerm t) (values v) /\ node t)).
Proof. exact set_accepts. Qed.
Definition ex_set (k : rkey) (v : sval) : res unit * list stmt :=
  let '(_, g', r) := setitem same_order ex_w 2 ex_g (ex "a") k v in (r, g_match g' (Some (ex "a")) None None).
Example C56_example :
  key_means ex_w 0 (s2l "rdf:type") ex_type /\ sane_literals (g_iter ex_g) /\
  ex_set (KPair (s2l "ex:name") (FLang (s2l "de"))) (SOne (APy (VStr (s2l "Anna")))) =
    (Ok tt, [Tr (ex "a") (ex "name") (ex_en "Ann"); Tr (ex "a") (ex "name") (ex_str "A"); Tr (ex "a") (ex "name") (ex_de "Anna");
             Tr (ex "a") (ex "knows") (ex "b"); Tr (ex "a") (ex "knows") (ex "c"); Tr (ex "a") (ex "knows") (ex_de "x")]) /\
  ex_set (KName (s2l "ex:knows")) (SSet [APy (VInt 7); ATerm (ex "c"); ARes 2 (ex "b")]) =
    (Ok tt, [Tr (ex "a") (ex "name") (ex_en "Ann"); Tr (ex "a") (ex "name") (ex_de "Anne"); Tr (ex "a") (ex "name") (ex_str "A");
             Tr (ex "a") (ex "knows") (Lit (s2l "7") None (Some (xsd "integer"))); Tr (ex "a") (ex "knows") (ex "c"); Tr (ex "a") (ex "knows") (ex "b")]) /\
  fst (ex_set (KName (s2l "ex:name")) (SSet [APy (VStr (s2l "x"))])) = Err ValueError /\
  fst (ex_set (KPair (s2l "ex:knows") (FClass 2)) (SOne (ATerm (ex "c")))) = Err ValueError /\
  fst (ex_set (KPair (s2l "ex:knows") (FClass 3)) (SOne (ATerm (ex "c")))) = Ok tt.
Proof.
  split; [apply ex_means; vm_compute; reflexivity|]. split.
  - intros t v l d J E. change (In t (g_iter ex_g)) with (In t (g_iter ex_g)) in J.
    assert (X : forallb (fun t => match st_o t with Lit _ (Some _) (Some _) => false | _ => true end) (g_iter ex_g) = true) by (vm_compute; reflexivity).
    rewrite forallb_forall in X. specialize (X t J). rewrite E in X. discriminate.
  - repeat split; vm_compute; reflexivity.
Qed.

(** ** C57 *)
Theorem C57_text_on_a_scalar : forall ord w c g s t p v tp tp0, reachable g -> honoured (Some s) -> p <> [] -> key_means w c t p ->
  wreach w -> shuffle ord -> valid w c -> key_means w c (s2l "rdf:type") tp -> key_means w 0 (s2l "rdf:type") tp0 ->
  sane_literals (g_iter g) -> scalar w c p -> lang_of w c <> [] ->
  let new := Lit v (Some (lang_of w c)) None in
  exists g', setitem ord w c g s (KName t) (SOne (APy (VStr v))) = (w, g', Ok tt) /\ reachable g' /\
    getitem ord w c g' s (KName t) = (w, Ok (One (RLit new))) /\
    (forall o, has (g_iter g') s p o <-> o = new \/
       (has (g_iter g) s p o /\ ~ (in_lang (lang_of w c) o \/ typed o \/ node o \/ bare o))).
Proof. exact text_scalar_w. Qed.
Theorem C57_text_in_a_language : forall ord w c g s t l p v tp tp0, reachable g -> honoured (Some s) -> p <> [] -> key_means w c t p ->
  wreach w -> shuffle ord -> valid w c -> key_means w c (s2l "rdf:type") tp -> key_means w 0 (s2l "rdf:type") tp0 ->
  sane_literals (g_iter g) -> l <> [] ->
  let new := Lit v (Some l) None in
  exists g', setitem ord w c g s (KPair t (FLang l)) (SOne (APy (VStr v))) = (w, g', Ok tt) /\ reachable g' /\
    (scalar w c p -> getitem ord w c g' s (KPair t (FLang l)) = (w, Ok (One (RLit new)))) /\
    (~ scalar w c p -> getitem ord w c g' s (KPair t (FLang l)) = (w, Ok (Many [new]))).
Proof. exact text_lang_key_w. Qed.
Theorem C57_text_with_a_datatype : forall ord w c g s t d p v tp tp0, reachable g -> honoured (Some s) -> p <> [] -> key_means w c t p ->
  wreach w -> shuffle ord -> valid w c -> key_means w c (s2l "rdf:type") tp -> key_means w 0 (s2l "rdf:type") tp0 ->
  sane_literals (g_iter g) -> d <> [] -> d <> w3_xsd ++ s2l "string" ->
  let new := Lit v None (Some d) in
  exists g', setitem ord w c g s (KPair t (FType d)) (SOne (APy (VStr v))) = (w, g', Ok tt) /\ reachable g' /\
    (scalar w c p -> getitem ord w c g' s (KPair t (FType d)) = (w, Ok (One (RLit new)))) /\
    (~ scalar w c p -> getitem ord w c g' s (KPair t (FType d)) = (w, Ok (Many [new]))).
Proof. exact text_type_key_w. Qed.
Example C57_example :
  lang_of ex_w 2 = s2l "en" /\
  (let '(w', g', r) := setitem same_order ex_w 2 ex_g (ex "a") (KName (s2l "ex:name")) (SOne (APy (VStr (s2l "Annie")))) in
   r = Ok tt /\ getitem same_order w' 2 g' (ex "a") (KName (s2l "ex:name")) = (w', Ok (One (RLit (ex_en "Annie")))) /\
   getitem same_order w' 2 g' (ex "a") (KPair (s2l "ex:name") FNone) = (w', Ok (Many [ex_de "Anne"; ex_en "Annie"]))).
Proof. vm_compute. repeat split; reflexivity. Qed.
(** with the empty language as the class's language the text is not read back *)
Definition ex_w0 : world := fst (make_class ex_w (s2l "Mute") [0%nat] ex_pre [s2l "ex:name"] (Some []) None).
Theorem C57_empty_language_refuted : exists w c g s t v g', wreach w /\ valid w c /\ reachable g /\ honoured (Some s) /\
  key_means w c t (ex_iri "name") /\ scalar w c (ex_iri "name") /\ lang_of w c = [] /\
  setitem same_order w c g s (KName t) (SOne (APy (VStr v))) = (w, g', Ok tt) /\
  getitem same_order w c g' s (KName t) = (w, Ok (One RNone)).
Proof.
  exists ex_w0, 4%nat, (graph_new None), (ex "a"), (s2l "ex:name"), (s2l "x").
  exists (g_add (graph_new None) (Tr (ex "a") (ex "name") (Lit (s2l "x") (Some []) None))).
  split; [apply wr_class; [exact ex_reach|discriminate|constructor; [apply ex_valid; lia|constructor]]|].
  split; [unfold valid; vm_compute; lia|]. split; [apply reach_new|]. split; [discriminate|].
  split; [apply resolve_means; vm_compute; reflexivity|]. split; [apply ex_scalar; vm_compute; reflexivity|].
  split; [vm_compute; reflexivity|]. split; vm_compute; reflexivity.
Qed.

(** ** C58 *)
Theorem C58_erase : forall g s, reachable g ->
  exists g', erase g s = (g', Ok tt) /\ reachable g' /\
    forall t, In t (g_iter g') <-> In t (g_iter g) /\ s <> empty_iri /\ st_s t <> s.
Proof. exact erase_spec. Qed.
Example C58_example : reachable ex_g /\ length (g_iter (fst (erase ex_g (ex "a")))) = 4%nat /\
  length (g_iter (fst (erase ex_g (ex "zz")))) = 10%nat /\ g_iter (fst (erase ex_g (Iri []))) = [].
Proof. split; [exact ex_reachable|]. vm_compute. repeat split. Qed.

(** ** C59 *)
Theorem C59_copy_never_copies : forall ord w c g s target, reachable g -> honoured (Some s) ->
  (exists t, In t (g_iter g) /\ st_s t = s) ->
  exists t g', In t (g_iter g) /\ st_s t = s /\ copy ord w c g s target = (w, g', Err AttributeError) /\
    (forall x, In x (g_iter g') <-> In x (g_iter g) \/ x = Tr target (st_p t) (st_o t)) /\
    (forall a b o, as_wildcard a <> None \/ as_wildcard b <> None \/ as_wildcard o <> None ->
       ~ (as_wildcard a <> None /\ as_wildcard b <> None /\ as_wildcard o <> None) -> g_match g' a b o = g_match g a b o).
Proof. exact copy_spec. Qed.
Theorem C59_copy_of_nothing : forall ord w c g s target, reachable g -> honoured (Some s) -> (forall t, In t (g_iter g) -> st_s t <> s) ->
  copy ord w c g s target = let '(w', x) := classify ord w c g target in (w', g, x).
Proof. exact copy_nothing. Qed.
Example C59_example :
  (let '(_, g', r) := copy same_order ex_w 2 ex_g (ex "a") (ex "t") in
   r = Err AttributeError /\ length (g_iter g') = 11%nat /\ In (Tr (ex "t") (ex "name") (ex_en "Ann")) (g_iter g') /\
   g_match g' (Some (ex "t")) None None = []) /\
  copy same_order ex_w 2 ex_g (ex "zz") (ex "c") = (ex_w, ex_g, Ok (RRes 3 (ex "c"))).
Proof. vm_compute. repeat split. tauto. Qed.

(** ** C60 *)
Theorem C60_new : forall w c g n a tp, reachable g -> wreach w -> valid w c -> key_means w c (s2l "rdf:type") tp ->
  exists s g', new w c g n a = (g', Ok (c, s)) /\ reachable g' /\
    s = Iri (match a with NewNone => bnode_str n | NewIri i => i | NewBNode b => bnode_str b end) /\
    (forall t, In t (g_iter g') <-> In t (g_iter g) \/ exists k, In k (rdf_classes_of w c) /\ t = Tr s (Iri tp) k) /\
    (honoured (Some s) -> (forall k, In k (rdf_classes_of w c) -> honoured (Some k)) -> is_a w c g' s = Ok true).
Proof. exact new_w. Qed.
Example C60_example :
  key_means ex_w 2 (s2l "rdf:type") ex_type /\ rdf_classes_of ex_w 2 = [ex "Person"] /\
  (let '(g', r) := new ex_w 2 ex_g 3 NewNone in
   r = Ok (2%nat, Iri (bnode_str 3)) /\ length (g_iter g') = 11%nat /\ In (Tr (Iri (bnode_str 3)) (Iri ex_type) (ex "Person")) (g_iter g')) /\
  snd (new ex_w 2 ex_g 3 (NewBNode 5)) = Ok (2%nat, Iri (bnode_str 5)) /\ bnode_str 5 = s2l "_:F" /\
  is_a ex_w 2 ex_g (ex "c") = Ok false.
Proof. split; [apply ex_means; vm_compute; reflexivity|]. vm_compute. repeat split. tauto. Qed.

(** ** C61 *)
Theorem C61_one_type : forall ord w c g k tp, reachable g -> shuffle ord -> wreach w -> valid w c -> key_means w c (s2l "rdf:type") tp ->
  rdf_classes_of w c = [k] -> honoured (Some k) ->
  exists l, in_graph ord w c g = Ok l /\ forall x, In x l <-> exists s, In (Tr s (Iri tp) k) (g_iter g) /\ stands_for s x.
Proof. exact in_graph_one_w. Qed.
Theorem C61_some_subject_has_all : forall ord w c g tp, reachable g -> shuffle ord -> wreach w -> valid w c -> key_means w c (s2l "rdf:type") tp ->
  rdf_classes_of w c <> [] -> (forall k, In k (rdf_classes_of w c) -> honoured (Some k)) ->
  (exists y, forall k, In k (rdf_classes_of w c) -> In (Tr y (Iri tp) k) (g_iter g)) ->
  exists l, in_graph ord w c g = Ok l /\
    forall x, In x l <-> exists s, (forall k, In k (rdf_classes_of w c) -> In (Tr s (Iri tp) k) (g_iter g)) /\ stands_for s x.
Proof. exact in_graph_some_w. Qed.
(** otherwise subjects that lack a type may be returned *)
Definition ex_wb : world := fst (make_class ex_w (s2l "Both") [2%nat; 3%nat] [] [] None (Some [ex "Robot"; ex "Agent"])).
Theorem C61_lacking_a_type_refuted : exists w c g x k l, wreach w /\ valid w c /\ reachable g /\ key_means w c (s2l "rdf:type") ex_type /\
  in_graph same_order w c g = Ok l /\ In x l /\ In k (rdf_classes_of w c) /\ ~ In (Tr x (Iri ex_type) k) (g_iter g).
Proof.
  exists ex_wb, 4%nat, ex_g, (ex "c"), (ex "Robot"), [ex "b"; ex "c"].
  split; [apply wr_class; [exact ex_reach|discriminate|constructor; [apply ex_valid; lia|constructor; [apply ex_valid; lia|constructor]]]|].
  split; [unfold valid; vm_compute; lia|]. split; [exact ex_reachable|]. split; [apply resolve_means; vm_compute; reflexivity|].
  split; [vm_compute; reflexivity|]. split; [right; now left|]. split; [vm_compute; now left|]. vm_compute. intuition discriminate.
Qed.
Definition ex_wc : world := fst (make_class ex_w (s2l "Both") [2%nat; 3%nat] [] [] None (Some [ex "Person"; ex "Agent"])).
Example C61_example :
  in_graph same_order ex_w 3 ex_g = Ok [ex "b"; ex "c"] /\ rdf_classes_of ex_w 3 = [ex "Agent"] /\
  in_graph same_order ex_wc 4 ex_g = Ok [ex "b"] /\ rdf_classes_of ex_wc 4 = [ex "Person"; ex "Agent"] /\
  (forall k, In k (rdf_classes_of ex_wc 4) -> In (Tr (ex "b") (Iri ex_type) k) (g_iter ex_g)).
Proof.
  split; [vm_compute; reflexivity|]. split; [vm_compute; reflexivity|]. split; [vm_compute; reflexivity|]. split; [vm_compute; reflexivity|].
  intros k J. assert (K : k = ex "Person" \/ k = ex "Agent") by (vm_compute in J; vm_compute; intuition). destruct K as [-> | ->]; vm_compute; tauto.
Qed.

(** ** C62 *)
Theorem C62_list_that_ends : forall early ord w c g first rest nil tp s os f w' vs r, wreach_if early w -> shuffle ord -> valid w c -> reachable g ->
  list_keys w c first rest nil tp -> lang_of w c <> [] -> path (g_iter g) first rest nil s os (Iri nil) ->
  list_iter ord (length os + S f) w c g s = (w', (vs, r)) ->
  (r = Ok tt /\ Forall2 (shown (lang_of w c)) os vs \/ r = Err TypeError) /\
  (unambiguous (g_iter g) first rest w tp -> r = Ok tt /\ w' = w /\ Forall2 (classed w (g_iter g) tp) os vs).
Proof. exact list_ends. Qed.
Theorem C62_list_that_breaks : forall early ord w c g first rest nil tp s os e f w' vs r, wreach_if early w -> shuffle ord -> valid w c -> reachable g ->
  list_keys w c first rest nil tp -> lang_of w c <> [] -> path (g_iter g) first rest nil s os e -> broken (g_iter g) first rest nil e ->
  list_iter ord (length os + S f) w c g s = (w', (vs, r)) ->
  (r = Err AttributeError /\ (exists vs1 v, vs = vs1 ++ [v] /\ Forall2 (shown (lang_of w c)) os vs1) \/ r = Err TypeError) /\
  (unambiguous (g_iter g) first rest w tp -> r = Err AttributeError /\ w' = w /\ exists vs1 v, vs = vs1 ++ [v] /\ Forall2 (classed w (g_iter g) tp) os vs1).
Proof. exact list_breaks. Qed.
Theorem C62_list_that_cycles : forall early ord w c g first rest nil tp (P : term -> Prop) s f w' vs r,
  wreach_if early w -> shuffle ord -> valid w c -> reachable g ->
  list_keys w c first rest nil tp -> lang_of w c <> [] ->
  (forall x, P x -> exists o y, cell (g_iter g) first rest nil x o y /\ P y) -> P s ->
  list_iter ord f w c g s = (w', (vs, r)) ->
  (r = Err OutOfFuel /\ length vs = f \/ r = Err TypeError) /\
  (unambiguous (g_iter g) first rest w tp -> r = Err OutOfFuel /\ w' = w).
Proof. exact list_cycles. Qed.
Definition ex_first := Iri (rdf_ns ++ s2l "first").
Definition ex_rest := Iri (rdf_ns ++ s2l "rest").
Definition ex_nil := Iri (rdf_ns ++ s2l "nil").
Definition ex_lts : list stmt :=
  [Tr (BNode 1) ex_first (ex "b"); Tr (BNode 1) ex_rest (BNode 2); Tr (BNode 2) ex_first (ex_str "x"); Tr (BNode 2) ex_rest ex_nil;
   Tr (BNode 3) ex_first (ex_de "y"); Tr (BNode 3) ex_rest (BNode 4); Tr (BNode 4) ex_first (ex_en "z");
   Tr (BNode 5) ex_first (ex_str "x"); Tr (BNode 5) ex_rest (BNode 6); Tr (BNode 6) ex_first (ex_str "y"); Tr (BNode 6) ex_rest (BNode 5)].
Definition ex_lg : graph := g_addAll (graph_new None) ex_lts.
Definition only_check (G : list stmt) (s : term) (p : str) (o : term) : bool :=
  forallb (fun t => if stmt_eq_dec t (Tr s (Iri p) (st_o t)) then (if term_eq_dec (st_o t) o then true else false) else true) G &&
  (if in_dec stmt_eq_dec (Tr s (Iri p) o) G then true else false).
Lemma only_checked : forall G s p o, only_check G s p o = true -> only G s p o.
Proof.
  intros G s p o H x. apply andb_prop in H. destruct H as [A B]. rewrite forallb_forall in A.
  destruct (in_dec _ _ _) as [i|]; [|discriminate]. split; [|intros ->; exact i].
  intro J. specialize (A _ J). cbn [st_o Tr] in A. destruct (stmt_eq_dec _ _) as [_|N] in A; [|now contradiction N].
  destruct (term_eq_dec x o) in A; [assumption|discriminate].
Qed.
Lemma ex_cell : forall a b o, (a, o, b) = (BNode 1, ex "b", BNode 2) \/ (a, o, b) = (BNode 2, ex_str "x", ex_nil) \/ (a, o, b) = (BNode 3, ex_de "y", BNode 4) \/
  (a, o, b) = (BNode 5, ex_str "x", BNode 6) \/ (a, o, b) = (BNode 6, ex_str "y", BNode 5) ->
  cell (g_iter ex_lg) (rdf_ns ++ s2l "first") (rdf_ns ++ s2l "rest") (rdf_ns ++ s2l "nil") a o b.
Proof.
  intros a b o [[= -> -> ->]|[[= -> -> ->]|[[= -> -> ->]|[[= -> -> ->]|[= -> -> ->]]]]].
  all: split; [discriminate|]; split; [discriminate|]; split; [apply only_checked; vm_compute; reflexivity|]; split; [apply only_checked; vm_compute; reflexivity|exact Logic.I].
Qed.
Example C62_example :
  list_keys ex_w 1 (rdf_ns ++ s2l "first") (rdf_ns ++ s2l "rest") (rdf_ns ++ s2l "nil") ex_type /\ lang_of ex_w 1 = s2l "en" /\
  path (g_iter ex_lg) (rdf_ns ++ s2l "first") (rdf_ns ++ s2l "rest") (rdf_ns ++ s2l "nil") (BNode 1) [ex "b"; ex_str "x"] ex_nil /\
  list_iter same_order 3 ex_w 1 ex_lg (BNode 1) = (ex_w, ([One (RRes 0 (ex "b")); One (RLit (ex_str "x"))], Ok tt)) /\
  broken (g_iter ex_lg) (rdf_ns ++ s2l "first") (rdf_ns ++ s2l "rest") (rdf_ns ++ s2l "nil") (BNode 4) /\
  list_iter same_order 3 ex_w 1 ex_lg (BNode 3) = (ex_w, ([One RNone; One (RLit (ex_en "z"))], Err AttributeError)) /\
  (let P x := x = BNode 5 \/ x = BNode 6 in
   (forall x, P x -> exists o y, cell (g_iter ex_lg) (rdf_ns ++ s2l "first") (rdf_ns ++ s2l "rest") (rdf_ns ++ s2l "nil") x o y /\ P y) /\ P (BNode 5)) /\
  list_iter same_order 5 ex_w 1 ex_lg (BNode 5) =
    (ex_w, ([One (RLit (ex_str "x")); One (RLit (ex_str "y")); One (RLit (ex_str "x")); One (RLit (ex_str "y")); One (RLit (ex_str "x"))], Err OutOfFuel)).
Proof.
  split; [do 4 (split; [apply ex_means; vm_compute; reflexivity|]); split; apply ex_scalar; vm_compute; reflexivity|].
  split; [vm_compute; reflexivity|].
  split; [apply (path_cell _ _ _ _ _ _ (BNode 2)); [apply ex_cell; tauto|]; apply (path_cell _ _ _ _ _ _ ex_nil); [apply ex_cell; tauto|]; apply path_here|].
  split; [vm_compute; reflexivity|].
  split; [split; [discriminate|]; split; [discriminate|]; split; [right; exists (ex_en "z"); apply only_checked; vm_compute; reflexivity|left; intros x J; vm_compute in J; intuition discriminate]|].
  split; [vm_compute; reflexivity|]. split; [|vm_compute; reflexivity]. split; [|now left].
  intros x [-> | ->].
  - exists (ex_str "x"), (BNode 6). split; [apply ex_cell; tauto|now right].
  - exists (ex_str "y"), (BNode 5). split; [apply ex_cell; tauto|now left].
Qed.
(** a list whose elements have registered types *)
Definition ex_tts : list stmt :=
  [Tr (BNode 1) ex_first (ex "b"); Tr (BNode 1) ex_rest (BNode 2); Tr (BNode 2) ex_first (ex "d"); Tr (BNode 2) ex_rest ex_nil;
   Tr (ex "b") (Iri ex_type) (ex "Agent"); Tr (ex "d") (Iri ex_type) (ex "Nobody")].
Definition ex_tg : graph := g_addAll (graph_new None) ex_tts.
Example C62_class_example : registered ex_w (ex_iri "Agent") 3 /\
  list_iter same_order 3 ex_w 1 ex_tg (BNode 1) = (ex_w, ([One (RRes 3 (ex "b")); One (RRes 0 (ex "d"))], Ok tt)).
Proof. split; [apply registered_type; vm_compute; reflexivity|vm_compute; reflexivity]. Qed.

(** ** C63 *)
Theorem C63_literals : forall ord w c g v l d, classify ord w c g (Lit v l d) = (w, Ok (RLit (Lit v l d))) /\ classify_opt ord w c g None = (w, Ok RNone).
Proof. intros. split; reflexivity. Qed.
Theorem C63_at_most_one_class : forall early ord w c g o tp, reachable g -> wreach_if early w -> shuffle ord -> valid w c -> key_means w c (s2l "rdf:type") tp ->
  node o -> honoured (Some o) -> single w (g_iter g) tp o ->
  ((forall t k, has_type (g_iter g) tp o t -> ~ registered w t k) -> classify ord w c g o = (w, Ok (RRes 0 o))) /\
  (forall t k, has_type (g_iter g) tp o t -> registered w t k -> classify ord w c g o = (w, Ok (RRes k o))).
Proof. exact classify_single_w. Qed.
Theorem C63_any_classes : forall ord w c g o tp w' r, reachable g -> wreach w -> shuffle ord -> valid w c -> key_means w c (s2l "rdf:type") tp ->
  node o -> honoured (Some o) -> classify ord w c g o = (w', r) ->
  wreach w' /\
  ((r = Err TypeError /\ w' = w /\ ~ single w (g_iter g) tp o) \/
   exists k, r = Ok (RRes k o) /\ valid w' k /\
     (forall j, written w j -> (In j (c_mro (class_at w' k)) <-> instance w (g_iter g) tp j o)) /\
     classify ord w' c g o = (w', Ok (RRes k o))).
Proof. exact classify_node. Qed.
Example C63_example :
  classify same_order ex_w 2 ex_g (ex "a") = (ex_w, Ok (RRes 0 (ex "a"))) /\
  classify same_order ex_w 2 ex_g (ex "c") = (ex_w, Ok (RRes 3 (ex "c"))) /\
  single ex_w (g_iter ex_g) ex_type (ex "c") /\
  (let '(w', r) := classify same_order ex_w 2 ex_g (ex "b") in
   r = Ok (RRes 4 (ex "b")) /\ c_mro (class_at w' 4) = [4; 2; 3; 0]%nat /\ c_name (class_at w' 4) = s2l "PersonAgent").
Proof.
  split; [vm_compute; reflexivity|]. split; [vm_compute; reflexivity|]. split; [|vm_compute; repeat split].
  intros t t' k k' A B _ _. vm_compute in A. vm_compute in B.
  repeat (destruct A as [A|A]; [try discriminate; injection A as <-|]); [|destruct A].
  repeat (destruct B as [B|B]; [try discriminate; injection B as <-; reflexivity|]). destruct B.
Qed.
(** a class registered after a combined class was made is not seen *)
Definition ex_lg3 : graph := g_addAll ex_g [Tr (ex "b") (Iri ex_type) (ex "Robot")].
Definition ex_ws1 : world := fst (classify same_order ex_w 2 ex_lg3 (ex "b")).
Definition ex_ws2 : world := fst (make_class ex_ws1 (s2l "Robot") [0%nat] ex_pre [] None None).
Definition ex_ws : world := fst (register_class ex_ws2 (s2l "ex:Robot") 5).
Theorem C63_late_registration_refuted : exists w c g o k j w', wreach_any w /\ valid w c /\ reachable g /\ key_means w c (s2l "rdf:type") ex_type /\
  written w j /\ instance w (g_iter g) ex_type j o /\ classify same_order w c g o = (w', Ok (RRes k o)) /\ ~ In j (c_mro (class_at w' k)).
Proof.
  exists ex_ws, 2%nat, ex_lg3, (ex "b"), 4%nat, 5%nat, ex_ws.
  assert (A : forall w, wreach w -> wreach_any w).
  { induction 1; [apply wr_start|apply wr_class; auto|apply wr_register; auto|apply wr_classify; auto|apply wr_profile; auto]. }
  assert (V : forall w c, (c <? length (w_classes w))%nat = true -> valid w c) by (intros w c H; now apply Nat.ltb_lt in H).
  split. { apply wr_register; [|exact Logic.I|apply V; vm_compute; reflexivity]. apply wr_class; [|discriminate|constructor; [apply V; vm_compute; reflexivity|constructor]].
    apply wr_classify; [apply A, ex_reach|exact same_order_shuffles|apply ex_valid; lia]. }
  split; [apply V; vm_compute; reflexivity|].
  split. { apply (reach_step ex_g (OpAddAll [Tr (ex "b") (Iri ex_type) (ex "Robot")]) ex_reachable). intros t [<-|[]]. reflexivity. }
  split; [apply resolve_means; vm_compute; reflexivity|].
  split. { split; [apply V; vm_compute; reflexivity|]. intros us J. vm_compute in J. intuition discriminate. }
  split. { split; [exact Logic.I|]. right. exists (ex_iri "Robot"), 5%nat. split; [vm_compute; tauto|]. split; [apply registered_type; vm_compute; reflexivity|vm_compute; tauto]. }
  split; [vm_compute; reflexivity|]. vm_compute. intuition discriminate.
Qed.

(** ** C64 *)
Theorem C64_class_body : forall early w name bases own scalars lang rdfs w' me, wreach_if early w -> NoDup (map fst own) ->
  make_class w name bases own scalars lang rdfs = (w', Ok me) ->
  (forall k v, lookup (c_prefixes (class_at w' me)) k v <-> inherits w bases own k v) /\
  (forall p, scalar w' me p <-> (exists b, In b bases /\ scalar w b p) \/
     exists a, In a scalars /\ curie_means registered_schemes (c_prefixes (class_at w' me)) a p) /\
  (forall c, valid w c -> class_at w' c = class_at w c).
Proof. exact class_body. Qed.
Example C64_example :
  let own := [(s2l "ex", s2l "http://other/")] in
  NoDup (map fst own) /\
  (let '(w', r) := make_class ex_w (s2l "Sub") [3; 2]%nat own [s2l "ex:id"] None None in
   r = Ok 4%nat /\ c_prefixes (class_at w' 4) = [(s2l "rdf", rdf_ns); (s2l "rdfs", rdfs_ns); (s2l "ex", s2l "http://other/")] /\
   c_scalars (class_at w' 4) = [rdfs_ns ++ s2l "label"; ex_iri "name"; s2l "http://other/id"] /\
   c_prefixes (class_at w' 2) = [(s2l "rdf", rdf_ns); (s2l "rdfs", rdfs_ns); (s2l "ex", s2l "http://ex/")]).
Proof. split; [repeat constructor; intros []|]. vm_compute. repeat split. Qed.

(** ** C77 *)
Theorem C77_unknown_name_without_a_colon : forall ord w c g s t, reachable g -> honoured (Some s) -> t <> [] -> ~ In 58 t -> (forall x, ~ key_means w c t x) ->
  exists os, (forall o, In o os <-> exists p, In (Tr s p o) (g_iter g)) /\
    getitem ord w c g s (KName t) = (w, Ok (Many os)) /\
    contains ord w c g s (KName t) = (w, Ok (match os with [] => false | _ => true end)) /\
    delitem ord w c g s (KName t) = (w, g, match os with [] => Ok tt | _ => Err KeyError end).
Proof. exact colonless_w. Qed.
Example C77_example : (forall x, ~ key_means ex_w 2 (s2l "nmae") x) /\ ~ In 58 (s2l "nmae") /\
  getitem same_order ex_w 2 ex_g (ex "a") (KName (s2l "nmae")) =
    (ex_w, Ok (Many [ex_en "Ann"; ex_de "Anne"; ex_str "A"; ex "b"; ex "c"; ex_de "x"])) /\
  contains same_order ex_w 2 ex_g (ex "a") (KName (s2l "nmae")) = (ex_w, Ok true).
Proof.
  split; [intros x M; apply resolve_means in M; vm_compute in M; discriminate|]. split; [vm_compute; intuition discriminate|].
  split; vm_compute; reflexivity.
Qed.

Print Assumptions C54_reading.
Print Assumptions C54_reading_by_class.
Print Assumptions C54_bad_keys.
Print Assumptions C55_deleting.
Print Assumptions C55_deleting_by_class.
Print Assumptions C56_frame.
Print Assumptions C56_contents.
Print Assumptions C56_accepted_only_if.
Print Assumptions C56_accepted_if.
Print Assumptions C57_text_on_a_scalar.
Print Assumptions C57_text_in_a_language.
Print Assumptions C57_text_with_a_datatype.
Print Assumptions C57_empty_language_refuted.
Print Assumptions C58_erase.
Print Assumptions C59_copy_never_copies.
Print Assumptions C59_copy_of_nothing.
Print Assumptions C60_new.
Print Assumptions C61_one_type.
Print Assumptions C61_some_subject_has_all.
Print Assumptions C61_lacking_a_type_refuted.
Print Assumptions C62_list_that_ends.
Print Assumptions C62_list_that_breaks.
Print Assumptions C62_list_that_cycles.
Print Assumptions C63_literals.
Print Assumptions C63_at_most_one_class.
Print Assumptions C63_any_classes.
Print Assumptions C63_late_registration_refuted.
Print Assumptions C64_class_body.
Print Assumptions C77_unknown_name_without_a_colon.
