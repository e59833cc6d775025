(** Properties C93-C94: the tuple classes as Python objects, the create methods of
    environments. *)
From Coq Require Import Permutation.
From Verif Require Import Model.Py Model.Terms Model.Graph Model.GraphRun Model.Dataset Model.Curie Model.Tuples
  Spec.GraphSpec Spec.DatasetSpec Spec.CurieSpec Spec.TuplesSpec Proofs.GraphInv Proofs.GraphHist Proofs.DatasetInv Proofs.DatasetHist Proofs.TuplesLemmas.
Open Scope N_scope.

(** ** C93 *)
Theorem C93_make : forall A k (l : list A),
  (length l = arity k -> make k l = Ok (mkI k l) /\ exists d, has_items (mkI k l) d) /\ (length l <> arity k -> make k l = Err TypeError).
Proof. intro A. exact make_outcome. Qed.
Theorem C93_attributes : forall A (x : inst A) d, has_items x d -> asdict x = d /\ forall f v, attr x f = Some v <-> In (f, v) d.
Proof. intros A x d H. split; [apply (items_wf x d H)|]. intros f v. now apply attr_items. Qed.
Theorem C93_replace : forall A (x : inst A) d kwds, has_items x d -> NoDup (map fst kwds) ->
  (In (s2l "_self") (map fst kwds) -> replace_ x kwds = Err TypeError) /\
  (~ In (s2l "_self") (map fst kwds) -> (exists f, In f (map fst kwds) /\ ~ In f (map fst d)) -> replace_ x kwds = Err ValueError) /\
  ((forall f, In f (map fst kwds) -> In f (map fst d)) ->
    exists y, replace_ x kwds = Ok y /\ i_kind y = i_kind x /\ (exists d', has_items y d') /\
      forall f v, attr y f = Some v <-> In (f, v) kwds \/ (In (f, v) d /\ ~ In f (map fst kwds))).
Proof. intro A. exact replace_outcome. Qed.
Theorem C93_replace_all : forall A (x y : inst A) d d', has_items x d -> has_items y d' -> i_kind x = i_kind y -> replace_ x (asdict y) = Ok y.
Proof. intro A. exact replace_asdict. Qed.
(** copy.copy and pickle *)
Theorem C93_copies : forall (x : inst fval) d, has_items x d ->
  (i_kind x <> KLiteral -> copied x = Ok x) /\
  (forall v l t, x = mkI KLiteral [v; l; t] ->
     (forall s, v = FPy (VStr s) \/ v = FTerm (Iri s) -> copied x = Ok x) /\
     (forall z, v = FPy (VInt z) -> exists ds, dec_value ds = Some z /\ canonical_int ds /\
        copied x = Ok (mkI KLiteral [FPy (VStr ds); l; match t with FNone => FTerm (Iri (s2l "http://www.w3.org/2001/XMLSchema#integer")) | _ => t end])) /\
     (forall iso, v = FPy (VDatetime iso) -> copied x = Ok (mkI KLiteral [FPy (VStr iso); l; match t with FNone => FTerm (Iri (s2l "http://www.w3.org/2001/XMLSchema#dateTime")) | _ => t end])) /\
     ((forall s, v <> FPy (VStr s) /\ v <> FTerm (Iri s)) -> (forall z, v <> FPy (VInt z)) -> (forall iso, v <> FPy (VDatetime iso)) -> copied x = Err KeyError)).
Proof. exact copy_outcome. Qed.
(** the constructors: the number of arguments, and the defaults of Literal; with all
    three arguments given, C93_copies says what Literal does with them *)
Theorem C93_constructors : forall k args,
  (k <> KLiteral -> (length args = arity k -> new_inst k args = Ok (mkI k args)) /\ (length args <> arity k -> new_inst k args = Err TypeError)) /\
  (k = KLiteral -> args = [] \/ (arity k < length args)%nat -> new_inst k args = Err TypeError) /\
  (forall v, k = KLiteral -> args = [v] -> new_inst k args = copied (mkI k [v; FNone; FNone])) /\
  (forall v l, k = KLiteral -> args = [v; l] -> new_inst k args = copied (mkI k [v; l; FNone])) /\
  (forall v l d, k = KLiteral -> args = [v; l; d] -> new_inst k args = copied (mkI k [v; l; d])).
Proof.
  intros k args. split; [|split; [|split; [|split]]]; intros; subst; try reflexivity.
  - split; intro L; destruct k; try congruence; destruct args as [|a [|b [|c [|d [|e args]]]]]; try discriminate; try reflexivity; now elim L.
  - cbn [arity] in *. destruct args as [|a [|b [|c [|d args]]]]; try reflexivity; destruct H0; try discriminate; cbn in *; lia.
Qed.
Theorem C93_constructed_values_copy : forall k args x, new_inst k args = Ok x -> copied x = Ok x.
Proof. exact copy_constructed. Qed.
(** a copy equals the original: not for literals made by _make or _replace *)
Theorem C93_copies_are_equal_refuted : exists x y z : inst fval, replace_ x [(s2l "value", FPy (VInt 5))] = Ok y /\
  copied x = Ok x /\ copied y = Ok z /\ z <> y /\ attr z (s2l "value") = Some (FPy (VStr (s2l "5"))).
Proof.
  exists (mkI KLiteral [FPy (VStr (s2l "a")); FNone; FNone]), (mkI KLiteral [FPy (VInt 5); FNone; FNone]),
    (mkI KLiteral [FPy (VStr (s2l "5")); FNone; FTerm (Iri (xsd "integer"))]).
  split; [reflexivity|]. split; [reflexivity|]. split; [vm_compute; reflexivity|]. split; [discriminate|]. vm_compute. reflexivity.
Qed.
(** instances of different classes can be equal: tuples are compared by their items *)
Theorem C93_equality : forall A (e : A -> A -> bool) (x y : inst A), (forall a b, e a b = true <-> a = b) -> (inst_eq e x y = true <-> i_items x = i_items y).
Proof.
  intros A e [k l] [k' m] R. unfold inst_eq. cbn [i_items]. clear k k'. revert m. induction l as [|a l IH]; intros [|b m]; cbn; try (split; [discriminate|discriminate]); [tauto|].
  specialize (IH m). rewrite andb_true_iff in *. rewrite andb_true_iff, R. split.
  - intros (A1 & -> & A2). f_equal. apply IH. auto.
  - intros E. injection E as -> E. apply IH in E. tauto.
Qed.
Theorem C93_equality_ignores_the_class : forall A (e : A -> A -> bool) a b c, (forall x, e x x = true) ->
  inst_eq e (mkI KTriple [a; b; c]) (mkI KLiteral [a; b; c]) = true.
Proof. intros A e a b c R. unfold inst_eq. cbn. now rewrite !R. Qed.
Example C93_example : let x := mkI KTriple [FTerm (BNode 1); FTerm (Iri (s2l "http://p")); FNone] in
  has_items x [(s2l "subject", FTerm (BNode 1)); (s2l "predicate", FTerm (Iri (s2l "http://p"))); (s2l "object", FNone)] /\
  NoDup (map fst [(s2l "object", FPy (VInt 3))]) /\
  replace_ x [(s2l "object", FPy (VInt 3))] = Ok (mkI KTriple [FTerm (BNode 1); FTerm (Iri (s2l "http://p")); FPy (VInt 3)]) /\
  replace_ x [(s2l "graph", FNone)] = Err ValueError /\ replace_ x [(s2l "_self", FNone); (s2l "graph", FNone)] = Err TypeError /\
  make KQuad (i_items x) = Err TypeError /\ new_inst KQuad (i_items x) = Err TypeError /\ new_inst KLiteral [FPy (VInt 7)] = Ok (mkI KLiteral [FPy (VStr (s2l "7")); FNone; FTerm (Iri (xsd "integer"))]) /\
  (forall a b, N.eqb a b = true <-> a = b) /\ inst_eq N.eqb (mkI KTriple [1; 2; 3]) (mkI KLiteral [1; 2; 4]) = false.
Proof.
  cbv zeta. split; [constructor|]. split; [constructor; [intros []|constructor]|]. do 6 (split; [vm_compute; reflexivity|]). split; [exact N.eqb_eq|reflexivity].
Qed.

(** ** C94 *)
Theorem C94_createGraph : forall ts, (forall t, In t ts -> is_triple t) -> lists (g_iter (create_graph ts)) (fun t => In t ts) /\ reachable (create_graph ts).
Proof. exact env_graph. Qed.
Theorem C94_createGraph_of_toArray : forall g, reachable g -> Permutation (g_iter (create_graph (g_iter g))) (g_iter g).
Proof.
  intros g R. assert (T : forall t, In t (g_iter g) -> is_triple t) by (intros t J; destruct (reachable_wf g R) as (_ & HT & _); now apply HT).
  destruct (env_graph (g_iter g) T) as [[N L] _]. apply NoDup_Permutation; [exact N|apply (reachable_wf g R)|exact L].
Qed.
Theorem C94_createDataset : forall qs, (forall q, In q qs -> is_quad q) ->
  exists w, create_dataset [] qs = (w, Ok tt) /\ lists (ds_iter w) (fun q => In q qs).
Proof. exact env_dataset. Qed.
Theorem C94_createDataset_of_triples : forall qs, (exists q, In q qs /\ ~ is_quad q) -> snd (create_dataset [] qs) = Err AttributeError.
Proof.
  intros qs (q & J & N). apply env_dataset_triple. exists q. split; [exact J|]. destruct (st_graph q) as [o|] eqn:E; [|reflexivity]. exfalso. apply N. now exists o.
Qed.
Theorem C94_createDataset_of_toArray : forall w, ds_reachable w ->
  exists w', create_dataset [] (ds_toArray w) = (w', Ok tt) /\ lists (ds_iter w') (fun q => In q (ds_iter w)).
Proof.
  intros w R. destruct (env_dataset (ds_toArray w)) as (w' & E & N & L).
  - intros q J. unfold ds_toArray in J. rewrite nodup_In in J. unfold ds_iter in J. apply in_concat in J. destruct J as (l & K & J).
    apply in_map_iff in K. destruct K as (i & <- & _). apply in_map_iff in J. destruct J as (t & <- & _). eexists. reflexivity.
  - exists w'. split; [exact E|]. split; [exact N|]. intro q. rewrite L. unfold ds_toArray. apply nodup_In.
Qed.
Example C94_example : let t := Tr (BNode 1) (Iri (s2l "http://p")) (Lit (s2l "x") None None) in
  (forall x, In x [t; t] -> is_triple x) /\ g_iter (create_graph [t; t]) = [t] /\ is_quad (t_as_q None t) /\ ~ is_quad t /\
  snd (create_dataset [] [t_as_q None t; t]) = Err AttributeError /\ ds_iter (fst (create_dataset [] [t_as_q None t])) = [t_as_q None t].
Proof.
  cbv zeta. split; [intros x [<-|[<-|[]]]; reflexivity|]. split; [vm_compute; reflexivity|]. split; [now eexists|]. split; [intros [n E]; discriminate E|].
  split; vm_compute; reflexivity.
Qed.

Print Assumptions C93_make.
Print Assumptions C93_attributes.
Print Assumptions C93_replace.
Print Assumptions C93_replace_all.
Print Assumptions C93_copies.
Print Assumptions C93_constructors.
Print Assumptions C93_constructed_values_copy.
Print Assumptions C93_copies_are_equal_refuted.
Print Assumptions C93_equality.
Print Assumptions C93_equality_ignores_the_class.
Print Assumptions C94_createGraph.
Print Assumptions C94_createGraph_of_toArray.
Print Assumptions C94_createDataset.
Print Assumptions C94_createDataset_of_triples.
Print Assumptions C94_createDataset_of_toArray.
