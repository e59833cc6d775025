(** Resource: reading back assignments (C57), new and is_a (C60), in_graph (C61),
    lists (C62), classify (C63), class prefixes (C64). *)
From Coq Require Import Permutation.
From Verif Require Import Model.Py Model.Terms Model.Graph Model.GraphRun Model.Codec Model.Curie Model.Resource Model.ResourceRun
  Spec.GraphSpec Spec.CurieSpec Spec.ResourceSpec
  Proofs.DictLemmas Proofs.GraphInv Proofs.GraphHist Proofs.CurieLemmas Proofs.CurieMore Proofs.LangLemmas Proofs.ResourceLemmas Proofs.ClassLemmas Proofs.ResourceRead Proofs.ResourceWrite Proofs.ResourceSet Proofs.ResourceAccept.
Open Scope N_scope.

(** ** C57 *)
Lemma text_world : forall ord w c g s k v w' g' r, class_key k = None -> setitem ord w c g s k (SOne (APy (VStr v))) = (w', g', r) -> w' = w.
Proof.
  intros ord w c g s k v w' g' r CK H. unfold setitem in H.
  destruct (interpret_key w c k) as [[[[p lang] dt] rc]|e] eqn:IK; [|now inversion H].
  cbn [literalize objectify literal_new bind] in H.
  assert (RC : rc = None).
  { unfold interpret_key in IK. destruct k as [t|t f]; destruct (resolve w c t); cbn [bind] in IK; try discriminate.
    - now injection IK.
    - destruct f; try discriminate; now injection IK. }
  subst rc.
  assert (X : exists x, (if is_pair k then objects_for_explicit_set ord w c g s p (LOne (RLit (Lit v lang dt))) lang dt None
     else (w, objects_for_implicit_set w c g s p (LOne (RLit (Lit v lang dt))))) = (w, x)).
  { destruct (is_pair k); [|eauto]. unfold objects_for_explicit_set. destruct (check_objects _ _ _ _ _) as [[|]|]; eauto.
    destruct (ostr_truthy lang); [destruct (in_scalars w c p); eauto|]. destruct (in_scalars w c p); [eauto|]. destruct (ostr_truthy dt); eauto. }
  destruct X as (x & X). rewrite X in H. destruct x as [os|e]; [|now inversion H].
  destruct (remove_objs g s p os) as [g1 [[]|e]]; [|now inversion H]. destruct p; now inversion H.
Qed.
Lemma tags_refl : forall l, tags_agree l l.
Proof. intro l. apply lang_match_spec. apply lang_match_refl. Qed.
(** the literal a text becomes *)
Definition made_of (v : str) (lang dt : option str) : term := Lit v lang dt.
Section Text.
  Variables (ord : list term -> list term) (w : world) (c : nat) (g : graph) (s : term) (k : rkey) (p : str) (v : str) (tp tp0 : str).
  Hypothesis RG : reachable g.
  Hypothesis Hs : honoured (Some s).
  Hypothesis Hp : p <> [].
  Hypothesis M : key_means w c (key_text k) p.
  Hypothesis I : winv w.
  Hypothesis CA : cached w.
  Hypothesis SH : shuffle ord.
  Hypothesis V : valid w c.
  Hypothesis MT : key_means w c (s2l "rdf:type") tp.
  Hypothesis MT0 : key_means w 0 (s2l "rdf:type") tp0.
  Hypothesis CK : class_key k = None.
  Hypothesis SN : sane_literals (g_iter g).
  Let lang := text_lang (in_scalars w c (Some p)) (lang_of w c) k.
  Let new := Lit v lang (text_type k).
  Lemma text_set : (match k with
      | KName _ => True
      | KPair _ (FLang l) => l <> []
      | KPair _ (FType d) => d <> [] /\ d <> w3_xsd ++ s2l "string"
      | KPair _ _ => False
      end) ->
    exists g', setitem ord w c g s k (SOne (APy (VStr v))) = (w, g', Ok tt) /\ reachable g' /\
      forall o, has (g_iter g') s p o <->
        o = new \/ (has (g_iter g) s p o /\ ~ replaced (fun _ _ => False) (scalar w c p) (value_lang lang (text_type k) (SOne (APy (VStr v)))) k o).
  Proof.
    intro KK. destruct (setitem ord w c g s k (SOne (APy (VStr v)))) as [[w' g'] r] eqn:E. exists g'.
    pose proof (text_world _ _ _ _ _ _ _ _ _ _ CK E) as ->.
    assert (HC : forall kc, class_key k = Some kc -> written w kc /\ ~ has (g_triples g) s p empty_iri) by (intros kc X; congruence).
    assert (GV : forall a, In a (values (SOne (APy (VStr v)))) -> usable w a) by (intros a [<-|[]]; exact Logic.I).
    destruct (set_frame _ _ _ _ _ _ _ _ _ _ _ RG M E) as (RG' & _).
    destruct (set_spec _ _ _ _ _ _ _ _ _ _ _ tp RG Hs Hp M I CA SH V MT HC E) as (_ & SP & _).
    assert (R : r = Ok tt).
    { destruct (set_if ord w c g s k p (SOne (APy (VStr v))) tp tp0 w g' r RG Hs Hp M I CA SH V MT MT0 HC GV E SN) as [R|(_ & [R|(t & [R|[]] & _)])]; auto; try congruence.
      - intros a [<-|[]]. discriminate.
      - destruct k as [t|t f]; cbn [form_ok]; [eauto|]. intros [F|[F|[F|F]]]; subst f; tauto.
      - intros t f Ek NF a o [<-|[]] O. rewrite Ek in *. cbn [new_value one_value] in O. subst o. destruct f as [|l|d|n]; cbn [value_fits text_lang text_type one_value] in *; [destruct KK| |destruct (str_eq_dec d (w3_xsd ++ s2l "string")); [tauto|]|destruct KK].
        + exists v, l, None. split; [reflexivity|apply tags_refl].
        + exists v, None. reflexivity. }
    subst r. split; [reflexivity|]. split; [exact RG'|]. intro o. unfold has. rewrite (SP eq_refl). clear SP. fold lang. split.
    - intros [[A B]|(o' & [= <-] & N)]; [|left; exact N]. right. split; [exact A|]. intro R. apply B. exists o. split; [reflexivity|].
      destruct k as [t|t [|l|d|n]]; cbn [class_key] in CK; try discriminate; exact R.
    - intros [->|[A B]]; [right; exists new; split; reflexivity|]. left. split; [exact A|]. intros (o' & [= <-] & R). apply B.
      destruct k as [t|t [|l|d|n]]; cbn [class_key] in CK; try discriminate; exact R.
  Qed.
End Text.

Lemma text_scalar : forall ord w c g s t p v tp tp0, reachable g -> honoured (Some s) -> p <> [] -> key_means w c t p ->
  winv w -> cached w -> shuffle ord -> valid w c -> key_means w c (s2l "rdf:type") tp -> key_means w 0 (s2l "rdf:type") tp0 ->
  sane_literals (g_iter g) -> scalar w c p -> lang_of w c <> [] ->
  let new := Lit v (Some (lang_of w c)) None in
  exists g', setitem ord w c g s (KName t) (SOne (APy (VStr v))) = (w, g', Ok tt) /\ reachable g' /\
    getitem ord w c g' s (KName t) = (w, Ok (One (RLit new))) /\
    (forall o, has (g_iter g') s p o <-> o = new \/
       (has (g_iter g) s p o /\ ~ (in_lang (lang_of w c) o \/ typed o \/ node o \/ bare o))).
Proof.
  intros ord w c g s t p v tp tp0 RG Hs Hp M I CA SH V MT MT0 SN SC LN new.
  destruct (text_set ord w c g s (KName t) p v tp tp0 RG Hs Hp M I CA SH V MT MT0 eq_refl SN Logic.I) as (g' & E & RG' & HS).
  exists g'. split; [exact E|]. split; [exact RG'|].
  pose proof (proj2 (in_scalars_spec w c p) SC) as SC'. cbn [text_lang text_type value_lang replaced] in HS. rewrite SC' in HS.
  destruct (lang_of w c) as [|ch l] eqn:L; [congruence|].
  assert (HS' : forall o, has (g_iter g') s p o <-> o = new \/ (has (g_iter g) s p o /\ ~ (in_lang (ch :: l) o \/ typed o \/ node o \/ bare o))).
  { intro o. rewrite HS. subst new. split; (intros [A|[A B]]; [now left|right; split; [exact A|]]; tauto). }
  split; [|exact HS'].
  destruct (read_selection ord w c g' s (KName t) p (fun _ _ => False) RG' Hs Hp M eq_refl) as (os & _ & _ & _ & RD & _).
  destruct (RD SC) as (_ & RD1 & _); [intros (u & X); discriminate|]. clear RD.
  rewrite (RD1 new).
  - reflexivity.
  - split; [apply HS'; now left|]. cbn [fits_key]. right. right. rewrite L. split; [discriminate|]. left. exists v, (ch :: l), None. split; [reflexivity|apply tags_refl].
  - intros o [A B]. apply HS' in A. destruct A as [->|[A N]]; [reflexivity|]. exfalso. cbn [fits_key] in B. rewrite L in B.
    destruct B as [B|[[B _]|[_ B]]]; [contradiction|discriminate|]. cbn [first_kind] in B. tauto.
Qed.
Lemma text_lang_key : forall ord w c g s t l p v tp tp0, reachable g -> honoured (Some s) -> p <> [] -> key_means w c t p ->
  winv w -> cached w -> shuffle ord -> valid w c -> key_means w c (s2l "rdf:type") tp -> key_means w 0 (s2l "rdf:type") tp0 ->
  sane_literals (g_iter g) -> l <> [] ->
  let new := Lit v (Some l) None in
  exists g', setitem ord w c g s (KPair t (FLang l)) (SOne (APy (VStr v))) = (w, g', Ok tt) /\ reachable g' /\
    (scalar w c p -> getitem ord w c g' s (KPair t (FLang l)) = (w, Ok (One (RLit new)))) /\
    (~ scalar w c p -> getitem ord w c g' s (KPair t (FLang l)) = (w, Ok (Many [new]))).
Proof.
  intros ord w c g s t l p v tp tp0 RG Hs Hp M I CA SH V MT MT0 SN LN new.
  destruct (text_set ord w c g s (KPair t (FLang l)) p v tp tp0 RG Hs Hp M I CA SH V MT MT0 eq_refl SN LN) as (g' & E & RG' & HS).
  exists g'. split; [exact E|]. split; [exact RG'|]. cbn [text_lang text_type replaced] in HS. fold new in HS.
  destruct (read_selection ord w c g' s (KPair t (FLang l)) p (fun _ _ => False) RG' Hs Hp M eq_refl) as (os & LS & _ & R1 & RD & _).
  assert (SEL : forall o, selected (g_triples g') s p (scalar w c p) (lang_of w c) (fun _ _ => False) (KPair t (FLang l)) o <-> o = new).
  { intro o. split.
    - intros [A B]. apply HS in A. destruct A as [->|[A N]]; [reflexivity|]. exfalso. cbn [fits_key] in B. destruct B as [[B _]|[_ B]]; [contradiction|].
      apply N. intros _. tauto.
    - intros ->. split; [apply HS; now left|]. cbn [fits_key]. right. split; [exact LN|]. left. exists v, l, None. split; [reflexivity|apply tags_refl]. }
  split.
  - intro SC. destruct (RD SC) as (_ & RD1 & _); [intros (u & X); discriminate|]. rewrite (RD1 new); [reflexivity|now apply SEL|].
    intros o X. now apply SEL.
  - intro SC. rewrite R1 by now left. do 3 f_equal. destruct LS as [ND LS].
    assert (X : forall o, In o os <-> o = new) by (intro o; rewrite LS; apply SEL). clear -ND X.
    destruct os as [|a os]; [exfalso; apply (X new); reflexivity|]. assert (a = new) as -> by (apply X; now left).
    destruct os as [|b os]; [reflexivity|]. exfalso. assert (b = new) as -> by (apply X; right; now left). inversion ND; subst. apply H1. now left.
Qed.
Lemma text_type_key : forall ord w c g s t d p v tp tp0, reachable g -> honoured (Some s) -> p <> [] -> key_means w c t p ->
  winv w -> cached w -> shuffle ord -> valid w c -> key_means w c (s2l "rdf:type") tp -> key_means w 0 (s2l "rdf:type") tp0 ->
  sane_literals (g_iter g) -> d <> [] -> d <> w3_xsd ++ s2l "string" ->
  let new := Lit v None (Some d) in
  exists g', setitem ord w c g s (KPair t (FType d)) (SOne (APy (VStr v))) = (w, g', Ok tt) /\ reachable g' /\
    (scalar w c p -> getitem ord w c g' s (KPair t (FType d)) = (w, Ok (One (RLit new)))) /\
    (~ scalar w c p -> getitem ord w c g' s (KPair t (FType d)) = (w, Ok (Many [new]))).
Proof.
  intros ord w c g s t d p v tp tp0 RG Hs Hp M I CA SH V MT MT0 SN DN DS new.
  destruct (text_set ord w c g s (KPair t (FType d)) p v tp tp0 RG Hs Hp M I CA SH V MT MT0 eq_refl SN (conj DN DS)) as (g' & E & RG' & HS).
  exists g'. split; [exact E|]. split; [exact RG'|]. cbn [text_lang text_type replaced] in HS.
  destruct (str_eq_dec d (w3_xsd ++ s2l "string")) as [X|_]; [contradiction|]. fold new in HS.
  destruct (read_selection ord w c g' s (KPair t (FType d)) p (fun _ _ => False) RG' Hs Hp M eq_refl) as (os & LS & _ & R1 & RD & _).
  assert (SEL : forall o, selected (g_triples g') s p (scalar w c p) (lang_of w c) (fun _ _ => False) (KPair t (FType d)) o <-> o = new).
  { intro o. split.
    - intros [A B]. apply HS in A. destruct A as [->|[A N]]; [reflexivity|]. exfalso. cbn [fits_key] in B. destruct B as [[[B|B] _]|[_ B]]; try contradiction.
      apply N. tauto.
    - intros ->. split; [apply HS; now left|]. cbn [fits_key]. right. split; [tauto|]. left. exists v, None. reflexivity. }
  split.
  - intro SC. destruct (RD SC) as (_ & RD1 & _); [intros (u & X); discriminate|]. rewrite (RD1 new); [reflexivity|now apply SEL|].
    intros o X. now apply SEL.
  - intro SC. rewrite R1 by now left. do 3 f_equal. destruct LS as [ND LS].
    assert (X : forall o, In o os <-> o = new) by (intro o; rewrite LS; apply SEL). clear -ND X.
    destruct os as [|a os]; [exfalso; apply (X new); reflexivity|]. assert (a = new) as -> by (apply X; now left).
    destruct os as [|b os]; [reflexivity|]. exfalso. assert (b = new) as -> by (apply X; right; now left). inversion ND; subst. apply H1. now left.
Qed.

(** ** C60 *)
Lemma new_spec : forall w c g n a tp, reachable g -> winv w -> valid w c -> key_means w c (s2l "rdf:type") tp ->
  let s := new_subject n a in
  exists g', new w c g n a = (g', Ok (c, s)) /\ reachable g' /\
    (forall t, In t (g_iter g') <-> In t (g_iter g) \/ exists k, In k (rdf_classes_of w c) /\ t = Tr s (Iri tp) k) /\
    (honoured (Some s) -> (forall k, In k (rdf_classes_of w c) -> honoured (Some k)) -> is_a w c g' s = Ok true).
Proof.
  intros w c g n a tp RG I V MT s. destruct (rdf_type_means _ _ _ I V MT) as [RT NT]. unfold new, is_a. fold s.
  destruct (rdf_classes_of w c) as [|k0 ks] eqn:RC.
  - exists g. split; [reflexivity|]. split; [exact RG|]. split; [|reflexivity]. intro t. split; [now left|]. intros [H|(k & [] & _)]. exact H.
  - rewrite RT. cbn [bind]. set (l := k0 :: ks) in *. set (ts := map (fun k => Tr s (Iri tp) k) l).
    exists (g_addAll g ts). split; [reflexivity|].
    assert (RG' : reachable (g_addAll g ts)).
    { apply (reach_step g (OpAddAll ts) RG). intros t J. apply in_map_iff in J. destruct J as (k & <- & _). reflexivity. }
    assert (IN : forall t, In t (g_iter (g_addAll g ts)) <-> In t (g_iter g) \/ exists k, In k l /\ t = Tr s (Iri tp) k).
    { intro t. unfold g_iter. rewrite g_addAll_In. unfold ts. rewrite in_map_iff. split.
      - intros [(k & <- & J)|J]; [right; eauto|now left].
      - intros [J|(k & J & ->)]; [now right|left; eauto]. }
    split; [exact RG'|]. split; [exact IN|]. intros HS HK. f_equal. apply forallb_forall. intros k J.
    destruct (g_match_lists (g_addAll g ts) (Some s) (Some (Iri tp)) (Some k) (reachable_wf _ RG')) as [_ L].
    assert (X : In (Tr s (Iri tp) k) (g_match (g_addAll g ts) (Some s) (Some (Iri tp)) (Some k))).
    { apply L. split; [apply IN; right; eauto|]. unfold fits, agrees. rewrite !as_wildcard_honoured; [auto|now apply HK| |exact HS].
      unfold honoured, empty_iri. congruence. }
    cbn [Resource.pred option_map]. destruct (g_match _ _ _ _); [destruct X|reflexivity].
Qed.

(** ** C61 *)
Definition subj_of (g : graph) (tp : str) (k : term) : list term := map st_s (g_match g None (Some (Iri tp)) (Some k)).
Lemma subj_of_in : forall g tp k x, wf g -> tp <> [] -> honoured (Some k) -> (In x (subj_of g tp k) <-> In (Tr x (Iri tp) k) (g_iter g)).
Proof.
  intros g tp k x W NT HK. unfold subj_of. rewrite in_map_iff. destruct (g_match_lists g None (Some (Iri tp)) (Some k) W) as [_ L]. split.
  - intros (t & <- & J). apply L in J. destruct J as [J (_ & A & B)]. rewrite as_wildcard_honoured in A by (unfold honoured, empty_iri; congruence).
    rewrite as_wildcard_honoured in B by exact HK. destruct A as [A|A], B as [B|B]; try discriminate.
    pose proof (wf_triples _ _ W J) as T. destruct t as [a b d e]. unfold is_triple in T. cbn in *. subst e. injection A as ->. injection B as ->. exact J.
  - intro J. exists (Tr x (Iri tp) k). split; [reflexivity|]. apply L. split; [exact J|]. unfold fits, agrees.
    rewrite (as_wildcard_honoured (Some (Iri tp))) by (unfold honoured, empty_iri; congruence). rewrite (as_wildcard_honoured (Some k)) by exact HK.
    split; [now left|]. split; now right.
Qed.
Lemma in_graph_keep : forall g tp, wf g -> tp <> [] -> forall l subs x, (forall k, In k l -> honoured (Some k)) ->
  (exists y, In y subs /\ forall k, In k l -> In (Tr y (Iri tp) k) (g_iter g)) ->
  (In x (in_graph_go g (Some tp) l subs) <-> In x subs /\ forall k, In k l -> In (Tr x (Iri tp) k) (g_iter g)).
Proof.
  intros g tp W NT. induction l as [|k l IH]; intros subs x HK (y & Y & YK); cbn [in_graph_go].
  - split; [intro; split; [assumption|intros k []]|tauto].
  - destruct subs as [|a subs]; [destruct Y|]. set (fl := filter _ (a :: subs)).
    assert (FL : forall z, In z fl <-> In z (a :: subs) /\ In (Tr z (Iri tp) k) (g_iter g)).
    { intro z. unfold fl. rewrite filter_In. rewrite <- (subj_of_in g tp k z W NT (HK k (or_introl eq_refl))). unfold subj_of.
      cbn [Resource.pred option_map]. destruct (in_dec _ _ _) as [i|n]; split; intros [A B]; split; auto; try discriminate; contradiction. }
    rewrite IH.
    + rewrite FL. cbn [In] in *. split.
      * intros [[A B] C]. split; [exact A|]. intros k' [<-|J]; auto.
      * intros [A B]. split; [split; [exact A|]|]; auto.
    + intros k' J. apply HK. now right.
    + exists y. split; [apply FL; split; [exact Y|apply YK; now left]|]. intros k' J. apply YK. now right.
Qed.
Lemma in_graph_one : forall ord w c g k tp, reachable g -> shuffle ord -> winv w -> valid w c -> key_means w c (s2l "rdf:type") tp ->
  rdf_classes_of w c = [k] -> honoured (Some k) ->
  exists l, in_graph ord w c g = Ok l /\ forall x, In x l <-> exists s, In (Tr s (Iri tp) k) (g_iter g) /\ x = as_subject s.
Proof.
  intros ord w c g k tp RG SH I V MT RC HK. destruct (rdf_type_means _ _ _ I V MT) as [RT NT]. unfold in_graph. rewrite RC, RT. cbn [bind].
  eexists. split; [reflexivity|]. intro x. rewrite in_map_iff.
  assert (OE : ord [k] = [k]) by (apply Permutation_length_1_inv; apply Permutation_sym, SH). rewrite OE. cbn [in_graph_go].
  split; intros (s & A & B); exists s.
  - split; [|now symmetry]. apply nodup_In in B. now apply (subj_of_in g tp k s (reachable_wf _ RG) NT HK).
  - split; [now symmetry|]. apply nodup_In. now apply (subj_of_in g tp k s (reachable_wf _ RG) NT HK).
Qed.
Lemma in_graph_some : forall ord w c g tp, reachable g -> shuffle ord -> winv w -> valid w c -> key_means w c (s2l "rdf:type") tp ->
  rdf_classes_of w c <> [] -> (forall k, In k (rdf_classes_of w c) -> honoured (Some k)) ->
  (exists y, forall k, In k (rdf_classes_of w c) -> In (Tr y (Iri tp) k) (g_iter g)) ->
  exists l, in_graph ord w c g = Ok l /\
    forall x, In x l <-> exists s, (forall k, In k (rdf_classes_of w c) -> In (Tr s (Iri tp) k) (g_iter g)) /\ x = as_subject s.
Proof.
  intros ord w c g tp RG SH I V MT NE HK (y & YK). destruct (rdf_type_means _ _ _ I V MT) as [RT NT]. pose proof (reachable_wf _ RG) as W.
  unfold in_graph. rewrite RT. cbn [bind].
  exists (map as_subject (in_graph_go g (Some tp) (ord (rdf_classes_of w c)) [])). split; [destruct (rdf_classes_of w c); [congruence|reflexivity]|].
  set (cs := rdf_classes_of w c) in *. clearbody cs.
  assert (P : forall k, In k (ord cs) <-> In k cs).
  { intro k. split; intro J; (eapply Permutation_in; [|exact J]); [apply SH|apply Permutation_sym, SH]. }
  intro x. rewrite in_map_iff.
  assert (KEY : forall s, In s (in_graph_go g (Some tp) (ord cs) []) <-> forall k, In k cs -> In (Tr s (Iri tp) k) (g_iter g)).
  { intro s. destruct (ord cs) as [|k l] eqn:OE; [exfalso; destruct cs as [|k0 cs]; [congruence|]; apply (P k0); now left|]. cbn [in_graph_go].
    assert (HK1 : honoured (Some k)) by (apply HK, P; now left).
    set (found := nodup term_eq_dec _).
    assert (FD : forall z, In z found <-> In (Tr z (Iri tp) k) (g_iter g)) by (intro z; unfold found; rewrite nodup_In; apply (subj_of_in g tp k z W NT HK1)).
    rewrite (in_graph_keep g tp W NT).
    - rewrite FD. split.
      + intros [A B] k' J. apply P in J. destruct J as [<-|J]; auto.
      + intro A. split; [|intros k' J]; apply A, P; [now left|now right].
    - intros k' J. apply HK, P. now right.
    - exists y. split; [apply FD, YK, P; now left|]. intros k' J. apply YK, P. now right. }
  split; intros (s & A & B); exists s; [split; [now apply KEY|now symmetry]|split; [now symmetry|now apply KEY]].
Qed.

(** ** C63 *)
Lemma found_single : forall w l, NoDup l -> (forall t t' k k', In t l -> In t' l -> reg_type (w_reg w) t = Some k -> reg_type (w_reg w) t' = Some k' -> t = t') ->
  found w l = [] \/ exists t k, In t l /\ reg_type (w_reg w) t = Some k /\ found w l = [k].
Proof.
  intros w. induction l as [|t l IH]; intros ND U; [now left|]. inversion ND; subst. unfold found. cbn [flat_map]. fold (found w l).
  destruct (reg_type (w_reg w) t) as [k|] eqn:E.
  - right. exists t, k. split; [now left|]. split; [exact E|]. destruct (found w l) as [|k' r] eqn:F; [reflexivity|]. exfalso.
    assert (J : In k' (found w l)) by (rewrite F; now left). apply found_in in J. destruct J as (t' & J & E').
    assert (t = t') by (eapply U; [now left|right; exact J|exact E|exact E']). subst. contradiction.
  - destruct IH as [F|(t' & k & J & E' & F)]; auto.
    + intros a b k k' A B. apply U; now right.
    + right. exists t', k. split; [now right|]. auto.
Qed.
Lemma types_has : forall g tp o t, wf g -> honoured (Some o) -> tp <> [] -> (In t (node_types g tp o) <-> In (Tr o (Iri tp) t) (g_iter g)).
Proof. intros g tp o t W Ho NT. unfold node_types. rewrite nodup_In. apply (objs_lists g o tp W Ho NT). Qed.
Lemma classify_unfold : forall ord w c g o tp, resolve w c (s2l "rdf:type") = Ok (Some tp) -> node o ->
  classify ord w c g o = match found w (ord (node_types g tp o)) with
     | [] => (w, Ok (RRes O o))
     | [k] => (w, Ok (RRes k o))
     | _ => match reg_types (w_reg w) (node_types g tp o) with
            | Some k => (w, Ok (RRes k o))
            | None => match make_class w (concat (map (fun k => c_name (class_at w k)) (found w (ord (node_types g tp o))))) (found w (ord (node_types g tp o))) [] [] None (Some (node_types g tp o)) with
                      | (w1, Ok k) => (set_reg w1 (KTypes (node_types g tp o)) k, Ok (RRes k o))
                      | (w1, Err e) => (w1, Err e)
                      end
            end
     end.
Proof. intros ord w c g o tp R N. unfold classify. destruct o as [x|a|v l d]; [| |destruct N]; rewrite R; reflexivity. Qed.
Lemma registered_type : forall w t k, registered w t k <-> reg_type (w_reg w) (Iri t) = Some k.
Proof. intros w t k. rewrite reg_type_registered. split; [eauto|]. intros (i & [= <-] & H). exact H. Qed.
Lemma classify_single : forall ord w c g o tp, wf g -> winv w -> shuffle ord -> valid w c -> key_means w c (s2l "rdf:type") tp ->
  node o -> honoured (Some o) -> single w (g_iter g) tp o ->
  ((forall t k, has_type (g_iter g) tp o t -> ~ registered w t k) -> classify ord w c g o = (w, Ok (RRes 0 o))) /\
  (forall t k, has_type (g_iter g) tp o t -> registered w t k -> classify ord w c g o = (w, Ok (RRes k o))) /\
  (exists k, classify ord w c g o = (w, Ok (RRes k o))).
Proof.
  intros ord w c g o tp W I SH V MT N Ho S. destruct (rdf_type_means _ _ _ I V MT) as [RT NT].
  rewrite (classify_unfold _ _ _ _ _ _ RT N). set (ty := node_types g tp o).
  assert (PT : forall t, In t (ord ty) <-> In (Tr o (Iri tp) t) (g_iter g)).
  { intro t. rewrite <- (types_has g tp o t W Ho NT). split; intro J; (eapply Permutation_in; [|exact J]); [apply SH|apply Permutation_sym, SH]. }
  assert (F : found w (ord ty) = [] \/ exists t k, In t (ord ty) /\ reg_type (w_reg w) t = Some k /\ found w (ord ty) = [k]).
  { apply found_single.
    - eapply Permutation_NoDup; [apply Permutation_sym, SH|apply NoDup_nodup].
    - intros t t' k k' A B E E'. apply PT in A. apply PT in B. apply reg_type_registered in E. apply reg_type_registered in E'.
      destruct E as (i & -> & E). destruct E' as (i' & -> & E'). f_equal. exact (S _ _ _ _ A B E E'). }
  assert (AL : forall t k, has_type (g_iter g) tp o t -> registered w t k -> In k (found w (ord ty))).
  { intros t k A B. apply found_in. exists (Iri t). split; [now apply PT|now apply registered_type]. }
  destruct F as [F|(t & k & J & E & F)]; rewrite F in *.
  - split; [reflexivity|]. split; [|eauto]. intros t k A B. destruct (AL _ _ A B).
  - split; [|split; [|eauto]].
    + intro X. exfalso. apply reg_type_registered in E. destruct E as (i & -> & E). apply PT in J. exact (X _ _ J E).
    + intros t' k' A B. destruct (AL _ _ A B) as [->|[]]. reflexivity.
Qed.
Lemma classify_node : forall ord w c g o tp w' r, reachable g -> wreach w -> shuffle ord -> valid w c -> key_means w c (s2l "rdf:type") tp ->
  node o -> honoured (Some o) -> classify ord w c g o = (w', r) ->
  wreach w' /\
  ((r = Err TypeError /\ w' = w /\ ~ single w (g_iter g) tp o) \/
   exists k, r = Ok (RRes k o) /\ valid w' k /\
     (forall j, written w j -> (In j (c_mro (class_at w' k)) <-> instance w (g_iter g) tp j o)) /\
     classify ord w' c g o = (w', Ok (RRes k o))).
Proof.
  intros ord w c g o tp w' r RG WR SH V MT N Ho H. pose proof (reachable_wf _ RG) as W. pose proof (wreach_if_inv _ _ WR) as I.
  pose proof (wreach_cached _ WR) as CA. destruct (rdf_type_means _ _ _ I V MT) as [RT NT].
  split. { replace w' with (fst (classify ord w c g o)) by now rewrite H. now apply wr_classify. }
  destruct (classify_spec _ _ _ _ _ _ _ I SH V H) as (I' & X & _ & _ & SP). destruct r as [[|t|k s]|e]; [destruct SP|destruct SP as (_ & SP & _); contradiction| |].
  - right. destruct SP as (-> & _ & VK & SP). exists k. split; [reflexivity|]. split; [exact VK|]. split.
    + intros j WJ. fold (own_mro w' k). rewrite (SP CA tp RT j WJ). apply instance_types; auto.
    + assert (RT' : resolve w' c (s2l "rdf:type") = Ok (Some tp)) by (rewrite (resolve_extends _ _ _ _ X V); exact RT).
      rewrite (classify_unfold _ _ _ _ _ _ RT' N). rewrite (classify_unfold _ _ _ _ _ _ RT N) in H.
      assert (FE : found w' (ord (node_types g tp o)) = found w (ord (node_types g tp o))).
      { unfold found. apply flat_map_ext. intro t. destruct X as (_ & _ & XR & _). now rewrite XR. }
      rewrite FE. destruct (found w (ord (node_types g tp o))) as [|k1 [|k2 ks]]; [injection H as <- <-; reflexivity|injection H as <- <-; reflexivity|].
      destruct (reg_types (w_reg w) (node_types g tp o)) as [k0|] eqn:RG0; [injection H as <- <-; now rewrite RG0|].
      destruct (make_class _ _ _ _ _ _ _) as [w1 [k3|e]]; [|discriminate]. injection H as <- <-. cbn [set_reg w_reg reg_types].
      assert (SS : same_set (node_types g tp o) (node_types g tp o) = true) by (apply same_set_spec; tauto). now rewrite SS.
  - left. destruct SP as (-> & -> & _). split; [reflexivity|]. split; [reflexivity|]. intro S.
    destruct (classify_single ord w c g o tp W I SH V MT N Ho S) as (_ & _ & (k & E)). rewrite E in H. discriminate.
Qed.

(** ** C62 *)
Section ListIter.
  Variables (ord : list term -> list term) (c : nat) (g : graph) (first rest nil tp : str).
  Hypothesis RG : reachable g.
  Hypothesis SH : shuffle ord.
  (** the keys of the class mean the list vocabulary *)
  Definition list_class (w : world) : Prop :=
    winv w /\ valid w c /\ key_means w c (s2l "rdf:first") first /\ key_means w c (s2l "rdf:rest") rest /\ key_means w c (s2l "rdf:nil") nil /\
    key_means w c (s2l "rdf:type") tp /\ scalar w c first /\ scalar w c rest /\ lang_of w c <> [].
  Lemma list_class_extends : forall w w', winv w' -> extends w w' -> list_class w -> list_class w' /\ lang_of w' c = lang_of w c.
  Proof.
    intros w w' I' X (I & V & A & B & C & D & E & F & G). pose proof (lang_extends _ _ _ I X V) as L. split; [|exact L].
    split; [exact I'|]. split; [exact (extends_valid _ _ _ X V)|].
    split; [exact (key_extends _ _ _ _ _ X V A)|]. split; [exact (key_extends _ _ _ _ _ X V B)|]. split; [exact (key_extends _ _ _ _ _ X V C)|].
    split; [exact (key_extends _ _ _ _ _ X V D)|]. split; [now apply (scalar_extends _ _ _ _ X V)|]. split; [now apply (scalar_extends _ _ _ _ X V)|].
    now rewrite L.
  Qed.
  Lemma rdf_key_nonempty : forall w ch t p, winv w -> valid w c -> key_means w c (s2l "rdf:" ++ ch :: t) p -> p <> [].
  Proof.
    intros w ch t p I V M. apply resolve_means in M. destruct (resolve_rdf w c ch t I V) as (ns & R & _). rewrite R in M. injection M as <-.
    intro X. apply app_eq_nil in X. destruct X as [_ X]. discriminate X.
  Qed.
  Lemma read_only : forall w s key p o, winv w -> valid w c -> key_means w c key p -> p <> [] -> scalar w c p -> lang_of w c <> [] ->
    honoured (Some s) -> only (g_iter g) s p o ->
    exists w' r, getitem ord w c g s (KName key) = (w', r) /\ winv w' /\ extends w w' /\ (cached w -> cached w') /\
      ((exists v, r = Ok v /\ shown (lang_of w c) o v) \/ (r = Err TypeError /\ w' = w)) /\
      (key_means w c (s2l "rdf:type") tp -> (node o -> honoured (Some o) /\ single w (g_iter g) tp o) -> w' = w /\ exists v, r = Ok v /\ classed w (g_iter g) tp o v).
  Proof.
    intros w s key p o I V M NP SC LN Hs O.
    destruct (read_selection ord w c g s (KName key) p (fun _ _ => False) RG Hs NP M eq_refl) as (os & _ & _ & _ & RD & _).
    destruct (RD SC) as (R0 & R1 & _); [intros (u & X); discriminate|]. clear RD.
    assert (SEL : forall x, selected (g_triples g) s p (scalar w c p) (lang_of w c) (fun _ _ => False) (KName key) x <->
       x = o /\ (in_lang (lang_of w c) o \/ node o \/ typed o \/ bare o)).
    { intro x. unfold selected, has. rewrite (O x). cbn [fits_key]. split.
      - intros [-> [B|[[B _]|[_ B]]]]; [contradiction|contradiction|]. split; [reflexivity|]. cbn [first_kind] in B. tauto.
      - intros [-> K]. split; [reflexivity|]. right. right. split; [exact LN|]. cbn [first_kind].
        assert (ONE : forall (P : term -> Prop) y, has (g_triples g) s p y -> (P y <-> P o)) by (intros P y Y; apply O in Y; now subst).
        destruct o as [x|n|x l d].
        + right. split; [intros y Y L; apply O in Y; subst y; exact (lit_not_node _ _ L Logic.I)|]. left. exact Logic.I.
        + right. split; [intros y Y L; apply O in Y; subst y; exact (lit_not_node _ _ L Logic.I)|]. left. exact Logic.I.
        + destruct K as [K|[[]|K]]; [now left|].
          assert (D : in_lang (lang_of w c) (Lit x l d) \/ ~ in_lang (lang_of w c) (Lit x l d)).
          { rewrite <- lang_filter_spec. destruct (lang_match (Some (lang_of w c)) l); [now left|right; discriminate]. }
          destruct D as [D|D]; [now left|]. right. split; [intros y Y; apply O in Y; now subst|]. right.
          split; [intros y Y Z; apply O in Y; subst; exact Z|].
          destruct K as [K|K]; [now left|]. right. split; [|left; exact K].
          intros y Y (a & b & e & Z). apply O in Y. subst y. destruct K as (a' & [= -> -> ->]). discriminate. }
    destruct o as [x|n|x l d].
    1,2: match goal with O : only _ _ _ ?o |- _ => rewrite (R1 o) by
        (try (apply SEL; split; [reflexivity|right; left; exact Logic.I]); intros y Y; apply SEL in Y; tauto);
        destruct (classify ord w c g o) as [w1 x1] eqn:E; destruct (classify_spec _ _ _ _ _ _ _ I SH V E) as (I1 & X1 & _ & C1 & SP);
        eexists _, _; split; [reflexivity|]; split; [exact I1|]; split; [exact X1|]; split; [exact C1|]; split;
        [destruct x1 as [[|t|k s1]|e]; [destruct SP|destruct SP as (_ & SP & _); exfalso; apply SP; exact Logic.I
           |left; destruct SP as (-> & _); eexists; split; [reflexivity|]; cbn; eauto
           |right; destruct SP as (-> & -> & _); auto]
        |intros MT S; destruct (S Logic.I) as [Ho S1]; clear S; rename S1 into S; destruct (classify_single ord w c g o tp (reachable_wf _ RG) I SH V MT Logic.I Ho S) as (CA & CB & (k & E'));
           rewrite E' in E; injection E as <- <-; split; [reflexivity|]; cbn [bind]; eexists; split; [reflexivity|]; intros k1 y1 EV; injection EV as <- <-; split;
           [intros t1 j1 T1 G1; rewrite (CB t1 j1 T1 G1) in E'; now injection E'|intro N1; rewrite (CA N1) in E'; now injection E']] end.
    assert (D : (in_lang (lang_of w c) (Lit x l d) \/ node (Lit x l d) \/ typed (Lit x l d) \/ bare (Lit x l d)) \/
                (exists l', l = Some l' /\ d = None /\ ~ tags_agree (lang_of w c) l')).
    { destruct d as [d|]; [left; right; right; left; exists x, l, d; reflexivity|]. destruct l as [l|]; [|left; right; right; right; exists x; reflexivity].
      destruct (lang_match (Some (lang_of w c)) (Some l)) eqn:LM.
      - left. left. exists x, l, None. split; [reflexivity|]. now apply lang_match_spec.
      - right. exists l. split; [reflexivity|]. split; [reflexivity|]. intro T. apply lang_match_spec in T. congruence. }
    assert (TRIV : winv w /\ extends w w /\ (cached w -> cached w)) by (split; [exact I|split; [apply extends_refl|auto]]). destruct TRIV as (T1 & T2 & T3).
    destruct D as [D|(l' & -> & -> & ND)].
    - rewrite (R1 (Lit x l d)); [|apply SEL; auto|intros y Y; apply SEL in Y; tauto]. cbn [classify bind].
      eexists _, _. split; [reflexivity|]. split; [exact T1|]. split; [exact T2|]. split; [exact T3|]. split; [|intros _ _; split; [reflexivity|]; eexists; split; [reflexivity|]; intros k1 y1 EV; discriminate EV].
      left. eexists. split; [reflexivity|]. unfold shown. destruct l as [l|], d as [d|]; try reflexivity. split; [reflexivity|].
      intro NA. exfalso. destruct D as [(v0 & l0 & d0 & EQ & D)|[[]|[(v0 & l0 & d0 & EQ)|(v0 & EQ)]]]; inversion EQ; subst; contradiction.
    - rewrite R0.
      + eexists _, _. split; [reflexivity|]. split; [exact T1|]. split; [exact T2|]. split; [exact T3|]. split; [|intros _ _; split; [reflexivity|]; eexists; split; [reflexivity|]; intros k1 y1 EV; discriminate EV].
        left. eexists. split; [reflexivity|]. cbn [shown]. split; [contradiction|reflexivity].
      + intros y Y. apply SEL in Y. destruct Y as [_ [(v0 & l0 & d0 & EQ & Y)|[[]|[(v0 & l0 & d0 & EQ)|(v0 & EQ)]]]]; inversion EQ; subst; contradiction.
  Qed.
  Lemma list_step : forall w s o s', list_class w -> cell (g_iter g) first rest nil s o s' ->
    exists w1 v, winv w1 /\ extends w w1 /\ (cached w -> cached w1) /\ (forall x, v = Some x -> shown (lang_of w c) o x) /\
      (forall f, list_iter ord (S f) w c g s =
        match v with
        | Some x => let '(w3, (vs, r)) := list_iter ord f w1 c g s' in (w3, (x :: vs, r))
        | None => (w1, (snd (list_iter ord (S f) w c g s)))
        end) /\
      (v = None -> forall f, snd (snd (list_iter ord (S f) w c g s)) = Err TypeError) /\
      ((node o -> honoured (Some o) /\ single w (g_iter g) tp o) -> honoured (Some s') /\ single w (g_iter g) tp s' -> w1 = w /\ exists x, v = Some x /\ classed w (g_iter g) tp o x).
  Proof.
    intros w s o s' LC (NN & Hs & OF & OR & NS). pose proof LC as (I & V & MF & MR & MN & MT & SF & SR & LN).
    assert (NF : first <> []) by exact (rdf_key_nonempty w 102 (s2l "irst") first I V MF).
    assert (NR : rest <> []) by exact (rdf_key_nonempty w 114 (s2l "est") rest I V MR).
    destruct (read_only w s (s2l "rdf:first") first o I V MF NF SF LN Hs OF) as (w1 & r1 & E1 & I1 & X1 & C1 & D1 & S1).
    apply resolve_means in MN.
    assert (NB : (if oterm_eq_dec (Some s) (Resource.pred (Some nil)) then true else false) = false) by (destruct (oterm_eq_dec (Some s) (Resource.pred (Some nil))) as [Q|Q]; [cbn in Q; congruence|reflexivity]).
    destruct D1 as [(v & -> & SHW)|[-> ->]].
    - destruct (list_class_extends w w1 I1 X1 LC) as [LC1 L1]. pose proof LC1 as (_ & V1 & _ & MR1 & _ & MT1 & _ & SR1 & LN1).
      destruct (read_only w1 s (s2l "rdf:rest") rest s' I1 V1 MR1 NR SR1 LN1 Hs OR) as (w2 & r2 & E2 & I2 & X2 & C2 & D2 & S2).
      destruct D2 as [(v2 & -> & SH2)|[-> ->]].
      + assert (K : exists k, v2 = One (RRes k s')) by (destruct s' as [x|n|x l d]; [exact SH2|exact SH2|destruct NS]). destruct K as (k & ->).
        exists w2, (Some v). split; [exact I2|]. split; [exact (extends_trans _ _ _ X1 X2)|]. split; [auto|].
        split; [intros x [= <-]; exact SHW|]. split; [|split; [discriminate|]].
        * intro f. cbn [list_iter]. rewrite MN. destruct (oterm_eq_dec (Some s) (Resource.pred (Some nil))); [discriminate|]. rewrite E1, E2. reflexivity.
        * intros So Ss'. destruct (S1 MT So) as [-> (x & [= <-] & CX)]. destruct (S2 MT (fun _ => Ss')) as [-> _]. split; [reflexivity|eauto].
      + exists w1, None. split; [exact I1|]. split; [exact X1|]. split; [exact C1|]. split; [discriminate|].
        assert (EQ : forall f, list_iter ord (S f) w c g s = (w1, ([v], Err TypeError))).
        { intro f. cbn [list_iter]. rewrite MN. destruct (oterm_eq_dec (Some s) (Resource.pred (Some nil))); [discriminate|]. now rewrite E1, E2. }
        split; [intro f; now rewrite EQ|]. split; [intros _ f; now rewrite EQ|].
        intros So Ss'. destruct (S1 MT So) as [-> _]. destruct (S2 MT (fun _ => Ss')) as [_ (x & X & _)]. discriminate.
    - exists w, None. split; [exact I|]. split; [apply extends_refl|]. split; [auto|]. split; [discriminate|].
      assert (EQ : forall f, list_iter ord (S f) w c g s = (w, ([], Err TypeError))).
      { intro f. cbn [list_iter]. rewrite MN. destruct (oterm_eq_dec (Some s) (Resource.pred (Some nil))); [discriminate|]. now rewrite E1. }
      split; [intro f; now rewrite EQ|]. split; [intros _ f; now rewrite EQ|].
      intros So Ss'. destruct (S1 MT So) as [_ (x & X & _)]. discriminate.
  Qed.
  Lemma list_path : forall s os e, path (g_iter g) first rest nil s os e -> forall w f w2 vs r, list_class w ->
    list_iter ord (length os + f) w c g s = (w2, (vs, r)) ->
    r = Err TypeError \/
    exists w1 vs1 vs2, winv w1 /\ extends w w1 /\ (cached w -> cached w1) /\ Forall2 (shown (lang_of w c)) os vs1 /\ vs = vs1 ++ vs2 /\
      list_iter ord f w1 c g e = (w2, (vs2, r)).
  Proof.
    induction 1 as [s|s o s' os e C P IH]; intros w f w2 vs r LC H.
    - right. exists w, [], vs. split; [apply LC|]. split; [apply extends_refl|]. split; [auto|]. split; [constructor|]. split; [reflexivity|exact H].
    - destruct (list_step w s o s' LC C) as (w1 & v & I1 & X1 & C1 & SHW & EQ & TE & _). cbn [length Nat.add] in H. destruct v as [x|].
      + rewrite EQ in H. destruct (list_iter ord (length os + f) w1 c g s') as [w3 [vs3 r3]] eqn:E. injection H as <- <- <-.
        destruct (list_class_extends w w1 I1 X1 LC) as [LC1 L1].
        destruct (IH w1 f w3 vs3 r3 LC1 E) as [->|(w4 & va & vb & I4 & X4 & C4 & F & -> & E4)]; [now left|]. right.
        exists w4, (x :: va), vb. split; [exact I4|]. split; [exact (extends_trans _ _ _ X1 X4)|]. split; [auto|].
        split; [constructor; [now apply SHW|now rewrite <- L1]|]. split; [reflexivity|exact E4].
      + left. specialize (TE eq_refl (length os + f)%nat). rewrite H in TE. exact TE.
  Qed.
  (** every element and cell with at most one registered type *)
  Lemma list_path_single : forall s os e, path (g_iter g) first rest nil s os e -> forall w, list_class w ->
    unambiguous (g_iter g) first rest w tp ->
    exists vs1, Forall2 (shown (lang_of w c)) os vs1 /\ Forall2 (classed w (g_iter g) tp) os vs1 /\
      forall f, list_iter ord (length os + f) w c g s = let '(w2, (vs2, r)) := list_iter ord f w c g e in (w2, (vs1 ++ vs2, r)).
  Proof.
    induction 1 as [s|s o s' os e C P IH]; intros w LC SG.
    - exists []. split; [constructor|]. split; [constructor|]. intro f. cbn [length Nat.add]. destruct (list_iter ord f w c g s) as [w2 [vs2 r]]. reflexivity.
    - pose proof C as (NN & Hs & OF & OR & NS).
      destruct (list_step w s o s' LC C) as (w1 & v & I1 & X1 & C1 & SHW & EQ & TE & SN).
      destruct SN as [-> (x & -> & CX)].
      + apply (SG s). left. apply OF. reflexivity.
      + apply (SG s); [right; apply OR; reflexivity|exact NS].
      + destruct (IH w LC SG) as (vs1 & F & FC & E). exists (x :: vs1). split; [constructor; [now apply SHW|exact F]|]. split; [constructor; [exact CX|exact FC]|].
        intro f. cbn [length Nat.add]. rewrite EQ, E. destruct (list_iter ord f w c g e) as [w2 [vs2 r]]. reflexivity.
  Qed.
  Lemma read_none : forall w s key p, key_means w c key p -> p <> [] -> scalar w c p -> honoured (Some s) ->
    (forall x, ~ In (Tr s (Iri p) x) (g_iter g)) -> getitem ord w c g s (KName key) = (w, Ok (One RNone)).
  Proof.
    intros w s key p M NP SC Hs O.
    destruct (read_selection ord w c g s (KName key) p (fun _ _ => False) RG Hs NP M eq_refl) as (os & _ & _ & _ & RD & _).
    destruct (RD SC) as (R0 & _); [intros (u & X); discriminate|]. apply R0. intros x [A _]. exact (O x A).
  Qed.
  Lemma list_nil : forall w f, list_class w -> list_iter ord (S f) w c g (Iri nil) = (w, ([], Ok tt)).
  Proof.
    intros w f (_ & _ & _ & _ & MN & _). apply resolve_means in MN. cbn [list_iter]. rewrite MN.
    destruct (oterm_eq_dec (Some (Iri nil)) (Resource.pred (Some nil))) as [_|Q]; [reflexivity|]. exfalso. now apply Q.
  Qed.
  Lemma list_broken : forall w s f, list_class w -> broken (g_iter g) first rest nil s ->
    exists w1 v, list_iter ord (S f) w c g s = (w1, v) /\
      ((exists x, v = ([x], Err AttributeError)) \/ snd v = Err TypeError) /\
      (unambiguous (g_iter g) first rest w tp -> w1 = w /\ snd v = Err AttributeError).
  Proof.
    intros w s f LC (NN & Hs & OF & OR). pose proof LC as (I & V & MF & MR & MN & MT & SF & SR & LN).
    assert (NF : first <> []) by exact (rdf_key_nonempty w 102 (s2l "irst") first I V MF).
    assert (NR : rest <> []) by exact (rdf_key_nonempty w 114 (s2l "est") rest I V MR).
    apply resolve_means in MN. cbn [list_iter]. rewrite MN.
    destruct (oterm_eq_dec (Some s) (Resource.pred (Some nil))) as [Q|_]; [cbn in Q; congruence|].
    assert (F1 : exists w1 r1, getitem ord w c g s (KName (s2l "rdf:first")) = (w1, r1) /\ winv w1 /\ extends w w1 /\
       ((exists v, r1 = Ok v) \/ r1 = Err TypeError) /\ (unambiguous (g_iter g) first rest w tp -> w1 = w /\ exists v, r1 = Ok v)).
    { destruct OF as [N|(o & O)].
      - exists w, (Ok (One RNone)). split; [now apply (read_none w s _ first)|]. split; [exact I|]. split; [apply extends_refl|]. split; eauto.
      - destruct (read_only w s (s2l "rdf:first") first o I V MF NF SF LN Hs O) as (w1 & r1 & E1 & I1 & X1 & _ & D1 & S1).
        exists w1, r1. split; [exact E1|]. split; [exact I1|]. split; [exact X1|]. split; [destruct D1 as [(v & -> & _)|[-> _]]; eauto|].
        intro U. destruct S1 as [-> (x & -> & _)]; [exact MT|apply (U s); left; now apply O|]. eauto. }
    destruct F1 as (w1 & r1 & -> & I1 & X1 & D1 & S1). destruct D1 as [(v & ->)| ->].
    2:{ exists w1, ([], Err TypeError). split; [reflexivity|]. split; [now right|]. intro U. destruct (S1 U) as [_ (x & X)]. discriminate. }
    destruct (list_class_extends w w1 I1 X1 LC) as [LC1 L1]. pose proof LC1 as (_ & V1 & _ & MR1 & _ & MT1 & _ & SR1 & LN1).
    assert (F2 : exists r2, getitem ord w1 c g s (KName (s2l "rdf:rest")) = (w1, Ok r2) /\ forall k x, r2 <> One (RRes k x)).
    { destruct OR as [N|(o & O & NO)].
      - exists (One RNone). split; [now apply (read_none w1 s _ rest)|]. discriminate.
      - destruct (read_only w1 s (s2l "rdf:rest") rest o I1 V1 MR1 NR SR1 LN1 Hs O) as (w2 & r2 & E2 & _ & _ & _ & D2 & S2).
        destruct (S2 MT1) as [-> _]; [intro X; contradiction|]. destruct D2 as [(x & -> & SX)|[-> _]].
        + exists x. split; [exact E2|]. intros k y ->. destruct o as [i|n|i l d]; [apply NO; exact Logic.I|apply NO; exact Logic.I|].
          cbn [shown] in SX. destruct l as [l|], d as [d|]; try discriminate. destruct SX as [SA SB].
          destruct (lang_match (Some (lang_of w1 c)) (Some l)) eqn:LM.
          * apply lang_match_spec in LM. discriminate (SA LM).
          * assert (NA : ~ tags_agree (lang_of w1 c) l) by (intro T; apply lang_match_spec in T; congruence). discriminate (SB NA).
        + destruct (S2 MT1) as [_ (x & X & _)]; [intro X; contradiction|discriminate]. }
    destruct F2 as (r2 & -> & NR2). exists w1, ([v], Err AttributeError).
    split; [destruct r2 as [l|[|t|k x]]; try reflexivity; exfalso; exact (NR2 k x eq_refl)|].
    split; [left; eauto|]. intro U. destruct (S1 U) as [-> _]. split; reflexivity.
  Qed.
  Lemma list_cycle : forall (P : term -> Prop), (forall x, P x -> exists o y, cell (g_iter g) first rest nil x o y /\ P y) ->
    forall f s w w2 vs r, P s -> list_class w -> list_iter ord f w c g s = (w2, (vs, r)) ->
    (r = Err TypeError \/ (r = Err OutOfFuel /\ length vs = f)) /\
    (unambiguous (g_iter g) first rest w tp -> r = Err OutOfFuel /\ w2 = w).
  Proof.
    intros P CL. induction f as [|f IH]; intros s w w2 vs r Ps LC H.
    - cbn in H. injection H as <- <- <-. split; [right; split; reflexivity|]. auto.
    - destruct (CL s Ps) as (o & y & C & Py). pose proof C as (_ & _ & OF & OR & NY).
      destruct (list_step w s o y LC C) as (w1 & v & I1 & X1 & C1 & SHW & EQ & TE & SN). destruct v as [x|].
      + rewrite EQ in H. destruct (list_iter ord f w1 c g y) as [w3 [vs3 r3]] eqn:E. injection H as <- <- <-.
        destruct (list_class_extends w w1 I1 X1 LC) as [LC1 L1]. destruct (IH y w1 w3 vs3 r3 Py LC1 E) as [A B]. split.
        * destruct A as [A|[A A2]]; [now left|right; split; [exact A|cbn; congruence]].
        * intro U. destruct SN as [-> _]; [apply (U s); left; now apply OF|apply (U s); [right; now apply OR|exact NY]|]. now apply B.
      + split; [left; specialize (TE eq_refl f); rewrite H in TE; exact TE|]. intro U.
        destruct SN as [_ (x & X & _)]; [apply (U s); left; now apply OF|apply (U s); [right; now apply OR|exact NY]|]. discriminate.
  Qed.
End ListIter.
Lemma list_class_of : forall early w c first rest nil tp, wreach_if early w -> valid w c -> list_keys w c first rest nil tp -> lang_of w c <> [] ->
  list_class c first rest nil tp w.
Proof.
  intros early w c first rest nil tp WR V (A & B & C & D & E & F) L. pose proof (wreach_if_inv _ _ WR) as I. repeat (split; [assumption|]). exact L.
Qed.
Lemma list_ends : forall early ord w c g first rest nil tp s os f w' vs r, wreach_if early w -> shuffle ord -> valid w c -> reachable g ->
  list_keys w c first rest nil tp -> lang_of w c <> [] -> path (g_iter g) first rest nil s os (Iri nil) ->
  list_iter ord (length os + S f) w c g s = (w', (vs, r)) ->
  (r = Ok tt /\ Forall2 (shown (lang_of w c)) os vs \/ r = Err TypeError) /\
  (unambiguous (g_iter g) first rest w tp -> r = Ok tt /\ w' = w /\ Forall2 (classed w (g_iter g) tp) os vs).
Proof.
  intros early ord w c g first rest nil tp s os f w' vs r WR SH V RG LK LN P H. pose proof (list_class_of _ _ _ _ _ _ _ WR V LK LN) as LC. split.
  - destruct (list_path ord c g first rest nil tp RG SH s os (Iri nil) P w (S f) w' vs r LC H) as [->|(w1 & vs1 & vs2 & I1 & X1 & _ & F & -> & E)]; [now right|].
    destruct (list_class_extends c first rest nil tp w w1 I1 X1 LC) as [LC1 _].
    rewrite (list_nil ord c g first rest nil tp w1 f LC1) in E. injection E as <- <- <-. left. rewrite app_nil_r. auto.
  - intro U. destruct (list_path_single ord c g first rest nil tp RG SH s os (Iri nil) P w LC U) as (vs1 & _ & FC & E).
    rewrite E, (list_nil ord c g first rest nil tp w f LC) in H. rewrite app_nil_r in H. inversion H. subst. auto.
Qed.
Lemma list_breaks : forall early ord w c g first rest nil tp s os e f w' vs r, wreach_if early w -> shuffle ord -> valid w c -> reachable g ->
  list_keys w c first rest nil tp -> lang_of w c <> [] -> path (g_iter g) first rest nil s os e -> broken (g_iter g) first rest nil e ->
  list_iter ord (length os + S f) w c g s = (w', (vs, r)) ->
  (r = Err AttributeError /\ (exists vs1 v, vs = vs1 ++ [v] /\ Forall2 (shown (lang_of w c)) os vs1) \/ r = Err TypeError) /\
  (unambiguous (g_iter g) first rest w tp -> r = Err AttributeError /\ w' = w /\ exists vs1 v, vs = vs1 ++ [v] /\ Forall2 (classed w (g_iter g) tp) os vs1).
Proof.
  intros early ord w c g first rest nil tp s os e f w' vs r WR SH V RG LK LN P BR H. pose proof (list_class_of _ _ _ _ _ _ _ WR V LK LN) as LC. split.
  - destruct (list_path ord c g first rest nil tp RG SH s os e P w (S f) w' vs r LC H) as [->|(w1 & vs1 & vs2 & I1 & X1 & _ & F & -> & E)]; [now right|].
    destruct (list_class_extends c first rest nil tp w w1 I1 X1 LC) as [LC1 _].
    destruct (list_broken ord c g first rest nil tp RG SH w1 e f LC1 BR) as (w3 & v3 & E3 & D & _). rewrite E3 in E. injection E as <- ->.
    destruct D as [(x & [= -> ->])|D]; [|now right]. left. eauto.
  - intro U. destruct (list_path_single ord c g first rest nil tp RG SH s os e P w LC U) as (vs1 & _ & FC & E). rewrite E in H.
    destruct (list_broken ord c g first rest nil tp RG SH w e f LC BR) as (w3 & v3 & E3 & DD & D). rewrite E3 in H. destruct (D U) as [-> D'].
    destruct v3 as [vs3 r3]. cbn in D'. subst r3. destruct DD as [(x & [= ->])|DD]; [|discriminate DD]. inversion H. subst. eauto 6.
Qed.
Lemma list_cycles : forall early ord w c g first rest nil tp (P : term -> Prop) s f w' vs r, wreach_if early w -> shuffle ord -> valid w c -> reachable g ->
  list_keys w c first rest nil tp -> lang_of w c <> [] ->
  (forall x, P x -> exists o y, cell (g_iter g) first rest nil x o y /\ P y) -> P s ->
  list_iter ord f w c g s = (w', (vs, r)) ->
  (r = Err OutOfFuel /\ length vs = f \/ r = Err TypeError) /\
  (unambiguous (g_iter g) first rest w tp -> r = Err OutOfFuel /\ w' = w).
Proof.
  intros early ord w c g first rest nil tp P s f w' vs r WR SH V RG LK LN CL Ps H. pose proof (list_class_of _ _ _ _ _ _ _ WR V LK LN) as LC.
  destruct (list_cycle ord c g first rest nil tp RG SH P CL f s w w' vs r Ps LC H) as [A B]. split; [|exact B]. destruct A; auto.
Qed.

(** ** C64 *)
Definition tidy (w : world) : Prop := forall c, NoDup (map fst (c_prefixes (class_at w c))).
Lemma tidy_same : forall w w', w_classes w' = w_classes w -> tidy w -> tidy w'.
Proof. intros w w' E T c. unfold class_at. rewrite E. apply T. Qed.
Lemma base_tidy : forall w bases (acc : dict str str), NoDup (map fst acc) ->
  NoDup (map fst (fold_left (fun acc b => dupdate str_eq_dec acc (c_prefixes (class_at w b))) bases acc)).
Proof. intros w. induction bases as [|b bases IH]; intros acc ND; cbn [fold_left]; [exact ND|]. apply IH. now apply (NoDup_dupdate str_eq_dec). Qed.
Lemma tidy_make : forall w name bases own scalars lang rdfs, tidy w -> tidy (fst (make_class w name bases own scalars lang rdfs)).
Proof.
  intros w name bases own scalars lang rdfs T. destruct (make_class _ _ _ _ _ _ _) as [w' r] eqn:E. apply make_class_spec in E. cbn [fst].
  destruct r as [me|e]; [|now subst]. destruct E as (-> & x & -> & _ & P & _). intro c. unfold class_at. cbn [w_classes].
  destruct (Nat.lt_ge_cases c (length (w_classes w))) as [L|L]; [rewrite app_nth1 by exact L; apply T|]. rewrite app_nth2 by exact L.
  destruct (c - length (w_classes w))%nat as [|n] eqn:D.
  - cbn [nth]. rewrite P. apply (NoDup_dupdate str_eq_dec). apply base_tidy. constructor.
  - cbn [nth]. destruct n; constructor.
Qed.
Lemma register_prefixes : forall w t k c, c_prefixes (class_at (fst (register_class w t k)) c) = c_prefixes (class_at w c).
Proof.
  intros w t k c. unfold register_class. destruct (resolve w k t) as [[i|]|e]; try reflexivity. cbn [fst]. unfold set_rdf, class_at at 1. cbn [w_classes set_reg].
  destruct (Nat.eq_dec c k) as [->|N].
  - destruct (Nat.lt_ge_cases k (length (w_classes w))) as [L|L].
    + rewrite nth_upd_same by exact L. reflexivity.
    + unfold class_at. rewrite !nth_overflow; rewrite ?length_upd; auto.
  - rewrite nth_upd_other by auto. reflexivity.
Qed.
Lemma wreach_tidy : forall early w, wreach_if early w -> tidy w.
Proof.
  induction 1 as [|w name bases own scalars lang rdfs R IH NE VB|w t c R IH E V|ord w c g o R IH SH V|w gp gt R IH].
  - assert (X : forall c, (c < 2)%nat -> NoDup (map fst (c_prefixes (class_at world0 c)))).
    { intros c H. assert (E : map fst (c_prefixes (class_at world0 c)) = [s2l "rdf"; s2l "rdfs"]) by (destruct c as [|[|c]]; [vm_compute; reflexivity|vm_compute; reflexivity|lia]).
      rewrite E. constructor; [intros [Q|[]]; discriminate|constructor; [intros []|constructor]]. }
    intro c. destruct (Nat.lt_ge_cases c 2) as [L|L]; [now apply X|]. unfold class_at. rewrite nth_overflow; [constructor|].
    replace (length (w_classes world0)) with 2%nat by (vm_compute; reflexivity). exact L.
  - now apply tidy_make.
  - intro k. rewrite register_prefixes. apply IH.
  - unfold classify. destruct o as [i|n|v l d]; [| |exact IH].
    all: destruct (resolve w c (s2l "rdf:type")) as [tp|e]; [|exact IH]; cbv zeta.
    all: match goal with |- context [match ?x with [] => _ | _ => _ end] => destruct x as [|k1 [|k2 ks]] end; [exact IH|exact IH|].
    all: destruct (reg_types _ _); [exact IH|].
    all: match goal with |- context [make_class ?a ?b ?c ?d ?e ?f ?h] => pose proof (tidy_make a b c d e f h IH) as T;
           destruct (make_class a b c d e f h) as [w1 [k|e1]] end; exact T.
  - exact (tidy_same w _ eq_refl IH).
Qed.
Lemma base_lookup : forall w, tidy w -> forall bases (acc : dict str str) k v,
  sget (fold_left (fun acc b => dupdate str_eq_dec acc (c_prefixes (class_at w b))) bases acc) k = Some v <->
  (exists b1 b b2, bases = b1 ++ b :: b2 /\ sget (c_prefixes (class_at w b)) k = Some v /\
     forall b', In b' b2 -> sget (c_prefixes (class_at w b')) k = None) \/
  (sget acc k = Some v /\ forall b', In b' bases -> sget (c_prefixes (class_at w b')) k = None).
Proof.
  intros w T. induction bases as [|b bases IH]; intros acc k v; cbn [fold_left].
  - split; [intro H; right; split; [exact H|intros b' []]|]. intros [(b1 & b & b2 & E & _)|[H _]]; [destruct b1; discriminate|exact H].
  - rewrite IH, (dupdate_get str_eq_dec _ _ _ (T b)). split.
    + intros [(b1 & b' & b2 & -> & A & B)|[A B]].
      * left. exists (b :: b1), b', b2. auto.
      * destruct (sget (c_prefixes (class_at w b)) k) as [x|] eqn:E.
        -- injection A as ->. left. exists [], b, bases. auto.
        -- right. split; [exact A|]. intros b' [<-|J]; auto.
    + intros [(b1 & b' & b2 & E & A & B)|[A B]].
      * destruct b1 as [|x b1]; cbn in E; injection E as -> ->.
        -- right. rewrite A. auto.
        -- left. exists b1, b', b2. auto.
      * right. rewrite (B b) by now left. split; [exact A|]. intros b' J. apply B. now right.
Qed.
Lemma parse_scalars_in : forall ss m xs, parse_scalars ss m = Ok xs -> forall x, In x xs <-> exists a, In a ss /\ curie_means schemes m a x.
Proof.
  induction ss as [|a ss IH]; intros m xs H x; cbn [parse_scalars] in H.
  - injection H as <-. split; [intros []|intros (y & [] & _)].
  - destruct (parse_curie a m) as [y|e] eqn:E; [|discriminate]. cbn [bind] in H. destruct (parse_scalars ss m) as [ys|e] eqn:E2; [|discriminate].
    injection H as <-. cbn [In]. rewrite (IH m ys E2 x). split.
    + intros [<-|(b & J & M)]; [exists a; split; [now left|now apply parse_curie_ok]|exists b; auto].
    + intros (b & [<-|J] & M); [left; apply parse_curie_ok in M; congruence|right; eauto].
Qed.
Lemma class_body : forall early w name bases own scalars lang rdfs w' me, wreach_if early w -> NoDup (map fst own) ->
  make_class w name bases own scalars lang rdfs = (w', Ok me) ->
  (forall k v, lookup (c_prefixes (class_at w' me)) k v <-> inherits w bases own k v) /\
  (forall p, scalar w' me p <-> (exists b, In b bases /\ scalar w b p) \/
     exists a, In a scalars /\ curie_means schemes (c_prefixes (class_at w' me)) a p) /\
  (forall c, valid w c -> class_at w' c = class_at w c).
Proof.
  intros early w name bases own scalars lang rdfs w' me WR ND H. pose proof (wreach_tidy _ _ WR) as T.
  pose proof (make_class_extends _ _ _ _ _ _ _ _ _ H) as (_ & OLD & _). unfold make_class in H. cbv zeta in H.
  destruct (parse_scalars _ _) as [ss|e] eqn:PS; [|discriminate]. destruct (mro_of _ _ _) as [mro|]; [|discriminate]. injection H as <- <-.
  rewrite class_at_new. cbn [c_prefixes]. split; [|split; [|exact OLD]].
  - intros k v. rewrite <- sget_lookup, (dupdate_get str_eq_dec _ _ _ ND). destruct (sget own k) as [x|] eqn:E.
    + split; [intros [= ->]; apply from_body; now apply sget_lookup|]. intros [L|b1 b b2 U _ _ _]; [apply sget_lookup in L; congruence|].
      apply sget_unbound in U. congruence.
    + unfold base_prefixes. rewrite (base_lookup w T bases [] k v). split.
      * intros [(b1 & b & b2 & EQ & A & B)|[A _]]; [|discriminate A].
        apply (from_base _ _ _ _ _ b1 b b2); [now apply sget_unbound|exact EQ|now apply sget_lookup|]. intros b' J. apply sget_unbound. now apply B.
      * intros [L|b1 b b2 U EQ A B]; [apply sget_lookup in L; congruence|]. left. exists b1, b, b2. split; [exact EQ|]. split; [now apply sget_lookup|].
        intros b' J. apply sget_unbound. now apply B.
  - intro p. unfold scalar. rewrite class_at_new. cbn [c_scalars]. rewrite nodup_In, in_app_iff, in_concat, (parse_scalars_in _ _ _ PS p). split.
    + intros [(l & J & X)|X]; [|now right]. left. apply in_map_iff in J. destruct J as (b & <- & J). eauto.
    + intros [(b & J & X)|X]; [|now right]. left. exists (c_scalars (class_at w b)). split; [apply in_map_iff; eauto|exact X].
Qed.

(** ** the theorems in terms of reachable worlds *)
Lemma read_by_class : forall ord w c g s t k p tp, reachable g -> honoured (Some s) -> p <> [] -> key_means w c t p ->
  shuffle ord -> wreach w -> valid w c -> written w k -> key_means w c (s2l "rdf:type") tp -> ~ has (g_iter g) s p empty_iri ->
  let sel o := has (g_iter g) s p o /\ instance w (g_iter g) tp k o in
  (exists w', contains ord w c g s (KPair t (FClass k)) = (w', Err TypeError) /\ getitem ord w c g s (KPair t (FClass k)) = (w', Err TypeError) /\
     get_scalar ord w c g s (KPair t (FClass k)) = (w', Err TypeError)) \/
  (exists w' os, lists os sel /\
     (exists b, contains ord w c g s (KPair t (FClass k)) = (w', Ok b) /\ (b = true <-> exists o, sel o)) /\
     (~ scalar w c p -> getitem ord w c g s (KPair t (FClass k)) = (w', Ok (Many os))) /\
     (scalar w c p -> (forall o, ~ sel o) -> getitem ord w c g s (KPair t (FClass k)) = (w', Ok (One RNone))) /\
     (scalar w c p -> forall o, sel o -> (forall o', sel o' -> o' = o) ->
        getitem ord w c g s (KPair t (FClass k)) = let '(w2, x) := classify ord w' c g o in (w2, do v <- x ; Ok (One v))) /\
     (scalar w c p -> forall o o', sel o -> sel o' -> o <> o' -> getitem ord w c g s (KPair t (FClass k)) = (w', Err ValueError))).
Proof.
  intros ord w c g s t k p tp RG Hs Hp M SH WR V WK MT NE sel.
  destruct (select_class ord w c g s t k p tp RG Hs Hp M SH WR V WK MT NE) as (w' & x & E & X & D).
  unfold contains, getitem, get_scalar. rewrite E. destruct D as [->|(os & -> & LS)]; [left; exists w'; repeat split; reflexivity|right].
  assert (LS' : lists os sel) by exact LS. clear LS.
  exists w', os. split; [exact LS'|].
  pose proof (one_lists _ _ LS') as (O0 & O1 & O2).
  split; [|split; [|split; [|split]]].
  - exists (match os with [] => false | _ => true end). split; [reflexivity|]. destruct LS' as [_ LS]. destruct os as [|a os].
    + split; [discriminate|]. intros (o & S). now apply LS in S.
    + split; [intros _; exists a; apply LS; now left|reflexivity].
  - intro NS. apply in_scalars_false in NS. rewrite NS. reflexivity.
  - intros SC Z. apply in_scalars_spec in SC. rewrite SC. cbn [negb orb]. rewrite (O0 Z). reflexivity.
  - intros SC o S U. apply in_scalars_spec in SC. rewrite SC. cbn [negb orb]. rewrite (O1 o S U). reflexivity.
  - intros SC o o' S S' N. apply in_scalars_spec in SC. rewrite SC. cbn [negb orb]. rewrite (O2 o o' S S' N). reflexivity.
Qed.
Lemma bad_keys : forall ord w c g s k, (forall p, ~ key_means w c (key_text k) p) -> (In 58 (key_text k) \/ key_text k = []) ->
  exists e, (e = ValueError \/ e = IndexError) /\
  contains ord w c g s k = (w, Err e) /\ getitem ord w c g s k = (w, Err e) /\ get_scalar ord w c g s k = (w, Err e) /\
  delitem ord w c g s k = (w, g, Err e) /\ forall v, setitem ord w c g s k v = (w, g, Err e).
Proof.
  intros ord w c g s k NM C.
  assert (E : exists e, (e = ValueError \/ e = IndexError) /\ resolve w c (key_text k) = Err e).
  { destruct C as [C|C]; [exists ValueError|exists IndexError]; (split; [auto|]); apply resolve_error; auto. }
  destruct E as (e & D & E). exists e. split; [exact D|]. now apply key_error.
Qed.
Lemma sc_of : forall w c p sc, (sc = true <-> scalar w c p) -> sc = in_scalars w c (Some p).
Proof.
  intros w c p sc H. rewrite <- in_scalars_spec in H. destruct sc, (in_scalars w c (Some p)); auto; exfalso; [|].
  - now discriminate (proj1 H eq_refl).
  - now discriminate (proj2 H eq_refl).
Qed.
Lemma set_contents : forall ord w c g s k p v w' g' r tp sc, reachable g -> honoured (Some s) -> p <> [] -> key_means w c (key_text k) p ->
  wreach w -> shuffle ord -> valid w c -> key_means w c (s2l "rdf:type") tp -> (sc = true <-> scalar w c p) ->
  (forall kc, class_key k = Some kc -> written w kc /\ ~ has (g_iter g) s p empty_iri) ->
  setitem ord w c g s k v = (w', g', r) ->
  let lang := text_lang sc (lang_of w c) k in
  (r = Ok tt -> forall t, In t (g_iter g') <->
     (In t (g_iter g) /\ ~ (exists o, t = Tr s (Iri p) o /\
        replaced (instance w (g_iter g) tp) (scalar w c p) (value_lang lang (text_type k) v) k o)) \/
     (exists o, t = Tr s (Iri p) o /\ new_value lang (text_type k) v o)) /\
  (sane_literals (g_iter g) -> (forall a, In a (values v) -> a <> APy VOther) -> r <> Err KeyError).
Proof.
  intros ord w c g s k p v w' g' r tp sc RG Hs Hp M WR SH V MT SC HC E. rewrite (sc_of _ _ _ _ SC).
  destruct (set_spec ord w c g s k p v w' g' r tp RG Hs Hp M (wreach_if_inv _ _ WR) (wreach_cached _ WR) SH V MT HC E) as (_ & A & B & _).
  split; assumption.
Qed.
Lemma set_accepts_only : forall ord w c g s k p v w' g' r tp tp0 sc, reachable g -> honoured (Some s) -> p <> [] -> key_means w c (key_text k) p ->
  wreach w -> shuffle ord -> valid w c -> key_means w c (s2l "rdf:type") tp -> key_means w 0 (s2l "rdf:type") tp0 -> (sc = true <-> scalar w c p) ->
  (forall kc, class_key k = Some kc -> written w kc /\ ~ has (g_iter g) s p empty_iri) -> (forall a, In a (values v) -> usable w a) ->
  setitem ord w c g s k v = (w', g', r) ->
  let lang := text_lang sc (lang_of w c) k in
  r = Ok tt -> form_ok (scalar w c p) k v /\
    forall t f, k = KPair t f -> ~ falsy f -> forall o, new_value lang (text_type k) v o ->
      exists a, In a (values v) /\ one_value lang (text_type k) a o /\ value_fits w (instance w (g_iter g) tp0) f a o.
Proof.
  intros ord w c g s k p v w' g' r tp tp0 sc RG Hs Hp M WR SH V MT MT0 SC HC GV E. rewrite (sc_of _ _ _ _ SC).
  exact (set_only_if ord w c g s k p v tp tp0 w' g' r RG Hs Hp M (wreach_if_inv _ _ WR) (wreach_cached _ WR) SH V MT MT0 HC GV E).
Qed.
Lemma set_accepts : forall ord w c g s k p v w' g' r tp tp0 sc, reachable g -> honoured (Some s) -> p <> [] -> key_means w c (key_text k) p ->
  wreach w -> shuffle ord -> valid w c -> key_means w c (s2l "rdf:type") tp -> key_means w 0 (s2l "rdf:type") tp0 -> (sc = true <-> scalar w c p) ->
  (forall kc, class_key k = Some kc -> written w kc /\ ~ has (g_iter g) s p empty_iri) -> (forall a, In a (values v) -> usable w a) ->
  setitem ord w c g s k v = (w', g', r) ->
  let lang := text_lang sc (lang_of w c) k in
  sane_literals (g_iter g) -> (forall a, In a (values v) -> a <> APy VOther) -> form_ok (scalar w c p) k v ->
  (forall t f, k = KPair t f -> ~ falsy f -> forall a o, In a (values v) -> one_value lang (text_type k) a o ->
     value_fits w (instance w (g_iter g) tp0) f a o) ->
  r = Ok tt \/ (r = Err TypeError /\ (class_key k <> None \/ exists t, In (ATerm t) (values v) /\ node t)).
Proof.
  intros ord w c g s k p v w' g' r tp tp0 sc RG Hs Hp M WR SH V MT MT0 SC HC GV E. rewrite (sc_of _ _ _ _ SC).
  exact (set_if ord w c g s k p v tp tp0 w' g' r RG Hs Hp M (wreach_if_inv _ _ WR) (wreach_cached _ WR) SH V MT MT0 HC GV E).
Qed.
Lemma text_scalar_w : forall ord w c g s t p v tp tp0, reachable g -> honoured (Some s) -> p <> [] -> key_means w c t p ->
  wreach w -> shuffle ord -> valid w c -> key_means w c (s2l "rdf:type") tp -> key_means w 0 (s2l "rdf:type") tp0 ->
  sane_literals (g_iter g) -> scalar w c p -> lang_of w c <> [] ->
  let new := Lit v (Some (lang_of w c)) None in
  exists g', setitem ord w c g s (KName t) (SOne (APy (VStr v))) = (w, g', Ok tt) /\ reachable g' /\
    getitem ord w c g' s (KName t) = (w, Ok (One (RLit new))) /\
    (forall o, has (g_iter g') s p o <-> o = new \/
       (has (g_iter g) s p o /\ ~ (in_lang (lang_of w c) o \/ typed o \/ node o \/ bare o))).
Proof. intros ord w c g s t p v tp tp0 RG Hs Hp M WR. exact (text_scalar ord w c g s t p v tp tp0 RG Hs Hp M (wreach_if_inv _ _ WR) (wreach_cached _ WR)). Qed.
Lemma text_lang_key_w : forall ord w c g s t l p v tp tp0, reachable g -> honoured (Some s) -> p <> [] -> key_means w c t p ->
  wreach w -> shuffle ord -> valid w c -> key_means w c (s2l "rdf:type") tp -> key_means w 0 (s2l "rdf:type") tp0 ->
  sane_literals (g_iter g) -> l <> [] ->
  let new := Lit v (Some l) None in
  exists g', setitem ord w c g s (KPair t (FLang l)) (SOne (APy (VStr v))) = (w, g', Ok tt) /\ reachable g' /\
    (scalar w c p -> getitem ord w c g' s (KPair t (FLang l)) = (w, Ok (One (RLit new)))) /\
    (~ scalar w c p -> getitem ord w c g' s (KPair t (FLang l)) = (w, Ok (Many [new]))).
Proof. intros ord w c g s t l p v tp tp0 RG Hs Hp M WR. exact (text_lang_key ord w c g s t l p v tp tp0 RG Hs Hp M (wreach_if_inv _ _ WR) (wreach_cached _ WR)). Qed.
Lemma text_type_key_w : forall ord w c g s t d p v tp tp0, reachable g -> honoured (Some s) -> p <> [] -> key_means w c t p ->
  wreach w -> shuffle ord -> valid w c -> key_means w c (s2l "rdf:type") tp -> key_means w 0 (s2l "rdf:type") tp0 ->
  sane_literals (g_iter g) -> d <> [] -> d <> w3_xsd ++ s2l "string" ->
  let new := Lit v None (Some d) in
  exists g', setitem ord w c g s (KPair t (FType d)) (SOne (APy (VStr v))) = (w, g', Ok tt) /\ reachable g' /\
    (scalar w c p -> getitem ord w c g' s (KPair t (FType d)) = (w, Ok (One (RLit new)))) /\
    (~ scalar w c p -> getitem ord w c g' s (KPair t (FType d)) = (w, Ok (Many [new]))).
Proof. intros ord w c g s t d p v tp tp0 RG Hs Hp M WR. exact (text_type_key ord w c g s t d p v tp tp0 RG Hs Hp M (wreach_if_inv _ _ WR) (wreach_cached _ WR)). Qed.
Lemma new_w : forall w c g n a tp, reachable g -> wreach w -> valid w c -> key_means w c (s2l "rdf:type") tp ->
  exists s g', new w c g n a = (g', Ok (c, s)) /\ reachable g' /\
    s = Iri (match a with NewNone => bnode_str n | NewIri i => i | NewBNode b => bnode_str b end) /\
    (forall t, In t (g_iter g') <-> In t (g_iter g) \/ exists k, In k (rdf_classes_of w c) /\ t = Tr s (Iri tp) k) /\
    (honoured (Some s) -> (forall k, In k (rdf_classes_of w c) -> honoured (Some k)) -> is_a w c g' s = Ok true).
Proof.
  intros w c g n a tp RG WR V MT. destruct (new_spec w c g n a tp RG (wreach_if_inv _ _ WR) V MT) as (g' & A & B & C & D).
  exists (new_subject n a), g'. split; [exact A|]. split; [exact B|]. split; [destruct a; reflexivity|]. auto.
Qed.
Lemma stands_for_as : forall s x, stands_for s x <-> x = as_subject s.
Proof. intros s x. split; [intros []; reflexivity|intros ->; destruct s; constructor]. Qed.
Lemma in_graph_one_w : forall ord w c g k tp, reachable g -> shuffle ord -> wreach w -> valid w c -> key_means w c (s2l "rdf:type") tp ->
  rdf_classes_of w c = [k] -> honoured (Some k) ->
  exists l, in_graph ord w c g = Ok l /\ forall x, In x l <-> exists s, In (Tr s (Iri tp) k) (g_iter g) /\ stands_for s x.
Proof.
  intros ord w c g k tp RG SH WR V MT RC HK. destruct (in_graph_one ord w c g k tp RG SH (wreach_if_inv _ _ WR) V MT RC HK) as (l & A & B).
  exists l. split; [exact A|]. intro x. rewrite B. split; intros (s & J & K); exists s; (split; [exact J|]); now apply stands_for_as.
Qed.
Lemma in_graph_some_w : forall ord w c g tp, reachable g -> shuffle ord -> wreach w -> valid w c -> key_means w c (s2l "rdf:type") tp ->
  rdf_classes_of w c <> [] -> (forall k, In k (rdf_classes_of w c) -> honoured (Some k)) ->
  (exists y, forall k, In k (rdf_classes_of w c) -> In (Tr y (Iri tp) k) (g_iter g)) ->
  exists l, in_graph ord w c g = Ok l /\
    forall x, In x l <-> exists s, (forall k, In k (rdf_classes_of w c) -> In (Tr s (Iri tp) k) (g_iter g)) /\ stands_for s x.
Proof.
  intros ord w c g tp RG SH WR V MT NE HK Y. destruct (in_graph_some ord w c g tp RG SH (wreach_if_inv _ _ WR) V MT NE HK Y) as (l & A & B).
  exists l. split; [exact A|]. intro x. rewrite B. split; intros (s & J & K); exists s; (split; [exact J|]); now apply stands_for_as.
Qed.
Lemma classify_single_w : forall early ord w c g o tp, reachable g -> wreach_if early w -> shuffle ord -> valid w c -> key_means w c (s2l "rdf:type") tp ->
  node o -> honoured (Some o) -> single w (g_iter g) tp o ->
  ((forall t k, has_type (g_iter g) tp o t -> ~ registered w t k) -> classify ord w c g o = (w, Ok (RRes 0 o))) /\
  (forall t k, has_type (g_iter g) tp o t -> registered w t k -> classify ord w c g o = (w, Ok (RRes k o))).
Proof.
  intros early ord w c g o tp RG WR SH V MT N Ho S.
  destruct (classify_single ord w c g o tp (reachable_wf _ RG) (wreach_if_inv _ _ WR) SH V MT N Ho S) as (A & B & _). auto.
Qed.
Lemma colonless_w : forall ord w c g s t, reachable g -> honoured (Some s) -> t <> [] -> ~ In 58 t -> (forall x, ~ key_means w c t x) ->
  exists os, (forall o, In o os <-> exists p, In (Tr s p o) (g_iter g)) /\
    getitem ord w c g s (KName t) = (w, Ok (Many os)) /\
    contains ord w c g s (KName t) = (w, Ok (match os with [] => false | _ => true end)) /\
    delitem ord w c g s (KName t) = (w, g, match os with [] => Ok tt | _ => Err KeyError end).
Proof.
  intros ord w c g s t RG Hs NT NC NM. destruct (colonless ord w c g s t NT NC NM) as (A & B & C).
  exists (map st_o (g_match g (Some s) None None)). split.
  - intro o. destruct (g_match_lists g (Some s) None None (reachable_wf _ RG)) as [_ L]. rewrite in_map_iff. split.
    + intros (x & <- & J). apply L in J. destruct J as [J (D & _)]. rewrite as_wildcard_honoured in D by exact Hs. destruct D as [D|D]; [discriminate|].
      pose proof (wf_triples _ _ (reachable_wf _ RG) J) as T. destruct x as [a b d e]. unfold is_triple in T. cbn in *. subst e. injection D as ->. eauto.
    + intros (p & J). exists (Tr s p o). split; [reflexivity|]. apply L. split; [exact J|]. unfold fits, agrees.
      rewrite (as_wildcard_honoured (Some s)) by exact Hs. split; [now right|]. split; now left.
  - split; [exact A|]. split; [rewrite B|rewrite C]; destruct (g_match g (Some s) None None); reflexivity.
Qed.
