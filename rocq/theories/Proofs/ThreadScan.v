(** Proofs for C116. *)
From Verif Require Import Model.Py Model.Terms Model.Graph Model.GraphThreads Model.GraphScan Spec.GraphSpec Spec.ThreadGraphSpec Spec.ScanSpec
  Proofs.DictLemmas Proofs.GraphInv Proofs.ThreadHeap Proofs.ThreadInv Proofs.ThreadRun Proofs.ThreadMain Proofs.ThreadTop Proofs.ScanInv.
From Coq Require Import Lia PeanoNat.

Lemma triple_keys : forall w t u, is_triple t -> is_triple u -> key1 w t = key1 w u -> key2 w t = key2 w u -> key3 w t = key3 w u -> t = u.
Proof. intros w [s p o g] [s' p' o' g'] A B. unfold is_triple in *. cbn in *. subst. destruct w; cbn; congruence. Qed.
Lemma put_grow : forall h r k v, (tget (deref h r) k = None \/ tget (deref h r) k = Some v) -> forall n, exists ex, deref (put h r (tset (deref h r) k v)) n = deref h n ++ ex.
Proof.
  intros h r k v H n. destruct (Nat.lt_ge_cases r (length h)) as [RL|RL].
  - destruct (Nat.eq_dec r n) as [<-|NE]; [rewrite deref_put_eq by exact RL|rewrite deref_put_neq by exact NE; exists []; now rewrite app_nil_r].
    destruct H as [H|H]; [apply dget_None_iff in H; rewrite dkeys_dset_notin by exact H; now exists [(k, v)]|rewrite dset_same by exact H; exists []; now rewrite app_nil_r].
  - exists []. rewrite app_nil_r. assert (X : put h r (tset (deref h r) k v) = h).
    { clear H. generalize (tset (deref h r) k v). revert r RL. induction h as [|x h IH]; intros [|r] RL d; cbn in *; try lia; auto. now rewrite IH by lia. }
    now rewrite X.
Qed.

Section Adds.
  Variable g0 : cgraph.
  Variable opss : list (list cop).
  Hypothesis Q : quiet g0.
  Hypothesis T : forall ops, In ops opss -> of_triples ops.
  Hypothesis ADDS : forall ops t, In ops opss -> ~ In (CRemove t) ops.
  Hypothesis H2 : forall i j a c t u w b, i <> j -> nth_error opss i = Some a -> nth_error opss j = Some c -> In (CAdd t) a -> In (CAdd u) c ->
    pre b w t ++ [key12 b w t] = pre b w u ++ [key12 b w u] -> walk (c_heap g0) (root w) (pre b w t ++ [key12 b w t]) <> None.
  Let all := ops_of opss.
  Lemma all_adds : forall i t, ~ In (CRemove t) (all i).
  Proof. intros i t J. unfold all, ops_of in J. destruct (nth_error opss i) as [ops|] eqn:E; [|destruct J]. exact (ADDS ops t (nth_error_In _ _ E) J). Qed.
  Lemma adds_clash : no_clash opss.
  Proof. intros i j a b t _ _ E _. exact (ADDS b t (nth_error_In _ _ E)). Qed.
  Definition fine (a : astate) : Prop := ok_state a /\ safe (c_heap g0) all a.
  Lemma fine_step : forall a i, fine a -> fine (as_step a i).
  Proof. intros a i [A B]. split; [now apply ok_step|]. apply safe_step; [exact (H1' opss adds_clash)|exact (H2' g0 opss H2)|exact B]. Qed.
  Lemma fine_start : fine (mkAS g0 (astart opss)).
  Proof.
    assert (OS : ok_state (mkAS g0 (astart opss))) by (apply ok_start; [apply Q|exact T]). split; [exact OS|]. split; [apply quiet_inv; [exact Q|apply now_start]|].
    intros i x op E J. split; [|now apply (proj2 OS i x op)]. cbn [as_threads] in E. apply nth_start in E. destruct E as (ops & E & ->). unfold all, ops_of. now rewrite E.
  Qed.
  Lemma fine_good : forall a, fine a -> good (as_graph a).
  Proof.
    intros a [_ [IV _]]. destruct (i_lab _ _ _ _ IV) as (L & OK & _). split.
    - apply OK.
    - intros w ks n k c LT W E. destruct (walk_root _ _ OK _ _ _ W) as [EL _]. pose proof (ho_cell _ _ OK _ _ _ E) as X. destruct c as [m|t]; [eauto|]. destruct X as (_ & w' & EL' & _). rewrite EL in EL'. injection EL' as -> ->. cbn in LT. lia.
    - intros w x y n k c W E. destruct (walk_root _ _ OK _ _ _ W) as [EL _]. pose proof (ho_cell _ _ OK _ _ _ E) as X. destruct c as [m|t]; [destruct X as (_ & LT & _); rewrite EL in LT; cbn in LT; lia|].
      destruct X as (IT & w' & EL' & ->). rewrite EL in EL'. injection EL' as <- -> ->. exists t. repeat (split; [reflexivity|]). assert (ST : stored (c_heap (as_graph a)) w t) by (exists n; auto).
      destruct (i_del _ _ _ _ IV _ _ ST) as [J|(i & p & r & EN & _)]; [exact J|]. exfalso. exact (all_adds i t (proj1 (i_ops _ _ _ _ IV _ _ _ _ EN))).
    - apply (i_trip _ _ _ _ IV).
  Qed.
  Lemma fine_later : forall a i, fine a -> later (as_graph a) (as_graph (as_step a i)).
  Proof.
    intros a i F. pose proof (fine_good a F) as GD. destruct F as [OS [IV OP]]. destruct (i_lab _ _ _ _ IV) as (L & OK & WP). unfold as_step. destruct (nth_error (as_threads a) i) as [x|] eqn:E; [|apply later_refl]. cbn [as_graph].
    assert (NX : now_of (as_threads a) i = a_now x) by (unfold now_of; now rewrite E). set (g := as_graph a) in *.
    assert (SAME : forall h', (forall n, deref h' n = deref (c_heap g) n) -> later g (mkC (c_triples g) h')).
    { intros h' D. assert (WE : forall ks n, walk h' n ks = walk (c_heap g) n ks).
      { induction ks as [|k ks IH]; intro n; [reflexivity|]. cbn [walk]. rewrite D. destruct (tget (deref (c_heap g) n) k) as [[]|]; auto. }
      split; cbn [c_heap c_triples]; [intro n; exists []; now rewrite app_nil_r|exists []; now rewrite app_nil_r|]. intros w u v N. left. now rewrite WE in N. }
    unfold a_step, goes, ends. destruct (a_now x) as [[[op p] r]|] eqn:EN; [|destruct (a_ops x); apply later_refl].
    destruct (i_ops _ _ _ _ IV _ _ _ _ NX) as [JA _]. destruct op as [t|t]; [|exfalso; exact (all_adds i t JA)]. destruct (WP _ _ _ _ NX) as [IT PL]. cbn [op_stmt] in *.
    destruct p as [|[|w ws]|w b ws|w b m ws|w ws]; cbn [fst]; try apply later_refl.
    - split; cbn [c_heap c_triples]; [intro n; exists []; now rewrite app_nil_r| |now left]. unfold set_add. destruct (in_dec stmt_eq_dec t (c_triples g)); [exists []; now rewrite app_nil_r|now exists [t]].
    - destruct (tget (deref (c_heap g) r) (key12 b w t)) as [[]|]; cbn [fst]; try apply later_refl. apply SAME. intro n. apply deref_alloc.
    - destruct PL as (RL & LR & ML & LM). destruct (i_pend _ _ _ _ IV _ _ _ _ _ _ _ NX) as (_ & MS & EM & _). cbn [op_stmt] in MS.
      assert (SL : length (snd (L r)) < 2) by (rewrite LR; destruct b; cbn; lia). assert (LL : L m = (fst (L r), snd (L r) ++ [key12 b w t])) by (rewrite LR; exact LM).
      split; cbn [c_heap c_triples].
      + apply put_grow. now left.
      + exists []. now rewrite app_nil_r.
      + intros w' u v N. destruct (walk (put (c_heap g) r (tset (deref (c_heap g) r) (key12 b w t) (CRef m))) (root w') [u; v]) as [z|] eqn:W; [|congruence].
        destruct (put_ref_new (c_heap g) L r m (key12 b w t) RL ML SL LL EM _ _ _ W) as [W0| ->]; [left; rewrite W0; discriminate|]. right. exists t. split; [apply (i_in _ _ _ _ IV _ _ _ _ NX); discriminate|].
        pose proof (put_ref_ok (c_heap g) L r m (key12 b w t) OK RL ML SL LL) as OK'. destruct (walk_root _ _ OK' _ _ _ W) as [EL _]. rewrite LM in EL. destruct b; cbn in EL; [injection EL as -> <- <-; auto|discriminate EL].
    - destruct PL as (RL & LR). split; cbn [c_heap c_triples].
      + apply put_grow. destruct (tget (deref (c_heap g) r) (key3 w t)) as [c|] eqn:EC; [right|now left]. pose proof (ho_cell _ _ OK _ _ _ EC) as X. destruct c as [m|t']; [destruct X as (_ & LT & _); rewrite LR in LT; cbn in LT; lia|].
        destruct X as (IT' & w' & EL & K3). rewrite LR in EL. injection EL as <- K1 K2. f_equal. f_equal. symmetry. now apply (triple_keys w).
      + exists []. now rewrite app_nil_r.
      + intros w' u v N. left. rewrite (leaf_walk (c_heap g) L r w t OK RL LR) in N; [exact N|]. intros k c G. apply store_cells in G. tauto.
  Qed.
  Lemma fine_run_later : forall sch a, fine a -> later (as_graph a) (as_graph (as_run a sch)).
  Proof. induction sch as [|i sch IH]; intros a F; [apply later_refl|]. cbn. apply (later_trans _ (as_graph (as_step a i))); [now apply fine_later|]. apply IH. now apply fine_step. Qed.
  Lemma fine_run : forall sch a, fine a -> fine (as_run a sch).
  Proof. induction sch as [|i sch IH]; intros a F; [exact F|]. cbn. apply IH. now apply fine_step. Qed.

  (** ** The threads together *)
  Lemma ladder_any : forall s p o, exists sh, ladder s p o = start sh.
  Proof.
    intros s p o. unfold ladder. destruct s as [s|], p as [p|], o as [o|]; cbn [oterm_truthy];
      repeat match goal with |- context [if ?b then _ else _] => destruct b | |- context [match ?b with true => _ | false => _ end] => destruct b end;
      first [now exists (ShIn (Tr s p o))|now exists (ShVals SPO s p)|now exists (ShVals OSP o s)|now exists (ShVals POS p o)|now exists (ShNest SPO s)|now exists (ShNest POS p)|now exists (ShNest OSP o)|now exists ShAll].
  Qed.
  Definition linked (s : mstate) (a : astate) : Prop :=
    m_graph s = as_graph a /\ m_adders s = map conc (as_threads a) /\ fine a /\
    forall j x, nth_error (m_scans s) j = Some x -> exists sh, scan_inv sh g0 (fun _ => False) (m_graph s) x.
  Definition nextm (a : astate) (x : turn) : astate := match x with Adder i => as_step a i | Scanner _ => a end.
  Lemma linked_step : forall s a x, later g0 (as_graph a) -> linked s a -> linked (m_step s x) (nextm a x).
  Proof.
    intros s a x L0 (EG & EA & F & SC). destruct x as [i|j]; cbn [m_step nextm].
    - rewrite EA, nth_error_map. unfold as_step. destruct (nth_error (as_threads a) i) as [y|] eqn:E; cbn [option_map]; [|exact (conj EG (conj EA (conj F SC)))].
      rewrite EG, a_step_conc. cbn [as_graph as_threads]. pose proof (fine_step a i F) as F'. pose proof (fine_later a i F) as LT. unfold as_step in F', LT. rewrite E in F', LT. split; [reflexivity|]. cbn [m_adders m_graph m_scans as_graph as_threads] in *. split; [now rewrite set_nth_map|].
      split; [exact F'|]. intros j z EJ. destruct (SC j z EJ) as (sh & H). exists sh. apply (scan_mono _ _ _ (m_graph s)); [rewrite EG; exact LT|exact H].
    - destruct (nth_error (m_scans s) j) as [y|] eqn:E; [|exact (conj EG (conj EA (conj F SC)))]. destruct (SC j y E) as (sh & H).
      destruct (scan_step sh g0 (fun _ => False) ltac:(contradiction) ltac:(contradiction) ltac:(contradiction) (m_graph s) y) as [S1 S2]; [rewrite EG; now apply fine_good|rewrite EG; exact L0|exact H|].
      destruct (sc_step (m_graph s) y) as [g' y']. cbn [fst snd] in *. subst g'. split; [exact EG|]. split; [exact EA|]. split; [exact F|]. cbn [m_scans m_graph]. intros k z EK. rewrite (nth_set _ _ _ _ _ E) in EK. destruct (Nat.eq_dec k j) as [->|NE]; [|now apply (SC k)]. injection EK as <-. eauto.
  Qed.
  Lemma linked_later : forall a x, fine a -> later (as_graph a) (as_graph (nextm a x)).
  Proof. intros a [i|j] F; [now apply fine_later|apply later_refl]. Qed.
  Lemma linked_run : forall sch s a, later g0 (as_graph a) -> linked s a -> linked (m_run s sch) (as_run a (adders sch)).
  Proof.
    induction sch as [|x sch IH]; intros s a L0 H; [exact H|]. change (m_run s (x :: sch)) with (m_run (m_step s x) sch).
    assert (E : as_run a (adders (x :: sch)) = as_run (nextm a x) (adders sch)) by (destruct x; reflexivity). rewrite E. apply IH; [|now apply linked_step].
    apply (later_trans _ (as_graph a)); [exact L0|]. apply linked_later. apply H.
  Qed.
  Lemma linked_start : forall pats, linked (mkM g0 (map th_new opss) (map (fun q => let '(s, p, o) := q in scan_new s p o) pats)) (mkAS g0 (astart opss)).
  Proof.
    intro pats. split; [reflexivity|]. cbn [m_adders as_threads m_scans m_graph]. split; [unfold astart; now rewrite map_map|]. split; [exact fine_start|].
    intros j x E. rewrite nth_error_map in E. destruct (nth_error pats j) as [[[s p] o]|]; [|discriminate]. injection E as <-. destruct (ladder_any s p o) as (sh & ES). exists sh. unfold scan_new. rewrite ES. apply scan_start. contradiction.
  Qed.

  (** one scan, from the moment it has not begun *)
  Definition one (sh : shape) (b : mstate) (want : stmt -> Prop) (j : nat) (s : mstate) : Prop :=
    forall x, nth_error (m_scans s) j = Some x -> scan_inv sh (m_graph b) want (m_graph s) x.
  Lemma settled_stored : forall s a t w, linked s a -> settled s t -> stored (c_heap (m_graph s)) w t.
  Proof.
    intros s a t w (EG & EA & [_ [IV _]] & _) [J N]. rewrite EG in *. destruct (i_add _ _ _ _ IV t w J) as [A|(i & p & r & E & _)]; [exact A|]. exfalso. unfold now_of in E. destruct (nth_error (as_threads a) i) as [y|] eqn:EY; [|discriminate].
    apply (N (conc y) r (code (CAdd t) p)); [rewrite EA; apply in_map; now apply nth_error_In in EY|]. unfold conc. cbn [th_now]. now rewrite E.
  Qed.
  Lemma one_run : forall sh b j (want : stmt -> Prop), (forall t, want t -> hit sh t) -> (forall t, want t -> In t (c_triples (m_graph b))) -> (forall t w, want t -> stored (c_heap (m_graph b)) w t) ->
    forall sch s a, later g0 (as_graph a) -> later (m_graph b) (as_graph a) -> linked s a -> one sh b want j s -> one sh b want j (m_run s sch).
  Proof.
    intros sh b j want W1 W2 W3. induction sch as [|x sch IH]; intros s a L0 LB LK O; [exact O|]. change (m_run s (x :: sch)) with (m_run (m_step s x) sch).
    pose proof (linked_later a x ltac:(apply LK)) as LX. apply (IH _ (nextm a x)); [now apply (later_trans _ (as_graph a))|now apply (later_trans _ (as_graph a))|now apply linked_step|].
    pose proof (linked_step s a x L0 LK) as (EG' & _). destruct LK as (EG & EA & F & SC). intros y E. destruct x as [i|k]; cbn [nextm] in *.
    - assert (ES : m_scans (m_step s (Adder i)) = m_scans s) by (cbn [m_step]; destruct (nth_error (m_adders s) i) as [z|]; [destruct (th_step (m_graph s) z)|]; reflexivity). rewrite ES in E.
      apply (scan_mono _ _ _ (m_graph s)); [rewrite EG', EG; exact LX|now apply O].
    - cbn [m_step] in *. destruct (nth_error (m_scans s) k) as [z|] eqn:EK; [|now apply O]. destruct (sc_step (m_graph s) z) as [g' z'] eqn:EZ. cbn [m_scans m_graph] in *. rewrite (nth_set _ _ _ _ _ EK) in E. destruct (Nat.eq_dec j k) as [->|NE].
      + injection E as <-. destruct (scan_step sh (m_graph b) want W1 W2 W3 (m_graph s) z) as [S1 S2]; [rewrite EG; now apply fine_good|rewrite EG; exact LB|now apply O|]. rewrite EZ in S1, S2. cbn [fst snd] in *. rewrite EG', <- EG. exact S2.
      + rewrite EG'. rewrite <- EG. now apply O.
  Qed.
  Lemma scan_main : forall pats sch1 sch2 s1 s j s' p' o' x,
    s1 = m_run (mkM g0 (map th_new opss) (map (fun q => let '(s, p, o) := q in scan_new s p o) pats)) sch1 -> s = m_run s1 sch2 ->
    honoured s' -> honoured p' -> honoured o' -> nth_error (m_scans s1) j = Some (scan_new s' p' o') -> nth_error (m_scans s) j = Some x ->
    (forall t, In t (c_triples (m_graph s)) -> is_triple t) /\
    exists l, sc_out x = map CVal l /\ NoDup l /\ (forall t, In t l -> fits s' p' o' t /\ In t (c_triples (m_graph s))) /\
      match sc_pc x with
      | SEnd (Ok _) => forall t, settled s1 t -> fits s' p' o' t -> In t l
      | SEnd (Err e) => e = RuntimeError /\ exists t, fits s' p' o' t /\ In t (c_triples (m_graph s)) /\ ~ settled s1 t
      | _ => True
      end.
  Proof.
    intros pats sch1 sch2 s1 s j s' p' o' x E1 E2 HS HP HO EJ EX. set (m0 := mkM g0 _ _) in E1. set (a0 := mkAS g0 (astart opss)).
    assert (L0 : later g0 (as_graph a0)) by apply later_refl. pose proof (linked_run sch1 m0 a0 L0 (linked_start pats)) as LK1. rewrite <- E1 in LK1. set (a1 := as_run a0 (adders sch1)) in *.
    assert (L1 : later g0 (as_graph a1)) by (apply (fine_run_later (adders sch1) a0 fine_start)). pose proof (linked_run sch2 s1 a1 L1 LK1) as LK2. rewrite <- E2 in LK2.
    assert (TR : forall t, In t (c_triples (m_graph s)) -> is_triple t). { destruct LK2 as (EG & _ & [_ [IV _]] & _). rewrite EG. apply (i_trip _ _ _ _ IV). }
    split; [exact TR|]. destruct (ladder_start s' p' o' HS HP HO) as (sh & ES & HF).
    assert (TR1 : forall t, In t (c_triples (m_graph s1)) -> is_triple t). { destruct LK1 as (EG & _ & [_ [IV _]] & _). rewrite EG. apply (i_trip _ _ _ _ IV). }
    pose proof (one_run sh s1 j (fun t => settled s1 t /\ hit sh t)) as R. assert (EG1 : m_graph s1 = as_graph a1) by apply LK1.
    destruct (R ltac:(intros t [_ A]; exact A) ltac:(intros t [[A _] _]; exact A) ltac:(intros t w [A _]; now apply (settled_stored s1 a1)) sch2 s1 a1 L1 ltac:(rewrite EG1; apply later_refl) LK1) with (x := x) as (l & A & B & C & D).
    - intros y EY. rewrite EJ in EY. injection EY as <-. unfold scan_new. rewrite ES. apply scan_start. tauto.
    - now rewrite <- E2.
    - rewrite <- E2 in *. exists l. split; [exact A|]. split; [exact B|]. split; [intros t J; destruct (C t J) as [C1 C2]; split; [apply HF; auto|exact C2]|].
      destruct (sc_pc x) as [ | | | | | | |[u|e]]; auto; cbn [pc_inv] in D.
      + intros t ST FT. apply D. split; [exact ST|]. apply HF; [apply TR1; apply ST|exact FT].
      + destruct D as (D1 & t & D2 & D3 & D4). split; [exact D1|]. exists t. split; [apply HF; auto|]. split; [exact D3|]. tauto.
  Qed.
  Lemma silent : forall pats sch s, s = m_run (mkM g0 (map th_new opss) (map (fun q => let '(s, p, o) := q in scan_new s p o) pats)) sch ->
    mkS (m_graph s) (m_adders s) = s_run (mkS g0 (map th_new opss)) (adders sch).
  Proof.
    intros pats sch s ES. pose proof (linked_run sch _ (mkAS g0 (astart opss)) (later_refl g0) (linked_start pats)) as (A & B & _). rewrite <- ES in *. rewrite A, B, <- start_conc, as_run_conc. reflexivity.
  Qed.

  (** ** Every scan ends *)
  Section Ends.
    Variable M : nat.
    Definition room (k : nat) (g : cgraph) : Prop := (forall n, length (deref (c_heap g) n) <= k) /\ length (c_triples g) <= k.
    Definition mu_up (u : option outer) : nat := match u with None => 0 | Some (Outer _ _ _ _ rem) => 1 + length rem * (M + 20) end.
    Definition mu_k (k : cont) : nat := match k with KHas _ _ _ => M + 20 | KKeys _ _ => 2 + M * (M + 20) | KVals up => M + 2 + mu_up up end.
    Definition mu (p : pc) : nat :=
      match p with
      | SIn _ => 1
      | SHas _ _ ob => 5 + match ob with Some _ => M + 20 | None => 2 + M * (M + 20) end
      | SLoad ms _ k => costs ms + mu_k k
      | SKeys u => mu_up (Some u)
      | SVals _ _ rem up => 1 + length rem + mu_up up
      | SAll => M + 2
      | SSet _ rem => 1 + length rem
      | SEnd _ => 0
      end.
    Lemma exec_cost : forall g r m, match exec g r m with (_, Ok (_, ms')) => costs ms' < cost m | _ => True end.
    Proof.
      intros g r m. destruct m; cbn; try lia.
      - destruct (in_dec stmt_eq_dec t (c_triples g)); cbn; auto.
      - destruct (tget (deref (c_heap g) r) k) as [[]|]; cbn; auto.
      - destruct (tget (deref (c_heap g) r) k) as [[]|]; cbn; auto.
    Qed.
    Lemma mu_step : forall g x n, room M g -> mu (sc_pc x) <= Datatypes.S n -> mu (sc_pc (snd (sc_step g x))) <= n.
    Proof.
      intros g [p out] n [R1 R2] H. unfold sc_step. cbn [sc_pc sc_out] in *. destruct p as [t|w a ob|ms r k|[w a m used rem]|m used rem up| |used rem|r]; cbn [snd sc_pc mu] in *.
      - lia.
      - destruct (tget (deref (c_heap g) (root w)) a); cbn [snd sc_pc mu]; [|lia]. destruct ob; cbn in *; lia.
      - destruct ms as [|m ms].
        + destruct k as [w a b|w a|up]; cbn [costs mu_k] in H.
          * destruct (tget (deref (c_heap g) r) b); cbn [snd sc_pc mu costs cost mu_k load2 mu_up]; lia.
          * cbn [snd sc_pc mu mu_up]. pose proof (R1 r) as RL. unfold dkeys. rewrite map_length. pose proof (Nat.mul_le_mono_r _ _ (M + 20) RL). lia.
          * cbn [snd sc_pc mu]. pose proof (R1 r) as RL. unfold dvals. rewrite map_length. lia.
        + pose proof (exec_cost g r m) as X. cbn [costs] in H. assert (0 < cost m) by (destruct m; cbn; lia). destruct (exec g r m) as [g' [[r' ms']|e]]; cbn [snd sc_pc mu]; [rewrite costs_app; lia|lia].
      - destruct (length (deref (c_heap g) m) =? used); [|cbn; lia]. destruct rem as [|b rem]; cbn [snd sc_pc mu costs cost mu_k load2 mu_up length] in *; lia.
      - destruct (length (deref (c_heap g) m) =? used); [|cbn; lia]. destruct rem as [|b rem]; [destruct up as [u|]|]; cbn [snd sc_pc mu length] in *; cbn [mu_up] in *; lia.
      - lia.
      - destruct (length (c_triples g) =? used); [|cbn; lia]. destruct rem as [|b rem]; cbn [snd sc_pc mu length] in *; lia.
      - lia.
    Qed.
    Lemma mu_zero : forall p, mu p <= 0 -> exists r, p = SEnd r.
    Proof.
      intros p L. pose proof (Nat.le_0_l (M * (M + 20))). destruct p as [ |w a' [ob|]|ms r [ | |]|[]| | | |r]; cbn [mu mu_up mu_k] in L; try (exfalso; lia). eauto.
    Qed.
    Lemma mu_start : forall s p o, mu (ladder s p o) <= M * (M + 20) + M + 30.
    Proof. intros s p o. destruct (ladder_any s p o) as (sh & ->). destruct sh; cbn; lia. Qed.
    Lemma room_step : forall k g x, room k g -> 0 < left x -> room (Datatypes.S k) (fst (th_step g x)).
    Proof.
      intros k g x [R1 R2] _. assert (RR : room (Datatypes.S k) g) by (split; [intro n; pose proof (R1 n); lia|lia]). assert (PUT : forall r d, length d <= Datatypes.S k -> room (Datatypes.S k) (mkC (c_triples g) (put (c_heap g) r d))).
      { intros r d LD. split; [|cbn; lia]. cbn [c_heap]. intro n. destruct (Nat.lt_ge_cases r (length (c_heap g))) as [RL|RL].
        - destruct (Nat.eq_dec r n) as [<-|NE]; [now rewrite deref_put_eq by exact RL|rewrite deref_put_neq by exact NE]. pose proof (R1 n). lia.
        - assert (X : put (c_heap g) r d = c_heap g). { clear - RL. revert r RL. induction (c_heap g) as [|y h IH]; intros [|r] RL; cbn in *; try lia; auto. now rewrite IH by lia. } rewrite X. pose proof (R1 n). lia. }
      assert (SL : forall r q v, length (tset (deref (c_heap g) r) q v) <= Datatypes.S k).
      { intros r q v. pose proof (R1 r) as RL. assert (LS : forall d : list (term * cell), length (tset d q v) <= Datatypes.S (length d)). { induction d as [|[a c] d IH]; cbn; [lia|]. destruct (term_eq_dec q a), (term_eq_dec a q); cbn in *; try lia. } pose proof (LS (deref (c_heap g) r)). lia. }
      assert (DL : forall r q, length (tdel (deref (c_heap g) r) q) <= Datatypes.S k).
      { intros r q. pose proof (R1 r) as RL. assert (LS : forall d : list (term * cell), length (tdel d q) <= length d). { induction d as [|[a c] d IH]; cbn; [lia|]. destruct (term_eq_dec q a), (term_eq_dec a q); cbn in *; try lia. } pose proof (LS (deref (c_heap g) r)). lia. }
      unfold th_step. destruct (th_now x) as [[[op r] [|m ms]]|]; [exact RR| |destruct (th_ops x); exact RR].
      assert (X : room (Datatypes.S k) (fst (exec g r m))).
      { destruct m; cbn [exec fst]; auto.
        - split; [apply RR|]. cbn. unfold set_add. destruct (in_dec stmt_eq_dec t (c_triples g)); [lia|]. rewrite app_length. cbn. lia.
        - destruct (in_dec stmt_eq_dec t (c_triples g)); [|exact RR]. split; [apply RR|]. cbn. unfold set_remove. pose proof (remove_length_le stmt_eq_dec (c_triples g) t). lia.
        - destruct (tget (deref (c_heap g) r) k0) as [[]|]; cbn [fst]; auto. split; [|cbn; lia]. cbn [c_heap]. intro n. rewrite deref_alloc. pose proof (R1 n). lia.
        - destruct (tget (deref (c_heap g) r) k0); cbn [fst]; auto. }
      destruct (exec g r m) as [g' [[r' ms']|e]]; exact X.
    Qed.
    Definition lefts (l : list thread) : nat := list_sum (map left l).
    Lemma lefts_set : forall l i x y, nth_error l i = Some x -> lefts (set_nth l i y) + left x = lefts l + left y.
    Proof.
      unfold lefts, list_sum. induction l as [|z l IH]; intros [|i] x y E; cbn [set_nth map fold_right nth_error] in *; try discriminate; [injection E as ->; lia|]. pose proof (IH i x y E). lia.
    Qed.
    Definition roomy (s : mstate) : Prop := exists k, room k (m_graph s) /\ k + lefts (m_adders s) <= M.
    Lemma roomy_room : forall s, roomy s -> room M (m_graph s).
    Proof. intros s (k & [A B] & L). split; [intro n; pose proof (A n); lia|lia]. Qed.
    Lemma roomy_step : forall s a x, later g0 (as_graph a) -> linked s a -> roomy s -> roomy (m_step s x).
    Proof.
      intros s a x L0 LK (k & R & L). destruct x as [i|j]; cbn [m_step].
      - destruct (nth_error (m_adders s) i) as [y|] eqn:E; [|now exists k]. destruct (left y) as [|n] eqn:EL.
        + assert (X : th_step (m_graph s) y = (m_graph s, y)). { unfold left in EL. unfold th_step. destruct (th_now y) as [[[op r] ms]|]; [cbn in EL; lia|]. destruct (th_ops y); [reflexivity|cbn in EL; lia]. }
          rewrite X. exists k. split; [exact R|]. cbn [m_adders]. pose proof (lefts_set _ _ _ y E). lia.
        + pose proof (room_step k (m_graph s) y R ltac:(lia)) as R'. pose proof (left_step (m_graph s) y n ltac:(lia)) as L'. destruct (th_step (m_graph s) y) as [g' y']. cbn [fst snd] in *. exists (Datatypes.S k). split; [exact R'|]. cbn [m_adders]. pose proof (lefts_set _ _ _ y' E). lia.
      - pose proof (linked_step s a (Scanner j) L0 LK) as (EG & _). destruct LK as (EG0 & _). cbn [m_step nextm] in EG. destruct (nth_error (m_scans s) j) as [y|]; [|now exists k]. destruct (sc_step (m_graph s) y) as [g' y']. cbn [m_graph] in EG. exists k. cbn [m_graph m_adders]. rewrite EG, <- EG0. auto.
    Qed.
    Lemma scan_ends : forall sch s a, later g0 (as_graph a) -> linked s a -> roomy s ->
      forall j x, (forall y, nth_error (m_scans s) j = Some y -> mu (sc_pc y) <= turns_of j sch) -> nth_error (m_scans (m_run s sch)) j = Some x -> exists r, sc_pc x = SEnd r.
    Proof.
      induction sch as [|t sch IH]; intros s a L0 LK R j x H E.
      - cbn in E. pose proof (H x E) as L. cbn [turns_of] in L. now apply mu_zero.
      - change (m_run s (t :: sch)) with (m_run (m_step s t) sch) in E. refine (IH (m_step s t) (nextm a t) _ (linked_step s a t L0 LK) (roomy_step s a t L0 LK R) j x _ E).
        + apply (later_trans _ (as_graph a)); [exact L0|]. apply linked_later. apply LK.
        + intros y EY. destruct t as [i|k]; cbn [m_step turns_of] in *.
          * apply H. destruct (nth_error (m_adders s) i); [destruct (th_step (m_graph s) t)|]; exact EY.
          * destruct (nth_error (m_scans s) k) as [z|] eqn:EK.
            -- pose proof (mu_step (m_graph s) z) as MS. destruct (sc_step (m_graph s) z) as [g' z']. cbn [m_scans snd] in *. rewrite (nth_set _ _ _ _ _ EK) in EY. destruct (Nat.eq_dec j k) as [->|NE].
               ++ injection EY as <-. apply MS; [now apply roomy_room|]. pose proof (H z EK) as L. rewrite Nat.eqb_refl in L. exact L.
               ++ pose proof (H y EY) as L. destruct (k =? j) eqn:B; [apply Nat.eqb_eq in B; congruence|exact L].
            -- destruct (k =? j) eqn:B; [apply Nat.eqb_eq in B; congruence|]. exact (H y EY).
    Qed.
  End Ends.
  Lemma room_exists : exists k, room k g0.
  Proof.
    assert (H : exists k, forall n, length (deref (c_heap g0) n) <= k).
    { generalize (c_heap g0). intro h. exists (list_sum (map (@length (term * cell)) h)). unfold deref, list_sum. induction h as [|d h IH]; intros [|n]; cbn [nth map fold_right length]; try lia. pose proof (IH n). lia. }
    destruct H as [k H]. exists (k + length (c_triples g0)). split; [intro n; pose proof (H n); lia|lia].
  Qed.
  Lemma scans_end : forall pats, exists n, forall sch j x, n <= turns_of j sch ->
    nth_error (m_scans (m_run (mkM g0 (map th_new opss) (map (fun q => let '(s, p, o) := q in scan_new s p o) pats)) sch)) j = Some x -> exists r, sc_pc x = SEnd r.
  Proof.
    intro pats. destruct room_exists as [k R]. set (M := k + lefts (map th_new opss)). exists (M * (M + 20) + M + 30). intros sch j x L E.
    refine (scan_ends M sch _ (mkAS g0 (astart opss)) (later_refl g0) (linked_start pats) _ j x _ E).
    - exists k. split; [exact R|]. cbn [m_adders]. unfold M. lia.
    - cbn [m_scans]. intros y EY. rewrite nth_error_map in EY. destruct (nth_error pats j) as [[[s p] o]|]; [|discriminate]. injection EY as <-. cbn [scan_new sc_pc]. pose proof (mu_start M s p o). lia.
  Qed.
  (** what is in the graph was there or is added *)
  Definition known (g : cgraph) : Prop := forall t, In t (c_triples g) -> In t (c_triples g0) \/ exists ops, In ops opss /\ In (CAdd t) ops.
  Lemma known_step : forall a i, fine a -> known (as_graph a) -> known (as_graph (as_step a i)).
  Proof.
    intros a i [_ [IV _]] K. unfold as_step. destruct (nth_error (as_threads a) i) as [x|] eqn:E; [|exact K]. cbn [as_graph]. assert (NX : now_of (as_threads a) i = a_now x) by (unfold now_of; now rewrite E).
    unfold a_step, goes, ends. destruct (a_now x) as [[[op p] r]|]; [|destruct (a_ops x); exact K]. destruct (i_ops _ _ _ _ IV _ _ _ _ NX) as [JA _]. destruct op as [t|t]; [|exfalso; exact (all_adds i t JA)].
    destruct p as [|[|w ws]|w b ws|w b m ws|w ws]; cbn [fst]; try exact K.
    - intros u J. cbn [c_triples] in J. unfold set_add in J. assert (X : In u (c_triples (as_graph a)) \/ u = t) by (destruct (in_dec stmt_eq_dec t (c_triples (as_graph a))); [now left|apply in_app_iff in J; cbn in J; intuition]).
      destruct X as [X| ->]; [now apply K|]. right. unfold all, ops_of in JA. destruct (nth_error opss i) as [ops|] eqn:EO; [|destruct JA]. exists ops. split; [now apply nth_error_In in EO|exact JA].
    - cbn [op_stmt]. destruct (tget (deref (c_heap (as_graph a)) r) (key12 b w t)) as [[]|]; exact K.
  Qed.
  Lemma known_run : forall sch a, fine a -> known (as_graph a) -> known (as_graph (as_run a sch)).
  Proof. induction sch as [|i sch IH]; intros a F K; [exact K|]. cbn. apply IH; [now apply fine_step|now apply known_step]. Qed.
  Lemma undisturbed : forall pats sch s j s' p' o' x,
    s = m_run (mkM g0 (map th_new opss) (map (fun q => let '(s, p, o) := q in scan_new s p o) pats)) sch ->
    nth_error pats j = Some (s', p', o') -> honoured s' -> honoured p' -> honoured o' -> nth_error (m_scans s) j = Some x ->
    (forall ops t, In ops opss -> In (CAdd t) ops -> fits s' p' o' t -> In t (c_triples g0)) ->
    forall r, sc_pc x = SEnd r -> r = Ok tt /\ exists l, sc_out x = map CVal l /\ lists l (fun t => In t (c_triples g0) /\ fits s' p' o' t).
  Proof.
    intros pats sch s j s' p' o' x ES EP HS HP HO EX KN r ER. set (m0 := mkM g0 _ _) in ES.
    assert (ST : forall t, In t (c_triples g0) -> settled m0 t). { intros t J. split; [exact J|]. intros y r' ms JY. unfold m0 in JY. cbn [m_adders] in JY. apply in_map_iff in JY. destruct JY as (ops & <- & _). discriminate. }
    destruct (scan_main pats [] sch m0 s j s' p' o' x eq_refl ES HS HP HO) as (_ & l & A & B & C & D); [unfold m0; cbn [m_scans]; now rewrite nth_error_map, EP|exact EX|].
    pose proof (linked_run sch m0 (mkAS g0 (astart opss)) (later_refl g0) (linked_start pats)) as (EG & _). rewrite <- ES in EG.
    assert (KR : known (m_graph s)) by (rewrite EG; apply known_run; [exact fine_start|intros t J; now left]).
    assert (K : forall t, fits s' p' o' t -> In t (c_triples (m_graph s)) -> In t (c_triples g0)) by (intros t FT J; destruct (KR t J) as [X|(ops & J1 & J2)]; eauto).
    rewrite ER in D. destruct r as [[]|e].
    - split; [reflexivity|]. exists l. split; [exact A|]. split; [exact B|]. intro t. split; [intro J; destruct (C t J); split; [now apply K|auto]|]. intros [J FT]. apply D; [now apply ST|exact FT].
    - exfalso. destruct D as (_ & t & FT & J & NS). apply NS, ST, K; auto.
  Qed.
End Adds.

(** ** From the beginning *)
Section Top.
  Variable ops0 : list cop.
  Variable addss : list (list stmt).
  Variable g : cgraph.
  Hypothesis ST : start_of ops0 addss g.
  Let opss := map (map CAdd) addss.
  Lemma t_quiet : quiet g.
  Proof. destruct ST as (T0 & _ & _ & sch0 & s0 & E0 & F0 & ->). now destruct (one_thread ops0 sch0 s0 T0 E0 F0). Qed.
  Lemma t_triples : forall ops, In ops opss -> of_triples ops.
  Proof.
    destruct ST as (_ & T & _). intros ops J t K. unfold opss in J. apply in_map_iff in J. destruct J as (l & <- & J). apply (T l t J). destruct K as [K|K]; apply in_map_iff in K; destruct K as (u & E & K); [injection E as <-; exact K|discriminate].
  Qed.
  Lemma t_adds : forall ops t, In ops opss -> ~ In (CRemove t) ops.
  Proof. intros ops t J K. unfold opss in J. apply in_map_iff in J. destruct J as (l & <- & J). apply in_map_iff in K. destruct K as (u & E & K). discriminate. Qed.
  Lemma t_H2 : forall i j a c t u w b, i <> j -> nth_error opss i = Some a -> nth_error opss j = Some c -> In (CAdd t) a -> In (CAdd u) c ->
    pre b w t ++ [key12 b w t] = pre b w u ++ [key12 b w u] -> ThreadHeap.walk (c_heap g) (root w) (pre b w t ++ [key12 b w t]) <> None.
  Proof.
    destruct ST as (T0 & _ & PR & sch0 & s0 & E0 & F0 & EG). destruct (one_thread ops0 sch0 s0 T0 E0 F0) as (_ & P0 & _). rewrite <- EG in P0. fold opss in PR.
    intros i j a c t u w b NE E E' J J' EQ. assert (K1 : key1 w t = key1 w u) by (destruct b; cbn in EQ; congruence).
    assert (IR : In (key1 w, key2 w) roads) by (destruct w; cbn; auto).
    destruct (PR i j a c t u (key1 w) (key2 w) NE E E' J J' IR K1) as [(v & V1 & V2) A2]. destruct b; cbn [pre key12 app] in *.
    - destruct A2 as (v' & W1 & W2 & W3); [congruence|]. rewrite <- W2, <- W3. now apply P0.
    - rewrite <- V2. pose proof (P0 v w V1) as X. cbn [ThreadHeap.walk] in *. destruct (tget (deref (c_heap g) (root w)) (key1 w v)) as [[]|]; congruence.
  Qed.
  Lemma m_start_eq : forall pats, m_start g addss pats = mkM g (map th_new opss) (map (fun q => let '(s, p, o) := q in scan_new s p o) pats).
  Proof. intro pats. unfold m_start, opss. now rewrite map_map. Qed.
  Definition t_scan := fun pats => scan_main g opss t_quiet t_triples t_adds t_H2 pats.
  Definition t_silent := fun pats => silent g opss t_quiet t_triples t_adds t_H2 pats.
  Definition t_ends := fun pats => scans_end g opss t_quiet t_triples t_adds t_H2 pats.
  Definition t_undisturbed := fun pats => undisturbed g opss t_quiet t_triples t_adds t_H2 pats.
End Top.
