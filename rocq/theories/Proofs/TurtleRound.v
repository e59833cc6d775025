(** Serialized graphs read back (C86). *)
From Coq Require Import Permutation Sorted.
From Verif Require Import Model.Py Model.Terms Model.Graph Model.GraphRun Model.Curie Model.TurtleTree Model.Turtle Model.TurtleParse Model.Resource Model.ResourceRun Model.TurtleOut
  Spec.GraphSpec Spec.CodecSpec Spec.CurieSpec Spec.TurtleSpec Spec.TurtleTextSpec Spec.ResourceSpec Spec.TurtleOutSpec
  Proofs.GraphInv Proofs.GraphHist Proofs.TurtleDoc Proofs.TurtleReject Proofs.TurtleTokens Proofs.TurtleLayout Proofs.TurtleTrip Properties.TurtleTextProps.
Open Scope N_scope.

Lemma resolves_fun : forall uj b u x y, resolves_by uj b u x -> resolves_by uj b u y -> x = y.
Proof. intros uj b u x y (j & E & H) (j' & E' & H'). rewrite E in E'. injection E' as <-. destruct H as [(A & A2 & ->)|(A & ->)], H' as [(B & B2 & ->)|(B & ->)]; auto; tauto. Qed.
Section Round.
  Variables (ord : list term -> list term) (fuel : nat) (pm : dict str str) (base : option str) (g : graph) (early : world -> Prop) (w : world) (ns : str).
  Hypotheses (RG : reachable g) (SH : shuffle ord) (WR : wreach_if early w) (LX : lookup pm (s2l "xsd") ns).
  Hypotheses (US : usual w (g_iter g) (g_subjects g) fuel) (PR : printable (g_iter g) (g_subjects g)) (NS : no_stale_subjects (g_iter g) (g_subjects g)).
  Lemma round_trip : forall resolves B0 B, header_legal pm base -> header_means resolves B0 base B pm -> readable_graph resolves pm base B (g_iter g) ->
    exists t d k, serialize_turtle ord fuel pm base g w = (w, (t, Ok tt)) /\ doc_text true d t /\ (lists_alone (g_iter g) -> forallb stmt_flat d = true) /\
      forall L bs, length bs = k -> exists ts, doc_means resolves L (env0 B0) d ts bs /\ (NoDup bs -> graph_reads_as (g_iter g) ts bs).
  Proof.
    intros resolves B0 B HL HM RD. destruct (serialize_layout ord fuel pm base g RG SH early w ns WR LX US PR) as (bl & LO & E).
    destruct US as (U1 & U2 & _). destruct (whole_trip resolves pm base B0 B (g_iter g) (g_subjects g) bl RD HL HM) as (d & k & T & F & M); auto.
    - intros t J. apply U2 in J. exact (proj2 (proj1 J)).
    - intros t J. destruct (in_use_always_listed g t RG J) as [X _]. exact X.
    - intros t J. destruct (reachable_wf _ RG) as (_ & HT & _). exact (HT t J).
    - intros s J NL. destruct (U1 s J) as [N _]. destruct PR as [P1 _]. destruct s as [i|b|v lg dd]; [eauto|now destruct (P1 _ J NL b)|destruct N].
    - exists (header pm base ++ concat (map block_text bl)), d, k. auto.
  Qed.
  Lemma firstn_pad : forall (bs : list N) k, exists bs' r r', length bs' = k /\ bs ++ r = bs' ++ r'.
  Proof.
    intros bs k. exists (firstn k (bs ++ repeat 0 k)), (repeat 0 k), (skipn k (bs ++ repeat 0 k)). split; [|symmetry; apply firstn_skipn].
    rewrite firstn_length, app_length, repeat_length. lia.
  Qed.
  Lemma own_round_trip : forall uj n h B0 B, uj_clean uj -> ~ In 60 B0 -> header_legal pm base -> header_means (resolves_by uj) B0 base B pm ->
    readable_graph (resolves_by uj) pm base B (g_iter g) -> lists_alone (g_iter g) ->
    exists t n' h' ts bs, serialize_turtle ord fuel pm base g w = (w, (t, Ok tt)) /\ turtle_parse uj n B0 h (SrcStr t) = Some (n', h', Ok tt) /\
      graph_reads_as (g_iter g) ts bs /\ (forall a, In a bs -> n <= a < n') /\ (forall x, In x (g_iter h') <-> In x (g_iter h) \/ In x ts).
  Proof.
    intros uj n h B0 B U N60 HL HM RD LA. destruct (round_trip (resolves_by uj) B0 B HL HM RD) as (t & d & k & E & T & F & M).
    destruct (M (fun _ => 0) (repeat 0 k) (repeat_length _ _)) as (ts0 & D0 & _).
    destruct (C83_adds_the_triples_of_the_text uj n B0 h d t _ _ _ U N60 T (F LA) D0) as (n' & h' & L & ts & bs & P & D & ND & X & _ & _ & Y).
    exists t, n', h', ts, bs. do 2 (split; [assumption|]). split; [|auto]. destruct (firstn_pad bs k) as (bs' & r & r' & LB & Q).
    destruct (M L bs' LB) as (ts' & D' & G). destruct (doc_det (resolves_by uj)) with (1 := resolves_fun uj) (2 := D) (3 := D') (4 := Q) as [-> ->]. auto.
  Qed.
End Round.
Lemma no_lists_read : forall G ts bs, graph_reads_as G ts bs -> (forall o, ~ list_cell G o) ->
  bs = [] /\ forall x, In x ts <-> exists t, In t G /\ x = Tr (st_s t) (st_p t) (read_back (st_o t)).
Proof.
  intros G ts bs (l & ND & IL & A & _) N.
  assert (X : bs = [] /\ forall x, In x ts <-> exists t, In t l /\ x = Tr (st_s t) (st_p t) (read_back (st_o t))).
  { clear IL ND. induction A as [|t l ts bs ts' bs' R A [E IH]].
    - split; auto. intro x. split; [intros []|intros (t & [] & _)].
    - destruct R as [s p o NL|s p o os bs LC _ _]; [|now destruct (N o)]. split; [exact E|]. intro x. split.
      + intros [<-|J]; [exists (Tr s p o); split; [now left|reflexivity]|]. apply IH in J. destruct J as (t & J & ->). exists t. split; [now right|reflexivity].
      + intros (t & [<-|J] & ->); [now left|]. right. apply IH. eauto. }
  destruct X as [E X]. split; auto. intro x. rewrite X. split; intros (t & J & ->); exists t; (split; [|reflexivity]); apply IL; auto.
Qed.
