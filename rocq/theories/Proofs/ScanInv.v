(** A scan among threads that add: what it keeps (for C116). *)
From Verif Require Import Model.Py Model.Terms Model.Graph Model.GraphThreads Model.GraphScan Spec.GraphSpec Proofs.DictLemmas Proofs.GraphInv Proofs.ThreadHeap.
From Coq Require Import Lia PeanoNat.

(** ** What holds of the graph at every moment, and from one moment to a later one *)
Record good (g : cgraph) : Prop := {
  gd_nodup : forall n, NoDup (dkeys (deref (c_heap g) n));
  gd_ref : forall w ks n k c, length ks < 2 -> walk (c_heap g) (root w) ks = Some n -> tget (deref (c_heap g) n) k = Some c -> exists m, c = CRef m;
  gd_val : forall w x y n k c, walk (c_heap g) (root w) [x; y] = Some n -> tget (deref (c_heap g) n) k = Some c ->
    exists t, c = CVal t /\ key1 w t = x /\ key2 w t = y /\ key3 w t = k /\ In t (c_triples g);
  gd_trip : NoDup (c_triples g)
}.
Record later (b g : cgraph) : Prop := {
  lt_heap : forall n, exists ex, deref (c_heap g) n = deref (c_heap b) n ++ ex;
  lt_trip : exists ex, c_triples g = c_triples b ++ ex;
  lt_prov : forall w x y, walk (c_heap g) (root w) [x; y] <> None -> walk (c_heap b) (root w) [x; y] <> None \/ exists t, In t (c_triples g) /\ key1 w t = x /\ key2 w t = y
}.
Lemma dget_app : forall (d ex : dict term cell) k c, tget d k = Some c -> tget (d ++ ex) k = Some c.
Proof. induction d as [|[k' v] d IH]; intros ex k c E; [discriminate|]. cbn [app dget] in *. destruct (term_eq_dec k k'); auto. Qed.
Lemma later_get : forall b g n k c, later b g -> tget (deref (c_heap b) n) k = Some c -> tget (deref (c_heap g) n) k = Some c.
Proof. intros b g n k c L E. destruct (lt_heap _ _ L n) as (ex & ->). now apply dget_app. Qed.
Lemma later_walk : forall b g, later b g -> forall ks n m, walk (c_heap b) n ks = Some m -> walk (c_heap g) n ks = Some m.
Proof.
  intros b g L. induction ks as [|k ks IH]; intros n m E; [exact E|]. cbn [walk] in *. destruct (tget (deref (c_heap b) n) k) as [[x|t]|] eqn:G; try discriminate. rewrite (later_get _ _ _ _ _ L G). now apply IH.
Qed.
Lemma later_walk_some : forall b g n ks, later b g -> walk (c_heap b) n ks <> None -> walk (c_heap g) n ks <> None.
Proof. intros b g n ks L H. destruct (walk (c_heap b) n ks) as [m|] eqn:E; [|congruence]. rewrite (later_walk _ _ L _ _ _ E). discriminate. Qed.
Lemma later_trip : forall b g t, later b g -> In t (c_triples b) -> In t (c_triples g).
Proof. intros b g t L J. destruct (lt_trip _ _ L) as (ex & ->). apply in_or_app. now left. Qed.
Lemma later_refl : forall g, later g g.
Proof. intro g. split; [intro n; exists []; now rewrite app_nil_r|exists []; now rewrite app_nil_r|auto]. Qed.
Lemma later_trans : forall a b c, later a b -> later b c -> later a c.
Proof.
  intros a b c H K. split.
  - intro n. destruct (lt_heap _ _ H n) as (e1 & E1), (lt_heap _ _ K n) as (e2 & E2). exists (e1 ++ e2). now rewrite E2, E1, app_assoc.
  - destruct (lt_trip _ _ H) as (e1 & E1), (lt_trip _ _ K) as (e2 & E2). exists (e1 ++ e2). now rewrite E2, E1, app_assoc.
  - intros w x y N. destruct (lt_prov _ _ K w x y N) as [N'|N']; [|now right]. destruct (lt_prov _ _ H w x y N') as [N2|(t & J & A & B)]; [now left|]. right. exists t. split; [now apply (later_trip b c)|auto].
Qed.
Lemma later_stored : forall b g w t, later b g -> stored (c_heap b) w t -> stored (c_heap g) w t.
Proof. intros b g w t L (n & A & B). exists n. split; [now apply (later_walk _ _ L)|now apply (later_get _ _ _ _ _ L)]. Qed.
Lemma key_get : forall (d : dict term cell) k, In k (dkeys d) -> exists c, tget d k = Some c.
Proof. intros d k J. destruct (tget d k) eqn:E; [eauto|]. apply dget_None_iff in E. contradiction. Qed.
Lemma get_key : forall (d : dict term cell) k c, tget d k = Some c -> In k (dkeys d).
Proof. intros d k c E. apply dget_Some_In in E. unfold dkeys. apply in_map_iff. now exists (k, c). Qed.
Lemma val_get : forall (d : dict term cell) c, NoDup (dkeys d) -> In c (dvals d) -> exists k, tget d k = Some c.
Proof. intros d c N J. apply in_map_iff in J. destruct J as ([k c'] & E & J). cbn in E. subst c'. exists k. now apply In_dget. Qed.
Lemma get_val : forall (d : dict term cell) k c, tget d k = Some c -> In c (dvals d).
Proof. intros d k c E. apply dget_Some_In in E. unfold dvals. apply in_map_iff. now exists (k, c). Qed.

Lemma nodup_apart : forall A (l r : list A), NoDup (l ++ r) -> forall x, In x l -> ~ In x r.
Proof. intros A l r N x J K. apply in_split in J. destruct J as (l1 & l2 & ->). rewrite <- app_assoc in N. apply NoDup_remove_2 in N. apply N. rewrite !in_app_iff. auto. Qed.

(** ** What a scan looks for *)
Inductive shape := ShIn (t : stmt) | ShVals (w : which) (a b : term) | ShNest (w : which) (a : term) | ShAll.
Definition hit (sh : shape) (t : stmt) : Prop :=
  match sh with
  | ShIn u => t = u
  | ShVals w a b => key1 w t = a /\ key2 w t = b
  | ShNest w a => key1 w t = a
  | ShAll => True
  end.
Definition start (sh : shape) : pc :=
  match sh with ShIn t => SIn t | ShVals w a b => SHas w a (Some b) | ShNest w a => SHas w a None | ShAll => SAll end.
Lemma truthy : forall x, honoured (Some x) -> oterm_truthy (Some x) = true.
Proof. intros [[|c u]| |] H; try reflexivity. exfalso. now apply H. Qed.
Lemma ladder_start : forall s p o, honoured s -> honoured p -> honoured o -> exists sh, ladder s p o = start sh /\ forall t, is_triple t -> (hit sh t <-> fits s p o t).
Proof.
  intros s p o HS HP HO. unfold ladder, fits, agrees.
  assert (X : forall t a b c, is_triple t -> t = Tr a b c <-> (Some a = None \/ Some a = Some (st_s t)) /\ (Some b = None \/ Some b = Some (st_p t)) /\ (Some c = None \/ Some c = Some (st_o t))).
  { intros [s' p' o' g'] a b c IT. unfold is_triple, Tr in *. cbn in *. subst g'. split; [intros [= -> -> ->]; auto|]. intros ([|[= ->]] & [|[= ->]] & [|[= ->]]); try discriminate. reflexivity. }
  destruct s as [s|]; [rewrite (truthy s HS)|]; (destruct p as [p|]; [rewrite (truthy p HP)|]); (destruct o as [o|]; [rewrite (truthy o HO)|]); cbn [oterm_truthy].
  - exists (ShIn (Tr s p o)). split; [reflexivity|]. intros t IT. cbn [hit]. now apply X.
  - exists (ShVals SPO s p). split; [reflexivity|]. intros t _. cbn. split; [intros [<- <-]; auto|]. intros ([|[= ->]] & [|[= ->]] & _); try discriminate. auto.
  - exists (ShVals OSP o s). split; [reflexivity|]. intros t _. cbn. split; [intros [<- <-]; auto|]. intros ([|[= ->]] & _ & [|[= ->]]); try discriminate. auto.
  - exists (ShNest SPO s). split; [reflexivity|]. intros t _. cbn. split; [intros <-; auto|]. intros ([|[= ->]] & _); try discriminate. auto.
  - exists (ShVals POS p o). split; [reflexivity|]. intros t _. cbn. split; [intros [<- <-]; auto|]. intros (_ & [|[= ->]] & [|[= ->]]); try discriminate. auto.
  - exists (ShNest POS p). split; [reflexivity|]. intros t _. cbn. split; [intros <-; auto|]. intros (_ & [|[= ->]] & _); try discriminate. auto.
  - exists (ShNest OSP o). split; [reflexivity|]. intros t _. cbn. split; [intros <-; auto|]. intros (_ & _ & [|[= ->]]); try discriminate. auto.
  - exists ShAll. split; [reflexivity|]. intros t _. cbn. tauto.
Qed.

(** ** The invariant of a scan *)
Section Scan.
  Variable sh : shape.
  Variable b0 : cgraph.   (* the graph when it starts *)
  Variable want : stmt -> Prop.
  Hypothesis want_hit : forall t, want t -> hit sh t.
  Hypothesis want_in : forall t, want t -> In t (c_triples b0).
  Hypothesis want_stored : forall t w, want t -> stored (c_heap b0) w t.
  Definition loading (h : heap) (w : which) (ks : list term) (ms : list micro) (r : nat) : Prop :=
    walk h (root w) ks <> None /\
    (ms = MRoot w :: map MGet ks \/ exists k1 k2, ks = k1 ++ k2 /\ ms = map MGet k2 /\ walk h (root w) k1 = Some r).
  (** the keys [dn] of the outer loop are done, [rem] are left *)
  Definition up_keys (h : heap) (w : which) (a : term) (n used : nat) (dn rem : list term) : Prop :=
    walk h (root w) [a] = Some n /\ (exists ex, dkeys (deref h n) = dn ++ rem ++ ex) /\ used = length (dn ++ rem) /\
    forall k, walk (c_heap b0) (root w) [a; k] <> None -> In k (dn ++ rem).
  Definition up_ok (h : heap) (w : which) (a b : term) (dn : list term) (up : option outer) : Prop :=
    match up with
    | None => sh = ShVals w a b /\ dn = []
    | Some (Outer w' a' n used rem) => w' = w /\ a' = a /\ sh = ShNest w a /\ up_keys h w a n used dn (b :: rem)
    end.
  Definition before (w : which) (dn : list term) (l : list stmt) : Prop :=
    (forall t, In t l -> In (key2 w t) dn) /\ forall t, want t -> In (key2 w t) dn -> In t l.
  Definition pc_inv (g : cgraph) (p : pc) (l : list stmt) : Prop :=
    let h := c_heap g in
    match p with
    | SIn t => sh = ShIn t /\ l = []
    | SHas w a ob => l = [] /\ sh = match ob with Some b => ShVals w a b | None => ShNest w a end
    | SAll => sh = ShAll /\ l = []
    | SSet used rem => sh = ShAll /\ (exists ex, c_triples g = l ++ rem ++ ex) /\ used = length l + length rem /\ forall t, want t -> In t (l ++ rem)
    | SLoad ms r (KHas w a b) => l = [] /\ sh = ShVals w a b /\ loading h w [a] ms r
    | SLoad ms r (KKeys w a) => l = [] /\ sh = ShNest w a /\ loading h w [a] ms r
    | SLoad ms r (KVals up) => exists w a b dn, up_ok h w a b dn up /\ loading h w [a; b] ms r /\ before w dn l
    | SKeys (Outer w a n used rem) => sh = ShNest w a /\ exists dn, up_keys h w a n used dn rem /\ before w dn l
    | SVals n used rem up => exists w a b dn l1 l2, up_ok h w a b dn up /\ walk h (root w) [a; b] = Some n /\ l = l1 ++ l2 /\ before w dn l1 /\
        (exists ex, dvals (deref h n) = map CVal l2 ++ rem ++ ex) /\ used = length l2 + length rem /\
        (forall t, want t -> key1 w t = a -> key2 w t = b -> In (CVal t) (map CVal l2 ++ rem)) /\ forall t, In t l2 -> key2 w t = b
    | SEnd (Ok _) => forall t, want t -> In t l
    | SEnd (Err e) => e = RuntimeError /\ exists t, hit sh t /\ In t (c_triples g) /\ ~ want t
    end.
  Definition scan_inv (g : cgraph) (x : scan) : Prop :=
    exists l, sc_out x = map CVal l /\ NoDup l /\ (forall t, In t l -> hit sh t /\ In t (c_triples g)) /\ pc_inv g (sc_pc x) l.

  (** the graph grows *)
  Lemma loading_mono : forall g g' w ks ms r, later g g' -> loading (c_heap g) w ks ms r -> loading (c_heap g') w ks ms r.
  Proof.
    intros g g' w ks ms r L [A B]. split; [now apply (later_walk_some g)|]. destruct B as [B|(k1 & k2 & B & C & D)]; [now left|]. right. exists k1, k2. split; [exact B|]. split; [exact C|]. now apply (later_walk g g' L).
  Qed.
  Lemma up_keys_mono : forall g g' w a n used dn rem, later g g' -> up_keys (c_heap g) w a n used dn rem -> up_keys (c_heap g') w a n used dn rem.
  Proof.
    intros g g' w a n used dn rem L (A & (ex & B) & C & D). split; [now apply (later_walk g g' L)|]. split; [|auto]. destruct (lt_heap _ _ L n) as (e' & E). exists (ex ++ dkeys e').
    unfold dkeys in *. rewrite E, map_app, B. now rewrite <- !app_assoc.
  Qed.
  Lemma up_ok_mono : forall g g' w a b dn up, later g g' -> up_ok (c_heap g) w a b dn up -> up_ok (c_heap g') w a b dn up.
  Proof. intros g g' w a b dn [[w' a' n used rem]|] L; [|auto]. intros (A & B & C & D). repeat (split; [assumption|]). now apply (up_keys_mono g). Qed.
  Lemma scan_mono : forall g g' x, later g g' -> scan_inv g x -> scan_inv g' x.
  Proof.
    intros g g' x L (l & A & B & C & D). exists l. split; [exact A|]. split; [exact B|]. split; [intros t J; destruct (C t J) as [C1 C2]; split; [exact C1|now apply (later_trip g)]|].
    destruct (sc_pc x) as [t|w a ob|ms r [w a b|w a|up]|[w a n used rem]|n used rem up| |used rem|[u|e]]; cbn [pc_inv] in *; auto.
    - destruct D as (D1 & D2 & D3). repeat (split; [assumption|]). now apply (loading_mono g).
    - destruct D as (D1 & D2 & D3). repeat (split; [assumption|]). now apply (loading_mono g).
    - destruct D as (w & a & b & dn & D1 & D2 & D3). exists w, a, b, dn. split; [now apply (up_ok_mono g)|]. split; [now apply (loading_mono g)|exact D3].
    - destruct D as (D1 & dn & D2 & D3). split; [exact D1|]. exists dn. split; [now apply (up_keys_mono g)|exact D3].
    - destruct D as (w & a & b & dn & l1 & l2 & D1 & D2 & D3 & D4 & (ex & D5) & D6 & D7). exists w, a, b, dn, l1, l2. split; [now apply (up_ok_mono g)|]. split; [now apply (later_walk g g' L)|]. repeat (split; [assumption|]). split; [|auto].
      destruct (lt_heap _ _ L n) as (e' & E). exists (ex ++ dvals e'). unfold dvals in *. rewrite E, map_app, D5. now rewrite <- !app_assoc.
    - destruct D as (D1 & (ex & D2) & D3 & D4). split; [exact D1|]. split; [|auto]. destruct (lt_trip _ _ L) as (e' & E). exists (ex ++ e'). now rewrite E, D2, <- !app_assoc.
    - destruct D as (D1 & t & D2 & D3 & D4). split; [exact D1|]. exists t. split; [exact D2|]. split; [now apply (later_trip g)|exact D4].
  Qed.

  (** the scan goes on *)
  Lemma vals_nodup : forall g w x y n, good g -> walk (c_heap g) (root w) [x; y] = Some n -> NoDup (dvals (deref (c_heap g) n)).
  Proof.
    intros g w x y n G W. pose proof (gd_nodup _ G n) as N. assert (X : forall k c, In (k, c) (deref (c_heap g) n) -> exists t, c = CVal t /\ key3 w t = k).
    { intros k c J. apply (In_dget term_eq_dec) in J; [|exact N]. destruct (gd_val _ G _ _ _ _ _ _ W J) as (t & A & _ & _ & B & _). eauto. }
    clear W. induction (deref (c_heap g) n) as [|[k c] d IH]; [constructor|]. cbn [dkeys dvals map fst snd] in *. apply NoDup_cons_iff in N. destruct N as [N1 N2]. constructor; [|apply IH; [exact N2|intros k' c' J; apply X; now right]].
    intro J. apply in_map_iff in J. destruct J as ([k' c'] & E & J). cbn in E. subst c'. destruct (X k c) as (t & -> & <-); [now left|]. destruct (X k' (CVal t)) as (t' & E & <-); [now right|]. injection E as <-. apply N1. apply in_map_iff. now exists (key3 w t, CVal t).
  Qed.
  Lemma walk_snoc : forall h n ks k m, walk h n ks = Some m -> walk h n (ks ++ [k]) = match tget (deref h m) k with Some (CRef x) => Some x | _ => None end.
  Proof. intros h n ks k m E. rewrite walk_app, E. cbn. destruct (tget (deref h m) k) as [[]|]; reflexivity. Qed.
  Lemma load_step : forall g w ks m ms r, loading (c_heap g) w ks (m :: ms) r -> exists r', exec g r m = (g, Ok (r', [])) /\ loading (c_heap g) w ks ms r'.
  Proof.
    intros g w ks m ms r [A [B|(k1 & k2 & B & C & D)]].
    - injection B as -> ->. exists (root w). split; [reflexivity|]. split; [exact A|]. right. exists [], ks. auto.
    - destruct k2 as [|k k2]; [discriminate C|]. injection C as -> ->. subst ks. pose proof A as A'. rewrite walk_app, D in A'. cbn [walk] in A'. cbn [exec].
      destruct (tget (deref (c_heap g) r) k) as [[n|t]|] eqn:G; try congruence. exists n. split; [reflexivity|]. split; [exact A|]. right. exists (k1 ++ [k]), k2. rewrite <- app_assoc. split; [reflexivity|]. split; [reflexivity|]. rewrite (walk_snoc _ _ _ _ _ D). now rewrite G.
  Qed.
  Lemma load_end : forall h w ks r, loading h w ks [] r -> walk h (root w) ks = Some r.
  Proof. intros h w ks r [_ [B|(k1 & k2 & B & C & D)]]; [discriminate|]. destruct k2; [|discriminate]. rewrite app_nil_r in B. now subst. Qed.
  Lemma size_end : forall A (l ex : list A) n, length (l ++ ex) = n -> n = length l -> ex = [].
  Proof. intros A l ex n E F. rewrite app_length in E. destruct ex; [reflexivity|cbn in E; lia]. Qed.
  Lemma size_more : forall A (l ex : list A) n, length (l ++ ex) <> n -> n = length l -> exists x, In x ex.
  Proof. intros A l ex n E F. rewrite app_length in E. destruct ex as [|x ex]; [cbn in E; lia|exists x; now left]. Qed.
  Lemma keys_len : forall (d : dict term cell), length (dkeys d) = length d.
  Proof. intro d. apply map_length. Qed.
  Lemma vals_len : forall (d : dict term cell), length (dvals d) = length d.
  Proof. intro d. apply map_length. Qed.
  Lemma scan_step : forall g x, good g -> later b0 g -> scan_inv g x -> fst (sc_step g x) = g /\ scan_inv g (snd (sc_step g x)).
  Proof.
    intros g [p out] G L (l & A & B & C & D). cbn [sc_pc sc_out] in *. unfold sc_step. cbn [sc_pc sc_out].
    assert (GO : forall p', pc_inv g p' l -> scan_inv g (mkScan p' out)) by (intros p' D'; exists l; auto).
    assert (ERR : forall t, hit sh t -> In t (c_triples g) -> ~ want t -> scan_inv g (mkScan (SEnd (Err RuntimeError)) out)).
    { intros t E1 E2 E3. apply GO. split; [reflexivity|]. now exists t. }
    assert (WS : forall t w, want t -> stored (c_heap g) w t) by (intros t w J; apply (later_stored b0 g); auto).
    destruct p as [t|w a ob|ms r k|[w a n used rem]|n used rem up| |used rem|r]; cbn [pc_inv] in D.
    - (* three arguments *)
      destruct D as [D1 ->]. cbn [fst snd]. split; [reflexivity|]. destruct (in_dec stmt_eq_dec t (c_triples g)) as [J|J].
      + exists [t]. rewrite A. split; [reflexivity|]. split; [repeat constructor; intros []|]. split; [intros u [<-|[]]; rewrite D1; split; [reflexivity|exact J]|]. cbn. intros u K. left. apply want_hit in K. rewrite D1 in K. symmetry. exact K.
      + exists []. rewrite A. split; [reflexivity|]. split; [constructor|]. split; [intros u []|]. cbn. intros u K. apply J. pose proof (want_hit u K) as H. rewrite D1 in H. cbn in H. subst u. apply (later_trip b0 g); auto.
    - (* a in self._w *)
      destruct D as [-> D]. destruct (tget (deref (c_heap g) (root w)) a) as [c|] eqn:E; (split; [reflexivity|]); cbn [snd]; apply GO.
      + destruct (gd_ref _ G w [] (root w) a c ltac:(cbn; lia) eq_refl E) as (m & ->).
        assert (LD : loading (c_heap g) w [a] [MRoot w; MGet a] 0) by (split; [cbn; rewrite E; discriminate|now left]). destruct ob as [b|]; cbn; auto.
      + cbn. intros t K. exfalso. pose proof (want_hit t K) as H. destruct (WS t w K) as (n & W & _). assert (KA : key1 w t = a) by (destruct ob as [b|]; rewrite D in H; cbn in H; tauto). cbn [walk] in W. rewrite KA, E in W. discriminate.
    - destruct ms as [|m ms].
      + destruct k as [w a b|w a|up].
        * (* b in self._w[a] *)
          destruct D as (-> & D1 & D2). apply load_end in D2. destruct (tget (deref (c_heap g) r) b) as [c|] eqn:E; (split; [reflexivity|]); cbn [snd]; apply GO.
          -- destruct (gd_ref _ G w [a] r b c ltac:(cbn; lia) D2 E) as (m & ->). cbn. exists w, a, b, []. split; [cbn; auto|]. split; [split; [|left; reflexivity]|split; [intros t []|intros t _ []]]. change [a; b] with ([a] ++ [b]). rewrite (walk_snoc _ _ _ _ _ D2), E. discriminate.
          -- cbn. intros t K. exfalso. pose proof (want_hit t K) as H. rewrite D1 in H. destruct H as [K1 K2]. destruct (WS t w K) as (n & W & _). rewrite K1, K2 in W. change [a; b] with ([a] ++ [b]) in W. rewrite (walk_snoc _ _ _ _ _ D2), E in W. discriminate.
        * (* the outer loop begins *)
          destruct D as (-> & D1 & D2). apply load_end in D2. split; [reflexivity|]. cbn [snd]. apply GO. cbn. split; [exact D1|]. exists []. split; [|split; [intros t []|intros t _ []]]. split; [exact D2|]. cbn [app]. split; [exists []; now rewrite app_nil_r|].
          split; [symmetry; apply keys_len|]. intros k N. apply (later_walk_some b0 g) in N; [|exact L]. change [a; k] with ([a] ++ [k]) in N. rewrite (walk_snoc _ _ _ _ _ D2) in N. destruct (tget (deref (c_heap g) r) k) as [c|] eqn:E; [|congruence]. now apply get_key in E.
        * (* an inner loop begins *)
          destruct D as (w & a & b & dn & D1 & D2 & D3). apply load_end in D2. split; [reflexivity|]. cbn [snd]. apply GO. cbn. exists w, a, b, dn, l, []. split; [exact D1|]. split; [exact D2|]. split; [now rewrite app_nil_r|]. split; [exact D3|]. split; [exists []; now rewrite app_nil_r|].
          split; [symmetry; apply vals_len|]. split; [|intros t []]. intros t K K1 K2. cbn. destruct (WS t w K) as (n & W & S). rewrite K1, K2, D2 in W. injection W as <-. now apply get_val in S.
      + (* subscripts *)
        assert (X : exists w ks, loading (c_heap g) w ks (m :: ms) r).
        { destruct k as [w a b|w a|up]; [destruct D as (_ & _ & D)|destruct D as (_ & _ & D)|destruct D as (w & a & b & dn & _ & D & _)]; eauto. }
        destruct X as (w0 & ks0 & X). destruct (load_step _ _ _ _ _ _ X) as (r' & EX & _). rewrite EX. cbn [fst snd app]. split; [reflexivity|]. apply GO.
        assert (Y : forall w ks, loading (c_heap g) w ks (m :: ms) r -> loading (c_heap g) w ks ms r').
        { intros w ks H. destruct (load_step _ _ _ _ _ _ H) as (r2 & EX2 & H2). rewrite EX in EX2. injection EX2 as <-. exact H2. }
        destruct k as [w a b|w a|up]; cbn in *.
        * destruct D as (D1 & D2 & D3). auto.
        * destruct D as (D1 & D2 & D3). auto.
        * destruct D as (w & a & b & dn & D1 & D2 & D3). exists w, a, b, dn. auto.
    - (* the outer loop *)
      destruct D as (D1 & dn & (D2 & (ex & D3) & D4 & D5) & D6). pose proof (gd_nodup _ G n) as ND. destruct (Nat.eqb_spec (length (deref (c_heap g) n)) used) as [E|E].
      + rewrite <- keys_len, D3, app_assoc in E. rewrite D4 in E. pose proof (size_end _ _ _ _ E eq_refl) as ->. rewrite app_nil_r in D3. destruct rem as [|b rem]; (split; [reflexivity|]); cbn [snd]; apply GO.
        * cbn. rewrite app_nil_r in *. intros t K. apply D6; [exact K|]. apply D5. pose proof (want_hit t K) as H. rewrite D1 in H. cbn in H. destruct (want_stored t w K) as (m & W & _). rewrite H in W. rewrite W. discriminate.
        * cbn. exists w, a, b, dn. split; [|split; [split; [|now left]|exact D6]].
          -- cbn. split; [reflexivity|]. split; [reflexivity|]. split; [exact D1|]. split; [exact D2|]. split; [exists []; now rewrite app_nil_r|]. auto.
          -- assert (J : In b (dkeys (deref (c_heap g) n))) by (rewrite D3; apply in_or_app; right; now left). destruct (key_get _ _ J) as (c & EC). destruct (gd_ref _ G w [a] n b c ltac:(cbn; lia) D2 EC) as (m & ->).
             change [a; b] with ([a] ++ [b]). rewrite (walk_snoc _ _ _ _ _ D2), EC. discriminate.
      + split; [reflexivity|]. cbn [snd]. rewrite <- keys_len, D3, app_assoc in E. destruct (size_more _ _ _ _ E D4) as (b & J).
        assert (J' : In b (dkeys (deref (c_heap g) n))) by (rewrite D3, app_assoc; apply in_or_app; now right). destruct (key_get _ _ J') as (c & EC). destruct (gd_ref _ G w [a] n b c ltac:(cbn; lia) D2 EC) as (m & ->).
        assert (NB : ~ In b (dn ++ rem)) by (intro K; rewrite D3, app_assoc in ND; exact (nodup_apart _ _ _ ND b K J)).
        assert (W : walk (c_heap g) (root w) [a; b] <> None) by (change [a; b] with ([a] ++ [b]); rewrite (walk_snoc _ _ _ _ _ D2), EC; discriminate).
        destruct (lt_prov _ _ L w a b W) as [W'|(t & T1 & T2 & T3)]; [exfalso; apply NB; now apply D5|]. apply (ERR t); [rewrite D1; exact T2|exact T1|]. intro K. apply NB. apply D5. destruct (want_stored t w K) as (m' & W' & _). rewrite T2, T3 in W'. rewrite W'. discriminate.
    - (* an inner loop *)
      destruct D as (w & a & b & dn & l1 & l2 & D1 & D2 & D3 & D4 & (ex & D5) & D6 & D7 & D8). pose proof (vals_nodup g w a b n G D2) as ND. pose proof (gd_nodup _ G n) as NK.
      assert (HIT : forall t, key1 w t = a -> key2 w t = b -> hit sh t).
      { intros t K1 K2. destruct up as [[w' a' n' u' rem']|]; [destruct D1 as (_ & _ & D1 & _)|destruct D1 as [D1 _]]; rewrite D1; cbn; auto. }
      assert (LEN : length (map CVal l2 ++ rem) = used) by (rewrite app_length, map_length; lia).
      destruct (Nat.eqb_spec (length (deref (c_heap g) n)) used) as [E|E].
      + rewrite <- vals_len, D5, app_assoc in E. pose proof (size_end _ _ _ _ E ltac:(lia)) as ->. rewrite app_nil_r in D5. destruct rem as [|c rem].
        * rewrite app_nil_r in *. destruct up as [[w' a' n' u' rem']|]; (split; [reflexivity|]); cbn [snd]; apply GO.
          -- destruct D1 as (-> & -> & D1 & U1 & (ex & U2) & U3 & U4). cbn. split; [exact D1|]. exists (dn ++ [b]). split.
             ++ split; [exact U1|]. split; [exists ex; rewrite U2, <- app_assoc; reflexivity|]. split; [rewrite U3, <- app_assoc; reflexivity|]. intros k K. rewrite <- app_assoc. now apply U4.
             ++ split.
                ** intros t J. rewrite D3 in J. apply in_app_iff in J. apply in_or_app. destruct J as [J|J]; [left; now apply D4|right; left; symmetry; now apply D8].
                ** intros t K J. rewrite D3. apply in_or_app. apply in_app_iff in J. destruct J as [J|[J|[]]]; [left; now apply D4|]. right. pose proof (want_hit t K) as H. rewrite D1 in H. specialize (D7 t K H (eq_sym J)). rewrite ?app_nil_r in D7. apply in_map_iff in D7. destruct D7 as (t' & [= <-] & J'). exact J'.
          -- destruct D1 as [D1 D9]. cbn. intros t K. rewrite D3. apply in_or_app. right. pose proof (want_hit t K) as H. rewrite D1 in H. destruct H as [H1 H2]. specialize (D7 t K H1 H2). rewrite ?app_nil_r in D7. apply in_map_iff in D7. destruct D7 as (t' & [= <-] & J'). exact J'.
        * split; [reflexivity|]. cbn [snd]. assert (JC : In c (dvals (deref (c_heap g) n))) by (rewrite D5; apply in_or_app; right; now left). destruct (val_get _ _ NK JC) as (k & EC). destruct (gd_val _ G _ _ _ _ _ _ D2 EC) as (t & -> & T1 & T2 & T3 & T4).
          assert (NT : ~ In t l).
          { intro J. rewrite D3 in J. apply in_app_iff in J. destruct J as [J|J].
            - apply D4 in J. rewrite T2 in J. destruct up as [[w' a' n' u' rem']|]; [|destruct D1 as [_ ->]; destruct J]. destruct D1 as (_ & _ & _ & _ & (ex & U2) & _). pose proof (gd_nodup _ G n') as NK'. rewrite U2 in NK'. exact (nodup_apart _ _ _ NK' b J (or_introl eq_refl)).
            - rewrite D5 in ND. apply (nodup_apart _ _ _ ND (CVal t)); [apply in_map_iff; now exists t|now left]. }
          exists (l ++ [t]). cbn [sc_out sc_pc]. rewrite A, map_app. split; [reflexivity|]. split; [now apply NoDup_snoc|]. split.
          -- intros u J. apply in_app_iff in J. destruct J as [J|[<-|[]]]; [now apply C|]. split; [now apply HIT|exact T4].
          -- cbn [pc_inv]. exists w, a, b, dn, l1, (l2 ++ [t]). split; [exact D1|]. split; [exact D2|]. split; [rewrite D3; now rewrite app_assoc|]. split; [exact D4|]. split; [exists []; rewrite D5, map_app, app_nil_r, <- app_assoc; reflexivity|].
             split; [rewrite app_length; cbn in *; lia|]. split; [intros u K K1 K2; rewrite map_app, <- app_assoc; now apply D7|]. intros u J. apply in_app_iff in J. destruct J as [J|[<-|[]]]; [now apply D8|exact T2].
      + split; [reflexivity|]. cbn [snd]. rewrite <- vals_len, D5, app_assoc in E. destruct (size_more _ _ _ _ E ltac:(lia)) as (c & J).
        assert (JC : In c (dvals (deref (c_heap g) n))) by (rewrite D5, app_assoc; apply in_or_app; now right). destruct (val_get _ _ NK JC) as (k & EC). destruct (gd_val _ G _ _ _ _ _ _ D2 EC) as (t & -> & T1 & T2 & T3 & T4).
        apply (ERR t); [now apply HIT|exact T4|]. intro K. specialize (D7 t K T1 T2). rewrite D5, app_assoc in ND. exact (nodup_apart _ _ _ ND _ D7 J).
    - (* the loop over the set *)
      destruct D as [D1 ->]. split; [reflexivity|]. cbn [snd]. apply GO. cbn. split; [exact D1|]. split; [exists []; now rewrite app_nil_r|]. split; [reflexivity|]. intros t K. apply (later_trip b0 g); auto.
    - destruct D as (D1 & (ex & D2) & D3 & D4). pose proof (gd_trip _ G) as ND. assert (LEN : length (l ++ rem) = used) by (rewrite app_length; lia). destruct (Nat.eqb_spec (length (c_triples g)) used) as [E|E].
      + rewrite D2, app_assoc in E. pose proof (size_end _ _ _ _ E ltac:(lia)) as ->. rewrite app_nil_r in D2. destruct rem as [|t rem]; (split; [reflexivity|]); cbn [snd].
        * apply GO. cbn. intros t K. rewrite app_nil_r in D4. now apply D4.
        * exists (l ++ [t]). cbn [sc_out sc_pc]. rewrite A, map_app. split; [reflexivity|]. assert (NT : ~ In t l) by (intro J; rewrite D2 in ND; exact (nodup_apart _ _ _ ND t J (or_introl eq_refl))). split; [now apply NoDup_snoc|]. split.
          -- intros u J. apply in_app_iff in J. destruct J as [J|[<-|[]]]; [now apply C|]. rewrite D1. split; [exact Logic.I|]. rewrite D2. apply in_or_app. right. now left.
          -- cbn [pc_inv]. split; [exact D1|]. split; [exists []; rewrite D2, app_nil_r, <- app_assoc; reflexivity|]. split; [rewrite app_length; cbn in *; lia|]. intros u K. rewrite <- app_assoc. now apply D4.
      + split; [reflexivity|]. cbn [snd]. rewrite D2, app_assoc in E. destruct (size_more _ _ _ _ E ltac:(lia)) as (t & J). apply (ERR t); [rewrite D1; exact Logic.I|rewrite D2, app_assoc; apply in_or_app; now right|].
        intro K. rewrite D2, app_assoc in ND. exact (nodup_apart _ _ _ ND t (D4 t K) J).
    - split; [reflexivity|]. cbn [snd]. apply GO. exact D.
  Qed.
  Lemma scan_start : forall g, scan_inv g (mkScan (start sh) []).
  Proof. intro g. exists []. split; [reflexivity|]. split; [constructor|]. split; [intros t []|]. unfold start, pc_inv. cbn [sc_pc]. destruct sh; auto. Qed.
End Scan.
