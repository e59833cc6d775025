(** The objects of GraphThreads.v read as the nested dictionaries of Graph.v. *)
From Verif Require Import Model.Py Model.Terms Model.Graph Model.GraphThreads Spec.GraphSpec Proofs.DictLemmas Proofs.GraphInv Proofs.ThreadHeap.
From Coq Require Import Lia PeanoNat.

Lemma refs_get : forall d k, NoDup (dkeys d) -> tget (refs d) k = match tget d k with Some (CRef n) => Some n | _ => None end.
Proof.
  induction d as [|[k' v] d IH]; intros k N; [reflexivity|]. cbn in N. apply NoDup_cons_iff in N. destruct N as [A B]. destruct v as [n|t].
  - cbn. destruct (term_eq_dec k k'); [reflexivity|]. now apply IH.
  - cbn. destruct (term_eq_dec k k') as [->|]; [|now apply IH]. change (tget (refs d) k' = None). rewrite (IH k' B). now rewrite (proj2 (dget_None_iff term_eq_dec d _)).
Qed.
Lemma vals_get : forall d k, NoDup (dkeys d) -> tget (vals d) k = match tget d k with Some (CVal t) => Some t | _ => None end.
Proof.
  induction d as [|[k' v] d IH]; intros k N; [reflexivity|]. cbn in N. apply NoDup_cons_iff in N. destruct N as [A B]. destruct v as [n|t]; cbn.
  - destruct (term_eq_dec k k') as [->|]; [|now apply IH]. change (tget (vals d) k' = None). rewrite (IH k' B). now rewrite (proj2 (dget_None_iff term_eq_dec d _)).
  - destruct (term_eq_dec k k'); [reflexivity|]. now apply IH.
Qed.
Lemma refs_keys : forall d k, In k (dkeys (refs d)) -> In k (dkeys d).
Proof. induction d as [|[k' [n|t]] d IH]; intros k J; cbn in *; [auto|destruct J as [J|J]; auto|right; now apply IH]. Qed.
Lemma vals_keys : forall d k, In k (dkeys (vals d)) -> In k (dkeys d).
Proof. induction d as [|[k' [n|t]] d IH]; intros k J; cbn in *; [auto|right; now apply IH|destruct J as [J|J]; auto]. Qed.
Lemma refs_nodup : forall d, NoDup (dkeys d) -> NoDup (dkeys (refs d)).
Proof. induction d as [|[k' [n|t]] d IH]; intro N; cbn in *; [constructor| |]; apply NoDup_cons_iff in N; destruct N as [A B]; [constructor; [|now apply IH]; intro J; apply A; now apply refs_keys|now apply IH]. Qed.
Lemma vals_nodup : forall d, NoDup (dkeys d) -> NoDup (dkeys (vals d)).
Proof. induction d as [|[k' [n|t]] d IH]; intro N; cbn in *; [constructor| |]; apply NoDup_cons_iff in N; destruct N as [A B]; [now apply IH|constructor; [|now apply IH]; intro J; apply A; now apply vals_keys]. Qed.
Lemma map_get : forall A B (f : A -> B) (d : dict term A) k, tget (map (fun kv => (fst kv, f (snd kv))) d) k = match tget d k with Some x => Some (f x) | None => None end.
Proof. induction d as [|[k' v] d IH]; intro k; [reflexivity|]. cbn. destruct (term_eq_dec k k'); [reflexivity|]. apply IH. Qed.
Lemma map_keys : forall A B (f : A -> B) (d : dict term A), dkeys (map (fun kv => (fst kv, f (snd kv))) d) = dkeys d.
Proof. intros. unfold dkeys. rewrite map_map. now apply map_ext. Qed.

Section View.
  Variables (h : heap) (L : nat -> label).
  Hypothesis OK : heap_ok h L.
  Let view2 (n : nat) : dict term (dict term stmt) := map (fun kv2 => (fst kv2, vals (deref h (snd kv2)))) (refs (deref h n)).
  Lemma view_get : forall n a, tget (view h n) a = match tget (deref h n) a with Some (CRef m) => Some (view2 m) | _ => None end.
  Proof. intros n a. unfold view. rewrite (map_get _ _ view2), refs_get by apply OK. destruct (tget (deref h n) a) as [[m|t]|]; reflexivity. Qed.
  Lemma view2_get : forall n a, tget (view2 n) a = match tget (deref h n) a with Some (CRef m) => Some (vals (deref h m)) | _ => None end.
  Proof. intros n a. unfold view2. rewrite (map_get _ _ (fun m => vals (deref h m))), refs_get by apply OK. destruct (tget (deref h n) a) as [[m|t]|]; reflexivity. Qed.
  Lemma view_nodup : forall n, nodup3 (view h n).
  Proof.
    intro n. assert (V2 : forall m, NoDup (dkeys (view2 m))) by (intro m; unfold view2; rewrite (map_keys _ _ (fun m => vals (deref h m))); apply refs_nodup, OK). split; [|split].
    - unfold view. rewrite (map_keys _ _ view2). apply refs_nodup, OK.
    - intro a. unfold gd. rewrite view_get. destruct (tget (deref h n) a) as [[m|t]|]; try constructor. apply V2.
    - intros a b. unfold gd. rewrite view_get. destruct (tget (deref h n) a) as [[m|t]|]; try constructor. rewrite view2_get. destruct (tget (deref h m) b) as [[m'|t]|]; try constructor. apply vals_nodup, OK.
  Qed.
  Lemma view_lookup : forall n a b c t, lookup3 (view h n) a b c = Some t <-> exists m, walk h n [a; b] = Some m /\ tget (deref h m) c = Some (CVal t).
  Proof.
    intros n a b c t. unfold lookup3, gd. cbn [walk]. rewrite view_get. destruct (tget (deref h n) a) as [[m|u]|]; [|split; [discriminate|intros (x & E & _); discriminate]..].
    rewrite view2_get. destruct (tget (deref h m) b) as [[m'|u]|]; [|split; [discriminate|intros (x & E & _); discriminate]..].
    rewrite vals_get by apply OK. split.
    - intro E. exists m'. split; [reflexivity|]. destruct (tget (deref h m') c) as [[x|x]|]; try discriminate. now injection E as ->.
    - intros (x & [= <-] & E). now rewrite E.
  Qed.
  Lemma view_stored : forall w a b c t, lookup3 (view h (root w)) a b c = Some t <-> stored h w t /\ key1 w t = a /\ key2 w t = b /\ key3 w t = c.
  Proof.
    intros w a b c t. rewrite view_lookup. split.
    - intros (m & W & G). pose proof (ho_cell _ _ OK _ _ _ G) as (_ & w' & E & K). destruct (walk_root _ _ OK _ _ _ W) as [E' _]. rewrite E in E'. injection E' as -> <- <-. subst c. split; [|auto]. now exists m.
    - intros ((m & W & G) & <- & <- & <-). now exists m.
  Qed.
  Lemma seen_wf : forall ts, NoDup ts -> (forall t, In t ts -> is_triple t) -> (forall w t, stored h w t <-> In t ts) -> wf (seen (mkC ts h)).
  Proof.
    intros ts ND T ST. unfold wf, seen. cbn [g_triples g_spo g_pos g_osp c_triples c_heap]. split; [exact ND|]. split; [exact T|].
    split; [|split]; (split; [apply view_nodup|]); intros a b c t; rewrite view_stored, ST; reflexivity.
  Qed.
End View.
