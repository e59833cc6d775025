(** Specification side of C40-C42, C75: histories of profile operations. *)
From Verif Require Import Model.Py Model.Terms Model.Curie Spec.CurieSpec.

(** an operation names only objects that exist *)
Definition pop_ok (h : heap) (op : pop) : Prop :=
  let P i := (i < length (h_profs h))%nat in
  match op with
  | SetDefaultVocabulary i _ | SetDefaultPrefix i _ | SetTerm i _ _ | SetPrefix i _ _
  | CreateProfile i _ | CreateTermMap i _ | CreatePrefixMap i _ => P i
  | ImportProfile i j _ => P i /\ P j
  | NewProfile p t => (forall a, p = Some a -> (a < length (h_pms h))%nat) /\ (forall b, t = Some b -> (b < length (h_tms h))%nat)
  | MapSet a _ _ => (a < length (h_pms h))%nat
  | TermSet a _ _ => (a < length (h_tms h))%nat
  end.
Fixpoint valid_run (h : heap) (ops : list pop) : Prop :=
  match ops with
  | [] => True
  | op :: r => pop_ok h op /\ valid_run (pstep h op) r
  end.
(** a heap some program builds, starting from nothing *)
Definition reach (h : heap) : Prop := exists ops, valid_run heap0 ops /\ h = prun heap0 ops.

(** no profile is built around map [a] *)
Definition no_adopt_pm (a : nat) (op : pop) : Prop := forall t, op <> NewProfile (Some a) t.
Definition no_adopt_tm (a : nat) (op : pop) : Prop := forall p, op <> NewProfile p (Some a).
(** the direct assignments to map object [a] in a history *)
Definition pm_writes (a : nat) (ops : list pop) : dict str str :=
  flat_map (fun op => match op with MapSet b k v => if Nat.eqb a b then [(k, v)] else [] | _ => [] end) ops.
Definition tm_writes (a : nat) (ops : list pop) : dict str str :=
  flat_map (fun op => match op with TermSet b k v => if Nat.eqb a b then [(k, v)] else [] | _ => [] end) ops.
Definition skip_pm (a : nat) (ops : list pop) : list pop :=
  filter (fun op => match op with MapSet b _ _ => negb (Nat.eqb a b) | _ => true end) ops.
Definition skip_tm (a : nat) (ops : list pop) : list pop :=
  filter (fun op => match op with TermSet b _ _ => negb (Nat.eqb a b) | _ => true end) ops.

(** the bindings a profile is given *)
Definition given_pm (h : heap) (p : option nat) : dict str str := match p with Some a => pm_at h a | None => [] end.
Definition given_tm (h : heap) (t : option nat) : tmap := match t with Some a => tm_at h a | None => mkTM [] None end.
