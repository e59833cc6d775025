(** Programs that define, register and use Resource classes (rdf.py 23-57,
    392-428): the worlds they can reach.  [wreach]: every register_class comes
    before the first classification that has to make a combined class; all other
    interleavings are allowed.  [wreach_any]: no such restriction.  A frozenset's
    iteration order may differ from call to call. *)
From Coq Require Import Permutation.
From Verif Require Import Model.Py Model.Terms Model.Graph Model.Curie Model.Resource.

Definition valid (w : world) (c : nat) : Prop := (c < length (w_classes w))%nat.
Definition no_cached (w : world) : Prop := forall us k, ~ In (KTypes us, k) (w_reg w).
Definition shuffle (ord : list term -> list term) : Prop := forall l, Permutation (ord l) l.

Inductive wreach_if (early : world -> Prop) : world -> Prop :=
| wr_start : wreach_if early world0
| wr_class w name bases own scalars lang rdfs : wreach_if early w -> bases <> [] -> Forall (valid w) bases ->
    wreach_if early (fst (make_class w name bases own scalars lang rdfs))
| wr_register w t c : wreach_if early w -> early w -> valid w c -> wreach_if early (fst (register_class w t c))
| wr_classify ord w c g o : wreach_if early w -> shuffle ord -> valid w c -> wreach_if early (fst (classify ord w c g o))
| wr_profile w gp gt : wreach_if early w -> wreach_if early (mkW (w_classes w) (w_reg w) gp gt).
Definition wreach : world -> Prop := wreach_if no_cached.
Definition wreach_any : world -> Prop := wreach_if (fun _ => True).
