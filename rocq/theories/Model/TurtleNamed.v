(** Turtle output with a bnode_name_generator whose result has a method next:
    src/pymantic/serializers.py 69-169.

    The functions are those of Model/TurtleOut.v; what differs is the blank nodes (82-87): [names k] is the
    outcome of the k-th call of next, and name_map, which is filled while the text is
    written, is threaded through.  Every call enters one name, so the number of names given is the
    size of name_map. *)
From Verif Require Import Model.Py Model.Terms Model.Graph Model.Codec Model.Curie Model.Resource Model.TurtleOut.
Open Scope N_scope.

Definition name_map := dict N str.
Section Named.
  (** [ord], [fuel]: as in TurtleOut.v *)
  Variables (names : nat -> res str) (ord : list term -> list term) (fuel : nat) (pm : dict str str) (base : option str) (g : graph).

  (** turtle_repr: 69-109; the datatype at 108, which gets no name_map, is a NamedNode *)
  Definition repr_n (nm : name_map) (node : term) : name_map * res str :=
    match node with
    | BNode b =>
        match dget N.eq_dec nm b with
        | Some n => (nm, Ok n)
        | None => match names (length nm) with Ok n => (nm ++ [(b, n)], Ok n) | Err e => (nm, Err e) end
        end
    | _ => (nm, turtle_repr pm base node)
    end.
  (** turtle_sorted_names: 112-114 *)
  Fixpoint named_n (nm : name_map) (nodes : list term) : name_map * res (list (str * term)) :=
    match nodes with
    | [] => (nm, Ok [])
    | x :: r =>
        match repr_n nm x with
        | (nm1, Err e) => (nm1, Err e)
        | (nm1, Ok n) => match named_n nm1 r with (nm2, Ok l) => (nm2, Ok ((n, x) :: l)) | (nm2, Err e) => (nm2, Err e) end
        end
    end.
  Definition sorted_n (nm : name_map) (nodes : list term) : name_map * res (list (str * term)) :=
    match named_n nm nodes with (nm', Ok l) => (nm', sort_pairs l) | (nm', Err e) => (nm', Err e) end.
  (** 161-164: what a List gives has an interfaceName only if it is a Literal *)
  Fixpoint elements_n (nm : name_map) (first : bool) (vs : list gres) (fin : res unit) : name_map * (str * res unit) :=
    match vs with
    | [] => (nm, ([], fin))
    | v :: r =>
        let pre := if first then [] else [32] in
        match (match v with One (RLit t) => repr_n nm t | _ => (nm, Err AttributeError) end) with
        | (nm1, Err e) => (nm1, (pre, Err e))
        | (nm1, Ok n) => let '(nm2, (t, x)) := elements_n nm1 false r fin in (nm2, (pre ++ n ++ t, x))
        end
    end.
  (** 159-167 *)
  Definition object_n (w : world) (nm : name_map) (o : term) : world * name_map * (str * res unit) :=
    match is_list w 1 g o with
    | Err e => (w, nm, ([], Err e))
    | Ok true =>
        let '(w', (vs, fin)) := list_iter ord fuel w 1 g (as_subject o) in
        let '(nm', (t, x)) := elements_n nm true vs fin in
        (w', nm', match x with Ok _ => ([40] ++ t ++ [41], Ok tt) | Err e => ([40] ++ t, Err e) end)
    | Ok false => let '(nm', r) := repr_n nm o in (w, nm', match r with Ok n => (n, Ok tt) | Err e => ([], Err e) end)
    end.
  (** 154-167 *)
  Fixpoint objects_n (w : world) (nm : name_map) (sep indent : str) (l : list term) : world * name_map * (str * res unit) :=
    match l with
    | [] => (w, nm, ([], Ok tt))
    | o :: r =>
        match object_n w nm o with
        | (w1, nm1, (t, Err e)) => (w1, nm1, (sep ++ t, Err e))
        | (w1, nm1, (t, Ok _)) =>
            let '(w2, nm2, (t2, x)) := objects_n w1 nm1 (s2l "," ++ nl ++ indent) indent r in
            (w2, nm2, (sep ++ t ++ t2, x))
        end
    end.
  (** 149-168 *)
  Fixpoint predicates_n (w : world) (nm : name_map) (s : term) (sep : str) (size : nat) (l : list (str * term)) : world * name_map * (str * res unit) :=
    match l with
    | [] => (w, nm, ([], Ok tt))
    | (name, p) :: r =>
        let indent := spaces (size + length name + 1) in
        match objects_n w nm [] indent (map st_o (g_match g (Some s) (Some p) None)) with
        | (w1, nm1, (t, Err e)) => (w1, nm1, (sep ++ name ++ [32] ++ t, Err e))
        | (w1, nm1, (t, Ok _)) =>
            let '(w2, nm2, (t2, x)) := predicates_n w1 nm1 s (spaces size) size r in
            (w2, nm2, (sep ++ name ++ [32] ++ t ++ s2l " ;" ++ nl ++ t2, x))
        end
    end.
  (** 144-169 *)
  Fixpoint subjects_n (w : world) (nm : name_map) (l : list (str * term)) : world * name_map * (str * res unit) :=
    match l with
    | [] => (w, nm, ([], Ok tt))
    | (name, s) :: r =>
        let size := S (length name) in
        match sorted_n nm (nodup term_eq_dec (map st_p (g_match g (Some s) None None))) with
        | (nm1, Err e) => (w, nm1, (name ++ [32], Err e))
        | (nm1, Ok ps) =>
            match predicates_n w nm1 s [] size ps with
            | (w2, nm2, (t, Err e)) => (w2, nm2, (name ++ [32] ++ t, Err e))
            | (w2, nm2, (t, Ok _)) =>
                let '(w3, nm3, (t2, x)) := subjects_n w2 nm2 r in
                (w3, nm3, (name ++ [32] ++ t ++ spaces size ++ s2l "." ++ nl ++ nl ++ t2, x))
            end
        end
    end.
  (** serialize_turtle: 117-169; name_map is empty at first (134) *)
  Definition serialize_n (w : world) : world * name_map * (str * res unit) :=
    let h := header pm base in
    match plain_subjects g w (g_subjects g) with
    | Err e => (w, [], (h, Err e))
    | Ok l =>
        match sorted_n [] l with
        | (nm, Err e) => (w, nm, (h, Err e))
        | (nm, Ok l) => let '(w', nm', (t, x)) := subjects_n w nm l in (w', nm', (h ++ t, x))
        end
    end.
End Named.
(** a generator as 46-50 has no next: AttributeError *)
Definition no_next (k : nat) : res str := Err AttributeError.
