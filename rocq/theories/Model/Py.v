(** Python values and the few built-in operations the code relies on.
    Python [str] is a list of code points ([N]); an exception is a value.
    Nothing in this file is pymantic code; it fixes the meaning of the Python
    built-ins used by the modelled functions (str.partition, str.replace,
    dict, ...), cited where they are used. *)
From Coq Require Export Ascii String.
From Coq Require Export List Arith NArith ZArith Bool Lia.
Export ListNotations.
Open Scope list_scope.

Notation char := N.
Notation str := (list N).

(** Coq string literal -> Python str (ASCII text only). *)
Fixpoint s2l (s : string) : str :=
  match s with
  | EmptyString => []
  | String c r => N_of_ascii c :: s2l r
  end.
Arguments s2l s%string_scope.

(** Exceptions that escape from modelled code. *)
Inductive exn :=
| KeyError | ValueError | AttributeError | RuntimeError | TypeError | IndexError
| UnicodeEncodeError | UnicodeDecodeError | NotImplementedError
| LarkError                (* any lark.exceptions.LarkError: lexing or parsing failed *)
| VisitError               (* lark.exceptions.VisitError: a callback of a Transformer raised *)
| OverflowError            (* chr() of a value outside the C int range *)
| SPARQLQueryException | UnknownSPARQLReturnTypeException | UnboundLocalError | SyntaxError | AssertionError
| PlainException           (* Exception itself *)
| OutOfFuel.               (* not a Python exception: the model's iteration bound was hit *)

Inductive res (A : Type) := Ok (a : A) | Err (e : exn).
Arguments Ok {A} a.
Arguments Err {A} e.

Definition bind {A B} (x : res A) (f : A -> res B) : res B :=
  match x with Ok a => f a | Err e => Err e end.
Notation "'do' x <- e ; f" := (bind e (fun x => f))
  (at level 60, x pattern, e at level 59, right associativity).

Definition str_eq_dec : forall a b : str, {a = b} + {a <> b} := list_eq_dec N.eq_dec.
Definition ostr_eq_dec : forall a b : option str, {a = b} + {a <> b}.
Proof. decide equality. apply str_eq_dec. Defined.
Definition str_eqb (a b : str) : bool := if str_eq_dec a b then true else false.

(** truth value of a str: [bool(s)] *)
Definition str_truthy (s : str) : bool := match s with [] => false | _ => true end.
(** truth value of an optional str (None is falsy) *)
Definition ostr_truthy (s : option str) : bool :=
  match s with Some (_ :: _) => true | _ => false end.

(** str.startswith *)
Fixpoint startswith (s p : str) : bool :=
  match p, s with
  | [], _ => true
  | _ :: _, [] => false
  | c :: p', d :: s' => (c =? d)%N && startswith s' p'
  end.

(** str.endswith, for one trailing character *)
Fixpoint endswith_char (s : str) (c : char) : bool :=
  match s with
  | [] => false
  | [d] => (d =? c)%N
  | _ :: s' => endswith_char s' c
  end.

(** str.partition(sep) for a one-character separator: (before, found, after) *)
Fixpoint partition (s : str) (sep : char) : str * bool * str :=
  match s with
  | [] => ([], false, [])
  | c :: r =>
      if (c =? sep)%N then ([], true, r)
      else let '(a, b, d) := partition r sep in (c :: a, b, d)
  end.

(** str.replace(old, new), left to right, non-overlapping.  For a non-empty
    [old]: scan; at a match emit [new] and skip [length old] characters.  The
    [skip] counter makes the recursion structural.  For the empty [old] Python
    inserts [new] before every character and at the end. *)
Fixpoint replace_ne (old new : str) (skip : nat) (s : str) : str :=
  match s with
  | [] => []
  | c :: r =>
      match skip with
      | S k => replace_ne old new k r
      | O => if startswith s old
             then new ++ replace_ne old new (pred (length old)) r
             else c :: replace_ne old new 0 r
      end
  end.
Definition replace (s old new : str) : str :=
  match old with
  | [] => concat (map (fun c => new ++ [c]) s) ++ new
  | _ => replace_ne old new 0 s
  end.

(** [c in s] for a single character *)
Definition str_in_char (c : char) (s : str) : bool := existsb (N.eqb c) s.

(** ** Dictionaries (insertion ordered, keys unique) *)
Section Dict.
  Context {K V : Type} (eqd : forall a b : K, {a = b} + {a <> b}).
  Fixpoint dget (d : list (K * V)) (k : K) : option V :=
    match d with
    | [] => None
    | (k', v) :: r => if eqd k k' then Some v else dget r k
    end.
  (** d[k] = v: an existing key keeps its position *)
  Fixpoint dset (d : list (K * V)) (k : K) (v : V) : list (K * V) :=
    match d with
    | [] => [(k, v)]
    | (k', v') :: r => if eqd k k' then (k', v) :: r else (k', v') :: dset r k v
    end.
  (** del d[k] *)
  Fixpoint ddel (d : list (K * V)) (k : K) : list (K * V) :=
    match d with
    | [] => []
    | (k', v') :: r => if eqd k k' then r else (k', v') :: ddel r k
    end.
  Definition dmem (d : list (K * V)) (k : K) : bool :=
    match dget d k with Some _ => true | None => false end.
  Definition dkeys (d : list (K * V)) : list K := map fst d.
  Definition dvals (d : list (K * V)) : list V := map snd d.
  (** dict.update(other) with other iterated in its order *)
  Definition dupdate (d o : list (K * V)) : list (K * V) :=
    fold_left (fun acc kv => dset acc (fst kv) (snd kv)) o d.
End Dict.
Notation dict K V := (list (K * V)).
