(** Vocabulary for threads that parse JSON-LD (C127). *)
From Verif Require Import Model.Py Model.Terms Model.Graph Model.Dataset Model.JsonLd Model.JsonLdRun Model.JsonLdThreads Spec.DatasetSpec Spec.JsonLdSpec.

(** the call number [c] of the thread number [k]: its sink and its data *)
Definition call_of (progs : list (list (nat * rdf_dataset))) (k c : nat) : option (nat * rdf_dataset) :=
  match nth_error progs k with Some prog => nth_error prog c | None => None end.
(** the thread has made its calls *)
Definition all_parsed (x : jthread) : Prop := th_at x = length (th_prog x) /\ th_err x = None.
Definition sinks_exist (sinks : list world) (progs : list (list (nat * rdf_dataset))) : Prop := forall k c i data, call_of progs k c = Some (i, data) -> (i < length sinks)%nat.
(** the steps of a thread: one for each triple and one for the end of each call *)
Definition work_of (prog : list (nat * rdf_dataset)) : nat := list_sum (map (fun x => Datatypes.S (list_sum (map (fun y => length (snd y)) (snd x)))) prog).
(** [f] gives different labels, or labels of different calls, different blank nodes *)
Definition apart (progs : list (list (nat * rdf_dataset))) (f : nat -> nat -> str -> N) : Prop :=
  forall k c i data l k' c' i' data' l', call_of progs k c = Some (i, data) -> label_in data l -> call_of progs k' c' = Some (i', data') -> label_in data' l' ->
    f k c l = f k' c' l' -> k = k' /\ c = c' /\ l = l'.
(** the calls of a thread as a program of C126 *)
Definition calls_of (prog : list (nat * rdf_dataset)) : list jcall := map (fun c => JParse (Some (fst c)) (Ok (snd c))) prog.
