(** What it means that a parallel loop is executed correctly. *)
From Coq Require Import Permutation.
From Verif Require Import Base Matrix Parallel_Model.

(** A distribution of the iterations 0, ..., N-1 over threads: each thread has a list of iterations that it
    executes in that order.  Any number of threads and any OpenMP schedule (static, dynamic, guided) is
    allowed. *)
Definition distribution (N : nat) (threads : list (list nat)) : Prop :=
  Permutation (concat threads) (seq 0 N).

(** the start of the loop with body [p] *)
Definition team (p : nat -> prog unit) (threads : list (list nat)) : list (prog unit) :=
  map (fun its => pseq (map p its)) threads.

(** the element that a thread accesses next, and whether it writes *)
Definition next_access (p : prog unit) : option (location * bool) :=
  match p with
  | Read l _ => Some (l, false)
  | Write l _ _ => Some (l, true)
  | _ => None
  end.

(** a data race: two threads access the same element at the same time, at least one of them writes *)
Definition race (c : config) : Prop :=
  exists t u p q l b b', t <> u /\ nth_error (fst c) t = Some p /\ nth_error (fst c) u = Some q /\
    next_access p = Some (l, b) /\ next_access q = Some (l, b') /\ (b = true \/ b' = true).

(** thread [t] has executed all its iterations *)
Definition done (c : config) (t : nat) : Prop := nth_error (fst c) t = Some (Ret tt).

(** the same matrices with the same elements *)
Definition same_memory (m m' : memory) : Prop :=
  forall b, match m b, m' b with
  | Some a, Some a' => meq a a'
  | None, None => True
  | _, _ => False
  end.

(** The parallel loop changes the memory from [before] to [after], whatever the scheduler does:
    for every distribution of the iterations over threads
    - the number of steps is bounded,
    - in every state that can be reached there is no data race, every thread that has not finished can go on
      (no access is out of range and no assertion fails), and when all threads have finished, the contents of
      the memory are [after]. *)
Definition parallel_loop (N : nat) (p : nat -> prog unit) (before after : memory) : Prop :=
  forall threads, distribution N threads ->
    (exists bound, forall n c, steps n (team p threads, before) c -> n <= bound) /\
    forall n c, steps n (team p threads, before) c ->
      ~ race c /\
      (forall t, t < length threads -> done c t \/ exists c', step t c c') /\
      ((forall t, t < length threads -> done c t) -> same_memory (snd c) after).
