(** Model of WeightedDataSet::resample, /repo/src/WeightedDataSet.cpp 45-60. *)
From Verif Require Import Base.
Local Open Scope R_scope.

(** inner loop, lines 54-56: [for(; sum < p && idx < N; idx++) sum += weights(idx)];
    at most [N] rounds, so fuel [N] suffices for a loop that tests [idx < N]. *)
Definition searchLoop (weights : list R) (N : nat) (p : R) : res (R * nat) :=
  while_ N
    (fun s : R * nat => (Rltb (fst s) p && Nat.ltb (snd s) N)%bool)
    (fun s : R * nat => w <- vget weights (snd s) ;; Ok (fst s + w, S (snd s)))
    (0, 0%nat).

(** lines 45-60.  [random n] is the number drawn for position [n] in the random
    mode, [rng.generate<double>(0.0, 1.0)].  The result is [originalIndices]; its
    entries are C++ ints and can be -1. *)
Definition resample (weights : list R) (N : nat) (deterministic : bool) (random : nat -> R)
  : res (list Z) :=
  for_ N (fun n inds =>
    let p := if deterministic then INR (n + 1) / INR N else random n in
    ' (_, idx) <- searchLoop weights N p ;;
    vset inds n (Z.of_nat idx - 1)%Z)
  (repeat 0%Z N).

(** getInstance / getTarget, lines 35-43: position [n] refers to this instance *)
Definition instanceOf (inds : list Z) (N n : nat) : res nat :=
  z <- vget inds n ;;
  i <- zidx z ;;
  if Nat.ltb i N then Ok i else UB.
