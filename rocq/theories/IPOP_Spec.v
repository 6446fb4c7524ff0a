(** Vocabulary for the theorems about IPOPCMAES. *)
From Verif Require Import Base BaseFacts Evaluation_Model IPOP_Model.

(** all points at which the objective was evaluated *)
Definition evaluated (tr : list event) : list vec :=
  flat_map (fun e => match e with Eval x => [x] | Start _ => [] end) tr.

(** the population sizes of all runs (one initial run and the restarts) *)
Definition run_sizes (tr : list event) : list nat :=
  flat_map (fun e => match e with Eval _ => [] | Start l => [l] end) tr.

(** the number of evaluations before the next restart *)
Fixpoint leading (tr : list event) : nat :=
  match tr with Eval _ :: tr' => S (leading tr') | _ => 0 end.

(** population size and number of evaluations of each run *)
Fixpoint runs (tr : list event) : list (nat * nat) :=
  match tr with
  | [] => []
  | Start l :: tr' => (l, leading tr') :: runs tr'
  | Eval _ :: tr' => runs tr'
  end.

(** What is assumed about the CMA-ES library: in run [r] it produces populations of
    [lambda0 * 2^r] points of the right dimension, and it does not want to stop before
    the first generation. *)
Definition library_ok (dimension lambda0 : nat) (sample : nat -> list generation -> list vec)
    (testForTermination : nat -> list generation -> bool) : Prop :=
  0 < lambda0 /\
  (forall r h, length (sample r h) = lambda0 * 2 ^ r) /\
  (forall r h x, In x (sample r h) -> length x = dimension) /\
  (forall r, testForTermination r [] = false).
