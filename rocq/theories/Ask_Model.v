(** Model of the step-wise interface of IPOPCMAES, /repo/src/IPOPCMAES.cpp, with the memory that the optimizer manages itself.  (IPOP_Model
    models [optimize] with values instead of pointers.)  The CMA-ES library (cma-es/cmaes.h) is not part of the repository; it enters as two
    arbitrary functions: the population that it samples and its test for termination. *)
From Verif Require Import Base BaseFacts Evaluation_Model.
Local Open Scope R_scope.

(** what happens on the heap; a block is identified by a number *)
Inductive memory := New (p : nat) | Delete (p : nat).
Definition alive (p : nat) (h : list memory) : bool :=
  existsb (fun e => match e with New q => Nat.eqb p q | Delete _ => false end) h &&
  negb (existsb (fun e => match e with New _ => false | Delete q => Nat.eqb p q end) h).
(** operator new: a block that was never used before.  Simplification: addresses are not used again. *)
Definition alloc (h : list memory) : nat * list memory := (length h, h ++ [New (length h)]).
(** operator delete *)
Definition free (p : nat) (h : list memory) : res (list memory) := if alive p h then Ok (h ++ [Delete p]) else UB.
(** if(p) delete p; *)
Definition free_opt (p : option nat) (h : list memory) : res (list memory) :=
  match p with Some q => free q h | None => Ok h end.

Notation generation := (list (vec * R)).
(** class IPOPCMAES, IPOPCMAES.h 43-64, as far as it is used here.  [problem] is the dimension of *opt ([None]: a null pointer).
    [population] points into the block of the CMAES object: the block and what it pointed to.  [lambda] is [parameters->lambda] and
    [fitnessValues] an array in the CMAES object.  [size] is the dimension of the CMAES object, [gens] what it was told by
    updateDistribution, [fresh] whether its population was sampled after the last update, [draws] counts the populations sampled. *)
Record opt := mkOpt {
  problem : option nat; cmaes : option nat; parameters : option nat; initialX : option nat; initialStdDev : option nat;
  lambda : nat; size : nat; gens : list generation; fresh : bool; draws : nat;
  currentIndividual : nat; population : option (nat * list vec); fitnessValues : list R;
  restarts : Z; evaluationsAfterRestart : Z; optimum : vec; heap : list memory }.

Section Ask.
(** samplePopulation of the library: depends on how often it was called (random numbers), on the population size, on the dimension and on
    the generations that it has been told *)
Variable sample : nat -> nat -> nat -> list generation -> list vec.
Variable testForTermination : list generation -> bool.
(** [maximalFunctionEvaluations] is active if it is not the default -1 (lines 62-66) *)
Variable maximalFunctionEvaluations maximalRestarts : Z.

(** constructor, lines 9-27; [lambda0] is the population size that the library chooses for the first run *)
Definition construct (lambda0 : nat) (h : list memory) : opt :=
  let (p, h) := alloc h in
  mkOpt None None (Some p) None None lambda0 0 [] false 0 0 None [] (-1) 0 [] h.

(** destructor, lines 29-50.  Returns the heap. *)
Definition destroy (s : opt) (h : list memory) : res (list memory) :=
  h <- free_opt (cmaes s) h ;; h <- free_opt (parameters s) h ;; h <- free_opt (initialX s) h ;; free_opt (initialStdDev s) h.

(** setOptimizable, lines 52-55 *)
Definition setOptimizable (d : nat) (s : opt) : opt :=
  mkOpt (Some d) (cmaes s) (parameters s) (initialX s) (initialStdDev s) (lambda s) (size s) (gens s) (fresh s) (draws s)
    (currentIndividual s) (population s) (fitnessValues s) (restarts s) (evaluationsAfterRestart s) (optimum s) (heap s).

(** restart, lines 86-134.  [currentIndividual] and [population] stay as they are.  Not modelled: start point, step size and the number of
    all evaluations, which is only passed to the library. *)
Definition restart (s : opt) : res (bool * opt) :=
  match problem s with
  | None => Abort
  | Some n =>
      let r := (restarts s + 1)%Z in
      if Z.gtb r maximalRestarts
      then Ok (false, mkOpt (problem s) (cmaes s) (parameters s) (initialX s) (initialStdDev s) (lambda s) (size s) (gens s) (fresh s) (draws s)
                        (currentIndividual s) (population s) (fitnessValues s) r (evaluationsAfterRestart s) (optimum s) (heap s))
      else
        h <- free_opt (cmaes s) (heap s) ;;
        let (c, h) := alloc h in
        h <- free_opt (initialX s) h ;;
        let (x, h) := alloc h in
        h <- free_opt (initialStdDev s) h ;;
        let (d, h) := alloc h in
        let l := if Z.gtb r 0 then (lambda s * 2)%nat else lambda s in
        Ok (true, mkOpt (problem s) (Some c) (parameters s) (Some x) (Some d) l n [] false (draws s)
                    (currentIndividual s) (population s) (repeat 0 l) r 0 (optimum s) h)
  end.

(** reading *population, lines 181-186: undefined if it is null or if the CMAES object was deleted *)
Definition readPopulation (s : opt) : res (list vec) :=
  match population s with
  | None => UB
  | Some (p, pop) => if alive p (heap s) then Ok pop else UB
  end.

(** getNext, lines 171-188 *)
Definition getNext (s : opt) : res (vec * opt) :=
  match cmaes s, problem s with
  | Some c, Some n =>
      _ <- check (Nat.ltb (currentIndividual s) (lambda s)) ;;
      let s := if Nat.eqb (currentIndividual s) 0
               then mkOpt (problem s) (cmaes s) (parameters s) (initialX s) (initialStdDev s) (lambda s) (size s) (gens s) true (S (draws s))
                      (currentIndividual s) (Some (c, sample (draws s) (lambda s) (size s) (gens s))) (fitnessValues s)
                      (restarts s) (evaluationsAfterRestart s) (optimum s) (heap s)
               else s in
      pop <- readPopulation s ;;
      ind <- vget pop (currentIndividual s) ;;
      if Nat.ltb (length ind) n then UB else Ok (firstn n ind, s)
  | _, _ => Abort
  end.

(** setError, lines 190-214.  The library combines the fitness values with its own population; what it does if it has not sampled one since
    the last update is not known: [UB].  Not modelled: logging and opt->finishedIteration(). *)
Definition setError (fitness : R) (s : opt) : res opt :=
  match cmaes s, problem s with
  | Some c, Some _ =>
      _ <- check (Nat.ltb (currentIndividual s) (lambda s)) ;;
      fit <- vset (fitnessValues s) (currentIndividual s) fitness ;;
      let cur := S (currentIndividual s) in
      let e := (evaluationsAfterRestart s + 1)%Z in
      if Nat.eqb cur (lambda s)
      then if fresh s
           then pop <- readPopulation s ;;
                Ok (mkOpt (problem s) (cmaes s) (parameters s) (initialX s) (initialStdDev s) (lambda s) (size s)
                      (gens s ++ [combine pop fit]) false (draws s) 0 (population s) fit (restarts s) e (optimum s) (heap s))
           else UB
      else Ok (mkOpt (problem s) (cmaes s) (parameters s) (initialX s) (initialStdDev s) (lambda s) (size s) (gens s) (fresh s) (draws s)
                 cur (population s) fit (restarts s) e (optimum s) (heap s))
  | _, _ => Abort
  end.

(** terminated, lines 221-225: cmaes is dereferenced without a check *)
Definition terminated (s : opt) : res bool :=
  if Nat.eqb (currentIndividual s) 0 then
    match cmaes s with
    | None => UB
    | Some _ => Ok (testForTermination (gens s) ||
                    (negb (Z.eqb maximalFunctionEvaluations (-1)) && Z.geb (evaluationsAfterRestart s) maximalFunctionEvaluations))%bool
    end
  else Ok false.

(** result, lines 227-234; opt->setParameters is the business of the problem *)
Definition result (s : opt) : res vec :=
  match cmaes s, problem s with Some _, Some _ => Ok (optimum s) | _, _ => Abort end.

(** the calls of a user and what they return *)
Inductive call := SetOptimizable (dimension : nat) | Restart | GetNext | SetError (fitness : R) | Terminated | Result.
Inductive answer := Nothing | Bool (b : bool) | Point (x : vec).
Definition perform (c : call) (s : opt) : res (answer * opt) :=
  match c with
  | SetOptimizable d => Ok (Nothing, setOptimizable d s)
  | Restart => ' (b, s') <- restart s ;; Ok (Bool b, s')
  | GetNext => ' (x, s') <- getNext s ;; Ok (Point x, s')
  | SetError f => s' <- setError f s ;; Ok (Nothing, s')
  | Terminated => b <- terminated s ;; Ok (Bool b, s)
  | Result => x <- result s ;; Ok (Point x, s)
  end.
Fixpoint session (cs : list call) (s : opt) : res (list answer * opt) :=
  match cs with
  | [] => Ok ([], s)
  | c :: cs' => ' (a, s') <- perform c s ;; ' (l, s'') <- session cs' s' ;; Ok (a :: l, s'')
  end.
End Ask.
