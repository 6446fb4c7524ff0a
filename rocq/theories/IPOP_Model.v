(** Model of /repo/src/IPOPCMAES.cpp.  The CMA-ES library (cma-es/cmaes.h) is not part of
    the repository; it enters as two arbitrary functions of the run number and of all
    generations evaluated in this run (populations with their fitness values). *)
From Verif Require Import Base BaseFacts Evaluation_Model.
Local Open Scope R_scope.

(** What the optimizer does with the objective, in order: a restart with a population
    size, and a call of [opt->error()] with the parameters set at that time. *)
Inductive event := Start (lambda : nat) | Eval (x : vec).

(** one generation: individuals and fitness values *)
Notation generation := (list (vec * R)).

(** class CMAES: the run, the generations of this run, and [XBestEver] with [FBestEver]
    ([None] before the first [updateDistribution]; reading them then is not specified) *)
Record cma := mkCma { run : nat; hist : list generation; bestEver : option (vec * R) }.

(** class IPOPCMAES, IPOPCMAES.h 43-64.  [lambda] is [parameters->lambda]. *)
Record ipop := mkIpop {
  cmaes : option cma; lambda : nat; currentIndividual : nat;
  population : list vec; fitnessValues : list R;
  restarts : Z; evaluationsAfterRestart : Z;
  optimum : vec; optimumValue : R; trace : list event }.

Section IPOP.
(** [opt->dimension()], and [opt->error()] as function of the parameters.
    Simplification: the error depends on the parameters only. *)
Variable dimension : nat.
Variable error : vec -> R.
(** std::numeric_limits<double>::max() *)
Variable dblmax : R.
(** samplePopulation and testForTermination of the library *)
Variable sample : nat -> list generation -> list vec.
Variable testForTermination : nat -> list generation -> bool.
(** the criteria used in this file; [maximalFunctionEvaluations] is [-1] by default
    (StoppingCriteria.cpp 9-16) and then not active *)
Variable maximalFunctionEvaluations maximalRestarts : Z.
Variable minimalValue : R.

(** constructor, lines 9-27; [lambda0] is the population size that the library chooses
    for the first run in [Parameters::init] *)
Definition ipop_init (lambda0 : nat) : ipop :=
  mkIpop None lambda0 0 [] [] (-1) 0 [] dblmax [].

(** the best individual of a generation: the first with the least fitness *)
Fixpoint best_of (g : generation) : option (vec * R) :=
  match g with
  | [] => None
  | (x, f) :: g' =>
      match best_of g' with
      | Some (y, e) => if Rltb e f then Some (y, e) else Some (x, f)
      | None => Some (x, f)
      end
  end.

(** updateDistribution of the library, as far as visible here: it keeps the best point *)
Definition updateDistribution (g : generation) (c : cma) : cma :=
  let b := match bestEver c, best_of g with
           | Some (y, e), Some (x, f) => if Rltb f e then Some (x, f) else Some (y, e)
           | None, o => o
           | o, None => o
           end in
  mkCma (run c) (hist c ++ [g]) b.

(** restart, lines 86-134.  Not modelled: start point and step size of the library. *)
Definition restart (s : ipop) : bool * ipop :=
  let r := (restarts s + 1)%Z in
  if Z.gtb r maximalRestarts
  then (false, mkIpop (cmaes s) (lambda s) (currentIndividual s) (population s)
                      (fitnessValues s) r (evaluationsAfterRestart s)
                      (optimum s) (optimumValue s) (trace s))
  else
    let l := if Z.gtb r 0 then (lambda s * 2)%nat else lambda s in
    (true, mkIpop (Some (mkCma (Z.to_nat r) [] None)) l (currentIndividual s)
                  (population s) (repeat 0 l) r 0
                  (optimum s) (optimumValue s) (trace s ++ [Start l])).

(** getNext, lines 171-188 *)
Definition getNext (s : ipop) : res (vec * ipop) :=
  match cmaes s with
  | None => Abort
  | Some c =>
      _ <- check (Nat.ltb (currentIndividual s) (lambda s)) ;;
      let pop := if Nat.eqb (currentIndividual s) 0 then sample (run c) (hist c)
                 else population s in
      ind <- vget pop (currentIndividual s) ;;
      if Nat.ltb (length ind) dimension then UB else
      Ok (firstn dimension ind,
          mkIpop (cmaes s) (lambda s) (currentIndividual s) pop (fitnessValues s)
                 (restarts s) (evaluationsAfterRestart s) (optimum s) (optimumValue s)
                 (trace s))
  end.

(** setError, lines 190-214; not modelled: logging and opt->finishedIteration() *)
Definition setError (fitness : R) (s : ipop) : res ipop :=
  match cmaes s with
  | None => Abort
  | Some c =>
      _ <- check (Nat.ltb (currentIndividual s) (lambda s)) ;;
      fit <- vset (fitnessValues s) (currentIndividual s) fitness ;;
      let cur := S (currentIndividual s) in
      let e := (evaluationsAfterRestart s + 1)%Z in
      if Nat.eqb cur (lambda s)
      then Ok (mkIpop (Some (updateDistribution (combine (population s) fit) c)) (lambda s)
                 0 (population s) fit (restarts s) e (optimum s) (optimumValue s) (trace s))
      else Ok (mkIpop (Some c) (lambda s) cur (population s) fit (restarts s) e
                 (optimum s) (optimumValue s) (trace s))
  end.

(** terminated, lines 221-225, with maxFunEvalsActive of lines 63-66 *)
Definition terminated (s : ipop) : bool :=
  Nat.eqb (currentIndividual s) 0 &&
  ((match cmaes s with Some c => testForTermination (run c) (hist c) | None => true end)
   || (negb (Z.eqb maximalFunctionEvaluations (-1)) &&
       Z.geb (evaluationsAfterRestart s) maximalFunctionEvaluations))%bool.

(** opt->setParameters(x); opt->error() *)
Definition evaluate (x : vec) (s : ipop) : R * ipop :=
  (error x, mkIpop (cmaes s) (lambda s) (currentIndividual s) (population s)
              (fitnessValues s) (restarts s) (evaluationsAfterRestart s)
              (optimum s) (optimumValue s) (trace s ++ [Eval x])).

(** the body of the loop in lines 144-150 *)
Definition individual_step (s : ipop) : res ipop :=
  ' (x, s) <- getNext s ;;
  let '(e, s) := evaluate x s in
  setError e s.

(** lines 144-150 *)
Definition generation_step (s : ipop) : res ipop :=
  for_ (lambda s) (fun _ s => individual_step s) s.

(** lines 153-164 *)
Definition update_optimum (s : ipop) : res ipop :=
  match cmaes s with
  | None => Abort
  | Some c =>
      match bestEver c with
      | None => UB
      | Some (x, f) =>
          if Rltb f (optimumValue s) then
            if Nat.ltb (length x) dimension then UB else
            let '(v, s') := evaluate (firstn dimension x) s in
            Ok (mkIpop (cmaes s') (lambda s') (currentIndividual s') (population s')
                  (fitnessValues s') (restarts s') (evaluationsAfterRestart s')
                  (firstn dimension x) v (trace s'))
          else Ok s
      end
  end.

(** lines 166-167: FBestEver < minimalValue *)
Definition reached (s : ipop) : bool :=
  match cmaes s with
  | Some (mkCma _ _ (Some (_, f))) => Rltb f minimalValue
  | _ => false
  end.

(** optimize, lines 136-169 *)
Fixpoint optimize (fuel : nat) (s : ipop) : res ipop :=
  let '(running, s) := restart s in
  if running then
    match fuel with
    | 0%nat => Fuel
    | S fuel' =>
        s <- while_ fuel (fun s => negb (terminated s)) generation_step s ;;
        s <- update_optimum s ;;
        if reached s then Ok s else optimize fuel' s
    end
  else Ok s.

(** result, lines 227-234 *)
Definition result (s : ipop) : res vec :=
  match cmaes s with None => Abort | Some _ => Ok (optimum s) end.
End IPOP.
