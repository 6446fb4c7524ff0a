(** Model of networks as optimization problems (Net.cpp 452-461, 538-576), of /repo/src/Convenience.cpp and of
    MulticlassEvaluator::evaluate in /repo/src/Evaluator.cpp. *)
From Coq Require Import String.
From Verif Require Import Base BaseFacts Matrix Activation_Model Layer_Model FC_Model Net_Model NetBuild_Model Evaluation_Model
  Alglib_Model MBSGD_Model IPOP_Model.
Local Open Scope R_scope.

Section Train.
(** entries of resized matrices *)
Variable junk : nat -> nat -> R.
Notation kc := (kclass junk).
Notation net := (net kc).

(** The evaluators of the training and the validation set: what DataSet::finishIteration (DirectStorageDataSet.cpp 35-39)
    does with the network *)
Variable evaluate : net -> res net.

(** MulticlassEvaluator::evaluate, Evaluator.cpp 25-53, with the network as learner and a training set as data set.
    Not modelled: the numbers written to the log and the clock. *)
Definition multiclassEvaluate (logs : bool) (d : trainData) (s : net) : res net :=
  if logs then for_ (rows (dataIn d)) (fun n s => x <- rowOf (dataIn d) n ;; ' (s, _) <- net_apply kc s x ;; Ok s) s
  else Ok s.

(** finishedIteration, Net.cpp 452-461 *)
Definition net_finishedIteration (s : net) : res net :=
  let dropout := Net_Model.dropout kc s in
  s <- evaluate (useDropout kc s false) ;;
  Ok (useDropout kc s dropout).

(** the vector that an optimizer passes to errorGradient; its contents are indeterminate *)
Definition buffer (s : net) : vec := map (junk 1%nat) (seq 0 (Net_Model.dimension kc s)).

(** A network as Optimizable: error, Net.cpp 517-536; errorGradient, lines 563-576 *)
Definition net_objective : objective :=
  mkObjective net (Net_Model.dimension kc) (Net_Model.examples kc)
    (fun p s => Net_Model.setParameters kc s p) (Net_Model.currentParameters kc)
    (fun s => ' (s, v) <- Net_Model.error kc s ;; Ok (v, s))
    (fun s => ' (s, v, g) <- Net_Model.errorGradient kc junk s (seq 0 (Net_Model.examples kc s)) (buffer s) ;; Ok (v, g, s))
    (fun n s => ' (s, v) <- error_at kc s n ;; Ok (v, s))
    (fun n s => ' (s, v, g) <- Net_Model.errorGradient kc junk s [n] (buffer s) ;; Ok (v, g, s))
    net_finishedIteration.

(** * Networks as problems of MBSGD *)
(** one call of the optimizer.  The last argument of ErrorGradient is the answer that the optimizer got; it has to be
    as long as that of the network. *)
Definition happens (s : net) (ev : MBSGD_Model.event) : res net :=
  match ev with
  | SetParameters p => Net_Model.setParameters kc s p
  | ErrorGradient _ batch _ answered =>
      ' (s, _, g) <- Net_Model.errorGradient kc junk s batch (buffer s) ;;
      if Nat.eqb (length g) (length answered) then Ok s else UB
  | FinishedIteration => net_finishedIteration s
  end.
(** the network after some calls of the optimizer *)
Definition replay (s : net) (h : list MBSGD_Model.event) : res net := for_each h (fun ev s => happens s ev) s.

(** The answer of the network after the calls [h].  If the call fails or the gradient has another length, then so fails
    [replay] of the whole history, which [mbsgd_train] runs; the numbers returned here do not matter then. *)
Definition net_answer (s : net) (h : list MBSGD_Model.event) (_ : list R) (batch : list nat) : R * list R :=
  let wrong := (0, repeat 0 (Net_Model.dimension kc s)) in
  match (s <- replay s h ;; Net_Model.errorGradient kc junk s batch (buffer s)) with
  | Ok (_, v, g) => if Nat.eqb (length g) (Net_Model.dimension kc s) then (v, g) else wrong
  | _ => wrong
  end.
Definition net_problem (shuffle : list MBSGD_Model.event -> list nat -> list nat) (signaled : list MBSGD_Model.event -> bool) (s : net) : problem :=
  mkProblem (Net_Model.dimension kc s) (Net_Model.examples kc s) (net_answer s) shuffle signaled.

(** * train *)
(** class StoppingCriteria, StoppingCriteria.h 13-49 *)
Record criteria := mkCriteria {
  maxFunctionEvaluations : Z; maxIterations : Z; maxRestarts : Z;
  minValue : R; minValueDifferences : R; minSearchSpaceStep : R }.

(** Everything outside of the repository that optimization depends on: ALGLIB, the CMA-ES library, random permutations
    and the moment at which the user interrupts *)
Record externals := mkExternals {
  mincg : solver R vec; minlbfgs : solver R vec; minlm : solver vec (list vec);
  interrupted : nat -> bool;
  permute : list MBSGD_Model.event -> list nat -> list nat; interruptedSgd : list MBSGD_Model.event -> bool;
  lambda0 : nat; dblmax : R; samplePopulation : nat -> list generation -> list vec; libraryTerminates : nat -> list generation -> bool }.
Variable ext : externals.

Definition alglibStop (stop : criteria) : stopping :=
  mkStopping (minSearchSpaceStep stop) (minValueDifferences stop) (maxIterations stop).

(** [new MBSGD] (MBSGD.h 170-174), setOptimizable, setStopCriteria, optimize and result *)
Definition mbsgd_train (stop : criteria) (fuel : nat) (s : net) : res net :=
  ' (c, o) <- newMBSGD (1 / 100) (1 / 2) 10 false 1 0 0 1 1 1 (maxIterations stop) (minSearchSpaceStep stop) (Net_Model.currentParameters kc s) ;;
  o <- MBSGD_Model.optimize fuel (net_problem (permute ext) (interruptedSgd ext) s) c o ;;
  replay s (history (snd (MBSGD_Model.result o))).

(** [new CG], ..., result *)
Definition cg_train (S : solver R vec) (m : Z) (stop : criteria) (fuel : nat) (s : net) : res net :=
  ' (o, s) <- cg_optimize S net_objective (alglibStop stop) (interrupted ext) fuel (optimizer_new S m) s ;;
  ' (_, s) <- cg_result S net_objective o s ;; Ok s.
Definition lma_train (stop : criteria) (fuel : nat) (s : net) : res net :=
  ' (o, s) <- lma_optimize (minlm ext) net_objective (alglibStop stop) (interrupted ext) fuel (optimizer_new (minlm ext) 0) s ;;
  ' (_, s) <- lma_result (minlm ext) net_objective o s ;; Ok s.

(** [new IPOPCMAES], ..., result (IPOPCMAES.cpp 227-234 installs the optimum).  The optimizer evaluates the network
    at the points of its trace; finishedIteration is not modelled (see IPOP_Model.v).  Simplification as in
    IPOP_Model.v: the answers are those for the parameters alone.  If a call fails, so does [evaluateAll]. *)
Definition netError (s : net) (x : vec) : R :=
  match (s <- Net_Model.setParameters kc s x ;; Net_Model.error kc s) with Ok (_, v) => v | _ => 0 end.
Definition evaluateAll (s : net) (tr : list IPOP_Model.event) : res net :=
  for_each tr (fun ev s => match ev with
    | Start _ => Ok s
    | Eval x => s <- Net_Model.setParameters kc s x ;; ' (s, _) <- Net_Model.error kc s ;; Ok s
    end) s.
Definition cmaes_train (stop : criteria) (fuel : nat) (s : net) : res net :=
  o <- IPOP_Model.optimize (Net_Model.dimension kc s) (netError s) (samplePopulation ext) (libraryTerminates ext)
         (maxFunctionEvaluations stop) (maxRestarts stop) (minValue stop) fuel (ipop_init (dblmax ext) (lambda0 ext)) ;;
  s <- evaluateAll s (trace o) ;;
  x <- IPOP_Model.result o ;;
  Net_Model.setParameters kc s x.

Local Open Scope string_scope.
(** train, Convenience.cpp 15-44.  [w] are the random numbers of initialize.  The boolean tells whether train returns; false
    stands for the exception of line 35, after which the network is as returned.  The network is not described
    after other exceptions. *)
Definition train (w : nat -> nat -> nat -> R) (fuel : nat) (algorithm : string) (ef : ErrorFunction) (stop : criteria)
    (reinitialize dropout : bool) (s : net) : res (net * bool) :=
  s <- (if reinitialize then net_initialize junk w s else Ok s) ;;
  let s := setErrorFunction kc s ef in
  let s := useDropout kc s dropout in
  let run := fun optimization : net -> res net => s <- optimization s ;; Ok (useDropout kc s false, true) in
  if String.eqb algorithm "MBSGD" then run (mbsgd_train stop fuel)
  else if String.eqb algorithm "LMA" then run (lma_train stop fuel)
  else if String.eqb algorithm "CG" then run (cg_train (mincg ext) 0 stop fuel)
  else if String.eqb algorithm "LBFGS" then run (cg_train (minlbfgs ext) 10 stop fuel)
  else if String.eqb algorithm "CMAES" then run (cmaes_train stop fuel)
  else Ok (s, false).
End Train.

(** makeMLNN, Convenience.cpp 46-61: inputLayer(D), the hidden layers and the output layer; [hidden] are the H variable arguments, [w i] the random
    numbers of the layer at position [i].  The default arguments of inputLayer and fullyConnectedLayer are 1, 1
    (Net.h) and a bias. *)
Fixpoint mlnnCalls (w : nat -> nat -> nat -> R) (g h : ActivationFunction) (F : nat) (i : nat) (hidden : list nat) : list command :=
  match hidden with
  | [] => [Add (FullyConnectedLayer F h true (w i))]
  | units :: hidden => Add (FullyConnectedLayer units g true (w i)) :: mlnnCalls w g h F (S i) hidden
  end.
Definition makeMLNN (junk : nat -> nat -> R) (w : nat -> nat -> nat -> R) (g h : ActivationFunction) (D F : nat) (hidden : list nat)
  : res (net (kclass junk)) := build junk D 1 1 (mlnnCalls w g h F 1 hidden).
