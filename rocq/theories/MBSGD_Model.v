(** Model of mini-batch stochastic gradient descent, /repo/src/MBSGD.cpp.

    The optimised problem is arbitrary: its answers may depend on everything that
    happened before (history), so random problems (dropout) are included.  Likewise the
    shuffles and the arrival of an interrupt.  Simplification: [setParameters] stores
    the parameters, [currentParameters] returns what was stored, [finishedIteration]
    does not change them.  Simplification: the checks for NaN and infinity have no
    counterpart over the reals. *)
From Verif Require Import Base BaseFacts Vec DataSet_Model.
Local Open Scope R_scope.

(** observable calls of the problem *)
Inductive event :=
| SetParameters (p : list R)
| ErrorGradient (at_ : list R) (batch : list nat) (error : R) (gradient : list R)
    (* parameters of the problem, indices, results *)
| FinishedIteration.

(** hyper-parameters, set by the constructor, and the stopping criteria *)
Record config := mkConfig {
  nesterov : bool; alphaDecay : R; minAlpha : R; etaGain : R; maxEta : R;
  batchSize : Z; minGain : R; maxGain : R;
  maximalIterations : Z; minimalSearchSpaceStep : R }.

(** [useGain(minGain != 1.0 || maxGain != 1.0)], MBSGD.cpp 25 *)
Definition useGain (c : config) : bool := negb (Reqb (minGain c) 1 && Reqb (maxGain c) 1).

(** the remaining members, and the problem: its parameters and its history *)
Record sgd := mkSgd {
  dimP : Z; numN : Z; batches : Z; iteration : Z;
  alpha : R; eta : R; accumulatedError : R;
  parameters : list R; momentum : list R; gradient : list R; gains : list R;
  randomIndices : list nat;
  optParameters : list R; history : list event }.

(** the problem (null pointer is not modelled) *)
Record problem := mkProblem {
  dimension : nat;
  examples : nat;
  answer : list event -> list R -> list nat -> R * list R;   (* errorGradient *)
  shuffle : list event -> list nat -> list nat;              (* std::shuffle *)
  signaled : list event -> bool }.                           (* StoppingInterrupt::isSignaled *)

(** constructor, MBSGD.cpp 17-42 *)
Definition newMBSGD (learningRate momentum0 : R) (batchSize0 : Z) (nesterov0 : bool)
    (decay minLR momGain maxMom minG maxG : R) (maxIter : Z) (minStep : R)
    (p0 : list R) : res (config * sgd) :=
  if (Rleb learningRate 0 || Rltb 1 learningRate)%bool then Throw else
  if (Rltb momentum0 0 || Rleb 1 momentum0)%bool then Throw else
  if Z.ltb batchSize0 1 then Throw else
  if (Rleb decay 0 || Rltb 1 decay)%bool then Throw else
  if (Rltb minLR 0 || Rltb 1 minLR)%bool then Throw else
  if (Rltb momGain 0 || Rleb 1 momGain)%bool then Throw else
  if (Rltb maxMom 0 || Rltb 1 maxMom)%bool then Throw else
  Ok (mkConfig nesterov0 decay minLR momGain maxMom batchSize0 minG maxG maxIter minStep,
      mkSgd (-1) (-1) (-1) (-1) learningRate momentum0 0 [] [] [] [] [] p0 []).

(** initialize, MBSGD.cpp 174-191 *)
Definition initialize (pb : problem) (c : config) (s : sgd) : res sgd :=
  let N := examples pb in
  let P := dimension pb in
  idx <- generateIndices N [] false (shuffle pb (history s)) ;;
  Ok (mkSgd (Z.of_nat P) (Z.of_nat N) (Z.max (Z.of_nat N / batchSize c) 1) 0
        (alpha s) (eta s) (accumulatedError s)
        (optParameters s) (repeat 0 P) (repeat 0 P) (repeat 1 P)
        idx (optParameters s) (history s)).

(** [opt->setParameters(p)] *)
Definition setParameters (p : list R) (s : sgd) : sgd :=
  mkSgd (dimP s) (numN s) (batches s) (iteration s) (alpha s) (eta s) (accumulatedError s)
    (parameters s) (momentum s) (gradient s) (gains s) (randomIndices s)
    p (history s ++ [SetParameters p]).

(** [opt->errorGradient(startN, endN, error, gradient); accumulatedError += error];
    iterators are offsets into [randomIndices].  Dereferencing beyond the end would be
    undefined; moving an iterator beyond the end (also undefined by the standard) is
    not counted. *)
Definition errorGradient (pb : problem) (startN endN : Z) (s : sgd) : res sgd :=
  a <- zidx startN ;;
  b <- zidx endN ;;
  if (Nat.leb a b && Nat.leb b (length (randomIndices s)))%bool then
    let batch := firstn (b - a) (skipn a (randomIndices s)) in
    let '(e, g) := answer pb (history s) (optParameters s) batch in
    Ok (mkSgd (dimP s) (numN s) (batches s) (iteration s) (alpha s) (eta s) (accumulatedError s + e)
      (parameters s) (momentum s) g (gains s) (randomIndices s)
      (optParameters s) (history s ++ [ErrorGradient (optParameters s) batch e g]))
  else UB.

(** the loop over the parameters, MBSGD.cpp 105-115: new gains and new gradient *)
Definition updateGains (c : config) (P : nat) (mom grad gns : list R) : res (list R * list R) :=
  for_ P (fun p st =>
    let '(gns, grad) := st in
    m <- vget mom p ;;
    g <- vget grad p ;;
    k <- vget gns p ;;
    let k := if Rleb 0 (m * g) then k + 5 / 100 else k * (95 / 100) in
    let k := Rmin (maxGain c) (Rmax (minGain c) k) in
    gns <- vset gns p k ;;
    grad <- vset grad p (g * k) ;;
    Ok (gns, grad)) (gns, grad).

(** one round of the loop over the batches, MBSGD.cpp 95-138 *)
Definition batchRound (pb : problem) (c : config) (st : sgd * Z * Z) : res (sgd * Z * Z) :=
  let '(s, startN, endN) := st in
  s <- (if nesterov c
        then p <- vadd (parameters s) (vscale (eta s) (momentum s)) ;; Ok (setParameters p s)
        else Ok s) ;;
  s <- errorGradient pb startN endN s ;;
  ' (gns, grad) <- (if useGain c
                    then P <- zidx (dimP s) ;; updateGains c P (momentum s) (gradient s) (gains s)
                    else Ok (gains s, gradient s)) ;;
  mom <- vminus (vscale (eta s) (momentum s)) (vscale (alpha s) grad) ;;
  par <- vadd (parameters s) mom ;;
  let s := mkSgd (dimP s) (numN s) (batches s) (iteration s) (alpha s) (eta s) (accumulatedError s)
             par mom grad gns (randomIndices s) (optParameters s) (history s) in
  let s := if nesterov c then s else setParameters par s in
  let al := Rmax (alpha s * alphaDecay c) (minAlpha c) in
  let et := Rmin (eta s + etaGain c) (maxEta c) in
  let s := mkSgd (dimP s) (numN s) (batches s) (iteration s) al et (accumulatedError s)
             (parameters s) (momentum s) (gradient s) (gains s) (randomIndices s)
             (optParameters s) (history s) in
  let startN := (startN + batchSize c)%Z in
  let endN := (endN + batchSize c)%Z in
  let endN := if Z.ltb (Z.of_nat (length (randomIndices s))) endN
              then Z.of_nat (length (randomIndices s)) else endN in
  Ok (s, startN, endN).

(** step, MBSGD.cpp 80-153 *)
Definition step (pb : problem) (c : config) (s : sgd) : res (bool * sgd) :=
  s <- (if Z.ltb (iteration s) 0 then initialize pb c s else Ok s) ;;
  _ <- check (Z.ltb 0 (dimP s)) ;;
  _ <- check (Z.ltb 0 (numN s)) ;;
  _ <- check (Z.ltb 0 (batches s)) ;;
  N <- zidx (numN s) ;;
  idx <- generateIndices N (randomIndices s) true (shuffle pb (history s)) ;;
  let s := mkSgd (dimP s) (numN s) (batches s) (iteration s) (alpha s) (eta s) 0
             (parameters s) (momentum s) (gradient s) (gains s) idx
             (optParameters s) (history s) in
  let endN := if Z.ltb (Z.of_nat (length idx)) (batchSize c)
              then Z.of_nat (length idx) else batchSize c in
  n <- zidx (batches s) ;;
  ' (s, _, _) <- for_ n (fun _ st => batchRound pb c st) (s, 0%Z, endN) ;;
  let it := (iteration s + 1)%Z in
  let run := ((Z.eqb (maximalIterations c) (-1) || Z.ltb it (maximalIterations c)) &&
              (Reqb (minimalSearchSpaceStep c) 0 ||
               Rleb (minimalSearchSpaceStep c) (norm (momentum s))))%bool in
  Ok (run, mkSgd (dimP s) (numN s) (batches s) (if run then it else (-1)%Z)
             (alpha s) (eta s) (accumulatedError s)
             (parameters s) (momentum s) (gradient s) (gains s) (randomIndices s)
             (optParameters s) (history s ++ [FinishedIteration])).

(** optimize, MBSGD.cpp 58-78 (without logging): [while(step() && !isSignaled())];
    [fuel] bounds the number of rounds *)
Fixpoint optimize (fuel : nat) (pb : problem) (c : config) (s : sgd) : res sgd :=
  match fuel with
  | 0%nat => Fuel
  | S f =>
      ' (run, s) <- step pb c s ;;
      if (run && negb (signaled pb (history s)))%bool then optimize f pb c s else Ok s
  end.

(** result, MBSGD.cpp 155-159 *)
Definition result (s : sgd) : list R * sgd := (parameters s, setParameters (parameters s) s).
