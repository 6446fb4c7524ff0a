(** Model of the evaluation functions, /repo/src/Evaluation.cpp, and of the
    Evaluator, /repo/src/Evaluator.cpp. *)
From Verif Require Import Base DataSet_Model.
Local Open Scope R_scope.

Notation vec := (list R).

(** What the evaluation functions use of a DataSet (/repo/OpenANN/io/DataSet.h). *)
Record source := mkSource {
  srcSamples : nat;
  srcOutputs : nat;
  srcInstance : nat -> res vec;
  srcTarget : nat -> res vec }.

(** Eigen's [v.maxCoeff(&i)]: starts with component 0 and replaces the candidate
    by a strictly larger component; reading component 0 of an empty vector is an
    out-of-range access. *)
Definition maxCoeff (v : vec) : res nat :=
  x0 <- vget v 0 ;;
  ' (_, i) <- for_from 1 (length v - 1) (fun i s =>
      x <- vget v i ;;
      Ok (if Rltb (fst s) x then (x, i) else s)) (x0, 0%nat) ;;
  Ok i.

(** Evaluation.cpp 78-90 *)
Definition oneOfCDecoding (v : vec) : res nat :=
  if Nat.eqb (length v) 1
  then x <- vget v 0 ;; Ok (if Rleb (/ 2) x then 1%nat else 0%nat)
  else maxCoeff v.

(** Eigen's [(a - b).squaredNorm()]; different sizes fail an assertion *)
Definition squaredNorm (v : vec) : R := fold_right (fun x s => x * x + s) 0 v.
Definition vsub (a b : vec) : res vec :=
  _ <- check (Nat.eqb (length a) (length b)) ;;
  Ok (map (fun p => fst p - snd p) (combine a b)).

Section Evaluation.
(** the learner's operator(); simplification: predicting does not change the
    learner (caches aside), so it is a function of the input *)
Variable learner : vec -> vec.

(** lines 15-22 *)
Definition sse (ds : source) : res R :=
  for_ (srcSamples ds) (fun n sse =>
    x <- srcInstance ds n ;;
    t <- srcTarget ds n ;;
    d <- vsub (learner x) t ;;
    Ok (sse + squaredNorm d)) 0.

(** lines 24-27; the division is one of doubles *)
Definition mse (ds : source) : res R :=
  e <- sse ds ;; Ok (e / INR (srcSamples ds)).

(** lines 29-32 *)
Definition rmse (ds : source) : res R := e <- mse ds ;; Ok (sqrt e).

(** [crossEntropy(Y, T)] of one row, /repo/OpenANN/ErrorFunctions.h 17-22:
    -sum(T * log(Y + 1e-10)) / rows *)
Definition crossEntropyRow (y t : vec) : res R :=
  _ <- check (Nat.eqb (length y) (length t)) ;;
  Ok (- fold_right (fun p s => snd p * ln (fst p + / 10000000000) + s) 0 (combine y t)).

(** lines 34-42 *)
Definition ce (ds : source) : res R :=
  for_ (srcSamples ds) (fun n ce =>
    x <- srcInstance ds n ;;
    t <- srcTarget ds n ;;
    e <- crossEntropyRow (learner x) t ;;
    Ok (ce + e)) 0.

(** lines 45-53 *)
Definition accuracy (ds : source) : res R :=
  acc <- for_ (srcSamples ds) (fun n acc =>
    x <- srcInstance ds n ;;
    c <- oneOfCDecoding (learner x) ;;
    t <- srcTarget ds n ;;
    k <- oneOfCDecoding t ;;
    Ok (acc + (if Nat.eqb c k then 1 else 0))) 0 ;;
  Ok (acc / INR (srcSamples ds)).

(** lines 55-64 *)
Definition weightedAccuracy (ds : source) (weights : vec) : res R :=
  for_ (srcSamples ds) (fun n acc =>
    x <- srcInstance ds n ;;
    c <- oneOfCDecoding (learner x) ;;
    t <- srcTarget ds n ;;
    k <- oneOfCDecoding t ;;
    if Nat.eqb c k then (w <- vget weights n ;; Ok (acc + w)) else Ok acc) 0.

(** a matrix of ints, row by row; element increment *)
Definition mincr (m : list (list nat)) (i j : nat) : res (list (list nat)) :=
  row <- vget m i ;;
  x <- vget row j ;;
  row' <- vset row j (S x) ;;
  vset m i row'.

(** lines 66-75 *)
Definition confusionMatrix (ds : source) : res (list (list nat)) :=
  for_ (srcSamples ds) (fun n m =>
    t <- srcTarget ds n ;;
    k <- oneOfCDecoding t ;;
    x <- srcInstance ds n ;;
    c <- oneOfCDecoding (learner x) ;;
    mincr m k c)
  (repeat (repeat 0%nat (srcOutputs ds)) (srcOutputs ds)).

(** lines 92-119; [v.x()] is the first component *)
Definition classificationHits (ds : source) : res nat :=
  for_ (srcSamples ds) (fun i hits =>
    output <- srcTarget ds i ;;
    input <- srcInstance ds i ;;
    eq <- (if Nat.leb 2 (srcOutputs ds)
           then klass <- maxCoeff output ;;
                result <- maxCoeff (learner input) ;;
                Ok (Nat.eqb klass result)
           else o <- vget output 0 ;;
                y <- vget (learner input) 0 ;;
                Ok (Z.eqb (Zfloor (o + / 2)) (Zfloor (y + / 2)))) ;;
    Ok (if (eq : bool) then S hits else hits)) 0%nat.

End Evaluation.

(** ** Cross validation, lines 122-178 *)

(** a data set of the memory model as argument of the evaluation functions *)
Definition source_of (h : heap vec) (outputs a : nat) : res source :=
  N <- samples h a ;;
  Ok (mkSource N outputs (getInstance h a) (getTarget h a)).

Section CrossValidation.
(** Learner and optimizer: [L] is their joint state.  [init] is
    [learner.trainingSet(training); learner.initialize(); opt.setOptimizable(learner)],
    [step] is [opt.step()], which may read the training set, [predict] is
    [learner(x)]. *)
Context {L : Type}.
Variable init : source -> L -> L.
Variable step : source -> L -> bool * L.
Variable predict : L -> vec -> vec.
(** [interrupt.isSignaled()] in fold [i] after [k] steps *)
Variable signaled : nat -> nat -> bool.

(** what happened in one fold (only the returned number depends on it) *)
Record fold := mkFold {
  fTraining : nat;          (* address of the training set *)
  fTest : nat;              (* address of the test set *)
  fMem : heap vec;          (* memory during the fold *)
  fRounds : nat;            (* number of executions of the loop body *)
  fLast : L;                (* state in the last execution of the loop body *)
  fTestAccuracy : R }.

(** the loop, lines 151-165.  [trainingAccuracy] and the log output do not influence the
    result.  Lines 157-158: both operands are ints, so the quotient is an integer
    quotient; division by zero is undefined. *)
Fixpoint trainLoop (fuel i k : nat) (training test : source) (l : L) (last : L) (acc : R)
  : res (L * nat * L * R) :=
  let '(more, l') := step training l in
  if (more && negb (signaled i (S k)))%bool then
    match fuel with
    | 0 => Fuel
    | S f =>
        trainingHits <- classificationHits (predict l') training ;;
        testHits <- classificationHits (predict l') test ;;
        _ <- (if Nat.eqb (srcSamples training) 0 then UB else Ok tt) ;;
        _ <- (if Nat.eqb (srcSamples test) 0 then UB else Ok tt) ;;
        trainLoop f i (S k) training test l' l' (INR (testHits / srcSamples test))
    end
  else Ok (l', k, last, acc).

(** [v.erase(v.begin() + i)] *)
Definition erase {A} (i : nat) (v : list A) : list A := firstn i v ++ skipn (S i) v.

Definition oneFold (fuel : nat) (h : heap vec) (outputs ds : nat) (splits : list (obj vec))
  (i : nat) (l : L) : res (L * fold) :=
  (* the split vector lives behind h; its copy without element i behind that;
     then the empty view [training] *)
  let copies := erase i splits in
  let h1 := h ++ splits ++ copies ++ [View ds []] in
  let firstCopy := (length h + length splits)%nat in
  let training := (firstCopy + length copies)%nat in
  let test := (length h + i)%nat in
  h2 <- merge h1 training (seq firstCopy (length copies)) ;;
  train <- source_of h2 outputs training ;;
  tst <- source_of h2 outputs test ;;
  let l0 := init train l in
  ' (l1, rounds, last, acc) <- trainLoop fuel i 0 train tst l0 l0 0 ;;
  Ok (l1, mkFold training test h2 rounds last acc).

(** returns the value and, for the theorems, the list of the folds *)
Definition crossValidation (fuel : nat) (h : heap vec) (outputs ds folds : nat)
  (shuf : list nat -> list nat) (l : L) : res (R * list fold) :=
  splits <- splitGroups h ds folds true shuf [] ;;
  ' (_, total, log) <- for_ folds (fun i s =>
      let '(l, total, log) := s in
      ' (l', f) <- oneFold fuel h outputs ds splits i l ;;
      Ok (l', total + fTestAccuracy f, log ++ [f])) (l, 0, []) ;;
  Ok (total / INR folds, log).

End CrossValidation.

(** ** MulticlassEvaluator, /repo/src/Evaluator.cpp 10-51 *)

(** one line of the log: iteration, logged error, correct, wrong (the elapsed time
    is not modelled) *)
Record logLine := mkLogLine {
  lIteration : nat; lError : R; lCorrect : nat; lWrong : nat }.

(** counter [iteration] and the lines written so far *)
Record evaluator := mkEvaluator { eInterval : nat; eIteration : nat; eLog : list logLine }.

(** constructor, lines 10-17 *)
Definition newEvaluator (interval : nat) : evaluator := mkEvaluator interval 0 [].

(** evaluate, lines 25-51; [% 0] is undefined *)
Definition evaluate (e : evaluator) (learner : vec -> vec) (ds : source) : res evaluator :=
  _ <- (if Nat.eqb (eInterval e) 0 then UB else Ok tt) ;;
  let it := S (eIteration e) in
  if Nat.eqb (it mod eInterval e) 0 then
    ' (err, correct, wrong) <- for_ (srcSamples ds) (fun n s =>
        let '(err, correct, wrong) := s in
        x <- srcInstance ds n ;;
        t <- srcTarget ds n ;;
        d <- vsub (learner x) t ;;
        j1 <- oneOfCDecoding t ;;
        j2 <- oneOfCDecoding (learner x) ;;
        Ok (if Nat.eqb j1 j2
            then (err + squaredNorm d, S correct, wrong)
            else (err + squaredNorm d, correct, S wrong))) (0, 0%nat, 0%nat) ;;
    Ok (mkEvaluator (eInterval e) it
          (eLog e ++ [mkLogLine it (err / INR (srcSamples ds)) correct wrong]))
  else Ok (mkEvaluator (eInterval e) it (eLog e)).
