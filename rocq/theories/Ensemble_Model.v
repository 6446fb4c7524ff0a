(** Model of the ensembles, /repo/src/AdaBoost.cpp and /repo/src/Bagging.cpp. *)
From Verif Require Import Base Matrix MatOps DataSet_Model Evaluation_Model Weighted_Model.
Local Open Scope R_scope.

(** WeightedDataSet with deterministic resampling, /repo/src/WeightedDataSet.cpp 7-12 and 20-43, as seen
    through the interface of a data set *)
Definition weightedSource (ds : source) (weights : list R) : res source :=
  let N := srcSamples ds in
  inds <- resample weights N true (fun _ => 0) ;;
  Ok (mkSource N (srcOutputs ds)
        (fun n => i <- instanceOf inds N n ;; srcInstance ds i)
        (fun n => i <- instanceOf inds N n ;; srcTarget ds i)).

(** Numbers that can be infinite or NaN: [None] stands for these and for everything computed from them. *)
Definition logarithm (x : R) : option R := if Rltb 0 x then Some (ln x) else None.
Definition osumAll (l : list (option R)) : option R :=
  fold_right (fun a s => match a, s with Some a, Some s => Some (a + s) | _, _ => None end) (Some 0) l.
Definition odivide (a b : option R) : option R :=
  match a, b with Some a, Some b => if Reqb b 0 then None else Some (a / b) | _, _ => None end.

Section Ensemble.
(** Learners and the optimizer are arbitrary: [L] and [O] are their states.
    [predict] and [predictAll] are operator() of a learner for vectors and matrices (simplification:
    predicting does not change a learner).  [optimize ds o l] are the calls
    [trainingSet(ds)], [setOptimizable], [optimize()], [removeTrainingSet()] of AdaBoost.cpp 40-43 and
    Bagging.cpp 30-33: new states of optimizer and learner. *)
Context {L O : Type}.
Variable predict : L -> vec -> vec.
Variable predictAll : L -> mat -> mat.
Variable optimize : source -> O -> L -> O * L.

(** members of AdaBoost, AdaBoost.h; learners are given by their addresses, the same learner can have been
    added several times *)
Record adaBoost := mkAda { amodels : list nat; aweights : list (option R); aF : nat }.
(** constructor, lines 9-12 *)
Definition ada_new : adaBoost := mkAda [] [] 0.
(** getWeights, lines 14-17 *)
Definition ada_getWeights (a : adaBoost) : list (option R) := aweights a.
(** addLearner, lines 19-22 (here and below: as if the missing return statement were there) *)
Definition ada_addLearner (a : adaBoost) (m : nat) : adaBoost := mkAda (amodels a ++ [m]) (aweights a) (aF a).

(** the loop in lines 49-54 *)
Definition reweight (l : L) (ds : source) (alpha : R) (weights : list R) : res (list R) :=
  for_ (srcSamples ds) (fun n w =>
    x <- srcInstance ds n ;;
    c <- oneOfCDecoding (predict l x) ;;
    t <- srcTarget ds n ;;
    k <- oneOfCDecoding t ;;
    v <- vget w n ;;
    vset w n (v * exp ((if Nat.eqb c k then -1 else 1) * alpha))) weights.

(** one round, lines 40-56.  State: memory of the learners, optimizer, modelWeights, weights, resampled, t. *)
Definition ada_round (ds : source) (m : nat)
  (st : list L * O * list (option R) * list R * source * nat)
  : res (list L * O * list (option R) * list R * source * nat) :=
  let '(mem, o, mw, w, r, t) := st in
  l <- vget mem m ;;
  let '(o, l) := optimize r o l in
  mem <- vset mem m l ;;
  acc <- weightedAccuracy (predict l) ds w ;;
  let error := 1 - acc in
  _ <- check (Rleb 0 error && Rleb error 1) ;;
  let alpha := option_map (Rmult (/ 2)) (logarithm ((1 - error) / (error + / 10000000000))) in
  mw <- vset mw t alpha ;;
  if (Reqb error 0 || Rleb (/ 2) error)%bool then Ok (mem, o, mw, w, r, S t)
  else match alpha with
       | None => UB                    (* not reached: the logarithm is finite here *)
       | Some alpha =>
           w <- reweight l ds alpha w ;;
           let sum := fold_right Rplus 0 w in
           let w := map (fun v => v / sum) w in
           r <- weightedSource ds w ;;
           Ok (mem, o, mw, w, r, S t)
       end.

(** train, lines 29-59 *)
Definition ada_train (a : adaBoost) (mem : list L) (o : O) (ds : source) : res (adaBoost * list L * O) :=
  let N := srcSamples ds in
  let w := repeat (1 / INR N) N in
  r <- weightedSource ds w ;;
  ' (mem, o, mw, _, _, _) <- for_each (amodels a) (ada_round ds)
      (mem, o, repeat (Some 0) (length (amodels a)), w, r, 0%nat) ;;
  Ok (mkAda (amodels a) (map (fun v => odivide v (osumAll mw)) mw) (srcOutputs ds), mem, o).

(** [Y += c * B]; Eigen asserts equal sizes.  A coefficient that is not finite makes the result undefined
    here. *)
Definition maddscaled (Y : mat) (c : option R) (B : mat) : res mat :=
  match c with
  | Some c => mmap2 (fun y b => y + c * b) Y B
  | None => UB
  end.

(** operator() for matrices, lines 61-73 *)
Definition ada_predict (a : adaBoost) (mem : list L) (X : mat) : res mat :=
  ' (Y, _) <- for_each (amodels a) (fun m st =>
      let '(Y, t) := st in
      l <- vget mem m ;;
      c <- vget (aweights a) t ;;
      Y <- maddscaled Y c (predictAll l X) ;;
      Ok (Y, S t)) (mkMat (rows X) (aF a) (fun _ _ => 0), 0%nat) ;;
  Ok Y.

(** operator() for vectors, lines 75-79: the local matrix is initialised with its own transpose, that is, an
    object is used before its lifetime has begun; the argument is not used *)
Definition ada_predictVector (a : adaBoost) (mem : list L) (x : vec) : res vec := UB.

(** members of Bagging, Bagging.h *)
Record bagging := mkBag { bmodels : list nat; bsize : R; bF : nat }.
(** Bagging.cpp 8-11 and 13-16 *)
Definition bag_new (bagSize : R) : bagging := mkBag [] bagSize 0.
Definition bag_addLearner (b : bagging) (m : nat) : bagging := mkBag (bmodels b ++ [m]) (bsize b) (bF b).

(** train, Bagging.cpp 23-35.  The data set has address [ds] in the memory [h] of data sets and [F] outputs;
    [idx t] are the random indices that are drawn for model t. *)
Definition bag_train (b : bagging) (mem : list L) (o : O) (h : heap vec) (ds F : nat) (idx : nat -> nat -> nat)
  : res (bagging * list L * O) :=
  ' (mem, o, _) <- for_each (bmodels b) (fun m st =>
      let '(mem, o, t) := st in
      v <- sample h ds (bsize b) true (idx t) (fun l => l) ;;
      r <- source_of (h ++ [v]) F (length h) ;;
      l <- vget mem m ;;
      let '(o, l) := optimize r o l in
      mem <- vset mem m l ;;
      Ok (mem, o, S t)) (mem, o, 0%nat) ;;
  Ok (mkBag (bmodels b) (bsize b) F, mem, o).

(** operator() for matrices, Bagging.cpp 37-47; without models 0 is divided by 0 *)
Definition bag_predict (b : bagging) (mem : list L) (X : mat) : res mat :=
  Y <- for_each (bmodels b) (fun m Y =>
      l <- vget mem m ;; mmap2 Rplus Y (predictAll l X)) (mkMat (rows X) (bF b) (fun _ _ => 0)) ;;
  if Nat.eqb (length (bmodels b)) 0 then UB
  else Ok (mmap (fun y => y / INR (length (bmodels b))) Y).

(** operator() for vectors, Bagging.cpp 49-53 *)
Definition bag_predictVector (b : bagging) (mem : list L) (x : vec) : res vec := UB.
End Ensemble.
