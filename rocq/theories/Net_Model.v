(** Model of class Net, /repo/src/Net.cpp, and of /repo/OpenANN/ErrorFunctions.h. *)
From Verif Require Import Base BaseFacts Matrix RSum MatOps Activation_Model Layer_Model.
Local Open Scope R_scope.

(** enum ErrorFunction, Net.h 19-24; NO_E_DEFINED is treated like MSE everywhere *)
Inductive ErrorFunction := MSE | CE.

(** crossEntropy, ErrorFunctions.h 17-22 *)
Definition crossEntropy (Y T : mat) : res R :=
  A <- mmap2 (fun t y => t * ln (y + / 10 ^ 10)) T Y ;;
  Ok (- msum A / INR (rows Y)).
(** meanSquaredError, ErrorFunctions.h 30-34 *)
Definition meanSquaredError (YmT : mat) : R :=
  msum (mmap (fun x => x * x) YmT) / (2 * INR (rows YmT)).

(** A training set: class DirectStorageDataSet, DirectStorageDataSet.cpp 9-34, without the
    evaluator *)
Record trainData := mkData { dataIn : mat; dataOut : mat }.
(** the constructor's checks *)
Definition data_new (X T : mat) : res trainData :=
  _ <- check (Nat.ltb 0 (cols X)) ;; _ <- check (Nat.eqb (rows X) (rows T)) ;; Ok (mkData X T).
(** [m.row(n)] after a range check, as a 1 x c matrix *)
Definition rowOf (m : mat) (n : nat) : res mat :=
  _ <- check (Nat.ltb n (rows m)) ;; Ok (mkMat 1 (cols m) (fun _ j => at_ m n j)).
(** [a.row(n) = r]; Eigen asserts that the sizes agree *)
Definition msetRow (a : mat) (n : nat) (r : mat) : res mat :=
  if (Nat.ltb n (rows a) && Nat.eqb (cols a) (cols r))%bool
  then Ok (mkMat (rows a) (cols a) (fun i j => if Nat.eqb i n then at_ r 0 j else at_ a i j))
  else Abort.

(** OutputInfo::outputs, Layer.cpp 7-11 *)
Definition outputs (info : list nat) : nat := fold_left Nat.mul info 1%nat.

Section Net.
(** the dynamic types of layers *)
Context {kind : Type} (kclass : kind -> LayerClass).

(** [Layer*]: an object with its dynamic type *)
Record layer := mkLayer { lkind : kind; lobj : St (kclass lkind) }.

(** class Net, Net.h 34-52 (and the training set, Learner.h).
    [parameters] and [derivatives] are pointers to coefficients of layers: the position of
    the layer and the number of the pointer among those that its initialize has pushed.
    [P] is 0 instead of -1 before initializeNetwork; all loops over it are empty in both
    cases.  The member [L] is the length of [layers].  The stream [architecture] is in
    NetIO_Model.v. *)
Record net := mkNet {
  infos : list (list nat); layers : list layer;
  parameters : list (nat * nat); derivatives : list (nat * nat);
  errorFunction : ErrorFunction; dropout : bool; initialized : bool; P : nat;
  parameterVector : list R; tempGradient : list R;
  tempInput : mat; tempOutput : mat; tempError : mat;
  trainSet : option trainData }.

(** constructor, lines 24-29 *)
Definition net_new : net :=
  mkNet [] [] [] [] MSE false false 0 [] [] (mzero 0 0) (mzero 0 0) (mzero 0 0) None.

(** the same object with some members replaced *)
Definition with_layers (s : net) (ls : list layer) : net :=
  mkNet (infos s) ls (parameters s) (derivatives s) (errorFunction s) (dropout s) (initialized s)
    (P s) (parameterVector s) (tempGradient s) (tempInput s) (tempOutput s) (tempError s) (trainSet s).
Definition with_vector (s : net) (p : list R) : net :=
  mkNet (infos s) (layers s) (parameters s) (derivatives s) (errorFunction s) (dropout s) (initialized s)
    (P s) p (tempGradient s) (tempInput s) (tempOutput s) (tempError s) (trainSet s).
Definition with_gradient (s : net) (g : list R) : net :=
  mkNet (infos s) (layers s) (parameters s) (derivatives s) (errorFunction s) (dropout s) (initialized s)
    (P s) (parameterVector s) g (tempInput s) (tempOutput s) (tempError s) (trainSet s).
Definition with_input (s : net) (x : mat) : net :=
  mkNet (infos s) (layers s) (parameters s) (derivatives s) (errorFunction s) (dropout s) (initialized s)
    (P s) (parameterVector s) (tempGradient s) x (tempOutput s) (tempError s) (trainSet s).
Definition with_output (s : net) (y : mat) : net :=
  mkNet (infos s) (layers s) (parameters s) (derivatives s) (errorFunction s) (dropout s) (initialized s)
    (P s) (parameterVector s) (tempGradient s) (tempInput s) y (tempError s) (trainSet s).
Definition with_error (s : net) (e : mat) : net :=
  mkNet (infos s) (layers s) (parameters s) (derivatives s) (errorFunction s) (dropout s) (initialized s)
    (P s) (parameterVector s) (tempGradient s) (tempInput s) (tempOutput s) e (trainSet s).

(** useDropout, lines 428-432 *)
Definition useDropout (s : net) (activate : bool) : net :=
  mkNet (infos s) (layers s) (parameters s) (derivatives s) (errorFunction s) activate (initialized s)
    (P s) (parameterVector s) (tempGradient s) (tempInput s) (tempOutput s) (tempError s) (trainSet s).
(** setErrorFunction, lines 445-450 *)
Definition setErrorFunction (s : net) (ef : ErrorFunction) : net :=
  mkNet (infos s) (layers s) (parameters s) (derivatives s) ef (dropout s) (initialized s)
    (P s) (parameterVector s) (tempGradient s) (tempInput s) (tempOutput s) (tempError s) (trainSet s).
(** Learner::trainingSet, Learner.cpp 21-31 and 33-41 *)
Definition trainingSet (s : net) (d : trainData) : net :=
  mkNet (infos s) (layers s) (parameters s) (derivatives s) (errorFunction s) (dropout s) (initialized s)
    (P s) (parameterVector s) (tempGradient s) (tempInput s) (tempOutput s) (tempError s) (Some d).
(** Learner::N *)
Definition examples (s : net) : nat :=
  match trainSet s with Some d => rows (dataIn d) | None => 0 end.

(** [*ptr = v], reading a parameter and reading a derivative *)
Definition storePtr (ls : list layer) (ptr : nat * nat) (v : R) : res (list layer) :=
  l <- vget ls (fst ptr) ;;
  o <- writeParam (kclass (lkind l)) (lobj l) (snd ptr) v ;;
  Ok (upd ls (fst ptr) (mkLayer (lkind l) o)).
Definition loadParam (ls : list layer) (ptr : nat * nat) : res R :=
  l <- vget ls (fst ptr) ;; readParam (kclass (lkind l)) (lobj l) (snd ptr).
Definition loadDeriv (ls : list layer) (ptr : nat * nat) : res R :=
  l <- vget ls (fst ptr) ;; readDeriv (kclass (lkind l)) (lobj l) (snd ptr).

(** addLayer, lines 144-153 *)
Definition addLayer (s : net) (l : layer) (info : list nat) : net :=
  let i := length (layers s) in
  let ptrs := initialize (kclass (lkind l)) (lobj l) in
  mkNet (infos s ++ [info]) (layers s ++ [l])
    (parameters s ++ map (pair i) (seq 0 (length (fst ptrs))))
    (derivatives s ++ map (pair i) (seq 0 (length (snd ptrs))))
    (errorFunction s) (dropout s) (initialized s) (P s) (parameterVector s) (tempGradient s)
    (tempInput s) (tempOutput s) (tempError s) (trainSet s).

(** initializeNetwork, lines 604-615; [junk] are the entries of resized matrices *)
Definition initializeNetwork (junk : nat -> nat -> R) (s : net) : res net :=
  let P := length (parameters s) in
  first <- vget (infos s) 0 ;;
  last <- vget (infos s) (length (infos s) - 1) ;;
  vec <- for_ P (fun p vec => ptr <- vget (parameters s) p ;; v <- loadParam (layers s) ptr ;; vset vec p v)
           (map (junk 0%nat) (seq 0 P)) ;;
  Ok (mkNet (infos s) (layers s) (parameters s) (derivatives s) (errorFunction s) (dropout s) true
        P vec (map (junk 0%nat) (seq 0 P)) (mkMat 1 (outputs first) junk) (mkMat 1 (outputs last) junk)
        (mkMat 1 (outputs last) junk) (trainSet s)).

(** currentParameters, lines 487-490, and dimension, lines 477-480 *)
Definition currentParameters (s : net) : list R := parameterVector s.
Definition dimension (s : net) : nat := P s.

(** the calls of updatedParameters, lines 497-499 *)
Fixpoint updateLayers (ls : list layer) : res (list layer) :=
  match ls with
  | [] => Ok []
  | l :: ls =>
      o <- updatedParameters (kclass (lkind l)) (lobj l) ;;
      ls <- updateLayers ls ;; Ok (mkLayer (lkind l) o :: ls)
  end.

(** setParameters, lines 492-500 *)
Definition setParameters (s : net) (p : list R) : res net :=
  let s := with_vector s p in
  ls <- for_ (P s) (fun k ls => ptr <- vget (parameters s) k ;; v <- vget p k ;; storePtr ls ptr v)
          (layers s) ;;
  ls <- updateLayers ls ;;
  Ok (with_layers s ls).

(** the loop of forwardPropagate, lines 619-622.  The sum of what the layers add to
    [*error] is returned. *)
Fixpoint forwardLayers (ls : list layer) (x : mat) (dropout : bool) : res (list layer * mat * R) :=
  match ls with
  | [] => Ok ([], x, 0)
  | l :: ls =>
      ' (o, y, r) <- forwardPropagate (kclass (lkind l)) (lobj l) x dropout ;;
      ' (ls, z, r') <- forwardLayers ls y dropout ;;
      Ok (mkLayer (lkind l) o :: ls, z, r + r')
  end.

(** forwardPropagate, lines 617-627; returns what is added to [*error] *)
Definition net_forward (s : net) : res (net * R) :=
  ' (ls, y, r) <- forwardLayers (layers s) (tempInput s) (dropout s) ;;
  info <- vget (infos s) (length (infos s) - 1) ;;
  _ <- check (Nat.eqb (cols y) (outputs info)) ;;
  y <- (match errorFunction s with CE => softmax y | MSE => Ok y end) ;;
  Ok (with_output (with_layers s ls) y, r).

(** the loop of backpropagate, lines 631-639; [l] counts the layers from 1.  The layers
    after the first one are run before it. *)
Fixpoint backLayers (ls : list layer) (l : nat) (e : mat) : res (list layer * mat) :=
  match ls with
  | [] => Ok ([], e)
  | x :: ls =>
      ' (ls, e) <- backLayers ls (S l) e ;;
      ' (o, e) <- backpropagate (kclass (lkind x)) (lobj x) e (Nat.ltb 2 l) ;;
      Ok (mkLayer (lkind x) o :: ls, e)
  end.
Definition net_backward (s : net) : res net :=
  ' (ls, _) <- backLayers (layers s) 1 (tempError s) ;; Ok (with_layers s ls).

(** operator()(MatrixXd), lines 470-475; operator()(VectorXd), lines 463-468, is the case of
    one row *)
Definition net_apply (s : net) (x : mat) : res (net * mat) :=
  ' (s, _) <- net_forward (with_input s x) ;; Ok (s, tempOutput s).

(** error(n), lines 517-528; a null training set is dereferenced *)
Definition error_at (s : net) (n : nat) : res (net * R) :=
  match trainSet s with
  | None => UB
  | Some d =>
      x <- rowOf (dataIn d) n ;;
      ' (s, reg) <- net_forward (with_input s x) ;;
      t <- rowOf (dataOut d) n ;;
      match errorFunction s with
      | CE => v <- crossEntropy (tempOutput s) t ;; Ok (s, v + reg)
      | MSE => D <- mmap2 Rminus (tempOutput s) t ;; Ok (s, meanSquaredError D + reg)
      end
  end.

(** error(), lines 530-536 *)
Definition error (s : net) : res (net * R) :=
  let N := examples s in
  for_ N (fun n '(s, e) => ' (s, v) <- error_at s n ;; Ok (s, e + v / INR N)) (s, 0).

(** errorGradient(startN, endN, value, grad), lines 578-602.  [idx] are the indices in the
    range (natural numbers), [junk] the entries of resized matrices; [grad] is the vector
    that is passed and overwritten.
    Not modelled: an empty range divides by zero (the results are not numbers in C++ and
    arbitrary numbers here). *)
Definition errorGradient (junk : nat -> nat -> R) (s : net) (idx : list nat) (grad : list R)
  : res (net * R * list R) :=
  match trainSet s with
  | None => UB
  | Some d =>
      let N := length idx in
      ' (X, T) <- for_ N (fun n '(X, T) =>
          i <- vget idx n ;;
          x <- rowOf (dataIn d) i ;; X <- msetRow X n x ;;
          t <- rowOf (dataOut d) i ;; T <- msetRow T n t ;; Ok (X, T))
        (mconsresize junk (tempInput s) N (cols (dataIn d)), mkMat N (cols (dataOut d)) junk) ;;
      ' (s, value) <- net_forward (with_input s X) ;;
      e <- mmap2 Rminus (tempOutput s) T ;;
      let s := with_error s e in
      v <- (match errorFunction s with CE => crossEntropy (tempOutput s) T
                                     | MSE => Ok (meanSquaredError e) end) ;;
      let value := value + v in
      s <- net_backward s ;;
      grad <- for_ (P s) (fun p grad =>
          ptr <- vget (derivatives s) p ;; v <- loadDeriv (layers s) ptr ;; vset grad p v) grad ;;
      Ok (s, value, map (fun g => g / INR N) grad)
  end.

(** gradient(n), lines 543-550 *)
Definition gradient_at (junk : nat -> nat -> R) (s : net) (n : nat) : res (net * list R) :=
  ' (s, _, g) <- errorGradient junk s [n] (tempGradient s) ;; Ok (with_gradient s g, g).
(** gradient(), lines 552-561 *)
Definition gradient (junk : nat -> nat -> R) (s : net) : res (net * list R) :=
  ' (s, _, g) <- errorGradient junk s (seq 0 (examples s)) (tempGradient s) ;; Ok (with_gradient s g, g).
End Net.
