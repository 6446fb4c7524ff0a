(** Model of /repo/src/ActivationFunctions.cpp. *)
From Verif Require Import Base BaseFacts Matrix RSum MatOps.
Local Open Scope R_scope.

(** enum ActivationFunction, ActivationFunctions.h 8-68; LINEAR and SOFTMAX are the same
    number *)
Inductive ActivationFunction := LOGISTIC | TANH | TANH_SCALED | RECTIFIER | LINEAR.

(** one iteration of the loops in the functions logistic (lines 72-80), normaltanh
    (96), scaledtanh (112), rectifier (128), linear (141) *)
Definition act_fun (act : ActivationFunction) (a : R) : R :=
  match act with
  | LOGISTIC => if Rltb a (-45) then 0 else if Rltb 45 a then 1 else 1 / (1 + exp (- a))
  | TANH => tanh a
  | TANH_SCALED => 1.7159 * tanh (0.66666667 * a)
  | RECTIFIER => Rmax 0 a
  | LINEAR => a
  end.

(** one iteration of the loops in logisticDerivative (line 88), normaltanhDerivative
    (104), scaledtanhDerivative (120), rectifierDerivative (136), linearDerivative (146) *)
Definition act_der (act : ActivationFunction) (z : R) : R :=
  match act with
  | LOGISTIC => z * (1 - z)
  | TANH => 1 - z * z
  | TANH_SCALED => 0.66666667 / 1.7159 * (1.7159 + z) * (1.7159 - z)
  | RECTIFIER => (if Rltb 0 z then 1 else 0) * 1
  | LINEAR => 1
  end.

(** activationFunction, lines 8-30.  The loops walk over the storage of [a] and [z] in
    parallel.  Simplification: if the sizes differ the result is UB, even where the
    storage of [z] happens to be large enough; [linear] assigns, so [z] gets the size of
    [a]. *)
Definition activationFunction (act : ActivationFunction) (a z : mat) : res mat :=
  match act with
  | LINEAR => Ok a
  | _ => if same_size a z then Ok (mmap (act_fun act) a) else UB
  end.

(** activationFunctionDerivative, lines 32-55 *)
Definition activationFunctionDerivative (act : ActivationFunction) (z gd : mat) : res mat :=
  match act with
  | LINEAR => Ok (mmap (fun _ => 1) gd)
  | _ => if same_size z gd then Ok (mmap (act_der act) z) else UB
  end.

(** [y.maxCoeff()]; Eigen asserts that the matrix is not empty *)
Definition maxCoeff (y : mat) : res R :=
  if (Nat.ltb 0 (rows y) && Nat.ltb 0 (cols y))%bool then
    Ok (fold_right Rmax (at_ y 0 0)
          (map (fun k => at_ y (k / cols y) (k mod cols y)) (seq 0 (rows y * cols y))))
  else Abort.

(** [y.row(n).sum()] *)
Definition rowsum (y : mat) (n : nat) : R := rsum (cols y) (fun j => at_ y n j).

(** [y.row(n) = f(y.row(n))] *)
Definition mrow_map (y : mat) (n : nat) (f : R -> R) : mat :=
  mkMat (rows y) (cols y) (fun i j => if (Nat.eqb i n && Nat.ltb j (cols y))%bool then f (at_ y i j) else at_ y i j).

(** softmax, lines 57-66 *)
Definition softmax (y : mat) : res mat :=
  max <- maxCoeff y ;;
  for_ (rows y) (fun n y =>
    let y := mrow_map y n (fun v => exp (v - max)) in
    Ok (mrow_map y n (fun v => v / rowsum y n))) y.
