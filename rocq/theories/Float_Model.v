(** Double precision: the functions of /repo/src/ActivationFunctions.cpp and /repo/OpenANN/ErrorFunctions.h on IEEE 754 numbers.
    Simplifications: there is only one NaN; operations are those of IEEE 754 with rounding to nearest, ties to even (no extended precision,
    no fused operations).  The loops over the coefficients are those of Activation_Model; here are their bodies. *)
From Coq Require Import ZArith Reals List.
From Flocq Require Import Core BinarySingleNaN.
From Verif Require Import Base Activation_Model.

Definition double : Type := binary_float 53 1024.
#[global] Instance prec53 : Prec_gt_0 53 := eq_refl.
#[global] Instance emax1024 : Prec_lt_emax 53 1024 := eq_refl.

Definition dplus : double -> double -> double := Bplus mode_NE.
Definition dminus : double -> double -> double := Bminus mode_NE.
Definition dmult : double -> double -> double := Bmult mode_NE.
Definition ddiv : double -> double -> double := Bdiv mode_NE.
Definition dopp : double -> double := Bopp.
(** the comparison [x < y]; false if an argument is NaN *)
Definition dltb : double -> double -> bool := Bltb.
(** integers, and the decimal literal m * 10 ^ -k, correctly rounded (m and 10 ^ k are exact below 2 ^ 53) *)
Definition dint (m : Z) : double := binary_normalize 53 1024 _ _ mode_NE m 0 false.
Definition literal (m : Z) (k : positive) : double := ddiv (dint m) (dint (10 ^ Zpos k)).

(** std::exp, std::tanh and std::log, which IEEE 754 does not define; what is assumed about them is in Float_Spec *)
Record libm := mkLibm { dexp : double -> double; dtanh : double -> double; dlog : double -> double }.

Section Functions.
Variable m : libm.

(** logistic and its derivative, ActivationFunctions.cpp 68-81 and 83-89 *)
Definition d_logistic (a : double) : double :=
  if dltb a (dopp (dint 45)) then dint 0
  else if dltb (dint 45) a then dint 1
  else ddiv (dint 1) (dplus (dint 1) (dexp m (dopp a))).
Definition d_logisticDerivative (z : double) : double := dmult z (dminus (dint 1) z).
(** normaltanh, lines 91-97 and 99-105 *)
Definition d_normaltanh (a : double) : double := dtanh m a.
Definition d_normaltanhDerivative (z : double) : double := dminus (dint 1) (dmult z z).
(** scaledtanh, lines 107-113 and 115-121 *)
Definition d_scaledtanh (a : double) : double := dmult (literal 17159 4) (dtanh m (dmult (literal 66666667 8) a)).
Definition d_scaledtanhDerivative (z : double) : double :=
  dmult (dmult (ddiv (literal 66666667 8) (literal 17159 4)) (dplus (literal 17159 4) z)) (dminus (literal 17159 4) z).
(** rectifier, lines 123-129 and 131-137; std::max(a, b) is (a < b) ? b : a *)
Definition d_rectifier (a : double) : double := if dltb (dint 0) a then a else dint 0.
Definition d_rectifierDerivative (z : double) : double := dmult (if dltb (dint 0) z then dint 1 else dint 0) (dint 1).

(** activationFunction and activationFunctionDerivative, lines 8-56 *)
Definition d_act (act : ActivationFunction) (a : double) : double :=
  match act with
  | LOGISTIC => d_logistic a | TANH => d_normaltanh a | TANH_SCALED => d_scaledtanh a
  | RECTIFIER => d_rectifier a | LINEAR => a
  end.
Definition d_actDerivative (act : ActivationFunction) (z : double) : double :=
  match act with
  | LOGISTIC => d_logisticDerivative z | TANH => d_normaltanhDerivative z | TANH_SCALED => d_scaledtanhDerivative z
  | RECTIFIER => d_rectifierDerivative z | LINEAR => dint 1
  end.

(** Matrices are lists of rows.  [sum] is Eigen's sum(), which adds the coefficients in an order that Eigen does not document (Float_Spec).
    maxCoeff(): the order does not matter without NaN. *)
Variable sum : list double -> double.
Definition d_max (x : double) (l : list double) : double := fold_left (fun a b => if dltb a b then b else a) l x.
(** softmax, lines 57-66; maxCoeff of an empty matrix is an assertion.  A row of a column-major matrix is not contiguous, so that Eigen
    calls std::exp for every coefficient; /= is a division (Eigen before 3.3 multiplied by the reciprocal, which is not modelled). *)
Definition d_softmax (Y : list (list double)) : res (list (list double)) :=
  match concat Y with
  | [] => Abort
  | x :: l =>
      let max := d_max x l in
      Ok (map (fun r => let e := map (fun y => dexp m (dminus y max)) r in map (fun v => ddiv v (sum e)) e) Y)
  end.

(** crossEntropy, ErrorFunctions.h 17-22; Eigen asserts that the sizes are equal *)
Definition d_crossEntropy (Y T : list (list double)) : double :=
  ddiv (dopp (sum (map (fun p => dmult (snd p) (dlog m (dplus (fst p) (literal 1 10)))) (combine (concat Y) (concat T)))))
    (dint (Z.of_nat (length Y))).
End Functions.
