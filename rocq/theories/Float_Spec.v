(** What the theorems about double precision (C98-C100) refer to. *)
From Coq Require Import Permutation Rtrigo_def.
From Flocq Require Import Core BinarySingleNaN.
From Verif Require Import Base Activation_Model Float_Model.
Local Open Scope R_scope.

(** neither infinite nor NaN; the real number *)
Definition finite (x : double) : Prop := is_finite x = true.
Definition val (x : double) : R := B2R x.
(** the largest double, (2 - 2 ^ -52) * 2 ^ 1023 *)
Definition maxDouble : R := 2 ^ 1024 - 2 ^ 971.

(** [y] is one of the doubles next to [r], which is [r] itself if [r] is a double: no double separates them. *)
Definition faithful (y : double) (r : R) : Prop :=
  finite y /\ forall d, finite d -> (r <= val d -> val y <= val d) /\ (val d <= r -> val d <= val y).
(** [y] is a double that is closest to [r]. *)
Definition nearest (y : double) (r : R) : Prop :=
  finite y /\ forall d, finite d -> Rabs (val y - r) <= Rabs (val d - r).

(** The activation functions as ActivationFunctions.h 8-68 documents them *)
Definition sigma (act : ActivationFunction) (x : R) : R :=
  match act with
  | LOGISTIC => 1 / (1 + exp (- x))
  | TANH => tanh x
  | TANH_SCALED => 1.7159 * tanh (0.66666667 * x)
  | RECTIFIER => Rmax 0 x
  | LINEAR => x
  end.

(** A mathematical library whose functions return a neighbour of the exact result *)
Record accurate (m : libm) : Prop := mkAccurate {
  exp_accurate : forall x, finite x -> exp (val x) <= maxDouble -> faithful (dexp m x) (exp (val x));
  exp_minus_infinity : finite (dexp m (B754_infinity true)) /\ val (dexp m (B754_infinity true)) = 0;
  tanh_accurate : forall x, finite x -> faithful (dtanh m x) (tanh (val x));
  tanh_infinity : forall s, finite (dtanh m (B754_infinity s)) /\ val (dtanh m (B754_infinity s)) = if s then -1 else 1;
  log_accurate : forall x, finite x -> 0 < val x -> faithful (dlog m x) (ln (val x));
  exp_nan : dexp m B754_nan = B754_nan;
  tanh_nan : dtanh m B754_nan = B754_nan }.
(** ... whose exponential function moreover returns the closest double *)
Definition nearestExp (m : libm) : Prop := forall x, finite x -> exp (val x) <= maxDouble -> nearest (dexp m x) (exp (val x)).

(** the exact sum *)
Definition total (l : list R) : R := fold_right Rplus 0 l.
(** [s] is the result of adding up all elements of [l] in some order *)
Inductive sumsTo : list double -> double -> Prop :=
| sums_one x : sumsTo [x] x
| sums_add l1 a l2 b l : sumsTo l1 a -> sumsTo l2 b -> Permutation l (l1 ++ l2) -> sumsTo l (dplus a b).
Definition summation (sum : list double -> double) : Prop := forall l, l <> [] -> sumsTo l (sum l).

(** [out] is the softmax of the instance [r] up to rounding: a probability distribution that is close to the exact one *)
Definition distribution (r out : list double) : Prop :=
  length out = length r /\
  (forall o, In o out -> finite o /\ 0 <= val o <= 1) /\
  Rabs (total (map val out) - 1) <= INR (length r) / 2 ^ 48 /\
  forall j y o, nth_error r j = Some y -> nth_error out j = Some o ->
    Rabs (val o - exp (val y) / total (map (fun z => exp (val z)) r)) <= INR (length r) / 2 ^ 36.
