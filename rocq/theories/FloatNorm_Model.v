(** Double precision: class Normalization, /repo/src/Normalization.cpp.  (Preproc_Model models the same class with real numbers.)  Doubles as in
    Float_Model, matrices as in FloatPool_Model. *)
From Coq Require Import ZArith List.
From Flocq Require Import Core BinarySingleNaN.
From Verif Require Import Base Activation_Model Float_Model FloatPool_Model.

Definition dsqrt : double -> double := Bsqrt mode_NE.
Definition deqb : double -> double -> bool := Beqb.

(** the members mean and std, Normalization.h 15-18; before fit both are empty (Normalization.cpp 7-9) *)
Record dnorm := mkDnorm { dmean : list double; dstd : list double }.
Definition d_norm_new : dnorm := mkDnorm [] [].

Definition column (X : dmat) (d : nat) : list double := map (fun n => dat X n d) (seq 0 (drows X)).
(** Eigen's [x /= n]: older versions multiply by the reciprocal, newer ones divide *)
Definition d_over (reciprocal : bool) (x : double) (n : nat) : double :=
  if reciprocal then dmult x (ddiv (dint 1) (dint (Z.of_nat n))) else ddiv x (dint (Z.of_nat n)).

(** fit for one feature, lines 13-33: the loops over n and d change each std(0, d) independently, in the order of the rows.
    [sum] is the order in which Eigen adds the numbers of a column; Eigen's sum of no numbers is 0. *)
Definition d_featureMean (sum : list double -> double) (x : list double) : double :=
  ddiv (match x with [] => dint 0 | _ => sum x end) (dint (Z.of_nat (length x))).
Definition d_featureStd (reciprocal : bool) (mean : double) (x : list double) : double :=
  let squares := fold_left (fun s v => let tmp := dminus v mean in dplus s (dmult tmp tmp)) x (dint 0) in
  let std := dsqrt (d_over reciprocal squares (length x)) in
  if deqb std (dint 0) then dint 1 else std.
(** fit, lines 11-35 *)
Definition d_norm_fit (reciprocal : bool) (sum : nat -> list double -> double) (X : dmat) : dnorm :=
  let mean := map (fun d => d_featureMean (sum d) (column X d)) (seq 0 (dcols X)) in
  mkDnorm mean (map (fun d => d_featureStd reciprocal (nth d mean B754_nan) (column X d)) (seq 0 (dcols X))).

(** transform, lines 37-46 *)
Definition d_norm_transform (s : dnorm) (X : dmat) : res dmat :=
  _ <- check (Nat.ltb 0 (length (dmean s))) ;;
  _ <- check (Nat.eqb (dcols X) (length (dmean s))) ;;
  Ok (mkDmat (drows X) (dcols X) (fun n d => dmult (dminus (dat X n d) (nth d (dmean s) B754_nan)) (ddiv (dint 1) (nth d (dstd s) B754_nan)))).
