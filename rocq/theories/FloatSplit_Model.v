(** Double precision: the ratio of a split and the fraction of a sample, /repo/src/DataSetView.cpp.  (DataSet_Model models the same functions
    with real numbers.)  Doubles as in Float_Model. *)
From Coq Require Import ZArith Reals List.
From Flocq Require Import Core BinarySingleNaN.
From Verif Require Import Base Activation_Model Float_Model DataSet_Model.

(** [int samples = std::ceil(x)]: std::ceil is exact; the conversion of a number that is not an int is undefined *)
Definition d_ceil (x : double) : res Z :=
  if is_finite x then
    let z := Base.Zceil (B2R x) in
    if (Z.leb (- 2 ^ 31) z && Z.ltb z (2 ^ 31))%bool then Ok z else UB
  else UB.
(** the comparison [x <= y]; false if an argument is NaN *)
Definition dleb : double -> double -> bool := Bleb.

Section Split.
Context {V : Type}.
(** DataSetView.cpp 90-110 *)
Definition d_splitRatio (h : heap V) (ds : nat) (ratio : double) (shuffling : bool)
           (shuf : list nat -> list nat) (groups : list (obj V)) : res (list (obj V)) :=
  _ <- check (dleb (dint 0) ratio && dleb ratio (dint 1))%bool ;;
  N <- samples h ds ;;
  indices <- fillIndices N [] ;;
  k <- d_ceil (dmult ratio (dint (Z.of_nat N))) ;;
  k <- zidx k ;;
  let indices := if shuffling then shuf indices else indices in
  v1 <- mkView ds indices 0 k ;;
  v2 <- mkView ds indices k (length indices) ;;
  Ok (groups ++ [v1] ++ [v2]).

(** DataSetView.cpp 125-139 *)
Definition d_sample (h : heap V) (ds : nat) (fraction : double) (replacement : bool)
           (idx : nat -> nat) (shuf : list nat -> list nat) : res (obj V) :=
  N <- samples h ds ;;
  k <- d_ceil (dmult (dint (Z.of_nat N)) fraction) ;;
  k <- zidx k ;;
  indices <- (if replacement
              then for_ k (fun n l => vset l n (idx n)) []
              else generateIndices N [] false shuf) ;;
  mkView ds indices 0 k.
End Split.
