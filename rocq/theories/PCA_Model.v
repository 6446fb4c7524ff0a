(** Model of /repo/src/PCA.cpp, /repo/src/ZCAWhitening.cpp (/repo/OpenANN/PCA.h, /repo/OpenANN/ZCAWhitening.h).
    Eigen::JacobiSVD is a parameter [svd]: for a matrix it returns the singular values (one column) and
    the matrix V.  The theorems assume of it what a singular value decomposition is (PCA_Spec.v). *)
From Verif Require Import Base BaseFacts Matrix RSum MatOps.
Local Open Scope R_scope.

(** Division; results that are infinite or not a number count as undefined. *)
Definition fdiv (x y : R) : res R := if Reqb y 0 then UB else Ok (x / y).

(** [X.colwise().mean()] as a vector: PCA.cpp 16, ZCAWhitening.cpp 13.  Not a number without rows. *)
Definition meanVector (X : mat) : res mat :=
  if Nat.eqb (rows X) 0 then UB else Ok (mkMat (cols X) 1 (fun d _ => colsum X d / INR (rows X))).

(** [a.rowwise() -= mean.transpose()]: PCA.cpp 17-18 and 39-40, ZCAWhitening.cpp 14-15 and 32-33 *)
Definition subtractMean (a mean : mat) : res mat := maddrow a (rows mean) (fun j => - at_ mean j 0%nat).

(** class PCA, PCA.h 14-21; before fit the vectors and the matrix are empty *)
Record pca := mkPca { components : nat; whiten : bool; pmean : mat; pW : mat; pevr : mat }.
(** PCA.cpp 8-11 *)
Definition pca_new (components : nat) (whiten : bool) : pca :=
  mkPca components whiten (mzero 0 1) (mzero 0 0) (mzero 0 1).

(** [W.col(d).array() /= S.array()], PCA.cpp 25; Eigen asserts equal sizes *)
Definition divideCol (W : mat) (d : nat) (S : mat) : res mat :=
  _ <- check (Nat.eqb (rows W) (rows S)) ;;
  for_ (rows W) (fun i W => x <- mget W i d ;; s <- mget S i 0 ;; v <- fdiv x s ;; mset W i d v) W.

(** fit, PCA.cpp 13-33; [junk]: new coefficients of conservativeResize *)
Definition pca_fit (svd : mat -> mat * mat) (junk : nat -> nat -> R) (p : pca) (X : mat) : res pca :=
  let N := rows X in
  mean <- meanVector X ;;
  aligned <- subtractMean X mean ;;
  let '(singularValues, V) := svd aligned in
  let S := mmap (fun s => s / sqrt (INR N)) singularValues in
  W <- (if whiten p then for_ (cols X) (fun d W => divideCol W d S) V else Ok V) ;;
  let evr := mmap (fun s => s * s) S in
  let total := rsum (rows evr) (fun i => at_ evr i 0%nat) in
  if Reqb total 0 then UB else
  let evr := mmap (fun v => v / total) evr in
  Ok (mkPca (components p) (whiten p) mean W (mconsresize junk evr (components p) 1)).

(** transform, PCA.cpp 35-42; Eigen asserts that topRows lies inside of W *)
Definition pca_transform (p : pca) (X : mat) : res mat :=
  _ <- check (Nat.ltb 0 (rows (pmean p))) ;;
  _ <- check (Nat.eqb (cols X) (rows (pmean p))) ;;
  Y <- subtractMean X (pmean p) ;;
  top <- mblock (pW p) (components p) (cols (pW p)) ;;
  mmul Y (mtrans top).

(** explainedVarianceRatio, PCA.cpp 44-47 *)
Definition explainedVarianceRatio (p : pca) : mat := pevr p.

(** class ZCAWhitening, ZCAWhitening.h 20-23 *)
Record zca := mkZca { zmean : mat; zW : mat }.
Definition zca_new : zca := mkZca (mzero 0 1) (mzero 0 0).

(** [W.row(d).array() /= (S.transpose().array() + 1e-5).sqrt()], ZCAWhitening.cpp 22; Eigen asserts equal sizes *)
Definition divideRow (W : mat) (d : nat) (S : mat) : res mat :=
  _ <- check (Nat.eqb (cols W) (rows S)) ;;
  for_ (cols W) (fun j W => x <- mget W d j ;; s <- mget S j 0 ;; v <- fdiv x (sqrt (s + / 100000)) ;; mset W d j v) W.

(** fit, ZCAWhitening.cpp 9-26.  With one row the covariance is not a number. *)
Definition zca_fit (svd : mat -> mat * mat) (z : zca) (X : mat) : res zca :=
  let N := rows X in
  mean <- meanVector X ;;
  aligned <- subtractMean X mean ;;
  product <- mmul (mtrans aligned) aligned ;;
  if Nat.eqb N 1 then UB else
  let cov := mmap (fun v => v / (INR N - 1)) product in
  let '(singularValues, V) := svd cov in
  W <- for_ (cols X) (fun d W => divideRow W d singularValues) V ;;
  W <- mmul W (mtrans V) ;;
  Ok (mkZca mean W).

(** transform, ZCAWhitening.cpp 28-35 *)
Definition zca_transform (z : zca) (X : mat) : res mat :=
  _ <- check (Nat.ltb 0 (rows (zmean z))) ;;
  _ <- check (Nat.eqb (cols X) (rows (zmean z))) ;;
  Y <- subtractMean X (zmean z) ;;
  mmul Y (mtrans (zW z)).
