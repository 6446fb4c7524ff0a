(** Principal components, whitening and singular value decompositions, independent of the code. *)
From Verif Require Import Base Matrix RSum.
Local Open Scope R_scope.

(** scalar product of two vectors of n numbers *)
Definition dot (n : nat) (u v : nat -> R) : R := rsum n (fun i => u i * v i).
Definition delta (i j : nat) : R := if Nat.eqb i j then 1 else 0.

(** mean of column [j]; the data of row [n], seen from the mean, in direction [u] *)
Definition meanOf (X : mat) (j : nat) : R := rsum (rows X) (fun n => at_ X n j) / INR (rows X).
Definition coordinate (X : mat) (u : nat -> R) (n : nat) : R := dot (cols X) (fun j => at_ X n j - meanOf X j) u.
(** variance of the data in direction [u] and covariance of the columns [j] and [k];
    [c] is the number the sum is divided by (number of rows or one less) *)
Definition varianceAlong (c : R) (X : mat) (u : nat -> R) : R := rsum (rows X) (fun n => (coordinate X u n) ^ 2) / c.
Definition covariance (c : R) (X : mat) (j k : nat) : R :=
  rsum (rows X) (fun n => (at_ X n j - meanOf X j) * (at_ X n k - meanOf X k)) / c.

(** the columns [v 0], [v 1], ... (component i of column k: [v i k]) are an orthonormal basis, and so are the rows *)
Definition orthogonal (n : nat) (v : nat -> nat -> R) : Prop :=
  (forall j k, (j < n)%nat -> (k < n)%nat -> rsum n (fun i => v i j * v i k) = delta j k) /\
  (forall j k, (j < n)%nat -> (k < n)%nat -> rsum n (fun i => v j i * v k i) = delta j k).

(** [S] and [V] come from a singular value decomposition of [A]: A = U diag(S) V^T with orthogonal U and V
    and non-negative, sorted S *)
Definition is_svd (A S V : mat) : Prop :=
  rows S = Nat.min (rows A) (cols A) /\ cols S = 1%nat /\ rows V = cols A /\ cols V = cols A /\
  (forall k, (k < rows S)%nat -> 0 <= at_ S k 0%nat) /\
  (forall k, (Datatypes.S k < rows S)%nat -> at_ S (Datatypes.S k) 0%nat <= at_ S k 0%nat) /\
  orthogonal (cols A) (at_ V) /\
  exists U, orthogonal (rows A) U /\
    forall n j, (n < rows A)%nat -> (j < cols A)%nat ->
      at_ A n j = rsum (rows S) (fun k => U n k * at_ S k 0%nat * at_ V j k).

(** the data with the mean subtracted *)
Definition centred (X : mat) : mat := mkMat (rows X) (cols X) (fun n j => at_ X n j - meanOf X j).
(** its covariance matrix *)
Definition covarianceMatrix (c : R) (X : mat) : mat := mkMat (cols X) (cols X) (covariance c X).

(** [svd] returns singular value decompositions (of matrices up to the values outside of the dimensions) *)
Definition decomposes (svd : mat -> mat * mat) (A : mat) : Prop :=
  forall B, meq A B -> is_svd A (fst (svd B)) (snd (svd B)).

(** Principal directions: an orthonormal basis such that the data vary at least as much in direction [v k]
    as in any other direction that is orthogonal to [v 0], ..., [v (k-1)] *)
Definition principalDirections (X : mat) (v : nat -> nat -> R) : Prop :=
  orthogonal (cols X) v /\
  forall k u, (k < cols X)%nat -> dot (cols X) u u = 1 ->
    (forall i, (i < k)%nat -> dot (cols X) u (fun j => v j i) = 0) ->
    varianceAlong (INR (rows X)) X u <= varianceAlong (INR (rows X)) X (fun j => v j k).

(** sum of the variances of all columns *)
Definition totalVariance (X : mat) : R := rsum (cols X) (fun j => covariance (INR (rows X)) X j j).
(** With whitening, the data have to vary in every direction. *)
Definition varies (X : mat) : Prop := forall u, dot (cols X) u u = 1 -> 0 < varianceAlong (INR (rows X)) X u.
