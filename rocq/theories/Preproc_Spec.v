(** What the preprocessing functions should do. *)
From Verif Require Import Base Matrix RSum.
Local Open Scope R_scope.

(** mean and variance of column [d] *)
Definition colMean (X : mat) (d : nat) : R := rsum (rows X) (fun n => at_ X n d) / INR (rows X).
Definition colVariance (X : mat) (d : nat) : R :=
  rsum (rows X) (fun n => (at_ X n d - colMean X d) ^ 2) / INR (rows X).
Definition constantCol (X : mat) (d : nat) : Prop :=
  exists v, forall n, (n < rows X)%nat -> at_ X n d = v.

(** A digital filter with feedforward coefficients b_0 ... b_{P-1} and feedback coefficients a_0 ... a_{Q-1}:
    a_0 y_t = sum_k b_k x_{t-k} - sum_{k>0} a_k y_{t-k} for all t for which x_{t-k} and y_{t-k} exist *)
Definition isFiltered (b a : nat -> R) (P Q : nat) (x y : nat -> R) (T : nat) : Prop :=
  forall t, (t < T)%nat -> (P <= S t)%nat -> (Q <= S t)%nat ->
    a 0%nat * y t = rsum P (fun k => b k * x (t - k)%nat) - rsum (Q - 1) (fun k => a (S k) * y (t - S k)%nat).

(** An image with several channels is stored in a row: channel by channel, row by row. *)
Definition px (v : nat -> R) (nrows ncols ch r c : nat) : R := v (ch * (nrows * ncols) + r * ncols + c)%nat.

(** [p] is a patch of size pr x pc of the image [v] *)
Definition isPatch (v : nat -> R) (channels nrows ncols : nat) (p : nat -> R) (pr pc : nat) : Prop :=
  exists r0 c0, (r0 + pr <= nrows)%nat /\ (c0 + pc <= ncols)%nat /\
    forall ch r c, (ch < channels)%nat -> (r < pr)%nat -> (c < pc)%nat ->
      px p pr pc ch r c = px v nrows ncols ch (r0 + r) (c0 + c).
