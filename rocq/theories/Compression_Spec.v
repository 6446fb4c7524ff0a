(** The entries that compression matrices should have. *)
From Verif Require Import Base Matrix RSum Compression_Model.
Local Open Scope R_scope.

(** product of row [m] with a vector *)
Definition rowTimes (cm : mat) (m : nat) (x : nat -> R) : R := rsum (cols cm) (fun i => at_ cm m i * x i).
(** mean of [len] consecutive components of a vector *)
Definition blockMean (x : nat -> R) (start len : nat) : R := rsum len (fun k => x (start + k)%nat) / INR len.
