(** Images as rows of a matrix. *)
From Verif Require Import Base Matrix RSum.
Local Open Scope R_scope.

(** pixel (r, c) of map [i] of instance [n] for maps of [R] rows and [C] columns; an instance
    lists its maps one after the other, each of them row by row *)
Definition pixel (R C : nat) (X : mat) (n i r c : nat) : Rdefinitions.R := at_ X n (i * (R * C) + (r * C + c))%nat.
