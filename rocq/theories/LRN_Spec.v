(** Local response normalization: specification. *)
From Verif Require Import Base Matrix RSum MatOps.
Local Open Scope R_scope.

(** Instances have [fm] feature maps with [fs] positions each; position p of feature map i is column
    i * fs + p.  [lo <= j < hi] are the feature maps that take part in the normalization. *)
Definition energy (fm fs : nat) (X : mat) (lo hi b p : nat) : R :=
  rsum fm (fun j => if (Nat.leb lo j && Nat.ltb j hi)%bool then at_ X b (j * fs + p)%nat * at_ X b (j * fs + p)%nat else 0).

(** the value is divided by (k + alpha * energy)^beta *)
Definition normalized (k alpha beta E x : R) : R := x * Rpower (k + alpha * E) (- beta).

(** what the documentation says: from max(0, i - n/2) to min(fm - 1, i + n/2), inclusive *)
Definition documented (fm fs : nat) (k : R) (n : nat) (alpha beta : R) (X : mat) (b i p : nat) : R :=
  normalized k alpha beta (energy fm fs X (i - n / 2) (Nat.min (fm - 1) (i + n / 2) + 1) b p) (at_ X b (i * fs + p)%nat).

(** what is computed: the number n is replaced by the number b of the row of the batch, and the upper end is
    excluded *)
Definition computed (fm fs : nat) (k alpha beta : R) (X : mat) (b i p : nat) : R :=
  normalized k alpha beta (energy fm fs X (i - b / 2) (Nat.min (fm - 1) (i + b / 2)) b p) (at_ X b (i * fs + p)%nat).
