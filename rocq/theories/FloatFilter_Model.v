(** Double precision: filter, /repo/src/Preprocessing.cpp 21-51.  (Preproc_Model models the same function with real numbers.)  Doubles as in
    Float_Model, matrices as in FloatPool_Model.  Simplified: the computation of one output y(c, t); the loops over c and t (lines 25-27) repeat it
    independently, because it reads x, b and a only and y is set to zero at first (line 23). *)
From Coq Require Import ZArith List.
From Flocq Require Import Core BinarySingleNaN.
From Verif Require Import Base Activation_Model Float_Model FloatPool_Model.

(** b(pq), a(pq): vectors as lists *)
Definition dvget (v : list double) (i : nat) : res double := match nth_error v i with Some x => Ok x | None => UB end.
(** [x(c, tSource)] or [x(c, -tSource)], lines 36-39 and 43-46; the double tSource only takes integer values *)
Definition d_source (x : dmat) (c t pq : nat) : res double := if Nat.leb pq t then dmget x c (t - pq) else dmget x c (pq - t).
(** lines 29-49 *)
Definition d_filterAt (x : dmat) (b a : list double) (c t : nat) : res double :=
  let maxPQ := Nat.max (length b) (length a) in
  y <- for_ maxPQ (fun pq y =>
    y <- (if Nat.ltb pq (length b) then bv <- dvget b pq ;; xv <- d_source x c t pq ;; Ok (dplus y (dmult bv xv)) else Ok y) ;;
    if (Nat.ltb 0 pq && Nat.ltb pq (length a))%bool then av <- dvget a pq ;; xv <- d_source x c t pq ;; Ok (dplus y (dmult av xv)) else Ok y) (dint 0) ;;
  a0 <- dvget a 0 ;;
  Ok (ddiv y a0).
