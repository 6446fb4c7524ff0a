(** Model of the default implementations of Optimizable, /repo/src/Optimizable.cpp. *)
From Verif Require Import Base BaseFacts Vec.
Local Open Scope R_scope.

Section Optimizable.
(** what the derived class provides; simplification: [error(n)] and [gradient(n)] do not
    change the object *)
Variable dimension : nat.
Variable examples : nat.
Variable error : nat -> R.
Variable gradient : nat -> list R.

(** errorGradient(n, value, grad), lines 7-11 *)
Definition errorGradient1 (n : nat) : R * list R := (error n, gradient n).

(** errorGradient(value, grad), lines 13-26; [grad0] is the argument before the call *)
Definition errorGradientAll (grad0 : list R) : res (R * list R) :=
  for_ examples (fun n st =>
    let '(value, grad) := st in
    let '(tempValue, tempGrad) := errorGradient1 n in
    grad <- vadd grad tempGrad ;;
    Ok (value + tempValue, grad)) (0, map (fun _ => 0) grad0).

(** error(startN, endN), lines 27-35; the iterators are replaced by the list of indices
    between them *)
Definition errors (batch : list nat) : res (list R) :=
  ' (errs, _) <- for_each batch (fun it st =>
      let '(errs, n) := st in
      errs <- vset errs n (error it) ;; Ok (errs, S n)) (repeat 0 (length batch), 0%nat) ;;
  Ok errs.

(** gradient(startN, endN), lines 36-44 *)
Definition gradientSum (batch : list nat) : res (list R) :=
  for_each batch (fun it g => vadd g (gradient it)) (repeat 0 dimension).

(** errorGradient(startN, endN, value, grad), lines 46-58; OPENANN_CHECK_WITHIN is
    inclusive *)
Definition errorGradientBatch (batch : list nat) (grad0 : list R) : res (R * list R) :=
  for_each batch (fun it st =>
    let '(value, grad) := st in
    _ <- check (Nat.leb it examples) ;;
    grad <- vadd grad (gradient it) ;;
    Ok (value + error it, grad)) (0, map (fun _ => 0) grad0).
End Optimizable.
