(** Model of /repo/src/LocalResponseNormalization.cpp. *)
From Verif Require Import Base BaseFacts Matrix RSum MatOps Layer_Model SimpleLayers_Model.
Local Open Scope R_scope.

(** class LocalResponseNormalization: the dimensions of the input, the settings k, n, alpha, beta and
    intermediate results.  [fmSize] is the product of rows and columns. *)
Record lrn := mkLrn {
  lfm : nat; lrows : nat; lcols : nat; lk : R; ln_ : nat; lalpha : R; lbeta : R;
  lx : mat; ldenoms : mat; ly : mat; letmp : mat; le : mat }.

Definition lfmSize (s : lrn) : nat := (lrows s * lcols s)%nat.

(** [std::pow(b, e)] for positive [b].  Simplification: the cases in which the base is not positive (the
    result can be infinite or not a number) count as undefined. *)
Definition pow_ (b e : R) : res R := if Rltb 0 b then Ok (Rpower b e) else UB.

(** the three loops over feature maps, rows and columns, lines 42-48 and 80-86, with the running output index *)
Definition cells {A} (fm rows cols : nat) (body : nat -> nat -> nat -> nat -> A -> res A) (a : A) : res A :=
  ' (a, _) <- for_ fm (fun fmOut st =>
      for_ rows (fun r st =>
        for_ cols (fun c st =>
          let '(a, outputIdx) := st in
          a <- body fmOut r c outputIdx a ;;
          Ok (a, S outputIdx)) st) st) (a, 0%nat) ;;
  Ok a.

(** lines 51-57 and 89-92: [n] is the loop variable that hides the member of the same name, the upper end of
    the window does not belong to it.  Subtraction of natural numbers is [std::max(0, fmOut - n / 2)]. *)
Definition window (fm fmOut n : nat) (body : nat -> R -> res R) : res R :=
  let fmInMin := (fmOut - n / 2)%nat in
  let fmInMax := Nat.min (fm - 1) (fmOut + n / 2) in
  for_from fmInMin (fmInMax - fmInMin) body 0.

Section LRN.
Variable junk : nat -> nat -> R.

(** constructor and initialize, lines 7-28 *)
Definition lrn_new (fm rows cols : nat) (k : R) (n : nat) (alpha beta : R) : res lrn :=
  let I := (fm * rows * cols)%nat in
  _ <- check (Nat.ltb 0 (rows * cols)) ;;
  Ok (mkLrn fm rows cols k n alpha beta (mkMat 0 0 junk) (mkMat 1 I junk) (mkMat 1 I junk) (mkMat 1 I junk) (mkMat 1 I junk)).

(** forwardPropagate, lines 30-64; the parallel loop is executed in order (see Parallel_Model.v) *)
Definition lrn_forward (s : lrn) (x : mat) (dropout : bool) : res (lrn * mat * R) :=
  let N := rows x in
  let y := mconsresize junk (ly s) N (cols (ly s)) in
  let denoms := mconsresize junk (ldenoms s) N (cols (ldenoms s)) in
  ' (denoms, y) <- for_ N (fun n st =>
      cells (lfm s) (lrows s) (lcols s) (fun fmOut r c outputIdx st =>
        let '(denoms, y) := st in
        denom <- window (lfm s) fmOut n (fun fmIn denom =>
                   a <- mget x n (fmIn * lfmSize s + r * lcols s + c) ;; Ok (denom + a * a)) ;;
        let denom := lk s + lalpha s * denom in
        denoms <- mset denoms n outputIdx denom ;;
        a <- mget x n outputIdx ;;
        p <- pow_ denom (- lbeta s) ;;
        y <- mset y n outputIdx (a * p) ;;
        Ok (denoms, y)) st) (denoms, y) ;;
  Ok (mkLrn (lfm s) (lrows s) (lcols s) (lk s) (ln_ s) (lalpha s) (lbeta s) x denoms y (letmp s) (le s), y, 0).

(** [m(i)] with one index: matrices are stored by columns *)
Definition mlinear (m : mat) (i : nat) : res R :=
  if Nat.eqb (rows m) 0 then UB else mget m (i mod rows m) (i / rows m).

(** backpropagate, lines 66-98 *)
Definition lrn_backward (s : lrn) (ein : mat) (bp : bool) : res (lrn * mat) :=
  let N := rows (ly s) in
  let e := mconsresize junk (le s) N (cols (le s)) in
  etmp <- mmap2 Rmult ein (ly s) ;;
  etmp <- mmap2 Rmult etmp (mmap Rinv (ldenoms s)) ;;
  let etmp := mmap (fun v => v * (-2 * lalpha s * lbeta s)) etmp in
  e <- for_ N (fun n e =>
      cells (lfm s) (lrows s) (lcols s) (fun fmOut r c outputIdx e =>
        nom <- window (lfm s) fmOut n (fun fmIn nom =>
                 v <- mlinear etmp (fmIn * lfmSize s + r * lcols s + c) ;; Ok (nom + v)) ;;
        a <- mget (lx s) n outputIdx ;;
        g <- mget ein n outputIdx ;;
        d <- mget (ldenoms s) n outputIdx ;;
        p <- pow_ d (- lbeta s) ;;
        mset e n outputIdx (a * nom + g * p)) e) e ;;
  Ok (mkLrn (lfm s) (lrows s) (lcols s) (lk s) (ln_ s) (lalpha s) (lbeta s) (lx s) (ldenoms s) (ly s) etmp e, e).

Definition lrn_class : LayerClass :=
  mkClass lrn Empty_set no_pointers no_load no_store no_update lrn_forward lrn_backward.
End LRN.
