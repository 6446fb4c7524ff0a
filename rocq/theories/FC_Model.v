(** Model of /repo/src/FullyConnected.cpp. *)
From Verif Require Import Base BaseFacts Matrix RSum MatOps Activation_Model Layer_Model.
Local Open Scope R_scope.

(** class Regularization, /repo/OpenANN/Regularization.h *)
Record Regularization := mkReg { l1Penalty : R; l2Penalty : R; maxSquaredWeightNorm : R }.

(** *error += l1Penalty * W.array().abs().sum() and
    *error += l2Penalty * W.array().square().sum() / 2.0 (each if the penalty is
    positive) *)
Definition regError (r : Regularization) (W : mat) : R :=
  (if Rltb 0 (l1Penalty r) then l1Penalty r * msum (mmap Rabs W) else 0) +
  (if Rltb 0 (l2Penalty r) then l2Penalty r * msum (mmap (fun w => w * w) W) / 2 else 0).

(** Wd.array() += l1Penalty * W.array() / W.array().abs() and Wd += l2Penalty * W.
    A zero weight makes the first one NaN in C++ and leaves Wd unchanged here. *)
Definition regDeriv (r : Regularization) (W Wd : mat) : res mat :=
  Wd <- (if Rltb 0 (l1Penalty r)
         then mmap2 (fun d w => d + l1Penalty r * w / Rabs w) Wd W else Ok Wd) ;;
  if Rltb 0 (l2Penalty r) then mmap2 (fun d w => d + l2Penalty r * w) Wd W else Ok Wd.

(** class FullyConnected, FullyConnected.h; b and bd are J x 1 matrices *)
Record fc := mkFC {
  fI : nat; fJ : nat; fbias : bool; fact : ActivationFunction;
  fW : mat; fWd : mat; fb : mat; fbd : mat;
  fx : mat; fa : mat; fy : mat; fyd : mat; fdeltas : mat; fe : mat;
  freg : Regularization }.

(** addresses of coefficients *)
Inductive fcloc := LW (j i : nat) | LWd (j i : nat) | Lb (j : nat) | Lbd (j : nat).

Definition fc_load (s : fc) (l : fcloc) : res R :=
  match l with
  | LW j i => mget (fW s) j i | LWd j i => mget (fWd s) j i
  | Lb j => mget (fb s) j 0 | Lbd j => mget (fbd s) j 0
  end.

(** a record with new weights / new results of backpropagate *)
Definition fc_params (s : fc) (W b : mat) : fc :=
  mkFC (fI s) (fJ s) (fbias s) (fact s) W (fWd s) b (fbd s) (fx s) (fa s) (fy s) (fyd s)
    (fdeltas s) (fe s) (freg s).
Definition fc_derivs (s : fc) (Wd bd : mat) : fc :=
  mkFC (fI s) (fJ s) (fbias s) (fact s) (fW s) Wd (fb s) bd (fx s) (fa s) (fy s) (fyd s)
    (fdeltas s) (fe s) (freg s).

Definition fc_store (s : fc) (l : fcloc) (v : R) : res fc :=
  match l with
  | LW j i => W <- mset (fW s) j i v ;; Ok (fc_params s W (fb s))
  | Lb j => b <- mset (fb s) j 0 v ;; Ok (fc_params s (fW s) b)
  | LWd j i => Wd <- mset (fWd s) j i v ;; Ok (fc_derivs s Wd (fbd s))
  | Lbd j => bd <- mset (fbd s) j 0 v ;; Ok (fc_derivs s (fWd s) bd)
  end.

(** initialize, lines 16-40: the loops that push pointers *)
Definition fc_initialize (s : fc) : list fcloc * list fcloc :=
  (flat_map (fun j => map (LW j) (seq 0 (fI s)) ++ (if fbias s then [Lb j] else []))
     (seq 0 (fJ s)),
   flat_map (fun j => map (LWd j) (seq 0 (fI s)) ++ (if fbias s then [Lbd j] else []))
     (seq 0 (fJ s))).

(** updatedParameters, lines 50-61 *)
Definition fc_updatedParameters (s : fc) : res fc :=
  if Rltb 0 (maxSquaredWeightNorm (freg s)) then
    W <- for_ (fJ s) (fun j W =>
      let squaredNorm := rsum (cols W) (fun i => at_ W j i * at_ W j i) in
      if Nat.ltb j (rows W) then
        if Rltb (maxSquaredWeightNorm (freg s)) squaredNorm
        then Ok (mrow_map W j (fun w => w * sqrt (maxSquaredWeightNorm (freg s) / squaredNorm)))
        else Ok W
      else UB) (fW s) ;;
    Ok (fc_params s W (fb s))
  else Ok s.

Section FC.
(** indeterminate values of new coefficients after conservativeResize *)
Variable junk : nat -> nat -> R.

(** forwardPropagate, lines 63-81 *)
Definition fc_forward (s : fc) (x : mat) (dropout : bool) : res (fc * mat * R) :=
  let y := mconsresize junk (fy s) (rows x) (cols (fy s)) in
  a <- mmul x (mtrans (fW s)) ;;
  a <- (if fbias s then maddrow a (rows (fb s)) (fun j => at_ (fb s) j 0) else Ok a) ;;
  y <- activationFunction (fact s) a y ;;
  let error := regError (freg s) (fW s) in
  Ok (mkFC (fI s) (fJ s) (fbias s) (fact s) (fW s) (fWd s) (fb s) (fbd s) x a y (fyd s)
        (fdeltas s) (fe s) (freg s), y, error).

(** backpropagate, lines 83-104 *)
Definition fc_backward (s : fc) (ein : mat) (backpropToPrevious : bool) : res (fc * mat) :=
  let yd := mconsresize junk (fyd s) (rows (fa s)) (cols (fyd s)) in
  yd <- activationFunctionDerivative (fact s) (fy s) yd ;;
  deltas <- mmap2 Rmult yd ein ;;
  Wd <- mmul (mtrans deltas) (fx s) ;;
  let bd := if fbias s then mkMat (cols deltas) 1 (fun j _ => colsum deltas j) else fbd s in
  Wd <- regDeriv (freg s) (fW s) Wd ;;
  e <- (if backpropToPrevious then mmul deltas (fW s) else Ok (fe s)) ;;
  Ok (mkFC (fI s) (fJ s) (fbias s) (fact s) (fW s) Wd (fb s) bd (fx s) (fa s) (fy s) yd
        deltas e (freg s), e).

Definition fc_class : LayerClass :=
  mkClass fc fcloc fc_initialize fc_load fc_store fc_updatedParameters fc_forward fc_backward.

(** constructor, lines 7-14, and initializeParameters, lines 42-48; [junk] stands for indeterminate
    entries and for the random start values (the biases are independent of the weights) *)
Definition fc_new (I J : nat) (bias : bool) (act : ActivationFunction) (reg : Regularization) : fc :=
  mkFC I J bias act (mkMat J I junk) (mkMat J I junk) (mkMat J 1 (fun j _ => junk j I)) (mkMat J 1 junk)
    (mkMat 0 0 junk) (mkMat 1 J junk) (mkMat 1 J junk) (mkMat 1 J junk) (mkMat 1 J junk)
    (mkMat 1 I junk) reg.
End FC.

(** getParameters, lines 111-122 *)
Definition fc_getParameters (s : fc) : res (list R) :=
  w <- for_ (fJ s) (fun j p => for_ (fI s) (fun i p => v <- mget (fW s) j i ;; Ok (p ++ [v])) p) [] ;;
  if fbias s then for_ (fJ s) (fun j p => v <- mget (fb s) j 0 ;; Ok (p ++ [v])) w else Ok w.
