(** Model of /repo/src/SparseAutoEncoder.cpp. *)
From Verif Require Import Base BaseFacts Matrix RSum MatOps Vec Activation_Model Layer_Model IO_Model.
Local Open Scope R_scope.

(** [m.data()]: the storage of an Eigen matrix, column by column *)
Definition mdata (m : mat) : list R :=
  flat_map (fun j => map (fun i => at_ m i j) (seq 0 (rows m))) (seq 0 (cols m)).
(** a matrix of the size of [m] with the storage [l]; only used if [l] has the right length *)
Definition msetdata (m : mat) (l : list R) : mat :=
  mkMat (rows m) (cols m) (fun i j => l.[j * rows m + i]).

(** settings: the arguments of the constructor, lines 10-12 *)
Record saeCfg := mkCfg {
  cD : nat; cH : nat; cbeta : R; crho : R; clambda : R; cact : ActivationFunction }.
(** members W1, W2, b1, b2 (SparseAutoEncoder.h 26-27), and also W1d, W2d, b1d, b2d; vectors
    are matrices with one column *)
Record saePar := mkPar { pW1 : mat; pW2 : mat; pb1 : mat; pb2 : mat }.
(** members for intermediate results, SparseAutoEncoder.h 28-31 *)
Record saeTmp := mkTmp {
  tA1 : mat; tZ1 : mat; tG1D : mat; tA2 : mat; tZ2 : mat; tG2D : mat;
  tdEdZ2 : mat; tdEdZ1 : mat; tmean : mat }.
(** class SparseAutoEncoder, SparseAutoEncoder.h 20-31 *)
Record sae := mkSAE {
  scfg : saeCfg; sX : mat; spar : saePar; sder : saePar; stmp : saeTmp;
  sparameters : list R; sgrad : list R }.

(** dimension, lines 47-50 *)
Definition sae_dimension (s : sae) : nat :=
  (2 * cD (scfg s) * cH (scfg s) + cD (scfg s) + cH (scfg s))%nat.

(** the arrays in the calls of pack and unpack, lines 43-44, 55-56, 118-119 *)
Definition arrays (p : saePar) : list (list R) :=
  [mdata (pW1 p); mdata (pW2 p); mdata (pb1 p); mdata (pb2 p)].

(** setParameters, lines 52-57.  The sizes are passed as 64 bit integers and read as int by
    pack and unpack; this is modelled as if it worked. *)
Definition sae_setParameters (s : sae) (p : list R) : res sae :=
  a <- unpack p (arrays (spar s)) ;;
  match a with
  | [w1; w2; b1; b2] =>
      let q := spar s in
      Ok (mkSAE (scfg s) (sX s)
            (mkPar (msetdata (pW1 q) w1) (msetdata (pW2 q) w2) (msetdata (pb1 q) b1) (msetdata (pb2 q) b2))
            (sder s) (stmp s) p (sgrad s))
  | _ => UB
  end.

(** currentParameters, lines 59-62 *)
Definition sae_currentParameters (s : sae) : list R := sparameters s.

(** initializeParameters, lines 191-205; [u k] is the k-th value of rand() / RAND_MAX.
    generate(-r, 2r) returns u * 2r - r. *)
Definition sae_initializeParameters (u : nat -> R) (s : sae) : res sae :=
  let D := cD (scfg s) in let H := cH (scfg s) in
  let r := sqrt 6 / sqrt (INR H + INR D + 1) in
  ' (W1, W2) <- for_ H (fun j w => for_ D (fun i w =>
      let '(W1, W2) := w in
      W1 <- mset W1 j i (u (2 * (j * D + i))%nat * (2 * r) + - r) ;;
      W2 <- mset W2 i j (u (2 * (j * D + i) + 1)%nat * (2 * r) + - r) ;;
      Ok (W1, W2)) w) (pW1 (spar s), pW2 (spar s)) ;;
  Ok (mkSAE (scfg s) (sX s) (mkPar W1 W2 (msetZero (pb1 (spar s))) (msetZero (pb2 (spar s))))
        (sder s) (stmp s) (sparameters s) (sgrad s)).

(** initialize without arguments, lines 40-45 *)
Definition sae_initialize (u : nat -> R) (s : sae) : res sae :=
  s <- sae_initializeParameters u s ;;
  p <- pack (sparameters s) (arrays (spar s)) ;;
  Ok (mkSAE (scfg s) (sX s) (spar s) (sder s) (stmp s) p (sgrad s)).

(** trainingSet, lines 122-128; the data set is given by its instances.  [X.row(n) = v]
    aborts if the lengths differ. *)
Definition sae_trainingSet (junk : nat -> nat -> R) (s : sae) (inputs : nat) (data : list (list R)) : res sae :=
  let X := mconsresize junk (sX s) (length data) inputs in
  X <- for_ (length data) (fun n X =>
    v <- vget data n ;;
    if Nat.eqb (length v) (cols X)
    then Ok (mkMat (rows X) (cols X) (fun i j => if Nat.eqb i n then v.[j] else at_ X i j))
    else Abort) X ;;
  Ok (mkSAE (scfg s) X (spar s) (sder s) (stmp s) (sparameters s) (sgrad s)).

Section SAE.
(** indeterminate contents of new coefficients *)
Variable junk : nat -> nat -> R.

(** constructor, lines 10-18 *)
Definition sae_new (D H : nat) (beta rho lambda : R) (act : ActivationFunction) (u : nat -> R) : res sae :=
  let M := mkMat 0 0 junk in
  let P := mkPar (mkMat H D junk) (mkMat D H junk) (mkMat H 1 junk) (mkMat D 1 junk) in
  let s := mkSAE (mkCfg D H beta rho lambda act) M P P (mkTmp M M M M M M M M M) [] [] in
  let z := map (junk 0%nat) (seq 0 (sae_dimension s)) in
  sae_initialize u (mkSAE (scfg s) (sX s) (spar s) (sder s) (stmp s) z z).

(** one layer of the auto-encoder: lines 28-31 and 68-71 *)
Definition propagate (act : ActivationFunction) (X W b Zold : mat) : res (mat * mat) :=
  A <- mmul X (mtrans W) ;;
  A <- maddrow A (rows b) (fun j => at_ b j 0) ;;
  Z <- activationFunction act A (mconsresize junk Zold (rows A) (cols A)) ;;
  Ok (A, Z).

(** operator() for a matrix, lines 26-33 *)
Definition sae_encode (s : sae) (X : mat) : res (sae * mat) :=
  let t := stmp s in
  ' (A1, Z1) <- propagate (cact (scfg s)) X (pW1 (spar s)) (pb1 (spar s)) (tZ1 t) ;;
  Ok (mkSAE (scfg s) (sX s) (spar s) (sder s)
        (mkTmp A1 Z1 (tG1D t) (tA2 t) (tZ2 t) (tG2D t) (tdEdZ2 t) (tdEdZ1 t) (tmean t))
        (sparameters s) (sgrad s), Z1).

(** lines 68-71 and 220-223 *)
Definition sae_decode (s : sae) : res (sae * mat) :=
  let t := stmp s in
  ' (A2, Z2) <- propagate (cact (scfg s)) (tZ1 t) (pW2 (spar s)) (pb2 (spar s)) (tZ2 t) ;;
  Ok (mkSAE (scfg s) (sX s) (spar s) (sder s)
        (mkTmp (tA1 t) (tZ1 t) (tG1D t) A2 Z2 (tG2D t) (tdEdZ2 t) (tdEdZ1 t) (tmean t))
        (sparameters s) (sgrad s), Z2).

(** [x.transpose()] and [m.transpose()] for a matrix with one row *)
Definition rowOf (x : list R) : mat := mkMat 1 (length x) (fun _ i => x.[i]).
Definition vecOf (m : mat) : res (list R) :=
  if Nat.eqb (rows m) 1 then Ok (map (at_ m 0%nat) (seq 0 (cols m))) else Abort.

(** operator() for a vector, lines 20-24 *)
Definition sae_apply (s : sae) (x : list R) : res (sae * list R) :=
  ' (s, Z) <- sae_encode s (rowOf x) ;; y <- vecOf Z ;; Ok (s, y).

(** reconstruct, lines 217-225 *)
Definition sae_reconstruct (s : sae) (x : list R) : res (sae * list R) :=
  ' (s, _) <- sae_apply s x ;;
  ' (s, Z) <- sae_decode s ;; y <- vecOf Z ;; Ok (s, y).

(** [inverse()] and [log()] of one coefficient.  [None] stands for an infinite value or NaN. *)
Definition finv (x : R) : option R := if Reqb x 0 then None else Some (/ x).
Definition flog (x : R) : option R := if Rltb 0 x then Some (ln x) else None.
(** one term of the sum in lines 80-81 *)
Definition klTerm (rho m : R) : option R :=
  match finv m, finv (1 - m) with
  | Some a, Some b =>
      match flog (rho * a), flog ((1 - rho) * b) with
      | Some u, Some v => Some (rho * u + (1 - rho) * v)
      | _, _ => None
      end
  | _, _ => None
  end.
(** sum of numbers; not finite if one of them is not.  (In C++ two infinite terms of
    opposite sign would give NaN, which is also [None].) *)
Definition osum (l : list (option R)) : option R :=
  fold_right (fun x s => match x, s with Some a, Some b => Some (a + b) | _, _ => None end) (Some 0) l.

(** error, lines 64-83.  The value is [None] if it is not a finite number: without
    samples (0/0) and if one of the terms of the sum is not finite (also for beta = 0). *)
Definition sae_error (s : sae) : res (sae * option R) :=
  let N := rows (sX s) in
  ' (s, _) <- sae_encode s (sX s) ;;
  ' (s, Z2) <- sae_decode s ;;
  let t := stmp s in
  let mean := mkMat (cols (tZ1 t)) 1 (fun j _ => colsum (tZ1 t) j / INR N) in
  dEdZ2 <- mmap2 Rminus Z2 (sX s) ;;
  let c := scfg s in
  let sq := mmap (fun v => v * v) in
  let err := msum (sq dEdZ2) / (2 * INR N) +
             clambda c / 2 * (msum (sq (pW1 (spar s))) + msum (sq (pW2 (spar s)))) in
  let kl := osum (map (fun j => klTerm (crho c) (at_ mean j 0%nat)) (seq 0 (rows mean))) in
  Ok (mkSAE (scfg s) (sX s) (spar s) (sder s)
        (mkTmp (tA1 t) (tZ1 t) (tG1D t) (tA2 t) (tZ2 t) (tG2D t) dEdZ2 (tdEdZ1 t) mean)
        (sparameters s) (sgrad s),
      if Nat.eqb N 0 then None
      else match kl with Some k => Some (err + cbeta c * k) | None => None end).

(** errorGradient, lines 97-120; [grad] is the vector that the caller passes.  Division by
    zero gives 0 here; C++ yields infinite values or NaN in these cases, in which the value
    of the error is not finite either. *)
Definition sae_errorGradient (s : sae) (grad : list R) : res (sae * option R * list R) :=
  let N := INR (rows (sX s)) in
  ' (s, value) <- sae_error s ;;
  let c := scfg s in let t := stmp s in let p := spar s in
  G2D <- activationFunctionDerivative (cact c) (tZ2 t)
           (mconsresize junk (tG2D t) (rows (tZ2 t)) (cols (tZ2 t))) ;;
  deltas2 <- mmap2 Rmult (tdEdZ2 t) G2D ;;
  W2d <- mmul (mtrans deltas2) (tZ1 t) ;;
  W2d <- mmap2 (fun a w => a / N + clambda c * w) W2d (pW2 p) ;;
  let b2d := mmap (fun v => v / N) (mcolsum deltas2) in
  dEdZ1 <- mmul deltas2 (pW2 p) ;;
  dEdZ1 <- maddrow dEdZ1 (rows (tmean t)) (fun j =>
             let m := at_ (tmean t) j 0 in
             cbeta c * (- crho c * / m + (1 - crho c) * / (1 - m))) ;;
  G1D <- activationFunctionDerivative (cact c) (tZ1 t)
           (mconsresize junk (tG1D t) (rows (tZ1 t)) (cols (tZ1 t))) ;;
  deltas1 <- mmap2 Rmult dEdZ1 G1D ;;
  W1d <- mmul (mtrans deltas1) (sX s) ;;
  W1d <- mmap2 (fun a w => a / N + clambda c * w) W1d (pW1 p) ;;
  let b1d := mmap (fun v => v / N) (mcolsum deltas1) in
  let d := mkPar W1d W2d b1d b2d in
  grad <- pack grad (arrays d) ;;
  Ok (mkSAE (scfg s) (sX s) p d
        (mkTmp (tA1 t) (tZ1 t) G1D (tA2 t) (tZ2 t) G2D (tdEdZ2 t) (tdEdZ1 t) (tmean t))
        (sparameters s) (sgrad s), value, grad).

(** gradient, lines 90-95 *)
Definition sae_gradient (s : sae) : res (sae * list R) :=
  ' (s, _, g) <- sae_errorGradient s (sgrad s) ;;
  Ok (mkSAE (scfg s) (sX s) (spar s) (sder s) (stmp s) (sparameters s) g, g).

(** ** Layer interface *)
Inductive saeloc := SW (h d : nat) | SWd (h d : nat) | Sb (h : nat) | Sbd (h : nat).

Definition sae_load (s : sae) (l : saeloc) : res R :=
  match l with
  | SW h d => mget (pW1 (spar s)) h d | SWd h d => mget (pW1 (sder s)) h d
  | Sb h => mget (pb1 (spar s)) h 0 | Sbd h => mget (pb1 (sder s)) h 0
  end.

Definition sae_withPar (s : sae) (W b : mat) : sae :=
  mkSAE (scfg s) (sX s) (mkPar W (pW2 (spar s)) b (pb2 (spar s))) (sder s) (stmp s) (sparameters s) (sgrad s).
Definition sae_withDer (s : sae) (W b : mat) : sae :=
  mkSAE (scfg s) (sX s) (spar s) (mkPar W (pW2 (sder s)) b (pb2 (sder s))) (stmp s) (sparameters s) (sgrad s).

(** assignments through the pointers *)
Definition sae_store (s : sae) (l : saeloc) (v : R) : res sae :=
  match l with
  | SW h d => W <- mset (pW1 (spar s)) h d v ;; Ok (sae_withPar s W (pb1 (spar s)))
  | Sb h => b <- mset (pb1 (spar s)) h 0 v ;; Ok (sae_withPar s (pW1 (spar s)) b)
  | SWd h d => W <- mset (pW1 (sder s)) h d v ;; Ok (sae_withDer s W (pb1 (sder s)))
  | Sbd h => b <- mset (pb1 (sder s)) h 0 v ;; Ok (sae_withDer s (pW1 (sder s)) b)
  end.

(** initialize with two arguments, lines 171-189: the loops that push pointers *)
Definition sae_initializeLayer (s : sae) : list saeloc * list saeloc :=
  let D := cD (scfg s) in let H := cH (scfg s) in
  (flat_map (fun h => map (SW h) (seq 0 D)) (seq 0 H) ++ map Sb (seq 0 H),
   flat_map (fun h => map (SWd h) (seq 0 D)) (seq 0 H) ++ map Sbd (seq 0 H)).

(** forwardPropagate, lines 130-139 *)
Definition sae_forward (s : sae) (x : mat) (dropout : bool) : res (sae * mat * R) :=
  let s := mkSAE (scfg s) x (spar s) (sder s) (stmp s) (sparameters s) (sgrad s) in
  ' (s, Z1) <- sae_encode s x ;;
  let error := if Rltb 0 (clambda (scfg s))
               then clambda (scfg s) * msum (mmap (fun w => w * w) (pW1 (spar s))) / 2 else 0 in
  Ok (s, Z1, error).

(** backpropagate, lines 141-153 *)
Definition sae_backward (s : sae) (ein : mat) (backpropToPrevious : bool) : res (sae * mat) :=
  let c := scfg s in let t := stmp s in let p := spar s in
  G1D <- activationFunctionDerivative (cact c) (tZ1 t)
           (mconsresize junk (tG1D t) (rows (tZ1 t)) (cols (tZ1 t))) ;;
  deltas1 <- mmap2 Rmult ein G1D ;;
  W1d <- mmul (mtrans deltas1) (sX s) ;;
  W1d <- mmap2 (fun a w => a + clambda c * w) W1d (pW1 p) ;;
  let b1d := mcolsum deltas1 in
  dEdZ1 <- (if backpropToPrevious then mmul deltas1 (pW1 p) else Ok (tdEdZ1 t)) ;;
  Ok (mkSAE (scfg s) (sX s) p (mkPar W1d (pW2 (sder s)) b1d (pb2 (sder s)))
        (mkTmp (tA1 t) (tZ1 t) G1D (tA2 t) (tZ2 t) (tG2D t) (tdEdZ2 t) dEdZ1 (tmean t))
        (sparameters s) (sgrad s), dEdZ1).

(** updatedParameters does nothing, SparseAutoEncoder.h 73 *)
Definition sae_class : LayerClass :=
  mkClass sae saeloc sae_initializeLayer sae_load sae_store (fun s => Ok s) sae_forward sae_backward.
End SAE.

(** getParameters, lines 160-169: after the loops the function ends without a return
    statement, which is undefined behaviour. *)
Definition sae_getParameters (s : sae) : res (list R) := UB.
