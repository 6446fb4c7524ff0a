(** Models of the layers Input, Dropout, Extreme and IntrinsicPlasticity, which register
    no parameters, and of Compressed. *)
From Verif Require Import Base BaseFacts Matrix RSum MatOps Activation_Model Layer_Model FC_Model.
Local Open Scope R_scope.

(** * Layers without parameters: nothing to read or write *)
Definition no_pointers {S : Type} (s : S) : list Empty_set * list Empty_set := ([], []).
Definition no_load {S : Type} (s : S) (l : Empty_set) : res R := match l with end.
Definition no_store {S : Type} (s : S) (l : Empty_set) (v : R) : res S := match l with end.
(** [virtual void updatedParameters() {}] *)
Definition no_update {S : Type} (s : S) : res S := Ok s.

(** * Input.cpp *)
(** class Input: the product J of the dimensions and the pointer x *)
Record inputLayer := mkInput { inJ : nat; inx : mat }.

(** forwardPropagate, lines 28-33 *)
Definition input_forward (s : inputLayer) (x : mat) (dropout : bool) : res (inputLayer * mat * R) :=
  Ok (mkInput (inJ s) x, x, 0).
(** backpropagate, lines 35-39, leaves [eout] unchanged; callers use it only with a local
    that they do not read afterwards.  Simplification: returns [ein]. *)
Definition input_backward (s : inputLayer) (ein : mat) (bp : bool) : res (inputLayer * mat) :=
  Ok (s, ein).
(** initialize, lines 12-21, and the other functions *)
Definition input_class : LayerClass :=
  mkClass inputLayer Empty_set no_pointers no_load no_store no_update input_forward input_backward.
(** constructor, lines 7-10 *)
Definition input_new (dim1 dim2 dim3 : nat) : inputLayer := mkInput (dim1 * dim2 * dim3) (mzero 0 0).

(** * Dropout.cpp *)
(** class Dropout.  [drnd k n i] is what [rng.generate<double>(0.0, 1.0)] returns for row n
    and column i in the k-th pass with dropout: any function from indices to numbers. *)
Record dropoutLayer := mkDropout {
  dI : nat; dprob : R; dmask : mat; dy : mat; de : mat;
  drnd : nat -> nat -> nat -> R; dpass : nat }.

(** forwardPropagate, lines 19-43 *)
Definition dropout_forward (junk : nat -> nat -> R) (s : dropoutLayer) (x : mat) (dropout : bool)
  : res (dropoutLayer * mat * R) :=
  let N := rows x in
  let mask := mconsresize junk (dmask s) N (cols (dmask s)) in
  let mask := mmap (fun _ => 1) mask in
  mask <- (if dropout then
             for_ N (fun n mask =>
               for_ (dI s) (fun i mask =>
                 if Rltb (drnd s (dpass s) n i) (dprob s) then mset mask n i 0 else Ok mask) mask) mask
           else if Rltb 0 (dprob s) then Ok (mmap (fun m => m * (1 - dprob s)) mask)
           else Ok mask) ;;
  y <- mmap2 Rmult mask x ;;
  Ok (mkDropout (dI s) (dprob s) mask y (de s) (drnd s) (if dropout then S (dpass s) else dpass s), y, 0).

(** backpropagate, lines 45-50 *)
Definition dropout_backward (s : dropoutLayer) (ein : mat) (bp : bool) : res (dropoutLayer * mat) :=
  e <- mmap2 Rmult (dmask s) ein ;;
  Ok (mkDropout (dI s) (dprob s) (dmask s) (dy s) e (drnd s) (dpass s), e).

Definition dropout_class (junk : nat -> nat -> R) : LayerClass :=
  mkClass dropoutLayer Empty_set no_pointers no_load no_store no_update
    (dropout_forward junk) dropout_backward.
(** constructor, lines 7-11 *)
Definition dropout_new (junk : nat -> nat -> R) (I : nat) (prob : R) (rnd : nat -> nat -> nat -> R)
  : dropoutLayer :=
  mkDropout I prob (mkMat 1 I junk) (mkMat 1 I junk) (mkMat 1 I junk) rnd 0.

(** * Extreme.cpp *)
Record extreme := mkExtreme {
  xI : nat; xJ : nat; xbias : bool; xact : ActivationFunction;
  xW : mat; xx : mat; xa : mat; xy : mat; xyd : mat; xdeltas : mat; xe : mat }.

(** forwardPropagate, lines 30-42 *)
Definition extreme_forward (junk : nat -> nat -> R) (s : extreme) (x : mat) (dropout : bool)
  : res (extreme * mat * R) :=
  Wl <- mleftCols (xW s) (xI s) ;;
  a <- mmul x (mtrans Wl) ;;
  a <- (if xbias s then w <- mcol (xW s) (xI s) ;; maddrow a (rows w) (fun j => at_ w j 0) else Ok a) ;;
  let y := mconsresize junk (xy s) (rows a) (cols (xy s)) in
  y <- activationFunction (xact s) a y ;;
  Ok (mkExtreme (xI s) (xJ s) (xbias s) (xact s) (xW s) x a y (xyd s) (xdeltas s) (xe s), y, 0).

(** backpropagate, lines 44-55 *)
Definition extreme_backward (junk : nat -> nat -> R) (s : extreme) (ein : mat) (bp : bool)
  : res (extreme * mat) :=
  let yd := mconsresize junk (xyd s) (rows (xa s)) (cols (xyd s)) in
  yd <- activationFunctionDerivative (xact s) (xy s) yd ;;
  deltas <- mmap2 Rmult yd ein ;;
  e <- (if bp then Wl <- mleftCols (xW s) (xI s) ;; mmul deltas Wl else Ok (xe s)) ;;
  Ok (mkExtreme (xI s) (xJ s) (xbias s) (xact s) (xW s) (xx s) (xa s) (xy s) yd deltas e, e).

Definition extreme_class (junk : nat -> nat -> R) : LayerClass :=
  mkClass extreme Empty_set no_pointers no_load no_store no_update
    (extreme_forward junk) (extreme_backward junk).
(** constructor and initialize, lines 7-28: [w] are the random weights *)
Definition extreme_new (junk : nat -> nat -> R) (I J : nat) (bias : bool) (act : ActivationFunction)
    (w : nat -> nat -> R) : extreme :=
  mkExtreme I J bias act (mkMat J (I + if bias then 1 else 0) w) (mkMat 0 0 junk)
    (mkMat 1 J junk) (mkMat 1 J junk) (mkMat 1 J junk) (mkMat 1 J junk) (mkMat 1 I junk).

(** * IntrinsicPlasticity.cpp as a layer (its use as a Learner is in IP_Model.v) *)
Record ipLayer := mkIP {
  ipnodes : nat; ips : mat; ipb : mat; ipY : mat; ipYd : mat; ipe : mat }.

(** operator()(A), lines 116-123: returns the new Y.  The vectors s and b are nodes x 1. *)
Definition ip_apply (junk : nat -> nat -> R) (s : ipLayer) (A : mat) : res mat :=
  let Y := mconsresize junk (ipY s) (rows A) (cols A) in
  Y <- for_ (rows A) (fun n Y =>
         if (Nat.eqb (cols A) (rows (ips s)) && Nat.eqb (cols A) (rows (ipb s)))%bool
         then Ok (mkMat (rows Y) (cols Y) (fun i j =>
                if Nat.eqb i n then at_ A n j * at_ (ips s) j 0 + at_ (ipb s) j 0 else at_ Y i j))
         else Abort) Y ;;
  activationFunction LOGISTIC Y Y.

(** forwardPropagate, lines 133-139 *)
Definition ip_forward (junk : nat -> nat -> R) (s : ipLayer) (x : mat) (dropout : bool)
  : res (ipLayer * mat * R) :=
  Y <- ip_apply junk s x ;;
  Ok (mkIP (ipnodes s) (ips s) (ipb s) Y (ipYd s) (ipe s), Y, 0).

(** backpropagate, lines 141-156 *)
Definition ip_backward (junk : nat -> nat -> R) (s : ipLayer) (ein : mat) (bp : bool)
  : res (ipLayer * mat) :=
  let N := rows (ipY s) in
  let e := mconsresize junk (ipe s) N (ipnodes s) in
  let Yd := mconsresize junk (ipYd s) N (ipnodes s) in
  Yd <- activationFunctionDerivative LOGISTIC (ipY s) Yd ;;
  Yd <- for_ N (fun n Yd =>
          if Nat.eqb (cols Yd) (rows (ips s))
          then Ok (mkMat (rows Yd) (cols Yd) (fun i j =>
                 if Nat.eqb i n then at_ Yd n j * at_ (ips s) j 0 else at_ Yd i j))
          else Abort) Yd ;;
  e <- (if bp then mmap2 Rmult Yd ein else Ok e) ;;
  Ok (mkIP (ipnodes s) (ips s) (ipb s) (ipY s) Yd e, e).

(** initialize, lines 125-131: no pointers *)
Definition ip_class (junk : nat -> nat -> R) : LayerClass :=
  mkClass ipLayer Empty_set no_pointers no_load no_store no_update
    (ip_forward junk) (ip_backward junk).
(** constructor, lines 10-15, with the current values of s and b; Y, Yd and e are empty *)
Definition ip_new (junk : nat -> nat -> R) (nodes : nat) (s b : nat -> R) : ipLayer :=
  mkIP nodes (mkMat nodes 1 (fun i _ => s i)) (mkMat nodes 1 (fun i _ => b i))
    (mkMat 0 0 junk) (mkMat 0 0 junk) (mkMat 0 0 junk).

(** * Compressed.cpp *)
Record compressed := mkCompressed {
  kI : nat; kJ : nat; kM : nat; kbias : bool; kact : ActivationFunction;
  kW : mat; kWd : mat; kphi : mat; kalpha : mat; kalphad : mat;
  kx : mat; ka : mat; ky : mat; kyd : mat; kdeltas : mat; ke : mat;
  kreg : Regularization }.

Definition nbias (bias : bool) : nat := if bias then 1 else 0.

Inductive kloc := LA (j m : nat) | LAd (j m : nat).

Definition k_load (s : compressed) (l : kloc) : res R :=
  match l with LA j m => mget (kalpha s) j m | LAd j m => mget (kalphad s) j m end.
(** the same object with other W, alpha and alphad *)
Definition k_with (s : compressed) (W alpha alphad : mat) : compressed :=
  mkCompressed (kI s) (kJ s) (kM s) (kbias s) (kact s) W (kWd s) (kphi s) alpha alphad
    (kx s) (ka s) (ky s) (kyd s) (kdeltas s) (ke s) (kreg s).
Definition k_store (s : compressed) (l : kloc) (v : R) : res compressed :=
  match l with
  | LA j m => a <- mset (kalpha s) j m v ;; Ok (k_with s (kW s) a (kalphad s))
  | LAd j m => a <- mset (kalphad s) j m v ;; Ok (k_with s (kW s) (kalpha s) a)
  end.

(** initialize, lines 32-51 *)
Definition k_initialize (s : compressed) : list kloc * list kloc :=
  (flat_map (fun j => map (LA j) (seq 0 (kM s))) (seq 0 (kJ s)),
   flat_map (fun j => map (LAd j) (seq 0 (kM s))) (seq 0 (kJ s))).

(** updatedParameters, lines 60-63 *)
Definition k_updatedParameters (s : compressed) : res compressed :=
  p <- mblock (kphi s) (kM s) (kI s + nbias (kbias s)) ;;
  W <- mmul (kalpha s) p ;;
  Ok (k_with s W (kalpha s) (kalphad s)).

(** forwardPropagate, lines 65-83 *)
Definition k_forward (junk : nat -> nat -> R) (s : compressed) (x : mat) (dropout : bool)
  : res (compressed * mat * R) :=
  let y := mconsresize junk (ky s) (rows x) (cols (ky s)) in
  Wl <- mleftCols (kW s) (kI s) ;;
  a <- mmul x (mtrans Wl) ;;
  a <- (if kbias s then w <- mcol (kW s) (kI s) ;; maddrow a (rows w) (fun j => at_ w j 0) else Ok a) ;;
  y <- activationFunction (kact s) a y ;;
  let error := regError (kreg s) (kalpha s) in
  Ok (mkCompressed (kI s) (kJ s) (kM s) (kbias s) (kact s) (kW s) (kWd s) (kphi s) (kalpha s)
        (kalphad s) x a y (kyd s) (kdeltas s) (ke s) (kreg s), y, error).

(** backpropagate, lines 85-109 *)
Definition k_backward (junk : nat -> nat -> R) (s : compressed) (ein : mat) (bp : bool)
  : res (compressed * mat) :=
  let yd := mconsresize junk (kyd s) (rows (ka s)) (cols (kyd s)) in
  yd <- activationFunctionDerivative (kact s) (ky s) yd ;;
  deltas <- mmap2 Rmult yd ein ;;
  dW <- mmul (mtrans deltas) (kx s) ;;
  Wd <- msetLeftCols (kWd s) (kI s) dW ;;
  Wdl <- mleftCols Wd (kI s) ;;
  p <- mblock (kphi s) (kM s) (kI s) ;;
  alphad <- mmul Wdl (mtrans p) ;;
  ' (Wd, alphad) <- (if kbias s then
      Wd <- msetCol Wd (kI s) (mcolsum deltas) ;;
      w <- mcol Wd (kI s) ;;
      p <- mcol (kphi s) (kI s) ;;
      d <- mmul w (mtrans p) ;;
      alphad <- mmap2 Rplus alphad d ;;
      Ok (Wd, alphad)
    else Ok (Wd, alphad)) ;;
  alphad <- regDeriv (kreg s) (kalpha s) alphad ;;
  e <- (if bp then Wl <- mleftCols (kW s) (kI s) ;; mmul deltas Wl else Ok (ke s)) ;;
  Ok (mkCompressed (kI s) (kJ s) (kM s) (kbias s) (kact s) (kW s) Wd (kphi s) (kalpha s) alphad
        (kx s) (ka s) (ky s) yd deltas e (kreg s), e).

Definition k_class (junk : nat -> nat -> R) : LayerClass :=
  mkClass compressed kloc k_initialize k_load k_store k_updatedParameters
    (k_forward junk) (k_backward junk).

(** constructor, lines 8-30, and the random start values of initializeParameters, lines 53-58:
    [phi] is the matrix from the CompressionMatrixFactory, [junk] the contents of the memory
    and the random draws for [alpha]; the weights are computed from [alpha] at once
    (updatedParameters, lines 60-63).  Simplified: the constructor and the part of
    [initialize] that fills the matrices are one function. *)
Definition k_new (junk : nat -> nat -> R) (I J M : nat) (bias : bool) (act : ActivationFunction)
    (phi : nat -> nat -> R) (reg : Regularization) : compressed :=
  mkCompressed I J M bias act
    (mkMat J (I + nbias bias) (fun j i => rsum M (fun m => junk j m * phi m i)))
    (mkMat J (I + nbias bias) junk) (mkMat M (I + 1) phi)
    (mkMat J M junk) (mkMat J M junk) (mkMat 0 0 junk) (mkMat 1 J junk) (mkMat 1 J junk)
    (mkMat 1 J junk) (mkMat 1 J junk) (mkMat 1 (I + nbias bias) junk) reg.

(** getParameters, lines 116-124 *)
Definition k_getParameters (s : compressed) : res (list R) :=
  for_ (kM s) (fun m p => for_ (kI s) (fun i p => v <- mget (kphi s) m i ;; Ok (p ++ [v])) p) [].
