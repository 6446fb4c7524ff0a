(** Model of /repo/src/RBM.cpp. *)
From Verif Require Import Base BaseFacts Matrix RSum MatOps Vec Activation_Model Layer_Model FC_Model IO_Model SAE_Model.
Local Open Scope R_scope.

(** arguments of the constructor, lines 11-12 *)
Record rbmCfg := mkRC { rD : nat; rH : nat; rcd : nat; rbackprop : bool; rreg : Regularization }.
(** W, bv, bh, also posGradW, posGradBv, posGradBh and negGradW, negGradBv, negGradBh (RBM.h 54-55);
    vectors are matrices with one column *)
Record rbmPar := mkRP { qW : mat; qbv : mat; qbh : mat }.
(** pv, v, ph, h, and the number of random numbers that have been drawn *)
Record rbmSmp := mkRS { mpv : mat; mv : mat; mph : mat; mh : mat; mk : nat }.
(** Wd, bhd, phd, deltas, e *)
Record rbmLay := mkRL { lWd : mat; lbhd : mat; lphd : mat; ldeltas : mat; le : mat }.
(** class RBM, RBM.h 49-62; [rdata] is the training set (number of inputs and instances), [None] stands
    for the null pointer *)
Record rbm := mkRBM {
  rcfg : rbmCfg; rpar : rbmPar; rpos : rbmPar; rneg : rbmPar; rsmp : rbmSmp; rlay : rbmLay;
  rparams : list R; rgrad : list R; rdata : option (nat * list (list R)) }.

Definition setPar (s : rbm) p l := mkRBM (rcfg s) p (rpos s) (rneg s) (rsmp s) (rlay s) l (rgrad s) (rdata s).
Definition setSmp (s : rbm) m := mkRBM (rcfg s) (rpar s) (rpos s) (rneg s) m (rlay s) (rparams s) (rgrad s) (rdata s).
Definition setPos (s : rbm) g := mkRBM (rcfg s) (rpar s) g (rneg s) (rsmp s) (rlay s) (rparams s) (rgrad s) (rdata s).
Definition setNeg (s : rbm) g := mkRBM (rcfg s) (rpar s) (rpos s) g (rsmp s) (rlay s) (rparams s) (rgrad s) (rdata s).
Definition setLay (s : rbm) l := mkRBM (rcfg s) (rpar s) (rpos s) (rneg s) (rsmp s) l (rparams s) (rgrad s) (rdata s).
Definition setGrad (s : rbm) g := mkRBM (rcfg s) (rpar s) (rpos s) (rneg s) (rsmp s) (rlay s) (rparams s) g (rdata s).
Definition setV (s : rbm) v := setSmp s (mkRS (mpv (rsmp s)) v (mph (rsmp s)) (mh (rsmp s)) (mk (rsmp s))).

(** dimension, lines 63-66, and the member K, line 17 *)
Definition rbm_dimension (s : rbm) : nat := (rD (rcfg s) * rH (rcfg s) + rD (rcfg s) + rH (rcfg s))%nat.

(** the arrays in lines 53-54 and 71-72 *)
Definition rarrays (p : rbmPar) : list (list R) := [mdata (qW p); mdata (qbv p); mdata (qbh p)].

(** setParameters, lines 68-73.  (Sizes are passed as 64 bit integers and read as int, which is modelled
    as if it worked.) *)
Definition rbm_setParameters (s : rbm) (l : list R) : res rbm :=
  a <- unpack l (rarrays (rpar s)) ;;
  match a with
  | [w; bv; bh] =>
      let q := rpar s in Ok (setPar s (mkRP (msetdata (qW q) w) (msetdata (qbv q) bv) (msetdata (qbh q) bh)) l)
  | _ => UB
  end.

(** currentParameters, lines 75-78 *)
Definition rbm_currentParameters (s : rbm) : list R := rparams s.

(** initialize without arguments, lines 48-56; [w] are the normally distributed numbers *)
Definition rbm_initialize (w : nat -> nat -> R) (s : rbm) : res rbm :=
  let p := rpar s in
  let p := mkRP (mkMat (rows (qW p)) (cols (qW p)) w) (msetZero (qbv p)) (msetZero (qbh p)) in
  l <- pack (rparams s) (rarrays p) ;;
  rbm_setParameters (setPar s p l) l.

(** Learner::trainingSet *)
Definition rbm_trainingSet (s : rbm) (inputs : nat) (data : list (list R)) : rbm :=
  mkRBM (rcfg s) (rpar s) (rpos s) (rneg s) (rsmp s) (rlay s) (rparams s) (rgrad s) (Some (inputs, data)).

(** trainSet->samples(), trainSet->inputs(), trainSet->getInstance(n) *)
Definition theData (s : rbm) : res (nat * list (list R)) :=
  match rdata s with Some d => Ok d | None => UB end.
Definition getInst (s : rbm) (n : nat) : res (list R) :=
  d <- theData s ;; vget (snd d) n.

Section RBM.
(** indeterminate contents of new coefficients; [u k] is the k-th random number from [0, 1] *)
Variable junk : nat -> nat -> R.
Variable u : nat -> R.

(** constructor, lines 11-22 *)
Definition rbm_new (D H cdN : nat) (backprop : bool) (reg : Regularization) (w : nat -> nat -> R) : res rbm :=
  let P := mkRP (mkMat H D junk) (mkMat D 1 junk) (mkMat H 1 junk) in
  let z := map (junk 0%nat) (seq 0 (D * H + D + H)) in
  rbm_initialize w
    (mkRBM (mkRC D H cdN backprop reg) P P P (mkRS (mkMat 1 D junk) (mkMat 1 D junk) (mkMat 1 H junk) (mkMat 1 H junk) 0)
       (mkRL (mkMat H D junk) (mkMat H 1 junk) (mkMat 1 H junk) (mkMat 1 H junk) (mkMat 1 D junk)) z z None).

(** the loops in lines 241-243 and 252-254 *)
Definition sampleLoop (N M : nat) (prob : mat) (st : mat * nat) : res (mat * nat) :=
  for_ N (fun n st => for_ M (fun j st =>
    let '(x, k) := st in
    p <- mget prob n j ;;
    x <- mset x n j (if Rltb (u k) p then 1 else 0) ;;
    Ok (x, S k)) st) st.

(** sampleHgivenV, lines 234-244 *)
Definition sampleHgivenV (c : rbmCfg) (p : rbmPar) (m : rbmSmp) : res rbmSmp :=
  let N := rows (mv m) in
  let h := mconsresize junk (mh m) N (cols (mh m)) in
  ph <- mmul (mv m) (mtrans (qW p)) ;;
  ph <- maddrow ph (rows (qbh p)) (fun j => at_ (qbh p) j 0) ;;
  ph <- activationFunction LOGISTIC ph ph ;;
  ' (h, k) <- sampleLoop N (rH c) ph (h, mk m) ;;
  Ok (mkRS (mpv m) (mv m) ph h k).

(** sampleVgivenH, lines 246-255 *)
Definition sampleVgivenH (c : rbmCfg) (p : rbmPar) (m : rbmSmp) : res rbmSmp :=
  let N := rows (mh m) in
  pv <- mmul (mh m) (qW p) ;;
  pv <- maddrow pv (rows (qbv p)) (fun i => at_ (qbv p) i 0) ;;
  pv <- activationFunction LOGISTIC pv pv ;;
  ' (v, k) <- sampleLoop N (rD c) pv (mv m, mk m) ;;
  Ok (mkRS pv v (mph m) (mh m) k).

Definition withSmp (s : rbm) (f : rbmCfg -> rbmPar -> rbmSmp -> res rbmSmp) : res rbm :=
  m <- f (rcfg s) (rpar s) (rsmp s) ;; Ok (setSmp s m).

(** reality, lines 257-264 *)
Definition reality (s : rbm) : res rbm :=
  s <- withSmp s sampleHgivenV ;;
  let m := rsmp s in
  W <- mmul (mtrans (mph m)) (mv m) ;;
  Ok (setPos s (mkRP W (mcolsum (mv m)) (mcolsum (mph m)))).

(** daydream, lines 266-277 *)
Definition daydream (s : rbm) : res rbm :=
  s <- for_ (rcd (rcfg s)) (fun _ s => s <- withSmp s sampleVgivenH ;; withSmp s sampleHgivenV) s ;;
  let m := rsmp s in
  W <- mmul (mtrans (mph m)) (mpv m) ;;
  Ok (setNeg s (mkRP W (mcolsum (mpv m)) (mcolsum (mph m)))).

(** [grad(idx++) = f] *)
Definition put (gi : list R * nat) (f : R) : res (list R * nat) :=
  let '(g, idx) := gi in g <- vset g idx f ;; Ok (g, S idx).
(** [grad(idx++) -= f] *)
Definition sub (gi : list R * nat) (f : R) : res (list R * nat) :=
  let '(g, idx) := gi in x <- vget g idx ;; g <- vset g idx (x - f) ;; Ok (g, S idx).

(** fillGradient, lines 279-303.  [w / abs(w)] of a zero weight is NaN in C++ and 0 here. *)
Definition fillGradient (s : rbm) : res rbm :=
  let D := rD (rcfg s) in let H := rH (rcfg s) in
  let pos := rpos s in let neg := rneg s in let W := qW (rpar s) in
  let l1 := l1Penalty (rreg (rcfg s)) in let l2 := l2Penalty (rreg (rcfg s)) in
  gi <- for_ D (fun i gi => for_ H (fun j gi =>
    a <- mget (qW pos) j i ;; b <- mget (qW neg) j i ;; put gi (- a + b)) gi) (rgrad s, 0%nat) ;;
  gi <- for_ D (fun i gi => a <- mget (qbv pos) i 0 ;; b <- mget (qbv neg) i 0 ;; put gi (- a + b)) gi ;;
  gi <- for_ H (fun j gi => a <- mget (qbh pos) j 0 ;; b <- mget (qbh neg) j 0 ;; put gi (- a + b)) gi ;;
  gi <- (if Rltb 0 l1
         then for_ D (fun i gi => for_ H (fun j gi => w <- mget W j i ;; sub gi (l1 * w / Rabs w)) gi) (fst gi, 0%nat)
         else Ok gi) ;;
  gi <- (if Rltb 0 l2
         then for_ D (fun i gi => for_ H (fun j gi => w <- mget W j i ;; sub gi (l2 * w)) gi) (fst gi, 0%nat)
         else Ok gi) ;;
  Ok (setGrad s (fst gi)).

(** operator() for a vector, lines 29-34, and for a matrix, lines 36-41 *)
Definition rbm_encode (s : rbm) (X : mat) : res (rbm * mat) :=
  s <- withSmp (setV s X) sampleHgivenV ;; Ok (s, mph (rsmp s)).
Definition rbm_apply (s : rbm) (x : list R) : res (rbm * list R) :=
  s <- withSmp (setV s (rowOf x)) sampleHgivenV ;; y <- vecOf (mph (rsmp s)) ;; Ok (s, y).

(** reconstructProb, lines 222-232 *)
Definition rbm_reconstructProb (s : rbm) (n steps : nat) : res (rbm * mat) :=
  x <- getInst s n ;;
  let s := setV s (rowOf x) in
  let m := rsmp s in
  let s := setSmp s (mkRS (mv m) (mv m) (mph m) (mh m) (mk m)) in
  s <- for_ steps (fun _ s => s <- withSmp s sampleHgivenV ;; withSmp s sampleVgivenH) s ;;
  Ok (s, mpv (rsmp s)).

(** error(n), lines 88-91 *)
Definition rbm_errorN (s : rbm) (n : nat) : res (rbm * R) :=
  ' (s, P) <- rbm_reconstructProb s n 1 ;;
  x <- getInst s n ;;
  d <- mmap2 Rminus P (rowOf x) ;;
  Ok (s, msum (mmap (fun a => a * a) d)).

(** error, lines 80-86 *)
Definition rbm_error (s : rbm) : res (rbm * R) :=
  d <- theData s ;;
  for_ (length (snd d)) (fun n se => let '(s, e) := se in ' (s, en) <- rbm_errorN s n ;; Ok (s, e + en)) (s, 0).

(** gradient(n), lines 107-114 *)
Definition rbm_gradientN (s : rbm) (n : nat) : res (rbm * list R) :=
  x <- getInst s n ;;
  s <- reality (setV s (rowOf x)) ;;
  s <- daydream s ;;
  s <- fillGradient s ;;
  Ok (s, rgrad s).

(** [a += b] for vectors; Eigen asserts equal sizes *)
Definition vaddto (a b : list R) : res (list R) :=
  if Nat.eqb (length a) (length b) then Ok (map (fun k => a.[k] + b.[k]) (seq 0 (length a))) else Abort.

(** gradient, lines 98-105 *)
Definition rbm_gradient (s : rbm) : res (rbm * list R) :=
  d <- theData s ;;
  for_ (length (snd d)) (fun n sg =>
    let '(s, g) := sg in ' (s, gn) <- rbm_gradientN s n ;; g <- vaddto g gn ;; Ok (s, g))
    (s, repeat 0 (rbm_dimension s)).

(** errorGradient, lines 116-133; [ns] is the range of the iterators *)
Definition rbm_errorGradient (s : rbm) (ns : list nat) : res (rbm * R * list R) :=
  d <- theData s ;;
  let v := mconsresize junk (mv (rsmp s)) (length ns) (fst d) in
  v <- for_ (length ns) (fun n v =>
    it <- vget ns n ;;
    x <- vget (snd d) it ;;
    if Nat.eqb (length x) (cols v)
    then Ok (mkMat (rows v) (cols v) (fun i j => if Nat.eqb i n then x.[j] else at_ v i j))
    else Abort) v ;;
  s <- reality (setV s v) ;;
  s <- daydream s ;;
  s <- fillGradient s ;;
  value <- for_ (length ns) (fun n value =>
    it <- vget ns n ;;
    x <- vget (snd d) it ;;
    let pv := mpv (rsmp s) in
    if (Nat.eqb (length x) (cols pv) && Nat.ltb n (rows pv))%bool
    then Ok (value + rsum (length x) (fun i => (x.[i] - at_ pv n i) * (x.[i] - at_ pv n i)))
    else Abort) 0 ;;
  Ok (s, value, rgrad s).

(** ** Layer interface *)
Inductive rloc := RW (h d : nat) | RWd (h d : nat) | Rb (h : nat) | Rbd (h : nat).

Definition rbm_load (s : rbm) (l : rloc) : res R :=
  match l with
  | RW h d => mget (qW (rpar s)) h d | RWd h d => mget (lWd (rlay s)) h d
  | Rb h => mget (qbh (rpar s)) h 0 | Rbd h => mget (lbhd (rlay s)) h 0
  end.

(** assignments through the pointers *)
Definition rbm_store (s : rbm) (l : rloc) (x : R) : res rbm :=
  let p := rpar s in let y := rlay s in
  match l with
  | RW h d => W <- mset (qW p) h d x ;; Ok (setPar s (mkRP W (qbv p) (qbh p)) (rparams s))
  | Rb h => b <- mset (qbh p) h 0 x ;; Ok (setPar s (mkRP (qW p) (qbv p) b) (rparams s))
  | RWd h d => W <- mset (lWd y) h d x ;; Ok (setLay s (mkRL W (lbhd y) (lphd y) (ldeltas y) (le y)))
  | Rbd h => b <- mset (lbhd y) h 0 x ;; Ok (setLay s (mkRL (lWd y) b (lphd y) (ldeltas y) (le y)))
  end.

(** initialize with two arguments, lines 135-158 *)
Definition rbm_initializeLayer (s : rbm) : list rloc * list rloc :=
  let D := rD (rcfg s) in let H := rH (rcfg s) in
  if rbackprop (rcfg s) then
    (flat_map (fun h => map (RW h) (seq 0 D)) (seq 0 H) ++ map Rb (seq 0 H),
     flat_map (fun h => map (RWd h) (seq 0 D)) (seq 0 H) ++ map Rbd (seq 0 H))
  else ([], []).

(** forwardPropagate, lines 160-166 *)
Definition rbm_forward (s : rbm) (x : mat) (dropout : bool) : res (rbm * mat * R) :=
  s <- withSmp (setV s x) sampleHgivenV ;; Ok (s, mph (rsmp s), 0).

(** backpropagate, lines 168-185 *)
Definition rbm_backward (s : rbm) (ein : mat) (backpropToPrevious : bool) : res (rbm * mat) :=
  let y := rlay s in let ph := mph (rsmp s) in
  phd <- activationFunctionDerivative LOGISTIC ph (mconsresize junk (lphd y) (rows ph) (cols (lphd y))) ;;
  deltas <- mmap2 Rmult phd ein ;;
  ' (Wd, bhd) <- (if rbackprop (rcfg s)
                  then Wd <- mmul (mtrans deltas) (mv (rsmp s)) ;; Ok (Wd, mcolsum deltas)
                  else Ok (lWd y, lbhd y)) ;;
  e <- (if backpropToPrevious then mmul deltas (qW (rpar s)) else Ok (le y)) ;;
  Ok (setLay s (mkRL Wd bhd phd deltas e), e).

(** updatedParameters does nothing, RBM.h 110 *)
Definition rbm_class : LayerClass :=
  mkClass rbm rloc rbm_initializeLayer rbm_load rbm_store (fun s => Ok s) rbm_forward rbm_backward.
End RBM.

(** getParameters, lines 192-195 *)
Definition rbm_getParameters (s : rbm) : list R := rbm_currentParameters s.
