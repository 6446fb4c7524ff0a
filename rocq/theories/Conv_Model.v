(** Model of /repo/src/Convolutional.cpp. *)
From Verif Require Import Base BaseFacts Matrix RSum MatOps Acc Activation_Model Layer_Model FC_Model.
Local Open Scope R_scope.

(** class Convolutional, Convolutional.h: the members that do not change after
    initialize *)
Record cgeom := mkCgeom {
  fmin : nat; inRows : nat; inCols : nat; fmout : nat; kernelRows : nat; kernelCols : nat;
  cbias : bool; cact : ActivationFunction; creg : Regularization;
  fmInSize : nat; outRows : nat; outCols : nat; fmOutSize : nat; maxRow : nat; maxCol : nat }.

(** ... and the others *)
Record conv := mkConv {
  cg : cgeom;
  cW : list (list mat); cWd : list (list mat); cWb : mat; cWbd : mat;
  cx : mat; ca : mat; cy : mat; cyd : mat; cdeltas : mat; ce : mat }.

(** addresses of coefficients *)
Inductive cloc := CW (o i kr kc : nat) | CWd (o i kr kc : nat) | CWb (o i : nat) | CWbd (o i : nat).

Definition conv_load (s : conv) (l : cloc) : res R :=
  match l with
  | CW o i kr kc => m <- tget (cW s) o i ;; mget m kr kc
  | CWd o i kr kc => m <- tget (cWd s) o i ;; mget m kr kc
  | CWb o i => mget (cWb s) o i
  | CWbd o i => mget (cWbd s) o i
  end.

Definition conv_params (s : conv) (W : list (list mat)) (Wb : mat) : conv :=
  mkConv (cg s) W (cWd s) Wb (cWbd s) (cx s) (ca s) (cy s) (cyd s) (cdeltas s) (ce s).
Definition conv_derivs (s : conv) (Wd : list (list mat)) (Wbd : mat) : conv :=
  mkConv (cg s) (cW s) Wd (cWb s) Wbd (cx s) (ca s) (cy s) (cyd s) (cdeltas s) (ce s).

Definition conv_store (s : conv) (l : cloc) (v : R) : res conv :=
  match l with
  | CW o i kr kc =>
      m <- tget (cW s) o i ;; m <- mset m kr kc v ;; W <- tset (cW s) o i m ;;
      Ok (conv_params s W (cWb s))
  | CWd o i kr kc =>
      m <- tget (cWd s) o i ;; m <- mset m kr kc v ;; W <- tset (cWd s) o i m ;;
      Ok (conv_derivs s W (cWbd s))
  | CWb o i => m <- mset (cWb s) o i v ;; Ok (conv_params s (cW s) m)
  | CWbd o i => m <- mset (cWbd s) o i v ;; Ok (conv_derivs s (cWd s) m)
  end.

(** initialize, lines 45-63: the loops that push pointers *)
Definition conv_initialize (s : conv) : list cloc * list cloc :=
  let g := cg s in
  (flat_map (fun fmo => flat_map (fun fmi =>
      flat_map (fun kr => map (CW fmo fmi kr) (seq 0 (kernelCols g))) (seq 0 (kernelRows g)) ++
      (if cbias g then [CWb fmo fmi] else [])) (seq 0 (fmin g))) (seq 0 (fmout g)),
   flat_map (fun fmo => flat_map (fun fmi =>
      flat_map (fun kr => map (CWd fmo fmi kr) (seq 0 (kernelCols g))) (seq 0 (kernelRows g)) ++
      (if cbias g then [CWbd fmo fmi] else [])) (seq 0 (fmin g))) (seq 0 (fmout g))).

(** constructor, lines 9-18, and the rest of initialize, lines 23-44 and 65-83.
    [junk] also stands for the random start values; all weights are independent.
    A negative size makes Eigen's resize abort. *)
Definition conv_new (junk : nat -> nat -> R) (fmin inRows inCols fmout kernelRows kernelCols : nat)
    (bias : bool) (act : ActivationFunction) (reg : Regularization) : res conv :=
  let outRowsZ := (Z.of_nat inRows - Z.of_nat (kernelRows / 2 * 2))%Z in
  let outColsZ := (Z.of_nat inCols - Z.of_nat (kernelCols / 2 * 2))%Z in
  let maxRowZ := (Z.of_nat inRows - Z.of_nat kernelRows + Z.of_nat (kernelRows mod 2))%Z in
  let maxColZ := (Z.of_nat inCols - Z.of_nat kernelCols + Z.of_nat (kernelCols mod 2))%Z in
  let outputs := (Z.of_nat fmout * outRowsZ * outColsZ)%Z in
  _ <- check (0 <=? outputs)%Z ;;
  if (outputs <? 1)%Z then Throw else
  _ <- check (0 <? Z.of_nat (inRows * inCols))%Z ;;
  _ <- check (0 <? outRowsZ)%Z ;;
  _ <- check (0 <? outColsZ)%Z ;;
  _ <- check (0 <? outRowsZ * outColsZ)%Z ;;
  _ <- check (0 <? maxRowZ)%Z ;;
  _ <- check (0 <? maxColZ)%Z ;;
  let out := Z.to_nat outputs in
  let W := map (fun fmo => map (fun fmi => mkMat kernelRows kernelCols
                  (fun r c => junk (fmo * fmin + fmi)%nat (r * kernelCols + c)%nat)) (seq 0 fmin)) (seq 0 fmout) in
  let Wb := if bias then mkMat fmout fmin (fun fmo fmi => junk (fmo * fmin + fmi)%nat (kernelRows * kernelCols)%nat)
            else mkMat 0 0 junk in
  Ok (mkConv (mkCgeom fmin inRows inCols fmout kernelRows kernelCols bias act reg
                (inRows * inCols) (Z.to_nat outRowsZ) (Z.to_nat outColsZ)
                (Z.to_nat (outRowsZ * outColsZ)) (Z.to_nat maxRowZ) (Z.to_nat maxColZ))
        W W Wb Wb (mkMat 0 0 junk) (mkMat 1 out junk) (mkMat 1 out junk) (mkMat 1 out junk)
        (mkMat 1 out junk) (mkMat 1 (fmin * inRows * inCols) junk)).

(** the loops over row and col: [f row col outputIdx] is the body *)
Definition scan {A} (maxRow maxCol : nat) (f : nat -> nat -> nat -> A -> res A)
    (outputIdx : nat) (a : A) : res A :=
  ' (a, _) <- for_ maxRow (fun row st => for_ maxCol (fun col st =>
      let '(a, outputIdx) := st in
      a <- f row col outputIdx a ;; Ok (a, S outputIdx)) st) (a, outputIdx) ;;
  Ok a.

(** forwardPropagate, lines 107-142.  The iterations of the parallel loop over n write to
    different rows and are executed in order here (see Parallel_Model.v). *)
Definition conv_activate (g : cgeom) (W : list (list mat)) (Wb : mat) (x : mat) (a : mat) : res mat :=
  for_ (rows x) (fun n a =>
    for_ (fmout g) (fun fmo a =>
      ' (a, _) <- for_ (fmin g) (fun fmi st =>
        let '(a, fmInBase) := st in
        Wtmp <- tget W fmo fmi ;;
        a <- scan (maxRow g) (maxCol g) (fun row col outputIdx a =>
               _ <- check (Nat.ltb outputIdx (cols a)) ;;
               ' (a, _) <- for_ (kernelRows g) (fun kr st =>
                   let '(a, colBase) := st in
                   v <- mdotblock Wtmp kr x n colBase (kernelCols g) ;;
                   a <- madd a n outputIdx v ;;
                   Ok (a, (colBase + inCols g)%nat))
                 (a, (fmInBase + row * inCols g + col)%nat) ;;
               Ok a) (fmo * fmOutSize g)%nat a ;;
        a <- (if cbias g
              then scan (maxRow g) (maxCol g) (fun row col outputIdx a =>
                     v <- mget Wb fmo fmi ;; madd a n outputIdx v) (fmo * fmOutSize g)%nat a
              else Ok a) ;;
        Ok (a, (fmInBase + fmInSize g)%nat)) (a, 0%nat) ;;
      Ok a) a) a.

(** the regularization terms, lines 147-155 *)
Definition conv_regError (g : cgeom) (W : list (list mat)) : res R :=
  e <- (if Rltb 0 (l1Penalty (creg g))
        then for_ (fmout g) (fun o e => for_ (fmin g) (fun i e =>
               m <- tget W o i ;; Ok (e + l1Penalty (creg g) * msum (mmap Rabs m))) e) 0
        else Ok 0) ;;
  if Rltb 0 (l2Penalty (creg g))
  then for_ (fmout g) (fun o e => for_ (fmin g) (fun i e =>
         m <- tget W o i ;; Ok (e + l2Penalty (creg g) * msum (mmap (fun w => w * w) m) / 2)) e) e
  else Ok e.

Section CONV.
Variable junk : nat -> nat -> R.

(** forwardPropagate, lines 100-158 *)
Definition conv_forward (s : conv) (x : mat) (dropout : bool) : res (conv * mat * R) :=
  let g := cg s in
  _ <- check (Nat.eqb (cols x) (fmin g * inRows g * inCols g)) ;;
  _ <- check (Nat.eqb (cols (cy s)) (fmout g * outRows g * outCols g)) ;;
  a <- conv_activate g (cW s) (cWb s) x (mzero (rows x) (cols (ca s))) ;;
  let y := mconsresize junk (cy s) (rows x) (cols (cy s)) in
  y <- activationFunction (cact g) a y ;;
  error <- conv_regError g (cW s) ;;
  Ok (mkConv g (cW s) (cWd s) (cWb s) (cWbd s) x a y (cyd s) (cdeltas s) (ce s), y, error).

(** backpropagate, lines 178-208 *)
Definition conv_collect (g : cgeom) (W : list (list mat)) (x deltas : mat) (N : nat)
    (st : mat * list (list mat) * mat) : res (mat * list (list mat) * mat) :=
  for_ N (fun n st =>
    for_ (fmout g) (fun fmo st =>
      ' (st, _) <- for_ (fmin g) (fun fmi st =>
        let '(st, fmInBase) := st in
        Wtmp <- tget W fmo fmi ;;
        st <- scan (maxRow g) (maxCol g) (fun row col outputIdx st =>
                _ <- check (Nat.ltb outputIdx (cols deltas)) ;;
                d <- mget deltas n outputIdx ;;
                ' (st, _) <- for_ (kernelRows g) (fun kr st =>
                    let '(e, Wd, Wbd, colBase) := st in
                    w <- mrow Wtmp kr (kernelCols g) ;;
                    e <- maddblock e n colBase (kernelCols g) (fun c => w c * d) ;;
                    Wdtmp <- tget Wd fmo fmi ;;
                    xb <- mrowblock x n colBase (kernelCols g) ;;
                    Wdtmp <- maddblock Wdtmp kr 0 (kernelCols g) (fun c => d * xb c) ;;
                    Wd <- tset Wd fmo fmi Wdtmp ;;
                    Ok (e, Wd, Wbd, (colBase + inCols g)%nat))
                  (st, (fmInBase + row * inCols g + col)%nat) ;;
                Ok st) (fmo * fmOutSize g)%nat st ;;
        st <- (if cbias g
               then scan (maxRow g) (maxCol g) (fun row col outputIdx st =>
                      let '(e, Wd, Wbd) := st in
                      d <- mget deltas n outputIdx ;;
                      Wbd <- madd Wbd fmo fmi d ;;
                      Ok (e, Wd, Wbd)) (fmo * fmOutSize g)%nat st
               else Ok st) ;;
        Ok (st, (fmInBase + fmInSize g)%nat)) (st, 0%nat) ;;
      Ok st) st) st.

(** backpropagate, lines 160-225; [backpropToPrevious] is ignored *)
Definition conv_backward (s : conv) (ein : mat) (backpropToPrevious : bool) : res (conv * mat) :=
  let g := cg s in
  let N := rows (ca s) in
  let yd := mconsresize junk (cyd s) N (cols (cyd s)) in
  yd <- activationFunctionDerivative (cact g) (cy s) yd ;;
  deltas <- mmap2 Rmult yd ein ;;
  let e := mzero N (cols (ce s)) in
  let Wbd := msetZero (cWbd s) in
  Wd <- for_ (fmout g) (fun o Wd => for_ (fmin g) (fun i Wd =>
          m <- tget Wd o i ;; tset Wd o i (msetZero m)) Wd) (cWd s) ;;
  ' (e, Wd, Wbd) <- conv_collect g (cW s) (cx s) deltas N (e, Wd, Wbd) ;;
  Wd <- (if Rltb 0 (l1Penalty (creg g))
         then for_ (fmout g) (fun o Wd => for_ (fmin g) (fun i Wd =>
                m <- tget Wd o i ;; w <- tget (cW s) o i ;;
                m <- mmap2 (fun d w => d + l1Penalty (creg g) * w / Rabs w) m w ;;
                tset Wd o i m) Wd) Wd
         else Ok Wd) ;;
  Wd <- (if Rltb 0 (l2Penalty (creg g))
         then for_ (fmout g) (fun o Wd => for_ (fmin g) (fun i Wd =>
                m <- tget Wd o i ;; w <- tget (cW s) o i ;;
                m <- mmap2 (fun d w => d + l2Penalty (creg g) * w) m w ;;
                tset Wd o i m) Wd) Wd
         else Ok Wd) ;;
  Ok (mkConv g (cW s) Wd (cWb s) Wbd (cx s) (ca s) (cy s) yd deltas e, e).

(** updatedParameters is empty (Convolutional.h 63) *)
Definition conv_class : LayerClass :=
  mkClass conv cloc conv_initialize conv_load conv_store (fun s => Ok s) conv_forward conv_backward.
End CONV.

(** getParameters, lines 232-250 *)
Definition conv_getParameters (s : conv) : res (list R) :=
  let g := cg s in
  p <- for_ (fmout g) (fun fmo p => for_ (fmin g) (fun fmi p =>
         for_ (kernelRows g) (fun kr p => for_ (kernelCols g) (fun kc p =>
           m <- tget (cW s) fmo fmi ;; v <- mget m kr kc ;; Ok (p ++ [v])) p) p) p) [] ;;
  if cbias g
  then for_ (fmout g) (fun fmo p => for_ (fmin g) (fun fmi p =>
         v <- mget (cWb s) fmo fmi ;; Ok (p ++ [v])) p) p
  else Ok p.
