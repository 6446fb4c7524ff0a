(** Model of /repo/src/Preprocessing.cpp and /repo/src/Normalization.cpp. *)
From Verif Require Import Base BaseFacts Matrix RSum MatOps Storage_Model.
Local Open Scope R_scope.

(** Eigen's [minCoeff()] and [maxCoeff()] of a matrix; Eigen asserts that it is not empty.
    The entries are visited column by column, as Eigen does; the order does not matter. *)
Definition mfold (f : R -> R -> R) (m : mat) : res R :=
  _ <- check (Nat.ltb 0 (rows m) && Nat.ltb 0 (cols m)) ;;
  for_ (cols m) (fun j s => for_ (rows m) (fun i s => x <- mget m i j ;; Ok (f s x)) s) (at_ m 0 0).
Definition minCoeff (m : mat) : res R := mfold (fun s x => if Rltb x s then x else s) m.
Definition maxCoeff (m : mat) : res R := mfold (fun s x => if Rltb s x then x else s) m.

(** scaleData, Preprocessing.cpp 9-19.
    Not modelled: for constant data dataRange is 0 and the result is not a number. *)
Definition scaleData (data : mat) (min max : R) : res mat :=
  if Rleb max min then Throw else
  minData <- minCoeff data ;;
  maxData <- maxCoeff data ;;
  let dataRange := maxData - minData in
  let desiredRange := max - min in
  let scaling := desiredRange / dataRange in
  Ok (mmap (fun x => x * scaling + (min - minData * scaling)) data).

(** [x(c, tSource)] or [x(c, -tSource)], lines 36-39 and 43-46 *)
Definition source (x : mat) (c : nat) (tSource : Z) : res R :=
  if Z.leb 0 tSource then i <- zidx tSource ;; mget x c i else i <- zidx (- tSource) ;; mget x c i.

(** filter, Preprocessing.cpp 21-51; [y] is the matrix that is passed, [b] and [a] have one
    column.  The double tSource only takes integer values. *)
Definition filter (x y b a : mat) : res mat :=
  let y := msetZero y in
  for_ (rows x) (fun c y =>
    for_ (cols x) (fun t y =>
      let maxPQ := Nat.max (rows b) (rows a) in
      y <- for_ maxPQ (fun pq y =>
        let tSource := (Z.of_nat t - Z.of_nat pq)%Z in
        y <- (if Nat.ltb pq (rows b)
              then bv <- mget b pq 0 ;; xv <- source x c tSource ;; madd y c t (bv * xv) else Ok y) ;;
        if (Nat.ltb 0 pq && Nat.ltb pq (rows a))%bool
        then av <- mget a pq 0 ;; xv <- source x c tSource ;; madd y c t (av * xv) else Ok y) y ;;
      a0 <- mget a 0 0 ;;
      v <- mget y c t ;;
      mset y c t (v / a0)) y) y.

(** downsample, Preprocessing.cpp 53-59; [d] is the matrix that is passed *)
Definition downsample (y d : mat) (downSamplingFactor : nat) : res mat :=
  for_ (rows y) (fun c d =>
    ' (d, _) <- for_ (cols d) (fun target '(d, source) =>
        v <- mget y c source ;;
        d <- mset d c target v ;;
        Ok (d, (source + downSamplingFactor)%nat)) (d, 0%nat) ;;
    Ok d) d.

(** sampleRandomPatches, Preprocessing.cpp 61-97.  [rnd k] is the k-th number returned by
    rand(); the order of evaluation of the two calls in line 77-78 does not matter here.
    [junk] are the entries of the new matrix.  The parallel loop is modelled as a sequential
    one (each iteration writes its own rows, see Parallel_Model.v). *)
Definition sampleRandomPatches (rnd : nat -> Z) (junk : nat -> nat -> R) (images : mat)
    (channels rows cols samples patchRows patchCols : nat) : res mat :=
  let channelSize := (rows * cols)%nat in
  let patchSize := (channels * patchRows * patchCols)%nat in
  let totalPatches := (Matrix.rows images * samples)%nat in
  patchIndices <- for_ totalPatches (fun n l =>
      r <- generateInt (rnd (2 * n)%nat) 0 (Z.of_nat rows - Z.of_nat patchRows + 1) ;;
      c <- generateInt (rnd (2 * n + 1)%nat) 0 (Z.of_nat cols - Z.of_nat patchCols + 1) ;;
      r <- zidx r ;; c <- zidx c ;;
      Ok (l ++ [(r, c)])) [] ;;
  for_ (Matrix.rows images) (fun m patches =>
    for_ samples (fun n patches =>
      let patchIdx := (m * samples + n)%nat in
      rc <- vget patchIndices patchIdx ;;
      let rowStart := fst rc in
      let colStart := snd rc in
      ' (patches, _, _) <- for_ channels (fun chan '(patches, channelOffset, pxIdx) =>
          ' (patches, pxIdx) <- for_ patchRows (fun row st =>
              for_ patchCols (fun col '(patches, pxIdx) =>
                v <- mget images m (channelOffset + (rowStart + row) * cols + colStart + col)%nat ;;
                patches <- mset patches patchIdx pxIdx v ;;
                Ok (patches, S pxIdx)) st) (patches, pxIdx) ;;
          Ok (patches, (channelOffset + channelSize)%nat, pxIdx)) (patches, 0%nat, 0%nat) ;;
      Ok patches) patches) (mkMat totalPatches patchSize junk).

(** class Normalization; before fit both matrices are empty (Normalization.cpp 7-9) *)
Record normalization := mkNorm { nmean : mat; nstd : mat }.
Definition norm_new : normalization := mkNorm (mzero 0 0) (mzero 0 0).

(** fit, Normalization.cpp 11-35.
    Not modelled: without rows the means are not numbers. *)
Definition norm_fit (X : mat) : res normalization :=
  let mean := mkMat 1 (cols X) (fun _ d => colsum X d / INR (rows X)) in
  let std := mzero (rows mean) (cols mean) in
  std <- for_ (rows X) (fun n std =>
      for_ (cols X) (fun d std =>
        x <- mget X n d ;; m <- mget mean 0 d ;;
        let tmp := x - m in
        madd std 0 d (tmp * tmp)) std) std ;;
  let std := mmap (fun v => v / INR (rows X)) std in
  let std := mmap sqrt std in
  std <- for_ (cols X) (fun d std =>
      v <- mget std 0 d ;; if Reqb v 0 then mset std 0 d 1 else Ok std) std ;;
  Ok (mkNorm mean std).

(** [a.row(n).array() = ...] with coefficients [v] *)
Definition msetRowFun (a : mat) (n : nat) (v : nat -> R) : res mat :=
  if Nat.ltb n (rows a) then Ok (mkMat (rows a) (cols a) (fun i j => if Nat.eqb i n then v j else at_ a i j)) else Abort.

(** transform, Normalization.cpp 37-46 *)
Definition norm_transform (junk : nat -> nat -> R) (s : normalization) (X : mat) : res mat :=
  _ <- check (Nat.ltb 0 (cols (nmean s))) ;;
  _ <- check (Nat.eqb (cols X) (cols (nmean s))) ;;
  for_ (rows X) (fun n normalized =>
      msetRowFun normalized n (fun d => (at_ X n d - at_ (nmean s) 0 d) * / at_ (nstd s) 0 d))
    (mkMat (rows X) (cols X) junk).
