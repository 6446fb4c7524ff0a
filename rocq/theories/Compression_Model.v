(** Model of /repo/src/CompressionMatrixFactory.cpp and /repo/src/Compressor.cpp. *)
From Verif Require Import Base BaseFacts Matrix RSum MatOps.
Local Open Scope R_scope.

(** CompressionMatrixFactory.h 20-23 *)
Inductive transformation := DCT | GAUSSIAN | SPARSE_RANDOM | AVERAGE | EDGE.
Record factory := mkFactory { compress : bool; transform_ : transformation; inputDim : nat; paramDim : nat }.

(** constructor, lines 14-23.  Simplification: negative dimensions are not representable, they throw like 0. *)
Definition factory_new (I P : nat) (t : transformation) : res factory :=
  if Nat.ltb I 1 then Throw
  else if Nat.ltb P 1 then Throw
  else Ok (mkFactory true t I P).

(** integer division and remainder of C++ *)
Definition idiv (a b : nat) : res nat := if Nat.eqb b 0 then UB else Ok (a / b)%nat.
Definition imod (a b : nat) : res nat := if Nat.eqb b 0 then UB else Ok (a mod b)%nat.

(** The draws of [rng] are oracles: [normal i m] and [unif i m] are the numbers drawn when entry (m, i) is filled. *)
Section Fill.
Variables normal unif : nat -> nat -> R.

(** fillCompressionMatrix, lines 38-89 *)
Definition fillCompressionMatrix (f : factory) (cm : mat) : res mat :=
  compressionRatio <- idiv (cols cm) (rows cm) ;;
  for_ (inputDim f) (fun i cm =>
    let ti := if Nat.ltb (inputDim f) 2 then 0 else INR i / INR (inputDim f - 1) in
    for_ (paramDim f) (fun m cm =>
      match transform_ f with
      | DCT => mset cm m i (cos (INR m * PI * ti))
      | GAUSSIAN => mset cm m i (normal i m / INR (paramDim f))
      | SPARSE_RANDOM =>
          let r := unif i m in
          if Rltb r (1 / 6) then mset cm m i (1 / sqrt (INR (paramDim f)))
          else if Rltb r (5 / 6) then mset cm m i 0
          else mset cm m i (-1 / sqrt (INR (paramDim f)))
      | AVERAGE =>
          q <- idiv i compressionRatio ;;
          if Nat.eqb q m then mset cm m i (1 / INR compressionRatio) else Ok cm
      | EDGE =>
          q <- idiv i compressionRatio ;;
          if Nat.eqb q m then
            r <- imod i compressionRatio ;;
            if Nat.ltb r (compressionRatio / 2) then mset cm m i (-2 / INR compressionRatio)
            else mset cm m i (2 / INR compressionRatio)
          else Ok cm
      end) cm) cm.

(** createCompressionMatrix, lines 25-36; [junk] are the entries of a resized matrix *)
Definition createCompressionMatrix (junk : nat -> nat -> R) (f : factory) (cm : mat) : res mat :=
  let cm := if (Nat.ltb (rows cm) (paramDim f) || Nat.ltb (cols cm) (inputDim f))%bool
            then mresize junk (paramDim f) (inputDim f) else cm in
  if compress f then fillCompressionMatrix f (msetZero cm)
  else Ok (mkMat (rows cm) (cols cm) (fun i j => if Nat.eqb i j then 1 else 0)).

(** Compressor: constructor (Compressor.cpp 6-12), transform (24-27) *)
Definition compressor_new (junk : nat -> nat -> R) (I O : nat) (t : transformation) : res mat :=
  f <- factory_new I O t ;;
  createCompressionMatrix junk f (mkMat O I junk).
Definition compressor_transform (cm X : mat) : res mat := mmul X (mtrans cm).
End Fill.
