(** Model of /repo/src/Subsampling.cpp and /repo/src/MaxPooling.cpp. *)
From Verif Require Import Base BaseFacts Matrix RSum MatOps Acc Activation_Model Layer_Model FC_Model.
Local Open Scope R_scope.

(** members of Subsampling and MaxPooling that do not change after initialize *)
Record pgeom := mkPgeom {
  pfm : nat; pinRows : nat; pinCols : nat; pkernelRows : nat; pkernelCols : nat;
  pfmInSize : nat; poutRows : nat; poutCols : nat; pfmOutSize : nat; pmaxRow : nat; pmaxCol : nat }.

(** Subsampling::initialize, lines 23-32 and 69-78; MaxPooling::initialize, lines 21-43.
    A kernel of size 0 is a division by zero.  [inRows - kernelRows + 1] is computed with
    natural numbers, which makes a negative number 0 and does not change the check. *)
Definition pgeom_new (fm inRows inCols kernelRows kernelCols : nat) : res pgeom :=
  if (Nat.eqb kernelRows 0 || Nat.eqb kernelCols 0)%bool then UB else
  let outRows := (inRows / kernelRows)%nat in
  let outCols := (inCols / kernelCols)%nat in
  let maxRow := (inRows + 1 - kernelRows)%nat in
  let maxCol := (inCols + 1 - kernelCols)%nat in
  if Nat.ltb (fm * outRows * outCols) 1 then Throw else
  _ <- check (Nat.ltb 0 (inRows * inCols)) ;;
  _ <- check (Nat.ltb 0 outRows) ;;
  _ <- check (Nat.ltb 0 outCols) ;;
  _ <- check (Nat.ltb 0 (outRows * outCols)) ;;
  _ <- check (Nat.ltb 0 maxRow) ;;
  _ <- check (Nat.ltb 0 maxCol) ;;
  Ok (mkPgeom fm inRows inCols kernelRows kernelCols (inRows * inCols) outRows outCols
        (outRows * outCols) maxRow maxCol).

(** [for(int i = 0, o = 0; i < max; i += k, o++) s = body(i, o, s)] *)
Fixpoint strided_from {A} (fuel i o max k : nat) (body : nat -> nat -> A -> res A) (s : A) : res A :=
  match fuel with
  | O => Fuel
  | S f => if Nat.ltb i max then s <- body i o s ;; strided_from f (i + k) (o + 1) max k body s
           else Ok s
  end.
Definition strided {A} (max k : nat) (body : nat -> nat -> A -> res A) (s : A) : res A :=
  strided_from (S max) 0 0 max k body s.

(** The loops over feature maps and regions that all four functions share
    (Subsampling.cpp 109-128 and 161-183, MaxPooling.cpp 64-81 and 98-121):
    [body fmo ro co inputIdx outputIdx] handles one region, [inputIdx] = rowBase + ci. *)
Definition pool {A} (g : pgeom) (body : nat -> nat -> nat -> nat -> nat -> A -> res A) (a : A) : res A :=
  ' (a, _) <- for_ (pfm g) (fun fmo st =>
      strided (pmaxRow g) (pkernelRows g) (fun ri ro st =>
        let rowBase := (fmo * pfmInSize g + ri * pinCols g)%nat in
        strided (pmaxCol g) (pkernelCols g) (fun ci co st =>
          let '(a, outputIdx) := st in
          a <- body fmo ro co (rowBase + ci)%nat outputIdx a ;;
          Ok (a, S outputIdx)) st) st) (a, 0%nat) ;;
  Ok a.

(** the loops over kr and kc; inputIdx starts at the same value for each kr *)
Definition region {A} (g : pgeom) (inputIdx : nat) (body : nat -> A -> res A) (a : A) : res A :=
  for_ (pkernelRows g) (fun kr a =>
    ' (a, _) <- for_ (pkernelCols g) (fun kc st =>
        let '(a, inputIdx) := st in
        a <- body inputIdx a ;; Ok (a, S inputIdx)) (a, inputIdx) ;;
    Ok a) a.

(** * Subsampling *)
Record subs := mkSubs {
  sg : pgeom; sbias : bool; sact : ActivationFunction; sreg : Regularization;
  sW : list mat; sWd : list mat; sWb : list mat; sWbd : list mat;
  sx : mat; sa : mat; sy : mat; syd : mat; sdeltas : mat; se : mat }.

Inductive sloc := SW (o r c : nat) | SWd (o r c : nat) | SWb (o r c : nat) | SWbd (o r c : nat).

(** [V[o](r, c)], and an assignment to it *)
Definition wget (V : list mat) (o r c : nat) : res R := m <- vget V o ;; mget m r c.
Definition wset (V : list mat) (o r c : nat) (v : R) : res (list mat) :=
  m <- vget V o ;; m <- mset m r c v ;; vset V o m.
Definition wadd (V : list mat) (o r c : nat) (v : R) : res (list mat) :=
  x <- wget V o r c ;; wset V o r c (x + v).

Definition subs_load (s : subs) (l : sloc) : res R :=
  match l with
  | SW o r c => wget (sW s) o r c
  | SWd o r c => wget (sWd s) o r c
  | SWb o r c => wget (sWb s) o r c
  | SWbd o r c => wget (sWbd s) o r c
  end.

Definition subs_with (s : subs) (W Wd Wb Wbd : list mat) : subs :=
  mkSubs (sg s) (sbias s) (sact s) (sreg s) W Wd Wb Wbd (sx s) (sa s) (sy s) (syd s) (sdeltas s) (se s).

Definition subs_store (s : subs) (l : sloc) (v : R) : res subs :=
  match l with
  | SW o r c => V <- wset (sW s) o r c v ;; Ok (subs_with s V (sWd s) (sWb s) (sWbd s))
  | SWd o r c => V <- wset (sWd s) o r c v ;; Ok (subs_with s (sW s) V (sWb s) (sWbd s))
  | SWb o r c => V <- wset (sWb s) o r c v ;; Ok (subs_with s (sW s) (sWd s) V (sWbd s))
  | SWbd o r c => V <- wset (sWbd s) o r c v ;; Ok (subs_with s (sW s) (sWd s) (sWb s) V)
  end.

(** initialize, lines 46-61: the loops that push pointers *)
Definition subs_initialize (s : subs) : list sloc * list sloc :=
  let g := sg s in
  (flat_map (fun fmo => flat_map (fun r => flat_map (fun c =>
      SW fmo r c :: (if sbias s then [SWb fmo r c] else [])) (seq 0 (poutCols g))) (seq 0 (poutRows g)))
     (seq 0 (pfm g)),
   flat_map (fun fmo => flat_map (fun r => flat_map (fun c =>
      SWd fmo r c :: (if sbias s then [SWbd fmo r c] else [])) (seq 0 (poutCols g))) (seq 0 (poutRows g)))
     (seq 0 (pfm g))).

Section SUBS.
Variable junk : nat -> nat -> R.

(** constructor and initialize, lines 9-81; [junk] also stands for the random start values,
    all weights are independent *)
Definition subs_new (fm inRows inCols kernelRows kernelCols : nat) (bias : bool)
    (act : ActivationFunction) (reg : Regularization) : res subs :=
  g <- pgeom_new fm inRows inCols kernelRows kernelCols ;;
  let out := (fm * poutRows g * poutCols g)%nat in
  let W := map (fun fmo => mkMat (poutRows g) (poutCols g) (fun r c => junk fmo (r * poutCols g + c)%nat)) (seq 0 fm) in
  let Wb := if bias then map (fun fmo => mkMat (poutRows g) (poutCols g)
                                (fun r c => junk fmo ((poutRows g + r) * poutCols g + c)%nat)) (seq 0 fm) else [] in
  Ok (mkSubs g bias act reg W W Wb Wb (mkMat 0 0 junk) (mkMat 1 out junk) (mkMat 1 out junk)
        (mkMat 1 out junk) (mkMat 1 out junk) (mkMat 1 (fm * inRows * inCols) junk)).

(** lines 105-129; the parallel loop is executed in order (see Parallel_Model.v) *)
Definition subs_activate (g : pgeom) (bias : bool) (W Wb : list mat) (x : mat) (a : mat) : res mat :=
  for_ (rows x) (fun n a =>
    pool g (fun fmo ro co inputIdx outputIdx a =>
      a <- region g inputIdx (fun inputIdx a =>
             v <- mget x n inputIdx ;; w <- wget W fmo ro co ;;
             madd a n outputIdx (v * w)) a ;;
      if bias then b <- wget Wb fmo ro co ;; madd a n outputIdx b else Ok a) a) a.

(** lines 133-138 *)
Definition subs_regError (fm : nat) (reg : Regularization) (W : list mat) : res R :=
  e <- (if Rltb 0 (l1Penalty reg)
        then for_ fm (fun o e => m <- vget W o ;; Ok (e + l1Penalty reg * msum (mmap Rabs m))) 0
        else Ok 0) ;;
  if Rltb 0 (l2Penalty reg)
  then for_ fm (fun o e => m <- vget W o ;; Ok (e + l2Penalty reg * msum (mmap (fun w => w * w) m) / 2)) e
  else Ok e.

(** forwardPropagate, lines 94-139 *)
Definition subs_forward (s : subs) (x : mat) (dropout : bool) : res (subs * mat * R) :=
  let g := sg s in
  let y := mconsresize junk (sy s) (rows x) (cols (sy s)) in
  _ <- check (Nat.eqb (cols x) (pfm g * pinRows g * pinCols g)) ;;
  _ <- check (Nat.eqb (cols y) (pfm g * poutRows g * poutCols g)) ;;
  a <- subs_activate g (sbias s) (sW s) (sWb s) x (mzero (rows x) (cols (sa s))) ;;
  y <- activationFunction (sact s) a y ;;
  error <- subs_regError (pfm g) (sreg s) (sW s) ;;
  Ok (mkSubs g (sbias s) (sact s) (sreg s) (sW s) (sWd s) (sWb s) (sWbd s) x a y (syd s) (sdeltas s) (se s),
      y, error).

(** lines 158-183 *)
Definition subs_collect (g : pgeom) (bias : bool) (W : list mat) (x deltas : mat) (N : nat)
    (st : mat * list mat * list mat) : res (mat * list mat * list mat) :=
  for_ N (fun n st =>
    pool g (fun fmo ro co inputIdx outputIdx st =>
      d <- mget deltas n outputIdx ;;
      st <- region g inputIdx (fun inputIdx st =>
              let '(e, Wd, Wbd) := st in
              w <- wget W fmo ro co ;;
              e <- madd e n inputIdx (w * d) ;;
              v <- mget x n inputIdx ;;
              Wd <- wadd Wd fmo ro co (d * v) ;;
              Ok (e, Wd, Wbd)) st ;;
      if bias then
        let '(e, Wd, Wbd) := st in
        Wbd <- wadd Wbd fmo ro co d ;; Ok (e, Wd, Wbd)
      else Ok st) st) st.

(** backpropagate, lines 141-199 *)
Definition subs_backward (s : subs) (ein : mat) (backpropToPrevious : bool) : res (subs * mat) :=
  let g := sg s in
  let N := rows (sa s) in
  let yd := mconsresize junk (syd s) N (cols (syd s)) in
  yd <- activationFunctionDerivative (sact s) (sy s) yd ;;
  deltas <- mmap2 Rmult yd ein ;;
  let e := mzero N (cols (se s)) in
  ' (Wd, Wbd) <- for_ (pfm g) (fun o st =>
      let '(Wd, Wbd) := st in
      m <- vget Wd o ;; Wd <- vset Wd o (msetZero m) ;;
      if sbias s then m <- vget Wbd o ;; Wbd <- vset Wbd o (msetZero m) ;; Ok (Wd, Wbd)
      else Ok (Wd, Wbd)) (sWd s, sWbd s) ;;
  ' (e, Wd, Wbd) <- subs_collect g (sbias s) (sW s) (sx s) deltas N (e, Wd, Wbd) ;;
  Wd <- (if Rltb 0 (l1Penalty (sreg s))
         then for_ (pfm g) (fun o Wd =>
                m <- vget Wd o ;; w <- vget (sW s) o ;;
                m <- mmap2 (fun d w => d + l1Penalty (sreg s) * w / Rabs w) m w ;;
                vset Wd o m) Wd
         else Ok Wd) ;;
  Wd <- (if Rltb 0 (l2Penalty (sreg s))
         then for_ (pfm g) (fun o Wd =>
                m <- vget Wd o ;; w <- vget (sW s) o ;;
                m <- mmap2 (fun d w => d + l2Penalty (sreg s) * w) m w ;;
                vset Wd o m) Wd
         else Ok Wd) ;;
  Ok (mkSubs g (sbias s) (sact s) (sreg s) (sW s) Wd (sWb s) Wbd (sx s) (sa s) (sy s) yd deltas e, e).

(** updatedParameters is empty (Subsampling.h) *)
Definition subs_class : LayerClass :=
  mkClass subs sloc subs_initialize subs_load subs_store (fun s => Ok s) subs_forward subs_backward.
End SUBS.

(** getParameters, lines 206-220: the second group of loops reads W as well *)
Definition subs_getParameters (s : subs) : res (list R) :=
  let g := sg s in
  let all := fun V p => for_ (pfm g) (fun fmo p => for_ (poutRows g) (fun r p => for_ (poutCols g) (fun c p =>
      v <- wget V fmo r c ;; Ok (p ++ [v])) p) p) p in
  p <- all (sW s) [] ;;
  if sbias s then all (sW s) p else Ok p.

(** * MaxPooling *)
Record maxp := mkMaxp { mg : pgeom; mx : mat; my : mat; me : mat }.

(** std::numeric_limits<double>::max() *)
Definition DBL_MAX : R := (2 - / 2 ^ 52) * 2 ^ 1023.

Section MAXP.
Variable junk : nat -> nat -> R.

(** constructor and initialize, lines 10-45 *)
Definition maxp_new (fm inRows inCols kernelRows kernelCols : nat) : res maxp :=
  g <- pgeom_new fm inRows inCols kernelRows kernelCols ;;
  Ok (mkMaxp g (mkMat 0 0 junk) (mkMat 1 (fm * poutRows g * poutCols g) junk)
        (mkMat 1 (fm * inRows * inCols) junk)).

(** forwardPropagate, lines 51-85; std::max(m, v) is v if m < v and m otherwise *)
Definition maxp_forward (s : maxp) (x : mat) (dropout : bool) : res (maxp * mat * R) :=
  let g := mg s in
  let y := mconsresize junk (my s) (rows x) (cols (my s)) in
  _ <- check (Nat.eqb (cols x) (pfm g * pinRows g * pinCols g)) ;;
  _ <- check (Nat.eqb (cols y) (pfm g * poutRows g * poutCols g)) ;;
  y <- for_ (rows x) (fun n y =>
    pool g (fun fmo ro co inputIdx outputIdx y =>
      m <- region g inputIdx (fun inputIdx m =>
             v <- mget x n inputIdx ;; Ok (if Rltb m v then v else m)) (- DBL_MAX) ;;
      mset y n outputIdx m) y) y ;;
  Ok (mkMaxp g x y (me s), y, 0).

(** backpropagate, lines 87-125; [idx] is -1 at first *)
Definition maxp_backward (s : maxp) (ein : mat) (backpropToPrevious : bool) : res (maxp * mat) :=
  let g := mg s in
  let N := rows (my s) in
  e <- for_ N (fun n e =>
    pool g (fun fmo ro co inputIdx outputIdx e =>
      ' (m, idx) <- region g inputIdx (fun inputIdx st =>
             let '(m, idx) := st in
             v <- mget (mx s) n inputIdx ;;
             Ok (if Rltb m v then (v, Z.of_nat inputIdx) else (m, idx))) (- DBL_MAX, (-1)%Z) ;;
      d <- mget ein n outputIdx ;;
      idx <- zidx idx ;;
      mset e n idx d) e) (mzero N (cols (me s))) ;;
  Ok (mkMaxp g (mx s) (my s) e, e).

Definition maxp_class : LayerClass :=
  mkClass maxp Empty_set (fun _ => ([], [])) (fun _ l => match l with end) (fun _ l _ => match l with end)
    (fun s => Ok s) maxp_forward maxp_backward.
End MAXP.
