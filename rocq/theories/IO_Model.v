(** Model of pack/unpack (/repo/src/EigenWrapper.cpp) and of the file formats FANN
    (/repo/src/FANN.cpp) and LibSVM (/repo/src/LibSVM.cpp) on streams of tokens. *)
From Verif Require Import Base Matrix.

(** ** pack / unpack *)

(** [memcpy(dst.data() + offset, src, n)] *)
Definition memcpy (dst : list R) (offset : nat) (src : list R) : res (list R) :=
  if Nat.leb (offset + length src) (length dst)
  then Ok (firstn offset dst ++ src ++ skipn (offset + length src) dst)
  else UB.

(** EigenWrapper.cpp 4-19; an array stands for the pair (size, pointer).  The result
    is the new content of [vec].  Simplification: the arrays do not overlap [vec]. *)
Definition pack (vec : list R) (arrays : list (list R)) : res (list R) :=
  ' (vec, _) <- for_each arrays (fun a s =>
      let '(vec, offset) := s in
      vec' <- memcpy vec offset a ;;
      Ok (vec', offset + length a)) (vec, 0) ;;
  Ok vec.

(** EigenWrapper.cpp 21-36; [arrays] are the arrays before the call, the result their
    contents after it.  Simplification: the arrays are different objects. *)
Definition unpack (vec : list R) (arrays : list (list R)) : res (list (list R)) :=
  ' (out, _) <- for_each arrays (fun a s =>
      let '(out, offset) := s in
      a' <- (if Nat.leb (offset + length a) (length vec)
             then Ok (firstn (length a) (skipn offset vec)) else UB) ;;
      Ok (out ++ [a'], offset + length a)) ([], 0) ;;
  Ok out.

(** ** FANN *)

(** A word of the stream: an integer or a number in decimal notation. *)
Inductive token := TInt (n : nat) | TReal (x : R).

Section FANN.
(** [prt x] is the number denoted by the text printed for [x] (operator<< of double
    rounds to six significant digits by default). *)
Variable prt : R -> R.

(** [stream << m.row(n)]: the entries of a row, separated by blanks *)
Definition printRow (m : mat) (n : nat) : res (list token) :=
  for_ (cols m) (fun j s => x <- mget m n j ;; Ok (s ++ [TReal (prt x)])) [].

(** save, FANN.cpp 49-63; returns what is appended to the stream *)
Definition fannSave (inp out : mat) : res (list token) :=
  _ <- check (Nat.eqb (rows inp) (rows out)) ;;
  for_ (rows inp) (fun n s =>
    r1 <- printRow inp n ;;
    r2 <- printRow out n ;;
    Ok (s ++ r1 ++ r2)) [TInt (rows inp); TInt (cols inp); TInt (cols out)].

(** [stream >> n] for an int, [stream >> x] for a double.  A failing extraction
    leaves the variable indeterminate, which is UB here. *)
Definition readInt (s : list token) : res (nat * list token) :=
  match s with TInt n :: s' => Ok (n, s') | _ => UB end.
Definition readReal (s : list token) : res (R * list token) :=
  match s with TReal x :: s' => Ok (x, s') | TInt n :: s' => Ok (INR n, s') | [] => UB end.

(** load, FANN.cpp 21-38; [junk] is the content of freshly allocated memory *)
Definition fannLoad (junk : nat -> nat -> R) (s : list token) : res (nat * mat * mat * list token) :=
  ' (N, s) <- readInt s ;;
  ' (D, s) <- readInt s ;;
  ' (F, s) <- readInt s ;;
  ' (inp, out, s) <- for_ N (fun n st =>
      let '(inp, out, s) := st in
      ' (inp, s) <- for_ D (fun d st =>
          let '(inp, s) := st in
          ' (x, s) <- readReal s ;;
          inp <- mset inp n d x ;; Ok (inp, s)) (inp, s) ;;
      ' (out, s) <- for_ F (fun f st =>
          let '(out, s) := st in
          ' (x, s) <- readReal s ;;
          out <- mset out n f x ;; Ok (out, s)) (out, s) ;;
      Ok (inp, out, s)) (mresize junk N D, mresize junk N F, s) ;;
  Ok (N, inp, out, s).
End FANN.

(** ** LibSVM *)

(** A word of a line: a number, or "index:value". *)
Inductive word := WNum (x : R) | WFeat (index : nat) (x : R).

(** [atoi] of the part before ':' (of the whole word if there is none): digits up to
    the decimal point.  Simplification: no exponents, no overflow. *)
Definition trunc (x : R) : Z :=
  if Rle_dec 0 x then Zfloor x else (- Zfloor (- x))%Z.
Definition wordInt (w : word) : Z :=
  match w with WNum x => trunc x | WFeat i _ => Z.of_nat i end.
(** [atof] of the part after ':' (of the whole word if there is none) *)
Definition wordReal (w : word) : R := match w with WNum x => x | WFeat _ x => x end.

Section LibSVM.
Variable prt : R -> R.

(** [out.row(i).maxCoeff(&index)] of a non-empty row, first maximum *)
Definition rowMax (m : mat) (i : nat) : res nat :=
  x0 <- mget m i 0 ;;
  ' (_, k) <- for_from 1 (cols m - 1) (fun j s =>
      x <- mget m i j ;;
      Ok (if Rltb (fst s) x then (x, j) else s)) (x0, 0) ;;
  Ok k.

(** save, LibSVM.cpp 130-153, lines of words *)
Definition svmSave (inp out : mat) : res (list (list word)) :=
  _ <- check (Nat.eqb (rows inp) (rows out)) ;;
  for_ (rows inp) (fun i lines =>
    label <- (if Nat.ltb 1 (cols out)
              then k <- rowMax out i ;; Ok (WNum (INR k))
              else x <- mget out i 0 ;; Ok (WNum (prt x))) ;;
    line <- for_ (cols inp) (fun j line =>
        x <- mget inp i j ;;
        Ok (if Rltb 0 (Rabs x) then line ++ [WFeat (j + 1) (prt x)] else line)) [label] ;;
    Ok (lines ++ [line])) [].

(** what the first pass collects, LibSVM.cpp 27-66; [None] in [features] is the empty
    string that ends an instance; [classes] is the list of all labels, the set has as
    many elements as it has different ones *)
Record collected := mkColl {
  cFeatures : list (option word); cTargets : list Z; cMinimal : Z; cInstances : nat }.

Definition firstPass (lines : list (list word)) (colsArg : nat) : res collected :=
  for_each lines (fun line c =>
    match line with
    | [] => Ok c
    | classStr :: rest =>
        let lastw := last rest classStr in
        Ok (mkColl (cFeatures c ++ map Some rest ++ [None])
                   (cTargets c ++ [wordInt classStr])
                   (Z.max (cMinimal c) (wordInt lastw))
                   (S (cInstances c)))
    end) (mkColl [] [] (Z.of_nat colsArg) 0).

(** [classes.size()] *)
Definition classCount (targets : list Z) : nat := length (nodup Z.eq_dec targets).

(** load, LibSVM.cpp 25-119 *)
Definition svmLoad (lines : list (list word)) (colsArg : nat) : res (nat * mat * mat) :=
  c <- firstPass lines colsArg ;;
  let classes := classCount (cTargets c) in
  let multi := Nat.ltb 2 classes in
  let inp := mzero (cInstances c) (Z.to_nat (cMinimal c)) in
  let out := mzero (cInstances c) (if multi then classes else 1) in
  out <- for_ (length (cTargets c)) (fun i out =>
    t <- vget (cTargets c) i ;;
    if multi then k <- zidx (t - 1) ;; mset out i k 1%R
    else mset out i 0 (IZR t)) out ;;
  ' (inp, _) <- for_each (cFeatures c) (fun tok s =>
    let '(inp, row) := s in
    match tok with
    | Some w =>
        let index := wordInt w in
        let index := if Nat.ltb 1 classes then (index - 1)%Z else index in
        k <- zidx index ;;
        inp <- mset inp row k (wordReal w) ;; Ok (inp, row)
    | None => Ok (inp, S row)
    end) (inp, 0) ;;
  _ <- check (Nat.eqb (rows inp) (rows out)) ;;
  Ok (cInstances c, inp, out).
End LibSVM.
