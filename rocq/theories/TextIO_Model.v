(** Model of the file formats FANN (/repo/src/FANN.cpp) and LibSVM (/repo/src/LibSVM.cpp) on streams of characters.
    Simplification: the files exist and can be read and written. *)
From Coq Require Import Ascii.
From Verif Require Import Base Matrix IO_Model Text_Model.

Definition newline : text := ["010"%char].
Definition blank : text := [" "%char].

(** * Eigen's operator<<: all entries have the width of the longest one and are separated by blanks in a row and by ends of lines
    between rows *)
Definition pad (width : nat) (t : text) : text := repeat " "%char (width - length t) ++ t.
Fixpoint join (separator : text) (ts : list text) : text :=
  match ts with [] => [] | [t] => t | t :: ts => t ++ separator ++ join separator ts end.
Definition aligned (separator : text) (ts : list text) : text :=
  let width := fold_right Nat.max 0 (map (@length ascii) ts) in join separator (map (pad width) ts).
(** [stream << m.row(n)] *)
Definition rowText (m : mat) (n : nat) : res text :=
  ts <- for_ (cols m) (fun j ts => x <- mget m n j ;; Ok (ts ++ [printDouble x])) [] ;;
  Ok (aligned blank ts).

(** * FANN *)
(** save, FANN.cpp 49-63 *)
Definition fannSaveText (inp out : mat) : res text :=
  _ <- check (Nat.eqb (rows inp) (rows out)) ;;
  for_ (rows inp) (fun n t =>
    r1 <- rowText inp n ;;
    r2 <- rowText out n ;;
    Ok (t ++ r1 ++ newline ++ r2 ++ newline))
    (printNat (rows inp) ++ blank ++ printNat (cols inp) ++ blank ++ printNat (cols out) ++ newline).

(** [stream >> n] for a size, [stream >> x] for an entry.  A negative size makes Eigen abort.
    Simplification: after a failing extraction the variables or entries do not have the values of the file, which is UB here. *)
Definition getSize (s : textstream) : res (nat * textstream) :=
  match extractInt s with
  | (Some z, s) => if Z.leb 0 z then Ok (Z.to_nat z, s) else Abort
  | (None, _) => UB
  end.
Definition getReal (s : textstream) : res (R * textstream) :=
  match extractDouble s with (Some x, s) => Ok (x, s) | (None, _) => UB end.

(** load, FANN.cpp 21-38; [junk] is the content of freshly allocated memory *)
Definition fannLoadText (junk : nat -> nat -> R) (s : textstream) : res (nat * mat * mat * textstream) :=
  ' (N, s) <- getSize s ;;
  ' (D, s) <- getSize s ;;
  ' (F, s) <- getSize s ;;
  ' (inp, out, s) <- for_ N (fun n st =>
      let '(inp, out, s) := st in
      ' (inp, s) <- for_ D (fun d st =>
          let '(inp, s) := st in
          ' (x, s) <- getReal s ;;
          inp <- mset inp n d x ;; Ok (inp, s)) (inp, s) ;;
      ' (out, s) <- for_ F (fun f st =>
          let '(out, s) := st in
          ' (x, s) <- getReal s ;;
          out <- mset out n f x ;; Ok (out, s)) (out, s) ;;
      Ok (inp, out, s)) (mresize junk N D, mresize junk N F, s) ;;
  Ok (N, inp, out, s).

(** * LibSVM *)
(** save, LibSVM.cpp 130-153 *)
Definition svmSaveText (inp out : mat) : res text :=
  _ <- check (Nat.eqb (rows inp) (rows out)) ;;
  for_ (rows inp) (fun i t =>
    label <- (if Nat.ltb 1 (cols out)
              then k <- rowMax out i ;; Ok (printNat k)
              else x <- mget out i 0 ;; Ok (printDouble x)) ;;
    line <- for_ (cols inp) (fun j line =>
        x <- mget inp i j ;;
        Ok (if Rltb 0 (Rabs x) then line ++ blank ++ printNat (j + 1) ++ ":"%char :: printDouble x else line)) label ;;
    Ok (t ++ line ++ newline)) [].

(** [atoi(w.substr(0, w.find_first_of(':')))] and [atof(w.substr(w.find_first_of(':') + 1))], LibSVM.cpp 50, 57, 101-103 *)
Definition textInt (w : text) : Z := atoi (fst (splitColon w)).
Definition textReal (w : text) : R := atof (match snd (splitColon w) with Some v => v | None => w end).

(** what the first pass collects, LibSVM.cpp 27-66; the empty string in [tFeatures] ends an instance *)
Record textCollected := mkTColl { tFeatures : list text; tTargets : list Z; tMinimal : Z; tInstances : nat }.
Definition firstPassText (t : text) (colsArg : nat) : res textCollected :=
  for_each (linesOf t) (fun buffer c =>
    match wordsOf (length buffer) buffer with
    | [] => Ok c
    | classStr :: rest =>
        Ok (mkTColl (tFeatures c ++ rest ++ [[]])
                    (tTargets c ++ [atoi classStr])
                    (Z.max (tMinimal c) (textInt (last rest classStr)))
                    (S (tInstances c)))
    end) (mkTColl [] [] (Z.of_nat colsArg) 0).

(** load, LibSVM.cpp 25-119.  [in.resize(instances, minimal_features)]: cols is not negative, so the number of columns is not either. *)
Definition svmLoadText (t : text) (colsArg : nat) : res (nat * mat * mat) :=
  c <- firstPassText t colsArg ;;
  let classes := classCount (tTargets c) in
  let multi := Nat.ltb 2 classes in
  let inp := mzero (tInstances c) (Z.to_nat (tMinimal c)) in
  let out := mzero (tInstances c) (if multi then classes else 1) in
  out <- for_ (length (tTargets c)) (fun i out =>
    t <- vget (tTargets c) i ;;
    if multi then k <- zidx (t - 1) ;; mset out i k 1%R
    else mset out i 0 (IZR t)) out ;;
  ' (inp, _) <- for_each (tFeatures c) (fun tok s =>
    let '(inp, row) := s in
    match tok with
    | _ :: _ =>
        let index := textInt tok in
        let index := if Nat.ltb 1 classes then (index - 1)%Z else index in
        k <- zidx index ;;
        inp <- mset inp row k (textReal tok) ;; Ok (inp, row)
    | [] => Ok (inp, S row)
    end) (inp, 0) ;;
  _ <- check (Nat.eqb (rows inp) (rows out)) ;;
  Ok (tInstances c, inp, out).
