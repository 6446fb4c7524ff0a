(** Model of /repo/src/SigmaPi.cpp and of the pure constraints in
    /repo/OpenANN/layers/SigmaPiConstraints.h. *)
From Verif Require Import Base BaseFacts Matrix RSum MatOps Activation_Model Layer_Model.
Local Open Scope R_scope.

(** struct HigherOrderUnit and HigherOrderNeuron, SigmaPi.h 31-37 *)
Record hounit := mkUnit { uposition : list nat; uweight : nat }.
Notation neuron := (list hounit).

(** struct Constraint, SigmaPi.h 80-102 and SigmaPi.cpp 8-30: [None] is the struct
    NoConstraint (SigmaPi.cpp 33-39, isDefault), [Some f] calls operator() with the listed
    positions.  Simplification: the operator has no state, which excludes
    TriangleConstraint (see Triangle_Model.v). *)
Definition constraint := option (list nat -> res R).

(** class SigmaPi, SigmaPi.h 28-53; [spI] is info.outputs() *)
Record sp := mkSP {
  spI : nat; spbias : bool; spact : ActivationFunction;
  spx : mat; spa : mat; spy : mat; spyd : mat; spdeltas : mat; spe : mat;
  spw : list R; spwd : list R; spnodes : list neuron }.

Definition nbit (b : bool) : nat := if b then 1 else 0.

(** the search for a unit with the same weight, lines 220-227, 283-290, 351-358: the first
    unit of the neuron whose weight is within 0.001 of [ref] *)
Fixpoint findUnit (w : list R) (n : neuron) (ref : R) : res (option hounit) :=
  match n with
  | [] => Ok None
  | u :: n' =>
      v <- vget w (uweight u) ;;
      if Rltb (Rabs (v - ref)) 0.001 then Ok (Some u) else findUnit w n' ref
  end.

(** the body of the innermost loops, lines 210-248 (order 2), 272-311 (3) and 339-379
    (4): append a unit to the neuron and, unless it shares the weight of an earlier unit,
    a weight *)
Definition addUnit (c : constraint) (pos : list nat) (st : list R * list R * neuron)
    : res (list R * list R * neuron) :=
  let '(w, wd, n) := st in
  match c with
  | Some f =>
      ref <- f pos ;;
      found <- findUnit w n ref ;;
      match found with
      | Some u => Ok (w, wd, n ++ [mkUnit pos (uweight u)])
      | None => Ok (w ++ [ref], wd ++ [ref], n ++ [mkUnit pos (length w)])
      end
  | None => Ok (w ++ [0], wd ++ [0], n ++ [mkUnit pos (length w)])
  end.

(** The loops over the positions: lines 206-208, 266-270, 331-337; [range a b] is
    a, ..., b - 1. *)
Definition range (a b : nat) : list nat := seq a (b - a).
Definition positions2 (I : nat) : list (list nat) :=
  flat_map (fun p1 => map (fun p2 => [p1; p2]) (range (p1 + 1) I)) (range 0 (I - 1)).
Definition positions3 (I : nat) : list (list nat) :=
  flat_map (fun p1 => flat_map (fun p2 => map (fun p3 => [p1; p2; p3]) (range (p2 + 1) I))
    (range (p1 + 1) (I - 1))) (range 0 (I - 2)).
Definition positions4 (I : nat) : list (list nat) :=
  flat_map (fun p1 => flat_map (fun p2 => flat_map (fun p3 =>
    map (fun p4 => [p1; p2; p3; p4]) (range (p3 + 1) I))
    (range (p2 + 1) (I - 1))) (range (p1 + 1) (I - 2))) (range 0 (I - 3)).

(** the body of the loop over the neurons *)
Definition addNeuron (ps : list (list nat)) (c : constraint) (s : sp) : res sp :=
  ' (w, wd, n) <- for_each ps (addUnit c) (spw s, spwd s, []) ;;
  Ok (mkSP (spI s) (spbias s) (spact s) (spx s) (spa s) (spy s) (spyd s) (spdeltas s) (spe s)
        w wd (spnodes s ++ [n])).

(** secondOrderNodes, lines 198-256; thirdOrderNodes, 258-320; fourthOrderNodes, 323-389.
    (The versions without a constraint, lines 178-194, pass a NoConstraint.) *)
Definition secondOrderNodes (numbers : nat) (c : constraint) (s : sp) : res sp :=
  for_ numbers (fun _ => addNeuron (positions2 (spI s + nbit (spbias s))) c) s.
Definition thirdOrderNodes (numbers : nat) (c : constraint) (s : sp) : res sp :=
  for_ numbers (fun _ => addNeuron (positions3 (spI s + nbit (spbias s))) c) s.
Definition fourthOrderNodes (numbers : nat) (c : constraint) (s : sp) : res sp :=
  for_ numbers (fun _ => addNeuron (positions4 (spI s + nbit (spbias s))) c) s.

(** addresses of the coefficients *)
Inductive sploc := PW (i : nat) | PWd (i : nat).
Definition sp_load (s : sp) (l : sploc) : res R :=
  match l with PW i => vget (spw s) i | PWd i => vget (spwd s) i end.
Definition sp_store (s : sp) (l : sploc) (v : R) : res sp :=
  let set w wd := mkSP (spI s) (spbias s) (spact s) (spx s) (spa s) (spy s) (spyd s) (spdeltas s) (spe s)
                    w wd (spnodes s) in
  match l with
  | PW i => w <- vset (spw s) i v ;; Ok (set w (spwd s))
  | PWd i => wd <- vset (spwd s) i v ;; Ok (set (spw s) wd)
  end.

(** initialize, lines 155-163: the pointers *)
Definition sp_initialize (s : sp) : list sploc * list sploc :=
  (map PW (seq 0 (length (spw s))), map PWd (seq 0 (length (spw s)))).

Section SP.
(** indeterminate values of new coefficients, and random numbers *)
Variable junk : nat -> nat -> R.

(** constructor, lines 43-49; the bias coefficient of x (line 48) is overwritten with 0 by
    every forward pass *)
Definition sp_new (I : nat) (bias : bool) (act : ActivationFunction) : sp :=
  mkSP I bias act (mkMat 1 (I + nbit bias) (fun i j => if Nat.eqb j I then 1 else junk i j))
    (mkMat 0 0 junk) (mkMat 0 0 junk) (mkMat 0 0 junk) (mkMat 0 0 junk) (mkMat 1 I junk) [] [] [].

(** initialize, lines 165-170, and initializeParameters, lines 52-58 *)
Definition sp_setup (s : sp) : res sp :=
  let J := length (spnodes s) in
  w <- for_ J (fun i w =>
         n <- vget (spnodes s) i ;;
         for_ (length n) (fun j w => u <- vget n j ;; vset w (uweight u) (junk i j)) w) (spw s) ;;
  Ok (mkSP (spI s) (spbias s) (spact s) (spx s) (mkMat 1 J junk) (mkMat 1 (J + nbit (spbias s)) junk)
        (mkMat 1 J junk) (mkMat 1 J junk) (spe s) w (spwd s) (spnodes s)).

(** [n = &v.front(); n <= &v.back()] on an empty vector is undefined *)
Definition nonempty {A} (l : list A) : res unit := match l with [] => UB | _ => Ok tt end.

(** the correlation of a unit: the product of the inputs at its positions, lines 86-91 and
    130-137 *)
Definition correlation (x : mat) (n : nat) (u : hounit) : res R :=
  for_each (uposition u) (fun k c => v <- mget x n k ;; Ok (c * v)) 1.

(** forwardPropagate, lines 65-103.  The sum uses the argument x, not the copy with the
    bias column. *)
Definition sp_forward (s : sp) (x : mat) (dropout : bool) : res (sp * mat * R) :=
  let N := rows x in
  let x' := mconsresize junk (spx s) N (cols (spx s)) in
  let a := mconsresize junk (spa s) N (cols (spa s)) in
  x' <- (if Nat.ltb 0 (cols x')
         then Ok (mkMat N (cols x') (fun i j => if Nat.eqb j (cols x' - 1) then 0 else at_ x' i j))
         else Abort) ;;
  let y := mconsresize junk (spy s) N (cols (spy s)) in
  x' <- msetLeftCols x' (spI s) x ;;
  a <- for_ N (fun instance a =>
    _ <- nonempty (spnodes s) ;;
    for_ (length (spnodes s)) (fun i a =>
      n <- vget (spnodes s) i ;;
      _ <- nonempty n ;;
      sum <- for_each n (fun u sum =>
        c <- correlation x instance u ;;
        w <- vget (spw s) (uweight u) ;;
        Ok (sum + w * c)) 0 ;;
      mset a instance i sum) a) a ;;
  y <- activationFunction (spact s) a y ;;
  Ok (mkSP (spI s) (spbias s) (spact s) x' a y (spyd s) (spdeltas s) (spe s) (spw s) (spwd s) (spnodes s), y, 0).

(** backpropagate, lines 106-147.  The error is always propagated. *)
Definition sp_backward (s : sp) (ein : mat) (bp : bool) : res (sp * mat) :=
  let N := rows (spa s) in
  let e := mzero N (cols (spe s)) in
  let deltas := mconsresize junk (spdeltas s) N (cols (spdeltas s)) in
  let yd := mconsresize junk (spyd s) N (cols (spyd s)) in
  let wd := map (fun _ => 0) (spwd s) in
  yd <- activationFunctionDerivative (spact s) (spy s) yd ;;
  ' (deltas, (e, wd)) <- for_ N (fun instance st =>
    _ <- nonempty (spnodes s) ;;
    for_ (length (spnodes s)) (fun i st =>
      let '(deltas, ewd) := st in
      n <- vget (spnodes s) i ;;
      ei <- mget ein instance i ;;
      d <- mget yd instance i ;;
      deltas <- mset deltas instance i (ei * d) ;;
      _ <- nonempty n ;;
      ewd <- for_each n (fun u ewd =>
        let '(e, wd) := ewd in
        w <- vget (spw s) (uweight u) ;;
        delta <- mget deltas instance i ;;
        ' (c, e) <- for_each (uposition u) (fun index ce =>
          let '(c, e) := ce in
          v <- mget (spx s) instance index ;;
          e <- madd e instance index (w * delta) ;;
          Ok (c * v, e)) (1, e) ;;
        g <- vget wd (uweight u) ;;
        wd <- vset wd (uweight u) (g + delta * c) ;;
        Ok (e, wd)) ewd ;;
      Ok (deltas, ewd)) st) (deltas, (e, wd)) ;;
  Ok (mkSP (spI s) (spbias s) (spact s) (spx s) (spa s) (spy s) yd deltas e (spw s) wd (spnodes s), e).

(** updatedParameters is empty, lines 61-63 *)
Definition sp_class : LayerClass :=
  mkClass sp sploc sp_initialize sp_load sp_store (fun s => Ok s) sp_forward sp_backward.
End SP.

(** getParameters, lines 391-394 *)
Definition sp_getParameters (s : sp) : res (list R) := Throw.

(** * SigmaPiConstraints.h *)

(** DistanceConstraint::operator(), lines 23-34.  [p % width] and [p / width] with width 0
    are undefined. *)
Definition distanceConstraint (width height : nat) : constraint := Some (fun pos =>
  match pos with
  | [p1; p2] =>
      if Nat.eqb width 0 then UB else
      let x1 := INR (p1 mod width) in
      let y1 := INR (p1 / width) in
      let x2 := INR (p2 mod width) in
      let y2 := INR (p2 / width) in
      _ <- check (Rltb y1 (INR height)) ;;
      _ <- check (Rltb y2 (INR height)) ;;
      Ok ((x1 - x2) * (x1 - x2) + (y1 - y2) * (y1 - y2))
  | _ => Throw
  end).

(** SlopeConstraint::operator(), lines 54-65 *)
Definition slopeConstraint (width height : nat) : constraint := Some (fun pos =>
  match pos with
  | [p1; p2] =>
      if Nat.eqb width 0 then UB else
      let x1 := INR (p1 mod width) in
      let y1 := INR (p1 / width) in
      let x2 := INR (p2 mod width) in
      let y2 := INR (p2 / width) in
      _ <- check (Rltb y1 (INR height)) ;;
      _ <- check (Rltb y2 (INR height)) ;;
      Ok (if Reqb x1 x2 then PI / 2 else atan ((y2 - y1) / (x2 - x1)))
  | _ => Throw
  end).
