(** Model of struct TriangleConstraint, /repo/OpenANN/layers/SigmaPiConstraints.h 71-166,
    and of SigmaPi layers that use such constraints.  An object of this struct changes in
    its (const) call operator. *)
From Verif Require Import Base BaseFacts RSum Matrix MatOps Activation_Model Layer_Model SigmaPi_Model.
Local Open Scope R_scope.

(** struct AngleTuple, lines 74-95.  The angles are the values of [floor], that is integers,
    and two integers that differ by at most 0.001 are equal: operator< is the lexicographic
    order, so keys of the map are equal exactly if they are equal as triples. *)
Notation key := (Z * Z * Z)%type.
Definition key_eqb (a b : key) : bool :=
  let '(a1, a2, a3) := a in let '(b1, b2, b3) := b in (Z.eqb a1 b1 && Z.eqb a2 b2 && Z.eqb a3 b3)%bool.

(** the std::map [partition], line 161: a list without two entries for one key *)
Definition partition := list (key * nat).
Fixpoint mfind (p : partition) (k : key) : option nat :=
  match p with
  | [] => None
  | (k', v) :: p' => if key_eqb k k' then Some v else mfind p' k
  end.
(** [p[k] = v] *)
Fixpoint minsert (p : partition) (k : key) (v : nat) : partition :=
  match p with
  | [] => [(k, v)]
  | (k', v') :: p' => if key_eqb k k' then (k, v) :: p' else (k', v') :: minsert p' k v
  end.

(** an angle, lines 136-138: [num] / (-2 sqrt([n])); rounding errors, which could make the
    argument of acos greater than 1, are not modelled *)
Definition angle (resolution : R) (num n : Z) : Z :=
  Zfloor (acos (IZR num / (-2 * sqrt (IZR n))) / resolution).

(** lines 114-142: the squares of the lengths of the sides [as], [bs], [cs] *)
Definition sides (width p1 p2 p3 : nat) : Z * Z * Z :=
  let x p := Z.of_nat (p mod width) in
  let y p := Z.of_nat (p / width) in
  let x1 := x p1 in let y1 := y p1 in
  let '(x2, y2, x3, y3) := if Z.ltb (x p2) (x p3) then (x p3, y p3, x p2, y p2) else (x p2, y p2, x p3, y p3) in
  (((x2 - x3) * (x2 - x3) + (y2 - y3) * (y2 - y3))%Z,
   ((x1 - x2) * (x1 - x2) + (y1 - y2) * (y1 - y2))%Z,
   ((x1 - x3) * (x1 - x3) + (y1 - y3) * (y1 - y3))%Z).
Definition triangleKey (width : nat) (resolution : R) (p1 p2 p3 : nat) : key :=
  let '(as_, bs, cs) := sides width p1 p2 p3 in
  (angle resolution (as_ - bs - cs) (bs * cs), angle resolution (bs - cs - as_) (cs * as_),
   angle resolution (cs - as_ - bs) (as_ * bs)).

(** an object; the member [height] is not used *)
Record triangle := mkTri { twidth : nat; tresolution : R; tpartition : partition }.
(** constructor, lines 103-106 *)
Definition newTriangle (width : nat) (resolution : R) : triangle := mkTri width resolution [].

(** lines 112 and 140-165 for the key of the triple: the number and the new partition.
    [int nr = partition.size() / 3.0] rounds down. *)
Definition classify (p : partition) (t1 : key) : nat * partition :=
  let nr := (length p / 3)%nat in
  let '(alpha, beta, gamma) := t1 in
  match mfind p t1 with
  | Some v => (v, p)
  | None => (nr, minsert (minsert (minsert p t1 nr) (beta, gamma, alpha) nr) (gamma, alpha, beta) nr)
  end.

(** operator()(p1, p2, p3); division by a width of 0 is undefined; for two equal positions
    an angle is NaN, which is not modelled (UB); the other operators throw (SigmaPi.cpp
    8-24) *)
Definition tri_call (o : triangle) (pos : list nat) : res (R * triangle) :=
  match pos with
  | [p1; p2; p3] =>
      if (Nat.eqb (twidth o) 0 || Nat.eqb p1 p2 || Nat.eqb p2 p3 || Nat.eqb p1 p3)%bool then UB else
      let '(v, p) := classify (tpartition o) (triangleKey (twidth o) (tresolution o) p1 p2 p3) in
      Ok (INR v, mkTri (twidth o) (tresolution o) p)
  | _ => Throw
  end.

(** * Layers with TriangleConstraints
    The same functions as in SigmaPi_Model.v with a constraint that may change.  [objs] are
    the TriangleConstraint objects of the program, [Tri m] is a reference to number [m]. *)
Inductive kind := Pure (c : constraint) | Tri (m : nat).

(** the innermost loop body, SigmaPi.cpp 210-248, 272-311, 339-379 *)
Definition addUnitT (k : kind) (pos : list nat) (st : (list R * list R * neuron) * list triangle)
    : res ((list R * list R * neuron) * list triangle) :=
  let '(st, objs) := st in
  match k with
  | Pure c => st' <- addUnit c pos st ;; Ok (st', objs)
  | Tri m =>
      o <- vget objs m ;;
      ' (ref, o') <- tri_call o pos ;;
      objs' <- vset objs m o' ;;
      let '(w, wd, n) := st in
      found <- findUnit w n ref ;;
      match found with
      | Some u => Ok ((w, wd, n ++ [mkUnit pos (uweight u)]), objs')
      | None => Ok ((w ++ [ref], wd ++ [ref], n ++ [mkUnit pos (length w)]), objs')
      end
  end.

Definition addNeuronT (ps : list (list nat)) (k : kind) (so : sp * list triangle) : res (sp * list triangle) :=
  let '(s, objs) := so in
  ' ((w, wd, n), objs') <- for_each ps (addUnitT k) ((spw s, spwd s, []), objs) ;;
  Ok (mkSP (spI s) (spbias s) (spact s) (spx s) (spa s) (spy s) (spyd s) (spdeltas s) (spe s)
        w wd (spnodes s ++ [n]), objs').

(** secondOrderNodes 198-256, thirdOrderNodes 258-320, fourthOrderNodes 323-389 *)
Definition nodesT (positions : nat -> list (list nat)) (numbers : nat) (k : kind) (so : sp * list triangle)
    : res (sp * list triangle) :=
  for_ numbers (fun _ => addNeuronT (positions (spI (fst so) + nbit (spbias (fst so)))%nat) k) so.
Definition secondOrderNodesT := nodesT positions2.
Definition thirdOrderNodesT := nodesT positions3.
Definition fourthOrderNodesT := nodesT positions4.
