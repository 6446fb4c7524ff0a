(** Double precision: max-pooling, /repo/src/MaxPooling.cpp 51-125, with all doubles: NaN and infinity included.  (Pool_Model models the same
    functions with real numbers.)  Doubles as in Float_Model; the loops are those of Pool_Model. *)
From Coq Require Import ZArith List.
From Flocq Require Import Core BinarySingleNaN.
From Verif Require Import Base Activation_Model Float_Model Pool_Model.

(** Eigen::MatrixXd *)
Record dmat := mkDmat { drows : nat; dcols : nat; dat : nat -> nat -> double }.
Definition dmget (m : dmat) (i j : nat) : res double :=
  if (Nat.ltb i (drows m) && Nat.ltb j (dcols m))%bool then Ok (dat m i j) else UB.
Definition dmset (m : dmat) (i j : nat) (x : double) : res dmat :=
  if (Nat.ltb i (drows m) && Nat.ltb j (dcols m))%bool
  then Ok (mkDmat (drows m) (dcols m) (fun a b => if (Nat.eqb a i && Nat.eqb b j)%bool then x else dat m a b)) else UB.

(** - std::numeric_limits<double>::max(), which is -(2 ^ 53 - 1) * 2 ^ 971 *)
Definition lowest : double := @B754_finite 53 1024 true 9007199254740991 971 eq_refl.

(** forwardPropagate, lines 51-85; [y] is the member with N rows after conservativeResize; std::max(m, v) is v if m < v and m otherwise.
    dropout has no effect. *)
Definition d_maxp_forward (g : pgeom) (y : dmat) (x : dmat) : res dmat :=
  _ <- check (Nat.eqb (dcols x) (pfm g * pinRows g * pinCols g)) ;;
  _ <- check (Nat.eqb (dcols y) (pfm g * poutRows g * poutCols g)) ;;
  for_ (drows x) (fun n y =>
    pool g (fun fmo ro co inputIdx outputIdx y =>
      m <- region g inputIdx (fun inputIdx m =>
             v <- dmget x n inputIdx ;; Ok (if dltb m v then v else m)) lowest ;;
      dmset y n outputIdx m) y) y.

(** backpropagate, lines 87-125; [x] is the last input, [e] the member with N rows after conservativeResize; [idx] is -1 at first.  [a > b]
    is [b < a]. *)
Definition d_maxp_backward (g : pgeom) (e : dmat) (x ein : dmat) : res dmat :=
  let N := drows x in
  for_ N (fun n e =>
    pool g (fun fmo ro co inputIdx outputIdx e =>
      ' (m, idx) <- region g inputIdx (fun inputIdx st =>
             let '(m, idx) := st in
             v <- dmget x n inputIdx ;;
             Ok (if dltb m v then (v, Z.of_nat inputIdx) else (m, idx))) (lowest, (-1)%Z) ;;
      d <- dmget ein n outputIdx ;;
      idx <- zidx idx ;;
      dmset e n idx d) e) (mkDmat N (dcols e) (fun _ _ => dint 0)).
