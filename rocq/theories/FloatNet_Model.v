(** Double precision: fully connected layers (/repo/src/FullyConnected.cpp), networks of such layers (/repo/src/Net.cpp 617-627) and the
    mean squared error (/repo/OpenANN/ErrorFunctions.h).  The simplifications are those of Float_Model; in particular a product and the
    following addition are not fused.  Matrices are lists of rows. *)
From Coq Require Import ZArith.
From Flocq Require Import Core BinarySingleNaN.
From Verif Require Import Base Activation_Model Float_Model.

(** W, b (None: no bias) and act of a layer, FullyConnected.h 64-70 *)
Record dlayer := mkDlayer { weightRows : list (list double); biasVector : option (list double); actOf : ActivationFunction }.

Section Functions.
Variable m : libm.

Definition indexed {A} (l : list A) : list (nat * A) := combine (seq 0 (length l)) l.
(** A coefficient of Eigen's matrix product: the sum of the products, 0 if there are none.  [sum] is the order of the summation, which
    Eigen chooses for every coefficient (Float_Spec). *)
Definition d_dot (sum : list double -> double) (x w : list double) : double :=
  match map (fun p => dmult (fst p) (snd p)) (combine x w) with
  | [] => dint 0
  | l => sum l
  end.
(** FullyConnected::forwardPropagate for one instance, lines 69-74: a = x * W^T, a += b, y = g(a) *)
Definition d_instance (sum : nat -> list double -> double) (l : dlayer) (x : list double) : list double :=
  let a := map (fun q => d_dot (sum (fst q)) x (snd q)) (indexed (weightRows l)) in
  let a := match biasVector l with
           | None => a
           | Some b => map (fun p => dplus (fst p) (snd p)) (combine a b)
           end in
  map (d_act m (actOf l)) a.
(** Eigen asserts that the sizes of the factors fit (line 70) and that b has as many entries as a has columns (line 72) *)
Definition d_fits (l : dlayer) (x : list double) : bool :=
  forallb (fun w => length w =? length x) (weightRows l) &&
  match biasVector l with None => true | Some b => length b =? length (weightRows l) end.
(** forwardPropagate for a batch, lines 63-81, without the penalties, which are added to the error only *)
Definition d_forward (sum : nat -> nat -> list double -> double) (l : dlayer) (X : list (list double)) : res (list (list double)) :=
  if forallb (d_fits l) X then Ok (map (fun q => d_instance (sum (fst q)) l (snd q)) (indexed X)) else Abort.
(** Net::forwardPropagate, Net.cpp 617-627: the output of a layer is the input of the next one.  Only fully connected layers, regression. *)
Fixpoint d_net (sum : nat -> nat -> nat -> list double -> double) (layers : list dlayer) (X : list (list double)) : res (list (list double)) :=
  match layers with
  | [] => Ok X
  | l :: ls =>
      bind (d_forward (sum O) l X) (fun Y => d_net (fun k => sum (S k)) ls Y)
  end.

(** meanSquaredError, ErrorFunctions.h 30-34, of the differences; the sum of an empty matrix is 0 *)
Definition d_meanSquaredError (sum : list double -> double) (D : list (list double)) : double :=
  ddiv (match map (fun d => dmult d d) (concat D) with [] => dint 0 | l => sum l end) (dmult (dint 2) (dint (Z.of_nat (length D)))).
End Functions.
