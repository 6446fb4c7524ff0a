(** Double precision: the gradient of the mean squared error and of the cross entropy of a network of fully connected layers, Net::errorGradient
    (/repo/src/Net.cpp 577-602), Net::backpropagate (629-640) and FullyConnected::backpropagate (/repo/src/FullyConnected.cpp 83-107).
    Simplifications: those of FloatNet_Model; no penalties; the sizes fit (FloatNet_Model checks them).  The matrices of a batch are
    lists of rows, one for each instance.  Eigen chooses the order of each sum: [sf], [sb], [sw] and [sd]. *)
From Coq Require Import ZArith.
From Flocq Require Import Core BinarySingleNaN.
From Verif Require Import Base Activation_Model Float_Model FloatNet_Model.

(** column i of a list of rows *)
Definition column {A} (i : nat) (rows : list (list A)) : list A :=
  flat_map (fun r => match nth_error r i with Some v => [v] | None => [] end) rows.

Section Functions.
Variable m : libm.

(** a row of deltas = yd.cwiseProduct(ein), FullyConnected.cpp 90-91 *)
Definition d_delta (l : dlayer) (y ein : list double) : list double :=
  map (fun p => dmult (d_actDerivative (actOf l) (fst p)) (snd p)) (combine y ein).
(** a row of e = deltas * W, line 103; [I] is the number of columns of W *)
Definition d_eout (sum : nat -> list double -> double) (l : dlayer) (I : nat) (delta : list double) : list double :=
  map (fun i => d_dot (sum i) delta (column i (weightRows l))) (seq 0 I).
(** One instance: forward propagation, the error signal [err] of the outputs (Net.cpp 594) and backpropagation.  Returns the row of deltas
    and the input of each layer, and the row of e of the first layer (which the code does not compute, because it is not used: line 637). *)
Fixpoint d_back (sf sb : nat -> nat -> list double -> double) (err : list double -> list double) (layers : list dlayer) (x : list double)
  : list (list double * list double) * list double :=
  match layers with
  | [] => ([], err x)
  | l :: ls =>
      let y := d_instance m (sf O) l x in
      let (trace, ein) := d_back (fun k => sf (S k)) (fun k => sb (S k)) err ls y in
      let delta := d_delta l y ein in
      ((delta, x) :: trace, d_eout (sb O) l (length x) delta)
  end.
(** The derivatives of a layer, FullyConnected.cpp 92-95: Wd = deltas^T * x, bd = deltas.colwise().sum(), and grad /= N, Net.cpp 599-601.
    [pairs] contains the row of deltas and the row of the input for each instance. *)
Definition d_layerGradient (sw : nat -> nat -> list double -> double) (sd : nat -> list double -> double) (N : nat) (l : dlayer)
  (pairs : list (list double * list double)) : list (list double) * option (list double) :=
  let deltas := map fst pairs in
  let xs := map snd pairs in
  (map (fun q => map (fun i => ddiv (d_dot (sw (fst q) i) (column (fst q) deltas) (column i xs)) (dint (Z.of_nat N))) (seq 0 (length (snd q))))
     (indexed (weightRows l)),
   match biasVector l with
   | None => None
   | Some b => Some (map (fun j => ddiv (match column j deltas with [] => dint 0 | c => sd j c end) (dint (Z.of_nat N))) (seq 0 (length b)))
   end).
(** Net::errorGradient for a batch with the inputs [X] and the targets [T]; [err] computes row q of tempError from the outputs of the last
    layer and the targets *)
Definition d_gradientWith (sf sb : nat -> nat -> nat -> list double -> double) (sw : nat -> nat -> nat -> list double -> double)
  (sd : nat -> nat -> list double -> double) (err : nat -> list double -> list double -> list double) (layers : list dlayer) (X T : list (list double))
  : list (list (list double) * option (list double)) :=
  let traces := map (fun q => fst (d_back (sf (fst q)) (sb (fst q)) (fun y => err (fst q) y (snd (snd q))) layers (fst (snd q)))) (indexed (combine X T)) in
  map (fun q => d_layerGradient (sw (fst q)) (sd (fst q)) (length X) (snd q) (column (fst q) traces)) (indexed layers).
(** tempError = tempOutput - T, Net.cpp 594 *)
Definition d_difference (y t : list double) : list double := map (fun p => dminus (fst p) (snd p)) (combine y t).
(** the mean squared error *)
Definition d_gradient sf sb sw sd := d_gradientWith sf sb sw sd (fun _ => d_difference).
(** the cross entropy: the rows of tempOutput are those of the softmax of the outputs of the last layer, lines 624-626; [sum] is the order
    of the sums of softmax *)
Definition d_gradientCE (sf sb : nat -> nat -> nat -> list double -> double) (sw : nat -> nat -> nat -> list double -> double)
  (sd : nat -> nat -> list double -> double) (sum : list double -> double) (layers : list dlayer) (X T : list (list double))
  : res (list (list (list double) * option (list double))) :=
  bind (d_net m (fun k q => sf q k) layers X) (fun Y =>
  bind (d_softmax m sum Y) (fun Z =>
  Ok (d_gradientWith sf sb sw sd (fun q _ t => match nth_error Z q with Some z => d_difference z t | None => [] end) layers X T))).
End Functions.
