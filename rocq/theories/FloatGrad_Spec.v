(** What the theorems about gradients in double precision (C103) refer to. *)
From Flocq Require Import Core BinarySingleNaN.
From Verif Require Import Base Activation_Model Float_Model Float_Spec FloatNet_Model FloatNet_Spec FloatGrad_Model.
Local Open Scope R_scope.

(** Networks with real weights, and their error: for the mean squared error half of the sum of the squared differences of outputs and
    targets, averaged over the batch *)
Record rlayer := mkRlayer { rweights : list (list R); rbiases : list R; ract : ActivationFunction }.
Definition asReal (l : dlayer) : rlayer := mkRlayer (map (map val) (weightRows l)) (biases l) (actOf l).
Definition dotR (u v : list R) : R := total (map (fun p => fst p * snd p) (combine u v)).
Definition rOutput (l : rlayer) (x : list R) : list R :=
  map (fun p => sigma (ract l) (dotR (fst p) x + snd p)) (combine (rweights l) (rbiases l)).
Definition rNet (ls : list rlayer) (x : list R) : list R := fold_left (fun x l => rOutput l x) ls x.
(** the mean over a batch of any function [loss] of outputs and targets *)
Definition meanLoss (loss : list R -> list R -> R) (ls : list rlayer) (X T : list (list R)) : R :=
  total (map (fun p => loss (rNet ls (fst p)) (snd p)) (combine X T)) / INR (length X).
Definition squaredError (y t : list R) : R := total (map (fun p => (fst p - snd p) * (fst p - snd p)) (combine y t)) / 2.
Definition meanError : list rlayer -> list (list R) -> list (list R) -> R := meanLoss squaredError.
(** the cross entropy of the softmax of the outputs *)
Definition softmaxOf (y : list R) : list R := map (fun v => exp v / total (map exp y)) y.
Definition crossEntropyOf (y t : list R) : R := - total (map (fun p => snd p * ln (fst p)) (combine (softmaxOf y) t)).

(** the network with another weight i of unit j in layer k, or another bias *)
Definition update {A} (i : nat) (v : A) (l : list A) : list A := firstn i l ++ v :: skipn (S i) l.
Definition setWeight (ls : list rlayer) (k j i : nat) (v : R) : list rlayer :=
  match nth_error ls k with
  | Some l =>
      match nth_error (rweights l) j with
      | Some r => update k (mkRlayer (update j (update i v r) (rweights l)) (rbiases l) (ract l)) ls
      | None => ls
      end
  | None => ls
  end.
Definition setBias (ls : list rlayer) (k j : nat) (v : R) : list rlayer :=
  match nth_error ls k with
  | Some l => update k (mkRlayer (rweights l) (update j v (rbiases l)) (ract l)) ls
  | None => ls
  end.

(** the number of outputs of a network with I inputs *)
Definition outputs (I : nat) (layers : list dlayer) : nat := fold_left (fun _ l => length (weightRows l)) layers I.

(** Bounds on the derivatives with respect to the outputs of a layer (back) and with respect to the activations of its units (delta), if
    [k] layers are above it: their magnitude, and the deviation of computed from exact ones.  [g] and [h] are these bounds for the
    differences of outputs and targets; [e] is the deviation of all outputs of layers, of which the slope has twice the deviation. *)
Fixpoint backMagnitude (n w g : R) (k : nat) : R :=
  match k with
  | O => g
  | S k => 1.2 * (n * w * (1.25 * backMagnitude n w g k + 1 / 10 ^ 20) + w) + 1
  end.
Definition deltaMagnitude (n w g : R) (k : nat) : R := 1.25 * backMagnitude n w g k + 1 / 10 ^ 20.
Fixpoint backDeviation (n w g h e : R) (k : nat) : R :=
  match k with
  | O => h
  | S k =>
      n * w * (1.15 * backDeviation n w g h e k + (2 * e + 2 / 10 ^ 11) * backMagnitude n w g k + 1 / 10 ^ 20)
      + (2 * n + 2) / 2 ^ 52 * (n * w * deltaMagnitude n w g k + w) + 1 / 10 ^ 20
  end.
Definition deltaDeviation (n w g h e : R) (k : nat) : R :=
  1.15 * backDeviation n w g h e k + (2 * e + 2 / 10 ^ 11) * backMagnitude n w g k + 1 / 10 ^ 20.
(** the mean over N instances of the products of two numbers up to a and b, whose deviations are da and db *)
Definition meanDeviation (N : nat) (a da b db : R) : R := a * db + da * b + (2 * INR N + 2) / 2 ^ 52 * (a * b) + 1 / 10 ^ 20.
