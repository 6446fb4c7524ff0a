(** What the theorems about networks in double precision (C102) refer to. *)
From Flocq Require Import Core BinarySingleNaN.
From Verif Require Import Base Activation_Model Float_Model Float_Spec FloatNet_Model.
Local Open Scope R_scope.

(** The functions that layers and networks with the given weights represent, in real numbers: y = g(W x + b) *)
Definition biases (l : dlayer) : list R :=
  match biasVector l with Some b => map val b | None => map (fun _ => 0) (weightRows l) end.
Definition inner (w : list double) (x : list R) : R := total (map (fun p => val (fst p) * snd p) (combine w x)).
Definition exactLayer (l : dlayer) (x : list R) : list R :=
  map (fun p => sigma (actOf l) (inner (fst p) x + snd p)) (combine (weightRows l) (biases l)).
Definition exactNet (layers : list dlayer) (x : list R) : list R := fold_left (fun x l => exactLayer l x) layers x.

(** a layer with I inputs *)
Definition takes (I : nat) (l : dlayer) : Prop :=
  (forall w, In w (weightRows l) -> length w = I) /\
  match biasVector l with Some b => length b = length (weightRows l) | None => True end.
(** a network with I inputs, whose layers fit *)
Fixpoint wellShaped (I : nat) (layers : list dlayer) : Prop :=
  match layers with
  | [] => True
  | l :: ls => takes I l /\ wellShaped (length (weightRows l)) ls
  end.
(** all weights and biases are finite and at most [w] *)
Definition weightsBelow (w : R) (l : dlayer) : Prop :=
  forall v, (exists r, In r (weightRows l) /\ In v r) \/ (exists b, biasVector l = Some b /\ In v b) -> finite v /\ Rabs (val v) <= w.

(** For layers with at most n inputs and weights up to w: a bound on the outputs of L layers whose inputs are at most x, and on the
    distance of computed outputs from exact ones if the distance of the inputs is e.  A layer magnifies a distance by 1.15 n w at most,
    1.15 being the largest slope of an activation function. *)
Fixpoint magnitude (n w x : R) (L : nat) : R :=
  match L with
  | O => x
  | S L => magnitude n w (1.2 * (n * w * x + w) + 1) L
  end.
Fixpoint deviation (n w x e : R) (L : nat) : R :=
  match L with
  | O => e
  | S L => deviation n w (1.2 * (n * w * x + w) + 1)
      (1.15 * (n * w * e + (2 * n + 2) / 2 ^ 52 * (n * w * x + w) + 1 / 10 ^ 20) + 1 / 10 ^ 12) L
  end.
