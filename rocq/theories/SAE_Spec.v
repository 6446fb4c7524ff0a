(** The objective of a sparse auto-encoder as a function of its parameter vector. *)
From Verif Require Import Base Matrix RSum Vec Activation_Model.
Local Open Scope R_scope.

Section Objective.
(** [D] inputs, [H] hidden units; weight of the sparsity penalty, desired mean activation,
    weight decay, activation function *)
Context (D H : nat) (beta rho lambda : R) (act : ActivationFunction).

(** The parameter vector holds the weights of the hidden layer (input by input), the weights
    of the output layer (hidden unit by hidden unit), and the two bias vectors. *)
Definition w1 (p : list R) (h d : nat) : R := p.[d * H + h].
Definition w2 (p : list R) (d h : nat) : R := p.[H * D + (h * D + d)].
Definition bias1 (p : list R) (h : nat) : R := p.[2 * D * H + h].
Definition bias2 (p : list R) (d : nat) : R := p.[2 * D * H + H + d].

(** hidden representation and reconstruction of an instance [x]; [..In] is the argument of the
    activation function *)
Definition hiddenIn (p : list R) (x : nat -> R) (h : nat) : R :=
  rsum D (fun d => x d * w1 p h d) + bias1 p h.
Definition hidden (p : list R) (x : nat -> R) (h : nat) : R := act_fun act (hiddenIn p x h).
Definition outIn (p : list R) (x : nat -> R) (d : nat) : R :=
  rsum H (fun h => hidden p x h * w2 p d h) + bias2 p d.
Definition reconstruction (p : list R) (x : nat -> R) (d : nat) : R := act_fun act (outIn p x d).

(** mean activation of hidden unit [h] over the rows of [X] *)
Definition meanActivation (p : list R) (X : mat) (h : nat) : R :=
  rsum (rows X) (fun n => hidden p (at_ X n) h) / INR (rows X).

(** Kullback-Leibler divergence of two coins *)
Definition KL (m : R) : R := rho * ln (rho / m) + (1 - rho) * ln ((1 - rho) / (1 - m)).

(** mean squared reconstruction error (halved), weight decay and sparsity penalty *)
Definition saeObjective (p : list R) (X : mat) : R :=
  rsum (rows X) (fun n => rsum D (fun d => (reconstruction p (at_ X n) d - at_ X n d) ^ 2)) / (2 * INR (rows X)) +
  lambda / 2 * (rsum H (fun h => rsum D (fun d => w1 p h d ^ 2)) +
                rsum D (fun d => rsum H (fun h => w2 p d h ^ 2))) +
  beta * rsum H (fun h => KL (meanActivation p X h)).

(** all mean activations are strictly between 0 and 1 *)
Definition meansProper (p : list R) (X : mat) : Prop :=
  forall h, (h < H)%nat -> 0 < meanActivation p X h < 1.
End Objective.
