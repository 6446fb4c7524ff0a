(** Restricted Boltzmann machines: probabilities, Gibbs sampling and free energy. *)
From Verif Require Import Base Matrix RSum Vec Activation_Model.
Local Open Scope R_scope.

Section Machine.
(** [D] visible and [H] hidden units *)
Context (D H : nat).

(** the parameter vector holds the weights (visible unit by visible unit), the biases of the
    visible and the biases of the hidden units *)
Definition rw (p : list R) (j i : nat) : R := p.[i * H + j].
Definition biasV (p : list R) (i : nat) : R := p.[D * H + i].
Definition biasH (p : list R) (j : nat) : R := p.[D * H + D + j].

(** the logistic function as the library computes it: constant outside [-45, 45] *)
Definition sigma (x : R) : R := act_fun LOGISTIC x.

(** probability that hidden unit [j] is on, given the visible units, and vice versa *)
Definition inputH (p : list R) (v : nat -> R) (j : nat) : R := rsum D (fun i => v i * rw p j i) + biasH p j.
Definition probH (p : list R) (v : nat -> R) (j : nat) : R := sigma (inputH p v j).
Definition probV (p : list R) (h : nat -> R) (i : nat) : R := sigma (rsum H (fun j => h j * rw p j i) + biasV p i).

(** a unit that is on with probability [q] when a uniform random number [x] is drawn *)
Definition bernoulli (q x : R) : R := if Rlt_dec x q then 1 else 0.

(** Gibbs sampling of [N] instances in parallel: in round [t] all hidden units are drawn given
    the visible ones, then all visible units given the hidden ones.  The random numbers
    [draw k], [draw (k+1)], ... are used one after the other, instance by instance. *)
Fixpoint visibleAt (p : list R) (draw : nat -> R) (k N : nat) (v : nat -> nat -> R) (t : nat) (n i : nat) : R :=
  match t with
  | O => v n i
  | S t =>
      let hid j := bernoulli (probH p (visibleAt p draw k N v t n) j) (draw (k + t * (N * H + N * D) + n * H + j)%nat) in
      bernoulli (probV p hid i) (draw (k + t * (N * H + N * D) + N * H + n * D + i)%nat)
  end.
Definition hiddenAt (p : list R) (draw : nat -> R) (k N : nat) (v : nat -> nat -> R) (t n j : nat) : R :=
  bernoulli (probH p (visibleAt p draw k N v t n) j) (draw (k + t * (N * H + N * D) + n * H + j)%nat).

(** the probabilities of which the visible units were drawn in round [t + 1] *)
Definition probVAt p draw k N v (t n i : nat) : R := probV p (hiddenAt p draw k N v t n) i.

(** free energy of a visible vector: the probability of [v] is proportional to
    exp (- freeEnergy v) *)
Definition freeEnergy (p : list R) (v : nat -> R) : R :=
  - rsum D (fun i => biasV p i * v i) - rsum H (fun j => ln (1 + exp (inputH p v j))).

(** for each parameter the statistics of visible values [v] and hidden values [h] of [N] instances *)
Definition statistics (N : nat) (v h : nat -> nat -> R) (g : list R) : Prop :=
  length g = (D * H + D + H)%nat /\
  (forall j i, (j < H)%nat -> (i < D)%nat -> rw g j i = rsum N (fun n => h n j * v n i)) /\
  (forall i, (i < D)%nat -> biasV g i = rsum N (fun n => v n i)) /\
  (forall j, (j < H)%nat -> biasH g j = rsum N (fun n => h n j)).

(** The gradient of contrastive divergence: statistics of [cd] rounds of Gibbs sampling that
    start at the instances minus statistics of the instances.  In the former the visible
    values are the probabilities of the last round, and the hidden values the probabilities
    given the visible units that were drawn from them. *)
Definition negativeStatistics (p : list R) (draw : nat -> R) (k N : nat) (v : nat -> nat -> R) (cd : nat) (g : list R) : Prop :=
  statistics N (probVAt p draw k N v (cd - 1)) (fun n => probH p (visibleAt p draw k N v cd n)) g.
Definition contrastiveDivergence (p : list R) (draw : nat -> R) (k N : nat) (v : nat -> nat -> R) (cd : nat) (g : list R) : Prop :=
  exists gpos gneg,
    statistics N v (fun n => probH p (v n)) gpos /\ negativeStatistics p draw k N v cd gneg /\
    length g = (D * H + D + H)%nat /\
    forall i, (i < D * H + D + H)%nat -> g.[i] = gneg.[i] - gpos.[i].

(** [g] is [g0] with the derivatives of the penalties l1 * |w| and l2 / 2 * w^2, times [c],
    added for the weights *)
Definition sign (w : R) : R := if Rlt_dec 0 w then 1 else if Rlt_dec w 0 then -1 else 0.
Definition addPenalties (c l1 l2 : R) (p g0 g : list R) : Prop :=
  length g = (D * H + D + H)%nat /\
  (forall j i, (j < H)%nat -> (i < D)%nat -> rw g j i = rw g0 j i + c * (l1 * sign (rw p j i) + l2 * rw p j i)) /\
  (forall i, (i < D)%nat -> biasV g i = biasV g0 i) /\ (forall j, (j < H)%nat -> biasH g j = biasH g0 j).
End Machine.
