(** The alpha-beta filter: specification. *)
From Verif Require Import Base Matrix MatOps Vec Layer_Model.
Local Open Scope R_scope.

(** damping of the filter with tracking index |gamma|, and the two gains *)
Definition damping (gamma : R) : R := (4 + Rabs gamma - sqrt (8 * Rabs gamma + gamma * gamma)) / 4.
Definition gainPosition (gamma : R) : R := 1 - damping gamma * damping gamma.
Definition gainVelocity (gamma : R) : R := 2 * (1 - damping gamma) * (1 - damping gamma).

(** one observation [z]: the estimate (position, velocity) is corrected in proportion to the difference, and the
    position is extrapolated by one time step *)
Definition correct (gamma dt : R) (z : R) (e : R * R) : R * R :=
  let d := z - fst e in
  let v := snd e + gainVelocity gamma / dt * d in
  (fst e + gainPosition gamma * d + dt * v, v).

(** estimate after the observations z 0, ..., z t; it starts with the first observation and velocity 0 *)
Fixpoint estimate (gamma dt : R) (z : nat -> R) (t : nat) : R * R :=
  match t with
  | O => correct gamma dt (z 0%nat) (z 0%nat, 0)
  | S t' => correct gamma dt (z t) (estimate gamma dt z t')
  end.

(** [observed c s X t s' Y]: the layer processes the inputs X 0, ..., X t, is then in state s' and its last output
    is Y *)
Inductive observed (c : LayerClass) (s : St c) (X : nat -> mat) : nat -> St c -> mat -> Prop :=
| o_first d s1 Y r : forwardPropagate c s (X 0%nat) d = Ok (s1, Y, r) -> observed c s X 0 s1 Y
| o_next t s1 Y1 d s2 Y2 r : observed c s X t s1 Y1 -> forwardPropagate c s1 (X (S t)) d = Ok (s2, Y2, r) ->
    observed c s X (S t) s2 Y2.
