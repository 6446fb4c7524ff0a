(** What the theorems about derivatives refer to. *)
From Verif Require Import Base Activation_Model.
Local Open Scope R_scope.

(** [a] is not one of the points at which the activation function is not differentiable: the code replaces the logistic function by 0
    below -45 and by 1 above 45 *)
Definition act_smooth (act : ActivationFunction) (a : R) : Prop :=
  match act with
  | LOGISTIC => a <> -45 /\ a <> 45
  | RECTIFIER => a <> 0
  | _ => True
  end.
