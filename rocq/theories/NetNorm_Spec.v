(** Specification of the limit of the norm of weights in networks. *)
From Verif Require Import Base BaseFacts Matrix RSum Vec Activation_Model Layer_Model FC_Model Net_Model NetBuild_Model NetUse_Spec.
Local Open Scope R_scope.

(** the same network without a limit *)
Definition withoutLimit (r : Regularization) : Regularization := mkReg (l1Penalty r) (l2Penalty r) 0.
Definition unlimitedCommand (c : command) : command :=
  match c with SetRegularization r => SetRegularization (withoutLimit r) | Add l => Add l end.
Definition unlimited (cs : list command) : list command := map unlimitedCommand cs.

(** the weights of a unit, scaled down to the squared norm [m] if their squared norm is larger *)
Definition squaredNorm (w : list R) : R := rsum (length w) (fun i => w.[i] * w.[i]).
Definition limitNorm (m : R) (w : list R) : list R :=
  if Rltb m (squaredNorm w) then map (fun a => a * sqrt (m / squaredNorm w)) w else w.
(** the parameters of a fully connected layer: for each unit [I] weights, which are limited, and [b] biases *)
Fixpoint limitUnits (m : R) (I b units : nat) (p : list R) : list R :=
  match units with
  | 0%nat => []
  | S units => limitNorm m (firstn I p) ++ firstn b (skipn I p) ++ limitUnits m I b units (skipn (I + b) p)
  end.
(** the parameters of one layer and of all layers.  [reg] is the regularization that has been set before. *)
Definition limitLayer (info : list nat) (reg : Regularization) (l : layerSpec) (p : list R) : list R :=
  match l with
  | FullyConnectedLayer units _ bias _ =>
      if Rltb 0 (maxSquaredWeightNorm reg) then limitUnits (maxSquaredWeightNorm reg) (outputs info) (if bias then 1 else 0) units p else p
  | _ => p
  end.
Fixpoint limitParameters (info : list nat) (reg : Regularization) (cs : list command) (p : list R) : list R :=
  match cs with
  | [] => p
  | SetRegularization reg :: cs => limitParameters info reg cs p
  | Add l :: cs =>
      let n := layerParams info l in
      limitLayer info reg l (firstn n p) ++ limitParameters (layerOutput info l) reg cs (skipn n p)
  end.

(** what a user can observe: two networks return the same outputs, errors and gradients *)
Definition value {A B} (r : res (A * B)) : res B := ' (_, v) <- r ;; Ok v.
Definition sameBehaviour (junk : nat -> nat -> R) (s t : net (kclass junk)) : Prop :=
  (forall x, value (net_apply _ s x) = value (net_apply _ t x)) /\
  (forall n, value (error_at _ s n) = value (error_at _ t n)) /\
  value (error _ s) = value (error _ t) /\
  (forall n, value (gradient_at _ junk s n) = value (gradient_at _ junk t n)) /\
  value (gradient _ junk s) = value (gradient _ junk t) /\
  (forall idx g, (' (_, e, g) <- errorGradient _ junk s idx g ;; Ok (e, g)) = (' (_, e, g) <- errorGradient _ junk t idx g ;; Ok (e, g))).
