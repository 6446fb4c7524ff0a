(** What a user expects of the training of networks. *)
From Verif Require Import Base BaseFacts Matrix RSum MatOps Activation_Model Layer_Model Net_Model NetBuild_Model NetUse_Spec Evaluation_Model.
Local Open Scope R_scope.

Section Spec.
Variables (junk : nat -> nat -> R) (d1 d2 d3 : nat).
Notation kc := (kclass junk).

(** A network that has been built by the calls [cs], has been used in any way, and now has the training set [d] and the
    error function [ef] and does not use dropout *)
Definition trainable (cs : list command) (d : trainData) (ef : ErrorFunction) (s : net kc) : Prop :=
  reachable junk d1 d2 d3 cs s /\ trainSet kc s = Some d /\ errorFunction kc s = ef /\ dropout kc s = false.

(** Some calls of operator() *)
Inductive applies : net kc -> net kc -> Prop :=
| applies_none s : applies s s
| applies_next s s1 x s2 y : applies s s1 -> (0 < rows x)%nat -> cols x = netInputs s1 -> net_apply kc s1 x = Ok (s2, y) -> applies s s2.

(** An evaluator that returns normally and only calls operator() *)
Definition only_applies (evaluate : net kc -> res (net kc)) (cs : list command) (d : trainData) (ef : ErrorFunction) : Prop :=
  forall s, trainable cs d ef s -> exists s', evaluate s = Ok s' /\ applies s s'.

(** [error i x] is what error(i) returns after setParameters(x), whatever has been done with the network before *)
Definition network_error (cs : list command) (d : trainData) (ef : ErrorFunction) (error : nat -> vec -> R) : Prop :=
  forall s x i, trainable cs d ef s -> length x = dimension kc s -> (i < rows (dataIn d))%nat ->
  exists s1 s2, setParameters kc s x = Ok s1 /\ error_at kc s1 i = Ok (s2, error i x).

(** A network on which train can be called: it has a training set, parameters, differentiable layers and an evaluator that returns;
    targets are distributions if the error function is the cross entropy *)
Definition ready (evaluate : net kc -> res (net kc)) (cs : list command) (d : trainData) (ef : ErrorFunction) (s : net kc) : Prop :=
  reachable junk d1 d2 d3 cs s /\ trainSet kc s = Some d /\ (0 < rows (dataIn d))%nat /\ (0 < dimension kc s)%nat /\
  Forall no_max_norm cs /\ Forall always_smooth cs /\
  (ef = CE -> forall i, (i < rows (dataIn d))%nat -> rsum (cols (dataOut d)) (at_ (dataOut d) i) = 1) /\
  (forall cs1, Forall no_max_norm cs1 -> only_applies evaluate cs1 d ef).

(** Where training starts: [cs1] are the calls that build the network and [x0] its parameters; if the network is reinitialized with the
    random numbers [w], then [x0] are the parameters of a new network *)
Definition starts (w : nat -> nat -> nat -> R) (reinitialize : bool) (cs : list command) (s : net kc) (cs1 : list command) (x0 : vec) : Prop :=
  if reinitialize then cs1 = redraw w 1 cs /\ exists fresh, build junk d1 d2 d3 cs1 = Ok fresh /\ x0 = currentParameters kc fresh
  else cs1 = cs /\ x0 = currentParameters kc s.
End Spec.

(** the mean of the errors of some instances *)
Definition batchError (error : nat -> vec -> R) (batch : list nat) (x : vec) : R :=
  rsum (length batch) (fun i => error (nth i batch 0%nat) x) / INR (length batch).

(** [g] is the gradient of [f] at [x]: all partial derivatives *)
Definition gradient_of (f : vec -> R) (x g : vec) : Prop :=
  length g = length x /\ forall k, (k < length x)%nat -> derivable_pt_lim (fun v => f (upd x k v)) (nth k x 0) (nth k g 0).

(** An epoch of stochastic gradient descent: disjoint batches of ten instances, or one smaller batch with all of
    the [N] instances *)
Definition is_epoch (N : nat) (batches : list (list nat)) : Prop :=
  length batches = Nat.max (N / 10) 1 /\ (forall b, In b batches -> length b = Nat.min 10 N) /\
  NoDup (concat batches) /\ forall i, In i (concat batches) -> (i < N)%nat.

(** Stochastic gradient descent with learning rate 1/100 and momentum 1/2, starting from [x0]: after the batches the parameters are [x] and
    their last change is [m] *)
Inductive descends (error : nat -> vec -> R) (x0 : vec) : list (list nat) -> vec -> vec -> Prop :=
| descends_start : descends error x0 [] x0 (repeat 0 (length x0))
| descends_batch batches x m batch g x' m' : descends error x0 batches x m ->
    gradient_of (batchError error batch) x g -> length x' = length x0 -> length m' = length x0 ->
    (forall k, (k < length x0)%nat -> nth k m' 0 = 1 / 2 * nth k m 0 - 1 / 100 * nth k g 0 /\ nth k x' 0 = nth k x 0 + nth k m' 0) ->
    descends error x0 (batches ++ [batch]) x' m'.

(** number of weights and biases of a multilayer perceptron with [n] inputs and layers of the given sizes *)
Fixpoint mlpParams (n : nat) (sizes : list nat) : nat :=
  match sizes with [] => 0 | m :: sizes => (n + 1) * m + mlpParams m sizes end%nat.

(** The function of a multilayer perceptron: [p] are its parameters, for each layer and each of its units the weights of the [n] inputs of the layer and then
    the bias *)
Fixpoint mlp (n : nat) (layers : list (nat * ActivationFunction)) (p : nat -> R) (x : nat -> R) : nat -> R :=
  match layers with
  | [] => x
  | (m, act) :: layers =>
      mlp m layers (fun k => p (m * (n + 1) + k)%nat)
        (fun j => act_fun act (rsum n (fun i => p (j * (n + 1) + i)%nat * x i) + p (j * (n + 1) + n)%nat))
  end.
