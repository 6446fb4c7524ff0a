(** Specification of the access to the layers of a network. *)
From Verif Require Import Base BaseFacts Matrix RSum MatOps Activation_Model Layer_Model Net_Model NetBuild_Model NetUse_Spec NetLayer_Model
  RBMUse_Spec SAEUse_Spec.
Local Open Scope R_scope.

(** the sizes of the outputs of the layers that are added after a layer with output sizes [info] *)
Fixpoint outputSizes (info : list nat) (cs : list command) : list (list nat) :=
  match cs with
  | [] => []
  | Add l :: cs => layerOutput info l :: outputSizes (layerOutput info l) cs
  | SetRegularization _ :: cs => outputSizes info cs
  end.

Section Spec.
Variable junk : nat -> nat -> R.
Notation kc := (kclass junk).

(** A user passes [x] through the first [k] layers, one after the other: getLayer(0).forwardPropagate(...), getLayer(1).forwardPropagate(...), ... *)
Fixpoint passThrough (k : nat) (s : net kc) (x : mat) : res (net kc * mat) :=
  match k with
  | 0%nat => Ok (s, x)
  | S k => ' (s, y) <- passThrough k s x ;; layerForward kc s k y false
  end.

(** A layer that is a learner of its own has been trained in place: layer [i] is a restricted Boltzmann machine whose weights are parameters of the
    network, or a sparse autoencoder, and functions of the learner have been called through the reference that getLayer(i) returns. *)
Inductive pretrained (i : nat) (s : net kc) : net kc -> Prop :=
| pretrained_rbm M H cdN reg u w o o' p data :
    getLayer kc s i = Ok (mkLayer kc (KRestrictedBoltzmannMachine M H cdN true reg u w) o) -> rbm_use junk u o M p data o' ->
    pretrained i s (withLayer kc s i (mkLayer kc (KRestrictedBoltzmannMachine M H cdN true reg u w) o'))
| pretrained_sae M H beta rho lambda act o o' p data :
    getLayer kc s i = Ok (mkLayer kc (KSparseAutoEncoder M H beta rho lambda act) o) -> sae_use junk o M p data o' ->
    pretrained i s (withLayer kc s i (mkLayer kc (KSparseAutoEncoder M H beta rho lambda act) o')).

(** the same for a restricted Boltzmann machine whose weights are not parameters of the network (backprop = false) *)
Inductive pretrained_fixed (i : nat) (s : net kc) : net kc -> Prop :=
| pretrained_fixed_rbm M H cdN reg u w o o' p data :
    getLayer kc s i = Ok (mkLayer kc (KRestrictedBoltzmannMachine M H cdN false reg u w) o) -> rbm_use junk u o M p data o' ->
    pretrained_fixed i s (withLayer kc s i (mkLayer kc (KRestrictedBoltzmannMachine M H cdN false reg u w) o')).
End Spec.
