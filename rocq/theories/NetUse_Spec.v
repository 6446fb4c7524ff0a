(** What the theorems about networks refer to: the ways in which a network can be used and
    the points at which its error is differentiable. *)
From Verif Require Import Base BaseFacts Matrix RSum MatOps Activation_Model Activation_Proofs Layer_Model
  FC_Model FC_Proofs SimpleLayers_Model SimpleLayers_Proofs Compressed_Proofs Conv_Model Conv_Proofs
  Pool_Model Pool Subs_Proofs MaxPool_Proofs Net_Model NetBuild_Model.
From Verif Require RBMLayer_Proofs SAELayer_Proofs.
Local Open Scope R_scope.

(** The points at which a layer is differentiable: the activation function has no kink or jump at
    any activation, no penalised weight is zero if there is an L1 penalty, and each window of
    a max-pooling layer has a unique maximum above the number the search starts with.  Sparse auto-encoders
    moreover need a penalty that is not negative. *)
Definition nsmooth (junk : nat -> nat -> R) (k : kind) : St (kclass junk k) -> mat -> Prop :=
  match k as k0 return St (kclass junk k0) -> mat -> Prop with
  | KInput _ => fun _ _ => True
  | KFullyConnected i j bias act reg => fc_smooth i j bias act reg
  | KCompressed i j m bias act phi reg => k_smooth i j m bias act phi reg
  | KExtreme i j bias act w => extreme_smooth i j bias act w
  | KIntrinsicPlasticity i s b => ip_smooth i s b
  | KConvolutional g => conv_smooth g
  | KSubsampling g bias act reg => subs_smooth g bias act reg
  | KMaxPooling g => maxp_smooth g
  | KDropout _ _ => fun _ _ => True
  | KRestrictedBoltzmannMachine i h _ _ _ _ _ => RBMLayer_Proofs.rbm_smooth i h
  | KSparseAutoEncoder i h _ _ lambda act => fun s X => 0 <= lambda /\ SAELayer_Proofs.sae_smooth i h act s X
  end.

(** ... and all layers, each for the input it gets in a forward pass *)
Fixpoint smooth_at (junk : nat -> nat -> R) (ls : list (layer (kclass junk))) (X : mat) (dropout : bool) : Prop :=
  match ls with
  | [] => True
  | l :: ls => nsmooth junk _ (lobj _ l) X /\
      forall o Y r, forwardPropagate (kclass junk (lkind _ l)) (lobj _ l) X dropout = Ok (o, Y, r) ->
        smooth_at junk ls Y dropout
  end.

(** numbers of inputs and outputs of a network *)
Definition netInputs {k} {c : k -> LayerClass} (s : net c) : nat := outputs (hd [] (infos c s)).
Definition netOutputs {k} {c : k -> LayerClass} (s : net c) : nat := outputs (last (infos c s) []).

(** matrices with N rows and the instances with numbers [idx] *)
Definition batch_of (m : mat) (idx : list nat) (X : mat) : Prop :=
  size_is X (length idx) (cols m) /\ forall n j, (n < length idx)%nat -> at_ X n j = at_ m (nth n idx 0%nat) j.

(** a training set with the network's numbers of inputs and outputs *)
Definition fits {k} {c : k -> LayerClass} (s : net c) (d : trainData) : Prop :=
  cols (dataIn d) = netInputs s /\ cols (dataOut d) = netOutputs s /\ rows (dataIn d) = rows (dataOut d).

(** Calls of member functions, with arguments of the right size, that return normally *)
Inductive calls (junk : nat -> nat -> R) : net (kclass junk) -> net (kclass junk) -> Prop :=
| call_setParameters s p s' : length p = dimension _ s -> setParameters _ s p = Ok s' -> calls junk s s'
| call_apply s x s' y : (0 < rows x)%nat -> cols x = netInputs s -> net_apply _ s x = Ok (s', y) -> calls junk s s'
| call_error_at s n s' v : error_at _ s n = Ok (s', v) -> calls junk s s'
| call_error s s' v : error _ s = Ok (s', v) -> calls junk s s'
| call_errorGradient s idx grad s' v g : idx <> [] -> length grad = dimension _ s ->
    errorGradient _ junk s idx grad = Ok (s', v, g) -> calls junk s s'
| call_gradient_at s n s' g : gradient_at _ junk s n = Ok (s', g) -> calls junk s s'
| call_gradient s s' g : (0 < examples _ s)%nat -> gradient _ junk s = Ok (s', g) -> calls junk s s'
| call_useDropout s b : calls junk s (useDropout _ s b)
| call_setErrorFunction s ef : calls junk s (setErrorFunction _ s ef)
| call_trainingSet s d : fits s d -> calls junk s (trainingSet _ s d).

(** The maximal norm of weight vectors is not used. *)
Definition no_max_norm (c : command) : Prop :=
  match c with SetRegularization reg => maxSquaredWeightNorm reg <= 0 | _ => True end.
(** L1 and L2 penalties are not used. *)
Definition no_penalty (c : command) : Prop :=
  match c with SetRegularization reg => l1Penalty reg = 0 /\ l2Penalty reg = 0 | _ => True end.
(** Restricted Boltzmann machines whose weights are parameters of the network are not used. *)
Definition no_rbm (c : command) : Prop :=
  match c with Add (RestrictedBoltzmannMachineLayer _ _ backprop _ _) => backprop = false | _ => True end.

(** The same calls with other random initial weights: [w i] for the layer at position [i].  (Restricted
    Boltzmann machines are not initialized again.) *)
Definition redrawLayer (w : nat -> nat -> R) (l : layerSpec) : layerSpec :=
  match l with
  | FullyConnectedLayer units act bias _ => FullyConnectedLayer units act bias w
  | CompressedLayer units params act bias phi _ => CompressedLayer units params act bias phi w
  | ExtremeLayer units act bias _ => ExtremeLayer units act bias w
  | ConvolutionalLayer fm kr kc act bias _ => ConvolutionalLayer fm kr kc act bias w
  | SubsamplingLayer kr kc act bias _ => SubsamplingLayer kr kc act bias w
  | SparseAutoEncoderLayer H beta rho act _ => SparseAutoEncoderLayer H beta rho act w
  | l => l
  end.
Fixpoint redraw (w : nat -> nat -> nat -> R) (i : nat) (cs : list command) : list command :=
  match cs with
  | [] => []
  | Add l :: cs => Add (redrawLayer (w i) l) :: redraw w (S i) cs
  | SetRegularization reg :: cs => SetRegularization reg :: redraw w i cs
  end.

(** A network that has been built by the calls [cs] after inputLayer(d1, d2, d3) and has been used
    afterwards in any way.  After initialize(), [cs] contains the new random weights. *)
Inductive reachable (junk : nat -> nat -> R) (d1 d2 d3 : nat) : list command -> net (kclass junk) -> Prop :=
| reach_build cs s : build junk d1 d2 d3 cs = Ok s -> (0 < netOutputs s)%nat -> reachable junk d1 d2 d3 cs s
| reach_call cs s s' : reachable junk d1 d2 d3 cs s -> calls junk s s' -> reachable junk d1 d2 d3 cs s'
| reach_initialize cs s w s' : reachable junk d1 d2 d3 cs s -> net_initialize junk w s = Ok s' ->
    reachable junk d1 d2 d3 (redraw w 1 cs) s'.

(** Output sizes and numbers of parameters of layers that follow a layer with output sizes [info],
    and the number of parameters of a network *)
Definition layerOutput (info : list nat) (l : layerSpec) : list nat :=
  match l with
  | FullyConnectedLayer units _ _ _ | CompressedLayer units _ _ _ _ _ | ExtremeLayer units _ _ _ => [units]
  | IntrinsicPlasticityLayer _ _ => [outputs info]
  | ConvolutionalLayer fm kr kc _ _ _ =>
      [fm; (nth 1 info 0 - 2 * (kr / 2))%nat; (nth 2 info 0 - 2 * (kc / 2))%nat]
  | SubsamplingLayer kr kc _ _ _ | MaxPoolingLayer kr kc => [nth 0 info 0; nth 1 info 0 / kr; nth 2 info 0 / kc]%nat
  | DropoutLayer _ _ => info
  | RestrictedBoltzmannMachineLayer H _ _ _ _ | SparseAutoEncoderLayer H _ _ _ _ => [H]
  end.
Definition layerParams (info : list nat) (l : layerSpec) : nat :=
  match l with
  | FullyConnectedLayer units _ bias _ => units * (outputs info + if bias then 1 else 0)
  | CompressedLayer units params _ _ _ _ => units * params
  | ConvolutionalLayer fm kr kc _ bias _ => fm * nth 0 info 0 * (kr * kc + if bias then 1 else 0)
  | SubsamplingLayer kr kc _ bias _ => nth 0 info 0 * (nth 1 info 0 / kr) * (nth 2 info 0 / kc) * if bias then 2 else 1
  | RestrictedBoltzmannMachineLayer H _ backprop _ _ => if backprop then H * (outputs info + 1) else 0
  | SparseAutoEncoderLayer H _ _ _ _ => H * (outputs info + 1)
  | _ => 0
  end%nat.
Fixpoint totalParams (info : list nat) (cs : list command) : nat :=
  match cs with
  | [] => 0
  | Add l :: cs => layerParams info l + totalParams (layerOutput info l) cs
  | SetRegularization _ :: cs => totalParams info cs
  end%nat.

(** Layers that are differentiable everywhere *)
Definition smooth_act (act : ActivationFunction) : Prop :=
  match act with TANH | TANH_SCALED | LINEAR => True | _ => False end.
Definition always_smooth (c : command) : Prop :=
  match c with
  | Add (FullyConnectedLayer _ act _ _) | Add (CompressedLayer _ _ act _ _ _) | Add (ExtremeLayer _ act _ _)
  | Add (ConvolutionalLayer _ _ _ act _ _) | Add (SubsamplingLayer _ _ act _ _) | Add (SparseAutoEncoderLayer _ _ _ act _) => smooth_act act
  | Add (DropoutLayer _ _) => True
  | Add (IntrinsicPlasticityLayer _ _) | Add (MaxPoolingLayer _ _) | Add (RestrictedBoltzmannMachineLayer _ _ _ _ _) => False
  | SetRegularization reg => l1Penalty reg <= 0 <= l2Penalty reg
  end.

(** [a.row(n)]: the vector of an instance as a matrix with one row *)
Definition instance (m : mat) (n : nat) : mat := mkMat 1 (cols m) (fun _ j => at_ m n j).

(** A layer can be added after a layer with output sizes [info]: kernels must not be larger than the
    images and need images as input. *)
Definition layerFits (info : list nat) (l : layerSpec) : Prop :=
  match l with
  | ConvolutionalLayer fm kr kc _ _ _ =>
      length info = 3%nat /\ (0 < fm /\ 2 * (kr / 2) < nth 1 info 0 /\ 2 * (kc / 2) < nth 2 info 0)%nat
  | SubsamplingLayer kr kc _ _ _ | MaxPoolingLayer kr kc =>
      length info = 3%nat /\ (0 < nth 0 info 0 /\ 0 < kr <= nth 1 info 0 /\ 0 < kc <= nth 2 info 0)%nat
  | _ => True
  end.
Fixpoint commandsFit (info : list nat) (cs : list command) : Prop :=
  match cs with
  | [] => True
  | Add l :: cs => layerFits info l /\ commandsFit (layerOutput info l) cs
  | SetRegularization _ :: cs => commandsFit info cs
  end.
(** sizes of the output of the last layer *)
Fixpoint finalOutput (info : list nat) (cs : list command) : list nat :=
  match cs with
  | [] => info
  | Add l :: cs => finalOutput (layerOutput info l) cs
  | SetRegularization _ :: cs => finalOutput info cs
  end.
