(** The memories on which the parallel loops work. *)
From Verif Require Import Base Matrix Acc MatOps Layer_Model Conv_Model Pool_Model SigmaPi_Model LRN_Model Parallel_Model.

Definition found {A} (r : res A) : option A := match r with Ok a => Some a | _ => None end.

(** Convolutional: weights, biases, input and activations *)
Definition conv_memory (W : list (list mat)) (Wb x a : mat) : memory := fun b =>
  match b with
  | AKernel o i => found (tget W o i)
  | ABias => Some Wb
  | AInput => Some x
  | AAct => Some a
  | _ => None
  end.

(** Convolutional: derivatives with respect to the weights *)
Definition conv_gradient_memory (Wd : list (list mat)) : memory := fun b =>
  match b with AKernelGrad o i => found (tget Wd o i) | _ => None end.

(** Subsampling: weights, biases, input and activations *)
Definition subs_memory (W Wb : list mat) (x a : mat) : memory := fun b =>
  match b with
  | APoolWeight o => found (vget W o)
  | APoolBias o => found (vget Wb o)
  | AInput => Some x
  | AAct => Some a
  | _ => None
  end.

(** MaxPooling: input and output *)
Definition maxp_memory (x y : mat) : memory := fun b =>
  match b with AInput => Some x | AOut => Some y | _ => None end.
(** MaxPooling: input, error at the output and at the input *)
Definition maxp_error_memory (x ein e : mat) : memory := fun b =>
  match b with AInput => Some x | AErrIn => Some ein | AErr => Some e | _ => None end.

(** SigmaPi: weights, input and activations *)
Definition sp_memory (w : list R) (x a : mat) : memory := fun b =>
  match b with
  | AWeights => Some (mkMat (length w) 1 (fun i _ => nth i w 0%R))
  | AInput => Some x
  | AAct => Some a
  | _ => None
  end.

(** LocalResponseNormalization: input, denominators and output *)
Definition lrn_memory (x denoms y : mat) : memory := fun b =>
  match b with AInput => Some x | ADenoms => Some denoms | AOut => Some y | _ => None end.
(** LocalResponseNormalization: input, error at the output, denominators, etmp and error at the input *)
Definition lrn_error_memory (x ein denoms etmp e : mat) : memory := fun b =>
  match b with
  | AInput => Some x
  | AErrIn => Some ein
  | ADenoms => Some denoms
  | AEtmp => Some etmp
  | AErr => Some e
  | _ => None
  end.

(** sampleRandomPatches: images and patches *)
Definition patches_memory (images patches : mat) : memory := fun b =>
  match b with AImages => Some images | APatches => Some patches | _ => None end.
