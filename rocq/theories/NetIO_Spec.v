(** What the theorems about saving and loading networks (C40) refer to. *)
From Coq Require Import String.
From Verif Require Import Base BaseFacts Matrix RSum MatOps Activation_Model Layer_Model FC_Model
  SimpleLayers_Model Conv_Model Pool_Model Compression_Model Net_Model NetBuild_Model NetUse_Spec NetIO_Model.
Local Open Scope R_scope.

(** Numbers with at most six significant decimal digits *)
Definition sixDigits (x : R) : Prop := exists m e : Z, (Z.abs m < 10 ^ 6)%Z /\ x = IZR m * powerRZ 10 e.
(** Numbers are written with six significant digits, the default precision of C++ streams. *)
Record printing (prt : R -> R) : Prop := mkPrinting {
  pr_digits : forall x, sixDigits (prt x);
  pr_exact : forall x, sixDigits x -> prt x = x;
  pr_close : forall x, Rabs (prt x - x) <= 5 / 10 ^ 6 * Rabs x }.

(** Kinds of calls *)
Definition isSetting (c : netCall) : Prop :=
  match c with SetErrorFunctionCall _ | SetRegularizationCall _ _ _ => True | _ => False end.
Definition isOutput (c : netCall) : Prop :=
  match c with OutputCall _ _ _ _ | CompressedOutputCall _ _ _ _ _ _ => True | _ => False end.
Definition isHidden (c : netCall) : Prop :=
  match c with
  | FullyConnectedCall _ _ _ _ | CompressedCall _ _ _ _ _ _ | ExtremeCall _ _ _ _ | IntrinsicPlasticityCall _ _
  | ConvolutionalCall _ _ _ _ _ _ | SubsamplingCall _ _ _ _ _ | MaxPoolingCall _ _ | DropoutCall _
  | RestrictedBoltzmannMachineCall _ _ _ _ | SparseAutoEncoderCall _ _ _ _ => True
  | _ => False
  end.
(** The calls that build a network: an input layer, hidden layers and an output layer, with settings anywhere
    in between *)
Definition complete (cs : list netCall) : Prop :=
  exists pre d1 d2 d3 mid out, cs = (pre ++ InputLayer d1 d2 d3 :: mid ++ [out])%list /\
    Forall isSetting pre /\ Forall (fun c => isSetting c \/ isHidden c) mid /\ isOutput out.

(** The maximal norm of weight vectors is not used. *)
Definition noMaxNorm (c : netCall) : Prop :=
  match c with SetRegularizationCall _ _ m => m <= 0 | _ => True end.
(** Everything that determines the function of the layer is an argument of the call or a parameter of the
    network.  (The weights of extreme learning machines, the biases of intrinsic plasticity, random compression
    matrices and the weights of restricted Boltzmann machines without backpropagation are neither.) *)
Definition restorable (c : netCall) : Prop :=
  match c with
  | ExtremeCall _ _ _ _ | IntrinsicPlasticityCall _ _ => False
  | RestrictedBoltzmannMachineCall _ _ _ backprop => backprop = true
  | CompressedCall _ _ _ co _ _ | CompressedOutputCall _ _ _ co _ _ => co = "dct"%string \/ co = "average"%string \/ co = "edge"%string
  | _ => True
  end.
(** The probability of dropout, the penalties and the arguments of sparse auto-encoders have at most six digits. *)
Definition exactArguments (c : netCall) : Prop :=
  match c with
  | DropoutCall p => sixDigits p
  | SparseAutoEncoderCall _ beta rho _ => sixDigits beta /\ sixDigits rho
  | SetRegularizationCall l1 l2 m => sixDigits l1 /\ sixDigits l2 /\ sixDigits m
  | _ => True
  end.

(** A network that has been built by the calls [cs] and has been used afterwards in any way.  (setErrorFunction
    is a setting here because it writes to [architecture].) *)
Inductive used (junk : nat -> nat -> R) (prt : R -> R) (d : draws) (cs : list netCall) : netState junk -> Prop :=
| used_build st : runCalls junk prt d cs (state_new junk) = Ok st -> (0 < netOutputs (theNet junk st))%nat -> used junk prt d cs st
| used_call st s : used junk prt d cs st -> calls junk (theNet junk st) s ->
    errorFunction _ s = errorFunction _ (theNet junk st) ->
    used junk prt d cs (mkState junk s (theReg junk st) (architecture junk st) (count junk st))
| used_setting st c st' : used junk prt d cs st -> isSetting c -> runCall junk prt d st c = Ok st' -> used junk prt d cs st'.

(** Two networks return the same outputs, ... *)
Definition sameOutputs {j1 j2} (a : net (kclass j1)) (b : net (kclass j2)) : Prop :=
  netInputs a = netInputs b /\ netOutputs a = netOutputs b /\
  forall x, cols x = netInputs a -> (0 < rows x)%nat ->
    exists a' b' y z, net_apply _ a x = Ok (a', y) /\ net_apply _ b x = Ok (b', z) /\
      size_is y (rows x) (netOutputs a) /\ size_is z (rows x) (netOutputs a) /\
      forall n j, (n < rows x)%nat -> (j < netOutputs a)%nat -> at_ y n j = at_ z n j.
(** ... and have the same errors on every training set. *)
Definition sameErrors {j1 j2} (a : net (kclass j1)) (b : net (kclass j2)) : Prop :=
  forall d n, fits a d -> (n < rows (dataIn d))%nat ->
    exists a' b' v, error_at _ (trainingSet _ a d) n = Ok (a', v) /\ error_at _ (trainingSet _ b d) n = Ok (b', v).
