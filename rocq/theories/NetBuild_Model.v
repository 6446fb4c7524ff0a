(** Model of the functions of class Net that add layers, /repo/src/Net.cpp 41-183 and 434-443. *)
From Verif Require Import Base BaseFacts Matrix RSum MatOps Acc Activation_Model Layer_Model FC_Model
  SimpleLayers_Model Conv_Model Pool_Model Net_Model.
From Verif Require RBM_Model SAE_Model.
Local Open Scope R_scope.

(** The dynamic type of a layer, labelled with the members that never change.  The labels
    are not used by any function; they let invariants refer to these members. *)
Inductive kind :=
| KInput (J : nat)
| KFullyConnected (I J : nat) (bias : bool) (act : ActivationFunction) (reg : Regularization)
| KCompressed (I J M : nat) (bias : bool) (act : ActivationFunction) (phi : nat -> nat -> R) (reg : Regularization)
| KExtreme (I J : nat) (bias : bool) (act : ActivationFunction) (w : nat -> nat -> R)
| KIntrinsicPlasticity (I : nat) (s b : nat -> R)
| KConvolutional (g : cgeom)
| KSubsampling (g : pgeom) (bias : bool) (act : ActivationFunction) (reg : Regularization)
| KMaxPooling (g : pgeom)
| KDropout (I : nat) (prob : R)
| KRestrictedBoltzmannMachine (I H cdN : nat) (backprop : bool) (reg : Regularization) (u : nat -> R) (w : nat -> nat -> R)
| KSparseAutoEncoder (I H : nat) (beta rho lambda : R) (act : ActivationFunction).

Section Build.
(** entries of resized matrices *)
Variable junk : nat -> nat -> R.

Definition kclass (k : kind) : LayerClass :=
  match k with
  | KInput _ => input_class
  | KFullyConnected _ _ _ _ _ => fc_class junk
  | KCompressed _ _ _ _ _ _ _ => k_class junk
  | KExtreme _ _ _ _ _ => extreme_class junk
  | KIntrinsicPlasticity _ _ _ => ip_class junk
  | KConvolutional _ => conv_class junk
  | KSubsampling _ _ _ _ => subs_class junk
  | KMaxPooling _ => maxp_class junk
  | KDropout _ _ => dropout_class junk
  | KRestrictedBoltzmannMachine _ _ _ _ _ u _ => RBM_Model.rbm_class junk u
  | KSparseAutoEncoder _ _ _ _ _ _ => SAE_Model.sae_class junk
  end.

(** infos.back() *)
Definition lastInfo (s : net kclass) : res (list nat) := vget (infos kclass s) (length (infos kclass s) - 1).

(** inputLayer, lines 41-45; Input::initialize, Input.cpp 13-20 *)
Definition inputLayer (s : net kclass) (d1 d2 d3 : nat) : net kclass :=
  addLayer kclass s (mkLayer kclass (KInput (d1 * d2 * d3)) (input_new d1 d2 d3)) [d1; d2; d3].

(** The calls that add a layer.  Random initial weights are the arbitrary numbers [w]; the
    standard deviations, which only matter for them, are left out.
    - CompressedLayer: [phi] is the compression matrix (CompressionMatrixFactory)
    - IntrinsicPlasticityLayer: [s] and [b] are the slopes and biases
    - DropoutLayer: [rnd] are the random numbers
    - RestrictedBoltzmannMachineLayer: [u] are the random numbers that decide the states of hidden units
    - SparseAutoEncoderLayer: [w k 0] is the k-th uniformly distributed random number *)
Inductive layerSpec :=
| FullyConnectedLayer (units : nat) (act : ActivationFunction) (bias : bool) (w : nat -> nat -> R)
| CompressedLayer (units params : nat) (act : ActivationFunction) (bias : bool) (phi w : nat -> nat -> R)
| ExtremeLayer (units : nat) (act : ActivationFunction) (bias : bool) (w : nat -> nat -> R)
| IntrinsicPlasticityLayer (s b : nat -> R)
| ConvolutionalLayer (featureMaps kernelRows kernelCols : nat) (act : ActivationFunction) (bias : bool) (w : nat -> nat -> R)
| SubsamplingLayer (kernelRows kernelCols : nat) (act : ActivationFunction) (bias : bool) (w : nat -> nat -> R)
| MaxPoolingLayer (kernelRows kernelCols : nat)
| DropoutLayer (prob : R) (rnd : nat -> nat -> nat -> R)
| RestrictedBoltzmannMachineLayer (H cdN : nat) (backprop : bool) (u : nat -> R) (w : nat -> nat -> R)
| SparseAutoEncoderLayer (H : nat) (beta rho : R) (act : ActivationFunction) (w : nat -> nat -> R).

(** lines 53-142.  [reg] is the member [regularization].  The second argument of addLayer is
    the OutputInfo that the layer's initialize returns. *)
Definition add (s : net kclass) (reg : Regularization) (l : layerSpec) : res (net kclass) :=
  info <- lastInfo s ;;
  let I := outputs info in
  match l with
  | FullyConnectedLayer units act bias w =>
      Ok (addLayer kclass s (mkLayer kclass (KFullyConnected I units bias act reg) (fc_new w I units bias act reg)) [units])
  | CompressedLayer units params act bias phi w =>
      Ok (addLayer kclass s (mkLayer kclass (KCompressed I units params bias act phi reg)
                               (k_new w I units params bias act phi reg)) [units])
  | ExtremeLayer units act bias w =>
      Ok (addLayer kclass s (mkLayer kclass (KExtreme I units bias act w) (extreme_new junk I units bias act w)) [units])
  | IntrinsicPlasticityLayer sl b =>
      Ok (addLayer kclass s (mkLayer kclass (KIntrinsicPlasticity I sl b) (ip_new junk I sl b)) [I])
  | ConvolutionalLayer fm kr kc act bias w =>
      d0 <- vget info 0 ;; d1 <- vget info 1 ;; d2 <- vget info 2 ;;
      o <- conv_new w d0 d1 d2 fm kr kc bias act reg ;;
      Ok (addLayer kclass s (mkLayer kclass (KConvolutional (cg o)) o) [fmout (cg o); outRows (cg o); outCols (cg o)])
  | SubsamplingLayer kr kc act bias w =>
      d0 <- vget info 0 ;; d1 <- vget info 1 ;; d2 <- vget info 2 ;;
      o <- subs_new w d0 d1 d2 kr kc bias act reg ;;
      Ok (addLayer kclass s (mkLayer kclass (KSubsampling (sg o) bias act reg) o) [pfm (sg o); poutRows (sg o); poutCols (sg o)])
  | MaxPoolingLayer kr kc =>
      d0 <- vget info 0 ;; d1 <- vget info 1 ;; d2 <- vget info 2 ;;
      o <- maxp_new junk d0 d1 d2 kr kc ;;
      Ok (addLayer kclass s (mkLayer kclass (KMaxPooling (mg o)) o) [pfm (mg o); poutRows (mg o); poutCols (mg o)])
  | DropoutLayer prob rnd =>
      Ok (addLayer kclass s (mkLayer kclass (KDropout I prob) (dropout_new junk I prob rnd)) info)
  | RestrictedBoltzmannMachineLayer H cdN backprop u w =>
      o <- RBM_Model.rbm_new junk I H cdN backprop reg w ;;
      Ok (addLayer kclass s (mkLayer kclass (KRestrictedBoltzmannMachine I H cdN backprop reg u w) o) [H])
  | SparseAutoEncoderLayer H beta rho act w =>
      o <- SAE_Model.sae_new junk I H beta rho (l2Penalty reg) act (fun k => w k 0%nat) ;;
      Ok (addLayer kclass s (mkLayer kclass (KSparseAutoEncoder I H beta rho (l2Penalty reg) act) o) [H])
  end.

(** Calls between inputLayer and the output layer: layers, and setRegularization, lines
    434-443. *)
Inductive command := Add (l : layerSpec) | SetRegularization (reg : Regularization).

Definition runCommand (st : net kclass * Regularization) (c : command) : res (net kclass * Regularization) :=
  match c with
  | Add l => s <- add (fst st) (snd st) l ;; Ok (s, snd st)
  | SetRegularization reg => Ok (fst st, reg)
  end.

(** A network: Net(), inputLayer(...), further calls, and initializeNetwork, which outputLayer,
    compressedOutputLayer and addOutputLayer, lines 155-183, call after they have added
    the last layer.  The default regularization has no penalties
    (Regularization.h 19-27). *)
Definition build (d1 d2 d3 : nat) (cs : list command) : res (net kclass) :=
  ' (s, _) <- for_each cs (fun c st => runCommand st c) (inputLayer (net_new kclass) d1 d2 d3, mkReg 0 0 0) ;;
  initializeNetwork kclass junk s.

(** ** Net::initialize *)
(** fillNormalDistribution, Random.h 117-123: every coefficient is replaced.  Random numbers
    are the arbitrary [w], as in the constructors. *)
Definition refill (m : mat) (w : nat -> nat -> R) : mat := mkMat (rows m) (cols m) w.

(** FullyConnected::initializeParameters, FullyConnected.cpp 42-48 *)
Definition fc_draw (w : nat -> nat -> R) (s : fc) : fc :=
  mkFC (fI s) (fJ s) (fbias s) (fact s) (refill (fW s) w) (fWd s)
    (if fbias s then refill (fb s) (fun j _ => w j (fI s)) else fb s) (fbd s)
    (fx s) (fa s) (fy s) (fyd s) (fdeltas s) (fe s) (freg s).
(** Compressed::initializeParameters, Compressed.cpp 53-58 *)
Definition k_draw (w : nat -> nat -> R) (s : compressed) : res compressed :=
  k_updatedParameters (k_with s (kW s) (refill (kalpha s) w) (kalphad s)).
(** Extreme::initializeParameters, Extreme.cpp 24-28 *)
Definition extreme_draw (w : nat -> nat -> R) (s : extreme) : extreme :=
  mkExtreme (xI s) (xJ s) (xbias s) (xact s) (refill (xW s) w) (xx s) (xa s) (xy s) (xyd s) (xdeltas s) (xe s).
(** Convolutional::initializeParameters, Convolutional.cpp 86-98 *)
Definition conv_draw (w : nat -> nat -> R) (s : conv) : res conv :=
  let g := cg s in
  for_ (fmout g) (fun fmo s => for_ (fmin g) (fun fmi s =>
    m <- tget (cW s) fmo fmi ;;
    W <- tset (cW s) fmo fmi (refill m (fun r c => w (fmo * fmin g + fmi)%nat (r * kernelCols g + c)%nat)) ;;
    Wb <- (if cbias g then mset (cWb s) fmo fmi (w (fmo * fmin g + fmi)%nat (kernelRows g * kernelCols g)%nat) else Ok (cWb s)) ;;
    Ok (conv_params s W Wb)) s) s.
(** Subsampling::initializeParameters, Subsampling.cpp 83-92 *)
Definition subs_draw (w : nat -> nat -> R) (s : subs) : res subs :=
  let g := sg s in
  for_ (pfm g) (fun fmo s =>
    m <- vget (sW s) fmo ;;
    W <- vset (sW s) fmo (refill m (fun r c => w fmo (r * poutCols g + c)%nat)) ;;
    Wb <- (if sbias s
           then m <- vget (sWb s) fmo ;; vset (sWb s) fmo (refill m (fun r c => w fmo ((poutRows g + r) * poutCols g + c)%nat))
           else Ok (sWb s)) ;;
    Ok (subs_with s W (sWd s) Wb (sWbd s))) s.

(** initializeParameters of a layer.  Input.cpp 23-26, MaxPooling.cpp 47-49,
    IntrinsicPlasticity.h 65, Dropout.h 36 and RBM.h 108 do nothing. *)
Definition initializeParameters (w : nat -> nat -> R) (l : layer kclass) : res (layer kclass) :=
  match lkind kclass l as k return St (kclass k) -> res (layer kclass) with
  | KFullyConnected n m bias act reg => fun o => Ok (mkLayer kclass (KFullyConnected n m bias act reg) (fc_draw w o))
  | KCompressed n m k bias act phi reg => fun o => o <- k_draw w o ;; Ok (mkLayer kclass (KCompressed n m k bias act phi reg) o)
  | KExtreme n m bias act _ => fun o => Ok (mkLayer kclass (KExtreme n m bias act w) (extreme_draw w o))
  | KConvolutional g => fun o => o <- conv_draw w o ;; Ok (mkLayer kclass (KConvolutional g) o)
  | KSubsampling g bias act reg => fun o => o <- subs_draw w o ;; Ok (mkLayer kclass (KSubsampling g bias act reg) o)
  | KSparseAutoEncoder n h beta rho lambda act => fun o =>
      o <- SAE_Model.sae_initializeParameters (fun k => w k 0%nat) o ;; Ok (mkLayer kclass (KSparseAutoEncoder n h beta rho lambda act) o)
  | k => fun o => Ok (mkLayer kclass k o)
  end (lobj kclass l).

(** the loop over the layers; [w i] are the numbers for the layer at position [i] *)
Fixpoint initializeLayers (w : nat -> nat -> nat -> R) (i : nat) (ls : list (layer kclass)) : res (list (layer kclass)) :=
  match ls with
  | [] => Ok []
  | l :: ls => l <- initializeParameters (w i) l ;; ls <- initializeLayers w (S i) ls ;; Ok (l :: ls)
  end.

(** initialize, lines 507-516 *)
Definition net_initialize (w : nat -> nat -> nat -> R) (s : net kclass) : res (net kclass) :=
  _ <- check (initialized kclass s) ;;
  ls <- initializeLayers w 0 (layers kclass s) ;;
  vec <- for_ (P kclass s) (fun p vec => ptr <- vget (parameters kclass s) p ;; v <- loadParam kclass ls ptr ;; vset vec p v)
           (parameterVector kclass s) ;;
  Ok (with_vector kclass (with_layers kclass s ls) vec).
End Build.
