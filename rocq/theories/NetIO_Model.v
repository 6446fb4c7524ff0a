(** Model of Net::save and Net::load, /repo/src/Net.cpp 222-426, and of the member [architecture]
    that the functions in lines 41-183 and 434-450 write. *)
From Coq Require Import String.
From Verif Require Import Base BaseFacts Matrix RSum MatOps Activation_Model Layer_Model FC_Model
  SimpleLayers_Model Conv_Model Pool_Model Compression_Model Net_Model NetBuild_Model.
Local Open Scope R_scope.

(** * Text
    Simplification: a text is a list of words and numbers, which are separated by white space.
    A number that has been written is represented by the value that is read back.
    Names of compressions are single words. *)
Inductive token := Word (w : string) | Num (x : R).

(** An input stream: what is left, whether white space follows the last token and the flag
    [eof].  Extraction of the last token reaches the end of the stream, and sets [eof], if no white
    space follows; extraction from an empty stream fails and sets [eof]. *)
Record istream := mkStream { toks : list token; trailing : bool; eof : bool }.
Definition readToken (s : istream) : option token * istream :=
  match toks s with
  | [] => (None, mkStream [] (trailing s) true)
  | [t] => (Some t, mkStream [] (trailing s) (negb (trailing s)))
  | t :: ts => (Some t, mkStream ts (trailing s) (eof s))
  end.

(** [stream >> x] for a local variable without initial value.  If the extraction fails the variable,
    or the next one that is extracted, is used without a value: undefined behaviour.
    Simplifications: negative integers, numbers with a fractional part that are extracted as integers and enumerators that
    do not exist are undefined behaviour as well. *)
Definition readDouble (s : istream) : res (R * istream) :=
  match readToken s with (Some (Num x), s) => Ok (x, s) | _ => UB end.
Definition readInt (s : istream) : res (nat * istream) :=
  ' (x, s) <- readDouble s ;;
  let n := Z.to_nat (Zfloor x) in
  if Reqb x (INR n) then Ok (n, s) else UB.
Definition readBool (s : istream) : res (bool * istream) :=
  ' (n, s) <- readInt s ;; match n with 0%nat => Ok (false, s) | 1%nat => Ok (true, s) | _ => UB end.
Definition readWord (s : istream) : res (string * istream) :=
  match readToken s with (Some (Word w), s) => Ok (w, s) | _ => UB end.

(** enum ActivationFunction, ActivationFunctions.h 9-72 (SOFTMAX is not modelled); enum ErrorFunction, Net.h 19-24 *)
Definition actCode (a : ActivationFunction) : nat :=
  match a with LOGISTIC => 0 | TANH => 1 | TANH_SCALED => 2 | RECTIFIER => 3 | LINEAR => 4 end.
Definition readAct (s : istream) : res (ActivationFunction * istream) :=
  ' (n, s) <- readInt s ;;
  match n with
  | 0 => Ok (LOGISTIC, s) | 1 => Ok (TANH, s) | 2 => Ok (TANH_SCALED, s) | 3 => Ok (RECTIFIER, s) | 4 => Ok (LINEAR, s)
  | _ => UB
  end%nat.
Definition efCode (e : ErrorFunction) : nat := match e with MSE => 1 | CE => 2 end.
Definition readErrorFunction (s : istream) : res (ErrorFunction * istream) :=
  ' (n, s) <- readInt s ;;
  match n with 0 | 1 => Ok (MSE, s) | 2 => Ok (CE, s) | _ => UB end%nat.

(** * The calls that describe a network, with all their arguments.
    Not modelled: alphaBetaFilterLayer, localReponseNormalizationLayer, and addLayer and addOutputLayer with objects of the user. *)
Inductive netCall :=
| InputLayer (dim1 dim2 dim3 : nat)
| FullyConnectedCall (units : nat) (act : ActivationFunction) (stdDev : R) (bias : bool)
| CompressedCall (units params : nat) (act : ActivationFunction) (compression : string) (stdDev : R) (bias : bool)
| ExtremeCall (units : nat) (act : ActivationFunction) (stdDev : R) (bias : bool)
| IntrinsicPlasticityCall (targetMean stdDev : R)
| ConvolutionalCall (featureMaps kernelRows kernelCols : nat) (act : ActivationFunction) (stdDev : R) (bias : bool)
| SubsamplingCall (kernelRows kernelCols : nat) (act : ActivationFunction) (stdDev : R) (bias : bool)
| MaxPoolingCall (kernelRows kernelCols : nat)
| DropoutCall (probability : R)
| RestrictedBoltzmannMachineCall (hidden cdN : nat) (stdDev : R) (backprop : bool)
| SparseAutoEncoderCall (hidden : nat) (beta rho : R) (act : ActivationFunction)
| OutputCall (units : nat) (act : ActivationFunction) (stdDev : R) (bias : bool)
| CompressedOutputCall (units params : nat) (act : ActivationFunction) (compression : string) (stdDev : R) (bias : bool)
| SetErrorFunctionCall (ef : ErrorFunction)
| SetRegularizationCall (l1 l2 maxSquaredNorm : R).

(** Random numbers: what the layer that is added by a call gets, by the number of the call.
    [weights] are normally distributed and multiplied with the standard deviation; [biases] are those
    of IntrinsicPlasticity; [normals] and [uniforms] are used for compression matrices, [masks]
    by Dropout.  [uniforms] are also the numbers that decide the states of the units of RBM and the initial weights of
    SparseAutoEncoder. *)
Record draws := mkDraws {
  weights : nat -> nat -> nat -> R; biases : nat -> nat -> R;
  normals : nat -> nat -> nat -> R; uniforms : nat -> nat -> nat -> R;
  masks : nat -> nat -> nat -> nat -> R }.

Section IO.
(** entries of resized matrices *)
Variable junk : nat -> nat -> R.
(** the value that is read back after [x] has been written with [operator<<(ostream&, double)] *)
Variable prt : R -> R.
Notation kc := (kclass junk).

(** class Net with the members [regularization] and [architecture]; [count] is the number of calls. *)
Record netState := mkState { theNet : net kc; theReg : Regularization; architecture : list token; count : nat }.
Definition state_new : netState := mkState (net_new kc) (mkReg 0 0 0) [] 0.

Local Open Scope string_scope.
Definition int (n : nat) : token := Num (INR n).
Definition bit (b : bool) : token := Num (if b then 1 else 0).
Definition dbl (x : R) : token := Num (prt x).

(** what is written to [architecture]: lines 43, 56, 65, 74, 84, 93, 100, 108, 117, 125, 140, 165, 177, 437, 447 *)
Definition callTokens (c : netCall) : list token :=
  match c with
  | InputLayer d1 d2 d3 => [Word "input"; int d1; int d2; int d3]
  | FullyConnectedCall u a sd b => [Word "fully_connected"; int u; int (actCode a); dbl sd; bit b]
  | CompressedCall u p a co sd b => [Word "compressed"; int u; int p; int (actCode a); Word co; dbl sd; bit b]
  | ExtremeCall u a sd b => [Word "extreme"; int u; int (actCode a); dbl sd; bit b]
  | IntrinsicPlasticityCall m sd => [Word "intrinsic_plasticity"; dbl m; dbl sd]
  | ConvolutionalCall fm kr kcl a sd b => [Word "convolutional"; int fm; int kr; int kcl; int (actCode a); dbl sd; bit b]
  | SubsamplingCall kr kcl a sd b => [Word "subsampling"; int kr; int kcl; int (actCode a); dbl sd; bit b]
  | MaxPoolingCall kr kcl => [Word "max_pooling"; int kr; int kcl]
  | DropoutCall p => [Word "dropout"; dbl p]
  | RestrictedBoltzmannMachineCall H cdN sd b => [Word "rbm"; int H; int cdN; dbl sd; bit b]
  | SparseAutoEncoderCall H beta rho a => [Word "sae"; int H; dbl beta; dbl rho; int (actCode a)]
  | OutputCall u a sd b => [Word "output"; int u; int (actCode a); dbl sd; bit b]
  | CompressedOutputCall u p a co sd b => [Word "compressed_output"; int u; int p; int (actCode a); Word co; dbl sd; bit b]
  | SetErrorFunctionCall ef => [Word "error_function"; int (efCode ef)]
  | SetRegularizationCall l1 l2 m => [Word "regularization"; dbl l1; dbl l2; dbl m]
  end.

(** the transformation with a given name, Compressed.cpp 16-25 *)
Definition transformationOf (compression : string) : transformation :=
  if String.eqb compression "gaussian" then GAUSSIAN
  else if String.eqb compression "dct" then DCT
  else if String.eqb compression "average" then AVERAGE
  else if String.eqb compression "edge" then EDGE
  else SPARSE_RANDOM.

(** the compression matrix of a layer after layers with the output sizes [info], Compressed.cpp 11-30 *)
Definition compressionMatrix (d : draws) (n : nat) (info : list nat) (params : nat) (compression : string) : res mat :=
  f <- factory_new (outputs info + 1) params (transformationOf compression) ;;
  createCompressionMatrix (normals d n) (uniforms d n) junk f (mkMat params (outputs info + 1) junk).

(** the layer that a call adds; [None] if it adds none *)
Definition layerOf (d : draws) (n : nat) (info : list nat) (c : netCall) : res (option layerSpec) :=
  let w sd i j := sd * weights d n i j in
  match c with
  | FullyConnectedCall u a sd b | OutputCall u a sd b => Ok (Some (FullyConnectedLayer u a b (w sd)))
  | CompressedCall u p a co sd b | CompressedOutputCall u p a co sd b =>
      phi <- compressionMatrix d n info p co ;;
      Ok (Some (CompressedLayer u p a b (at_ phi) (w sd)))
  | ExtremeCall u a sd b => Ok (Some (ExtremeLayer u a b (w sd)))
  | IntrinsicPlasticityCall _ sd => Ok (Some (IntrinsicPlasticityLayer (fun _ => 1) (fun i => sd * biases d n i)))
  | ConvolutionalCall fm kr kcl a sd b => Ok (Some (ConvolutionalLayer fm kr kcl a b (w sd)))
  | SubsamplingCall kr kcl a sd b => Ok (Some (SubsamplingLayer kr kcl a b (w sd)))
  | MaxPoolingCall kr kcl => Ok (Some (MaxPoolingLayer kr kcl))
  | DropoutCall p => Ok (Some (DropoutLayer p (masks d n)))
  | RestrictedBoltzmannMachineCall H cdN sd b => Ok (Some (RestrictedBoltzmannMachineLayer H cdN b (fun k => uniforms d n k 0%nat) (w sd)))
  | SparseAutoEncoderCall H beta rho a => Ok (Some (SparseAutoEncoderLayer H beta rho a (uniforms d n)))
  | InputLayer _ _ _ | SetErrorFunctionCall _ | SetRegularizationCall _ _ _ => Ok None
  end.

(** a call: lines 41-142, 163-183, 434-450 *)
Definition runCall (d : draws) (st : netState) (c : netCall) : res netState :=
  let arch := (architecture st ++ callTokens c)%list in
  let n := count st in
  match c with
  | InputLayer d1 d2 d3 => Ok (mkState (inputLayer junk (theNet st) d1 d2 d3) (theReg st) arch (S n))
  | SetErrorFunctionCall ef => Ok (mkState (setErrorFunction kc (theNet st) ef) (theReg st) arch (S n))
  | SetRegularizationCall l1 l2 m => Ok (mkState (theNet st) (mkReg l1 l2 m) arch (S n))
  | OutputCall _ _ _ _ | CompressedOutputCall _ _ _ _ _ _ =>
      info <- lastInfo junk (theNet st) ;;
      l <- layerOf d n info c ;;
      match l with
      | Some l => s <- add junk (theNet st) (theReg st) l ;; s <- initializeNetwork kc junk s ;; Ok (mkState s (theReg st) arch (S n))
      | None => Ok st
      end
  | _ =>
      info <- lastInfo junk (theNet st) ;;
      l <- layerOf d n info c ;;
      match l with
      | Some l => s <- add junk (theNet st) (theReg st) l ;; Ok (mkState s (theReg st) arch (S n))
      | None => Ok st
      end
  end.
Definition runCalls (d : draws) (cs : list netCall) (st : netState) : res netState :=
  for_each cs (fun c st => runCall d st c) st.

(** save, lines 231-234.  The vector is written without white space after the last number. *)
Definition save (st : netState) : istream :=
  let p := currentParameters kc (theNet st) in
  mkStream (architecture st ++ Word "parameters" :: map dbl p) (match p with [] => true | _ => false end) false.

(** one iteration of the loop in lines 405-407.  If the next word is not a number the loop in lines 248-425
    does not terminate: the extraction fails, [type] keeps its value and [eof] is never set.
    At the end of the stream the old value is kept. *)
Definition readParameter (i : nat) (st : list R * istream) : res (list R * istream) :=
  let '(p, s) := st in
  match readToken s with
  | (Some (Num x), s) => p <- vset p i x ;; Ok (p, s)
  | (Some (Word _), _) => Fuel
  | (None, s) => Ok (p, s)
  end.

(** the body of the loop, after [type] has been read: lines 251-424.
    [dimension] is -1 before the output layer has been added; then the loop in line 405 runs over the end
    of the vector. *)
Definition loadEntry (d : draws) (type : token) (st : netState) (s : istream) : res (netState * istream) :=
  let call c s := st <- runCall d st c ;; Ok (st, s) in
  let is w := match type with Word v => String.eqb v w | Num _ => false end in
  if is "input" then
    ' (d1, s) <- readInt s ;; ' (d2, s) <- readInt s ;; ' (d3, s) <- readInt s ;;
    call (InputLayer d1 d2 d3) s
  else if is "fully_connected" then
    ' (u, s) <- readInt s ;; ' (a, s) <- readAct s ;; ' (sd, s) <- readDouble s ;; ' (b, s) <- readBool s ;;
    call (FullyConnectedCall u a sd b) s
  else if is "rbm" then
    ' (H, s) <- readInt s ;; ' (cdN, s) <- readInt s ;; ' (sd, s) <- readDouble s ;; ' (b, s) <- readBool s ;;
    call (RestrictedBoltzmannMachineCall H cdN sd b) s
  else if is "sae" then
    ' (H, s) <- readInt s ;; ' (beta, s) <- readDouble s ;; ' (rho, s) <- readDouble s ;; ' (a, s) <- readAct s ;;
    call (SparseAutoEncoderCall H beta rho a) s
  else if is "compressed" then
    ' (u, s) <- readInt s ;; ' (p, s) <- readInt s ;; ' (a, s) <- readAct s ;; ' (co, s) <- readWord s ;;
    ' (sd, s) <- readDouble s ;; ' (b, s) <- readBool s ;;
    call (CompressedCall u p a co sd b) s
  else if is "extreme" then
    ' (u, s) <- readInt s ;; ' (a, s) <- readAct s ;; ' (sd, s) <- readDouble s ;; ' (b, s) <- readBool s ;;
    call (ExtremeCall u a sd b) s
  else if is "intrinsic_plasticity" then
    ' (m, s) <- readDouble s ;; ' (sd, s) <- readDouble s ;;
    call (IntrinsicPlasticityCall m sd) s
  else if is "convolutional" then
    ' (fm, s) <- readInt s ;; ' (kr, s) <- readInt s ;; ' (kcl, s) <- readInt s ;; ' (a, s) <- readAct s ;;
    ' (sd, s) <- readDouble s ;; ' (b, s) <- readBool s ;;
    call (ConvolutionalCall fm kr kcl a sd b) s
  else if is "subsampling" then
    ' (kr, s) <- readInt s ;; ' (kcl, s) <- readInt s ;; ' (a, s) <- readAct s ;;
    ' (sd, s) <- readDouble s ;; ' (b, s) <- readBool s ;;
    call (SubsamplingCall kr kcl a sd b) s
  else if is "max_pooling" then
    ' (kr, s) <- readInt s ;; ' (kcl, s) <- readInt s ;;
    call (MaxPoolingCall kr kcl) s
  else if is "dropout" then
    ' (p, s) <- readDouble s ;; call (DropoutCall p) s
  else if is "output" then
    ' (u, s) <- readInt s ;; ' (a, s) <- readAct s ;; ' (sd, s) <- readDouble s ;; ' (b, s) <- readBool s ;;
    call (OutputCall u a sd b) s
  else if is "compressed_output" then
    ' (u, s) <- readInt s ;; ' (p, s) <- readInt s ;; ' (a, s) <- readAct s ;; ' (co, s) <- readWord s ;;
    ' (sd, s) <- readDouble s ;; ' (b, s) <- readBool s ;;
    call (CompressedOutputCall u p a co sd b) s
  else if is "error_function" then
    ' (ef, s) <- readErrorFunction s ;; call (SetErrorFunctionCall ef) s
  else if is "regularization" then
    ' (l1, s) <- readDouble s ;; ' (l2, s) <- readDouble s ;; ' (m, s) <- readDouble s ;;
    call (SetRegularizationCall l1 l2 m) s
  else if is "parameters" then
    let net := theNet st in
    if initialized kc net then
      ' (p, s) <- for_ (dimension kc net) readParameter (parameterVector kc net, s) ;;
      net <- setParameters kc net p ;;
      Ok (mkState net (theReg st) (architecture st) (count st), s)
    else UB
  else Throw.

(** load, lines 245-426, with a bound on the number of iterations *)
Fixpoint loadLoop (d : draws) (fuel : nat) (st : netState) (s : istream) (type : token) : res netState :=
  if eof s then Ok st else
  match fuel with
  | 0%nat => Fuel
  | S fuel =>
      let '(t, s) := readToken s in
      let type := match t with Some t => t | None => type end in
      ' (st, s) <- loadEntry d type st s ;;
      loadLoop d fuel st s type
  end.
Definition load (d : draws) (fuel : nat) (st : netState) (s : istream) : res netState :=
  loadLoop d fuel st s (Word "").
End IO.
