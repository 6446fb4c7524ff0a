(** Model of Net::save and Net::load, /repo/src/Net.cpp 222-426, on streams of characters, and of the text that the functions in lines
    41-183 and 434-450 write to [architecture].  Calls, layers and networks are those of NetIO_Model. *)
From Coq Require Import Ascii String.
From Verif Require Import Base Matrix Activation_Model Layer_Model Net_Model NetBuild_Model Text_Model TextIO_Model NetIO_Model.
Local Open Scope R_scope.

Definition str : string -> text := list_ascii_of_string.
Definition printBool (b : bool) : text := if b then str "1" else str "0".

(** what is written to [architecture]: every item is followed by a blank.
    Lines 43, 56, 65, 74, 84, 93, 100, 108, 117, 125, 140, 165, 177, 437, 447 *)
Definition callWords (c : netCall) : list text :=
  let code a := printNat (actCode a) in
  match c with
  | InputLayer d1 d2 d3 => [str "input"; printNat d1; printNat d2; printNat d3]
  | FullyConnectedCall u a sd b => [str "fully_connected"; printNat u; code a; printDouble sd; printBool b]
  | CompressedCall u p a co sd b => [str "compressed"; printNat u; printNat p; code a; str co; printDouble sd; printBool b]
  | ExtremeCall u a sd b => [str "extreme"; printNat u; code a; printDouble sd; printBool b]
  | IntrinsicPlasticityCall m sd => [str "intrinsic_plasticity"; printDouble m; printDouble sd]
  | ConvolutionalCall fm kr kcl a sd b => [str "convolutional"; printNat fm; printNat kr; printNat kcl; code a; printDouble sd; printBool b]
  | SubsamplingCall kr kcl a sd b => [str "subsampling"; printNat kr; printNat kcl; code a; printDouble sd; printBool b]
  | MaxPoolingCall kr kcl => [str "max_pooling"; printNat kr; printNat kcl]
  | DropoutCall p => [str "dropout"; printDouble p]
  | RestrictedBoltzmannMachineCall H cdN sd b => [str "rbm"; printNat H; printNat cdN; printDouble sd; printBool b]
  | SparseAutoEncoderCall H beta rho a => [str "sae"; printNat H; printDouble beta; printDouble rho; code a]
  | OutputCall u a sd b => [str "output"; printNat u; code a; printDouble sd; printBool b]
  | CompressedOutputCall u p a co sd b => [str "compressed_output"; printNat u; printNat p; code a; str co; printDouble sd; printBool b]
  | SetErrorFunctionCall ef => [str "error_function"; printNat (efCode ef)]
  | SetRegularizationCall l1 l2 m => [str "regularization"; printDouble l1; printDouble l2; printDouble m]
  end.
Definition callText (c : netCall) : text := flat_map (fun w => w ++ blank)%list (callWords c).

(** [stream >> x] for a local variable without initial value: undefined behaviour if it fails, as in NetIO_Model *)
Definition textDouble (s : textstream) : res (R * textstream) :=
  match extractDouble s with (Some x, s) => Ok (x, s) | _ => UB end.
Definition textNat (s : textstream) : res (nat * textstream) :=
  match extractInt s with (Some z, s) => if Z.leb 0 z then Ok (Z.to_nat z, s) else UB | _ => UB end.
Definition textBool (s : textstream) : res (bool * textstream) :=
  ' (n, s) <- textNat s ;; match n with 0%nat => Ok (false, s) | 1%nat => Ok (true, s) | _ => UB end.
Definition textWord (s : textstream) : res (string * textstream) :=
  match extractWord s with (Some w, s) => Ok (string_of_list_ascii w, s) | _ => UB end.
Definition textAct (s : textstream) : res (ActivationFunction * textstream) :=
  ' (n, s) <- textNat s ;;
  match n with
  | 0 => Ok (LOGISTIC, s) | 1 => Ok (TANH, s) | 2 => Ok (TANH_SCALED, s) | 3 => Ok (RECTIFIER, s) | 4 => Ok (LINEAR, s)
  | _ => UB
  end%nat.
Definition textErrorFunction (s : textstream) : res (ErrorFunction * textstream) :=
  ' (n, s) <- textNat s ;;
  match n with 0 | 1 => Ok (MSE, s) | 2 => Ok (CE, s) | _ => UB end%nat.

Section IO.
(** entries of resized matrices *)
Variable junk : nat -> nat -> R.
Notation kc := (kclass junk).

(** class Net: [archText] is the content of the member [architecture].  ([NetIO_Model.architecture] is the same as a list of words
    and of the numbers that are read back; nothing depends on it here.) *)
Definition readBack (x : R) : R := atof (printDouble x).
Record textNet := mkTextNet { member : netState junk; archText : text }.
Definition textNet_new : textNet := mkTextNet (state_new junk) [].
Definition textCall (d : draws) (st : textNet) (c : netCall) : res textNet :=
  m <- runCall junk readBack d (member st) c ;; Ok (mkTextNet m (archText st ++ callText c)).
Definition textCalls (d : draws) (cs : list netCall) (st : textNet) : res textNet :=
  for_each cs (fun c st => textCall d st c) st.

(** save, lines 231-234; Eigen writes a column vector as a matrix with one column *)
Definition saveText (st : textNet) : text :=
  (archText st ++ str "parameters " ++ aligned newline (map printDouble (currentParameters kc (theNet junk (member st)))))%list.

(** one iteration of the loop in lines 405-407.  An extraction that fails leaves the entry as it is if there are no characters left or
    the stream is not good, and sets it to 0 otherwise. *)
Definition textParameter (i : nat) (st : list R * textstream) : res (list R * textstream) :=
  let '(p, s) := st in
  match extractDouble s with
  | (Some x, s') => p <- vset p i x ;; Ok (p, s')
  | (None, s') =>
      if (eofbit s || failbit s || match skipSpaces (rest s) with [] => true | _ => false end)%bool then Ok (p, s')
      else p <- vset p i 0 ;; Ok (p, s')
  end.

Local Open Scope string_scope.
(** the body of the loop, after [type] has been read: lines 251-424 *)
Definition loadEntryText (d : draws) (type : text) (st : textNet) (s : textstream) : res (textNet * textstream) :=
  let call c s := st <- textCall d st c ;; Ok (st, s) in
  let is w := String.eqb (string_of_list_ascii type) w in
  if is "input" then
    ' (d1, s) <- textNat s ;; ' (d2, s) <- textNat s ;; ' (d3, s) <- textNat s ;;
    call (InputLayer d1 d2 d3) s
  else if is "fully_connected" then
    ' (u, s) <- textNat s ;; ' (a, s) <- textAct s ;; ' (sd, s) <- textDouble s ;; ' (b, s) <- textBool s ;;
    call (FullyConnectedCall u a sd b) s
  else if is "rbm" then
    ' (H, s) <- textNat s ;; ' (cdN, s) <- textNat s ;; ' (sd, s) <- textDouble s ;; ' (b, s) <- textBool s ;;
    call (RestrictedBoltzmannMachineCall H cdN sd b) s
  else if is "sae" then
    ' (H, s) <- textNat s ;; ' (beta, s) <- textDouble s ;; ' (rho, s) <- textDouble s ;; ' (a, s) <- textAct s ;;
    call (SparseAutoEncoderCall H beta rho a) s
  else if is "compressed" then
    ' (u, s) <- textNat s ;; ' (p, s) <- textNat s ;; ' (a, s) <- textAct s ;; ' (co, s) <- textWord s ;;
    ' (sd, s) <- textDouble s ;; ' (b, s) <- textBool s ;;
    call (CompressedCall u p a co sd b) s
  else if is "extreme" then
    ' (u, s) <- textNat s ;; ' (a, s) <- textAct s ;; ' (sd, s) <- textDouble s ;; ' (b, s) <- textBool s ;;
    call (ExtremeCall u a sd b) s
  else if is "intrinsic_plasticity" then
    ' (m, s) <- textDouble s ;; ' (sd, s) <- textDouble s ;;
    call (IntrinsicPlasticityCall m sd) s
  else if is "convolutional" then
    ' (fm, s) <- textNat s ;; ' (kr, s) <- textNat s ;; ' (kcl, s) <- textNat s ;; ' (a, s) <- textAct s ;;
    ' (sd, s) <- textDouble s ;; ' (b, s) <- textBool s ;;
    call (ConvolutionalCall fm kr kcl a sd b) s
  else if is "subsampling" then
    ' (kr, s) <- textNat s ;; ' (kcl, s) <- textNat s ;; ' (a, s) <- textAct s ;;
    ' (sd, s) <- textDouble s ;; ' (b, s) <- textBool s ;;
    call (SubsamplingCall kr kcl a sd b) s
  else if is "max_pooling" then
    ' (kr, s) <- textNat s ;; ' (kcl, s) <- textNat s ;;
    call (MaxPoolingCall kr kcl) s
  else if is "dropout" then
    ' (p, s) <- textDouble s ;; call (DropoutCall p) s
  else if is "output" then
    ' (u, s) <- textNat s ;; ' (a, s) <- textAct s ;; ' (sd, s) <- textDouble s ;; ' (b, s) <- textBool s ;;
    call (OutputCall u a sd b) s
  else if is "compressed_output" then
    ' (u, s) <- textNat s ;; ' (p, s) <- textNat s ;; ' (a, s) <- textAct s ;; ' (co, s) <- textWord s ;;
    ' (sd, s) <- textDouble s ;; ' (b, s) <- textBool s ;;
    call (CompressedOutputCall u p a co sd b) s
  else if is "error_function" then
    ' (ef, s) <- textErrorFunction s ;; call (SetErrorFunctionCall ef) s
  else if is "regularization" then
    ' (l1, s) <- textDouble s ;; ' (l2, s) <- textDouble s ;; ' (m, s) <- textDouble s ;;
    call (SetRegularizationCall l1 l2 m) s
  else if is "parameters" then
    let net := theNet junk (member st) in
    if initialized kc net then
      ' (p, s) <- for_ (dimension kc net) textParameter (parameterVector kc net, s) ;;
      net <- setParameters kc net p ;;
      Ok (mkTextNet (mkState junk net (theReg junk (member st)) (architecture junk (member st)) (count junk (member st))) (archText st), s)
    else UB
  else Throw.

(** load, lines 245-426, with a bound on the number of iterations.  [stream >> type] keeps [type] if it fails. *)
Fixpoint loadLoopText (d : draws) (fuel : nat) (st : textNet) (s : textstream) (type : text) : res textNet :=
  if eofbit s then Ok st else
  match fuel with
  | 0%nat => Fuel
  | S fuel =>
      let '(w, s) := extractWord s in
      let type := match w with Some w => w | None => type end in
      ' (st, s) <- loadEntryText d type st s ;;
      loadLoopText d fuel st s type
  end.
Definition loadText (d : draws) (fuel : nat) (st : textNet) (s : textstream) : res textNet := loadLoopText d fuel st s [].
End IO.
