(** Theorems about saving and loading networks (C40). *)
From Coq Require Import String.
From Verif Require Import Base BaseFacts Matrix RSum MatOps Vec Activation_Model Layer_Model FC_Model SimpleLayers_Model Conv_Model Pool_Model
  Net_Model NetChain_Proofs Net_Proofs NetBuild_Model NetUse_Spec NetBuild_Proofs NetIO_Model NetIO_Spec NetIO_Proofs NetPrint_Proofs.
Local Open Scope R_scope.

Lemma save_same j1 j2 prt (a : netState j1) (b : netState j2) : printing prt -> architecture j2 b = architecture j1 a ->
  currentParameters _ (theNet j2 b) = map prt (currentParameters _ (theNet j1 a)) -> save j2 prt b = save j1 prt a.
Proof.
  intros HP H1 H2. unfold save. rewrite H1, H2, map_map. f_equal.
  - do 2 f_equal. apply map_ext. intros x. unfold dbl. f_equal. now apply prt_prt.
  - now destruct (currentParameters _ (theNet j1 a)).
Qed.

(** ** C40: for every network without maximal norms, with any layers and after any use, load accepts the file that
    save has written and makes a network with the same numbers of inputs and outputs, the same error function, as many
    parameters, each of them rounded to six digits, and the same contents when it is saved again.
    [d'] are the random numbers that load draws, which are not those ([d]) of the saved network;
    [fuel] only bounds the number of iterations of load's loop. *)
Theorem C40_load_accepts_saved junk junk' prt d d' cs st :
  printing prt -> complete cs -> Forall noMaxNorm cs -> used junk prt d cs st ->
  exists st' n, (forall fuel, (n <= fuel)%nat -> load junk' prt d' fuel (state_new junk') (save junk prt st) = Ok st') /\
    netInputs (theNet _ st') = netInputs (theNet _ st) /\ netOutputs (theNet _ st') = netOutputs (theNet _ st) /\
    dimension _ (theNet _ st') = dimension _ (theNet _ st) /\ errorFunction _ (theNet _ st') = errorFunction _ (theNet _ st) /\
    length (currentParameters _ (theNet _ st')) = length (currentParameters _ (theNet _ st)) /\
    (forall k, (k < length (currentParameters _ (theNet _ st)))%nat ->
       let p := (currentParameters _ (theNet _ st)).[k] in let p' := (currentParameters _ (theNet _ st')).[k] in
       sixDigits p' /\ Rabs (p' - p) <= 5 / 10 ^ 6 * Rabs p /\ (sixDigits p -> p' = p)) /\
    save junk' prt st' = save junk prt st.
Proof.
  intros HP (pre & d1 & d2 & d3 & mid & out & -> & H1 & H2 & H3) HN HU.
  destruct (load_saved junk junk' prt HP pre d1 d2 d3 mid out H1 H2 H3 HN d d' st HU) as (st' & n & HL & LD).
  exists st', n. destruct LD. split; auto. split; auto. split; auto. split; auto. split; auto. rewrite ld_vector, map_length.
  split; auto. split; [|now apply save_same].
  intros k Hk. cbv zeta. rewrite (nth_indep _ 0 (prt 0)) by (now rewrite map_length). rewrite map_nth.
  split; [apply HP|]. split; [apply HP|]. intros H. apply HP. rewrite (nth_indep _ 0 (prt 0)) by auto. rewrite (nth_indep _ (prt 0) 0) by auto. auto.
Qed.
Print Assumptions C40_load_accepts_saved.

(** ** The loaded network is the saved one with rounded parameters.
    Partial: layers whose random constants are not saved are excluded ([restorable]; C40_extreme_refuted), as are networks with a
    maximal norm, and arguments of calls must not need more than six digits. *)
Theorem C40_loaded_is_rounded_partial junk junk' prt d d' cs st :
  printing prt -> complete cs -> Forall noMaxNorm cs -> Forall restorable cs -> Forall exactArguments cs -> used junk prt d cs st ->
  exists st' n s, (forall fuel, (n <= fuel)%nat -> load junk' prt d' fuel (state_new junk') (save junk prt st) = Ok st') /\
    setParameters _ (useDropout _ (theNet _ st) false) (map prt (currentParameters _ (theNet _ st))) = Ok s /\
    sameOutputs s (theNet _ st') /\ sameErrors s (theNet _ st').
Proof.
  intros HP (pre & d1 & d2 & d3 & mid & out & -> & H1 & H2 & H3) HN HR HX HU.
  destruct (load_saved junk junk' prt HP pre d1 d2 d3 mid out H1 H2 H3 HN d d' st HU) as (st' & n & HL & LD).
  destruct (ld_same _ _ _ _ _ _ _ _ _ _ _ LD HR HX) as (s & E & S1 & S2). exists st', n, s. auto.
Qed.
Print Assumptions C40_loaded_is_rounded_partial.

(** ** It computes the same function and the same errors as the saved one if no parameter needs more than six digits and the saved
    network is not in dropout mode.
    Partial: false for other parameters (C40_precision_refuted). *)
Theorem C40_save_load_partial junk junk' prt d d' cs st :
  printing prt -> complete cs -> Forall noMaxNorm cs -> Forall restorable cs -> Forall exactArguments cs -> used junk prt d cs st ->
  Forall sixDigits (currentParameters _ (theNet _ st)) -> dropout _ (theNet _ st) = false ->
  exists st' n, (forall fuel, (n <= fuel)%nat -> load junk' prt d' fuel (state_new junk') (save junk prt st) = Ok st') /\
    currentParameters _ (theNet _ st') = currentParameters _ (theNet _ st) /\
    sameOutputs (theNet _ st) (theNet _ st') /\ sameErrors (theNet _ st) (theNet _ st').
Proof.
  intros HP (pre & d1 & d2 & d3 & mid & out & -> & H1 & H2 & H3) HN HR HX HU HS HD.
  destruct (load_saved junk junk' prt HP pre d1 d2 d3 mid out H1 H2 H3 HN d d' st HU) as (st' & n & HL & LD).
  assert (E : map prt (currentParameters _ (theNet _ st)) = currentParameters _ (theNet _ st)).
  { rewrite <- map_id. apply map_ext_in. intros x Hx. apply HP. rewrite Forall_forall in HS. auto. }
  exists st', n. split; auto. destruct (ld_exact _ _ _ _ _ _ _ _ _ _ _ LD HR HX HD E) as (S1 & S2).
  rewrite (ld_vector _ _ _ _ _ _ _ _ _ _ _ LD). auto.
Qed.
Print Assumptions C40_save_load_partial.

(** The hypotheses are met by a convolutional network with all kinds of settings, for any random numbers. *)
Definition ex_calls : list netCall :=
  [SetErrorFunctionCall CE; InputLayer 1 6 6; ConvolutionalCall 2 3 3 TANH (1 / 10) true; MaxPoolingCall 2 2; SetRegularizationCall (1 / 10) 0 0;
   FullyConnectedCall 5 LOGISTIC (1 / 20) true; DropoutCall (1 / 2); RestrictedBoltzmannMachineCall 4 1 (1 / 100) true;
   SparseAutoEncoderCall 3 3 (1 / 10) TANH; SetErrorFunctionCall MSE; OutputCall 2 LINEAR (1 / 20) true].
Ltac fin := repeat (apply Forall_cons; [unfold inner; simpl; auto|]); apply Forall_nil.
Lemma six m e x : (Z.abs m < 10 ^ 6)%Z -> x = IZR m * powerRZ 10 e -> sixDigits x.
Proof. intros H1 H2. exists m, e. auto. Qed.
Example ex_calls_meet junk prt d : complete ex_calls /\ Forall noMaxNorm ex_calls /\ Forall restorable ex_calls /\ Forall exactArguments ex_calls /\
  exists st, used junk prt d ex_calls st.
Proof.
  assert (HN : Forall noMaxNorm ex_calls) by (repeat constructor; simpl; lra).
  set (mid := [ConvolutionalCall 2 3 3 TANH (1 / 10) true; MaxPoolingCall 2 2; SetRegularizationCall (1 / 10) 0 0;
   FullyConnectedCall 5 LOGISTIC (1 / 20) true; DropoutCall (1 / 2); RestrictedBoltzmannMachineCall 4 1 (1 / 100) true;
   SparseAutoEncoderCall 3 3 (1 / 10) TANH; SetErrorFunctionCall MSE]).
  split; [|split; [|split; [|split]]]; auto.
  - exists [SetErrorFunctionCall CE], 1%nat, 6%nat, 6%nat, mid, (OutputCall 2 LINEAR (1 / 20) true).
    split; [reflexivity|]. split; [repeat constructor|]. split; [|exact I]. fin.
  - repeat constructor.
  - repeat constructor.
    + apply (six 1 (-1)); [reflexivity|]. simpl. lra.
    + apply (six 0 0); [reflexivity|]. simpl. lra.
    + apply (six 0 0); [reflexivity|]. simpl. lra.
    + apply (six 5 (-1)); [reflexivity|]. simpl. lra.
    + apply (six 3 0); [reflexivity|]. simpl. lra.
    + apply (six 1 (-1)); [reflexivity|]. simpl. lra.
  - assert (Ec : exists r, commandsOf junk d 2 [1; 6; 6]%nat (mid ++ [OutputCall 2 LINEAR (1 / 20) true]) = Ok r /\ Forall no_max_norm r /\ commandsFit [1; 6; 6]%nat r /\
      finalOutput [1; 6; 6]%nat r = [2]%nat).
    { eexists. split; [reflexivity|]. split; [repeat constructor; simpl; lra|]. split; [|reflexivity]. simpl. repeat (split; auto; try lia). }
    destruct Ec as (r & Er & Mr & Fr & Or).
    destruct (build_ok junk 1 6 6 (SetRegularization (mkReg 0 0 0) :: r)) as (s & Es & _ & Os & _); auto. { constructor; auto. simpl. lra. }
    cbn [finalOutput] in Os. rewrite Or, outputs1 in Os.
    destruct (complete_bwd junk prt [SetErrorFunctionCall CE] 1 6 6 mid (OutputCall 2 LINEAR (1 / 20) true)) with (d := d) (cs := r) (s := s) as (st & E); auto.
    + repeat constructor.
    + fin.
    + exact I.
    + exists st. apply used_build; auto.
      destruct (complete_fwd junk prt [SetErrorFunctionCall CE] 1 6 6 mid (OutputCall 2 LINEAR (1 / 20) true)) with (d := d) (st := st) as (r' & s' & C1 & C2 & C3 & _); auto.
      { repeat constructor. } { fin. } { exact I. }
      cbn [length] in C1. rewrite Er in C1. injection C1 as <-. cbn [fold_left regAfter] in C2. rewrite Es in C2. injection C2 as <-.
      rewrite C3. change (0 < netOutputs s)%nat. lia.
Qed.

(** ** Parameters that need more than six digits are changed: one linear unit with weight 1.0000001. *)
Definition w7 : R := 10000001 / 10 ^ 7.
Lemma w7_digits : ~ sixDigits w7.
Proof.
  intros (m & e & Hm & E). unfold w7 in E.
  assert (E1 : IZR 10000001 = IZR m * powerRZ 10 (e + 7)).
  { rewrite p10_add, <- Rmult_assoc, <- E, (p10_Z 7) by lia. simpl. field. }
  destruct (Z_le_gt_dec 0 (e + 7)) as [H|H].
  - rewrite p10_Z, <- mult_IZR in E1 by auto. apply eq_IZR in E1.
    destruct (Z.eq_dec (e + 7) 0) as [H0|H0]; [rewrite H0 in E1; simpl in E1; lia|].
    replace (e + 7)%Z with (Z.succ (e + 6)) in E1 by lia. rewrite Z.pow_succ_r in E1 by lia.
    assert (D : (10 | 10000001)%Z) by (rewrite E1; exists (m * 10 ^ (e + 6))%Z; ring).
    apply Z.mod_divide in D; [discriminate D|lia].
  - pose proof (p10_inv (e + 7)) as PI.
    assert (E2 : IZR 10000001 * powerRZ 10 (- (e + 7)) = IZR m) by (rewrite E1, Rmult_assoc, PI; ring).
    rewrite p10_Z, <- mult_IZR in E2 by lia. apply eq_IZR in E2.
    assert (0 < 10 ^ (- (e + 7)))%Z by (apply Z.pow_pos_nonneg; lia). nia.
Qed.
Definition zeros : nat -> nat -> R := fun _ _ => 0.
Definition all_draws (w : R) : draws := mkDraws (fun _ _ _ => w) (fun _ _ => w) (fun _ _ _ => w) (fun _ _ _ => w) (fun _ _ _ _ => w).
Definition one_unit : list netCall := [InputLayer 1 1 1; OutputCall 1 LINEAR 1 false].
Lemma one_unit_meets : complete one_unit /\ Forall noMaxNorm one_unit /\ Forall restorable one_unit /\ Forall exactArguments one_unit.
Proof.
  split; [|repeat split; fin]. exists [], 1%nat, 1%nat, 1%nat, [], (OutputCall 1 LINEAR 1 false). split; [reflexivity|]. repeat split; constructor.
Qed.
Theorem C40_precision_refuted prt : printing prt ->
  exists junk d cs st st' n r r' x y y',
    complete cs /\ Forall noMaxNorm cs /\ Forall restorable cs /\ Forall exactArguments cs /\ used junk prt d cs st /\ dropout _ (theNet _ st) = false /\
    (forall fuel, (n <= fuel)%nat -> load junk prt d fuel (state_new junk) (save junk prt st) = Ok st') /\
    size_is x 1 1 /\ net_apply _ (theNet _ st) x = Ok (r, y) /\ net_apply _ (theNet _ st') x = Ok (r', y') /\
    at_ y 0 0 = w7 /\ at_ y' 0 0 <> w7.
Proof.
  intros HP. destruct one_unit_meets as (M1 & M2 & M3 & M4).
  assert (U : exists st, used zeros prt (all_draws w7) one_unit st /\ dropout _ (theNet _ st) = false /\ exists r y, net_apply _ (theNet _ st) (mkMat 1 1 (fun _ _ => 1)) = Ok (r, y) /\ at_ y 0 0 = w7 /\
    exists s q z, setParameters _ (useDropout _ (theNet _ st) false) (map prt (currentParameters _ (theNet _ st))) = Ok s /\
      net_apply _ s (mkMat 1 1 (fun _ _ => 1)) = Ok (q, z) /\ at_ z 0 0 = prt w7 /\ netInputs s = 1%nat /\ netOutputs s = 1%nat).
  { eexists. split; [apply used_build; [reflexivity|cbn; lia]|]. split; [reflexivity|].
    do 2 eexists. split; [cbn; reflexivity|]. split; [cbn; ring|]. do 3 eexists. split.
    { cbn. unfold setParameters; cbn. unfold mset, mupd. cbn. unfold fc_updatedParameters. cbn. rewrite (proj2 (Rltb_false 0 0)) by lra. cbn. reflexivity. }
    split; [cbn; reflexivity|]. split; [|split; reflexivity]. cbn. replace (1 * w7) with w7 by ring. ring. }
  destruct U as (st & U & HD & r & y & E1 & V1 & s & q & z & E2 & E3 & V2 & NI & NO).
  destruct (C40_loaded_is_rounded_partial zeros zeros prt (all_draws w7) (all_draws w7) one_unit st HP M1 M2 M3 M4 U) as (st' & n & s' & HL & E4 & (I1 & O1 & SO) & _).
  rewrite E2 in E4. injection E4 as <-.
  destruct (SO (mkMat 1 1 (fun _ _ => 1))) as (a & b & y1 & y2 & A1 & A2 & A3 & A4 & A5); [now rewrite NI|simpl; lia|].
  rewrite E3 in A1. injection A1 as <- <-.
  exists zeros, (all_draws w7), one_unit, st, st', n, r, b, (mkMat 1 1 (fun _ _ => 1)), y, y2.
  repeat (split; auto). rewrite <- (A5 0%nat 0%nat) by (rewrite ?NO; simpl; lia). rewrite V2. intros E. apply w7_digits. rewrite <- E. apply HP.
Qed.
Print Assumptions C40_precision_refuted.

(** ** The weights of extreme learning machines are not saved: the loaded network draws new ones. *)
Definition two_layers (hidden : netCall) : list netCall := [InputLayer 1 1 1; hidden; OutputCall 1 LINEAR 1 false].
Definition other_draws : draws := mkDraws (fun n _ _ => if Nat.eqb n 1 then 2 else 1) (fun _ _ => 1) (fun _ _ _ => 1) (fun _ _ _ => 1) (fun _ _ _ _ => 1).
Lemma prt_1 prt : printing prt -> prt 1 = 1.
Proof. intros HP. apply HP. apply (six 1 0); [reflexivity|]. simpl. ring. Qed.
Theorem C40_extreme_refuted prt : printing prt ->
  exists junk d d' cs st st' n r r' x y y',
    complete cs /\ Forall noMaxNorm cs /\ Forall exactArguments cs /\ used junk prt d cs st /\ dropout _ (theNet _ st) = false /\
    Forall sixDigits (currentParameters _ (theNet _ st)) /\
    (forall fuel, (n <= fuel)%nat -> load junk prt d' fuel (state_new junk) (save junk prt st) = Ok st') /\
    size_is x 1 1 /\ net_apply _ (theNet _ st) x = Ok (r, y) /\ net_apply _ (theNet _ st') x = Ok (r', y') /\
    at_ y 0 0 = 1 /\ at_ y' 0 0 = 2.
Proof.
  intros HP. pose proof (prt_1 prt HP) as P1. set (hid := ExtremeCall 1 LINEAR 1 false).
  exists zeros, (all_draws 1), other_draws, (two_layers hid). do 2 eexists. exists 5%nat. do 2 eexists. exists (mkMat 1 1 (fun _ _ => 1)). do 2 eexists.
  split. { exists [], 1%nat, 1%nat, 1%nat, [hid], (OutputCall 1 LINEAR 1 false). split; [reflexivity|]. split; [constructor|]. split; [fin|exact I]. }
  split; [fin|]. split; [fin|]. split; [apply used_build; [reflexivity|cbn; lia]|]. split; [reflexivity|]. split.
  { cbn. constructor; [|constructor]. apply (six 1 0); [reflexivity|]. simpl. ring. }
  split.
  { intros fuel Hf. eapply (load_run zeros prt other_draws (two_layers hid) [1 * 1]); auto.
    - cbn. reflexivity.
    - cbn. reflexivity.
    - cbn. reflexivity.
    - cbn. reflexivity.
    - cbn. unfold setParameters; cbn. unfold mset, mupd. cbn. unfold fc_updatedParameters. cbn. rewrite (proj2 (Rltb_false 0 0)) by lra. cbn. reflexivity.
    - cbn. unfold setParameters; cbn. unfold mset, mupd. cbn. unfold fc_updatedParameters. cbn. rewrite (proj2 (Rltb_false 0 0)) by lra. cbn. reflexivity. }
  split; [split; reflexivity|]. split; [cbn; reflexivity|]. split; [cbn; reflexivity|]. split; cbn; [ring|]. 
  rewrite Rmult_1_r, P1. ring.
Qed.
Print Assumptions C40_extreme_refuted.

(** ** The mode of dropout layers is not saved either. *)
Theorem C40_dropout_mode_refuted prt : printing prt ->
  exists junk d cs st st' n r r' x y y',
    complete cs /\ Forall noMaxNorm cs /\ Forall restorable cs /\ Forall exactArguments cs /\ used junk prt d cs st /\
    Forall sixDigits (currentParameters _ (theNet _ st)) /\
    (forall fuel, (n <= fuel)%nat -> load junk prt d fuel (state_new junk) (save junk prt st) = Ok st') /\
    size_is x 1 1 /\ net_apply _ (theNet _ st) x = Ok (r, y) /\ net_apply _ (theNet _ st') x = Ok (r', y') /\
    at_ y 0 0 = 1 /\ at_ y' 0 0 = 1 / 2.
Proof.
  intros HP. pose proof (prt_1 prt HP) as P1. set (hid := DropoutCall (1 / 2)).
  assert (P2 : sixDigits (1 / 2)). { apply (six 5 (-1)); [reflexivity|]. simpl. lra. }
  exists zeros, (all_draws 1), (two_layers hid). do 2 eexists. exists 5%nat. do 2 eexists. exists (mkMat 1 1 (fun _ _ => 1)). do 2 eexists.
  split. { exists [], 1%nat, 1%nat, 1%nat, [hid], (OutputCall 1 LINEAR 1 false). split; [reflexivity|]. split; [constructor|]. split; [fin|exact I]. }
  split; [fin|]. split; [fin|]. split; [fin|]. split.
  { eapply used_call; [apply used_build; [reflexivity|cbn; lia]|apply (call_useDropout _ _ true)|reflexivity]. }
  split. { cbn. constructor; [|constructor]. apply (six 1 0); [reflexivity|]. simpl. ring. }
  split.
  { intros fuel Hf. eapply (load_run zeros prt (all_draws 1) (two_layers hid) [1 * 1]); auto.
    - cbn. reflexivity.
    - cbn. reflexivity.
    - cbn. reflexivity.
    - cbn. reflexivity.
    - cbn. unfold setParameters; cbn. unfold mset, mupd. cbn. unfold fc_updatedParameters. cbn. rewrite (proj2 (Rltb_false 0 0)) by lra. cbn. reflexivity.
    - cbn. unfold setParameters; cbn. unfold mset, mupd. cbn. unfold fc_updatedParameters. cbn. rewrite (proj2 (Rltb_false 0 0)) by lra. cbn. reflexivity. }
  split; [split; reflexivity|]. split.
  { cbn. unfold net_apply, net_forward. cbn. unfold dropout_forward. cbn. rewrite (proj2 (Rltb_false 1 (1 / 2))) by lra. cbn. reflexivity. }
  split.
  { cbn. unfold net_apply, net_forward. cbn. unfold dropout_forward. cbn. rewrite (pr_exact prt HP _ P2). rewrite (proj2 (Rltb_true 0 (1 / 2))) by lra. cbn. reflexivity. }
  split; cbn; [ring|]. replace (1 * 1) with 1 by ring. rewrite P1. field.
Qed.
Print Assumptions C40_dropout_mode_refuted.
