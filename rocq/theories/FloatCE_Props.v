(** C105: gradients of classifiers in double precision. *)
From Coq Require Import Lra Lia ZArith.
From Flocq Require Import Core BinarySingleNaN.
From Verif Require Import Base Deriv Activation_Model Float_Model Float_Spec Float_Proofs FloatAct_Proofs FloatSoft_Proofs Float_Props FloatNet_Model FloatNet_Spec FloatNet_Proofs FloatNet_Props FloatGrad_Model FloatGrad_Spec FloatGradReal_Proofs FloatGrad_Proofs FloatGrad_Props FloatCE_Proofs.
Local Open Scope R_scope.
Opaque dint.

Section Gradient.
Variables (m : libm) (layers : list dlayer) (X T : list (list double)).
(* the orders of the sums, see C103, and of softmax *)
Variables (sf sb : nat -> nat -> nat -> list double -> double) (sw : nat -> nat -> nat -> list double -> double) (sd : nat -> nat -> list double -> double) (sum : list double -> double).
(* I inputs; n bounds the sizes of all layers, w the weights, x the inputs, t the targets, s the distance of the sum of the targets of an
   instance from 1, M the outputs of all layers and e their deviation (C102) *)
Variables (I n : nat) (w x t s M e : R).
Definition classifierFits : Prop := 0 <= w /\ 0 <= x /\ 0 <= t /\ 0 <= s /\ (forall l, In l layers -> weightsBelow w l) /\
  (forall row v, In row X -> In v row -> finite v /\ Rabs (val v) <= x) /\ (forall row v, In row T -> In v row -> finite v /\ Rabs (val v) <= t) /\
  (forall row, In row T -> Rabs (total (map val row) - 1) <= s) /\
  (forall k, (k <= length layers)%nat -> magnitude (INR n) w x k <= M /\ deviation (INR n) w x 0 k <= e /\ backMagnitude (INR n) w (1.01 * (1 + s + t)) k <= 2 ^ 30) /\
  M <= 350 /\ e <= 1 / 4.
Definition deltaSizeCE (k : nat) : R := deltaMagnitude (INR n) w (1.01 * (1 + s + t)) (length layers - 1 - k).
Definition deltaErrorCE (k : nat) : R :=
  deltaDeviation (INR n) w (1.01 * (1 + s + t)) (4 * e + INR (outputs I layers) / 2 ^ 36 + s + (1 + t) / 2 ^ 52) e (length layers - 1 - k).

Lemma outputs_bound (ls : list dlayer) : forall i, ls <> [] -> (forall l, In l ls -> (length (weightRows l) <= n)%nat) -> (outputs i ls <= n)%nat.
Proof.
  induction ls as [|l ls IH]; intros i NE H; [easy|]. change (outputs (length (weightRows l)) ls <= n)%nat. destruct ls as [|l' ls]; [apply H; now left|]. apply IH; [easy|]. intros k J. apply H. now right.
Qed.
(** C105.  What backpropagation returns for a weight is finite and within [meanDeviation] of the derivative of the mean cross entropy of
    the softmax outputs with respect to this weight. *)
Theorem C105_weight : accurate m -> anyOrder sf sb sw sd -> summation sum -> sizesFit layers X T I n -> (1 <= outputs I layers)%nat -> classifierFits -> (forall l, In l layers -> actOf l <> RECTIFIER) ->
  forall k j i l r v, nth_error layers k = Some l -> nth_error (weightRows l) j = Some r -> nth_error r i = Some v ->
  exists G gw gb row d exact, d_gradientCE m sf sb sw sd sum layers X T = Ok G /\ nth_error G k = Some (gw, gb) /\ nth_error gw j = Some row /\ nth_error row i = Some d /\ finite d /\
    derivable_pt_lim (fun u => meanLoss crossEntropyOf (setWeight (map asReal layers) k j i u) (map (map val) X) (map (map val) T)) (val v) exact /\
    Rabs (val d - exact) <= meanDeviation (length X) (deltaSizeCE k) (deltaErrorCE k) M e.
Proof.
  intros A (S1 & S2 & S3 & S4) SS (Z1 & Z2 & Z3 & Z4 & Z5 & Z6 & Z7 & Z8) HO (V1 & V2 & V3 & V0 & V4 & V5 & V6 & VS & V7 & V8 & V9) NR k j i l r v Hk Hj Hi.
  assert (NE : layers <> []) by (destruct layers; [destruct k; discriminate|easy]). pose proof (outputs_bound layers I NE ltac:(intros q J; now apply Z3)) as OB. destruct (V7 0%nat ltac:(lia)) as (M0 & E0 & G0). cbn [magnitude deviation backMagnitude] in *.
  destruct (ce_gradient m A n w M e t s x layers X T I sf sb sw sd sum) as (Gr & err & EG & _ & EN); auto; try lia; try (intros q Q; destruct (V7 q Q) as (U1 & U2 & U3); auto).
  { intros q J. split; auto. now apply Z3. } { intros row J. split; auto. intros u U. now apply (V5 row). } { intros row J. split; [auto|]. split; auto. intros u U. now apply (V6 row). }
  assert (HP : 0 <= 4 * e + INR (outputs I layers) / 2 ^ 36 + s + (1 + t) / 2 ^ 52) by (pose proof (pos_INR (outputs I layers)); lra).
  destruct (gradient_weight m A n w M e (1.01 * (1 + s + t)) (4 * e + INR (outputs I layers) / 2 ^ 36 + s + (1 + t) / 2 ^ 52) x layers X T I sf sb sw sd) with (loss := crossEntropyOf) (rerr := ceError) (okT := fun q (u : list R) => q = length u) (err := err) (k := k) (j := j) (i := i) (l := l) (r := r) (v := v) as (gw & gb & row & d & exact & Q); auto; try lra; try (intros q Q; destruct (V7 q Q) as (U1 & U2 & U3); auto).
  - intros row J. split; auto. intros u U. now apply (V5 row).
  - intros cs v0 ds t0 L H. now apply D_cross.
  - intros row J. rewrite map_length. symmetry. auto.
  - exists (d_gradientWith m sf sb sw sd err layers X T), gw, gb, row, d, exact. split; auto.
Qed.
(** ... and for a bias *)
Theorem C105_bias : accurate m -> anyOrder sf sb sw sd -> summation sum -> sizesFit layers X T I n -> (1 <= outputs I layers)%nat -> classifierFits -> (forall l, In l layers -> actOf l <> RECTIFIER) ->
  forall k j l b v, nth_error layers k = Some l -> biasVector l = Some b -> nth_error b j = Some v ->
  exists G gw row d exact, d_gradientCE m sf sb sw sd sum layers X T = Ok G /\ nth_error G k = Some (gw, Some row) /\ nth_error row j = Some d /\ finite d /\
    derivable_pt_lim (fun u => meanLoss crossEntropyOf (setBias (map asReal layers) k j u) (map (map val) X) (map (map val) T)) (val v) exact /\
    Rabs (val d - exact) <= meanDeviation (length X) (deltaSizeCE k) (deltaErrorCE k) 1 0.
Proof.
  intros A (S1 & S2 & S3 & S4) SS (Z1 & Z2 & Z3 & Z4 & Z5 & Z6 & Z7 & Z8) HO (V1 & V2 & V3 & V0 & V4 & V5 & V6 & VS & V7 & V8 & V9) NR k j l b v Hk Hb Hj.
  assert (NE : layers <> []) by (destruct layers; [destruct k; discriminate|easy]). pose proof (outputs_bound layers I NE ltac:(intros q J; now apply Z3)) as OB. destruct (V7 0%nat ltac:(lia)) as (M0 & E0 & G0). cbn [magnitude deviation backMagnitude] in *.
  destruct (ce_gradient m A n w M e t s x layers X T I sf sb sw sd sum) as (Gr & err & EG & _ & EN); auto; try lia; try (intros q Q; destruct (V7 q Q) as (U1 & U2 & U3); auto).
  { intros q J. split; auto. now apply Z3. } { intros row J. split; auto. intros u U. now apply (V5 row). } { intros row J. split; [auto|]. split; auto. intros u U. now apply (V6 row). }
  assert (HP : 0 <= 4 * e + INR (outputs I layers) / 2 ^ 36 + s + (1 + t) / 2 ^ 52) by (pose proof (pos_INR (outputs I layers)); lra).
  destruct (gradient_bias m A n w M e (1.01 * (1 + s + t)) (4 * e + INR (outputs I layers) / 2 ^ 36 + s + (1 + t) / 2 ^ 52) x layers X T I sf sb sw sd) with (loss := crossEntropyOf) (rerr := ceError) (okT := fun q (u : list R) => q = length u) (err := err) (k := k) (j := j) (l := l) (b := b) (v := v) as (gw & row & d & exact & Q); auto; try lra; try (intros q Q; destruct (V7 q Q) as (U1 & U2 & U3); auto).
  - intros row J. split; auto. intros u U. now apply (V5 row).
  - intros cs v0 ds t0 L H. now apply D_cross.
  - intros row J. rewrite map_length. symmetry. auto.
  - exists (d_gradientWith m sf sb sw sd err layers X T), gw, row, d, exact. split; auto.
Qed.
End Gradient.

(** e.g. two classes, three hidden units, one instance (a, b) of the first class and the weight -1 from the first input to the second hidden
    unit: what is computed is the derivative of the cross entropy up to 10 ^ -5 *)
Definition classifierLayers : list dlayer :=
  [mkDlayer [[dint 1; dint 2]; [dint (-1); dint 1]; [dint 0; dint (-2)]] (Some [dint 1; dint 0; dint (-1)]) TANH;
   mkDlayer [[dint 1; dint (-1); dint 2]; [dint 0; dint 1; dint (-1)]] None LINEAR].
Example C105_case : forall a b : double, finite a -> finite b -> Rabs (val a) <= 1 -> Rabs (val b) <= 1 ->
  let h1 := Rtrigo_def.tanh (val a + 2 * val b + 1) in let h2 := fun u => Rtrigo_def.tanh (u * val a + val b) in let h3 := Rtrigo_def.tanh (-2 * val b - 1) in
  let f := fun u => - ln (exp (h1 - h2 u + 2 * h3) / (exp (h1 - h2 u + 2 * h3) + exp (h2 u - h3))) in
  exists G gw gb row d exact,
    d_gradientCE exactLibm (fun _ _ _ => leftSum) (fun _ _ _ => leftSum) (fun _ _ _ => leftSum) (fun _ _ => leftSum) leftSum classifierLayers [[a; b]] [[dint 1; dint 0]] = Ok G /\
    nth_error G 0 = Some (gw, gb) /\ nth_error gw 1 = Some row /\ nth_error row 0 = Some d /\ finite d /\ derivable_pt_lim f (-1) exact /\ Rabs (val d - exact) <= 1 / 10 ^ 5.
Proof.
  intros a b Fa Fb Ba Bb h1 h2 h3 f. destruct an_accurate_library as (A & _). destruct (int_ok 1 ltac:(lia)) as (F1 & V1), (int_ok 2 ltac:(lia)) as (F2 & V2), (int_ok 0 ltac:(lia)) as (F0 & V0), (int_ok (-1) ltac:(lia)) as (Fm1 & Vm1), (int_ok (-2) ltac:(lia)) as (Fm2 & Vm2). assert (N3 : INR 3 = 3) by (cbn; lra). assert (N2 : INR 2 = 2) by (cbn; lra).
  destruct (C105_weight exactLibm classifierLayers [[a; b]] [[dint 1; dint 0]] (fun _ _ _ => leftSum) (fun _ _ _ => leftSum) (fun _ _ _ => leftSum) (fun _ _ => leftSum) leftSum 2 3 2 1 1 0 80 (1 / 10 ^ 11) A) with (k := 0%nat) (j := 1%nat) (i := 0%nat) (l := mkDlayer [[dint 1; dint 2]; [dint (-1); dint 1]; [dint 0; dint (-2)]] (Some [dint 1; dint 0; dint (-1)]) TANH) (r := [dint (-1); dint 1]) (v := dint (-1)) as (G & gw & gb & row & d & exact & E0 & E1 & E2 & E3 & Fd & DE & ER); auto.
  - repeat split; intros; apply leftSum_ok; auto.
  - apply leftSum_ok.
  - split; [lia|]. split. { cbn [wellShaped classifierLayers]. unfold takes. cbn [weightRows biasVector length]. repeat split; intros w Iw; repeat destruct Iw as [<-|Iw]; try reflexivity; destruct Iw. }
    split. { intros l [<-|[<-|[]]]; cbn [weightRows length]; (split; [lia|]); intros r Ir; repeat destruct Ir as [<-|Ir]; try contradiction; cbn [length]; lia. }
    split; [cbn; lia|]. split; [cbn; lia|]. split; [reflexivity|]. split; intros r [<-|[]]; reflexivity.
  - cbn. lia.
  - split; [lra|]. split; [lra|]. split; [lra|]. split; [lra|]. split; [|split; [|split; [|split; [|split]]]].
    + assert (Q : forall z, (Z.abs z <= 2)%Z -> finite (dint z) /\ Rabs (val (dint z)) <= 2). { intros z Hz. destruct (int_ok z ltac:(lia)) as (Fz & Vz). split; auto. rewrite Vz. rewrite <- abs_IZR. apply (IZR_le _ 2). auto. }
      intros l [<-|[<-|[]]]; intros v [(r & Ir & Iv)|(u & Eu & Iv)]; cbn [weightRows biasVector] in *; try discriminate; try (injection Eu as <-);
        repeat destruct Ir as [<-|Ir]; try contradiction; repeat destruct Iv as [<-|Iv]; try contradiction; try (apply Q; lia).
    + intros r v [<-|[]] [<-|[<-|[]]]; auto.
    + intros r v [<-|[]] [<-|[<-|[]]]; (split; [auto|]); rewrite ?V1, ?V0; apply Rabs_le; lra.
    + intros r [<-|[]]. cbn [map total fold_right]. rewrite V1, V0. apply Rabs_le. lra.
    + rewrite N3. intros k K. cbn [length classifierLayers] in K. assert (K' : k = 0%nat \/ k = 1%nat \/ k = 2%nat) by lia. destruct K' as [-> | [-> | ->]]; cbn [magnitude deviation backMagnitude]; repeat split; lra.
    + lra.
  - intros l [<-|[<-|[]]]; discriminate.
  - exists G, gw, gb, row, d, exact. split; auto. split; auto. split; auto. split; auto. split; auto. clear E0 E1 E2 E3. split.
    + rewrite Vm1 in DE. revert DE. apply Deriv.D_ext. intros u. unfold f, meanLoss, crossEntropyOf, setWeight, classifierLayers, asReal, biases. cbn [map nth_error rweights rbiases ract weightRows biasVector actOf update firstn skipn app].
      unfold update. cbn [firstn skipn app]. unfold rNet, rOutput, dotR, softmaxOf. cbn [fold_left rweights rbiases ract map combine fst snd total fold_right length INR]. rewrite V1, V2, V0, Vm1, Vm2. cbn [sigma].
      unfold h1, h2, h3. match goal with |- context [1 * Rtrigo_def.tanh ?t1 + (-1 * Rtrigo_def.tanh ?t2 + (2 * Rtrigo_def.tanh ?t3 + 0)) + 0] => replace t1 with (val a + 2 * val b + 1) by ring; replace t2 with (u * val a + val b) by ring; replace t3 with (-2 * val b - 1) by ring end.
      set (p := Rtrigo_def.tanh (val a + 2 * val b + 1)). set (q := Rtrigo_def.tanh (u * val a + val b)). set (r := Rtrigo_def.tanh (-2 * val b - 1)). replace (1 * p + (-1 * q + (2 * r + 0)) + 0) with (p - q + 2 * r) by ring. replace (0 * p + (1 * q + (-1 * r + 0)) + 0) with (q - r) by ring. rewrite !Rplus_0_r. field.
    + apply Rle_trans with (1 := ER). unfold deltaSizeCE, deltaErrorCE, meanDeviation, deltaMagnitude, deltaDeviation. cbn [length classifierLayers Nat.sub backMagnitude backDeviation outputs fold_left weightRows]. unfold deltaMagnitude. cbn [backMagnitude length]. rewrite ?N3, ?N2. cbn [INR]. lra.
Qed.
Print Assumptions C105_weight.
Print Assumptions C105_bias.

(** The outputs must not be larger than 350: if those of one instance of a batch are more than 800 below an output of another instance, its
    softmax is NaN (C100), and so are all derivatives of the batch, although the exact ones are small.  Here the outputs are (0, 0) and
    (1000, 0); both instances belong to the first class. *)
Definition farLayers : list dlayer := [mkDlayer [[dint 1000]; [dint 0]] None LINEAR].
Theorem C105_far_instance_refuted : forall m, accurate m -> nearestExp m ->
  d_gradientCE m (fun _ _ _ => leftSum) (fun _ _ _ => leftSum) (fun _ _ _ => leftSum) (fun _ _ => leftSum) leftSum farLayers [[dint 0]; [dint 1]] [[dint 1; dint 0]; [dint 1; dint 0]]
    = Ok [([[B754_nan]; [B754_nan]], None)] /\
  exists exact, derivable_pt_lim (fun u => meanLoss crossEntropyOf (setWeight (map asReal farLayers) 0 0 0 u) (map (map val) [[dint 0]; [dint 1]]) (map (map val) [[dint 1; dint 0]; [dint 1; dint 0]])) 1000 exact /\ Rabs exact <= 1.
Proof.
  intros m A NE. destruct (int_ok 1 ltac:(lia)) as (F1 & V1), (int_ok 0 ltac:(lia)) as (F0 & V0), (int_ok 1000 ltac:(lia)) as (Fk & Vk). split.
  - set (z1 := dmult (dint 0) (dint 1000)). set (z2 := dmult (dint 0) (dint 0)). set (z3 := dmult (dint 1) (dint 1000)). set (z4 := dmult (dint 1) (dint 0)).
    assert (MV : forall a b c, (Z.abs a <= 1000)%Z -> (Z.abs b <= 1000)%Z -> (Z.abs c <= 1000)%Z -> IZR a * IZR b = IZR c -> finite (dmult (dint a) (dint b)) /\ val (dmult (dint a) (dint b)) = IZR c).
    { intros a b c Ha Hb Hc E. destruct (int_ok a ltac:(lia)) as (Fa & Va), (int_ok b ltac:(lia)) as (Fb & Vb), (int_ok c ltac:(lia)) as (Fc & Vc). assert (B : Rabs (IZR c) <= 1000) by (rewrite <- abs_IZR; now apply IZR_le).
      pose proof (mult_ok _ _ Fa Fb) as Q. rewrite Va, Vb, E in Q. specialize (Q ltac:(apply small_max; lra)). split; [apply Q|]. apply (faithful_exact _ _ _ Q Fc Vc). }
    destruct (MV 0%Z 1000%Z 0%Z ltac:(lia) ltac:(lia) ltac:(lia) ltac:(lra)) as (F1' & V1'), (MV 0%Z 0%Z 0%Z ltac:(lia) ltac:(lia) ltac:(lia) ltac:(lra)) as (F2' & V2'), (MV 1%Z 1000%Z 1000%Z ltac:(lia) ltac:(lia) ltac:(lia) ltac:(lra)) as (F3' & V3'), (MV 1%Z 0%Z 0%Z ltac:(lia) ltac:(lia) ltac:(lia) ltac:(lra)) as (F4' & V4').
    fold z1 in F1', V1'. fold z2 in F2', V2'. fold z3 in F3', V3'. fold z4 in F4', V4'.
    assert (EY : d_net m (fun k q => (fun _ _ _ => leftSum) q k) farLayers [[dint 0]; [dint 1]] = Ok [[z1; z2]; [z3; z4]]) by reflexivity.
    unfold d_gradientCE. rewrite EY. clearbody z1 z2 z3 z4. clear MV EY. cbn [bind]. assert (FI : forall v, In v (concat [[z1; z2]; [z3; z4]]) -> finite v) by (intros v J; cbn [concat app] in J; repeat destruct J as [<-|J]; auto; destruct J).
    destruct (C100_softmax_far_instance_refuted m leftSum [[z1; z2]; [z3; z4]] 0 [z1; z2] A NE leftSum_ok FI eq_refl ltac:(easy)) as (Z & out & EZ & E0 & L0 & N0).
    { exists z3. split; [cbn; tauto|]. intros y J. repeat destruct J as [<-|J]; try contradiction; lra. }
    destruct (C100_softmax_batch_partial m leftSum [[z1; z2]; [z3; z4]] 1 [z3; z4] A leftSum_ok FI eq_refl ltac:(easy) ltac:(cbn; lia)) as (Z' & out' & EZ' & LZ & E1 & D1).
    { intros y J. exists z3. split; [now left|]. cbn [concat app] in J. repeat destruct J as [<-|J]; try contradiction; lra. }
    rewrite EZ in EZ'. injection EZ' as <-. rewrite EZ. cbn [bind]. destruct D1 as (L1 & _). destruct out as [|o1 [|o2 [|]]]; try discriminate L0. rewrite (N0 o1 (or_introl eq_refl)), (N0 o2 (or_intror (or_introl eq_refl))) in E0. destruct out' as [|p1 [|p2 [|]]]; try discriminate L1. destruct Z as [|z5 [|z6 [|]]]; try discriminate LZ. injection E0 as ->. injection E1 as ->. clear. reflexivity.
  - exists (1 / 2 * (exp 1000 / (exp 1000 + 1) - 1)). split.
    + apply (Deriv.D_ext (fun u => 1 / 2 * (ln 2 + (ln (exp u + 1) - u)))).
      * intros u. unfold meanLoss, setWeight, farLayers, asReal, biases. cbn [map nth_error rweights rbiases ract weightRows biasVector actOf]. unfold update. cbn [firstn skipn app map combine fst snd]. rewrite !ce_closed by reflexivity. unfold rNet, rOutput, dotR. cbn [fold_left rweights rbiases ract map combine fst snd total fold_right length INR sigma]. rewrite V1, V0.
        replace (u * 0 + 0 + 0) with 0 by ring. replace (0 * 0 + 0 + 0) with 0 by ring. replace (0 * 1 + 0 + 0) with 0 by ring. replace (u * 1 + 0 + 0) with u by ring. rewrite exp_0. replace (1 + (1 + 0)) with 2 by ring. replace (exp u + (1 + 0)) with (exp u + 1) by ring. field.
      * pose proof (exp_pos 1000). apply (Deriv.D_scal (1 / 2)). eapply Deriv.D_eq; [|apply (Deriv.D_plus (fun _ => ln 2) (fun u => ln (exp u + 1) - u) 1000 0 (/ (exp 1000 + 1) * (exp 1000 * 1 + 0) - 1)); [apply Deriv.D_const|]]; [field; lra|].
        apply (Deriv.D_minus (fun u => ln (exp u + 1)) (fun u => u)); [|apply Deriv.D_id]. apply (Deriv.D_ln (fun u => exp u + 1)); [|lra]. apply (Deriv.D_plus exp (fun _ => 1)); [|apply Deriv.D_const]. apply (Deriv.D_exp (fun u => u)), Deriv.D_id.
    + pose proof (exp_pos 1000) as P. assert (Q : 0 <= exp 1000 / (exp 1000 + 1) <= 1). { split; [apply Rmult_le_pos; [lra|left; apply Rinv_0_lt_compat; lra]|]. apply Rmult_le_reg_r with (exp 1000 + 1); [lra|]. unfold Rdiv. rewrite Rmult_assoc, Rinv_l by lra. lra. } apply Rabs_le. lra.
Qed.
Print Assumptions C105_far_instance_refuted.
