(** C103: gradients of multilayer perceptrons in double precision. *)
From Coq Require Import Lra Lia ZArith.
From Flocq Require Import Core BinarySingleNaN.
From Verif Require Import Base Activation_Model Float_Model Float_Spec Float_Proofs FloatAct_Proofs FloatSoft_Proofs Float_Props FloatNet_Model FloatNet_Spec FloatNet_Proofs FloatNet_Props FloatGrad_Model FloatGrad_Spec FloatGradReal_Proofs FloatGrad_Proofs.
Local Open Scope R_scope.
Opaque dint.

(** The real network of which the error is differentiated is the one of C102. *)
Theorem C103_same_network : forall layers x, rNet (map asReal layers) x = exactNet layers x.
Proof. induction layers as [|l ls IH]; intros x; [reflexivity|]. cbn [map]. change (rNet (map asReal ls) (rOutput (asReal l) x) = exactNet ls (exactLayer l x)). rewrite rOutput_asReal. apply IH. Qed.

Section Gradient.
Variables (m : libm) (layers : list dlayer) (X T : list (list double)).
(* the orders of the sums: of the outputs and of the backpropagated errors (instance, layer, unit), of the derivatives *)
Variables (sf sb : nat -> nat -> nat -> list double -> double) (sw : nat -> nat -> nat -> list double -> double) (sd : nat -> nat -> list double -> double).
(* I inputs; n bounds the sizes of all layers, w the weights, x the inputs, t the targets, M the outputs of all layers and e their deviation (C102) *)
Variables (I n : nat) (w x t M e : R).
Definition anyOrder : Prop := (forall q k j, summation (sf q k j)) /\ (forall q k j, summation (sb q k j)) /\ (forall k j i, summation (sw k j i)) /\ forall k j, summation (sd k j).
Definition sizesFit : Prop := (Z.of_nat n <= 2 ^ 30)%Z /\ wellShaped I layers /\
  (forall l, In l layers -> (length (weightRows l) <= n)%nat /\ forall r, In r (weightRows l) -> (length r <= n)%nat) /\
  (1 <= length X)%nat /\ (Z.of_nat (length X) <= 2 ^ 30)%Z /\ length T = length X /\
  (forall row, In row X -> length row = I) /\ (forall row, In row T -> length row = outputs I layers).
Definition valuesFit : Prop := 0 <= w /\ 0 <= x /\ 0 <= t /\ (forall l, In l layers -> weightsBelow w l) /\
  (forall row v, In row X -> In v row -> finite v /\ Rabs (val v) <= x) /\ (forall row v, In row T -> In v row -> finite v /\ Rabs (val v) <= t) /\
  (forall k, (k <= length layers)%nat -> magnitude (INR n) w x k <= M /\ deviation (INR n) w x 0 k <= e /\ backMagnitude (INR n) w (1.01 * (M + t)) k <= 2 ^ 30) /\
  M <= 2 ^ 28.
(** the bounds for the derivatives with respect to the activations of layer k *)
Definition deltaSize (k : nat) : R := deltaMagnitude (INR n) w (1.01 * (M + t)) (length layers - 1 - k).
Definition deltaError (k : nat) : R := deltaDeviation (INR n) w (1.01 * (M + t)) (e + (M + t) / 2 ^ 52) e (length layers - 1 - k).

(** C103.  What backpropagation returns for a weight is finite and within [meanDeviation] of the derivative of the mean squared error
    with respect to this weight, whatever the orders of the sums. *)
Theorem C103_weight : accurate m -> anyOrder -> sizesFit -> valuesFit -> (forall l, In l layers -> actOf l <> RECTIFIER) ->
  forall k j i l r v, nth_error layers k = Some l -> nth_error (weightRows l) j = Some r -> nth_error r i = Some v ->
  exists gw gb row d exact, nth_error (d_gradient m sf sb sw sd layers X T) k = Some (gw, gb) /\ nth_error gw j = Some row /\ nth_error row i = Some d /\ finite d /\
    derivable_pt_lim (fun u => meanError (setWeight (map asReal layers) k j i u) (map (map val) X) (map (map val) T)) (val v) exact /\
    Rabs (val d - exact) <= meanDeviation (length X) (deltaSize k) (deltaError k) M e.
Proof.
  intros A (S1 & S2 & S3 & S4) (Z1 & Z2 & Z3 & Z4 & Z5 & Z6 & Z7 & Z8) (V1 & V2 & V3 & V4 & V5 & V6 & V7 & V8) NR k j i l r v.
  destruct (V7 0%nat ltac:(lia)) as (M0 & E0 & G0). cbn [magnitude deviation backMagnitude] in *.
  apply (gradient_weight m A n w M e (1.01 * (M + t)) (e + (M + t) / 2 ^ 52) x layers X T I sf sb sw sd) with (okT := fun _ _ => True) (rerr := fun y t => map (fun p => fst p - snd p) (combine y t)); auto; try lra; try (intros q Q; destruct (V7 q Q) as (U1 & U2 & U3); auto).
  - intros row J. split; auto. intros u U. now apply (V5 row).
  - intros cs v0 ds t0 _ H. now apply D_error.
  - intros q x1 t1 J y Ly NY. pose proof (in_combine_r _ _ _ _ (in_combine_r _ _ _ _ J)) as JT. split; [|unfold d_difference; rewrite map_length, combine_length, (Z8 t1 JT); lia]. apply (error_near M e t); auto; try lra. intros v1 J1. now apply (V6 t1).
Qed.
(** ... and for a bias *)
Theorem C103_bias : accurate m -> anyOrder -> sizesFit -> valuesFit -> (forall l, In l layers -> actOf l <> RECTIFIER) ->
  forall k j l b v, nth_error layers k = Some l -> biasVector l = Some b -> nth_error b j = Some v ->
  exists gw row d exact, nth_error (d_gradient m sf sb sw sd layers X T) k = Some (gw, Some row) /\ nth_error row j = Some d /\ finite d /\
    derivable_pt_lim (fun u => meanError (setBias (map asReal layers) k j u) (map (map val) X) (map (map val) T)) (val v) exact /\
    Rabs (val d - exact) <= meanDeviation (length X) (deltaSize k) (deltaError k) 1 0.
Proof.
  intros A (S1 & S2 & S3 & S4) (Z1 & Z2 & Z3 & Z4 & Z5 & Z6 & Z7 & Z8) (V1 & V2 & V3 & V4 & V5 & V6 & V7 & V8) NR k j l b v.
  destruct (V7 0%nat ltac:(lia)) as (M0 & E0 & G0). cbn [magnitude deviation backMagnitude] in *.
  apply (gradient_bias m A n w M e (1.01 * (M + t)) (e + (M + t) / 2 ^ 52) x layers X T I sf sb sw sd) with (okT := fun _ _ => True) (rerr := fun y t => map (fun p => fst p - snd p) (combine y t)); auto; try lra; try (intros q Q; destruct (V7 q Q) as (U1 & U2 & U3); auto).
  - intros row J. split; auto. intros u U. now apply (V5 row).
  - intros cs v0 ds t0 _ H. now apply D_error.
  - intros q x1 t1 J y Ly NY. pose proof (in_combine_r _ _ _ _ (in_combine_r _ _ _ _ J)) as JT. split; [|unfold d_difference; rewrite map_length, combine_length, (Z8 t1 JT); lia]. apply (error_near M e t); auto; try lra. intros v1 J1. now apply (V6 t1).
Qed.
End Gradient.

(** e.g. the network of C102_case, one instance (a, b) with the target c and the weight -1 from the first input to the second hidden unit:
    what is computed is the derivative of the error with respect to this weight up to 10 ^ -5 *)
Example C103_case : forall a b c : double, finite a -> finite b -> finite c -> Rabs (val a) <= 1 -> Rabs (val b) <= 1 -> Rabs (val c) <= 1 ->
  let f := fun u => (sigma LOGISTIC (Rtrigo_def.tanh (val a + 2 * val b + 1) - Rtrigo_def.tanh (u * val a + val b) + 2 * Rtrigo_def.tanh (-2 * val b - 1)) - val c) ^ 2 / 2 in
  exists gw gb row d exact,
    nth_error (d_gradient exactLibm (fun _ _ _ => leftSum) (fun _ _ _ => leftSum) (fun _ _ _ => leftSum) (fun _ _ => leftSum) exampleLayers [[a; b]] [[c]]) 0 = Some (gw, gb) /\
    nth_error gw 1 = Some row /\ nth_error row 0 = Some d /\
    finite d /\ derivable_pt_lim f (-1) exact /\ Rabs (val d - exact) <= 1 / 10 ^ 5.
Proof.
  intros a b c Fa Fb Fc Ba Bb Bc f. destruct an_accurate_library as (A & _). destruct (int_ok 1 ltac:(lia)) as (F1 & V1), (int_ok 2 ltac:(lia)) as (F2 & V2), (int_ok 0 ltac:(lia)) as (F0 & V0), (int_ok (-1) ltac:(lia)) as (Fm1 & Vm1), (int_ok (-2) ltac:(lia)) as (Fm2 & Vm2). assert (N3 : INR 3 = 3) by (cbn; lra).
  destruct (C103_weight exactLibm exampleLayers [[a; b]] [[c]] (fun _ _ _ => leftSum) (fun _ _ _ => leftSum) (fun _ _ _ => leftSum) (fun _ _ => leftSum) 2 3 2 1 1 80 (1 / 10 ^ 11) A) with (k := 0%nat) (j := 1%nat) (i := 0%nat) (l := mkDlayer [[dint 1; dint 2]; [dint (-1); dint 1]; [dint 0; dint (-2)]] (Some [dint 1; dint 0; dint (-1)]) TANH) (r := [dint (-1); dint 1]) (v := dint (-1)) as (gw & gb & row & d & exact & E1 & E2 & E3 & Fd & DE & ER); auto.
  - repeat split; intros; apply leftSum_ok; auto.
  - split; [lia|]. split. { cbn [wellShaped exampleLayers]. unfold takes. cbn [weightRows biasVector length]. repeat split; intros w Iw; repeat destruct Iw as [<-|Iw]; try reflexivity; destruct Iw. }
    split. { intros l [<-|[<-|[]]]; cbn [weightRows length]; (split; [lia|]); intros r Ir; repeat destruct Ir as [<-|Ir]; try contradiction; cbn [length]; lia. }
    split; [cbn; lia|]. split; [cbn; lia|]. split; [reflexivity|]. split; intros r [<-|[]]; reflexivity.
  - split; [lra|]. split; [lra|]. split; [lra|]. split; [|split; [|split; [|split]]].
    + assert (Q : forall z, (Z.abs z <= 2)%Z -> finite (dint z) /\ Rabs (val (dint z)) <= 2). { intros z Hz. destruct (int_ok z ltac:(lia)) as (Fz & Vz). split; auto. rewrite Vz. rewrite <- abs_IZR. apply (IZR_le _ 2). auto. }
      intros l [<-|[<-|[]]]; intros v [(r & Ir & Iv)|(u & Eu & Iv)]; cbn [weightRows biasVector] in *; try discriminate; try (injection Eu as <-);
        repeat destruct Ir as [<-|Ir]; try contradiction; repeat destruct Iv as [<-|Iv]; try contradiction; try (apply Q; lia).
    + intros r v [<-|[]] [<-|[<-|[]]]; auto.
    + intros r v [<-|[]] [<-|[]]; auto.
    + rewrite N3. intros k K. cbn [length exampleLayers] in K. assert (K' : k = 0%nat \/ k = 1%nat \/ k = 2%nat) by lia. destruct K' as [-> | [-> | ->]]; cbn [magnitude deviation backMagnitude]; repeat split; lra.
    + lra.
  - intros l [<-|[<-|[]]]; discriminate.
  - exists gw, gb, row, d, exact. split; auto. split; auto. split; auto. split; auto. clear E1 E2 E3. split.
    + rewrite Vm1 in DE. revert DE. apply Deriv.D_ext. intros u. unfold f, meanError, meanLoss, squaredError, setWeight, exampleLayers, asReal, biases. cbn [map nth_error rweights rbiases ract weightRows biasVector actOf update firstn skipn app].
      unfold update. cbn [firstn skipn app]. unfold rNet, rOutput, dotR. cbn [fold_left rweights rbiases ract map combine fst snd total fold_right length INR]. rewrite V1, V2, V0, Vm1, Vm2. cbn [sigma].
      match goal with |- context [1 * Rtrigo_def.tanh ?t1 + (-1 * Rtrigo_def.tanh ?t2 + (2 * Rtrigo_def.tanh ?t3 + 0)) + 0] => replace t1 with (val a + 2 * val b + 1) by ring; replace t2 with (u * val a + val b) by ring; replace t3 with (-2 * val b - 1) by ring end.
      match goal with |- context [exp (- (1 * ?p + (-1 * ?q + (2 * ?r + 0)) + 0))] => replace (1 * p + (-1 * q + (2 * r + 0)) + 0) with (p - q + 2 * r) by ring end.
      set (y := 1 / (1 + exp _)). field.
    + apply Rle_trans with (1 := ER). rewrite ?N3. unfold deltaSize, deltaError, meanDeviation, deltaMagnitude, deltaDeviation. cbn [length exampleLayers Nat.sub backMagnitude backDeviation]. unfold deltaMagnitude. cbn [backMagnitude length INR]. rewrite ?N3. lra.
Qed.
Print Assumptions C103_same_network.
Print Assumptions C103_weight.
Print Assumptions C103_bias.

(** Rectifiers are excluded: near their kink a rounding error of the activation changes the slope, and the computed derivative may be 0
    although the derivative is not.  Here the activation is 1 * 1 + 2 ^ -60 * 1 - 1 * 1, which is computed as 0. *)
Definition small60 : double := @B754_finite 53 1024 false 4503599627370496 (-112) eq_refl.
Definition kinkLayers : list dlayer := [mkDlayer [[dint 1; small60; dint (-1)]] None RECTIFIER].
Lemma small60_val : finite small60 /\ val small60 = / 2 ^ 60.
Proof. split; [reflexivity|]. unfold val, small60. cbn [B2R]. unfold F2R. cbn [Fnum Fexp cond_Zopp]. change (bpow radix2 (-112)) with (/ IZR (2 ^ 112)). lra. Qed.
Theorem C103_rectifier_refuted : forall m, exists gw gb row d exact,
  sizesFit kinkLayers [[dint 1; dint 1; dint 1]] [[dint 1]] 3 3 /\ valuesFit kinkLayers [[dint 1; dint 1; dint 1]] [[dint 1]] 3 1 1 1 6 (1 / 10 ^ 11) /\
  nth_error (d_gradient m (fun _ _ _ => leftSum) (fun _ _ _ => leftSum) (fun _ _ _ => leftSum) (fun _ _ => leftSum) kinkLayers [[dint 1; dint 1; dint 1]] [[dint 1]]) 0 = Some (gw, gb) /\
  nth_error gw 0 = Some row /\ nth_error row 0 = Some d /\ finite d /\
  derivable_pt_lim (fun u => meanError (setWeight (map asReal kinkLayers) 0 0 0 u) (map (map val) [[dint 1; dint 1; dint 1]]) (map (map val) [[dint 1]])) (val (dint 1)) exact /\
  1 / 2 <= Rabs (val d - exact).
Proof.
  intros m. destruct (int_ok 1 ltac:(lia)) as (F1 & V1), (int_ok (-1) ltac:(lia)) as (Fm1 & Vm1). destruct small60_val as (F6 & V6). assert (N3 : INR 3 = 3) by (cbn; lra).
  assert (E : d_gradient m (fun _ _ _ => leftSum) (fun _ _ _ => leftSum) (fun _ _ _ => leftSum) (fun _ _ => leftSum) kinkLayers [[dint 1; dint 1; dint 1]] [[dint 1]] = [([[B754_zero true; B754_zero true; B754_zero true]], None)]) by (vm_compute; reflexivity).
  eexists _, _, _, _, (/ 2 ^ 60 - 1). split; [|split; [|split; [rewrite E; reflexivity|split; [reflexivity|split; [reflexivity|split; [reflexivity|split]]]]]].
  - split; [lia|]. split. { cbn [wellShaped kinkLayers]. unfold takes. cbn [weightRows biasVector length]. repeat split; intros w Iw; repeat destruct Iw as [<-|Iw]; try reflexivity; destruct Iw. }
    split. { intros l [<-|[]]; cbn [weightRows length]; (split; [lia|]); intros r Ir; repeat destruct Ir as [<-|Ir]; try contradiction; cbn [length]; lia. }
    split; [cbn; lia|]. split; [cbn; lia|]. split; [reflexivity|]. split; intros r [<-|[]]; reflexivity.
  - split; [lra|]. split; [lra|]. split; [lra|]. split; [|split; [|split; [|split]]].
    + intros l [<-|[]] v [(r & Ir & Iv)|(u & Eu & Iv)]; [|discriminate Eu]. cbn [weightRows] in Ir. repeat destruct Ir as [<-|Ir]; try contradiction. repeat destruct Iv as [<-|Iv]; try contradiction; (split; [auto|]); rewrite ?V1, ?Vm1, ?V6; apply Rabs_le; lra.
    + intros r v [<-|[]] Iv. repeat destruct Iv as [<-|Iv]; try contradiction; (split; [auto|]); rewrite ?V1, ?Vm1; apply Rabs_le; lra.
    + intros r v [<-|[]] Iv. repeat destruct Iv as [<-|Iv]; try contradiction; (split; [auto|]); rewrite ?V1, ?Vm1; apply Rabs_le; lra.
    + rewrite N3. intros k K. cbn [length kinkLayers] in K. assert (K' : k = 0%nat \/ k = 1%nat) by lia. destruct K' as [-> | ->]; cbn [magnitude deviation backMagnitude]; repeat split; lra.
    + lra.
  - rewrite V1. apply (Deriv.D_local (fun u => (u + / 2 ^ 60 - 1 - 1) * (u + / 2 ^ 60 - 1 - 1) * / 2) _ 1).
    + exists (/ 2 ^ 61). split; [lra|]. intros u Hu. apply Rabs_def2 in Hu. unfold meanError, meanLoss, squaredError, setWeight, kinkLayers, asReal, biases. cbn [map nth_error rweights rbiases ract weightRows biasVector actOf]. unfold update. cbn [firstn skipn app]. unfold rNet, rOutput, dotR. cbn [fold_left rweights rbiases ract map combine fst snd total fold_right length INR sigma]. rewrite V1, Vm1, V6. rewrite Rmax_right by lra. field.
    + eapply Deriv.D_eq; [|apply (Deriv.D_scal_r (/ 2) (fun u => (u + / 2 ^ 60 - 1 - 1) * (u + / 2 ^ 60 - 1 - 1)) 1)]; [|apply (Deriv.D_mult (fun u => u + / 2 ^ 60 - 1 - 1) (fun u => u + / 2 ^ 60 - 1 - 1) 1 1 1)].
      * field.
      * eapply Deriv.D_eq; [|eapply (Deriv.D_minus (fun u => u + / 2 ^ 60 - 1) (fun _ => 1)); [eapply (Deriv.D_minus (fun u => u + / 2 ^ 60) (fun _ => 1)); [eapply (Deriv.D_plus (fun u => u) (fun _ => / 2 ^ 60)); [apply Deriv.D_id|apply Deriv.D_const]|apply Deriv.D_const]|apply Deriv.D_const]]. ring.
      * eapply Deriv.D_eq; [|eapply (Deriv.D_minus (fun u => u + / 2 ^ 60 - 1) (fun _ => 1)); [eapply (Deriv.D_minus (fun u => u + / 2 ^ 60) (fun _ => 1)); [eapply (Deriv.D_plus (fun u => u) (fun _ => / 2 ^ 60)); [apply Deriv.D_id|apply Deriv.D_const]|apply Deriv.D_const]|apply Deriv.D_const]]. ring.
  - unfold val. cbn [B2R]. rewrite Rabs_pos_eq; lra.
Qed.
Print Assumptions C103_rectifier_refuted.
