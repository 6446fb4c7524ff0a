(** C102: multilayer perceptrons in double precision. *)
From Coq Require Import Lra Lia Permutation ZArith.
From Flocq Require Import Core BinarySingleNaN.
From Verif Require Import Base Activation_Model Float_Model Float_Spec Float_Proofs FloatAct_Proofs FloatSoft_Proofs Float_Props FloatNet_Model FloatNet_Spec FloatNet_Proofs.
Local Open Scope R_scope.
Opaque dint.

(** C102.  What a network of fully connected layers computes for an instance is finite and within [deviation] of the function that its
    weights represent, whatever the order in which the products are added up.  [n] is the largest number of inputs of a layer, [w] the
    largest weight or bias, [x] the largest input and [e] an error of the inputs.  The other instances of the batch may contain anything. *)
Theorem C102_network : forall m sum layers X I n w x e, accurate m -> (forall l i j, summation (sum l i j)) ->
  wellShaped I layers -> (forall row, In row X -> length row = I) ->
  (Z.of_nat n <= 2 ^ 30)%Z -> 0 <= w -> 0 <= x -> 0 <= e ->
  (forall l, In l layers -> weightsBelow w l /\ forall r, In r (weightRows l) -> (length r <= n)%nat) ->
  (forall k, (k <= length layers)%nat -> magnitude (INR n) w x k <= 2 ^ 90) ->
  exists Y, d_net m sum layers X = Ok Y /\ length Y = length X /\
  forall i row out z, nth_error X i = Some row -> nth_error Y i = Some out ->
    Forall2 (fun d r => finite d /\ Rabs (val d) <= x /\ Rabs r <= x /\ Rabs (val d - r) <= e) row z ->
    Forall2 (fun y r => finite y /\ Rabs (val y - r) <= deviation (INR n) w x e (length layers)) out (exactNet layers z).
Proof.
  intros m sum layers X I n w x e A S SH HX N Hw Hx He W MB. destruct (net_near m A n w N Hw layers sum X I x e S Hx He SH W MB HX) as (Y & E & L & H). exists Y. split; auto. split; auto.
  intros i row out z H1 H2 H3. specialize (H i row out z H1 H2 H3). clear - H. induction H as [|y r out z' (F & _ & _ & B)]; constructor; auto.
Qed.

(** e.g. two inputs, three hidden units, one output, weights up to 2: the error is at most 10 ^ -11 for inputs up to 1 *)
Definition exampleLayers : list dlayer :=
  [mkDlayer [[dint 1; dint 2]; [dint (-1); dint 1]; [dint 0; dint (-2)]] (Some [dint 1; dint 0; dint (-1)]) TANH;
   mkDlayer [[dint 1; dint (-1); dint 2]] None LOGISTIC].
Example C102_case : forall a b : double, finite a -> finite b -> Rabs (val a) <= 1 -> Rabs (val b) <= 1 ->
  exists y, d_net exactLibm (fun _ _ _ => leftSum) exampleLayers [[a; b]] = Ok [[y]] /\ finite y /\
  Rabs (val y - sigma LOGISTIC (Rtrigo_def.tanh (val a + 2 * val b + 1) - Rtrigo_def.tanh (- val a + val b) + 2 * Rtrigo_def.tanh (-2 * val b - 1))) <= 1 / 10 ^ 11.
Proof.
  intros a b Fa Fb Ba Bb. destruct an_accurate_library as (A & _). destruct (int_ok 1 ltac:(lia)) as (F1 & V1), (int_ok 2 ltac:(lia)) as (F2 & V2), (int_ok 0 ltac:(lia)) as (F0 & V0), (int_ok (-1) ltac:(lia)) as (Fm1 & Vm1), (int_ok (-2) ltac:(lia)) as (Fm2 & Vm2).
  destruct (C102_network exactLibm (fun _ _ _ => leftSum) exampleLayers [[a; b]] 2 3 2 1 0 A) as (Y & EY & LY & H).
  - intros. apply leftSum_ok.
  - cbn [wellShaped exampleLayers]. unfold takes. cbn [weightRows biasVector length]. repeat split; intros w Iw; repeat destruct Iw as [<-|Iw]; try reflexivity; destruct Iw.
  - intros r [<-|[]]. reflexivity.
  - lia.
  - lra.
  - lra.
  - lra.
  - assert (Q : forall z, (Z.abs z <= 2)%Z -> finite (dint z) /\ Rabs (val (dint z)) <= 2). { intros z Hz. destruct (int_ok z ltac:(lia)) as (Fz & Vz). split; auto. rewrite Vz. rewrite <- abs_IZR. apply (IZR_le _ 2). auto. }
    intros l [<-|[<-|[]]]; (split; [intros v [(r & Ir & Iv)|(u & Eu & Iv)]|intros r Ir]); cbn [weightRows biasVector] in *; try discriminate; try (injection Eu as <-);
      repeat destruct Ir as [<-|Ir]; try contradiction; repeat destruct Iv as [<-|Iv]; try contradiction; try (apply Q; lia); cbn [length]; lia.
  - assert (N3 : INR 3 = 3) by (cbn; lra). rewrite N3. intros k K. cbn [length exampleLayers] in K. assert (K' : k = 0%nat \/ k = 1%nat \/ k = 2%nat) by lia. destruct K' as [-> | [-> | ->]]; cbn [magnitude]; lra.
  - destruct Y as [|out [|]]; try discriminate. specialize (H 0%nat [a; b] out [val a; val b] eq_refl eq_refl).
    assert (G : Forall2 (fun d r => finite d /\ Rabs (val d) <= 1 /\ Rabs r <= 1 /\ Rabs (val d - r) <= 0) [a; b] [val a; val b]) by (repeat apply Forall2_cons; try apply Forall2_nil; rewrite Rminus_eq_0, Rabs_R0; repeat split; auto; lra).
    specialize (H G). unfold exactNet, exampleLayers, exactLayer, biases, inner in H. cbn [fold_left weightRows biasVector actOf map combine fst snd total fold_right] in H. rewrite V1, V2, V0, Vm1, Vm2 in H.
    inversion H as [|y r out' rs (Fy & Dy) Hr]; subst. inversion Hr; subst. exists y. split; auto. split; auto.
    assert (N3 : INR 3 = 3) by (cbn; lra). rewrite N3 in Dy. cbn [length deviation] in Dy. cbn [sigma] in *.
    match type of Dy with Rabs (_ - 1 / (1 + exp (- ?u))) <= ?d => assert (D11 : d <= 1 / 10 ^ 11) by lra; match goal with |- Rabs (_ - 1 / (1 + exp (- ?v))) <= _ => replace v with u end end; [lra|].
    match goal with |- 1 * Rtrigo_def.tanh ?t1 + (-1 * Rtrigo_def.tanh ?t2 + (2 * Rtrigo_def.tanh ?t3 + 0)) + 0 = _ => replace t1 with (val a + 2 * val b + 1) by ring; replace t2 with (- val a + val b) by ring; replace t3 with (-2 * val b - 1) by ring end. ring.
Qed.

(** C102.  Without the bound on the magnitude this is false: for finite weights and inputs an activation can be NaN, and a rectifier
    turns it into 0 (C99), so that the network returns a finite number that is wrong. *)
Definition huge : double := @B754_finite 53 1024 false 4503599627370496 548 eq_refl.
Definition minusHuge : double := @B754_finite 53 1024 true 4503599627370496 548 eq_refl.
Lemma sums_nonempty l s : sumsTo l s -> (1 <= length l)%nat.
Proof. induction 1 as [|l1 a l2 b l H1 I1 H2 I2 P]; auto. apply Permutation_length in P. rewrite app_length in P. lia. Qed.
Lemma sums_single l x s : sumsTo l s -> l = [x] -> s = x.
Proof.
  destruct 1 as [y|l1 a l2 b l H1 H2 P]; [congruence|]. intros ->. apply Permutation_length in P. rewrite app_length in P. apply sums_nonempty in H1, H2. cbn [length] in P. lia.
Qed.
Theorem C102_overflow_refuted : forall m sum, (forall l i j, summation (sum l i j)) ->
  finite huge /\ finite minusHuge /\ finite (dint 1) /\
  exists y, d_net m sum [mkDlayer [[huge; minusHuge]] (Some [dint 1]) RECTIFIER] [[huge; huge]] = Ok [[y]] /\
    finite y /\ val y = 0 /\ exactNet [mkDlayer [[huge; minusHuge]] (Some [dint 1]) RECTIFIER] [val huge; val huge] = [1].
Proof.
  intros m sum SM. split; [reflexivity|]. split; [reflexivity|]. destruct fin1 as (F1 & V1), fin0 as (F0 & V0). split; [exact F1|]. exists (dint 0). split; [|split; [exact F0|split; [exact V0|]]].
  - cbn [d_net d_forward forallb d_fits weightRows biasVector length Nat.eqb andb indexed combine seq map fst snd d_instance bind actOf]. do 3 f_equal. unfold d_instance, indexed. cbn [weightRows biasVector length combine seq map fst snd actOf]. f_equal.
    assert (E1 : dmult huge huge = B754_infinity false) by (vm_compute; reflexivity). assert (E2 : dmult huge minusHuge = B754_infinity true) by (vm_compute; reflexivity).
    unfold d_dot. cbn [combine map fst snd]. rewrite E1, E2.
    assert (S : sum 0%nat 0%nat 0%nat [B754_infinity false; B754_infinity true] = B754_nan).
    { pose proof (SM 0%nat 0%nat 0%nat [B754_infinity false; B754_infinity true] ltac:(discriminate)) as H. remember [B754_infinity false; B754_infinity true] as l eqn:El. destruct H as [x|l1 a l2 b l H1 H2 P]; [discriminate|]. subst l.
      pose proof (Permutation_length P) as L. rewrite app_length in L. pose proof (sums_nonempty _ _ H1). pose proof (sums_nonempty _ _ H2). cbn [length] in L. destruct l1 as [|u [|]]; cbn [length] in *; try lia. destruct l2 as [|v [|]]; cbn [length] in *; try lia.
      rewrite (sums_single _ u a H1 eq_refl), (sums_single _ v b H2 eq_refl). cbn [app] in P. apply Permutation_length_2_inv in P as [E|E]; injection E as -> ->; reflexivity. }
    transitivity (d_act m RECTIFIER (dplus B754_nan (dint 1))); [|reflexivity]. f_equal. f_equal. exact S.
  - unfold exactNet, exactLayer, biases, inner. cbn [fold_left weightRows biasVector actOf map combine fst snd total fold_right sigma]. rewrite V1. f_equal. assert (N : val minusHuge = - val huge) by (unfold val, minusHuge, huge; cbn [B2R]; rewrite <- F2R_Zopp; reflexivity). rewrite N. rewrite Rmax_right; lra.
Qed.

(** C102.  The mean squared error of differences up to 2 ^ 30 is finite and has a small relative error. *)
Theorem C102_mean_squared_error : forall sum D, summation sum ->
  concat D <> [] -> (Z.of_nat (length (concat D)) <= 2 ^ 30)%Z -> (Z.of_nat (length D) <= 2 ^ 31)%Z ->
  (forall v, In v (concat D) -> finite v /\ Rabs (val v) <= 2 ^ 30) ->
  let exact := total (map (fun v => val v * val v) (concat D)) / (2 * INR (length D)) in
  finite (d_meanSquaredError sum D) /\
  Rabs (val (d_meanSquaredError sum D) - exact) <= (2 * INR (length (concat D)) + 2) / 2 ^ 52 * exact + 1 / 10 ^ 20.
Proof. intros. now apply mse_ok. Qed.
(** e.g. the differences (1, -2) and (0, 3) of two instances: 14 / 4 *)
Example C102_mean_squared_error_case :
  Rabs (val (d_meanSquaredError leftSum [[dint 1; dint (-2)]; [dint 0; dint 3]]) - 7 / 2) <= 1 / 10 ^ 14.
Proof.
  destruct (int_ok 1 ltac:(lia)) as (F1 & V1), (int_ok (-2) ltac:(lia)) as (F2 & V2), (int_ok 0 ltac:(lia)) as (F0 & V0), (int_ok 3 ltac:(lia)) as (F3 & V3).
  destruct (C102_mean_squared_error leftSum [[dint 1; dint (-2)]; [dint 0; dint 3]] leftSum_ok) as (_ & H); [discriminate|cbn; lia|cbn; lia| |].
  - intros v [<-|[<-|[<-|[<-|[]]]]]; split; auto; rewrite ?V1, ?V2, ?V0, ?V3; apply Rabs_le; lra.
  - cbn [concat app map total fold_right length INR] in H. rewrite V1, V2, V0, V3 in H. match type of H with Rabs (_ - ?e) <= _ => replace e with (7 / 2) in H by field end. apply Rle_trans with (1 := H). lra.
Qed.
Print Assumptions C102_network.
Print Assumptions C102_overflow_refuted.
Print Assumptions C102_mean_squared_error.
