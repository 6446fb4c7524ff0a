(** Property C109: mini-batch stochastic gradient descent in double precision. *)
From Coq Require Import Lra Lia Psatz.
From Flocq Require Import Core BinarySingleNaN.
From Verif Require Import Base BaseFacts Activation_Model Float_Model Float_Spec Float_Proofs FloatSplit_Model FloatSplit_Proofs FloatSGD_Model FloatSGD_Spec FloatSGD_Proofs.
Local Open Scope R_scope.

(** C109.  The constructor accepts exactly the documented arguments if none of them is NaN; infinities are rejected.  Missing: NaN
    (C109_nan_accepted_refuted). *)
Theorem C109_constructor_partial :
  forall lr mo bs ne de ml mg mm ming maxg,
  (forall x, In x [lr; mo; de; ml; mg; mm] -> is_nan x = false) ->
  (documentedArguments lr mo bs de ml mg mm ->
     d_newMBSGD lr mo bs ne de ml mg mm ming maxg = Ok (mkDsgd ne de ml mg mm ming maxg, lr, mo)) /\
  (~ documentedArguments lr mo bs de ml mg mm -> d_newMBSGD lr mo bs ne de ml mg mm ming maxg = Throw).
Proof.
  intros lr mo bs ne de ml mg mm ming maxg H.
  destruct (constructor_ok lr mo bs ne de ml mg mm ming maxg) as [(A & E)|(A & E)]; try (apply H; cbn; tauto); split; tauto.
Qed.

(** C109.  NaN is accepted for every argument, and a momentum that is limited by NaN exceeds 1 after two batches although gradients are 0. *)
Theorem C109_nan_accepted_refuted :
  (forall x, In x [0; 1; 2; 3; 4; 5]%nat ->
     let arg i (d : double) := if Nat.eqb x i then B754_nan else d in
     exists c a e, d_newMBSGD (arg 0%nat (dint 1)) (arg 1%nat (dint 0)) 1 false (arg 2%nat (dint 1)) (arg 3%nat (dint 0)) (arg 4%nat (dint 0))
                     (arg 5%nat (dint 1)) (dint 1) (dint 1) = Ok (c, a, e)) /\
  exists c a e s, d_newMBSGD (dint 1) (dint 0) 1 false (dint 1) (dint 0) half B754_nan (dint 1) (dint 1) = Ok (c, a, e) /\ val half = / 2 /\
    d_rounds c (repeat (fun _ => [dint 0]) 3) (d_start a e [dint 0]) = Ok s /\ finite (sEta s) /\ 1 < val (sEta s).
Proof.
  assert (C : forall lr mo de ml mg mm,
    (dleb lr (dint 0) || dltb (dint 1) lr || (dltb mo (dint 0) || dleb (dint 1) mo) || (dleb de (dint 0) || dltb (dint 1) de) || (dltb ml (dint 0) || dltb (dint 1) ml) ||
     (dltb mg (dint 0) || dleb (dint 1) mg) || (dltb mm (dint 0) || dltb (dint 1) mm))%bool = false ->
    d_newMBSGD lr mo 1 false de ml mg mm (dint 1) (dint 1) = Ok (mkDsgd false de ml mg mm (dint 1) (dint 1), lr, mo)).
  { intros lr mo de ml mg mm H. apply orb_false_iff in H. destruct H as (H & H6). apply orb_false_iff in H. destruct H as (H & H5). apply orb_false_iff in H. destruct H as (H & H4).
    apply orb_false_iff in H. destruct H as (H & H3). apply orb_false_iff in H. destruct H as (H1 & H2). unfold d_newMBSGD. rewrite H1, H2, H3, H4, H5, H6. reflexivity. }
  split.
  - intros x I arg. do 3 eexists. apply C. unfold arg. cbn [In] in I. clear arg. repeat (destruct I as [<- | I]; [vm_compute; reflexivity|]). destruct I.
  - do 3 eexists. assert (E : d_newMBSGD (dint 1) (dint 0) 1 false (dint 1) (dint 0) half B754_nan (dint 1) (dint 1) = Ok (mkDsgd false (dint 1) (dint 0) half B754_nan (dint 1) (dint 1), dint 1, dint 0)).
    { apply C. vm_compute. reflexivity. }
    assert (T : match d_rounds (mkDsgd false (dint 1) (dint 0) half B754_nan (dint 1) (dint 1)) (repeat (fun _ => [dint 0]) 3) (d_start (dint 1) (dint 0) [dint 0]) with
                | Ok s => (is_finite (sEta s) && dltb (dint 1) (sEta s))%bool | _ => false end = true) by (vm_compute; reflexivity).
    destruct (d_rounds _ _ _) as [s| | | |] eqn:R; try discriminate T. apply andb_prop in T. destruct T as (T1 & T2). destruct one_ok as (F1 & V1).
    exists s. split; [exact E|]. split; [apply half_val|]. split; [exact R|]. split; [exact T1|]. apply ltb_true in T2; auto. lra.
Qed.

(** C109.  NaN is not ignored everywhere: with a learning rate or momentum of NaN the first batch of a run violates an assertion (of a
    program that has been compiled with assertions), whatever gradient the problem returns, unless there are no parameters. *)
Theorem C109_nan_rates_detected :
  forall c a e p answer s, a = B754_nan \/ e = B754_nan -> p <> [] ->
  d_round c answer (d_start a e p) = Ok s -> False.
Proof.
  intros c a e p answer s H Hp E. apply round_inv in E. destruct E as (at_ & g' & [_ _ _ _ A5 A6 _ _ _ _ _ _]). unfold d_start in A5. cbn [sMomentum sEta sAlpha] in A5.
  pose proof (zip_len _ _ _ _ A5) as (L & _). rewrite repeat_length in L. destruct p as [|x p]; [congruence|]. cbn [length repeat] in *. destruct g' as [|g g']; [discriminate|].
  pose proof (zip_nth _ _ _ _ 0%nat _ _ A5 eq_refl eq_refl) as N. cbv beta in N. apply nth_error_In in N. pose proof (unbroken_fin _ _ A6 N) as F.
  destruct (args_minus _ _ F) as (F1 & F2). destruct H as [-> | ->].
  - destruct (mult_fin _ _ F2) as (C & _). discriminate C.
  - destruct (mult_fin _ _ F1) as (C & _). discriminate C.
Qed.

(** C109.  Learning rate and momentum are numbers of [0, 1] that differ from the documented ones by at most k / 2 ^ 50 after k batches; after
    the first one they respect their limits; a batch never increases a learning rate above its minimum and never decreases a momentum below
    its maximum. *)
Theorem C109_schedules :
  forall lr mo bs ne de ml mg mm ming maxg k s, documentedArguments lr mo bs de ml mg mm ->
  let c := mkDsgd ne de ml mg mm ming maxg in
  descent c lr mo k s ->
  within 0 1 (sAlpha s) /\ within 0 1 (sEta s) /\
  Rabs (val (sAlpha s) - documentedRate (val lr) (val de) (val ml) k) <= INR k / 2 ^ 50 /\
  Rabs (val (sEta s) - documentedMomentum (val mo) (val mg) (val mm) k) <= INR k / 2 ^ 50 /\
  ((0 < k)%nat -> val ml <= val (sAlpha s) /\ val (sEta s) <= val mm) /\
  forall answer s', d_round c answer s = Ok s' ->
    val (sAlpha s') <= Rmax (val (sAlpha s)) (val ml) /\ Rmin (val (sEta s)) (val mm) <= val (sEta s').
Proof.
  intros lr mo bs ne de ml mg mm ming maxg k s args c H. destruct (descent_sched _ _ _ _ _ _ _ _ _ _ args _ _ H) as [I1 I2 I3 I4 I5 I6].
  do 4 (split; [assumption|]). split; [intros P; auto|]. intros answer s' E. apply round_inv in E. destruct E as (at_ & g' & [_ _ _ _ _ _ _ _ Ea _ Ee _]).
  rewrite Ea, Ee. cbn [c sDecay sMinAlpha sEtaGain sMaxEta]. split; [apply (alpha_next _ _ _ _ _ _ _ args _ I1)|apply (eta_next _ _ _ _ _ _ _ args _ I2)].
Qed.

(** C109.  With adaptive gains every gain lies in [minGain, maxGain] after every batch, whatever the problem returns. *)
Theorem C109_gains :
  forall c answer s s', finite (sMinGain c) -> finite (sMaxGain c) -> val (sMinGain c) <= val (sMaxGain c) ->
  (val (sMinGain c) <> 1 \/ val (sMaxGain c) <> 1) -> d_round c answer s = Ok s' ->
  forall k, In k (sGains s') -> within (val (sMinGain c)) (val (sMaxGain c)) k.
Proof.
  intros c answer s s' F1 F2 L U E k I. apply round_inv in E. destruct E as (at_ & g' & [_ _ A3 _ _ _ _ _ _ _ _ _]).
  assert (U' : d_useGain c = true).
  { unfold d_useGain. destruct one_ok as (Fo & Vo). rewrite !Beqb_correct by auto. fold (val (sMinGain c)) (val (sMaxGain c)) (val (dint 1)). rewrite Vo.
    do 2 case Req_bool_spec; intros; cbn; auto. tauto. }
  rewrite U' in A3. destruct A3 as (mg & _ & E). destruct (zip_in _ _ _ _ _ E I) as (x & y & _ & _ & ->). unfold d_gain. now apply clamp_ok.
Qed.

(** C109.  The rule for adaptive gains: a gain grows by 0.05 if momentum and gradient do not have opposite signs, otherwise it shrinks by the
    factor 0.95, and it is moved into [minGain, maxGain]; up to rounding, for gains of at most 2 ^ 80.  Missing: products of momentum and
    gradient that are negative, but not below -2 ^ -1074 (C109_gain_underflow_refuted). *)
Theorem C109_gain_rule_partial :
  forall lr mo bs ne de ml mg mm ming maxg n s answer s' j m k, documentedArguments lr mo bs de ml mg mm ->
  let c := mkDsgd ne de ml mg mm ming maxg in
  descent c lr mo n s -> d_round c answer s = Ok s' ->
  finite ming -> finite maxg -> val ming <= val maxg -> (val ming <> 1 \/ val maxg <> 1) ->
  nth_error (sMomentum s) j = Some m -> nth_error (sGains s) j = Some k -> finite k -> Rabs (val k) <= 2 ^ 80 ->
  exists at_ g k', (ne = false -> at_ = sParameters s) /\ nth_error (answer at_) j = Some g /\ nth_error (sGains s') j = Some k' /\
    let rule x := Rabs (val k' - Rmin (val maxg) (Rmax (val ming) x)) <= / 2 ^ 49 * (1 + Rabs (val k)) in
    (0 <= val m * val g -> rule (val k + 5 / 100)) /\
    (val m * val g < - / 2 ^ 1074 -> rule (val k * (95 / 100))).
Proof.
  intros lr mo bs ne de ml mg mm ming maxg n s answer s' j m k args c H E F1 F2 L U Em Ek Fk Bk. assert (Fm : finite m).
  { clear E. revert j m k Em Ek Fk Bk. induction H as [p|n s a s1 H IH E|n s p H IH]; intros j m k Em _ _ _; try (apply nth_error_In in Em; unfold d_start in Em; cbn [sMomentum] in Em; apply repeat_spec in Em; subst m; apply zero_ok).
    apply round_inv in E. destruct E as (at_ & g' & [_ _ _ _ _ A6 _ _ _ _ _ _]). apply unbroken_fin with (1 := A6). now apply nth_error_In in Em. }
  destruct (descent_sizes _ _ _ _ _ H) as (S1 & S2). apply round_inv in E. destruct E as (at_ & g' & [A1 A2 A3 A4 A5 _ _ _ _ _ _ _]).
  assert (U' : d_useGain c = true).
  { unfold d_useGain, c. cbn [sMinGain sMaxGain]. destruct one_ok as (Fo & Vo). rewrite !Beqb_correct by auto. fold (val ming) (val maxg) (val (dint 1)). rewrite Vo.
    do 2 case Req_bool_spec; intros; cbn; auto. tauto. }
  rewrite U' in A3. destruct A3 as (w & E1 & E2). pose proof (zip_len _ _ _ _ E1) as (L1 & _). assert (J : (j < length (sMomentum s))%nat) by (apply nth_error_Some; congruence).
  destruct (nth_ex (answer at_) j _ eq_refl) as (g & Eg); [lia|]. pose proof (zip_nth _ _ _ _ _ _ _ E2 (zip_nth _ _ _ _ _ _ _ E1 Em Eg) Ek) as Ek'.
  assert (Fg : finite g) by (apply unbroken_fin with (1 := A2); now apply nth_error_In in Eg).
  exists at_, g, (d_gain c (dmult m g) k). split; [intros ->; exact A1|]. split; [exact Eg|]. split; [exact Ek'|]. cbv zeta.
  destruct (product_sign m g Fm Fg) as (P1 & P2). unfold d_gain, c. cbn [sMinGain sMaxGain]. split; intros P.
  - rewrite (P1 P). destruct (gain_up k Fk Bk) as (F & B). rewrite clamp_val by auto. apply Rle_trans with (1 := clamp_dist _ _ _ _). exact B.
  - rewrite (P2 P). destruct (gain_down k Fk Bk) as (F & B). rewrite clamp_val by auto. apply Rle_trans with (1 := clamp_dist _ _ _ _). exact B.
Qed.
(** C109.  If the product of momentum and gradient underflows, a gain grows although their signs are opposite. *)
Theorem C109_gain_underflow_refuted :
  exists c lr mo s s' g m k k', descent c lr mo 1 s /\ d_round c (fun _ => [g]) s = Ok s' /\ sMomentum s = [m] /\ sGains s = [k] /\ sGains s' = [k'] /\
    finite m /\ finite g /\ val m < 0 < val g /\ finite k /\ finite k' /\ val k < val k'.
Proof.
  set (c := mkDsgd false (dint 1) (dint 0) (dint 0) (dint 1) half (dint 2)). set (s0 := d_start (dint 1) (dint 0) [dint 0]).
  assert (T : match d_round c (fun _ => [least]) s0 with Ok s => match d_round c (fun _ => [least]) s with Ok s' =>
      match sMomentum s, sGains s, sGains s' with [m], [k], [k'] => (is_finite m && dltb m (dint 0) && is_finite k && is_finite k' && dltb k k')%bool | _, _, _ => false end | _ => false end | _ => false end = true) by (vm_compute; reflexivity).
  destruct (d_round c _ s0) as [s| | | |] eqn:E0; try discriminate T. destruct (d_round c _ s) as [s'| | | |] eqn:E; try discriminate T.
  destruct (sMomentum s) as [|m [|]] eqn:EM; try discriminate T. destruct (sGains s) as [|k [|]] eqn:EK; try discriminate T. destruct (sGains s') as [|k' [|]] eqn:EG; try discriminate T.
  apply andb_prop in T. destruct T as (T & T5). apply andb_prop in T. destruct T as (T & T4). apply andb_prop in T. destruct T as (T & T3). apply andb_prop in T. destruct T as (T1 & T2).
  destruct zero_ok as (F0 & V0). assert (FL : finite least) by reflexivity. pose proof tiny_pos. exists c, (dint 1), (dint 0), s, s', least, m, k, k'.
  split; [apply (descent_round _ _ _ _ _ _ _ (descent_new c (dint 1) (dint 0) [dint 0]) E0)|]. split; [exact E|]. do 3 (split; [assumption|]). split; [exact T1|]. split; [exact FL|].
  apply ltb_true in T2, T5; auto. rewrite least_val. rewrite V0 in T2. repeat split; auto.
Qed.

(** C109.  Every batch changes every parameter as documented, up to rounding: with the gradient g that the problem returns and the gain k
    (1 without adaptive gains) the new momentum is eta * m - alpha * k * g, which is added to the parameter.  The gradient is computed at the
    parameters, or with Nesterov momentum at parameters + eta * m. *)
Theorem C109_update :
  forall lr mo bs ne de ml mg mm ming maxg n s answer s' j p m, documentedArguments lr mo bs de ml mg mm ->
  let c := mkDsgd ne de ml mg mm ming maxg in
  descent c lr mo n s -> d_round c answer s = Ok s' ->
  nth_error (sParameters s) j = Some p -> nth_error (sMomentum s) j = Some m ->
  let alpha := val (sAlpha s) in let eta := val (sEta s) in
  exists at_,
    (if ne then exists q, nth_error at_ j = Some q /\
                  (finite q -> Rabs (val q - (val p + eta * val m)) <= / 2 ^ 50 * (Rabs (val p) + Rabs (eta * val m)) + / 2 ^ 1071)
     else at_ = sParameters s) /\
    exists g k m' p',
      nth_error (answer at_) j = Some g /\ nth_error (sGains s') j = Some k /\
      nth_error (sMomentum s') j = Some m' /\ nth_error (sParameters s') j = Some p' /\
      finite g /\ finite k /\ finite m' /\ finite p' /\
      (val ming = 1 /\ val maxg = 1 /\ finite ming /\ finite maxg -> val k = 1) /\
      Rabs (val m' - (eta * val m - alpha * (val g * val k))) <= / 2 ^ 50 * (Rabs (eta * val m) + Rabs (alpha * (val g * val k))) + / 2 ^ 1071 /\
      Rabs (val p' - (val p + val m')) <= / 2 ^ 52 * Rabs (val p + val m') + / 2 ^ 1074.
Proof.
  intros lr mo bs ne de ml mg mm ming maxg n s answer s' j p m args c H E Ep Em alpha eta. destruct (descent_sched _ _ _ _ _ _ _ _ _ _ args _ _ H) as [I1 I2 _ _ _ _].
  destruct (round_accurate c answer s s' j p m (descent_sizes _ _ _ _ _ H) I1 I2 (descent_gains _ _ _ _ _ H) E Ep Em) as (at_ & A & g & k & m' & p' & B1 & B2 & B3 & B4 & B5 & B6 & B7 & B8 & B9).
  exists at_. split; [exact A|]. exists g, k, m', p'. do 8 (split; [assumption|]). split; [|exact B9].
  intros (V1 & V2 & F1 & F2). assert (U : d_useGain c = false).
  { unfold d_useGain, c. cbn [sMinGain sMaxGain]. destruct one_ok as (Fo & Vo). rewrite !Beqb_correct by auto. fold (val ming) (val maxg) (val (dint 1)). rewrite Vo, V1, V2. rewrite Req_bool_true by reflexivity. reflexivity. }
  rewrite (descent_gains c lr mo (S n) s' (descent_round _ _ _ _ _ _ _ H E) U k) by now apply nth_error_In in B2. apply one_ok.
Qed.

(** C109.  No overflow: if gradients at finite parameters are bounded by G, G times the maximal gain and the first parameters by 2 ^ 900, then
    2 ^ 26 batches of a run work: no assertion about NaN or infinity fails. *)
Theorem C109_no_overflow :
  forall lr mo bs ne de ml mg mm ming maxg n s p G answers, documentedArguments lr mo bs de ml mg mm ->
  finite ming -> finite maxg -> 0 <= val ming <= val maxg ->
  let c := mkDsgd ne de ml mg mm ming maxg in
  descent c lr mo n s -> bounded (2 ^ 900) p ->
  0 <= G -> G * Rmax 1 (val maxg) <= 2 ^ 900 -> (Z.of_nat (length answers) <= 2 ^ 26)%Z ->
  (forall answer at_, In answer answers -> length at_ = length p -> (forall x, In x at_ -> finite x) ->
     length (answer at_) = length p /\ bounded G (answer at_)) ->
  exists s', d_rounds c answers (d_start (sAlpha s) (sEta s) p) = Ok s' /\ length (sParameters s') = length p /\
    forall x, In x (sParameters s') -> finite x.
Proof.
  intros lr mo bs ne de ml mg mm ming maxg n s p G answers args F1 F2 B c H Bp HG HG2 L W. destruct (descent_sched _ _ _ _ _ _ _ _ _ _ args _ _ H) as [I1 I2 _ _ _ _].
  pose proof args as (_ & _ & _ & D1 & D2 & D3 & D4).
  destruct (bound_rounds c G (length p) D1 D2 D3 D4 (conj F1 (conj F2 B)) HG HG2 answers 0 (d_start (sAlpha s) (sEta s) p)) as (s' & E & I).
  - now apply bound_start.
  - exact L.
  - intros a Ia at_ La Fa. now apply (W a at_).
  - exists s'. split; [exact E|]. split; [apply I|]. intros x Ix. now apply I.
Qed.

(** C109.  The learning rate does not become zero if the decay is larger than 1/2 ... *)
Theorem C109_rate_positive_partial :
  forall lr mo bs ne de ml mg mm ming maxg k s, documentedArguments lr mo bs de ml mg mm -> / 2 < val de ->
  descent (mkDsgd ne de ml mg mm ming maxg) lr mo k s -> 0 < val (sAlpha s).
Proof.
  intros lr mo bs ne de ml mg mm ming maxg k s args Hd H. set (c := mkDsgd ne de ml mg mm ming maxg) in *.
  induction H as [p|k s answer s' H IH E|k s p H IH]; [apply args| |exact IH].
  destruct (descent_sched _ _ _ _ _ _ _ _ _ _ args _ _ H) as [I1 _ _ _ _ _]. apply round_inv in E. destruct E as (at_ & g' & [_ _ _ _ _ _ _ _ Ea _ _ _]).
  destruct (alpha_next _ _ _ _ _ _ _ args _ I1) as (_ & _ & _ & _ & V). rewrite Ea. cbn [c sDecay sMinAlpha]. rewrite V. pose proof args as (_ & _ & _ & D & _).
  pose proof (alpha_stays _ _ I1 IH D Hd). pose proof (Rmax_l (val (dmult (sAlpha s) de)) (val ml)). lra.
Qed.
(** ... but without a minimum it is zero after 1075 batches if the decay is at most 1/2: training stops to have an effect. *)
Theorem C109_rate_vanishes_refuted :
  forall lr mo bs ne de ml mg mm ming maxg k s, documentedArguments lr mo bs de ml mg mm -> val de <= / 2 -> val ml = 0 ->
  descent (mkDsgd ne de ml mg mm ming maxg) lr mo k s -> (1075 <= k)%nat ->
  val (sAlpha s) = 0 /\ 0 < documentedRate (val lr) (val de) (val ml) k.
Proof.
  intros lr mo bs ne de ml mg mm ming maxg k s args Hd Hm H. set (c := mkDsgd ne de ml mg mm ming maxg) in *.
  assert (I : ((k <= 1074)%nat -> val (sAlpha s) <= / 2 ^ k) /\ ((1075 <= k)%nat -> val (sAlpha s) = 0)).
  { induction H as [p|k s answer s' H IH E|k s p H IH]; [|  |exact IH].
    - split; [intros _|lia]. unfold d_start. cbn [sAlpha pow]. rewrite Rinv_1. apply args.
    - destruct (descent_sched _ _ _ _ _ _ _ _ _ _ args _ _ H) as [I1 _ _ _ _ _]. apply round_inv in E. destruct E as (at_ & g' & [_ _ _ _ _ _ _ _ Ea _ _ _]).
      destruct (alpha_next _ _ _ _ _ _ _ args _ I1) as (_ & B & _ & _ & V). rewrite Ea. cbn [c sDecay sMinAlpha]. rewrite V in *. rewrite Hm in *. pose proof args as (_ & _ & _ & D & _). destruct IH as (IH1 & IH2).
      assert (P : 0 <= val (dmult (sAlpha s) de) \/ val (dmult (sAlpha s) de) <= 0) by lra.
      split; intros L.
      + destruct (alpha_halves _ _ k I1 D Hd (IH1 ltac:(lia))) as (A & _). specialize (A ltac:(lia)). apply Rmax_lub; [exact A|]. left. apply Rinv_0_lt_compat, pow_lt. lra.
      + assert (Z0 : val (dmult (sAlpha s) de) <= 0).
        { destruct (Nat.le_gt_cases k 1074) as [K|K].
          - apply (alpha_halves _ _ k I1 D Hd (IH1 K)). lia.
          - apply (alpha_halves _ _ 1074 I1 D Hd); [|lia]. rewrite (IH2 K). left. apply Rinv_0_lt_compat, pow_lt. lra. }
        now rewrite Rmax_right. }
  intros K. split; [now apply I|]. destruct k as [|k]; [lia|]. unfold documentedRate. destruct args as ((_ & A1) & _ & _ & (_ & A2) & _).
  apply Rlt_le_trans with (2 := Rmax_l _ _). apply Rmult_lt_0_compat; [lra|]. apply pow_lt. lra.
Qed.

(** 2 ^ -60 *)
Definition smallGain : double := @B754_finite 53 1024 false 4503599627370496 (-112) eq_refl.
(** C109.  A momentum of 1/2 with a gain of 2 ^ -60 never grows, although it should reach its maximum 1 after 2 ^ 59 batches. *)
Theorem C109_momentum_stuck_refuted :
  val smallGain = / 2 ^ 60 /\ val half = / 2 /\ documentedArguments (dint 1) half 1 (dint 1) (dint 0) smallGain (dint 1) /\
  (forall k, (2 ^ 59 <= Z.of_nat k)%Z -> documentedMomentum (val half) (val smallGain) (val (dint 1)) k = 1) /\
  forall ne ming maxg k s, descent (mkDsgd ne (dint 1) (dint 0) smallGain (dint 1) ming maxg) (dint 1) half k s -> val (sEta s) = / 2.
Proof.
  assert (V : val smallGain = / 2 ^ 60).
  { unfold val, smallGain, B2R, F2R. cbn [Fnum Fexp cond_Zopp]. change (bpow radix2 (-112)) with (/ IZR (2 ^ 112)). rewrite pow_IZR. change (2 ^ Z.of_nat 60)%Z with (2 ^ 60)%Z.
    replace (2 ^ 112)%Z with (4503599627370496 * 2 ^ 60)%Z by reflexivity. rewrite mult_IZR. assert (IZR (2 ^ 60) <> 0) by (apply not_0_IZR; discriminate). field. auto. }
  assert (G : 0 < / 2 ^ 60 < 1). { split; [apply Rinv_0_lt_compat, pow_lt; lra|]. rewrite <- Rinv_1. apply Rinv_lt_contravar; [rewrite Rmult_1_l; apply pow_lt; lra|]. apply Rlt_pow_R1; [lra|lia]. }
  destruct zero_ok as (F0 & V0), one_ok as (F1 & V1). split; [exact V|]. split; [apply half_val|]. split.
  { unfold documentedArguments, withinL, withinR, within. rewrite V, V0, V1, half_val. repeat split; auto; try lra; lia. }
  split.
  - intros k Hk. rewrite V1, V, half_val. destruct k as [|k]; [cbn in Hk; lia|]. unfold documentedMomentum. apply Rmin_right. rewrite INR_IZR_INZ. apply IZR_le in Hk.
    assert (E : IZR (2 ^ 59) * / 2 ^ 60 = / 2). { rewrite pow_IZR. change (2 ^ Z.of_nat 60)%Z with (2 * 2 ^ 59)%Z. rewrite mult_IZR. assert (IZR (2 ^ 59) <> 0) by (apply not_0_IZR; discriminate). field. auto. }
    assert (IZR (2 ^ 59) * / 2 ^ 60 <= IZR (Z.of_nat (S k)) * / 2 ^ 60) by (apply Rmult_le_compat_r; lra). lra.
  - intros ne ming maxg k s H. assert (E : sEta s = half); [|now rewrite E, half_val].
    induction H as [p|k s answer s' H IH E|k s p H IH]; [reflexivity| |exact IH]. apply round_inv in E. destruct E as (at_ & g' & [_ _ _ _ _ _ _ _ _ _ Ee _]).
    rewrite Ee, IH. cbn [sEtaGain sMaxEta]. assert (P : dplus half smallGain = half) by (apply B2SF_inj; vm_compute; reflexivity). rewrite P. unfold dmin. replace (dltb (dint 1) half) with false by (vm_compute; reflexivity). reflexivity.
Qed.

(** The hypotheses are satisfiable: learning rate 1, decay 1/2, momentum 0, adaptive gains in [1/2, 1], Nesterov momentum; the problem returns
    the gradient 1.  The runs of C109_rate_vanishes_refuted exist. *)
Example C109_run : exists s k1, let c := mkDsgd true half (dint 0) (dint 0) (dint 1) half (dint 1) in
  documentedArguments (dint 1) (dint 0) 10 half (dint 0) (dint 0) (dint 1) /\
  descent c (dint 1) (dint 0) 2 s /\ In k1 (sGains s) /\ length (sParameters s) = 1%nat /\ val (sAlpha s) = / 4.
Proof.
  assert (A : documentedArguments (dint 1) (dint 0) 10 half (dint 0) (dint 0) (dint 1)).
  { destruct zero_ok as (F0 & V0), one_ok as (F1 & V1). unfold documentedArguments, withinL, withinR, within. rewrite V0, V1, half_val. repeat split; auto; try lra; lia. }
  set (c := mkDsgd true half (dint 0) (dint 0) (dint 1) half (dint 1)).
  assert (T : match d_round c (fun _ => [dint 1]) (d_start (dint 1) (dint 0) [dint 0]) with
              | Ok s1 => match d_round c (fun _ => [dint 1]) s1 with
                         | Ok s => (Nat.eqb (length (sParameters s)) 1 && Nat.eqb (length (sGains s)) 1 && is_finite (sAlpha s) && Beqb (sAlpha s) (dmult half half))%bool
                         | _ => false end | _ => false end = true) by (vm_compute; reflexivity).
  destruct (d_round c _ (d_start _ _ _)) as [s1| | | |] eqn:E1; try discriminate T. destruct (d_round c _ s1) as [s| | | |] eqn:E2; try discriminate T.
  apply andb_prop in T. destruct T as (T & T4). apply andb_prop in T. destruct T as (T & T3). apply andb_prop in T. destruct T as (T1 & T2). apply Nat.eqb_eq in T1, T2.
  destruct (sGains s) as [|k1 l] eqn:EG; [discriminate|]. exists s, k1. cbv zeta. split; [exact A|]. split; [|split; [rewrite EG; now left|split; [exact T1|]]].
  - eapply descent_round; [eapply descent_round; [apply descent_new|exact E1]|exact E2].
  - rewrite Beqb_correct in T4 by (auto; reflexivity). fold (val (sAlpha s)) in T4. revert T4. case Req_bool_spec; [intros -> _|discriminate].
    rewrite <- SF2R_B2SF. set (v := B2SF _). vm_compute in v. subst v. cbn [SF2R]. unfold F2R. cbn [Fnum Fexp cond_Zopp]. change (bpow radix2 (-54)) with (/ IZR (2 ^ 54)).
    replace (2 ^ 54)%Z with (4 * 4503599627370496)%Z by reflexivity. rewrite mult_IZR. field.
Qed.
Example C109_vanishing_run : exists s, descent (mkDsgd false half (dint 0) (dint 0) (dint 1) (dint 1) (dint 1)) (dint 1) (dint 0) 1075 s.
Proof.
  set (c := mkDsgd false half (dint 0) (dint 0) (dint 1) (dint 1) (dint 1)).
  assert (args : documentedArguments (dint 1) (dint 0) 10 half (dint 0) (dint 0) (dint 1)).
  { destruct zero_ok as (F0 & V0), one_ok as (F1 & V1). unfold documentedArguments, withinL, withinR, within. rewrite V0, V1, half_val. repeat split; auto; try lra; lia. }
  assert (R : forall n k s s', descent c (dint 1) (dint 0) k s -> d_rounds c (repeat (fun _ => [dint 1]) n) s = Ok s' -> descent c (dint 1) (dint 0) (n + k) s').
  { induction n as [|n IH]; intros k s s' H E; [inversion E; now subst|]. cbn [repeat d_rounds] in E. apply bind_ok in E. destruct E as (s1 & E1 & E2).
    cbn [Nat.add]. rewrite plus_n_Sm. apply IH with (2 := E2). eapply descent_round; eauto. }
  pose proof (descent_new c (dint 1) (dint 0) [dint 0]) as D0. destruct one_ok as (F1 & V1), zero_ok as (F0 & V0). assert (N1 : 1 <= 2 ^ 900) by (apply pow_R1_Rle; lra).
  destruct (C109_no_overflow (dint 1) (dint 0) 10 false half (dint 0) (dint 0) (dint 1) (dint 1) (dint 1) 0%nat (d_start (dint 1) (dint 0) [dint 0]) [dint 0] 1 (repeat (fun _ => [dint 1]) 1075) args F1 F1) as (s & E & _); auto.
  - lra.
  - intros x [<-|[]]. split; [exact F0|]. rewrite V0, Rabs_R0. lra.
  - lra.
  - rewrite V1. rewrite Rmax_left by lra. lra.
  - rewrite repeat_length. lia.
  - intros a at_ I _ _. apply repeat_spec in I. subst a. split; [reflexivity|]. intros x [<-|[]]. split; [exact F1|]. rewrite V1, Rabs_pos_eq; lra.
  - exists s. apply (R 1075%nat 0%nat _ _ D0 E).
Qed.
Print Assumptions C109_constructor_partial.
Print Assumptions C109_nan_accepted_refuted.
Print Assumptions C109_nan_rates_detected.
Print Assumptions C109_schedules.
Print Assumptions C109_gains.
Print Assumptions C109_gain_rule_partial.
Print Assumptions C109_gain_underflow_refuted.
Print Assumptions C109_update.
Print Assumptions C109_no_overflow.
Print Assumptions C109_rate_positive_partial.
Print Assumptions C109_rate_vanishes_refuted.
Print Assumptions C109_momentum_stuck_refuted.
