(** C98-C100: activation functions, softmax and cross entropy in double precision. *)
From Coq Require Import Lra Lia Permutation.
From Flocq Require Import Core BinarySingleNaN.
From Verif Require Import Base Activation_Model Float_Model Float_Spec Float_Proofs FloatAct_Proofs FloatSoft_Proofs Deriv Activation_Proofs.
Local Open Scope R_scope.

(** C98.  The activation functions return a number in the documented range for every double that is not NaN, infinite or not; the
    rectifier and the identity return a finite number for a finite one.  1.7159 is rounded to a double. *)
Theorem C98_finite_and_ranges : forall m, accurate m -> forall a, is_nan a = false ->
  (finite (d_act m LOGISTIC a) /\ 0 <= val (d_act m LOGISTIC a) <= 1) /\
  (finite (d_act m TANH a) /\ -1 <= val (d_act m TANH a) <= 1) /\
  (finite (d_act m TANH_SCALED a) /\ Rabs (val (d_act m TANH_SCALED a)) <= 1.7159 + 1 / 10 ^ 15) /\
  0 <= val (d_act m RECTIFIER a) /\
  (finite a -> forall act, finite (d_act m act a)).
Proof.
  intros m A a N. split; [now apply logistic_range|]. split; [now apply normaltanh_range|]. split; [|split].
  - destruct (scaledtanh_range m A a N) as (H1 & H2). split; auto. destruct lit17 as (_ & L). apply Rabs_le_inv in L. apply Rabs_le. cbn [d_act]. lra.
  - now apply rectifier_ok.
  - intros F act. now apply act_finite.
Qed.

(** C98.  They are within 10 ^ -12 of the documented functions. *)
Theorem C98_accuracy : forall m, accurate m -> forall act a, finite a ->
  Rabs (val (d_act m act a) - sigma act (val a)) <= 1 / 10 ^ 12.
Proof. exact act_accuracy. Qed.

(** C98.  The derivative that is computed from the output is finite and not negative, also for infinite inputs. *)
Theorem C98_derivative_finite : forall m, accurate m -> forall act a, is_nan a = false ->
  finite (d_actDerivative act (d_act m act a)) /\ 0 <= val (d_actDerivative act (d_act m act a)).
Proof. exact derivative_finite. Qed.

(** C98.  It is within 10 ^ -11 of the derivative of the documented function wherever that is differentiable. *)
Theorem C98_derivative_accuracy : forall m, accurate m -> forall act a l, finite a ->
  derivable_pt_lim (sigma act) (val a) l -> Rabs (val (d_actDerivative act (d_act m act a)) - l) <= 1 / 10 ^ 11.
Proof. exact derivative_accuracy. Qed.

(** The hypotheses can be met: returning the double closest to the exact result is such a library. *)
Lemma ln_max x : finite x -> 0 < val x -> Rabs (ln (val x)) <= maxDouble.
Proof.
  intros F H. pose proof (val_max x) as V. rewrite Rabs_pos_eq in V by lra. pose proof max_big as MB. assert (M1 : 10000 <= 2 ^ 100) by lra.
  assert (U : ln (val x) <= maxDouble). { pose proof (exp_ineq1_le (ln (val x))) as Q. rewrite exp_ln in Q by auto. lra. }
  assert (G : / 2 ^ 1074 <= val x). { pose proof (abs_B2R_ge_emin 53 1024 x) as G. rewrite is_finite_strict_B2R in G by (unfold val in H; lra). specialize (G eq_refl). change (bpow radix2 (SpecFloat.emin 53 1024)) with (bpow radix2 (- Z.of_nat 1074)) in G. rewrite bpow_opp, bpow_pow in G. fold (val x) in G. rewrite Rabs_pos_eq in G by lra. exact G. }
  assert (L : -1074 <= ln (val x)). { rewrite <- (ln_exp (-1074)). assert (E : exp (-1074) <= / 2 ^ 1074). { replace (-1074) with (- (INR 1074 * 1)) by (rewrite INR_IZR_INZ; change (Z.of_nat 1074) with 1074%Z; lra). rewrite exp_inv, exp_pow. apply Rinv_le; [apply pow_lt; lra|]. apply pow_incr. pose proof (exp_ineq1_le 1). lra. } assert (E' : exp (-1074) <= val x) by lra. destruct E' as [E'|E']; [left; apply ln_increasing; auto; apply exp_pos|rewrite E'; lra]. }
  apply Rabs_le. lra.
Qed.
Definition exactLibm : libm := mkLibm
  (fun x => match x with
    | B754_nan => B754_nan | B754_infinity s => if s then dint 0 else B754_infinity false
    | _ => double_of (exp (val x)) end)
  (fun x => match x with B754_nan => B754_nan | B754_infinity s => if s then dint (-1) else dint 1 | _ => double_of (Rtrigo_def.tanh (val x)) end)
  (fun x => double_of (ln (val x))).
Example an_accurate_library : accurate exactLibm /\ nearestExp exactLibm.
Proof.
  assert (T : forall x, Rabs (Rtrigo_def.tanh x) <= maxDouble). { intros x. apply small_max. pose proof (tanh_range x). apply Rabs_le. lra. }
  assert (EX : forall x, exp x <= maxDouble -> Rabs (exp x) <= maxDouble). { intros x H. rewrite Rabs_pos_eq; auto. left. apply exp_pos. }
  split; [constructor|].
  - intros x F H. destruct x; try discriminate; cbn [dexp exactLibm]; apply double_of_faithful, EX, H.
  - cbn [dexp exactLibm]. apply int_ok. lia.
  - intros x F. destruct x; try discriminate; cbn [dtanh exactLibm]; apply double_of_faithful, T.
  - intros [|]; cbn [dtanh exactLibm]; apply int_ok; lia.
  - intros x F H. cbn [dlog exactLibm]. apply double_of_faithful. now apply ln_max.
  - reflexivity.
  - reflexivity.
  - intros x F H. destruct x; try discriminate; cbn [dexp exactLibm]; apply double_of_nearest, EX, H.
Qed.
(** e.g. the logistic function of minus infinity, and of 1 *)
Example C98_case : finite (d_act exactLibm LOGISTIC (B754_infinity true)) /\ finite (dint 1) /\
  Rabs (val (d_act exactLibm LOGISTIC (dint 1)) - 1 / (1 + exp (-1))) <= 1 / 10 ^ 12.
Proof.
  destruct an_accurate_library as (A & _). split; [apply (proj1 (proj1 (C98_finite_and_ranges _ A (B754_infinity true) eq_refl)))|]. destruct fin1 as (F1 & V1). split; auto. pose proof (C98_accuracy _ A LOGISTIC (dint 1) F1) as H. cbn [sigma] in H. rewrite V1 in H. exact H.
Qed.
(** e.g. the derivative of tanh at 1 *)
Example C98_derivative_case : derivable_pt_lim (sigma TANH) (val (dint 1)) (1 - Rtrigo_def.tanh (val (dint 1)) * Rtrigo_def.tanh (val (dint 1))).
Proof. apply Deriv.D_tanh. Qed.

(** C99.  A NaN is visible in the output of the logistic function, both tanh functions and the identity ... *)
Theorem C99_nan_visible_partial : forall m, accurate m -> forall act, act <> RECTIFIER -> is_nan (d_act m act B754_nan) = true.
Proof.
  intros m A act H. destruct act; [rewrite (nan_logistic m A)|rewrite (nan_tanh m A)|rewrite (nan_scaled m A)|congruence|]; reflexivity.
Qed.
(** C99.  ... but the rectifier turns it into 0, and its derivative too. *)
Theorem C99_rectifier_hides_nan_refuted : forall m,
  finite (d_act m RECTIFIER B754_nan) /\ val (d_act m RECTIFIER B754_nan) = 0 /\
  finite (d_actDerivative RECTIFIER (d_act m RECTIFIER B754_nan)) /\ val (d_actDerivative RECTIFIER (d_act m RECTIFIER B754_nan)) = 0.
Proof.
  intros m. assert (E : d_act m RECTIFIER B754_nan = dint 0) by reflexivity. rewrite E. destruct fin0 as (F0 & V0). split; [exact F0|]. split; [exact V0|]. cbn [d_actDerivative].
  destruct (rectifierDerivative_ok (dint 0)) as (H1 & _ & H3); [reflexivity|]. split; [exact H1|]. reflexivity.
Qed.

(** C100.  The softmax of one instance is a probability distribution, whatever finite numbers (and however large) its components are. *)
Theorem C100_softmax_one_instance : forall m sum r, accurate m -> summation sum ->
  r <> [] -> (Z.of_nat (length r) <= 2 ^ 31)%Z -> (forall y, In y r -> finite y) ->
  exists out, d_softmax m sum [r] = Ok [out] /\ distribution r out.
Proof.
  intros m sum r A S NE N F. destruct (softmax_batch m sum A S [r] 0 r) as (Z & out & E & L & H & D); auto.
  - cbn [concat]. rewrite app_nil_r. auto.
  - cbn [concat]. rewrite app_nil_r. intros x I. exists x. split; auto. lra.
  - exists out. split; auto. rewrite E. destruct Z as [|z [|]]; try discriminate. cbn in H. injection H as ->. reflexivity.
Qed.

(** C100.  The same for every instance of a batch that has a component of at least the largest component of the batch minus 700. *)
Theorem C100_softmax_batch_partial : forall m sum Y i r, accurate m -> summation sum ->
  (forall x, In x (concat Y) -> finite x) ->
  nth_error Y i = Some r -> r <> [] -> (Z.of_nat (length r) <= 2 ^ 31)%Z ->
  (forall x, In x (concat Y) -> exists y, In y r /\ val x - 700 <= val y) ->
  exists Z out, d_softmax m sum Y = Ok Z /\ length Z = length Y /\ nth_error Z i = Some out /\ distribution r out.
Proof. intros. now apply softmax_batch. Qed.

(** C100.  The order of the components is preserved. *)
Theorem C100_softmax_order_partial : forall m sum Y Z i r out, accurate m -> nearestExp m -> summation sum ->
  (forall x, In x (concat Y) -> finite x) ->
  nth_error Y i = Some r -> (Z.of_nat (length r) <= 2 ^ 31)%Z ->
  (forall x, In x (concat Y) -> exists y, In y r /\ val x - 700 <= val y) ->
  d_softmax m sum Y = Ok Z -> nth_error Z i = Some out ->
  forall j k y z o p, nth_error r j = Some y -> nth_error r k = Some z -> nth_error out j = Some o -> nth_error out k = Some p ->
  val y <= val z -> val o <= val p.
Proof. intros m sum Y Z i r out A NE S F H N G E HO. exact (softmax_order m sum A S Y Z i r out NE F H N G E HO). Qed.

(** C100.  All outputs of an instance are NaN if all of its components are more than 800 below some component of another instance
    of the batch. *)
Theorem C100_softmax_far_instance_refuted : forall m sum Y i r, accurate m -> nearestExp m -> summation sum ->
  (forall x, In x (concat Y) -> finite x) ->
  nth_error Y i = Some r -> r <> [] ->
  (exists x, In x (concat Y) /\ forall y, In y r -> val y < val x - 800) ->
  exists Z out, d_softmax m sum Y = Ok Z /\ nth_error Z i = Some out /\ length out = length r /\ forall o, In o out -> o = B754_nan.
Proof. intros. now apply softmax_far. Qed.

(** e.g. the outputs for (0, 1) are a distribution, but all of them are NaN if (1000, 1001) is in the same batch; sums can be taken from
    the left *)
Definition leftSum (l : list double) : double := match l with [] => dint 0 | x :: k => fold_left dplus k x end.
Example leftSum_ok : summation leftSum.
Proof.
  assert (G : forall k l x, sumsTo l x -> sumsTo (l ++ k) (fold_left dplus k x)).
  { induction k as [|a k IH]; intros l x H; cbn [fold_left]; [now rewrite app_nil_r|]. replace (l ++ a :: k) with ((l ++ [a]) ++ k) by now rewrite <- app_assoc. apply IH. apply sums_add with l [a]; auto. constructor. }
  intros [|x k] H; [easy|]. apply (G k [x] x). constructor.
Qed.
Example C100_far_witness : exists out1 Z out,
  d_softmax exactLibm leftSum [[dint 0; dint 1]] = Ok [out1] /\ distribution [dint 0; dint 1] out1 /\
  d_softmax exactLibm leftSum [[dint 0; dint 1]; [dint 1000; dint 1001]] = Ok Z /\ nth_error Z 0 = Some out /\ out = [B754_nan; B754_nan].
Proof.
  destruct an_accurate_library as (A & N). destruct fin0 as (F0 & V0), fin1 as (F1 & V1), (int_ok 1000 ltac:(lia)) as (F2 & V2), (int_ok 1001 ltac:(lia)) as (F3 & V3).
  destruct (C100_softmax_one_instance exactLibm leftSum [dint 0; dint 1] A leftSum_ok) as (out1 & E1 & D1); [easy|cbn; lia|intros y [<-|[<-|[]]]; auto|].
  destruct (C100_softmax_far_instance_refuted exactLibm leftSum [[dint 0; dint 1]; [dint 1000; dint 1001]] 0 [dint 0; dint 1] A N leftSum_ok) as (Z & out & E2 & E3 & L & H); [intros x [<-|[<-|[<-|[<-|[]]]]]; auto|reflexivity|easy| |].
  - exists (dint 1000). split; [right; right; now left|]. intros y [<-|[<-|[]]]; lra.
  - exists out1, Z, out. repeat (split; auto). destruct out as [|a [|b [|]]]; try discriminate. rewrite (H a), (H b); cbn; auto.
Qed.

(** C100.  The cross entropy of probabilities and targets between 0 and 1 is finite, even where a probability is 0, and close to the
    documented formula. *)
Theorem C100_cross_entropy : forall m sum Y T, accurate m -> summation sum ->
  length (concat Y) = length (concat T) -> concat Y <> [] ->
  (Z.of_nat (length (concat Y)) <= 2 ^ 31)%Z -> (Z.of_nat (length Y) <= 2 ^ 31)%Z ->
  (forall y, In y (concat Y ++ concat T) -> finite y /\ 0 <= val y <= 1) ->
  finite (d_crossEntropy m sum Y T) /\
  Rabs (val (d_crossEntropy m sum Y T) -
        - total (map (fun p => val (snd p) * ln (val (fst p) + 1 / 10 ^ 10)) (combine (concat Y) (concat T))) / INR (length Y))
    <= INR (length (concat Y)) * INR (length (concat Y)) / 2 ^ 45.
Proof. intros. now apply crossEntropy_finite. Qed.
(** e.g. a probability of 0 for the right class *)
Example C100_cross_entropy_case : finite (d_crossEntropy exactLibm leftSum [[dint 0; dint 1]] [[dint 1; dint 0]]).
Proof.
  destruct an_accurate_library as (A & _). destruct fin0 as (F0 & V0), fin1 as (F1 & V1). apply (C100_cross_entropy _ _ [[dint 0; dint 1]] [[dint 1; dint 0]] A leftSum_ok); try reflexivity; try easy; try (cbn; lia).
  intros y [<-|[<-|[<-|[<-|[]]]]]; rewrite ?V0, ?V1; split; auto; lra.
Qed.
Print Assumptions C98_derivative_accuracy.
Print Assumptions C100_softmax_order_partial.
Print Assumptions C100_cross_entropy.
