(** C111: normalization of data in double precision. *)
From Coq Require Import Lra Lia ZArith List.
From Flocq Require Import Core BinarySingleNaN.
From Verif Require Import Base BaseFacts Activation_Model Float_Model Float_Spec Float_Proofs FloatSoft_Proofs FloatSplit_Model FloatSGD_Spec FloatSGD_Proofs FloatNet_Spec FloatNet_Proofs FloatPool_Model FloatScale_Proofs FloatNorm_Model FloatNorm_Proofs Float_Props.
Import ListNotations.
Local Open Scope R_scope.

(** the exact mean and variance of a feature *)
Definition exactMean (X : dmat) (d : nat) : R := total (map (fun n => val (dat X n d)) (seq 0 (drows X))) / INR (drows X).
Definition exactVariance (X : dmat) (d : nat) : R := total (map (fun n => (val (dat X n d) - exactMean X d) ^ 2) (seq 0 (drows X))) / INR (drows X).
(** all numbers are finite and at most [b] in magnitude *)
Definition within (X : dmat) (b : R) : Prop := forall n d, (n < drows X)%nat -> (d < dcols X)%nat -> finite (dat X n d) /\ Rabs (val (dat X n d)) <= b.
(** at least one instance, as many as an int can count *)
Definition someRows (X : dmat) : Prop := (1 <= drows X)%nat /\ (Z.of_nat (drows X) < 2 ^ 31)%Z.

Lemma column_length X d : length (column X d) = drows X.
Proof. unfold column. now rewrite map_length, seq_length. Qed.
Lemma column_in X b d : within X b -> (d < dcols X)%nat -> forall v, In v (column X d) -> finite v /\ Rabs (val v) <= b.
Proof. intros W D v I. apply in_map_iff in I as (n & <- & I). apply in_seq in I. apply W; lia. Qed.
Lemma column_some X d : someRows X -> column X d <> [].
Proof. intros (H & _) E. apply (f_equal (@length double)) in E. rewrite column_length in E. cbn in E. lia. Qed.
Lemma fit_nth r sum X d : (d < dcols X)%nat -> nth d (dmean (d_norm_fit r sum X)) B754_nan = d_featureMean (sum d) (column X d) /\
  nth d (dstd (d_norm_fit r sum X)) B754_nan = d_featureStd r (d_featureMean (sum d) (column X d)) (column X d) /\ length (dmean (d_norm_fit r sum X)) = dcols X /\ length (dstd (d_norm_fit r sum X)) = dcols X.
Proof.
  intros D. cbn [dmean dstd d_norm_fit]. rewrite !map_length, !seq_length. assert (A : nth d (map (fun d => d_featureMean (sum d) (column X d)) (seq 0 (dcols X))) B754_nan = d_featureMean (sum d) (column X d)).
  { apply nth_error_nth. rewrite (map_nth_error (fun d => d_featureMean (sum d) (column X d)) d (seq 0 (dcols X)) (d := d)); [reflexivity|]. rewrite (nth_error_nth' _ 0%nat) by now rewrite seq_length. now rewrite seq_nth. }
  split; [exact A|]. split; [|auto]. apply nth_error_nth. erewrite map_nth_error; [rewrite A; reflexivity|]. rewrite (nth_error_nth' _ 0%nat) by now rewrite seq_length. now rewrite seq_nth.
Qed.
Lemma fit_lengths r sum X : length (dmean (d_norm_fit r sum X)) = dcols X /\ length (dstd (d_norm_fit r sum X)) = dcols X.
Proof. cbn [dmean dstd d_norm_fit]. now rewrite !map_length, !seq_length. Qed.

(** C111.  The means are close to the exact means, and the squares of the standard deviations are close to the exact variances; they are positive,
    and 1 only stands for a variance of at most 4 * 2^-1074.  For all orders in which the numbers are added. *)
Theorem C111_fit reciprocal sum X b : (forall d, summation (sum d)) -> someRows X -> within X b -> b <= 2 ^ 30 ->
  let s := d_norm_fit reciprocal sum X in let n := INR (drows X) in let delta := (2 * n + 2) * / 2 ^ 52 * b + / 2 ^ 1074 in
  length (dmean s) = dcols X /\ length (dstd s) = dcols X /\ forall d, (d < dcols X)%nat ->
  exists m u, nth_error (dmean s) d = Some m /\ nth_error (dstd s) d = Some u /\ finite m /\ Rabs (val m - exactMean X d) <= delta /\ finite u /\ 0 < val u /\
    ((val u = 1 /\ exactVariance X d <= 4 * / 2 ^ 1074) \/
     Rabs (val u ^ 2 - exactVariance X d) <= (3 * n + 15) * / 2 ^ 52 * (exactVariance X d + delta ^ 2) + delta ^ 2 + 4 * / 2 ^ 1074).
Proof.
  intros S R W B s n delta. destruct (fit_lengths reciprocal sum X) as (L1 & L2). split; [exact L1|]. split; [exact L2|]. intros d D. destruct (fit_nth reciprocal sum X d D) as (N1 & N2 & _). fold s in N1, N2, L1, L2.
  exists (d_featureMean (sum d) (column X d)), (d_featureStd reciprocal (d_featureMean (sum d) (column X d)) (column X d)). split; [rewrite <- N1; apply nth_error_nth'; lia|]. split; [rewrite <- N2; apply nth_error_nth'; lia|].
  pose proof (column_length X d) as CL. pose proof (column_some X d R) as NE. destruct R as (R1 & R2). destruct (mean_ok (sum d) (column X d) b) as (Fm & Em & Bm); auto; [rewrite CL; lia|now apply column_in|]. set (m := d_featureMean (sum d) (column X d)) in *.
  destruct (std_ok reciprocal m (column X d)) as (Fu & Bu & Eu); auto; [rewrite CL; lia|intros v I; destruct (column_in X b d W D v I); split; auto; lra|]. set (u := d_featureStd reciprocal m (column X d)) in *. rewrite CL in *. fold n in Em, Eu.
  assert (n1 : 1 <= n) by (apply (le_INR 1); lia). assert (EM : exactMean X d = total (map val (column X d)) / n) by (unfold exactMean, column; rewrite map_map; reflexivity). assert (EV : exactVariance X d = total (map (fun v => (val v - exactMean X d) ^ 2) (column X d)) / n) by (unfold exactVariance, column; rewrite map_map; reflexivity).
  rewrite <- EM in Em. rewrite tiny_pow in Em, Eu. change (/ 2 ^ 52) with eps in *. fold delta in Em. split; [exact Fm|]. split; [exact Em|]. split; [exact Fu|]. assert (P537 : 0 < / 2 ^ 537) by (apply Rinv_0_lt_compat, pow_lt; lra). split; [lra|].
  assert (SH : deviations m (column X d) / n = exactVariance X d + (exactMean X d - val m) ^ 2).
  { unfold deviations. rewrite (shift_ok val (val m) (exactMean X d)), CL, EV. fold n. replace (total (map val (column X d))) with (n * exactMean X d) by (rewrite EM; field; lra).  field. lra. }
  assert (SQ : 0 <= (exactMean X d - val m) ^ 2 <= delta ^ 2). { split; [apply pow2_ge_0|]. rewrite Rabs_minus_sym in Em. rewrite <- (pow2_abs (exactMean X d - val m)). apply pow_incr. split; [apply Rabs_pos|exact Em]. }
  rewrite SH in Eu. set (e := (exactMean X d - val m) ^ 2) in *. destruct Eu as [(E1 & E2)|E]; [left; split; [exact E1|lra]|right]. pose proof eps_pos as EP.
  assert (C : (3 * n + 15) * eps * (exactVariance X d + e) <= (3 * n + 15) * eps * (exactVariance X d + delta ^ 2)) by (apply Rmult_le_compat_l; [apply Rmult_le_pos; lra|lra]). apply Rabs_le_inv in E. apply Rabs_le. lra.
Qed.

(** After fit, transform computes (y - mean) / std with the stored mean and standard deviation up to four units in the last place; no result is infinite or NaN. *)
Theorem C111_transform reciprocal sum X Y b : (forall d, summation (sum d)) -> someRows X -> (1 <= dcols X)%nat -> within X b -> b <= 2 ^ 30 -> dcols Y = dcols X -> within Y (2 ^ 30) ->
  let s := d_norm_fit reciprocal sum X in exists Z, d_norm_transform s Y = Ok Z /\ drows Z = drows Y /\ dcols Z = dcols Y /\
  forall n d m u, (n < drows Y)%nat -> (d < dcols Y)%nat -> nth_error (dmean s) d = Some m -> nth_error (dstd s) d = Some u ->
    finite (dat Z n d) /\ Rabs (val (dat Z n d) - (val (dat Y n d) - val m) / val u) <= 4 * / 2 ^ 52 * Rabs ((val (dat Y n d) - val m) / val u) + / 2 ^ 1074.
Proof.
  intros S R C W B E WY s. destruct (fit_lengths reciprocal sum X) as (L1 & L2). fold s in L1, L2. unfold d_norm_transform. rewrite L1, E, Nat.eqb_refl. replace (0 <? dcols X)%nat with true by (symmetry; apply Nat.ltb_lt; lia). cbn [check bind]. eexists. split; [reflexivity|]. split; [reflexivity|]. split; [reflexivity|].
  intros n d m u Hn Hd Nm Nu. cbn [dat]. assert (Nm' : nth d (dmean s) B754_nan = m) by (apply nth_error_nth; exact Nm). assert (Nu' : nth d (dstd s) B754_nan = u) by (apply nth_error_nth; exact Nu). clear Nm Nu. rename Nm' into Nm, Nu' into Nu. rewrite Nm, Nu. destruct (fit_nth reciprocal sum X d) as (N1 & N2 & _); [lia|]. fold s in N1, N2. rewrite N1 in Nm. rewrite N2 in Nu.
  pose proof (column_length X d) as CL. pose proof (column_some X d R) as NE. destruct R as (R1 & R2). destruct (mean_ok (sum d) (column X d) b) as (Fm & _ & Bm); auto; [rewrite CL; lia|apply column_in; auto; lia|]. rewrite Nm in *.
  destruct (std_ok reciprocal m (column X d)) as (Fu & Bu & _); auto; [rewrite CL; lia|intros v I; destruct (column_in X b d W ltac:(lia) v I); split; auto; lra|]. rewrite Nu in *. destruct (WY n d Hn ltac:(lia)) as (Fy & By). rewrite <- tiny_pow. apply transformed_ok; auto.
Qed.

(** A constant feature becomes 0, as it should.  Missing: only multiples z / 2^k of a power of 2 with few enough digits (integers, 0.5, 2.75, ...), whose sums are exact;
    for other numbers see C111_constant_refuted. *)
Theorem C111_constant_partial reciprocal sum X d z k : (forall d, summation (sum d)) -> someRows X -> (d < dcols X)%nat ->
  (forall n, (n < drows X)%nat -> finite (dat X n d) /\ val (dat X n d) = IZR z / 2 ^ k) -> (k <= 1000)%nat -> (Z.abs z * Z.of_nat (drows X) < 2 ^ 53)%Z ->
  exists Z, d_norm_transform (d_norm_fit reciprocal sum X) X = Ok Z /\ forall n, (n < drows X)%nat -> finite (dat Z n d) /\ val (dat Z n d) = 0.
Proof.
  intros S R D H K B. set (s := d_norm_fit reciprocal sum X). destruct (fit_lengths reciprocal sum X) as (L1 & L2). fold s in L1, L2. unfold d_norm_transform. rewrite L1, Nat.eqb_refl. replace (0 <? dcols X)%nat with true by (symmetry; apply Nat.ltb_lt; lia). cbn [check bind]. eexists. split; [reflexivity|].
  intros n Hn. cbn [dat]. destruct (fit_nth reciprocal sum X d D) as (N1 & N2 & _). fold s in N1, N2. rewrite N1, N2. pose proof (column_length X d) as CL. pose proof (column_some X d R) as NE. destruct R as (R1 & R2).
  assert (HC : forall v, In v (column X d) -> finite v /\ val v = IZR z / 2 ^ k) by (intros v I; apply in_map_iff in I as (i & <- & I); apply in_seq in I; apply H; lia).
  destruct (const_mean (sum d) (column X d) z k) as (Fm & Vm); auto; try (rewrite CL; lia). set (m := d_featureMean (sum d) (column X d)) in *. rewrite (const_std reciprocal m (column X d)); auto; [|rewrite CL; lia|intros v I; rewrite Vm; auto].
  destruct (H n Hn) as (Fx & Vx). destruct (minus_same (dat X n d) m) as (Fd & Vd); auto; [lra|]. destruct one_ok as (FO & VO). assert (M1 : Rabs (val (dint 1) / val (dint 1)) <= maxDouble) by (rewrite VO; apply small_max; replace (1 / 1) with 1 by field; rewrite Rabs_R1; apply pow_R1_Rle; lra).
  apply mult_zero; auto; apply (div_ok (dint 1) (dint 1) FO ltac:(rewrite VO; lra) M1).
Qed.

(** FINDING: a constant feature that is not an integer need not become 0.  0.1, 0.1, 0.1 becomes -1, -1, -1 (less than -0.9), because the rounding error of the mean is
    taken for the standard deviation; 0.2 is then transformed to more than 10^15.  Both ways to divide by the number of instances. *)
Theorem C111_constant_refuted reciprocal : let c := literal 1 1 in let X := mkDmat 3 1 (fun _ _ => c) in let Y := mkDmat 1 1 (fun _ _ => literal 2 1) in
  let s := d_norm_fit reciprocal (fun _ => leftSum) X in
  exists Z U, d_norm_transform s X = Ok Z /\ d_norm_transform s Y = Ok U /\ (forall n, (n < 3)%nat -> finite (dat Z n 0) /\ val (dat Z n 0) < - (9 / 10)) /\ finite (dat U 0 0) /\ 10 ^ 15 < val (dat U 0 0).
Proof.
  intros c X Y s.
  assert (T : match d_norm_transform s X, d_norm_transform s Y with Ok Z, Ok U => (forallb (fun n => is_finite (dat Z n 0) && dltb (dat Z n 0) (literal (-91) 2)) [0; 1; 2]%nat && is_finite (dat U 0 0) && dltb (dint (10 ^ 15)) (dat U 0 0))%bool | _, _ => false end = true) by (destruct reciprocal; vm_compute; reflexivity).
  destruct (d_norm_transform s X) as [Z| | | |]; try discriminate T. destruct (d_norm_transform s Y) as [U| | | |]; try discriminate T. exists Z, U. split; [reflexivity|]. split; [reflexivity|]. apply andb_prop in T as (T & T3). apply andb_prop in T as (T1 & T2).
  split.
  - intros n Hn. rewrite forallb_forall in T1. specialize (T1 n). assert (I : In n [0; 1; 2]%nat) by (destruct n as [|[|[|]]]; cbn; lia). apply T1 in I. apply andb_prop in I as (A1 & A4). split; [exact A1|].
    assert (FL : finite (literal (-91) 2)) by (vm_compute; reflexivity). apply ltb_true in A4; [|exact A1|exact FL]. destruct (int_ok (-91)) as (G1 & G2); [lia|]. destruct (int_ok 100) as (K1 & K2); [lia|].
    assert (M : Rabs (val (dint (-91)) / val (dint 100)) <= maxDouble). { rewrite G2, K2. apply small_max. apply Rabs_le. assert (1 <= 2 ^ 100) by (apply pow_R1_Rle; lra). lra. }
    pose proof (div_ok (dint (-91)) (dint 100) G1 ltac:(rewrite K2; lra) M) as F. change (ddiv (dint (-91)) (dint 100)) with (literal (-91) 2) in F. pose proof (faithful_err _ _ F M) as E. rewrite G2, K2 in E. pose proof eps_ten as ET. pose proof eps_pos as EP. rewrite (Rabs_left (-91 / 100)) in E by lra.
    assert (TY : tiny <= / 1024). { rewrite tiny_pow. apply Rinv_le_contravar; [lra|]. apply Rle_trans with (2 ^ 10); [lra|]. apply Rle_pow; [lra|lia]. } apply Rabs_le_inv in E. lra.
  - split; [exact T2|]. destruct (int_ok (10 ^ 15)) as (G1 & G2); [lia|]. generalize dependent (dint (10 ^ 15)). intros g T3 G1 G2. apply ltb_true in T3; [|exact G1|exact T2]. rewrite G2 in T3. replace (10 ^ 15) with (IZR (10 ^ 15)) by (symmetry; exact (pow_IZR 10 15)). exact T3.
Qed.

(** A case that meets the hypotheses of C111_fit and C111_transform: the feature 1, 2, 3. *)
Example C111_case reciprocal : let X := mkDmat 3 1 (fun n _ => dint (Z.of_nat n + 1)) in let s := d_norm_fit reciprocal (fun _ => leftSum) X in
  exists m u Z, dmean s = [m] /\ dstd s = [u] /\ Rabs (val m - 2) <= / 10 ^ 13 /\ 0 < val u /\ Rabs (val u ^ 2 - 2 / 3) <= / 10 ^ 12 /\ d_norm_transform s X = Ok Z /\ finite (dat Z 2 0).
Proof.
  intros X s. assert (W : within X 3). { intros n d Hn Hd. cbn [X drows] in Hn. cbn [X dat]. destruct (int_ok (Z.of_nat n + 1)) as (F & V); [lia|]. split; auto. rewrite V, <- abs_IZR. apply IZR_le. lia. }
  assert (R : someRows X) by (split; cbn; lia). assert (B : 3 <= 2 ^ 30) by (apply Rle_trans with (2 ^ 2); [lra|apply Rle_pow; [lra|lia]]).
  assert (V : forall n, (n < 3)%nat -> val (dint (Z.of_nat n + 1)) = INR n + 1). { intros n H. destruct (int_ok (Z.of_nat n + 1)) as (_ & V); [lia|]. rewrite V, plus_IZR, <- INR_IZR_INZ. reflexivity. }
  assert (EM : exactMean X 0 = 2). { unfold exactMean. cbn [X drows dat seq map]. unfold total. cbn [fold_right]. rewrite !V by lia. cbn [INR]. field. }
  assert (EV : exactVariance X 0 = 2 / 3). { unfold exactVariance. rewrite EM. cbn [X drows dat seq map]. unfold total. cbn [fold_right]. rewrite !V by lia. cbn [INR]. field. }
  destruct (C111_fit reciprocal (fun _ => leftSum) X 3) as (L1 & L2 & H); auto; [intros; apply leftSum_ok|]. destruct (H 0%nat) as (m & u & N1 & N2 & Fm & Em & Fu & Pu & Eu); [cbn; lia|]. fold s in L1, L2, N1, N2.
  destruct (C111_transform reciprocal (fun _ => leftSum) X X 3) as (Z & E & _ & _ & T); auto; [intros; apply leftSum_ok|intros n d A1 A2; destruct (W n d A1 A2); split; auto; lra|]. fold s in E, T.
  exists m, u, Z. destruct (dmean s) as [|m' [|]]; try discriminate L1. destruct (dstd s) as [|u' [|]]; try discriminate L2. cbn in N1, N2. injection N1 as ->. injection N2 as ->. split; auto. split; auto. rewrite EM, EV in *. cbn [X drows] in Em, Eu. replace (INR 3) with 3 in * by (cbn; ring).
  assert (TY : / 2 ^ 1074 <= / 2 ^ 60) by (apply Rinv_le_contravar; [apply pow_lt; lra|apply Rle_pow; [lra|lia]]). assert (T0 : 0 < / 2 ^ 1074) by (apply Rinv_0_lt_compat, pow_lt; lra). set (ty := / 2 ^ 1074) in *. clearbody ty. set (de := (2 * 3 + 2) * / 2 ^ 52 * 3 + ty) in *.
  assert (DE : 0 <= de <= / 10 ^ 14) by (unfold de; split; lra). assert (D2 : de ^ 2 <= / 10 ^ 14) by (cbn [pow]; nra). split; [lra|]. split; [exact Pu|]. split.
  - destruct Eu as [(_ & E2)|E2]; [exfalso; lra|]. apply Rle_trans with (1 := E2). lra.
  - split; [exact E|]. apply (T 2%nat 0%nat m u); auto.
Qed.

(** Also a constant feature: 2.5 four times. *)
Example C111_case_constant reciprocal : let c := ddiv (dint 5) (dint 2) in let X := mkDmat 4 1 (fun _ _ => c) in
  exists Z, d_norm_transform (d_norm_fit reciprocal (fun _ => leftSum) X) X = Ok Z /\ forall n, (n < 4)%nat -> finite (dat Z n 0) /\ val (dat Z n 0) = 0.
Proof.
  intros c X. destruct (int_ok 5) as (F5 & V5); [lia|]. destruct (int_ok 2) as (F2 & V2); [lia|]. destruct (dyadic 5 1) as (Fd & Vd & Md); [lia|lia|]. assert (E : val (dint 5) / val (dint 2) = IZR 5 / 2 ^ 1) by (rewrite V5, V2; field).
  assert (M : Rabs (val (dint 5) / val (dint 2)) <= maxDouble) by (rewrite E; exact Md). pose proof (div_ok (dint 5) (dint 2) F5 ltac:(rewrite V2; lra) M) as F.
  assert (V : val c = IZR 5 / 2 ^ 1) by (rewrite <- E; apply (faithful_exact _ _ _ F Fd); now rewrite E).
  apply (C111_constant_partial reciprocal (fun _ => leftSum) X 0 5 1); [intros; apply leftSum_ok|split; cbn; lia|cbn; lia|intros n _; split; [apply F|exact V]|lia|cbn; lia].
Qed.

Print Assumptions C111_fit.
Print Assumptions C111_transform.
Print Assumptions C111_constant_partial.
Print Assumptions C111_constant_refuted.
