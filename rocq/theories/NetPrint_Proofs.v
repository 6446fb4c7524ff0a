(** Rounding to six significant digits, as an example of what [printing] (NetIO_Spec.v) describes. *)
From Coq Require Import String.
From Verif Require Import Base BaseFacts NetIO_Spec.
Local Open Scope R_scope.

(** * Rounding to six digits meets the specification of [printing] *)
Definition roundZ (y : R) : Z := Zfloor (y + 1 / 2).
Definition expo (x : R) : Z := (Zfloor (ln (Rabs x) / ln 10) - 5)%Z.
Definition prt6 (x : R) : R := if Reqb x 0 then 0 else IZR (roundZ (x * powerRZ 10 (- expo x))) * powerRZ 10 (expo x).

Lemma Zfloor_bounds x : IZR (Zfloor x) <= x < IZR (Zfloor x) + 1.
Proof. unfold Zfloor. pose proof (base_Int_part x). lra. Qed.
Lemma p10 e : 0 < powerRZ 10 e.
Proof. apply powerRZ_lt. lra. Qed.
Lemma p10_add a b : powerRZ 10 (a + b) = powerRZ 10 a * powerRZ 10 b.
Proof. apply powerRZ_add. lra. Qed.
Lemma p10_inv a : powerRZ 10 a * powerRZ 10 (- a) = 1.
Proof. rewrite <- p10_add, Z.add_opp_diag_r. reflexivity. Qed.
Lemma p10_Z n : (0 <= n)%Z -> powerRZ 10 n = IZR (10 ^ n).
Proof. intros H. destruct n as [|n|n]; try lia; auto. cbn [powerRZ]. rewrite <- (positive_nat_Z n), pow_IZR. reflexivity. Qed.
Lemma p10_le a b : (a <= b)%Z -> powerRZ 10 a <= powerRZ 10 b.
Proof.
  intros H. replace b with (a + (b - a))%Z by lia. rewrite p10_add. rewrite <- (Rmult_1_r (powerRZ 10 a)) at 1.
  apply Rmult_le_compat_l; [left; apply p10|]. rewrite p10_Z by lia. apply IZR_le. pose proof (Z.pow_pos_nonneg 10 (b - a)). lia.
Qed.
Lemma powerRZ_exp e : powerRZ 10 e = exp (IZR e * ln 10).
Proof. rewrite powerRZ_Rpower by lra. reflexivity. Qed.

Lemma expo_bounds x : x <> 0 -> powerRZ 10 (expo x + 5) <= Rabs x < powerRZ 10 (expo x + 6).
Proof.
  intros H. assert (HA : 0 < Rabs x) by now apply Rabs_pos_lt. pose proof (exp_ln _ HA) as EL.
  assert (L10 : 0 < ln 10) by (rewrite <- ln_1; apply ln_increasing; lra).
  pose proof (Zfloor_bounds (ln (Rabs x) / ln 10)) as (B1 & B2).
  assert (HQ : ln (Rabs x) / ln 10 * ln 10 = ln (Rabs x)) by (field; lra).
  unfold expo. rewrite !powerRZ_exp. rewrite <- EL at 2 3.
  replace (Zfloor (ln (Rabs x) / ln 10) - 5 + 5)%Z with (Zfloor (ln (Rabs x) / ln 10)) by lia.
  replace (Zfloor (ln (Rabs x) / ln 10) - 5 + 6)%Z with (Zfloor (ln (Rabs x) / ln 10) + 1)%Z by lia. rewrite plus_IZR. split.
  - destruct (Rle_lt_or_eq_dec _ _ B1) as [B|B].
    + left. apply exp_increasing. apply (Rmult_lt_compat_r (ln 10)) in B; auto. lra.
    + right. f_equal. rewrite B. exact HQ.
  - apply exp_increasing. apply (Rmult_lt_compat_r (ln 10)) in B2; auto. lra.
Qed.

Lemma round_close y : Rabs (IZR (roundZ y) - y) <= 1 / 2.
Proof. unfold roundZ. pose proof (Zfloor_bounds (y + 1 / 2)). apply Rabs_le. lra. Qed.
Lemma round_Z z : roundZ (IZR z) = z.
Proof. unfold roundZ, Zfloor. apply Int_part_spec. lra. Qed.

Lemma scaled x : x <> 0 -> IZR (10 ^ 5) <= Rabs (x * powerRZ 10 (- expo x)) < IZR (10 ^ 6).
Proof.
  intros H. pose proof (expo_bounds x H) as (B1 & B2). rewrite Rabs_mult, (Rabs_right (powerRZ _ _)) by (left; apply p10).
  pose proof (p10 (- expo x)) as HP. rewrite p10_add in B1, B2. rewrite (p10_Z 5) in B1 by lia. rewrite (p10_Z 6) in B2 by lia.
  pose proof (p10_inv (expo x)). split.
  - apply Rle_trans with (powerRZ 10 (expo x) * IZR (10 ^ 5) * powerRZ 10 (- expo x)); [|now apply Rmult_le_compat_r; [left|]].
    right. rewrite <- (Rmult_1_l (IZR (10 ^ 5))) at 1. rewrite <- H0. ring.
  - apply Rlt_le_trans with (powerRZ 10 (expo x) * IZR (10 ^ 6) * powerRZ 10 (- expo x)); [now apply Rmult_lt_compat_r|].
    right. rewrite <- (Rmult_1_l (IZR (10 ^ 6))) at 2. rewrite <- H0. ring.
Qed.

Lemma prt6_printing : printing prt6.
Proof.
  constructor.
  - intros x. unfold prt6. destruct (Reqb x 0) eqn:E0.
    { exists 0%Z, 0%Z. split; [reflexivity|]. simpl. ring. }
    apply Reqb_false in E0. pose proof (scaled x E0) as (B1 & B2). set (y := x * powerRZ 10 (- expo x)) in *.
    pose proof (round_close y) as RC. set (m := roundZ y) in *.
    assert (HM : (Z.abs m <= 10 ^ 6)%Z).
    { apply Znot_gt_le. intros H. assert (H1 : (10 ^ 6 + 1 <= Z.abs m)%Z) by lia. apply IZR_le in H1. rewrite plus_IZR, abs_IZR in H1.
      pose proof (Rabs_triang_inv (IZR m) y). lra. }
    destruct (Z.eq_dec (Z.abs m) (10 ^ 6)) as [HE|HE]; [|exists m, (expo x); split; [lia|reflexivity]].
    exists (Z.sgn m), (expo x + 6)%Z. split; [destruct m; simpl; lia|]. rewrite p10_add, (p10_Z 6) by lia.
    rewrite <- HE. rewrite <- Rmult_assoc, (Rmult_comm (IZR (Z.sgn m))), Rmult_assoc, <- mult_IZR, (Z.mul_comm (Z.sgn m)), <- Z.sgn_abs, Rmult_comm.
    do 2 f_equal. rewrite Z.sgn_abs. lia.
  - intros x (m & k & Hm & Hx). unfold prt6. destruct (Reqb x 0) eqn:E0. { apply Reqb_true in E0. now symmetry. }
    apply Reqb_false in E0. pose proof (expo_bounds x E0) as (B1 & B2).
    assert (HK : (expo x <= k)%Z).
    { apply Znot_gt_le. intros H. assert (C : Rabs x < powerRZ 10 (expo x + 5)); [|lra].
      apply Rlt_le_trans with (powerRZ 10 (k + 6)); [|apply p10_le; lia].
      rewrite Hx, Rabs_mult, (Rabs_right (powerRZ _ _)) by (left; apply p10). rewrite p10_add, (p10_Z 6), Rmult_comm by lia.
      apply Rmult_lt_compat_l; [apply p10|]. rewrite <- abs_IZR. now apply IZR_lt. }
    assert (HY : x * powerRZ 10 (- expo x) = IZR (m * 10 ^ (k - expo x))).
    { rewrite mult_IZR, <- p10_Z by lia. rewrite Hx, Rmult_assoc, <- p10_add. f_equal. }
    rewrite HY, round_Z, <- HY, Rmult_assoc, (Rmult_comm (powerRZ 10 (- expo x))), p10_inv. ring.
  - intros x. unfold prt6. destruct (Reqb x 0) eqn:E0. { apply Reqb_true in E0. subst. rewrite Rminus_0_r, Rabs_R0. lra. }
    apply Reqb_false in E0. pose proof (scaled x E0) as (B1 & B2). set (y := x * powerRZ 10 (- expo x)) in *.
    assert (HX : x = y * powerRZ 10 (expo x)). { unfold y. rewrite Rmult_assoc, (Rmult_comm (powerRZ 10 (- expo x))), p10_inv. ring. }
    rewrite HX at 2 3. rewrite <- Rmult_minus_distr_r, !Rabs_mult, (Rabs_right (powerRZ _ _)) by (left; apply p10).
    rewrite <- Rmult_assoc. apply Rmult_le_compat_r; [left; apply p10|]. pose proof (round_close y). simpl in B1. lra.
Qed.
