(** Proofs about double precision. *)
From Coq Require Import Permutation Lra Lia Psatz.
From Flocq Require Import Core BinarySingleNaN.
From Verif Require Import Base Float_Model Float_Spec.
Local Open Scope R_scope.

Notation fexp64 := (SpecFloat.fexp 53 1024).
Notation fmt := (generic_format radix2 fexp64).

#[global] Instance valid64 : Valid_exp fexp64 := fexp_correct 53 1024 _.

Definition largest : double := @B754_finite 53 1024 false 9007199254740991 971 eq_refl.
Lemma bpow_pow n : bpow radix2 (Z.of_nat n) = 2 ^ n.
Proof. rewrite bpow_powerRZ. change (IZR radix2) with 2. symmetry. apply pow_powerRZ. Qed.
Lemma largest_val : val largest = maxDouble.
Proof.
  unfold val, largest, maxDouble. cbn [B2R cond_Zopp]. unfold F2R. cbn [Fnum Fexp]. change (bpow radix2 971) with (bpow radix2 (Z.of_nat 971)). rewrite bpow_pow.
  replace 1024%nat with (53 + 971)%nat by reflexivity. rewrite pow_add. change (Z.pos 9007199254740991) with (2 ^ Z.of_nat 53 - 1)%Z. rewrite minus_IZR, <- (pow_IZR 2 53). ring.
Qed.
Lemma val_fmt x : fmt (val x).
Proof. apply generic_format_B2R. Qed.
Lemma max_lt : maxDouble < bpow radix2 1024.
Proof. change 1024%Z with (Z.of_nat 1024). rewrite bpow_pow. unfold maxDouble. assert (0 < 2 ^ 971) by (apply pow_lt; lra). lra. Qed.

Lemma round_faithful rnd {V : Valid_rnd rnd} y r : finite y -> val y = round radix2 fexp64 rnd r -> faithful y r.
Proof.
  intros F E. split; auto. intros d Fd. rewrite E. split; intros H; [apply round_le_generic|apply round_ge_generic]; auto using val_fmt; exact _.
Qed.
Lemma round_small r : Rabs r <= maxDouble -> Rabs (round radix2 fexp64 (round_mode mode_NE) r) < bpow radix2 1024.
Proof.
  intros H. apply Rle_lt_trans with maxDouble; [|apply max_lt]. apply abs_round_le_generic; try exact _; [|exact H]. rewrite <- largest_val. apply val_fmt.
Qed.
Lemma plus_ok x y : finite x -> finite y -> Rabs (val x + val y) <= maxDouble -> faithful (dplus x y) (val x + val y).
Proof.
  intros Fx Fy H. pose proof (Bplus_correct 53 1024 _ _ mode_NE x y Fx Fy) as C. rewrite Rlt_bool_true in C by now apply round_small. destruct C as (C1 & C2 & _). eapply round_faithful; [|exact C2|exact C1]. exact _.
Qed.
Lemma minus_ok x y : finite x -> finite y -> Rabs (val x - val y) <= maxDouble -> faithful (dminus x y) (val x - val y).
Proof.
  intros Fx Fy H. pose proof (Bminus_correct 53 1024 _ _ mode_NE x y Fx Fy) as C. rewrite Rlt_bool_true in C by now apply round_small. destruct C as (C1 & C2 & _). eapply round_faithful; [|exact C2|exact C1]. exact _.
Qed.
Lemma mult_ok x y : finite x -> finite y -> Rabs (val x * val y) <= maxDouble -> faithful (dmult x y) (val x * val y).
Proof.
  intros Fx Fy H. pose proof (Bmult_correct 53 1024 _ _ mode_NE x y) as C. rewrite Rlt_bool_true in C by now apply round_small. destruct C as (C1 & C2 & _). red in Fx, Fy. rewrite Fx, Fy in C2. eapply round_faithful; [|exact C2|exact C1]. exact _.
Qed.
Lemma div_ok x y : finite x -> val y <> 0 -> Rabs (val x / val y) <= maxDouble -> faithful (ddiv x y) (val x / val y).
Proof.
  intros Fx Fy H. pose proof (Bdiv_correct 53 1024 _ _ mode_NE x y Fy) as C. rewrite Rlt_bool_true in C by now apply round_small. destruct C as (C1 & C2 & _). red in Fx. rewrite Fx in C2. eapply round_faithful; [|exact C2|exact C1]. exact _.
Qed.
Lemma opp_ok x : finite x -> finite (dopp x) /\ val (dopp x) = - val x.
Proof. intros F. split; [unfold finite, dopp; now rewrite is_finite_Bopp|apply B2R_Bopp]. Qed.
Lemma ltb_true x y : finite x -> finite y -> dltb x y = true <-> val x < val y.
Proof. intros Fx Fy. unfold dltb. rewrite Bltb_correct by auto. unfold val. case Rlt_bool_spec; intros; split; auto; try discriminate; lra. Qed.
Lemma ltb_false x y : finite x -> finite y -> dltb x y = false <-> val y <= val x.
Proof. intros Fx Fy. unfold dltb. rewrite Bltb_correct by auto. unfold val. case Rlt_bool_spec; intros; split; auto; try discriminate; lra. Qed.

(** integers up to 2 ^ 53 *)
Lemma int_ok z : (Z.abs z <= 2 ^ 53)%Z -> finite (dint z) /\ val (dint z) = IZR z.
Proof.
  intros H. unfold dint. pose proof (binary_normalize_correct 53 1024 _ _ mode_NE z 0 false) as C. cbv zeta in C.
  assert (E : F2R (Float radix2 z 0) = IZR z) by (unfold F2R; cbn; ring).
  assert (G : fmt (IZR z)).
  { rewrite <- E. destruct (Z.eq_dec (Z.abs z) (2 ^ 53)) as [B|B].
    - assert (z = 2 ^ 53 \/ z = - 2 ^ 53)%Z as [->| ->] by lia.
      + replace (F2R (Float radix2 (2 ^ 53) 0)) with (bpow radix2 53) by (unfold F2R; cbn; ring). apply generic_format_bpow. cbn. lia.
      + replace (F2R (Float radix2 (- 2 ^ 53) 0)) with (- bpow radix2 53) by (unfold F2R; cbn; ring). apply generic_format_opp, generic_format_bpow. cbn. lia.
    - apply generic_format_FLT. exists (Float radix2 z 0); auto; cbn; lia. }
  rewrite E in C. rewrite round_generic in C; [|exact _|exact G]. rewrite Rlt_bool_true in C.
  - destruct C as (C1 & C2 & _). split; [exact C2|exact C1].
  - rewrite <- abs_IZR. apply Rle_lt_trans with (IZR (2 ^ 53)); [now apply IZR_le|]. change (IZR (2 ^ 53)) with (bpow radix2 53). now apply bpow_lt.
Qed.
Lemma faithful_range y r a b : faithful y r -> finite a -> finite b -> val a <= r <= val b -> val a <= val y <= val b.
Proof. intros (_ & H) Fa Fb (H1 & H2). split; [now apply (H a)|now apply (H b)]. Qed.
Lemma faithful_ints y r a b : faithful y r -> (Z.abs a <= 2 ^ 53)%Z -> (Z.abs b <= 2 ^ 53)%Z -> IZR a <= r <= IZR b -> IZR a <= val y <= IZR b.
Proof. intros H Ha Hb H1. destruct (int_ok a Ha) as (A1 & A2), (int_ok b Hb) as (B1 & B2). rewrite <- A2, <- B2. apply (faithful_range y r); auto. now rewrite A2, B2. Qed.
Lemma faithful_exact y r d : faithful y r -> finite d -> val d = r -> val y = r.
Proof. intros (_ & H) F E. destruct (H d F) as (H1 & H2). rewrite <- E. apply Rle_antisym; [apply H1|apply H2]; lra. Qed.
Lemma max_big : 2 ^ 100 <= maxDouble.
Proof.
  unfold maxDouble. replace 1024%nat with (53 + 971)%nat by reflexivity. rewrite (pow_add 2 53 971). replace 971%nat with (100 + 871)%nat by reflexivity. rewrite (pow_add 2 100 871).
  assert (1 <= 2 ^ 871) by (apply pow_R1_Rle; lra). assert (0 < 2 ^ 100) by (apply pow_lt; lra). assert (2 <= 2 ^ 53). { replace 53%nat with (1 + 52)%nat by reflexivity. rewrite pow_add. assert (1 <= 2 ^ 52) by (apply pow_R1_Rle; lra). lra. } nra.
Qed.
Lemma small_max r : Rabs r <= 2 ^ 100 -> Rabs r <= maxDouble.
Proof. intros H. pose proof max_big. lra. Qed.

(** * Every real number has a closest double *)
Definition double_of (r : R) : double :=
  binary_normalize 53 1024 _ _ mode_NE (ZnearestE (scaled_mantissa radix2 fexp64 r)) (cexp radix2 fexp64 r) false.
Lemma double_of_ok r : Rabs r <= maxDouble -> finite (double_of r) /\ val (double_of r) = round radix2 fexp64 ZnearestE r.
Proof.
  intros H. pose proof (binary_normalize_correct 53 1024 _ _ mode_NE (ZnearestE (scaled_mantissa radix2 fexp64 r)) (cexp radix2 fexp64 r) false) as C. cbv zeta in C.
  change (F2R (Float radix2 (ZnearestE (scaled_mantissa radix2 fexp64 r)) (cexp radix2 fexp64 r))) with (round radix2 fexp64 ZnearestE r) in C.
  rewrite (round_generic radix2 fexp64 _ (round radix2 fexp64 ZnearestE r)) in C by (apply generic_format_round; exact _).
  rewrite Rlt_bool_true in C by now apply round_small. destruct C as (C1 & C2 & _). split; [exact C2|exact C1].
Qed.
Lemma double_of_fmt r : Rabs r <= maxDouble -> fmt r -> finite (double_of r) /\ val (double_of r) = r.
Proof. intros H F. destruct (double_of_ok r H) as (H1 & H2). rewrite round_generic in H2 by (auto; exact _). auto. Qed.
Lemma max_fmt : fmt maxDouble.
Proof. rewrite <- largest_val. apply val_fmt. Qed.
Lemma double_of_faithful r : Rabs r <= maxDouble -> faithful (double_of r) r.
Proof. intros H. destruct (double_of_ok r H) as (H1 & H2). eapply round_faithful; [|exact H1|exact H2]. exact _. Qed.
Lemma double_of_nearest r : Rabs r <= maxDouble -> nearest (double_of r) r.
Proof.
  intros H. destruct (double_of_ok r H) as (H1 & H2). split; auto. intros d Fd. rewrite H2. pose proof (round_N_pt radix2 fexp64 (fun x => negb (Z.even x)) r) as (_ & N). apply N, val_fmt.
Qed.

(** * The distance of a neighbour *)
Lemma faithful_ulp y r : faithful y r -> Rabs r <= maxDouble -> Rabs (val y - r) <= ulp radix2 fexp64 r.
Proof.
  intros F H. assert (M : fmt (round radix2 fexp64 Raux.Zfloor r) /\ fmt (round radix2 fexp64 Raux.Zceil r)) by (split; apply generic_format_round; exact _). destruct M as (M1 & M2).
  destruct (double_of_fmt (round radix2 fexp64 Raux.Zfloor r)) as (A1 & A2); auto. { apply abs_round_le_generic; try exact _; auto using max_fmt. }
  destruct (double_of_fmt (round radix2 fexp64 Raux.Zceil r)) as (B1 & B2); auto. { apply abs_round_le_generic; try exact _; auto using max_fmt. }
  pose proof (round_DN_pt radix2 fexp64 r) as (_ & D1 & _). pose proof (round_UP_pt radix2 fexp64 r) as (_ & U1 & _).
  destruct (faithful_range y r _ _ F A1 B1) as (L1 & L2); [rewrite A2, B2; auto|]. rewrite A2 in L1. rewrite B2 in L2.
  destruct (Req_dec (round radix2 fexp64 Raux.Zfloor r) r) as [E|E].
  - assert (Fr : fmt r) by (rewrite <- E; auto). rewrite (round_generic radix2 fexp64 Raux.Zceil r) in L2 by (auto; exact _). rewrite E in L1. pose proof (ulp_ge_0 radix2 fexp64 r). rewrite Rabs_pos_eq; lra.
  - assert (NF : ~ fmt r) by (intros Fr; apply E; now apply round_generic; try exact _). rewrite (round_UP_DN_ulp radix2 fexp64 r NF) in L2, U1. apply Rabs_le. lra.
Qed.
Definition eps : R := / 2 ^ 52.
Lemma eps_pos : 0 < eps.
Proof. apply Rinv_0_lt_compat, pow_lt. lra. Qed.
Definition tiny : R := bpow radix2 (-1074).
Lemma faithful_err y r : faithful y r -> Rabs r <= maxDouble -> Rabs (val y - r) <= eps * Rabs r + tiny.
Proof.
  intros F H. apply Rle_trans with (1 := faithful_ulp y r F H). destruct (Rle_lt_dec (bpow radix2 (-1074 + 53 - 1)) (Rabs r)) as [L|L].
  - apply Rle_trans with (Rabs r * bpow radix2 (1 - 53)). { apply (ulp_FLT_le radix2 (-1074) 53 r). exact L. }
    change (1 - 53)%Z with (- Z.of_nat 52)%Z. rewrite bpow_opp, bpow_pow. fold eps. pose proof (bpow_ge_0 radix2 (-1074)). unfold tiny. lra.
  - change fexp64 with (FLT_exp (-1074) 53). rewrite (ulp_FLT_small radix2 (-1074) 53 r) by (apply Rlt_trans with (1 := L), bpow_lt; lia). fold tiny. pose proof eps_pos. pose proof (Rabs_pos r). nra.
Qed.
Lemma tiny_pos : 0 < tiny.
Proof. apply bpow_gt_0. Qed.
Lemma tiny_small : tiny <= / 2 ^ 200.
Proof.
  unfold tiny. change (-1074)%Z with (- Z.of_nat 1074)%Z. rewrite bpow_opp, bpow_pow. apply Rinv_le; [apply pow_lt; lra|]. apply Rle_pow; [lra|lia].
Qed.
