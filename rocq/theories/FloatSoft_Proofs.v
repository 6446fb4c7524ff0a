(** Proofs about softmax and the cross entropy in double precision. *)
From Coq Require Import Permutation Lra Lia Psatz.
From Flocq Require Import Core BinarySingleNaN Plus_error.
From Verif Require Import Base BaseFacts Activation_Model Float_Model Float_Spec Float_Proofs FloatAct_Proofs.
Local Open Scope R_scope.
Opaque eps tiny maxDouble literal dint.

(** * Addition and subtraction have a small relative error *)
Lemma plus_round x y : finite x -> finite y -> Rabs (val x + val y) <= maxDouble -> val (dplus x y) = round radix2 fexp64 ZnearestE (val x + val y).
Proof.
  intros Fx Fy H. pose proof (Bplus_correct 53 1024 _ _ mode_NE x y Fx Fy) as C. rewrite Rlt_bool_true in C by now apply round_small. apply C.
Qed.
Lemma minus_round x y : finite x -> finite y -> Rabs (val x - val y) <= maxDouble -> val (dminus x y) = round radix2 fexp64 ZnearestE (val x - val y).
Proof.
  intros Fx Fy H. pose proof (Bminus_correct 53 1024 _ _ mode_NE x y Fx Fy) as C. rewrite Rlt_bool_true in C by now apply round_small. apply C.
Qed.
Lemma div_round x y : finite x -> val y <> 0 -> Rabs (val x / val y) <= maxDouble -> val (ddiv x y) = round radix2 fexp64 ZnearestE (val x / val y).
Proof.
  intros Fx Fy H. pose proof (Bdiv_correct 53 1024 _ _ mode_NE x y Fy) as C. rewrite Rlt_bool_true in C by now apply round_small. apply C.
Qed.
Lemma sum_rel a b s : fmt a -> fmt b -> faithful s (a + b) -> Rabs (a + b) <= maxDouble -> Rabs (val s - (a + b)) <= eps * Rabs (a + b).
Proof.
  intros Fa Fb H M. pose proof eps_pos. pose proof (Rabs_pos (a + b)). destruct (Rle_dec (Rabs (a + b)) (bpow radix2 (53 + -1074))) as [L|L].
  - assert (G : fmt (a + b)) by (apply (FLT_format_plus_small radix2 (-1074) 53); auto). destruct (double_of_fmt _ M G) as (D1 & D2). rewrite (faithful_exact _ _ _ H D1 D2). rewrite Rminus_eq_0, Rabs_R0. apply Rmult_le_pos; lra.
  - apply Rle_trans with (1 := faithful_ulp s _ H M). apply Rle_trans with (Rabs (a + b) * bpow radix2 (1 - 53)).
    + apply (ulp_FLT_le radix2 (-1074) 53). apply Rle_trans with (bpow radix2 (53 + -1074)); [apply bpow_le; lia|lra].
    + change (1 - 53)%Z with (- Z.of_nat 52)%Z. rewrite bpow_opp, bpow_pow. Transparent eps. unfold eps. Opaque eps. lra.
Qed.
Lemma plus_rel x y : finite x -> finite y -> Rabs (val x + val y) <= maxDouble -> Rabs (val (dplus x y) - (val x + val y)) <= eps * Rabs (val x + val y).
Proof. intros Fx Fy H. apply sum_rel; auto using val_fmt. now apply plus_ok. Qed.
Lemma minus_rel x y : finite x -> finite y -> Rabs (val x - val y) <= maxDouble -> Rabs (val (dminus x y) - (val x - val y)) <= eps * Rabs (val x - val y).
Proof. intros Fx Fy H. pose proof (minus_ok x y Fx Fy H) as M. unfold Rminus at 2 3. apply sum_rel; auto using val_fmt, generic_format_opp. Qed.

(** y - max for y <= max: finite, or minus infinity *)
Lemma sign_pos x : finite x -> Bsign x = false -> 0 <= val x.
Proof. unfold val. intros F H. destruct x as [[]|[]| |[] mx ex Hx]; try discriminate; cbn [B2R]; try lra. apply F2R_ge_0. cbn [Fnum cond_Zopp]. lia. Qed.
Lemma sign_neg x : finite x -> Bsign x = true -> val x <= 0.
Proof. unfold val. intros F H. destruct x as [[]|[]| |[] mx ex Hx]; try discriminate; cbn [B2R]; try lra. apply F2R_le_0. cbn [Fnum cond_Zopp]. lia. Qed.
Lemma diff x y : finite x -> finite y -> val x <= val y ->
  (finite (dminus x y) /\ val (dminus x y) = round radix2 fexp64 ZnearestE (val x - val y)) \/ (dminus x y = B754_infinity true /\ maxDouble <= val y - val x /\ bpow radix2 1024 <= - round radix2 fexp64 ZnearestE (val x - val y)).
Proof.
  intros Fx Fy H. pose proof (Bminus_correct 53 1024 _ _ mode_NE x y Fx Fy) as C. destruct (Rlt_bool_spec (Rabs (round radix2 fexp64 (round_mode mode_NE) (B2R x - B2R y))) (bpow radix2 1024)) as [S|S]; [left; split; apply C|].
  right. fold (val x) (val y) in *. cbn [round_mode] in S. assert (L : maxDouble <= val y - val x).
  { destruct (Rle_dec maxDouble (val y - val x)) as [|G]; auto. exfalso. assert (B : Rabs (val x - val y) <= maxDouble) by (rewrite Rabs_left1 by lra; lra). pose proof (round_small _ B) as Q. cbn [round_mode] in Q. lra. }
  pose proof max_big as MB. assert (MB' : 1 <= 2 ^ 100) by (apply pow_R1_Rle; lra). split; [|split; auto].
  - destruct C as (C1 & C2). assert (N : Bsign x = true).
    { destruct (Bsign x) eqn:E; auto. symmetry in C2. apply Bool.negb_false_iff in C2. pose proof (sign_pos x Fx E). pose proof (sign_neg y Fy C2). lra. }
    rewrite N in C1. unfold binary_overflow in C1. cbn in C1. fold (dminus x y) in C1. destruct (dminus x y) as [|[]| |]; try discriminate. auto.
  - rewrite Rabs_left1 in S; auto. apply round_le_generic; [exact _|exact _|apply generic_format_0|lra].
Qed.

(** * Sums in any order *)
Lemma total_app l k : total (l ++ k) = total l + total k.
Proof. unfold total. induction l as [|a l IH]; cbn [fold_right app]; [ring|rewrite IH; ring]. Qed.
Lemma total_perm l k : Permutation l k -> total l = total k.
Proof. unfold total. induction 1; cbn [fold_right]; lra. Qed.
Lemma total_pos l : (forall x, In x l -> 0 <= x) -> 0 <= total l.
Proof. unfold total. induction l as [|a l IH]; intros H; cbn [fold_right]; [lra|]. pose proof (H a (or_introl eq_refl)). pose proof (IH (fun x Q => H x (or_intror Q))). lra. Qed.
Lemma total_ge l x : (forall x, In x l -> 0 <= x) -> In x l -> x <= total l.
Proof.
  intros H I. apply in_split in I as (l1 & l2 & ->). rewrite total_app. cbn [total fold_right]. fold (total l2).
  assert (0 <= total l1) by (apply total_pos; intros; apply H, in_or_app; auto). assert (0 <= total l2) by (apply total_pos; intros; apply H, in_or_app; right; now right). lra.
Qed.
Lemma pow_ge x n : 0 <= x -> 1 <= (1 + x) ^ n. Proof. intros. apply pow_R1_Rle. lra. Qed.
Lemma pow_mono x n k : 0 <= x -> (n <= k)%nat -> (1 + x) ^ n <= (1 + x) ^ k. Proof. intros. apply Rle_pow; auto; lra. Qed.
Lemma sums_pos l s : sumsTo l s -> (forall x, In x l -> finite x /\ 0 <= val x <= 1) -> (Z.of_nat (length l) <= 2 ^ 31)%Z ->
  (1 <= length l)%nat /\ finite s /\ 0 <= val s <= IZR (Z.of_nat (length l)) /\ (forall x, In x l -> val x <= val s) /\
  Rabs (val s - total (map val l)) <= ((1 + eps) ^ (length l - 1) - 1) * total (map val l).
Proof.
  induction 1 as [x|l1 a l2 b l H1 IH1 H2 IH2 P]; intros H N.
  - destruct (H x (or_introl eq_refl)) as (F & B). cbn [length map total fold_right]. split; auto. split; auto. split; [|split].
    + cbn [length Z.of_nat]. change (Z.pos (Pos.of_succ_nat 0)) with 1%Z. lra.
    + intros y [->|[]]. lra.
    + cbn [pow Nat.sub]. replace (val x - (val x + 0)) with 0 by ring. rewrite Rabs_R0. lra.
  - pose proof (Permutation_length P) as L. rewrite app_length in L.
    assert (Q : forall x, In x l <-> In x (l1 ++ l2)). { intros x. split; apply Permutation_in; auto. now apply Permutation_sym. }
    destruct IH1 as (L1 & F1 & B1 & G1 & E1); [intros x I; apply H, Q, in_or_app; auto|lia|]. destruct IH2 as (L2 & F2 & B2 & G2 & E2); [intros x I; apply H, Q, in_or_app; auto|lia|].
    assert (LB : IZR (Z.of_nat (length l)) = IZR (Z.of_nat (length l1)) + IZR (Z.of_nat (length l2))) by (rewrite <- plus_IZR; f_equal; lia).
    assert (L31 : IZR (Z.of_nat (length l)) <= 2 ^ 31). { apply IZR_le in N. apply Rle_trans with (1 := N). lra. }
    assert (MB : Rabs (val a + val b) <= maxDouble). { apply small_max. rewrite Rabs_pos_eq by lra. apply Rle_trans with (2 ^ 31); [lra|]. lra. }
    pose proof (plus_ok a b F1 F2 MB) as S. pose proof (plus_rel a b F1 F2 MB) as SR. rewrite (Rabs_pos_eq (val a + val b)) in SR by lra.
    split; [lia|]. split; [apply S|]. split; [|split].
    + rewrite LB. destruct (faithful_ints _ _ 0 (Z.of_nat (length l)) S ltac:(lia)) as (Q1 & Q2); [lia|rewrite LB; lra|]. rewrite LB in Q2. lra.
    + intros x I. apply Q, in_app_or in I as [I|I]; [apply Rle_trans with (val a)|apply Rle_trans with (val b)]; auto; apply (proj2 S); auto; lra.
    + assert (T : total (map val l) = total (map val l1) + total (map val l2)) by (rewrite <- total_app, <- map_app; apply total_perm, Permutation_map, P).
      assert (T1 : 0 <= total (map val l1)). { apply total_pos. intros v I. apply in_map_iff in I as (x & <- & I). apply H, Q, in_or_app; auto. }
      assert (T2 : 0 <= total (map val l2)). { apply total_pos. intros v I. apply in_map_iff in I as (x & <- & I). apply H, Q, in_or_app; auto. }
      rewrite T. set (t1 := total (map val l1)) in *. set (t2 := total (map val l2)) in *. pose proof eps_pos as EP.
      set (k := (length l - 1)%nat) in *. replace k with (Datatypes.S (k - 1)) by lia. cbn [pow].
      pose proof (pow_ge eps (k - 1) ltac:(lra)) as K1. pose proof (pow_mono eps (length l1 - 1) (k - 1) ltac:(lra) ltac:(lia)) as K2. pose proof (pow_mono eps (length l2 - 1) (k - 1) ltac:(lra) ltac:(lia)) as K3.
      set (w := (1 + eps) ^ (k - 1)) in *.
      assert (E1' : Rabs (val a - t1) <= (w - 1) * t1). { apply Rle_trans with (1 := E1). apply Rmult_le_compat_r; lra. }
      assert (E2' : Rabs (val b - t2) <= (w - 1) * t2). { apply Rle_trans with (1 := E2). apply Rmult_le_compat_r; lra. }
      assert (AB : val a + val b <= w * (t1 + t2)). { apply Rabs_le_inv in E1', E2'. lra. }
      assert (eps * (val a + val b) <= eps * (w * (t1 + t2))) by (apply Rmult_le_compat_l; lra).
      apply Rabs_le_inv in E1', E2', SR. apply Rabs_le. lra.
Qed.
Lemma pow_small x n : 0 <= x -> INR n * x <= 1 / 2 -> (1 + x) ^ n - 1 <= 2 * INR n * x.
Proof.
  intros X. induction n as [|n IH]; intros H; [cbn; lra|]. rewrite S_INR in *. cbn [pow]. specialize (IH ltac:(lra)). pose proof (pos_INR n). assert (0 <= INR n * x) by now apply Rmult_le_pos.
  assert ((1 + x) * (1 + x) ^ n <= (1 + x) * (1 + 2 * INR n * x)) by (apply Rmult_le_compat_l; lra). assert (x * (2 * INR n * x) <= x * 1) by (apply Rmult_le_compat_l; lra). lra.
Qed.

(** * Exponentials *)
Lemma exp_pow x n : exp (INR n * x) = exp x ^ n.
Proof. induction n as [|n IH]; [cbn; rewrite Rmult_0_l; apply exp_0|]. rewrite S_INR. cbn [pow]. rewrite <- IH, <- exp_plus. f_equal. ring. Qed.
Lemma exp_low : exp (44 / 64) <= 2.
Proof.
  replace (44 / 64) with (INR 44 * (1 / 64)) by (rewrite INR_IZR_INZ; cbn; lra). rewrite exp_pow. apply Rle_trans with ((64 / 63) ^ 44); [|lra]. apply pow_incr. split; [left; apply exp_pos|].
  assert (H : exp (1 / 64) * exp (- (1 / 64)) = 1) by (rewrite <- exp_plus, Rplus_opp_r; apply exp_0). pose proof (exp_ineq1_le (- (1 / 64))). pose proof (exp_pos (1 / 64)).
  assert (exp (1 / 64) * (63 / 64) <= exp (1 / 64) * exp (- (1 / 64))) by (apply Rmult_le_compat_l; lra). lra.
Qed.
Lemma exp_high : 2 <= exp (45 / 64).
Proof.
  replace (45 / 64) with (INR 45 * (1 / 64)) by (rewrite INR_IZR_INZ; cbn; lra). rewrite exp_pow. apply Rle_trans with ((65 / 64) ^ 45); [lra|]. apply pow_incr. pose proof (exp_ineq1_le (1 / 64)). lra.
Qed.
Lemma exp_le x y : x <= y -> exp x <= exp y.
Proof. intros [H| ->]; [left; now apply exp_increasing|lra]. Qed.
Lemma exp_inv x : exp (- x) = / exp x. Proof. apply exp_Ropp. Qed.
Lemma exp700 : / 2 ^ 1019 <= exp (- (700)).
Proof.
  rewrite exp_inv. apply Rinv_le; [apply exp_pos|]. apply Rle_trans with (exp (INR 1019 * (44 / 64))). { apply exp_le. rewrite INR_IZR_INZ. change (Z.of_nat 1019) with 1019%Z. lra. }
  rewrite exp_pow. apply pow_incr. split; [left; apply exp_pos|apply exp_low].
Qed.
Lemma exp800 : exp (- (800)) <= / 2 ^ 1137.
Proof.
  rewrite exp_inv. apply Rinv_le; [apply pow_lt; lra|]. apply Rle_trans with (exp (INR 1137 * (45 / 64))). { rewrite exp_pow. apply pow_incr. pose proof exp_high. lra. }
  apply exp_le. rewrite INR_IZR_INZ. change (Z.of_nat 1137) with 1137%Z. lra.
Qed.
Lemma tiny_eq : tiny = / 2 ^ 1074.
Proof. Transparent tiny. unfold tiny. Opaque tiny. change (-1074)%Z with (- Z.of_nat 1074)%Z. now rewrite bpow_opp, bpow_pow. Qed.
Lemma eps_eq : eps = / 2 ^ 52. Proof. Transparent eps. reflexivity. Opaque eps. Qed.
Lemma tiny_exp : tiny <= eps * exp (- (700)).
Proof.
  pose proof exp700. pose proof eps_pos. apply Rle_trans with (eps * / 2 ^ 1019); [|apply Rmult_le_compat_l; lra]. rewrite tiny_eq, eps_eq, <- Rinv_mult. apply Rinv_le; [apply Rmult_lt_0_compat; apply pow_lt; lra|].
  rewrite <- pow_add. apply Rle_pow; [lra|]. apply Nat.leb_le. vm_compute. reflexivity.
Qed.
Lemma exp_far : exp (- (2000)) <= eps * exp (- (700)).
Proof.
  replace (- (2000)) with (- (1300) + - (700)) by ring. rewrite exp_plus. apply Rmult_le_compat_r; [left; apply exp_pos|]. rewrite eps_eq, exp_inv. apply Rinv_le; [apply pow_lt; lra|].
  apply Rle_trans with (exp (INR 52 * (45 / 64))). { rewrite exp_pow. apply pow_incr. pose proof exp_high. lra. } apply exp_le. rewrite INR_IZR_INZ. change (Z.of_nat 52) with 52%Z. lra.
Qed.

(** * One row *)
Lemma exp_1 x h : Rabs x <= h -> h <= 1 / 2 -> Rabs (exp x - 1) <= 2 * h.
Proof.
  intros H1 H2. apply Rabs_le_inv in H1. pose proof (exp_ineq1_le x). assert (U : exp x * (1 - x) <= 1). { pose proof (exp_ineq1_le (- x)). assert (Q : exp x * exp (- x) = 1) by (rewrite <- exp_plus, Rplus_opp_r; apply exp_0). pose proof (exp_pos x). assert (exp x * (1 - x) <= exp x * exp (- x)) by (apply Rmult_le_compat_l; lra). lra. }
  pose proof (exp_pos x). assert (exp x * (1 / 2) <= exp x * (1 - x)) by (apply Rmult_le_compat_l; lra). assert (exp x * x <= 2 * h). { apply Rle_trans with (exp x * h); [apply Rmult_le_compat_l; lra|]. apply Rmult_le_compat_r; lra. } apply Rabs_le. lra.
Qed.
Lemma total_map_le {T} (f g : T -> R) l d : (forall x, In x l -> Rabs (f x - g x) <= d) -> Rabs (total (map f l) - total (map g l)) <= INR (length l) * d.
Proof.
  induction l as [|a l IH]; intros H; cbn [map total fold_right length]; [cbn; rewrite Rminus_eq_0, Rabs_R0; lra|]. fold (total (map f l)) (total (map g l)). rewrite S_INR.
  specialize (IH (fun x I => H x (or_intror I))). pose proof (H a (or_introl eq_refl)) as HA. apply Rabs_le_inv in IH, HA. apply Rabs_le. lra.
Qed.
Lemma total_scal {T} (f : T -> R) c l : total (map (fun x => f x * c) l) = total (map f l) * c.
Proof. induction l as [|a l IH]; cbn [map total fold_right]; [ring|]. fold (total (map f l)) (total (map (fun x => f x * c) l)). rewrite IH. ring. Qed.

Section Soft.
Variable m : libm.
Hypothesis A : accurate m.

Lemma expo_range y M : finite y -> finite M -> val y <= val M -> finite (dexp m (dminus y M)) /\ 0 <= val (dexp m (dminus y M)) <= 1.
Proof.
  intros Fy FM H. destruct (diff y M Fy FM H) as [(F & E)|(E & _)].
  - assert (N : val (dminus y M) <= 0) by (rewrite E; apply round_le_generic; [exact _|exact _|apply generic_format_0|lra]).
    assert (B : exp (val (dminus y M)) <= 1) by (rewrite <- exp_0; now apply exp_le). pose proof max_big. assert (1 <= 2 ^ 100) by (apply pow_R1_Rle; lra).
    pose proof (exp_accurate _ A _ F ltac:(lra)) as X. split; [apply X|]. pose proof (exp_pos (val (dminus y M))). apply (faithful_ints _ _ 0 1 X); try lia. lra.
  - rewrite E. destruct (exp_minus_infinity _ A) as (Q1 & Q2). rewrite Q2. split; auto. lra.
Qed.
Lemma expo_err y M K : finite y -> finite M -> val y <= val M -> exp (- (700)) <= K -> exp (val y - val M) <= K ->
  Rabs (val (dexp m (dminus y M)) - exp (val y - val M)) <= 5000 * eps * K.
Proof.
  intros Fy FM H HK1 HK2. pose proof eps_small as EP. pose proof tiny_tiny as TN. pose proof tiny_exp as TE. pose proof exp_far as XF. pose proof (exp_pos (- (700))) as P7. pose proof (exp_pos (val y - val M)) as PY. pose proof max_big as MB. assert (M1 : 10000 <= 2 ^ 100) by lra.
  assert (EK : eps * exp (- (700)) <= eps * K) by (apply Rmult_le_compat_l; lra).
  destruct (expo_range y M Fy FM H) as (FE & RE). destruct (Rle_dec (val M - val y) 2000) as [L|L].
  - assert (MX : Rabs (val y - val M) <= maxDouble) by (rewrite Rabs_left1; lra). pose proof (minus_ok y M Fy FM MX) as F. pose proof (minus_rel y M Fy FM MX) as R1. rewrite (Rabs_left1 (val y - val M)) in R1 by lra.
    assert (R2 : Rabs (val (dminus y M) - (val y - val M)) <= 2000 * eps). { apply Rle_trans with (1 := R1). rewrite Rmult_comm. apply Rmult_le_compat_r; lra. }
    set (d := dminus y M) in *. set (x := val y - val M) in *. pose proof (exp_1 _ _ R2 ltac:(lra)) as X1.
    assert (X2 : exp (val d) = exp x * exp (val d - x)) by (rewrite <- exp_plus; f_equal; ring).
    assert (X3 : Rabs (exp (val d) - exp x) <= 4000 * eps * K). { rewrite X2. replace (exp x * exp (val d - x) - exp x) with (exp x * (exp (val d - x) - 1)) by ring. rewrite Rabs_mult, (Rabs_pos_eq (exp x)) by lra. apply Rle_trans with (K * (2 * (2000 * eps))); [apply Rmult_le_compat; auto using Rabs_pos; lra|lra]. }
    pose proof (exp_accurate _ A d (proj1 F)) as X. assert (N : val d <= 0). { apply (faithful_le _ _ 0 F); try lia. unfold x in *. lra. } assert (B : exp (val d) <= 1) by (rewrite <- exp_0; now apply exp_le). specialize (X ltac:(lra)). pose proof (exp_pos (val d)).
    pose proof (dist _ _ (exp (val d)) X ltac:(rewrite Rabs_pos_eq; lra) ltac:(lra)) as DX. assert (X4 : eps * exp (val d) <= eps * (2 * K)). { apply Rmult_le_compat_l; [lra|]. apply Rabs_le_inv in X3. assert (4000 * eps * K <= 1 * K) by (apply Rmult_le_compat_r; lra). lra. }
    apply Rabs_le_inv in X3, DX. apply Rabs_le. lra.
  - assert (EX : exp (val y - val M) <= eps * K). { apply Rle_trans with (exp (- (2000))); [apply exp_le; lra|lra]. }
    assert (EE : val (dexp m (dminus y M)) <= 4 * eps * K).
    { destruct (diff y M Fy FM H) as [(F & E)|(E & _)].
      - assert (N : val (dminus y M) <= -2000). { destruct (int_ok (-2000) ltac:(lia)) as (Z1 & Z2). rewrite <- Z2, E. apply round_le_generic; [exact _|exact _|apply val_fmt|rewrite Z2; lra]. }
        assert (B : exp (val (dminus y M)) <= exp (- (2000))) by (apply exp_le; lra). assert (B1 : exp (- (2000)) <= 1) by (rewrite <- exp_0; apply exp_le; lra).
        pose proof (exp_pos (val (dminus y M))). pose proof (exp_accurate _ A _ F ltac:(lra)) as X. pose proof (dist _ _ (exp (val (dminus y M))) X ltac:(rewrite Rabs_pos_eq; lra) ltac:(lra)) as DX. apply Rabs_le_inv in DX.
        assert (eps * exp (val (dminus y M)) <= 1 * exp (val (dminus y M))) by (apply Rmult_le_compat_r; lra). lra.
      - rewrite E. destruct (exp_minus_infinity _ A) as (_ & ->). assert (0 <= eps * K) by (apply Rmult_le_pos; lra). lra. }
    assert (0 <= eps * K) by (apply Rmult_le_pos; lra). apply Rabs_le. lra.
Qed.

Variable sum : list double -> double.
Hypothesis SM : summation sum.
Variables (r : list double) (M k : double).
Hypothesis FM : finite M.
Hypothesis HR : forall y, In y r -> finite y /\ val y <= val M.
Hypothesis HK : In k r /\ (forall y, In y r -> val y <= val k) /\ val M - 700 <= val k.
Hypothesis HN : (Z.of_nat (length r) <= 2 ^ 31)%Z.

Let E y := dexp m (dminus y M).
Let X y := exp (val y - val M).
Let s := sum (map E r).
Let n := INR (length r).
Let K := X k.

Lemma row_n : 1 <= n <= 2 ^ 31.
Proof.
  unfold n. split. { destruct HK as (I & _). destruct r; [easy|]. cbn [length]. rewrite S_INR. pose proof (pos_INR (length l)). lra. }
  rewrite INR_IZR_INZ. apply IZR_le in HN. apply Rle_trans with (1 := HN). lra.
Qed.
Lemma eps_n : n * eps <= 1 / 1000000.
Proof. pose proof row_n. pose proof eps_small. apply Rle_trans with (2 ^ 31 * eps); [apply Rmult_le_compat_r; lra|]. rewrite eps_eq. lra. Qed.
Lemma row_K : exp (- (700)) <= K /\ forall y, In y r -> X y <= K.
Proof. destruct HK as (I & H1 & H2). split; [apply exp_le; lra|]. intros y Iy. apply exp_le. specialize (H1 y Iy). lra. Qed.
Lemma row_e y : In y r -> finite (E y) /\ 0 <= val (E y) <= 1 /\ Rabs (val (E y) - X y) <= 5000 * eps * K.
Proof.
  intros I. destruct (HR y I) as (F & H). destruct (expo_range y M F FM H) as (H1 & H2). destruct row_K as (K1 & K2). split; auto. split; auto. apply expo_err; auto. now apply K2.
Qed.
Lemma row_sum : finite s /\ 0 < val s /\ (forall y, In y r -> val (E y) <= val s) /\ Rabs (val s - total (map (fun y => val (E y)) r)) <= 2 * n * eps * total (map (fun y => val (E y)) r).
Proof.
  assert (NE : map E r <> []) by (destruct HK as (I & _); destruct r; easy).
  destruct (sums_pos _ _ (SM _ NE)) as (L & F & B & G & ER). { intros x I. apply in_map_iff in I as (y & <- & I). destruct (row_e y I) as (H1 & H2 & _). auto. } { rewrite map_length. exact HN. }
  fold s in F, B, G, ER. rewrite map_length in *. rewrite map_map in ER. fold E in ER.
  assert (G' : forall y, In y r -> val (E y) <= val s) by (intros y I; apply G; now apply in_map). split; auto. split; [|split; auto].
  - destruct HK as (I & _). specialize (G' k I). destruct (row_e k I) as (_ & _ & Q). destruct row_K as (K1 & _). pose proof (exp_pos (- (700))). fold K in Q. pose proof eps_small. assert (5000 * eps * K <= 1 / 2 * K) by (apply Rmult_le_compat_r; lra). apply Rabs_le_inv in Q. lra.
  - set (S := total (map (fun y => val (E y)) r)) in *. assert (0 <= S). { apply total_pos. intros v I. apply in_map_iff in I as (y & <- & I). apply (row_e y I). }
    apply Rle_trans with (1 := ER). apply Rmult_le_compat_r; auto. pose proof eps_pos. pose proof eps_n.
    assert (NN : INR (length r - 1) <= n) by (apply le_INR; lia). pose proof (pos_INR (length r - 1)).
    assert (INR (length r - 1) * eps <= n * eps) by (apply Rmult_le_compat_r; lra). pose proof (pow_small eps (length r - 1) ltac:(lra) ltac:(lra)). lra.
Qed.
Lemma row_out y : In y r -> finite (ddiv (E y) s) /\ 0 <= val (ddiv (E y) s) <= 1 /\ Rabs (val (ddiv (E y) s) - val (E y) / val s) <= eps + tiny.
Proof.
  intros I. destruct row_sum as (F & P & G & _). specialize (G y I). destruct (row_e y I) as (FE & RE & _).
  assert (Q : 0 <= val (E y) / val s <= 1). { split; [apply Rmult_le_pos; [lra|]; left; now apply Rinv_0_lt_compat|]. apply Rmult_le_reg_r with (val s); auto. unfold Rdiv. rewrite Rmult_assoc, Rinv_l by lra. lra. }
  pose proof (div_ok (E y) s FE ltac:(lra) ltac:(apply small_max; rewrite Rabs_pos_eq; lra)) as D. split; [apply D|]. split; [apply (faithful_ints _ _ 0 1 D); try lia; lra|].
  pose proof (dist _ _ 1 D ltac:(rewrite Rabs_pos_eq; lra) ltac:(lra)). lra.
Qed.
Lemma row_sums : Rabs (total (map (fun y => val (ddiv (E y) s)) r) - 1) <= n / 2 ^ 48.
Proof.
  destruct row_sum as (F & P & G & Q). pose proof (total_map_le (fun y => val (ddiv (E y) s)) (fun y => val (E y) * / val s) r (eps + tiny) (fun y I => proj2 (proj2 (row_out y I)))) as T. rewrite total_scal in T. fold n in T.
  set (S := total (map (fun y => val (E y)) r)) in *. pose proof eps_n. pose proof row_n. pose proof eps_small. assert (TE : tiny <= eps). { apply Rle_trans with (1 := tiny_exp). assert (exp (- (700)) <= 1) by (rewrite <- exp_0; apply exp_le; lra). assert (eps * exp (- (700)) <= eps * 1) by (apply Rmult_le_compat_l; lra). lra. }
  assert (S0 : 0 <= S). { apply total_pos. intros v I. apply in_map_iff in I as (y & <- & I). apply (row_e y I). }
  assert (S2 : S <= 2 * val s). { apply Rabs_le_inv in Q. assert (2 * n * eps * S <= 1 / 2 * S) by (apply Rmult_le_compat_r; lra). lra. }
  assert (QS : Rabs (S * / val s - 1) <= 4 * n * eps). { replace (S * / val s - 1) with (- (val s - S) * / val s) by (field; lra). rewrite Rabs_mult, Rabs_Ropp, (Rabs_pos_eq (/ val s)) by (left; now apply Rinv_0_lt_compat). apply Rmult_le_reg_r with (val s); auto. rewrite Rmult_assoc, Rinv_l by lra. rewrite Rmult_1_r. apply Rle_trans with (1 := Q). replace (4 * n * eps * val s) with (2 * n * eps * (2 * val s)) by ring. apply Rmult_le_compat_l; [|auto]. assert (0 <= n * eps) by (apply Rmult_le_pos; lra). lra. }
  assert (NT : n * tiny <= n * eps) by (apply Rmult_le_compat_l; lra). replace (n / 2 ^ 48) with (16 * (n * eps)) by (rewrite eps_eq; field; lra). assert (0 <= n * eps) by (apply Rmult_le_pos; lra). apply Rabs_le_inv in T, QS. apply Rabs_le. lra.
Qed.
Lemma row_accuracy y : In y r -> Rabs (val (ddiv (E y) s) - exp (val y) / total (map (fun z => exp (val z)) r)) <= n / 2 ^ 36.
Proof.
  intros I. destruct row_sum as (F & P & G & Q). pose proof (row_out y I) as (_ & _ & O). destruct row_K as (K1 & K2). pose proof (exp_pos (- (700))) as P7. pose proof eps_n. pose proof row_n. pose proof eps_small as EP.
  assert (XT : exp (val y) / total (map (fun z => exp (val z)) r) = X y / total (map X r)).
  { assert (U : total (map (fun z => exp (val z)) r) = total (map X r) * exp (val M)). { rewrite <- total_scal. f_equal. apply map_ext. intros z. unfold X. rewrite <- exp_plus. f_equal. ring. }
    rewrite U. replace (exp (val y)) with (X y * exp (val M)) by (unfold X; rewrite <- exp_plus; f_equal; ring).
    assert (0 < total (map X r)). { apply Rlt_le_trans with (X y); [apply exp_pos|]. apply total_ge; [|now apply in_map]. intros v J. apply in_map_iff in J as (z & <- & J). left. apply exp_pos. }
    pose proof (exp_pos (val M)). field. lra. }
  rewrite XT. pose proof (total_map_le (fun y => val (E y)) X r _ (fun y I => proj2 (proj2 (row_e y I)))) as T. fold n in T.
  assert (TX : K <= total (map X r)). { apply total_ge; [|apply in_map; apply HK]. intros v J. apply in_map_iff in J as (z & <- & J). left. apply exp_pos. }
  assert (TY : X y <= total (map X r)). { pose proof (K2 y I). lra. } assert (PX : 0 < X y) by apply exp_pos. destruct (row_e y I) as (_ & RE & EE).
  set (S := total (map (fun y => val (E y)) r)) in *. set (W := total (map X r)) in *. set (e := val (E y)) in *. set (x := X y) in *. set (sv := val s) in *.
  assert (N5 : 0 <= n * eps) by (apply Rmult_le_pos; lra). assert (T' : n * (5000 * eps * K) <= 5000 * (n * eps) * W). { replace (n * (5000 * eps * K)) with (5000 * (n * eps) * K) by ring. apply Rmult_le_compat_l; lra. }
  assert (W0 : 0 < W) by lra. assert (SW : S <= 2 * W). { apply Rabs_le_inv in T. assert (5000 * (n * eps) * W <= 1 * W) by (apply Rmult_le_compat_r; lra). lra. }
  assert (Q' : 2 * n * eps * S <= 4 * (n * eps) * W). { replace (4 * (n * eps) * W) with (2 * n * eps * (2 * W)) by ring. apply Rmult_le_compat_l; lra. }
  assert (SE : Rabs (sv - W) <= 5004 * (n * eps) * W). { apply Rabs_le_inv in Q, T. apply Rabs_le. lra. }
  assert (SB : W / 2 <= sv). { apply Rabs_le_inv in SE. assert (5004 * (n * eps) * W <= 1 / 2 * W) by (apply Rmult_le_compat_r; lra). lra. }
  assert (TE : tiny <= eps). { apply Rle_trans with (1 := tiny_exp). assert (exp (- (700)) <= 1) by (rewrite <- exp_0; apply exp_le; lra). assert (eps * exp (- (700)) <= eps * 1) by (apply Rmult_le_compat_l; lra). lra. }
  assert (DE : Rabs (e / sv - x / W) <= 30016 * (n * eps)).
  { replace (e / sv - x / W) with (((e - x) * W + x * (W - sv)) * (/ sv * / W)) by (field; lra). rewrite Rabs_mult. rewrite (Rabs_pos_eq (/ sv * / W)) by (left; apply Rmult_lt_0_compat; apply Rinv_0_lt_compat; lra).
    apply Rmult_le_reg_r with (sv * W); [apply Rmult_lt_0_compat; lra|]. rewrite Rmult_assoc. replace (/ sv * / W * (sv * W)) with 1 by (field; lra). rewrite Rmult_1_r.
    assert (A1 : Rabs ((e - x) * W) <= 5000 * (n * eps) * W * W). { rewrite Rabs_mult, (Rabs_pos_eq W) by lra. apply Rmult_le_compat_r; [lra|]. apply Rle_trans with (1 := EE). apply Rle_trans with (5000 * eps * W); [apply Rmult_le_compat_l; lra|]. apply Rmult_le_compat_r; [lra|]. assert (1 * eps <= n * eps) by (apply Rmult_le_compat_r; lra). lra. }
    assert (A2 : Rabs (x * (W - sv)) <= W * (5004 * (n * eps) * W)). { rewrite Rabs_mult, (Rabs_pos_eq x) by lra. rewrite Rabs_minus_sym. apply Rmult_le_compat; auto using Rabs_pos; lra. }
    apply Rle_trans with (1 := Rabs_triang _ _). assert (A3 : 10004 * (n * eps) * W * W <= 30016 * (n * eps) * (sv * W)). { replace (30016 * (n * eps) * (sv * W)) with ((30016 * (n * eps) * sv) * W) by ring. apply Rmult_le_compat_r; [lra|]. assert (10004 * (n * eps) * W <= 10004 * (n * eps) * (2 * sv)) by (apply Rmult_le_compat_l; lra). assert (0 <= n * eps * sv) by (apply Rmult_le_pos; lra). lra. } lra. }
  replace (n / 2 ^ 36) with (65536 * (n * eps)) by (rewrite eps_eq; field; lra). assert (1 * eps <= n * eps) by (apply Rmult_le_compat_r; lra). apply Rabs_le_inv in O, DE. apply Rabs_le. lra.
Qed.
End Soft.

(** * The largest coefficient *)
Lemma max_ok l x : finite x -> (forall y, In y l -> finite y) -> finite (d_max x l) /\ In (d_max x l) (x :: l) /\ forall y, In y (x :: l) -> val y <= val (d_max x l).
Proof.
  revert x. induction l as [|a l IH]; intros x F H; cbn [d_max fold_left]. { split; auto. split; [now left|]. intros y [->|[]]. lra. }
  fold (d_max (if dltb x a then a else x) l). pose proof (H a (or_introl eq_refl)) as Fa. destruct (dltb x a) eqn:L.
  - apply (ltb_true x a F Fa) in L. destruct (IH a Fa (fun y I => H y (or_intror I))) as (H1 & H2 & H3). split; auto. split; [now right|]. intros y [->|[->|I]].
    + pose proof (H3 a (or_introl eq_refl)). lra.
    + apply H3. now left.
    + apply H3. now right.
  - apply (ltb_false x a F Fa) in L. destruct (IH x F (fun y I => H y (or_intror I))) as (H1 & H2 & H3). split; auto. split; [destruct H2 as [<-|]; [now left|right; now right]|]. intros y [->|[->|I]].
    + apply H3. now left.
    + pose proof (H3 x (or_introl eq_refl)). lra.
    + apply H3. now right.
Qed.

(** * Order *)
Lemma nearest_mono y1 r1 y2 r2 : nearest y1 r1 -> nearest y2 r2 -> r1 < r2 -> val y1 <= val y2.
Proof.
  intros (F1 & H1) (F2 & H2) H. specialize (H1 y2 F2). specialize (H2 y1 F1). destruct (Rle_dec (val y1) (val y2)) as [|G]; auto. exfalso.
  unfold Rabs in H1, H2. repeat destruct Rcase_abs in H1; repeat destruct Rcase_abs in H2; lra.
Qed.
Lemma same_double x y : finite x -> finite y -> val x = val y -> x = y \/ (val x = 0 /\ val y = 0).
Proof.
  intros Fx Fy H. destruct (Req_dec (val x) 0) as [Z|Z]; [right; split; auto; congruence|left]. apply B2R_inj; auto; apply is_finite_strict_B2R; auto. unfold val in *. congruence.
Qed.
Lemma expo_mono m y z M : accurate m -> nearestExp m -> finite y -> finite z -> finite M -> val y <= val z -> val z <= val M ->
  val (dexp m (dminus y M)) <= val (dexp m (dminus z M)).
Proof.
  intros A NE Fy Fz FM H1 H2. destruct (expo_range m A z M Fz FM H2) as (_ & RZ). destruct (diff y M Fy FM ltac:(lra)) as [(F & E)|(E & _)]; [|rewrite E; destruct (exp_minus_infinity _ A) as (_ & ->); lra].
  assert (RL : round radix2 fexp64 ZnearestE (val y - val M) <= round radix2 fexp64 ZnearestE (val z - val M)) by (apply round_le; try exact _; lra).
  destruct (diff z M Fz FM H2) as [(F' & E')|(E' & Q1 & Q2)].
  - rewrite <- E, <- E' in RL. assert (N : val (dminus z M) <= 0) by (rewrite E'; apply round_le_generic; [exact _|exact _|apply generic_format_0|lra]).
    pose proof max_big. assert (1 <= 2 ^ 100) by (apply pow_R1_Rle; lra). assert (BZ : exp (val (dminus z M)) <= 1) by (rewrite <- exp_0; now apply exp_le). assert (BY : exp (val (dminus y M)) <= 1) by (rewrite <- exp_0; apply exp_le; lra).
    destruct RL as [RL|RL].
    + apply (nearest_mono _ (exp (val (dminus y M))) _ (exp (val (dminus z M)))); [apply NE; auto; lra|apply NE; auto; lra|now apply exp_increasing].
    + destruct (same_double _ _ F F' RL) as [EQ|(V1 & V2)]; [rewrite EQ; lra|]. pose proof (exp_accurate _ A _ F ltac:(lra)) as X1. pose proof (exp_accurate _ A _ F' ltac:(lra)) as X2. rewrite V1, exp_0 in X1. rewrite V2, exp_0 in X2. destruct fin1 as (F1 & W1). rewrite (faithful_exact _ _ _ X1 F1 W1), (faithful_exact _ _ _ X2 F1 W1). lra.
  - exfalso. rewrite <- E in RL. pose proof (val_max (dminus y M)) as VM. pose proof max_lt. apply Rabs_le_inv in VM. lra.
Qed.
Lemma div_mono x y s : finite x -> finite y -> 0 <= val x <= val y -> val y <= val s -> 0 < val s -> val (ddiv x s) <= val (ddiv y s).
Proof.
  intros Fx Fy H1 H2 H3. assert (I : 0 < / val s) by now apply Rinv_0_lt_compat.
  assert (B : forall v, 0 <= v <= val s -> Rabs (v / val s) <= maxDouble). { intros v Hv. apply small_max. assert (1 <= 2 ^ 100) by (apply pow_R1_Rle; lra). apply Rle_trans with 1; auto. unfold Rdiv. rewrite Rabs_pos_eq by (apply Rmult_le_pos; lra). apply Rmult_le_reg_r with (val s); auto. rewrite Rmult_assoc, Rinv_l; lra. }
  rewrite !div_round; auto; try lra; try (apply B; lra). apply round_le; try exact _. apply Rmult_le_compat_r; lra.
Qed.

(** * Rows far below the maximum *)
Lemma expo_zero m y M : accurate m -> nearestExp m -> finite y -> finite M -> val y < val M - 800 -> finite (dexp m (dminus y M)) /\ val (dexp m (dminus y M)) = 0.
Proof.
  intros A NE Fy FM H. destruct (diff y M Fy FM ltac:(lra)) as [(F & E)|(E & _)]; [|rewrite E; apply (exp_minus_infinity _ A)].
  destruct (int_ok (-800) ltac:(lia)) as (Z1 & Z2). assert (N : val (dminus y M) <= -800) by (rewrite <- Z2, E; apply round_le_generic; [exact _|exact _|apply val_fmt|rewrite Z2; lra]).
  assert (B : exp (val (dminus y M)) <= exp (- (800))) by (apply exp_le; lra). pose proof exp800 as E8. pose proof max_big. assert (1 <= 2 ^ 100) by (apply pow_R1_Rle; lra). assert (B1 : exp (- (800)) <= 1) by (rewrite <- exp_0; apply exp_le; lra).
  destruct (NE _ F ltac:(lra)) as (FE & NN). split; auto. set (e := dexp m (dminus y M)) in *. destruct fin0 as (F0 & V0). specialize (NN (dint 0) F0). rewrite V0 in NN. set (x := exp (val (dminus y M))) in *. pose proof (exp_pos (val (dminus y M))) as XP. fold x in XP.
  destruct (Req_dec (val e) 0) as [|NZ]; auto. exfalso. pose proof (abs_B2R_ge_emin 53 1024 e (is_finite_strict_B2R 53 1024 e NZ)) as G. change (bpow radix2 (SpecFloat.emin 53 1024)) with (bpow radix2 (-1074)) in G. fold (val e) in G.
  change (-1074)%Z with (- Z.of_nat 1074)%Z in G. rewrite bpow_opp, bpow_pow in G.
  assert (Q : 4 * / 2 ^ 1137 <= / 2 ^ 1074). { assert (G1 : 2 ^ 1137 = 2 ^ 63 * 2 ^ 1074) by (rewrite <- pow_add; reflexivity). rewrite G1, Rinv_mult. rewrite <- Rmult_assoc. rewrite <- (Rmult_1_l (/ 2 ^ 1074)) at 2. apply Rmult_le_compat_r; [left; apply Rinv_0_lt_compat, pow_lt; lra|]. lra. }
  assert (P0 : 0 < / 2 ^ 1137) by (apply Rinv_0_lt_compat, pow_lt; lra). set (w := / 2 ^ 1137) in *. set (v := / 2 ^ 1074) in *. clearbody w v. replace (0 - x) with (- x) in NN by ring. rewrite Rabs_Ropp, (Rabs_pos_eq x) in NN by lra. unfold Rabs in G, NN. destruct (Rcase_abs (val e)), (Rcase_abs (val e - x)); lra.
Qed.
Lemma sums_zero l s : sumsTo l s -> (forall x, In x l -> finite x /\ val x = 0) -> finite s /\ val s = 0.
Proof.
  induction 1 as [x|l1 a l2 b l H1 IH1 H2 IH2 P]; intros H; [apply H; now left|].
  destruct IH1 as (F1 & V1). { intros x I. apply H. eapply Permutation_in; [apply Permutation_sym, P|]. apply in_or_app; auto. } destruct IH2 as (F2 & V2). { intros x I. apply H. eapply Permutation_in; [apply Permutation_sym, P|]. apply in_or_app; auto. }
  pose proof (plus_ok a b F1 F2) as S. rewrite V1, V2 in S. specialize (S ltac:(apply small_max; rewrite Rplus_0_l, Rabs_R0; apply pow_le; lra)). split; [apply S|]. destruct fin0 as (F0 & V0). rewrite Rplus_0_l in S. apply (faithful_exact _ _ _ S F0 V0).
Qed.
Lemma zero_div x y : finite x -> finite y -> val x = 0 -> val y = 0 -> ddiv x y = B754_nan.
Proof.
  assert (Z : forall x, finite x -> val x = 0 -> exists s, x = B754_zero s). { intros z F V. destruct z as [s| | |s mm e H]; try discriminate; [eauto|]. exfalso. unfold val in V. cbn [B2R] in V. apply eq_0_F2R in V. cbn in V. destruct s; discriminate. }
  intros Fx Fy Vx Vy. destruct (Z x Fx Vx) as (s1 & ->), (Z y Fy Vy) as (s2 & ->). reflexivity.
Qed.

(** * Cross entropy *)
Lemma lit10 : finite (literal 1 10) /\ 9 / 10 ^ 11 <= val (literal 1 10) <= 2 / 10 ^ 10.
Proof.
  destruct (int_ok 1 ltac:(lia)) as (M1 & M2), (int_ok (10 ^ 10) ltac:(lia)) as (K1 & K2). change (10 ^ 10)%Z with 10000000000%Z in *.
  Transparent literal. pose proof (div_ok (dint 1) (dint 10000000000) M1) as F. rewrite M2, K2 in F. specialize (F ltac:(lra) ltac:(apply small_max; rewrite Rabs_pos_eq; lra)). change (literal 1 10) with (ddiv (dint 1) (dint 10000000000)). Opaque literal.
  split; [apply F|]. pose proof (faithful_err _ _ F ltac:(apply small_max; rewrite Rabs_pos_eq; lra)) as Q. rewrite (Rabs_pos_eq (1 / 10000000000)) in Q by lra. pose proof eps_small. pose proof tiny_tiny. apply Rabs_le_inv in Q. lra.
Qed.
Lemma log_range m y : accurate m -> finite y -> 0 <= val y <= 1 -> finite (dlog m (dplus y (literal 1 10))) /\ -25 <= val (dlog m (dplus y (literal 1 10))) <= 1.
Proof.
  intros A F H. destruct lit10 as (L1 & L2). pose proof (plus_ok y (literal 1 10) F L1 ltac:(apply small_max; rewrite Rabs_pos_eq; lra)) as S.
  assert (B : 9 / 10 ^ 11 <= val (dplus y (literal 1 10)) <= 2). { split; [apply Rle_trans with (val (literal 1 10)); [lra|]; apply (proj2 S); auto; lra|]. apply (faithful_le _ _ 2 S); try lia. lra. }
  pose proof (log_accurate _ A _ (proj1 S) ltac:(lra)) as G. split; [apply G|]. apply (faithful_ints _ _ (-25) 1 G); try lia. set (v := val (dplus y (literal 1 10))) in *. split.
  - assert (X : exp (-25) <= v). { apply Rle_trans with (9 / 10 ^ 11); [|lra]. replace (-25) with (- (INR 200 * (1 / 8))) by (rewrite INR_IZR_INZ; change (Z.of_nat 200) with 200%Z; lra). rewrite exp_inv, exp_pow. apply Rle_trans with (/ (9 / 8) ^ 200); [|lra]. apply Rinv_le; [apply pow_lt; lra|]. apply pow_incr. pose proof (exp_ineq1_le (1 / 8)). lra. }
    rewrite <- (ln_exp (-25)). destruct X as [X|X]; [left; apply ln_increasing; auto; apply exp_pos|rewrite X; lra].
  - rewrite <- (ln_exp 1). assert (X : v <= exp 1) by (pose proof (exp_ineq1_le 1); lra). destruct X as [X|X]; [left; apply ln_increasing; auto; lra|rewrite X; lra].
Qed.
Lemma sums_bounded l s b : sumsTo l s -> (0 <= b <= 2 ^ 15)%Z -> (forall x, In x l -> finite x /\ Rabs (val x) <= IZR b) -> (Z.of_nat (length l) <= 2 ^ 31)%Z -> finite s /\ Rabs (val s) <= IZR (b * Z.of_nat (length l)).
Proof.
  intros HS HB. induction HS as [x|l1 a l2 c l H1 IH1 H2 IH2 P]; intros H N. { destruct (H x (or_introl eq_refl)) as (F & B). split; auto. change (Z.of_nat (length [x])) with 1%Z. now rewrite Z.mul_1_r. }
  pose proof (Permutation_length P) as L. rewrite app_length in L.
  destruct IH1 as (F1 & V1); [|lia|]. { intros x I. apply H. eapply Permutation_in; [apply Permutation_sym, P|]. apply in_or_app; auto. } destruct IH2 as (F2 & V2); [|lia|]. { intros x I. apply H. eapply Permutation_in; [apply Permutation_sym, P|]. apply in_or_app; auto. }
  assert (LB : IZR (b * Z.of_nat (length l)) = IZR (b * Z.of_nat (length l1)) + IZR (b * Z.of_nat (length l2))) by (rewrite <- plus_IZR; f_equal; lia).
  assert (BB : (b * Z.of_nat (length l) <= 2 ^ 53)%Z) by nia. assert (B0 : (0 <= b * Z.of_nat (length l))%Z) by nia.
  assert (T : Rabs (val a + val c) <= IZR (b * Z.of_nat (length l))) by (rewrite LB; apply Rle_trans with (1 := Rabs_triang _ _); lra).
  assert (B2 : IZR (b * Z.of_nat (length l)) <= 2 ^ 100) by (apply IZR_le in BB; apply Rle_trans with (1 := BB); lra).
  pose proof (plus_ok a c F1 F2 ltac:(apply small_max; lra)) as S. split; [apply S|]. apply Rabs_le. rewrite <- opp_IZR. apply (faithful_ints _ _ (- (b * Z.of_nat (length l))) (b * Z.of_nat (length l)) S); try lia. rewrite opp_IZR. apply Rabs_le_inv in T. lra.
Qed.

(** * softmax *)
Lemma list_max (r : list double) : r <> [] -> exists k, In k r /\ forall y, In y r -> val y <= val k.
Proof.
  induction r as [|a r IH]; intros H; [easy|]. destruct r as [|b r]. { exists a. split; [now left|]. intros y [->|[]]. lra. }
  destruct IH as (k & I & G); [easy|]. destruct (Rle_dec (val a) (val k)) as [L|L]; [exists k|exists a]; (split; [now (left + right)|]); intros y [->|J]; try lra; auto. specialize (G y J). lra.
Qed.
Section Softmax.
Variables (m : libm) (sum : list double -> double).
Hypothesis A : accurate m.
Hypothesis SM : summation sum.

Lemma softmax_ok Y : (forall x, In x (concat Y) -> finite x) -> concat Y <> [] ->
  exists M, finite M /\ In M (concat Y) /\ (forall x, In x (concat Y) -> val x <= val M) /\
  d_softmax m sum Y = Ok (map (fun r => map (fun y => ddiv (dexp m (dminus y M)) (sum (map (fun y => dexp m (dminus y M)) r))) r) Y).
Proof.
  intros F N. unfold d_softmax. destruct (concat Y) as [|x l] eqn:E; [easy|]. destruct (max_ok l x) as (H1 & H2 & H3); [apply F; now left|intros; apply F; now right|].
  exists (d_max x l). split; auto. split; auto. split; auto. f_equal. apply map_ext. intros r. now rewrite map_map.
Qed.
Lemma row_distribution r M : finite M -> r <> [] -> (Z.of_nat (length r) <= 2 ^ 31)%Z -> (forall y, In y r -> finite y /\ val y <= val M) -> (exists y, In y r /\ val M - 700 <= val y) ->
  distribution r (map (fun y => ddiv (dexp m (dminus y M)) (sum (map (fun y => dexp m (dminus y M)) r))) r).
Proof.
  intros FM NE N HR (y0 & I0 & H0). destruct (list_max r NE) as (k & I & G). assert (HK : In k r /\ (forall y, In y r -> val y <= val k) /\ val M - 700 <= val k) by (split; auto; split; auto; specialize (G y0 I0); lra).
  split; [now rewrite map_length|]. split; [|split].
  - intros o J. apply in_map_iff in J as (y & <- & J). destruct (row_out m A sum SM r M k FM HR HK N y J) as (H1 & H2 & _). auto.
  - rewrite map_map. apply (row_sums m A sum SM r M k FM HR HK N).
  - intros j y o H1 H2. rewrite nth_error_map, H1 in H2. injection H2 as <-. apply (row_accuracy m A sum SM r M k FM HR HK N y). now apply nth_error_In in H1.
Qed.
Lemma in_row Y (r : list double) y : In r Y -> In y r -> In y (concat Y).
Proof. intros. apply in_concat. eauto. Qed.
Lemma softmax_batch Y i r : (forall x, In x (concat Y) -> finite x) -> nth_error Y i = Some r -> r <> [] -> (Z.of_nat (length r) <= 2 ^ 31)%Z ->
  (forall x, In x (concat Y) -> exists y, In y r /\ val x - 700 <= val y) ->
  exists Z out, d_softmax m sum Y = Ok Z /\ length Z = length Y /\ nth_error Z i = Some out /\ distribution r out.
Proof.
  intros F H NE N G. pose proof (nth_error_In _ _ H) as I. assert (C : concat Y <> []). { destruct r as [|a r]; [easy|]. intros E. pose proof (in_row Y _ a I (or_introl eq_refl)) as Q. rewrite E in Q. easy. }
  destruct (softmax_ok Y F C) as (M & FM & IM & HM & E). rewrite E. eexists. eexists. split; [reflexivity|]. split; [now rewrite map_length|]. split; [rewrite nth_error_map, H; reflexivity|].
  apply row_distribution; auto. intros y J. split; [|apply HM]; eauto using in_row.
Qed.
Lemma softmax_far Y i r : nearestExp m -> (forall x, In x (concat Y) -> finite x) -> nth_error Y i = Some r -> r <> [] ->
  (exists x, In x (concat Y) /\ forall y, In y r -> val y < val x - 800) ->
  exists Z out, d_softmax m sum Y = Ok Z /\ nth_error Z i = Some out /\ length out = length r /\ forall o, In o out -> o = B754_nan.
Proof.
  intros NN F H NE (x & Ix & G). pose proof (nth_error_In _ _ H) as I. assert (C : concat Y <> []) by (intros E; rewrite E in Ix; easy).
  destruct (softmax_ok Y F C) as (M & FM & IM & HM & E). rewrite E. eexists. eexists. split; [reflexivity|]. split; [rewrite nth_error_map, H; reflexivity|]. split; [now rewrite map_length|].
  assert (Z : forall y, In y r -> finite (dexp m (dminus y M)) /\ val (dexp m (dminus y M)) = 0). { intros y J. apply expo_zero; auto; [eauto using in_row|]. specialize (G y J). specialize (HM x Ix). lra. }
  intros o J. apply in_map_iff in J as (y & <- & J). destruct (Z y J) as (Z1 & Z2). destruct (sums_zero _ _ (SM (map (fun y => dexp m (dminus y M)) r) ltac:(destruct r; easy))) as (S1 & S2). { intros v Q. apply in_map_iff in Q as (z & <- & Q). now apply Z. } now apply zero_div.
Qed.
Lemma softmax_order Y Z i r out : nearestExp m -> (forall x, In x (concat Y) -> finite x) -> nth_error Y i = Some r -> (Z.of_nat (length r) <= 2 ^ 31)%Z ->
  (forall x, In x (concat Y) -> exists y, In y r /\ val x - 700 <= val y) -> d_softmax m sum Y = Ok Z -> nth_error Z i = Some out ->
  forall j k y z o p, nth_error r j = Some y -> nth_error r k = Some z -> nth_error out j = Some o -> nth_error out k = Some p -> val y <= val z -> val o <= val p.
Proof.
  intros NN F H N G ES HO j k y z o p J1 J2 O1 O2 L. pose proof (nth_error_In _ _ H) as I. pose proof (nth_error_In _ _ J1) as I1. pose proof (nth_error_In _ _ J2) as I2. assert (NE : r <> []) by (intros ->; easy).
  assert (C : concat Y <> []) by (intros E; pose proof (in_row Y r y I I1) as Q; rewrite E in Q; easy).
  destruct (softmax_ok Y F C) as (M & FM & IM & HM & E). rewrite E in ES. injection ES as <-. rewrite nth_error_map, H in HO. injection HO as <-. rewrite nth_error_map, J1 in O1. rewrite nth_error_map, J2 in O2. injection O1 as <-. injection O2 as <-.
  assert (HR : forall y, In y r -> finite y /\ val y <= val M) by (intros w Q; split; [|apply HM]; eauto using in_row). destruct (list_max r NE) as (q & Iq & Gq). destruct (G M IM) as (y0 & I0 & H0). assert (HK : In q r /\ (forall y, In y r -> val y <= val q) /\ val M - 700 <= val q) by (split; auto; split; auto; specialize (Gq y0 I0); lra).
  destruct (row_sum m A sum SM r M q FM HR HK N) as (S1 & S2 & S3 & _). destruct (HR y I1) as (Fy & My), (HR z I2) as (Fz & Mz). destruct (expo_range m A y M Fy FM My) as (E1 & E2), (expo_range m A z M Fz FM Mz) as (E3 & E4).
  pose proof (expo_mono m y z M A NN Fy Fz FM L Mz). apply div_mono; auto; lra.
Qed.
Lemma sums_err l s b : sumsTo l s -> (0 <= b <= 2 ^ 15)%Z -> (forall x, In x l -> finite x /\ Rabs (val x) <= IZR b) -> (Z.of_nat (length l) <= 2 ^ 31)%Z ->
  1 <= INR (length l) /\ Rabs (val s - total (map val l)) <= eps * IZR b * (INR (length l) * INR (length l)).
Proof.
  intros HS HB. induction HS as [x|l1 a l2 c l H1 IH1 H2 IH2 P]; intros H N. { cbn [length map total fold_right INR]. split; [lra|]. replace (val x - (val x + 0)) with 0 by ring. rewrite Rabs_R0. pose proof eps_pos. assert (0 <= IZR b) by (apply IZR_le; lia). assert (0 <= eps * IZR b) by (apply Rmult_le_pos; lra). lra. }
  pose proof (Permutation_length P) as L. rewrite app_length in L.
  assert (Q1 : forall x, In x l1 -> finite x /\ Rabs (val x) <= IZR b) by (intros x I; apply H; eapply Permutation_in; [apply Permutation_sym, P|]; apply in_or_app; auto). assert (Q2 : forall x, In x l2 -> finite x /\ Rabs (val x) <= IZR b) by (intros x I; apply H; eapply Permutation_in; [apply Permutation_sym, P|]; apply in_or_app; auto).
  destruct (IH1 Q1 ltac:(lia)) as (N1 & E1), (IH2 Q2 ltac:(lia)) as (N2 & E2). destruct (sums_bounded _ _ b H1 HB Q1 ltac:(lia)) as (F1 & V1), (sums_bounded _ _ b H2 HB Q2 ltac:(lia)) as (F2 & V2).
  assert (T : total (map val l) = total (map val l1) + total (map val l2)) by (rewrite <- total_app, <- map_app; apply total_perm, Permutation_map, P). rewrite T, L, plus_INR.
  rewrite mult_IZR, <- INR_IZR_INZ in V1, V2. set (n1 := INR (length l1)) in *. set (n2 := INR (length l2)) in *. split; [lra|]. assert (B0 : 0 <= IZR b <= 2 ^ 15) by (destruct HB as (B1 & B2); apply IZR_le in B1, B2; split; [lra|apply Rle_trans with (1 := B2); lra]).
  assert (NB : n1 + n2 <= 2 ^ 31). { unfold n1, n2. rewrite <- plus_INR, <- L, INR_IZR_INZ. apply IZR_le in N. apply Rle_trans with (1 := N). lra. }
  assert (BN : IZR b * (n1 + n2) <= 2 ^ 15 * 2 ^ 31) by (apply Rmult_le_compat; lra). assert (S : Rabs (val a + val c) <= IZR b * (n1 + n2)) by (apply Rle_trans with (1 := Rabs_triang _ _); lra).
  pose proof (plus_rel a c F1 F2 ltac:(apply small_max; lra)) as PR. pose proof eps_pos. assert (PR' : eps * Rabs (val a + val c) <= eps * (IZR b * (n1 + n2))) by (apply Rmult_le_compat_l; lra).
  assert (NN : n1 * 1 <= n1 * n2) by (apply Rmult_le_compat_l; lra). assert (NN' : 1 * n2 <= n1 * n2) by (apply Rmult_le_compat_r; lra). assert (EB : 0 <= eps * IZR b) by (apply Rmult_le_pos; lra).
  assert (G : eps * IZR b * (n1 * n1) + eps * IZR b * (n2 * n2) + eps * IZR b * (n1 + n2) <= eps * IZR b * ((n1 + n2) * (n1 + n2))). { rewrite <- !Rmult_plus_distr_l. apply Rmult_le_compat_l; auto. lra. }
  apply Rabs_le_inv in PR, E1, E2. apply Rabs_le. lra.
Qed.
Lemma lit10_rel : Rabs (val (literal 1 10) - 1 / 10 ^ 10) <= 2 * eps * (1 / 10 ^ 10).
Proof.
  destruct (int_ok 1 ltac:(lia)) as (M1 & M2), (int_ok (10 ^ 10) ltac:(lia)) as (K1 & K2). change (10 ^ 10)%Z with 10000000000%Z in *.
  Transparent literal. pose proof (div_ok (dint 1) (dint 10000000000) M1) as F. rewrite M2, K2 in F. specialize (F ltac:(lra) ltac:(apply small_max; rewrite Rabs_pos_eq; lra)). change (literal 1 10) with (ddiv (dint 1) (dint 10000000000)). Opaque literal.
  pose proof (faithful_err _ _ F ltac:(apply small_max; rewrite Rabs_pos_eq; lra)) as Q. rewrite (Rabs_pos_eq (1 / 10000000000)) in Q by lra. pose proof tiny_tiny. assert (1 / 10 ^ 30 <= eps * (1 / 10 ^ 10)) by (rewrite eps_eq; lra). replace (1 / 10 ^ 10) with (1 / 10000000000) in * by lra. lra.
Qed.
Lemma ln_ratio u v h : 0 < v -> 0 <= h <= 1 / 2 -> Rabs (u - v) <= h * v -> Rabs (ln u - ln v) <= 2 * h.
Proof.
  intros V H B. apply Rabs_le_inv in B. assert (U : 0 < u). { assert (h * v <= 1 / 2 * v) by (apply Rmult_le_compat_r; lra). lra. }
  assert (LN : forall x, 0 < x -> ln x <= x - 1). { intros x X. pose proof (exp_ineq1_le (ln x)) as Q. rewrite exp_ln in Q by auto. lra. }
  assert (E : ln u - ln v = ln (u / v)) by (unfold Rdiv; rewrite ln_mult, ln_Rinv; auto using Rinv_0_lt_compat; lra). assert (E' : ln v - ln u = ln (v / u)) by (unfold Rdiv; rewrite ln_mult, ln_Rinv; auto using Rinv_0_lt_compat; lra).
  assert (P1 : 0 < u / v) by (apply Rmult_lt_0_compat; auto using Rinv_0_lt_compat). assert (P2 : 0 < v / u) by (apply Rmult_lt_0_compat; auto using Rinv_0_lt_compat).
  pose proof (LN _ P1) as L1. pose proof (LN _ P2) as L2. assert (Q1 : u / v - 1 <= h). { apply Rmult_le_reg_r with v; auto. replace ((u / v - 1) * v) with (u - v) by (field; lra). lra. }
  assert (Q2 : v / u - 1 <= 2 * h). { apply Rmult_le_reg_r with u; auto. replace ((v / u - 1) * u) with (v - u) by (field; lra). assert (h * v <= h * (2 * u)). { apply Rmult_le_compat_l; [lra|]. assert (h * v <= 1 / 2 * v) by (apply Rmult_le_compat_r; lra). lra. } lra. }
  apply Rabs_le. lra.
Qed.
Lemma log_err y : finite y -> 0 <= val y <= 1 -> Rabs (val (dlog m (dplus y (literal 1 10))) - ln (val y + 1 / 10 ^ 10)) <= 40 * eps.
Proof.
  intros F H. destruct lit10 as (L1 & L2). pose proof lit10_rel as LR. assert (MX : Rabs (val y + val (literal 1 10)) <= maxDouble) by (apply small_max; rewrite Rabs_pos_eq; lra). pose proof (plus_ok y (literal 1 10) F L1 MX) as S. pose proof (plus_rel _ _ F L1 MX) as SR. rewrite (Rabs_pos_eq (val y + _)) in SR by lra.
  pose proof eps_small as EP. pose proof tiny_tiny. assert (TE : tiny <= eps) by (rewrite eps_eq; pose proof tiny_small; apply Rle_trans with (1 := H1); lra).
  set (c := val (literal 1 10)) in *. set (u := val (dplus y (literal 1 10))) in *. set (x := val y) in *.
  assert (B : 9 / 10 ^ 11 <= u <= 2). { split; [apply Rle_trans with c; [lra|]; apply (proj2 S); auto; fold x c; lra|]. apply (faithful_le _ _ 2 S); try lia. lra. }
  assert (LN : Rabs (ln u - ln (x + 1 / 10 ^ 10)) <= 2 * (4 * eps)).
  { apply ln_ratio; [lra|lra|]. apply Rabs_le_inv in SR, LR. set (q := 1 / 10 ^ 10) in *. assert (Q0 : 0 < q) by (unfold q; lra). assert (E1 : eps * (x + c) <= eps * (x + 2 * q)). { apply Rmult_le_compat_l; [lra|]. assert (2 * eps * q <= 1 * q) by (apply Rmult_le_compat_r; lra). lra. } assert (0 <= eps * x) by (apply Rmult_le_pos; lra). apply Rabs_le. lra. }
  pose proof (log_accurate _ A _ (proj1 S) ltac:(fold u; lra)) as G. fold u in G. destruct (log_range m y A F H) as (_ & LB). fold x in LB.
  assert (UL : Rabs (ln u) <= 26).
  { assert (X : exp (-25) <= u). { apply Rle_trans with (9 / 10 ^ 11); [|lra]. replace (-25) with (- (INR 200 * (1 / 8))) by (rewrite INR_IZR_INZ; change (Z.of_nat 200) with 200%Z; lra). rewrite exp_inv, exp_pow. apply Rle_trans with (/ (9 / 8) ^ 200); [|lra]. apply Rinv_le; [apply pow_lt; lra|]. apply pow_incr. pose proof (exp_ineq1_le (1 / 8)). lra. }
    assert (-25 <= ln u). { rewrite <- (ln_exp (-25)). destruct X as [X|X]; [left; apply ln_increasing; auto; apply exp_pos|rewrite X; lra]. } assert (ln u <= 1). { pose proof (exp_ineq1_le (ln u)) as Q. rewrite exp_ln in Q by lra. lra. } apply Rabs_le. lra. }
  pose proof (dist _ _ 26 G UL ltac:(lra)) as D. apply Rabs_le_inv in D, LN. apply Rabs_le. lra.
Qed.
Lemma crossEntropy_finite Y T : length (concat Y) = length (concat T) -> concat Y <> [] -> (Z.of_nat (length (concat Y)) <= 2 ^ 31)%Z -> (Z.of_nat (length Y) <= 2 ^ 31)%Z ->
  (forall y, In y (concat Y ++ concat T) -> finite y /\ 0 <= val y <= 1) -> finite (d_crossEntropy m sum Y T) /\
  Rabs (val (d_crossEntropy m sum Y T) - - total (map (fun p => val (snd p) * ln (val (fst p) + 1 / 10 ^ 10)) (combine (concat Y) (concat T))) / INR (length Y)) <= INR (length (concat Y)) * INR (length (concat Y)) / 2 ^ 45.
Proof.
  intros L NE N NY H. unfold d_crossEntropy. set (terms := map _ _). assert (LT : length terms = length (concat Y)) by (unfold terms; rewrite map_length, combine_length; lia).
  assert (NT : terms <> []) by (intros E; rewrite E in LT; destruct (concat Y); easy).
  assert (HB : forall v, In v terms -> finite v /\ Rabs (val v) <= IZR 25).
  { intros v I. apply in_map_iff in I as ((y & t) & <- & I). cbn [fst snd]. destruct (H y) as (Fy & By); [apply in_or_app; left; eapply in_combine_l; eauto|]. destruct (H t) as (Ft & Bt); [apply in_or_app; right; eapply in_combine_r; eauto|].
    destruct (log_range m y A Fy By) as (L1 & L2). assert (B : Rabs (val t * val (dlog m (dplus y (literal 1 10)))) <= 25). { rewrite Rabs_mult. apply Rle_trans with (1 * 25); [|lra]. apply Rmult_le_compat; auto using Rabs_pos; apply Rabs_le; lra. }
    pose proof (mult_ok t _ Ft L1 ltac:(apply small_max; lra)) as P. split; [apply P|]. apply Rabs_le. apply Rabs_le_inv in B. apply (faithful_ints _ _ (-25) 25 P); try lia; lra. }
  assert (NL : (Z.of_nat (length terms) <= 2 ^ 31)%Z) by lia. destruct (sums_bounded terms (sum terms) 25 (SM _ NT) ltac:(lia) HB NL) as (S1 & S2). destruct (sums_err terms (sum terms) 25 (SM _ NT) ltac:(lia) HB NL) as (N1 & S3).
  destruct (opp_ok _ S1) as (O1 & O2). assert (Y1 : (1 <= Z.of_nat (length Y))%Z) by (destruct Y; [easy|cbn [length]; lia]). destruct (int_ok (Z.of_nat (length Y)) ltac:(lia)) as (I1 & I2). apply IZR_le in Y1.
  rewrite LT in S2, S3, N1. set (b := (25 * Z.of_nat (length (concat Y)))%Z) in *. assert (B0 : (0 <= b <= 2 ^ 53)%Z) by lia. assert (B2 : IZR b <= 2 ^ 100) by (destruct B0 as (_ & B0); apply IZR_le in B0; apply Rle_trans with (1 := B0); lra).
  assert (Bn : IZR b = 25 * INR (length (concat Y))) by (unfold b; rewrite mult_IZR, INR_IZR_INZ; reflexivity).
  assert (IY : 0 < / IZR (Z.of_nat (length Y)) <= 1). { split; [apply Rinv_0_lt_compat; lra|]. rewrite <- Rinv_1. apply Rinv_le; lra. }
  assert (Q : Rabs (- val (sum terms) / IZR (Z.of_nat (length Y))) <= IZR b). { unfold Rdiv. rewrite Rabs_mult, Rabs_Ropp. apply Rle_trans with (IZR b * 1); [|lra]. apply Rmult_le_compat; auto using Rabs_pos. rewrite Rabs_pos_eq; lra. }
  pose proof (div_ok (dopp (sum terms)) (dint (Z.of_nat (length Y))) O1) as D. rewrite O2, I2 in D. specialize (D ltac:(lra) ltac:(apply small_max; lra)). split; [apply D|].
  pose proof (dist _ _ _ D Q B2) as DD. rewrite Bn in DD.
  assert (TT : Rabs (total (map val terms) - total (map (fun p => val (snd p) * ln (val (fst p) + 1 / 10 ^ 10)) (combine (concat Y) (concat T)))) <= INR (length (concat Y)) * (70 * eps)).
  { unfold terms. rewrite map_map. assert (LC : length (concat Y) = length (combine (concat Y) (concat T))) by (rewrite combine_length; lia). rewrite LC. apply total_map_le. intros (y & t) I. cbn [fst snd]. destruct (H y) as (Fy & By); [apply in_or_app; left; eapply in_combine_l; eauto|]. destruct (H t) as (Ft & Bt); [apply in_or_app; right; eapply in_combine_r; eauto|].
    destruct (log_range m y A Fy By) as (L1 & L2). pose proof (log_err y Fy By) as LE. set (g := dlog m (dplus y (literal 1 10))) in *. assert (B : Rabs (val t * val g) <= 25). { rewrite Rabs_mult. apply Rle_trans with (1 * 25); [|lra]. apply Rmult_le_compat; auto using Rabs_pos; apply Rabs_le; lra. }
    pose proof (mult_ok t g Ft L1 ltac:(apply small_max; lra)) as P. pose proof (dist _ _ 25 P B ltac:(lra)) as PD. pose proof eps_small. assert (TE : tiny <= eps) by (rewrite eps_eq; pose proof tiny_small as Q1; apply Rle_trans with (1 := Q1); lra).
    assert (M : Rabs (val t * val g - val t * ln (val y + 1 / 10 ^ 10)) <= 1 * (40 * eps)). { rewrite <- Rmult_minus_distr_l, Rabs_mult. apply Rmult_le_compat; auto using Rabs_pos. apply Rabs_le; lra. }
    apply Rabs_le_inv in PD, M. apply Rabs_le. lra. }
  set (n := INR (length (concat Y))) in *. rewrite <- INR_IZR_INZ in *. set (yn := INR (length Y)) in *. set (W := total (map (fun p => val (snd p) * ln (val (fst p) + 1 / 10 ^ 10)) (combine (concat Y) (concat T)))) in *. set (V := total (map val terms)) in *. set (sv := val (sum terms)) in *.
  pose proof eps_small as EP. assert (TE : tiny <= eps) by (rewrite eps_eq; pose proof tiny_small as Q1; apply Rle_trans with (1 := Q1); lra). assert (NN : n * 1 <= n * n) by (apply Rmult_le_compat_l; lra). assert (ENN : eps * n <= eps * (n * n)) by (apply Rmult_le_compat_l; lra). assert (EN1 : eps * 1 <= eps * n) by (apply Rmult_le_compat_l; lra).
  assert (SW : Rabs (sv - W) <= 95 * (eps * (n * n))). { apply Rabs_le_inv in S3, TT. apply Rabs_le. lra. }
  assert (DV : Rabs (- sv / yn - - W / yn) <= 95 * (eps * (n * n))). { replace (- sv / yn - - W / yn) with (- (sv - W) * / yn) by (field; lra). rewrite Rabs_mult, Rabs_Ropp. apply Rle_trans with (95 * (eps * (n * n)) * 1); [|lra]. apply Rmult_le_compat; auto using Rabs_pos. rewrite Rabs_pos_eq; lra. }
  replace (n * n / 2 ^ 45) with (128 * (eps * (n * n))) by (rewrite eps_eq; field; lra). apply Rabs_le_inv in DD, DV. apply Rabs_le. lra.
Qed.
End Softmax.
