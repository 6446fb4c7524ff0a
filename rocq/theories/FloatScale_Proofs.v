(** Proofs about FloatScale_Model. *)
From Coq Require Import Lra Lia Psatz.
From Flocq Require Import Core BinarySingleNaN.
From Verif Require Import Base BaseFacts Activation_Model Float_Model Float_Spec Float_Proofs FloatSoft_Proofs FloatSplit_Model FloatSplit_Proofs FloatSGD_Spec FloatSGD_Proofs FloatScale_Model.
Local Open Scope R_scope.

Lemma min_ok l x : finite x -> (forall y, In y l -> finite y) -> finite (d_min x l) /\ In (d_min x l) (x :: l) /\ forall y, In y (x :: l) -> val (d_min x l) <= val y.
Proof.
  revert x. induction l as [|a l IH]; intros x F H; cbn [d_min fold_left]. { split; auto. split; [now left|]. intros y [->|[]]. lra. }
  fold (d_min (if dltb a x then a else x) l). pose proof (H a (or_introl eq_refl)) as Fa. destruct (dltb a x) eqn:L.
  - apply ltb_true in L; auto. destruct (IH a Fa) as (A & B & C); [intros; apply H; now right|]. split; auto. split; [destruct B as [B|B]; [right; left; exact B|right; right; exact B]|].
    intros y [<-|[<-|I]]; [|apply C; now left|apply C; now right]. pose proof (C a (or_introl eq_refl)). lra.
  - apply ltb_false in L; auto. destruct (IH x F) as (A & B & C); [intros; apply H; now right|]. split; auto. split; [destruct B as [B|B]; [left; exact B|right; right; exact B]|].
    intros y [<-|[<-|I]]; [apply C; now left| |apply C; now right]. pose proof (C x (or_introl eq_refl)). lra.
Qed.

(** a faithful result of a number that is not too small is relatively close *)
Lemma faithful_rel y r : faithful y r -> Rabs r <= maxDouble -> / 2 ^ 900 <= Rabs r -> Rabs (val y - r) <= eps * (1 + / 2 ^ 100) * Rabs r.
Proof.
  intros F M L. apply Rle_trans with (1 := faithful_err _ _ F M). assert (T : tiny <= eps * / 2 ^ 100 * Rabs r).
  { rewrite tiny_pow. unfold eps. apply Rle_trans with (/ 2 ^ 52 * / 2 ^ 100 * / 2 ^ 900).
    - rewrite <- !Rinv_mult, <- !pow_add. apply Rinv_le_contravar; [apply pow_lt; lra|]. apply Rle_pow; [lra|lia].
    - apply Rmult_le_compat_l; auto. rewrite <- Rinv_mult. left. apply Rinv_0_lt_compat. apply Rmult_lt_0_compat; apply pow_lt; lra. }
  lra.
Qed.
Lemma eps_ten : eps <= / 1024.
Proof. unfold eps. apply Rinv_le_contravar; [lra|]. apply Rle_trans with (2 ^ 10); [lra|]. apply Rle_pow; [lra|lia]. Qed.
Lemma eps1 : eps * (1 + / 2 ^ 100) <= 65 / 64 * eps.
Proof.
  pose proof eps_pos. assert (/ 2 ^ 100 <= / 2 ^ 6) by (apply Rinv_le_contravar; [apply pow_lt; lra|apply Rle_pow; [lra|lia]]). assert (/ 2 ^ 6 = / 64) by (f_equal; lra). rewrite (Rmult_comm (65 / 64)). apply Rmult_le_compat_l; lra.
Qed.
Lemma rel_mult x y e : Rabs (x - y) <= e * Rabs y -> 0 <= e -> exists d, Rabs d <= e /\ x = y * (1 + d).
Proof.
  intros H E. destruct (Req_dec y 0) as [->|N].
  - exists 0. rewrite Rabs_R0 in *. split; [exact E|]. replace x with 0; [ring|]. rewrite Rmult_0_r, Rminus_0_r in H. pose proof (Rabs_pos x). assert (X : Rabs x = 0) by lra. destruct (Req_dec x 0) as [->|Nx]; [reflexivity|]. apply Rabs_no_R0 in Nx. contradiction.
  - exists ((x - y) / y). split; [|field; exact N]. unfold Rdiv. rewrite Rabs_mult, Rabs_inv. assert (0 < Rabs y) by now apply Rabs_pos_lt. apply Rmult_le_reg_r with (Rabs y); auto. rewrite Rmult_assoc, Rinv_l by lra. lra.
Qed.
(** three relative errors *)
Lemma quotient_rel a b c d1 d2 d3 : 0 < b -> 0 <= a -> Rabs d1 <= 65 / 64 * eps -> Rabs d2 <= 65 / 64 * eps -> Rabs d3 <= 65 / 64 * eps ->
  c = a * (1 + d1) / (b * (1 + d2)) * (1 + d3) -> Rabs (c - a / b) <= 4 * eps * (a / b).
Proof.
  intros Hb Ha H1 H2 H3 ->. pose proof eps_ten as E. pose proof eps_pos as P. apply Rabs_le_inv in H1, H2, H3.
  assert (Q : 0 <= a / b) by (unfold Rdiv; apply Rmult_le_pos; [exact Ha|left; now apply Rinv_0_lt_compat]).
  replace (a * (1 + d1) / (b * (1 + d2)) * (1 + d3) - a / b) with (a / b * (((1 + d1) * (1 + d3) - (1 + d2)) / (1 + d2))) by (field; lra).
  rewrite Rabs_mult, (Rabs_pos_eq (a / b)) by auto. rewrite Rmult_comm. apply Rmult_le_compat_r; [exact Q|].
  unfold Rdiv. rewrite Rabs_mult, Rabs_inv, (Rabs_pos_eq (1 + d2)) by lra. apply Rmult_le_reg_r with (1 + d2); [lra|]. rewrite Rmult_assoc, Rinv_l by lra. rewrite Rmult_1_r.
  assert (X : Rabs (d1 * d3) <= eps * / 512). { rewrite Rabs_mult. assert (A1 : Rabs d1 <= 65 / 64 * eps) by (apply Rabs_le; lra). assert (A3 : Rabs d3 <= / 900) by (apply Rabs_le; lra). pose proof (Rabs_pos d1). pose proof (Rabs_pos d3). nra. }
  apply Rabs_le_inv in X. assert (Y : 4 * eps * (1 - 65 / 64 * eps) <= 4 * eps * (1 + d2)) by (apply Rmult_le_compat_l; lra). assert (Z : eps * eps <= eps * / 1024) by (apply Rmult_le_compat_l; lra).
  replace ((1 + d1) * (1 + d3) - (1 + d2)) with (d1 + d3 - d2 + d1 * d3) by ring. apply Rabs_le. lra.
Qed.

Section Scale.
Variables (x m M min max : double).
Hypothesis finite_x : finite x.
Hypothesis finite_m : finite m.
Hypothesis finite_M : finite M.
Hypothesis finite_min : finite min.
Hypothesis finite_max : finite max.
Hypothesis x_range : val m <= val x <= val M.
Let range := val M - val m.
Let width := val max - val min.
Hypothesis range_ok : / 2 ^ 300 <= range.
Hypothesis width_ok : / 2 ^ 300 <= width.
Hypothesis data_small : Rabs (val m) <= 2 ^ 300 /\ Rabs (val M) <= 2 ^ 300.
Hypothesis limits_small : Rabs (val min) <= 2 ^ 300 /\ Rabs (val max) <= 2 ^ 300.
Let sc := ddiv (dminus max min) (dminus M m).
Let s := width / range.
Let Q := Rmax (Rabs (val m)) (Rabs (val M)) * s.

Lemma big r : Rabs r <= 2 ^ 1000 -> Rabs r <= maxDouble.
Proof.
  intros H. apply Rle_trans with (1 := H). unfold maxDouble. replace (2 ^ 1024) with (2 * 2 ^ 1023) by reflexivity. assert (2 ^ 971 <= 2 ^ 1023) by (apply Rle_pow; [lra|lia]). assert (2 ^ 1000 <= 2 ^ 1023) by (apply Rle_pow; [lra|lia]). lra.
Qed.
Lemma P300 : 0 < / 2 ^ 300.
Proof. apply Rinv_0_lt_compat, pow_lt. lra. Qed.
Lemma diff_rel a b : finite a -> finite b -> Rabs (val a) <= 2 ^ 300 -> Rabs (val b) <= 2 ^ 300 -> / 2 ^ 300 <= val a - val b ->
  finite (dminus a b) /\ exists d, Rabs d <= 65 / 64 * eps /\ val (dminus a b) = (val a - val b) * (1 + d).
Proof.
  intros Fa Fb Ba Bb L. pose proof P300 as P. assert (B : Rabs (val a - val b) <= 2 ^ 301). { unfold Rminus. apply Rle_trans with (1 := Rabs_triang _ _). rewrite Rabs_Ropp. replace (2 ^ 301) with (2 * 2 ^ 300) by reflexivity. lra. }
  assert (MM : Rabs (val a - val b) <= maxDouble). { apply big. apply Rle_trans with (1 := B). apply Rle_pow; [lra|lia]. }
  pose proof (minus_ok a b Fa Fb MM) as F. split; [apply F|]. assert (L2 : / 2 ^ 900 <= Rabs (val a - val b)).
  { rewrite Rabs_pos_eq by lra. apply Rle_trans with (2 := L). apply Rinv_le_contravar; [apply pow_lt; lra|]. apply Rle_pow; [lra|lia]. }
  pose proof (faithful_rel _ _ F MM L2) as E. pose proof eps1 as E1. pose proof eps_pos as EP. apply rel_mult; [|lra]. apply Rle_trans with (1 := E). apply Rmult_le_compat_r; [apply Rabs_pos|exact E1].
Qed.
Lemma s_bounds : / 2 ^ 601 <= s <= 2 ^ 601 /\ 0 < range /\ 0 < width.
Proof.
  pose proof P300 as P. destruct data_small as (D1 & D2), limits_small as (L1 & L2). apply Rabs_le_inv in D1, D2, L1, L2.
  assert (B1 : range <= 2 ^ 301) by (unfold range; replace (2 ^ 301) with (2 * 2 ^ 300) by reflexivity; lra). assert (B2 : width <= 2 ^ 301) by (unfold width; replace (2 ^ 301) with (2 * 2 ^ 300) by reflexivity; lra).
  assert (R0 : 0 < range) by lra. assert (W0 : 0 < width) by lra. split; [|auto]. unfold s, Rdiv. replace (2 ^ 601) with (2 ^ 301 * 2 ^ 300) by (rewrite <- pow_add; reflexivity).
  assert (PP : 0 < 2 ^ 300) by (apply pow_lt; lra). assert (PQ : 0 < 2 ^ 301) by (apply pow_lt; lra). split.
  - rewrite Rinv_mult, Rmult_comm. apply Rmult_le_compat; [lra|left; apply Rinv_0_lt_compat; lra|lra|]. apply Rinv_le_contravar; lra.
  - apply Rmult_le_compat; [lra|left; apply Rinv_0_lt_compat; lra|lra|]. rewrite <- (Rinv_inv (2 ^ 300)). apply Rinv_le_contravar; lra.
Qed.
Lemma scaling_ok : finite sc /\ Rabs (val sc - s) <= 4 * eps * s /\ 0 < val sc.
Proof.
  destruct s_bounds as (S1 & R0 & W0). destruct (diff_rel max min) as (F1 & d1 & B1 & E1); auto; try apply limits_small. destruct (diff_rel M m) as (F2 & d2 & B2 & E2); auto; try apply data_small.
  fold width in E1. fold range in E2. pose proof eps_ten as ET. pose proof eps_pos as EP. pose proof B1 as B1'. pose proof B2 as B2'. apply Rabs_le_inv in B1', B2'.
  assert (V2 : val (dminus M m) <> 0) by (rewrite E2; apply Rmult_integral_contrapositive; split; lra).
  assert (QE : val (dminus max min) / val (dminus M m) = s * ((1 + d1) / (1 + d2))). { rewrite E1, E2. unfold s. field. split; lra. }
  assert (QB : / 2 <= (1 + d1) / (1 + d2) <= 2). { split; apply Rmult_le_reg_r with (1 + d2); try lra; unfold Rdiv; rewrite Rmult_assoc, Rinv_l by lra; lra. }
  assert (Pr : 0 < / 2 ^ 601) by (apply Rinv_0_lt_compat, pow_lt; lra).
  assert (QL : / 2 ^ 900 <= Rabs (val (dminus max min) / val (dminus M m)) <= 2 ^ 1000).
  { rewrite QE, Rabs_pos_eq by nra. split.
    - apply Rle_trans with (/ 2 ^ 601 * / 2); [|nra]. rewrite <- Rinv_mult. apply Rinv_le_contravar; [apply Rmult_lt_0_compat; [apply pow_lt|]; lra|]. replace (2 ^ 601 * 2) with (2 ^ 602) by (replace (2 ^ 602) with (2 * 2 ^ 601) by reflexivity; ring). apply Rle_pow; [lra|lia].
    - apply Rle_trans with (2 ^ 601 * 2); [nra|]. replace (2 ^ 601 * 2) with (2 ^ 602) by (replace (2 ^ 602) with (2 * 2 ^ 601) by reflexivity; ring). apply Rle_pow; [lra|lia]. }
  assert (MM : Rabs (val (dminus max min) / val (dminus M m)) <= maxDouble) by (apply big, QL).
  pose proof (div_ok _ _ F1 V2 MM) as F. fold sc in F. pose proof (faithful_rel _ _ F MM (proj1 QL)) as E. pose proof eps1 as EE.
  destruct (rel_mult (val sc) (val (dminus max min) / val (dminus M m)) (65 / 64 * eps)) as (d3 & B3 & E3); [|lra|].
  { apply Rle_trans with (1 := E). apply Rmult_le_compat_r; [apply Rabs_pos|exact EE]. }
  split; [apply F|]. assert (X : Rabs (val sc - s) <= 4 * eps * s).
  { apply (quotient_rel width range (val sc) d1 d2 d3); auto; try lra. rewrite E3, E1, E2. reflexivity. }
  split; [exact X|]. apply Rabs_le_inv in X. assert (4 * eps * s <= / 2 * s) by (apply Rmult_le_compat_r; lra). lra.
Qed.
Lemma Q_ge y : val m <= val y <= val M -> Rabs (val y) * s <= Q.
Proof.
  intros H. destruct s_bounds as (S1 & _). assert (0 < / 2 ^ 601) by (apply Rinv_0_lt_compat, pow_lt; lra). unfold Q. apply Rmult_le_compat_r; [lra|].
  pose proof (Rmax_l (Rabs (val m)) (Rabs (val M))). pose proof (Rmax_r (Rabs (val m)) (Rabs (val M))). pose proof (Rabs_le_inv _ _ (Rle_refl (Rabs (val m)))). pose proof (Rabs_le_inv _ _ (Rle_refl (Rabs (val M)))). apply Rabs_le. lra.
Qed.
Lemma tiny_width : tiny <= / 1024 * (eps * width).
Proof.
  pose proof P300. pose proof eps_pos. apply Rle_trans with (/ 1024 * (eps * / 2 ^ 300)); [|apply Rmult_le_compat_l; [lra|]; apply Rmult_le_compat_l; lra].
  rewrite tiny_pow. unfold eps. replace (/ 1024) with (/ 2 ^ 10) by (f_equal; lra). rewrite <- !Rinv_mult, <- !pow_add. apply Rinv_le_contravar; [apply pow_lt; lra|]. apply Rle_pow; [lra|lia].
Qed.
Lemma Q_small : 0 <= Q <= 2 ^ 901.
Proof.
  destruct s_bounds as (S1 & _). assert (0 < / 2 ^ 601) by (apply Rinv_0_lt_compat, pow_lt; lra). unfold Q. assert (0 <= Rmax (Rabs (val m)) (Rabs (val M)) <= 2 ^ 300).
  { split; [apply Rle_trans with (2 := Rmax_l _ _), Rabs_pos|]. apply Rmax_lub; apply data_small. }
  split; [apply Rmult_le_pos; lra|]. replace (2 ^ 901) with (2 ^ 300 * 2 ^ 601) by (rewrite <- pow_add; reflexivity). apply Rmult_le_compat; lra.
Qed.
Lemma product_ok y : finite y -> val m <= val y <= val M -> finite (dmult y sc) /\ Rabs (val (dmult y sc) - val y * s) <= 6 * (eps * Q) + tiny /\ Rabs (val y * s) <= Q.
Proof.
  intros Fy Hy. destruct scaling_ok as (Fs & Es & Ps). pose proof (Q_ge y Hy) as G. pose proof Q_small as QS. destruct s_bounds as (S1 & _). assert (S0 : 0 < / 2 ^ 601) by (apply Rinv_0_lt_compat, pow_lt; lra). pose proof eps_ten as ET. pose proof eps_pos as EP.
  assert (A : Rabs (val y * s) = Rabs (val y) * s) by (rewrite Rabs_mult, (Rabs_pos_eq s) by lra; reflexivity).
  assert (D : Rabs (val y * val sc - val y * s) <= 4 * (eps * Q)).
  { replace (val y * val sc - val y * s) with (val y * (val sc - s)) by ring. rewrite Rabs_mult. apply Rle_trans with (Rabs (val y) * (4 * eps * s)); [apply Rmult_le_compat_l; [apply Rabs_pos|exact Es]|].
    replace (Rabs (val y) * (4 * eps * s)) with (4 * (eps * (Rabs (val y) * s))) by ring. apply Rmult_le_compat_l; [lra|]. apply Rmult_le_compat_l; lra. }
  assert (EQ : eps * Q <= / 1024 * Q) by (apply Rmult_le_compat_r; lra).
  assert (B : Rabs (val y * val sc) <= 129 / 128 * Q). { replace (val y * val sc) with (val y * s + (val y * val sc - val y * s)) by ring. apply Rle_trans with (1 := Rabs_triang _ _). lra. }
  assert (MM : Rabs (val y * val sc) <= maxDouble). { apply big. apply Rle_trans with (2 * 2 ^ 901); [lra|]. change (2 * 2 ^ 901) with (2 ^ 902). apply Rle_pow; [lra|lia]. }
  pose proof (mult_ok y sc Fy Fs MM) as F. pose proof (faithful_err _ _ F MM) as E. split; [apply F|]. split; [|lra].
  replace (val (dmult y sc) - val y * s) with ((val (dmult y sc) - val y * val sc) + (val y * val sc - val y * s)) by ring. apply Rle_trans with (1 := Rabs_triang _ _).
  assert (eps * Rabs (val y * val sc) <= eps * (129 / 128 * Q)) by (apply Rmult_le_compat_l; lra). assert (0 <= eps * Q) by (apply Rmult_le_pos; lra). lra.
Qed.
Let off := dminus min (dmult m sc).
Lemma tiny_one : tiny <= 1.
Proof. rewrite tiny_pow. rewrite <- Rinv_1. apply Rinv_le_contravar; [lra|]. apply pow_R1_Rle. lra. Qed.
Lemma offset_ok : finite off /\ Rabs (val off - (val min - val m * s)) <= 8 * (eps * Q) + 2 * (eps * Rabs (val min)) + 3 * tiny.
Proof.
  destruct (product_ok m) as (F & E & B); [assumption|lra|]. pose proof Q_small as QS. pose proof eps_ten as ET. pose proof eps_pos as EP. pose proof tiny_one as T1. assert (T0 : 0 < tiny) by apply bpow_gt_0.
  assert (EQ : eps * Q <= / 1024 * Q) by (apply Rmult_le_compat_r; lra). assert (P0 : 0 <= eps * Q) by (apply Rmult_le_pos; lra).
  assert (D : Rabs (val min - val (dmult m sc) - (val min - val m * s)) <= 6 * (eps * Q) + tiny). { rewrite Rabs_minus_sym. replace (val min - val m * s - (val min - val (dmult m sc))) with (val (dmult m sc) - val m * s) by ring. exact E. }
  assert (C : Rabs (val min - val (dmult m sc)) <= Rabs (val min) + 65 / 64 * Q + tiny).
  { replace (val min - val (dmult m sc)) with (val min + (- (val m * s) + - (val (dmult m sc) - val m * s))) by ring. apply Rle_trans with (1 := Rabs_triang _ _). pose proof (Rabs_triang (- (val m * s)) (- (val (dmult m sc) - val m * s))) as T. rewrite !Rabs_Ropp in T. lra. }
  assert (MM : Rabs (val min - val (dmult m sc)) <= maxDouble).
  { apply big. destruct limits_small as (L1 & _). assert (2 ^ 300 <= 2 ^ 901) by (apply Rle_pow; [lra|lia]). assert (1 <= 2 ^ 901) by (apply pow_R1_Rle; lra). apply Rle_trans with (4 * 2 ^ 901); [lra|]. replace (4 * 2 ^ 901) with (2 ^ 903) by (replace (2 ^ 903) with (2 * (2 * 2 ^ 901)) by reflexivity; ring). apply Rle_pow; [lra|lia]. }
  pose proof (minus_ok min (dmult m sc) finite_min F MM) as FF. pose proof (faithful_err _ _ FF MM) as EE. fold off in EE, FF. split; [apply FF|].
  replace (val off - (val min - val m * s)) with ((val off - (val min - val (dmult m sc))) + (val min - val (dmult m sc) - (val min - val m * s))) by ring. apply Rle_trans with (1 := Rabs_triang _ _).
  assert (eps * Rabs (val min - val (dmult m sc)) <= eps * (Rabs (val min) + 65 / 64 * Q + tiny)) by (apply Rmult_le_compat_l; lra). assert (eps * tiny <= / 1024 * tiny) by (apply Rmult_le_compat_r; lra).
  assert (0 <= eps * Rabs (val min)) by (apply Rmult_le_pos; [lra|apply Rabs_pos]). lra.
Qed.
Lemma scaled_ok : finite (dplus (dmult x sc) off) /\ Rabs (val (dplus (dmult x sc) off) - (val min + (val x - val m) * s)) <= 16 * eps * (Q + Rabs (val min) + width).
Proof.
  destruct (product_ok x) as (F & E & B); [assumption|lra|]. destruct offset_ok as (Fo & Eo). pose proof Q_small as QS. pose proof eps_ten as ET. pose proof eps_pos as EP. pose proof tiny_one as T1. assert (T0 : 0 < tiny) by apply bpow_gt_0. pose proof tiny_width as TW.
  destruct s_bounds as (S1 & R0 & W0). assert (S0 : 0 < / 2 ^ 601) by (apply Rinv_0_lt_compat, pow_lt; lra).
  assert (EQ : eps * Q <= / 1024 * Q) by (apply Rmult_le_compat_r; lra). assert (P0 : 0 <= eps * Q) by (apply Rmult_le_pos; lra).
  assert (P1 : 0 <= eps * Rabs (val min)) by (apply Rmult_le_pos; [lra|apply Rabs_pos]). assert (P2 : eps * Rabs (val min) <= / 1024 * Rabs (val min)) by (apply Rmult_le_compat_r; [apply Rabs_pos|lra]).
  assert (P3 : 0 <= eps * width) by (apply Rmult_le_pos; lra). assert (P4 : eps * width <= / 1024 * width) by (apply Rmult_le_compat_r; lra).
  set (id := val min + (val x - val m) * s). set (sum := val (dmult x sc) + val off).
  assert (I : Rabs id <= Rabs (val min) + width).
  { unfold id. apply Rle_trans with (1 := Rabs_triang _ _). apply Rplus_le_compat_l. rewrite Rabs_pos_eq by (apply Rmult_le_pos; lra). apply Rle_trans with (range * s); [apply Rmult_le_compat_r; unfold range; lra|]. right. unfold s. field. lra. }
  assert (D : Rabs (sum - id) <= 14 * (eps * Q) + 2 * (eps * Rabs (val min)) + 4 * tiny).
  { replace (sum - id) with ((val (dmult x sc) - val x * s) + (val off - (val min - val m * s))) by (unfold sum, id; ring). apply Rle_trans with (1 := Rabs_triang _ _). lra. }
  assert (C : Rabs sum <= 2 * Rabs (val min) + 2 * width + / 64 * Q). { replace sum with (id + (sum - id)) by ring. apply Rle_trans with (1 := Rabs_triang _ _). pose proof (Rabs_pos (val min)). lra. }
  assert (MM : Rabs sum <= maxDouble).
  { apply big. destruct limits_small as (L1 & L2). assert (W : width <= 2 * 2 ^ 300) by (unfold width; apply Rabs_le_inv in L1, L2; lra). assert (2 ^ 300 <= 2 ^ 901) by (apply Rle_pow; [lra|lia]). apply Rle_trans with (8 * 2 ^ 901); [lra|].
    replace (8 * 2 ^ 901) with (2 ^ 904) by (replace (2 ^ 904) with (2 * (2 * (2 * 2 ^ 901))) by reflexivity; ring). apply Rle_pow; [lra|lia]. }
  pose proof (plus_ok _ _ F Fo MM) as FF. pose proof (faithful_err _ _ FF MM) as EE. fold sum in EE. split; [apply FF|].
  replace (val (dplus (dmult x sc) off) - id) with ((val (dplus (dmult x sc) off) - sum) + (sum - id)) by ring. apply Rle_trans with (1 := Rabs_triang _ _).
  assert (eps * Rabs sum <= eps * (2 * Rabs (val min) + 2 * width + / 64 * Q)) by (apply Rmult_le_compat_l; lra). lra.
Qed.
End Scale.

(** rounding keeps the order *)
Lemma scaled_mono x y sc off : 0 <= val sc -> finite (dplus (dmult x sc) off) -> finite (dplus (dmult y sc) off) -> val x <= val y -> val (dplus (dmult x sc) off) <= val (dplus (dmult y sc) off).
Proof.
  intros P Fx Fy L. destruct (plus_fin _ _ Fx) as (Fx1 & _ & ->). destruct (plus_fin _ _ Fy) as (Fy1 & _ & ->). destruct (mult_fin _ _ Fx1) as (_ & _ & ->). destruct (mult_fin _ _ Fy1) as (_ & _ & ->).
  apply round_le; try exact _. apply Rplus_le_compat_r. apply round_le; try exact _. now apply Rmult_le_compat_r.
Qed.

Lemma leb_le x y : finite x -> finite y -> (dleb x y = true <-> val x <= val y).
Proof.
  intros Fx Fy. pose proof (Bleb_correct 53 1024 x y Fx Fy) as C. unfold dleb, val. rewrite C. destruct (Rle_bool_spec (B2R x) (B2R y)) as [L|L]; split; intros; try reflexivity; try assumption; [discriminate|lra].
Qed.
Lemma concat_entry {A} (data : list (list A)) v : In v (concat data) <-> exists i j row, nth_error data i = Some row /\ nth_error row j = Some v.
Proof.
  rewrite in_concat. split.
  - intros (row & I & J). apply In_nth_error in I, J. destruct I as (i & I), J as (j & J). eauto.
  - intros (i & j & row & I & J). exists row. split; eapply nth_error_In; eauto.
Qed.
Lemma min_const c l : finite c -> (forall y, In y l -> y = c) -> d_min c l = c /\ d_max c l = c.
Proof.
  intros F. assert (L : dltb c c = false). { destruct (dltb c c) eqn:E; [|reflexivity]. apply ltb_true in E; auto. lra. }
  induction l as [|a l IH]; intros H; [split; reflexivity|]. rewrite (H a (or_introl eq_refl)). unfold d_min, d_max in *. cbn [fold_left]. rewrite L. apply IH. intros. apply H. now right.
Qed.
Lemma zero_shape (x : double) : finite x -> val x = 0 -> exists s, x = B754_zero s.
Proof.
  destruct x as [s|s| |s m e B]; intros F V; [exists s; reflexivity|discriminate F|discriminate F|]. exfalso. unfold val in V. cbn [B2R] in V. apply eq_0_F2R in V. destruct s; discriminate V.
Qed.
Lemma self_minus c : finite c -> exists s, dminus c c = B754_zero s.
Proof.
  intros F. destruct (zero_shape (dminus c c)) as (s & E); [| |eauto].
  - apply minus_ok; auto. rewrite Rminus_eq_0, Rabs_R0. apply Rlt_le. unfold maxDouble. replace (2 ^ 1024) with (2 ^ 53 * 2 ^ 971) by (rewrite <- pow_add; reflexivity). assert (1 < 2 ^ 53) by (apply Rlt_pow_R1; [lra|lia]). assert (0 < 2 ^ 971) by (apply pow_lt; lra). nra.
  - assert (FF : finite (dminus c c)). { apply minus_ok; auto. rewrite Rminus_eq_0, Rabs_R0. apply Rlt_le. unfold maxDouble. replace (2 ^ 1024) with (2 ^ 53 * 2 ^ 971) by (rewrite <- pow_add; reflexivity). assert (1 < 2 ^ 53) by (apply Rlt_pow_R1; [lra|lia]). assert (0 < 2 ^ 971) by (apply pow_lt; lra). nra. }
    destruct (minus_fin _ _ FF) as (_ & _ & ->). rewrite Rminus_eq_0. apply round_0. exact _.
Qed.
Lemma diff_nonzero a b : finite a -> finite b -> val a <> val b -> (exists s, dminus a b = B754_infinity s) \/ exists s m e B, dminus a b = B754_finite s m e B.
Proof.
  intros Fa Fb N. pose proof (Bminus_correct 53 1024 _ _ mode_NE a b Fa Fb) as C. fold (dminus a b) in C. destruct (Rlt_bool _ _).
  - destruct C as (C1 & C2 & _). right. assert (NZ : B2R (dminus a b) <> 0).
    { rewrite C1. unfold Rminus. apply Plus_error.round_plus_neq_0; try exact _; [apply generic_format_B2R|apply generic_format_opp, generic_format_B2R|]. unfold val in N. intros E. apply N. lra. }
    destruct (dminus a b) as [s|s| |s m e B]; [exfalso; apply NZ; reflexivity|discriminate C2|discriminate C2|eauto].
  - left. destruct C as (C & _). unfold binary_overflow in C. cbn in C. destruct (dminus a b); cbn in C; try discriminate C. eauto.
Qed.
Lemma nan_result (v min : double) s : finite v -> finite min -> dplus (dmult v (B754_infinity s)) (dminus min (dmult v (B754_infinity s))) = B754_nan.
Proof. intros F G. destruct v as [sv|sv| |sv mv ev Bv]; try discriminate F; destruct min as [sm|sm| |sm mm em Bm]; try discriminate G; destruct s; try destruct sv; try destruct sm; reflexivity. Qed.
