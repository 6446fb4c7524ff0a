(** Proofs about activation functions in double precision. *)
From Coq Require Import Permutation Lra Lia Psatz.
From Flocq Require Import Core BinarySingleNaN.
From Verif Require Import Base BaseFacts Activation_Model Activation_Proofs Activation_Props Deriv Float_Model Float_Spec Float_Proofs.
Local Open Scope R_scope.

Lemma eps_small : 0 < eps <= 1 / (4 * 10 ^ 15).
Proof. split; [apply eps_pos|]. unfold eps. lra. Qed.
Lemma tiny_tiny : 0 < tiny <= 1 / 10 ^ 30.
Proof. split; [apply tiny_pos|]. pose proof tiny_small. apply Rle_trans with (1 := H). lra. Qed.
Opaque eps tiny maxDouble.
Lemma dist y r b : faithful y r -> Rabs r <= b -> b <= 2 ^ 100 -> Rabs (val y - r) <= eps * b + tiny.
Proof.
  intros F H B. pose proof (faithful_err y r F) as E. pose proof (small_max r). pose proof eps_small. assert (eps * Rabs r <= eps * b) by (apply Rmult_le_compat_l; lra). lra.
Qed.
Lemma fin0 : finite (dint 0) /\ val (dint 0) = 0. Proof. now apply int_ok. Qed.
Lemma fin1 : finite (dint 1) /\ val (dint 1) = 1. Proof. now apply int_ok. Qed.
Lemma fin45 : finite (dint 45) /\ val (dint 45) = 45. Proof. now apply int_ok. Qed.
Lemma finm45 : finite (dopp (dint 45)) /\ val (dopp (dint 45)) = -45.
Proof. destruct fin45 as (H1 & H2). destruct (opp_ok _ H1) as (H3 & H4). rewrite H2 in H4. auto. Qed.
Lemma lit_ok m k b : (Z.abs m <= 2 ^ 53)%Z -> (10 ^ Zpos k <= 2 ^ 53)%Z -> Rabs (IZR m / IZR (10 ^ Zpos k)) <= b -> b <= 2 ^ 100 ->
  finite (literal m k) /\ Rabs (val (literal m k) - IZR m / IZR (10 ^ Zpos k)) <= eps * b + tiny.
Proof.
  intros H1 H2 H3 H4. assert (P : (0 < 10 ^ Zpos k)%Z) by (apply Z.pow_pos_nonneg; lia). destruct (int_ok m H1) as (M1 & M2), (int_ok (10 ^ Zpos k)) as (K1 & K2); [lia|].
  assert (F : faithful (literal m k) (IZR m / IZR (10 ^ Zpos k))).
  { rewrite <- M2, <- K2. apply div_ok; auto; rewrite K2; [apply IZR_lt in P; lra|]. rewrite M2. apply small_max. lra. }
  split; [apply F|]. now apply dist.
Qed.
Lemma lit17 : finite (literal 17159 4) /\ Rabs (val (literal 17159 4) - 1.7159) <= 1 / 10 ^ 15.
Proof.
  destruct (lit_ok 17159 4 2) as (H1 & H2); [lia|lia|change (10 ^ 4)%Z with 10000%Z; rewrite Rabs_pos_eq; lra|lra|]. split; auto. replace (IZR 17159 / IZR (10 ^ 4)) with 1.7159 in H2 by (change (10 ^ 4)%Z with 10000%Z; lra). pose proof eps_small. pose proof tiny_tiny. lra.
Qed.
Lemma lit6 : finite (literal 66666667 8) /\ Rabs (val (literal 66666667 8) - 0.66666667) <= 1 / 10 ^ 15.
Proof.
  destruct (lit_ok 66666667 8 1) as (H1 & H2); [lia|lia|change (10 ^ 8)%Z with 100000000%Z; rewrite Rabs_pos_eq; lra|lra|]. split; auto. replace (IZR 66666667 / IZR (10 ^ 8)) with 0.66666667 in H2 by (change (10 ^ 8)%Z with 100000000%Z; lra). pose proof eps_small. pose proof tiny_tiny. lra.
Qed.
Opaque literal dint.

Section Act.
Variable m : libm.
Hypothesis A : accurate m.

(** * The logistic function *)
Lemma exp45 x : -45 <= x <= 45 -> 0 < exp x <= 2 ^ 90.
Proof.
  intros (H1 & H2). split; [apply exp_pos|]. apply Rle_trans with (exp 45). { destruct (Req_dec x 45) as [->|]; [lra|]. left. apply exp_increasing. lra. }
  replace (exp 45) with (exp 1 ^ 45).
  - replace (2 ^ 90) with (4 ^ 45) by lra. pose proof exp_le_3. pose proof (exp_pos 1). apply pow_incr. lra.
  - rewrite <- Rpower_pow by apply exp_pos. unfold Rpower. rewrite ln_exp. f_equal. cbn. lra.
Qed.
Lemma logistic_finite a : finite a -> -45 <= val a <= 45 ->
  exists e s, faithful e (exp (- val a)) /\ faithful s (1 + val e) /\ 0 <= val e /\ 1 <= val s /\ d_logistic m a = ddiv (dint 1) s /\ faithful (d_logistic m a) (1 / val s).
Proof.
  intros F H. destruct finm45 as (F1 & V1), fin45 as (F2 & V2), fin1 as (F3 & V3), fin0 as (F4 & V4), (opp_ok a F) as (F5 & V5).
  pose proof (exp45 (- val a) ltac:(lra)) as X. pose proof max_big as MB. assert (M90 : 2 ^ 90 <= 2 ^ 100) by lra.
  assert (E : faithful (dexp m (dopp a)) (exp (- val a))). { rewrite <- V5. apply exp_accurate; auto. rewrite V5. lra. }
  exists (dexp m (dopp a)), (dplus (dint 1) (dexp m (dopp a))). assert (E0 : 0 <= val (dexp m (dopp a))). { rewrite <- V4. apply (proj2 E); auto. rewrite V4. lra. }
  pose proof (dist _ _ (2 ^ 90) E ltac:(rewrite Rabs_pos_eq; lra) M90) as DE. pose proof eps_small. pose proof tiny_tiny.
  assert (S : faithful (dplus (dint 1) (dexp m (dopp a))) (1 + val (dexp m (dopp a)))).
  { rewrite <- V3. apply plus_ok; auto. apply E. rewrite V3. rewrite Rabs_pos_eq by lra. apply Rabs_le_inv in DE. lra. }
  assert (S1 : 1 <= val (dplus (dint 1) (dexp m (dopp a)))). { rewrite <- V3 at 1. apply (proj2 S); auto. rewrite V3. lra. }
  split; auto. split; auto. split; auto. split; auto.
  assert (D : d_logistic m a = ddiv (dint 1) (dplus (dint 1) (dexp m (dopp a)))).
  { unfold d_logistic. rewrite (proj2 (ltb_false a (dopp (dint 45)) F F1)) by (rewrite V1; lra). rewrite (proj2 (ltb_false (dint 45) a F2 F)) by (rewrite V2; lra). reflexivity. }
  split; auto. rewrite D. pose proof (div_ok (dint 1) (dplus (dint 1) (dexp m (dopp a))) F3) as Q. rewrite V3 in Q. apply Q; [lra|]. apply small_max. rewrite Rabs_pos_eq; [|apply Rmult_le_pos; [lra|]; left; apply Rinv_0_lt_compat; lra].
  apply Rle_trans with 1; [|lra]. apply Rmult_le_reg_r with (val (dplus (dint 1) (dexp m (dopp a)))); [lra|]. unfold Rdiv. rewrite Rmult_assoc, Rinv_l by lra. lra.
Qed.
Lemma logistic_range a : is_nan a = false -> finite (d_logistic m a) /\ 0 <= val (d_logistic m a) <= 1.
Proof.
  intros N. destruct fin0 as (F0 & V0), fin1 as (F1 & V1). destruct (is_finite a) eqn:F.
  - destruct finm45 as (G1 & W1), fin45 as (G2 & W2). destruct (Rlt_dec (val a) (-45)) as [L|L].
    + unfold d_logistic. rewrite (proj2 (ltb_true a _ F G1)) by (rewrite W1; lra). rewrite V0. split; auto. lra.
    + destruct (Rlt_dec 45 (val a)) as [L'|L'].
      * unfold d_logistic. rewrite (proj2 (ltb_false a _ F G1)) by (rewrite W1; lra). rewrite (proj2 (ltb_true _ a G2 F)) by (rewrite W2; lra). rewrite V1. split; auto. lra.
      * destruct (logistic_finite a F ltac:(lra)) as (e & s & _ & _ & _ & Hs & _ & HF). split; [apply HF|].
        destruct (faithful_range _ _ (dint 0) (dint 1) HF F0 F1); [|rewrite V0, V1 in *; lra]. rewrite V0, V1.
        split; [apply Rmult_le_pos; [lra|]; left; apply Rinv_0_lt_compat; lra|]. apply Rmult_le_reg_r with (val s); [lra|]. unfold Rdiv. rewrite Rmult_assoc, Rinv_l by lra. lra.
  - Transparent dint. destruct a as [| [] | |]; try discriminate; unfold d_logistic; cbn - [dint]; [change (dltb (B754_infinity true) (dopp (dint 45))) with true|change (dltb (B754_infinity false) (dopp (dint 45))) with false; change (dltb (dint 45) (B754_infinity false)) with true]; cbn iota; rewrite ?V0, ?V1; split; auto; lra. Opaque dint.
Qed.

Lemma logistic_accuracy a : finite a -> Rabs (val (d_logistic m a) - act_fun LOGISTIC (val a)) <= 1 / 10 ^ 14.
Proof.
  intros F. destruct fin0 as (F0 & V0), fin1 as (F1 & V1), finm45 as (G1 & W1), fin45 as (G2 & W2). cbn [act_fun].
  unfold Rltb. destruct (Rlt_dec (val a) (-45)) as [L|L].
  { unfold d_logistic. rewrite (proj2 (ltb_true a _ F G1)) by (rewrite W1; lra). rewrite V0, Rminus_0_r, Rabs_R0. lra. }
  destruct (Rlt_dec 45 (val a)) as [L'|L'].
  { unfold d_logistic. rewrite (proj2 (ltb_false a _ F G1)) by (rewrite W1; lra). rewrite (proj2 (ltb_true _ a G2 F)) by (rewrite W2; lra). rewrite V1. replace (1 - 1) with 0 by ring. rewrite Rabs_R0. lra. }
  destruct (logistic_finite a F ltac:(lra)) as (e & s & He & Hs & He0 & Hs1 & _ & HF). pose proof (exp45 (- val a) ltac:(lra)) as X. set (E := exp (- val a)) in *. clearbody E.
  pose proof eps_small as EP. pose proof tiny_tiny as TN. pose proof (dist _ _ E He ltac:(rewrite Rabs_pos_eq; lra) ltac:(lra)) as D1. apply Rabs_le_inv in D1.
  assert (E1 : eps * E <= 1 * E) by (apply Rmult_le_compat_r; lra).
  pose proof (dist _ _ (1 + val e) Hs ltac:(rewrite Rabs_pos_eq; lra) ltac:(lra)) as D2. apply Rabs_le_inv in D2.
  assert (I1 : 0 < / val s <= 1). { split; [apply Rinv_0_lt_compat; lra|]. rewrite <- Rinv_1. apply Rinv_le; lra. }
  pose proof (dist _ _ 1 HF ltac:(unfold Rdiv; rewrite Rabs_pos_eq; lra) ltac:(lra)) as D3.
  assert (Q : Rabs (1 / val s - 1 / (1 + E)) <= 3 * eps + 3 * tiny).
  { replace (1 / val s - 1 / (1 + E)) with ((1 + E - val s) * (/ val s * / (1 + E))) by (field; lra). rewrite Rabs_mult. rewrite (Rabs_pos_eq (_ * _)) by (apply Rmult_le_pos; [lra|left; apply Rinv_0_lt_compat; lra]).
    assert (B : Rabs (1 + E - val s) <= (3 * eps + 3 * tiny) * (1 + E)). { assert (K1 : eps * val e <= eps * (2 * E + tiny)) by (apply Rmult_le_compat_l; lra). assert (K2 : 0 <= tiny * E) by (apply Rmult_le_pos; lra). assert (K3 : eps * tiny <= 1 * tiny) by (apply Rmult_le_compat_r; lra). assert (K4 : 0 <= eps * E) by (apply Rmult_le_pos; lra). apply Rabs_le. split; lra. }
    assert (J : 0 < / (1 + E)) by (apply Rinv_0_lt_compat; lra).
    apply Rle_trans with ((3 * eps + 3 * tiny) * (1 + E) * (1 * / (1 + E))); [|right; field; lra].
    apply Rmult_le_compat; auto using Rabs_pos; [apply Rmult_le_pos; lra|]. apply Rmult_le_compat_r; lra. }
  apply Rabs_le_inv in D3, Q. apply Rabs_le. lra.
Qed.
Lemma logisticDerivative_ok z : finite z -> 0 <= val z <= 1 -> finite (d_logisticDerivative z) /\ 0 <= val (d_logisticDerivative z) <= 1 /\
  Rabs (val (d_logisticDerivative z) - act_der LOGISTIC (val z)) <= 1 / 10 ^ 14.
Proof.
  intros F H. destruct fin0 as (F0 & V0), fin1 as (F1 & V1). pose proof max_big. pose proof eps_small. pose proof tiny_tiny.
  pose proof (minus_ok (dint 1) z F1 F) as W. rewrite V1 in W. specialize (W ltac:(apply small_max; rewrite Rabs_pos_eq; lra)).
  pose proof (faithful_range _ _ (dint 0) (dint 1) W F0 F1 ltac:(lra)) as WR. rewrite V0, V1 in WR. pose proof (dist _ _ 1 W ltac:(rewrite Rabs_pos_eq; lra) ltac:(lra)) as D1. apply Rabs_le_inv in D1.
  pose proof (mult_ok z (dminus (dint 1) z) F (proj1 W) ltac:(apply small_max; rewrite Rabs_pos_eq; nra)) as Y. fold (d_logisticDerivative z) in Y.
  pose proof (faithful_range _ _ (dint 0) (dint 1) Y F0 F1 ltac:(rewrite V0, V1; nra)) as YR. rewrite V0, V1 in YR. pose proof (dist _ _ 1 Y ltac:(rewrite Rabs_pos_eq; nra) ltac:(lra)) as D2. apply Rabs_le_inv in D2.
  split; [apply Y|]. split; auto. cbn [act_der]. set (w := val (dminus (dint 1) z)) in *. set (x := val z) in *. assert (M1 : x * w <= x * (1 - x + (eps * 1 + tiny))) by (apply Rmult_le_compat_l; lra). assert (M2 : x * (1 - x - (eps * 1 + tiny)) <= x * w) by (apply Rmult_le_compat_l; lra). assert (M3 : x * (eps * 1 + tiny) <= 1 * (eps * 1 + tiny)) by (apply Rmult_le_compat_r; lra). apply Rabs_le. split; lra.
Qed.

(** * tanh *)
Lemma normaltanh_range a : is_nan a = false -> finite (d_normaltanh m a) /\ -1 <= val (d_normaltanh m a) <= 1.
Proof.
  intros N. unfold d_normaltanh. destruct (is_finite a) eqn:F.
  - pose proof (tanh_accurate _ A a F) as T. split; [apply T|]. apply (faithful_ints _ _ (-1) 1 T); try lia. pose proof (tanh_range (val a)). lra.
  - destruct a as [|s| |]; try discriminate. destruct (tanh_infinity _ A s) as (H1 & H2). split; auto. rewrite H2. destruct s; lra.
Qed.
Lemma normaltanh_accuracy a : finite a -> Rabs (val (d_normaltanh m a) - act_fun TANH (val a)) <= 1 / 10 ^ 14.
Proof.
  intros F. pose proof (tanh_accurate _ A a F) as T. pose proof (tanh_range (val a)) as B. pose proof (dist _ _ 1 T ltac:(apply Rabs_le; lra) ltac:(lra)) as Q. pose proof eps_small. pose proof tiny_tiny. cbn [act_fun]. unfold d_normaltanh. lra.
Qed.
Lemma normaltanhDerivative_ok z : finite z -> -1 <= val z <= 1 -> finite (d_normaltanhDerivative z) /\ 0 <= val (d_normaltanhDerivative z) <= 1 /\
  Rabs (val (d_normaltanhDerivative z) - act_der TANH (val z)) <= 1 / 10 ^ 14.
Proof.
  intros F H. destruct fin0 as (F0 & V0), fin1 as (F1 & V1). pose proof max_big. pose proof eps_small. pose proof tiny_tiny.
  pose proof (mult_ok z z F F ltac:(apply small_max; rewrite Rabs_pos_eq; nra)) as W.
  pose proof (faithful_range _ _ (dint 0) (dint 1) W F0 F1 ltac:(rewrite V0, V1; nra)) as WR. rewrite V0, V1 in WR. pose proof (dist _ _ 1 W ltac:(rewrite Rabs_pos_eq; nra) ltac:(lra)) as D1. apply Rabs_le_inv in D1.
  pose proof (minus_ok (dint 1) (dmult z z) F1 (proj1 W)) as Y. rewrite V1 in Y. specialize (Y ltac:(apply small_max; rewrite Rabs_pos_eq; lra)). fold (d_normaltanhDerivative z) in Y.
  pose proof (faithful_range _ _ (dint 0) (dint 1) Y F0 F1 ltac:(rewrite V0, V1; lra)) as YR. rewrite V0, V1 in YR. pose proof (dist _ _ 1 Y ltac:(rewrite Rabs_pos_eq; lra) ltac:(lra)) as D2. apply Rabs_le_inv in D2.
  split; [apply Y|]. split; auto. cbn [act_der]. apply Rabs_le. lra.
Qed.

(** * The scaled tanh *)
Lemma tanh_lipschitz x y : Rabs (tanh x - tanh y) <= Rabs (x - y).
Proof.
  assert (G : forall u v, u < v -> Rabs (tanh v - tanh u) <= Rabs (v - u)).
  { intros u v H. destruct (MVT_cor2 tanh (fun t => 1 - tanh t * tanh t) u v H) as (c & E & _); [intros; apply D_tanh|]. rewrite E, Rabs_mult. pose proof (tanh_range c). pose proof (Rabs_pos (v - u)).
    assert (Rabs (1 - tanh c * tanh c) <= 1) by (apply Rabs_le; nra). nra. }
  destruct (Rtotal_order x y) as [L|[->|L]]; auto.
  - rewrite (Rabs_minus_sym (tanh x)), (Rabs_minus_sym x). auto.
  - replace (tanh y - tanh y) with 0 by ring. rewrite Rabs_R0. apply Rabs_pos.
Qed.
Lemma tanh_saturated x : 30 <= x -> 1 - 1 / 10 ^ 17 <= tanh x.
Proof.
  intros H. apply Rle_trans with (tanh 30); [|now apply tanh_le]. unfold tanh, sinh, cosh.
  assert (E : exp 30 * exp (- (30)) = 1) by (rewrite <- exp_plus; replace (30 + - (30)) with 0 by ring; apply exp_0).
  assert (B : 2 ^ 30 <= exp 30).
  { replace (exp 30) with (exp 1 ^ 30). - apply pow_incr. pose proof (exp_ineq1_le 1). lra. - rewrite <- Rpower_pow by apply exp_pos. unfold Rpower. rewrite ln_exp. f_equal. cbn. lra. }
  pose proof (exp_pos (- (30))) as P. set (u := exp 30) in *. set (v := exp (- (30))) in *. clearbody u v.
  apply Rmult_le_reg_r with ((u + v) / 2); [lra|]. replace ((u - v) / 2 / ((u + v) / 2) * ((u + v) / 2)) with ((u - v) / 2) by (field; lra).
  assert (v * u * u = u) by (rewrite (Rmult_comm v u), E; ring). assert (2 ^ 30 * 2 ^ 30 <= u * u) by (apply Rmult_le_compat; lra). assert (v * (2 ^ 30 * 2 ^ 30) <= v * (u * u)) by (apply Rmult_le_compat_l; lra). lra.
Qed.
Lemma tanh_saturated' x : x <= -30 -> tanh x <= -1 + 1 / 10 ^ 17.
Proof.
  intros H. pose proof (tanh_saturated (- x) ltac:(lra)) as T. replace (tanh (- x)) with (- tanh x) in T; [lra|]. unfold tanh, sinh, cosh. rewrite Ropp_involutive. pose proof (exp_pos x). pose proof (exp_pos (- x)). field. lra.
Qed.
Lemma mult_err a b a' b' da db B1 B2 : Rabs (a - a') <= da -> Rabs (b - b') <= db -> Rabs a <= B1 -> Rabs b' <= B2 -> Rabs (a * b - a' * b') <= B1 * db + da * B2.
Proof.
  intros H1 H2 H3 H4. replace (a * b - a' * b') with (a * (b - b') + (a - a') * b') by ring. apply Rle_trans with (1 := Rabs_triang _ _). rewrite !Rabs_mult. apply Rplus_le_compat; apply Rmult_le_compat; auto using Rabs_pos.
Qed.
Lemma val_max x : Rabs (val x) <= maxDouble.
Proof. apply Rle_trans with (1 := abs_B2R_le_emax_minus_prec 53 1024 _ x). right. change (1024 - 53)%Z with (Z.of_nat 971). change 1024%Z with (Z.of_nat 1024). now rewrite !bpow_pow. Qed.
Lemma faithful_ge y r z : faithful y r -> (Z.abs z <= 2 ^ 53)%Z -> IZR z <= r -> IZR z <= val y.
Proof. intros F H1 H2. destruct (int_ok z H1) as (Z1 & Z2). rewrite <- Z2. apply (proj2 F); auto. now rewrite Z2. Qed.
Lemma faithful_le y r z : faithful y r -> (Z.abs z <= 2 ^ 53)%Z -> r <= IZR z -> val y <= IZR z.
Proof. intros F H1 H2. destruct (int_ok z H1) as (Z1 & Z2). rewrite <- Z2. apply (proj2 F); auto. now rewrite Z2. Qed.
Lemma scaled_arg a : finite a -> faithful (dmult (literal 66666667 8) a) (val (literal 66666667 8) * val a).
Proof.
  intros F. destruct lit6 as (L1 & L2). apply Rabs_le_inv in L2. apply mult_ok; auto. rewrite Rabs_mult. apply Rle_trans with (1 * Rabs (val a)); [apply Rmult_le_compat_r; [apply Rabs_pos|]; apply Rabs_le; lra|]. rewrite Rmult_1_l. apply val_max.
Qed.
Lemma scaled_value t : finite t -> -1 <= val t <= 1 ->
  faithful (dmult (literal 17159 4) t) (val (literal 17159 4) * val t) /\ - val (literal 17159 4) <= val (dmult (literal 17159 4) t) <= val (literal 17159 4).
Proof.
  intros F H. destruct lit17 as (L1 & L2). apply Rabs_le_inv in L2. set (c := val (literal 17159 4)) in *.
  assert (B : - c <= c * val t <= c). { assert (c * -1 <= c * val t) by (apply Rmult_le_compat_l; lra). assert (c * val t <= c * 1) by (apply Rmult_le_compat_l; lra). lra. }
  assert (Q : faithful (dmult (literal 17159 4) t) (c * val t)) by (apply mult_ok; auto; apply small_max, Rabs_le; fold c; lra).
  split; auto. destruct (opp_ok _ L1) as (O1 & O2). pose proof (faithful_range _ _ (dopp (literal 17159 4)) (literal 17159 4) Q O1 L1) as R1. rewrite O2 in R1. fold c in R1. auto.
Qed.
Lemma scaledtanh_range a : is_nan a = false -> finite (d_scaledtanh m a) /\ - val (literal 17159 4) <= val (d_scaledtanh m a) <= val (literal 17159 4).
Proof.
  intros N. unfold d_scaledtanh. destruct (is_finite a) eqn:F.
  - pose proof (scaled_arg a F) as P. pose proof (tanh_accurate _ A _ (proj1 P)) as T.
    assert (R1 : -1 <= val (dtanh m (dmult (literal 66666667 8) a)) <= 1). { apply (faithful_ints _ _ (-1) 1 T); try lia. pose proof (tanh_range (val (dmult (literal 66666667 8) a))). lra. }
    destruct (scaled_value _ (proj1 T) R1) as (V1 & V2). split; [apply V1|auto].
  - destruct a as [|s| |]; try discriminate. assert (I : dmult (literal 66666667 8) (B754_infinity s) = B754_infinity s).
    { Transparent literal dint. destruct s; vm_compute; reflexivity. Opaque literal dint. }
    rewrite I. destruct (tanh_infinity _ A s) as (H1 & H2). destruct (scaled_value (dtanh m (B754_infinity s)) H1) as (V1 & V2); [rewrite H2; destruct s; lra|]. split; [apply V1|auto].
Qed.
Lemma scaledtanh_accuracy a : finite a -> Rabs (val (d_scaledtanh m a) - sigma TANH_SCALED (val a)) <= 1 / 10 ^ 12.
Proof.
  intros F. unfold d_scaledtanh, sigma. pose proof (scaled_arg a F) as P. pose proof (tanh_accurate _ A _ (proj1 P)) as T.
  assert (R1 : -1 <= val (dtanh m (dmult (literal 66666667 8) a)) <= 1). { apply (faithful_ints _ _ (-1) 1 T); try lia. pose proof (tanh_range (val (dmult (literal 66666667 8) a))). lra. }
  destruct (scaled_value _ (proj1 T) R1) as (V1 & V2). destruct lit6 as (L1 & L2), lit17 as (L3 & L4). pose proof L2 as L2'. pose proof L4 as L4'. apply Rabs_le_inv in L2', L4'. pose proof eps_small as EP. pose proof tiny_tiny as TN.
  pose proof (tanh_range (val (dmult (literal 66666667 8) a))) as TR. pose proof (dist _ _ 1 T ltac:(apply Rabs_le; lra) ltac:(lra)) as D1.
  pose proof (tanh_range (0.66666667 * val a)) as TR'.
  assert (S : Rabs (tanh (val (dmult (literal 66666667 8) a)) - tanh (0.66666667 * val a)) <= 1 / 10 ^ 13).
  { destruct (Rle_dec (Rabs (val a)) 60) as [B|B].
    - apply Rle_trans with (1 := tanh_lipschitz _ _). assert (M : Rabs (val (literal 66666667 8) * val a - 0.66666667 * val a) <= 1 / 10 ^ 15 * 60).
      { rewrite <- Rmult_minus_distr_r, Rabs_mult. apply Rmult_le_compat; auto using Rabs_pos. }
      assert (M' : Rabs (val (literal 66666667 8) * val a) <= 60). { rewrite Rabs_mult. apply Rle_trans with (1 * 60); [|lra]. apply Rmult_le_compat; auto using Rabs_pos. apply Rabs_le; lra. }
      pose proof (dist _ _ 60 P M' ltac:(lra)) as D2. apply Rabs_le_inv in M, D2. apply Rabs_le. lra.
    - destruct (Rle_dec 0 (val a)) as [G|G].
      + rewrite Rabs_pos_eq in B by auto. assert (0.6 * 60 <= val (literal 66666667 8) * val a) by (apply Rmult_le_compat; lra). pose proof (tanh_saturated _ (faithful_ge _ _ 30 P ltac:(lia) ltac:(lra))). pose proof (tanh_saturated (0.66666667 * val a) ltac:(lra)). apply Rabs_le. lra.
      + rewrite Rabs_left in B by lra. assert (0.6 * 60 <= val (literal 66666667 8) * - val a) by (apply Rmult_le_compat; lra). pose proof (tanh_saturated' _ (faithful_le _ _ (-30) P ltac:(lia) ltac:(lra))). pose proof (tanh_saturated' (0.66666667 * val a) ltac:(lra)). apply Rabs_le. lra. }
  assert (M : Rabs (val (dtanh m (dmult (literal 66666667 8) a)) - tanh (0.66666667 * val a)) <= 2 / 10 ^ 13). { apply Rabs_le_inv in D1, S. apply Rabs_le. lra. }
  pose proof (mult_err _ _ _ _ _ _ 2 1 L4 M ltac:(apply Rabs_le; lra) ltac:(apply Rabs_le; lra)) as E.
  set (c := val (literal 17159 4)) in *. set (t := val (dtanh m (dmult (literal 66666667 8) a))) in *.
  assert (B2 : Rabs (c * t) <= 2). { rewrite Rabs_mult. apply Rle_trans with (2 * 1); [|lra]. apply Rmult_le_compat; auto using Rabs_pos; apply Rabs_le; lra. }
  pose proof (dist _ _ 2 V1 B2 ltac:(lra)) as D3. apply Rabs_le_inv in D3, E. apply Rabs_le. lra.
Qed.
Lemma scaledtanhDerivative_ok z : finite z -> - val (literal 17159 4) <= val z <= val (literal 17159 4) ->
  finite (d_scaledtanhDerivative z) /\ 0 <= val (d_scaledtanhDerivative z) <= 16 /\ Rabs (val (d_scaledtanhDerivative z) - act_der TANH_SCALED (val z)) <= 1 / 10 ^ 12.
Proof.
  intros F H. destruct lit6 as (L1 & L2), lit17 as (L3 & L4). pose proof L2 as L2'. pose proof L4 as L4'. apply Rabs_le_inv in L2', L4'. pose proof eps_small as EP. pose proof tiny_tiny as TN.
  unfold d_scaledtanhDerivative. cbn [act_der].
  pose proof (div_ok (literal 66666667 8) (literal 17159 4) L1) as Q. pose proof (plus_ok (literal 17159 4) z L3 F) as U. pose proof (minus_ok (literal 17159 4) z L3 F) as W.
  set (c := val (literal 17159 4)) in *. set (e := val (literal 66666667 8)) in *. set (x := val z) in *. clearbody c e x.
  assert (IC : / 1.72 <= / c <= / 1.71) by (split; apply Rinv_le; lra). assert (QB : 0 <= e / c <= 1). { unfold Rdiv. split; [apply Rmult_le_pos; lra|]. apply Rle_trans with (1 * / 1.71); [apply Rmult_le_compat; lra|lra]. }
  specialize (Q ltac:(lra) ltac:(apply small_max, Rabs_le; lra)). specialize (U ltac:(apply small_max, Rabs_le; lra)). specialize (W ltac:(apply small_max, Rabs_le; lra)).
  assert (QE : Rabs (e / c - 0.66666667 / 1.7159) <= 3 / 10 ^ 15).
  { replace (e / c - 0.66666667 / 1.7159) with ((e - 0.66666667) * / 1.7159 + e * / c * ((1.7159 - c) * / 1.7159)) by (field; lra). apply Rle_trans with (1 := Rabs_triang _ _). rewrite !Rabs_mult. rewrite (Rabs_pos_eq (/ 1.7159)) by lra. 
    fold (e / c). rewrite <- Rabs_mult. fold (Rdiv e c). rewrite (Rabs_pos_eq (e / c)) by lra. rewrite Rabs_minus_sym in L4.
    assert (Rabs (e - 0.66666667) * / 1.7159 <= 1 / 10 ^ 15 * 1) by (apply Rmult_le_compat; auto using Rabs_pos; lra).
    assert (Rabs (1.7159 - c) * / 1.7159 <= 1 / 10 ^ 15 * 1) by (apply Rmult_le_compat; auto using Rabs_pos; lra).
    assert (e / c * (Rabs (1.7159 - c) * / 1.7159) <= 1 * (1 / 10 ^ 15 * 1)) by (apply Rmult_le_compat; try lra; apply Rmult_le_pos; [apply Rabs_pos|lra]). lra. }
  pose proof (faithful_ints _ _ 0 1 Q ltac:(lia) ltac:(lia) QB) as QR. pose proof (faithful_ints _ _ 0 4 U ltac:(lia) ltac:(lia) ltac:(lra)) as UR. pose proof (faithful_ints _ _ 0 4 W ltac:(lia) ltac:(lia) ltac:(lra)) as WR.
  pose proof (dist _ _ 1 Q ltac:(apply Rabs_le; lra) ltac:(lra)) as DQ. pose proof (dist _ _ 4 U ltac:(apply Rabs_le; lra) ltac:(lra)) as DU. pose proof (dist _ _ 4 W ltac:(apply Rabs_le; lra) ltac:(lra)) as DW.
  pose proof (mult_ok _ _ (proj1 Q) (proj1 U)) as P. set (q := ddiv _ _) in *. set (u := dplus _ _) in *. set (w := dminus _ _) in *.
  assert (PB : 0 <= val q * val u <= 4). { split; [apply Rmult_le_pos; lra|]. apply Rle_trans with (1 * 4); [apply Rmult_le_compat; lra|lra]. }
  specialize (P ltac:(apply small_max, Rabs_le; lra)). pose proof (faithful_ints _ _ 0 4 P ltac:(lia) ltac:(lia) PB) as PR. pose proof (dist _ _ 4 P ltac:(apply Rabs_le; lra) ltac:(lra)) as DP.
  pose proof (mult_ok _ _ (proj1 P) (proj1 W)) as Z. set (p := dmult q u) in *.
  assert (ZB : 0 <= val p * val w <= 16). { split; [apply Rmult_le_pos; lra|]. apply Rle_trans with (4 * 4); [apply Rmult_le_compat; lra|lra]. }
  specialize (Z ltac:(apply small_max, Rabs_le; lra)). pose proof (faithful_ints _ _ 0 16 Z ltac:(lia) ltac:(lia) ZB) as ZR. pose proof (dist _ _ 16 Z ltac:(apply Rabs_le; lra) ltac:(lra)) as DZ.
  split; [apply Z|]. split; auto.
  assert (E1 : Rabs (val q - 0.66666667 / 1.7159) <= 4 / 10 ^ 15) by (apply Rabs_le_inv in QE, DQ; apply Rabs_le; lra).
  assert (E2 : Rabs (val u - (1.7159 + x)) <= 3 / 10 ^ 15) by (apply Rabs_le_inv in DU; apply Rabs_le; lra).
  assert (E3 : Rabs (val w - (1.7159 - x)) <= 3 / 10 ^ 15) by (apply Rabs_le_inv in DW; apply Rabs_le; lra).
  pose proof (mult_err _ _ _ _ _ _ 1 4 E1 E2 ltac:(apply Rabs_le; lra) ltac:(apply Rabs_le; lra)) as E4.
  assert (E5 : Rabs (val p - 0.66666667 / 1.7159 * (1.7159 + x)) <= 21 / 10 ^ 15) by (apply Rabs_le_inv in DP, E4; apply Rabs_le; lra).
  pose proof (mult_err _ _ _ _ _ _ 4 4 E5 E3 ltac:(apply Rabs_le; lra) ltac:(apply Rabs_le; lra)) as E6.
  apply Rabs_le_inv in DZ, E6. apply Rabs_le. lra.
Qed.

(** * The rectifier *)
Lemma rectifier_ok a : is_nan a = false -> (is_finite (d_rectifier a) = true <-> finite a \/ a = B754_infinity true) /\ 0 <= val (d_rectifier a) /\ (finite a -> finite (d_rectifier a) /\ val (d_rectifier a) = Rmax 0 (val a)).
Proof.
  intros N. destruct fin0 as (F0 & V0). unfold d_rectifier. destruct (is_finite a) eqn:F.
  - destruct (dltb (dint 0) a) eqn:L.
    + apply (ltb_true _ _ F0 F) in L. rewrite V0 in L. unfold finite. rewrite F. repeat split; auto; try lra. rewrite Rmax_right; lra.
    + apply (ltb_false _ _ F0 F) in L. rewrite V0 in L. rewrite V0. unfold finite. rewrite F. repeat split; auto; try lra. rewrite Rmax_left; lra.
  - destruct a as [|[]| |]; try discriminate; unfold finite.
    + change (dltb (dint 0) (B754_infinity true)) with false. cbn iota. rewrite V0. repeat split; auto; try lra; try discriminate.
    + change (dltb (dint 0) (B754_infinity false)) with true. cbn iota. cbn. repeat split; try lra; try discriminate. intros [H|H]; discriminate.
Qed.
Lemma rectifierDerivative_ok z : is_nan z = false -> finite (d_rectifierDerivative z) /\ (val (d_rectifierDerivative z) = 0 \/ val (d_rectifierDerivative z) = 1) /\ (finite z -> val (d_rectifierDerivative z) = act_der RECTIFIER (val z)).
Proof.
  intros N. destruct fin0 as (F0 & V0), fin1 as (F1 & V1). unfold d_rectifierDerivative.
  assert (O : finite (dmult (dint 1) (dint 1)) /\ val (dmult (dint 1) (dint 1)) = 1).
  { pose proof (mult_ok _ _ F1 F1) as M. rewrite V1 in M. specialize (M ltac:(apply small_max, Rabs_le; lra)). split; [apply M|]. rewrite (faithful_exact _ _ (dint 1) M F1); lra. }
  assert (Z : finite (dmult (dint 0) (dint 1)) /\ val (dmult (dint 0) (dint 1)) = 0).
  { pose proof (mult_ok _ _ F0 F1) as M. rewrite V0, V1 in M. specialize (M ltac:(apply small_max, Rabs_le; lra)). split; [apply M|]. rewrite (faithful_exact _ _ (dint 0) M F0); lra. }
  cbn [act_der]. split; [|split]; [destruct (dltb _ _); tauto|destruct (dltb _ _); tauto|]. intros F. destruct (dltb (dint 0) z) eqn:L.
  - apply (ltb_true _ _ F0 F) in L. rewrite V0 in L. unfold Rltb. destruct (Rlt_dec 0 (val z)); [|lra]. destruct O as (_ & ->). lra.
  - apply (ltb_false _ _ F0 F) in L. rewrite V0 in L. unfold Rltb. destruct (Rlt_dec 0 (val z)); [lra|]. destruct Z as (_ & ->). lra.
Qed.

(** * All together *)
Lemma logistic_cut x : Rabs (act_fun LOGISTIC x - sigma LOGISTIC x) <= 1 / 10 ^ 15.
Proof.
  assert (E : exp (-45) <= 1 / 10 ^ 15).
  { replace (exp (-45)) with (/ exp 45) by (rewrite <- exp_Ropp; f_equal; lra). replace (exp 45) with (exp (/2) ^ 90).
    - assert (H : 1.5 ^ 90 <= exp (/2) ^ 90) by (apply pow_incr; pose proof (exp_ineq1_le (/2)); lra). apply Rle_trans with (/ 1.5 ^ 90); [|lra]. apply Rinv_le; [lra|exact H].
    - rewrite <- Rpower_pow by apply exp_pos. unfold Rpower. rewrite ln_exp. f_equal. cbn. lra. }
  apply Rle_trans with (2 := E). cbn [sigma]. rewrite logistic_mid. apply C30_logistic_error.
Qed.
Lemma act_finite act a : finite a -> finite (d_act m act a).
Proof.
  intros F. assert (N : is_nan a = false) by (destruct a; auto; discriminate). destruct act; cbn [d_act]; auto.
  - now apply logistic_range. - now apply normaltanh_range. - now apply scaledtanh_range. - now apply rectifier_ok.
Qed.
Lemma act_accuracy act a : finite a -> Rabs (val (d_act m act a) - sigma act (val a)) <= 1 / 10 ^ 12.
Proof.
  intros F. assert (N : is_nan a = false) by (destruct a; auto; discriminate). destruct act; cbn [d_act].
  - pose proof (logistic_accuracy a F) as H1. pose proof (logistic_cut (val a)) as H2. apply Rabs_le_inv in H1, H2. apply Rabs_le. lra.
  - pose proof (normaltanh_accuracy a F) as H1. cbn [act_fun] in H1. cbn [sigma]. lra.
  - now apply scaledtanh_accuracy.
  - destruct (rectifier_ok a N) as (_ & _ & H). cbn [sigma]. destruct (H F) as (_ & ->). replace (_ - _) with 0 by ring. rewrite Rabs_R0. lra.
  - cbn [sigma]. replace (_ - _) with 0 by ring. rewrite Rabs_R0. lra.
Qed.
Lemma derivative_finite act a : is_nan a = false ->
  finite (d_actDerivative act (d_act m act a)) /\ 0 <= val (d_actDerivative act (d_act m act a)).
Proof.
  intros N. destruct act; cbn [d_act d_actDerivative].
  - destruct (logistic_range a N) as (H1 & H2). destruct (logisticDerivative_ok _ H1 H2) as (H3 & H4 & _). split; [auto|apply H4].
  - destruct (normaltanh_range a N) as (H1 & H2). destruct (normaltanhDerivative_ok _ H1 H2) as (H3 & H4 & _). split; [auto|apply H4].
  - destruct (scaledtanh_range a N) as (H1 & H2). destruct (scaledtanhDerivative_ok _ H1 H2) as (H3 & H4 & _). split; [auto|apply H4].
  - assert (Nr : is_nan (d_rectifier a) = false) by (unfold d_rectifier; destruct (dltb _ _); auto). destruct (rectifierDerivative_ok _ Nr) as (H1 & [H2|H2] & _); rewrite H2; split; auto; lra.
  - destruct fin1 as (F1 & V1). rewrite V1. split; auto. lra.
Qed.
Lemma derivative_accuracy act a l : finite a -> derivable_pt_lim (sigma act) (val a) l ->
  Rabs (val (d_actDerivative act (d_act m act a)) - l) <= 1 / 10 ^ 11.
Proof.
  intros F L. assert (N : is_nan a = false) by (destruct a; auto; discriminate). pose proof (act_accuracy act a F) as AC. destruct act; cbn [d_act d_actDerivative] in *.
  - destruct (logistic_range a N) as (H1 & H2). destruct (logisticDerivative_ok _ H1 H2) as (_ & _ & H3). rewrite (D_unique _ _ _ _ L (D_logistic (val a))). cbn [sigma act_der] in *.
    pose proof (logistic_bounds (val a)) as B. set (z := val (d_logistic m a)) in *. set (s := 1 / (1 + exp (- val a))) in *. clearbody s.
    assert (Q : Rabs (z * (1 - z) - s * (1 - s)) <= 1 * (1 / 10 ^ 12) + 1 / 10 ^ 12 * 1).
    { apply mult_err; auto; [|apply Rabs_le; lra|apply Rabs_le; lra]. apply Rabs_le_inv in AC. apply Rabs_le. lra. }
    apply Rabs_le_inv in H3, Q. apply Rabs_le. lra.
  - destruct (normaltanh_range a N) as (H1 & H2). destruct (normaltanhDerivative_ok _ H1 H2) as (_ & _ & H3). rewrite (D_unique _ _ _ _ L (D_tanh (val a))). cbn [sigma act_der] in *.
    pose proof (tanh_range (val a)) as B. set (z := val (d_normaltanh m a)) in *. set (s := tanh (val a)) in *. clearbody s.
    assert (Q : Rabs (z * z - s * s) <= 1 * (1 / 10 ^ 12) + 1 / 10 ^ 12 * 1) by (apply mult_err; auto; apply Rabs_le; lra).
    apply Rabs_le_inv in H3, Q. apply Rabs_le. lra.
  - destruct (scaledtanh_range a N) as (H1 & H2). destruct (scaledtanhDerivative_ok _ H1 H2) as (_ & _ & H3). pose proof (act_derivative TANH_SCALED (val a) Logic.I) as DS. cbn [act_fun act_der] in DS. rewrite (D_unique _ _ _ _ L DS). cbn [sigma act_der] in *.
    pose proof (tanh_range (0.66666667 * val a)) as B. destruct lit17 as (_ & L4). apply Rabs_le_inv in L4. set (z := val (d_scaledtanh m a)) in *. set (s := tanh (0.66666667 * val a)) in *. clearbody s z.
    assert (Q : Rabs (z * z - 1.7159 * s * (1.7159 * s)) <= 2 * (1 / 10 ^ 12) + 1 / 10 ^ 12 * 2) by (apply mult_err; auto; apply Rabs_le; lra).
    set (r := z * z) in *. set (r' := 1.7159 * s * (1.7159 * s)) in *. assert (G1 : 0.66666667 / 1.7159 * (1.7159 + z) * (1.7159 - z) = 0.66666667 / 1.7159 * (1.7159 * 1.7159 - r)) by (unfold r; ring). assert (G2 : 0.66666667 / 1.7159 * (1.7159 + 1.7159 * s) * (1.7159 - 1.7159 * s) = 0.66666667 / 1.7159 * (1.7159 * 1.7159 - r')) by (unfold r'; ring).
    rewrite G2. rewrite G1 in H3. clearbody r r'. apply Rabs_le_inv in H3, Q. apply Rabs_le. lra.
  - destruct (rectifier_ok a N) as (_ & _ & H). destruct (H F) as (H1 & H2). assert (Nr : is_nan (d_rectifier a) = false) by (destruct (d_rectifier a); auto; discriminate). destruct (rectifierDerivative_ok _ Nr) as (_ & _ & H3). rewrite (H3 H1), H2.
    destruct (Req_dec (val a) 0) as [E|E].
    { exfalso. rewrite E in L. destruct (L (1/2) ltac:(lra)) as ((d & Hd) & Q). cbn in Q. pose proof (Q (d / 2) ltac:(lra) ltac:(rewrite Rabs_pos_eq; lra)) as Q1. pose proof (Q (- (d / 2)) ltac:(lra) ltac:(rewrite Rabs_left; lra)) as Q2.
      rewrite Rplus_0_l, (Rmax_right 0 (d / 2)), (Rmax_left 0 0) in Q1 by lra. rewrite Rplus_0_l, (Rmax_left 0 (- (d / 2))), (Rmax_left 0 0) in Q2 by lra. replace ((d / 2 - 0) / (d / 2) - l) with (1 - l) in Q1 by (field; lra). replace ((0 - 0) / - (d / 2) - l) with (- l) in Q2 by (field; lra). apply Rabs_def2 in Q1, Q2. lra. }
    pose proof (act_derivative RECTIFIER (val a) E) as DS. cbn [act_fun] in DS. rewrite (D_unique _ _ _ _ L DS). replace (_ - _) with 0 by ring. rewrite Rabs_R0. lra.
  - rewrite (D_unique _ _ _ _ L (D_id (val a))). destruct fin1 as (_ & ->). replace (1 - 1) with 0 by ring. rewrite Rabs_R0. lra.
Qed.
Lemma nan_logistic : d_act m LOGISTIC B754_nan = B754_nan.
Proof. cbn [d_act]. unfold d_logistic. cbn. rewrite (exp_nan _ A). Transparent dint. reflexivity. Opaque dint. Qed.
Lemma nan_tanh : d_act m TANH B754_nan = B754_nan.
Proof. apply (tanh_nan _ A). Qed.
Lemma nan_scaled : d_act m TANH_SCALED B754_nan = B754_nan.
Proof.
  cbn [d_act]. unfold d_scaledtanh. Transparent literal dint. change (dmult (literal 66666667 8) B754_nan) with (@B754_nan 53 1024). rewrite (tanh_nan _ A). reflexivity. Opaque literal dint.
Qed.
End Act.
