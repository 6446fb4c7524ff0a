(** Proofs about FloatNorm_Model. *)
From Coq Require Import Permutation Lra Lia Psatz.
From Flocq Require Import Core BinarySingleNaN.
From Verif Require Import Base BaseFacts Activation_Model Float_Model Float_Spec Float_Proofs FloatSoft_Proofs FloatSGD_Spec FloatSGD_Proofs FloatNet_Spec FloatNet_Proofs FloatPool_Model FloatScale_Proofs FloatNorm_Model.
Local Open Scope R_scope.

Lemma sizes_bound l b : (forall x, In x l -> Rabs (val x) <= b) -> sizes l <= INR (length l) * b.
Proof.
  induction l as [|a l IH]; intros H; [cbn; lra|]. change (sizes (a :: l)) with (Rabs (val a) + sizes l). cbn [length]. rewrite S_INR. pose proof (H a (or_introl eq_refl)). assert (sizes l <= INR (length l) * b) by (apply IH; intros; apply H; now right). lra.
Qed.
Lemma count_ok n : (1 <= n)%nat -> (Z.of_nat n <= 2 ^ 31)%Z -> finite (dint (Z.of_nat n)) /\ val (dint (Z.of_nat n)) = INR n /\ 1 <= INR n <= 2 ^ 31.
Proof.
  intros L H. destruct (int_ok (Z.of_nat n)) as (F & V); [lia|]. split; auto. rewrite V, <- INR_IZR_INZ. split; auto. split; [apply (le_INR 1); lia|]. rewrite INR_IZR_INZ. apply IZR_le in H. rewrite (pow_IZR 2 31). exact H.
Qed.
Lemma div_bound a n : 1 <= n -> Rabs (a / n) <= Rabs a.
Proof. intros H. unfold Rdiv. rewrite Rabs_mult, Rabs_inv, (Rabs_pos_eq n) by lra. pose proof (Rabs_pos a). rewrite <- (Rmult_1_r (Rabs a)) at 2. apply Rmult_le_compat_l; auto. rewrite <- Rinv_1. apply Rinv_le_contravar; lra. Qed.
Lemma pow_split a b : 2 ^ a * 2 ^ b = 2 ^ (a + b).
Proof. now rewrite pow_add. Qed.

(** the mean *)
Lemma mean_ok sum x b : summation sum -> x <> [] -> (Z.of_nat (length x) <= 2 ^ 31)%Z -> (forall v, In v x -> finite v /\ Rabs (val v) <= b) -> b <= 2 ^ 30 ->
  finite (d_featureMean sum x) /\ Rabs (val (d_featureMean sum x) - total (map val x) / INR (length x)) <= (2 * INR (length x) + 2) * eps * b + tiny /\
  Rabs (val (d_featureMean sum x)) <= 2 ^ 31 + 1.
Proof.
  intros S NE N H B. assert (L : (1 <= length x)%nat) by (destruct x; [congruence|cbn; lia]). destruct (count_ok _ L N) as (Fn & Vn & Bn). set (n := INR (length x)) in *.
  assert (b0 : 0 <= b). { destruct x as [|v x]; [congruence|]. pose proof (proj2 (H v (or_introl eq_refl))). pose proof (Rabs_pos (val v)). lra. }
  assert (SZ : sizes x <= n * b) by (apply sizes_bound; intros; now apply H). assert (NB : n * b <= 2 ^ 31 * 2 ^ 30) by (apply Rmult_le_compat; lra).
  assert (B99 : 2 ^ 31 * 2 ^ 30 <= 2 ^ 99) by (rewrite pow_split; apply Rle_pow; [lra|lia]).
  destruct (sums_any' x (sum x)) as (Fs & Es); [now apply S|intros; now apply H|exact N|lra|]. pose proof (sizes_pos x) as SP. pose proof eps_pos as EP. fold n in Es.
  assert (E31 : eps * 2 ^ 31 <= / 2 ^ 21). { unfold eps. replace (2 ^ 52) with (2 ^ 31 * 2 ^ 21) by (rewrite pow_split; reflexivity). assert (0 < 2 ^ 31) by (apply pow_lt; lra). assert (0 < 2 ^ 21) by (apply pow_lt; lra). right. field. }
  assert (EN : eps * n <= / 2 ^ 21). { apply Rle_trans with (2 := E31). apply Rmult_le_compat_l; lra. } assert (E21 : / 2 ^ 21 <= / 8) by (apply Rinv_le_contravar; [lra|]; apply Rle_trans with (2 ^ 3); [lra|apply Rle_pow; [lra|lia]]).
  assert (T : Rabs (total (map val x)) <= n * b). { apply Rle_trans with (1 := total_abs _). rewrite map_map. exact SZ. }
  assert (Es' : Rabs (val (sum x) - total (map val x)) <= 2 * (n - 1) * eps * (n * b)). { apply Rle_trans with (1 := Es). apply Rmult_le_compat_l; [|exact SZ]. apply Rmult_le_pos; lra. }
  set (t := total (map val x)) in *. assert (D : Rabs (val (sum x) / n - t / n) <= 2 * (n - 1) * eps * b).
  { replace (val (sum x) / n - t / n) with ((val (sum x) - t) / n) by (field; lra). unfold Rdiv. rewrite Rabs_mult, Rabs_inv, (Rabs_pos_eq n) by lra. apply Rmult_le_reg_r with n; [lra|]. rewrite Rmult_assoc, Rinv_l by lra. lra. }
  assert (TB : Rabs (t / n) <= b). { unfold Rdiv. rewrite Rabs_mult, Rabs_inv, (Rabs_pos_eq n) by lra. apply Rmult_le_reg_r with n; [lra|]. rewrite Rmult_assoc, Rinv_l by lra. lra. }
  assert (DB : 2 * (n - 1) * eps * b <= / 4 * b). { apply Rmult_le_compat_r; lra. }
  assert (QB : Rabs (val (sum x) / n) <= 5 / 4 * b). { replace (val (sum x) / n) with (t / n + (val (sum x) / n - t / n)) by ring. apply Rle_trans with (1 := Rabs_triang _ _). lra. }
  assert (P30 : 2 ^ 30 <= 2 ^ 99) by (apply Rle_pow; [lra|lia]). assert (MM : Rabs (val (sum x) / val (dint (Z.of_nat (length x)))) <= maxDouble). { rewrite Vn. apply small_max. apply Rle_trans with (1 := QB). replace (2 ^ 100) with (2 * 2 ^ 99) by reflexivity. lra. }
  pose proof (div_ok (sum x) (dint (Z.of_nat (length x))) Fs) as F. rewrite Vn in F, MM. specialize (F ltac:(lra) MM). pose proof (faithful_err _ _ F MM) as E.
  assert (DF : d_featureMean sum x = ddiv (sum x) (dint (Z.of_nat (length x)))) by (unfold d_featureMean; destruct x; [congruence|reflexivity]). rewrite DF. split; [apply F|].
  assert (EQ : eps * Rabs (val (sum x) / n) <= eps * (5 / 4 * b)) by (apply Rmult_le_compat_l; lra). assert (EB : 0 <= eps * b) by (apply Rmult_le_pos; lra).
  assert (A : Rabs (val (ddiv (sum x) (dint (Z.of_nat (length x)))) - t / n) <= (2 * n + 2) * eps * b + tiny).
  { replace (val (ddiv (sum x) (dint (Z.of_nat (length x)))) - t / n) with ((val (ddiv (sum x) (dint (Z.of_nat (length x)))) - val (sum x) / n) + (val (sum x) / n - t / n)) by ring. apply Rle_trans with (1 := Rabs_triang _ _). lra. }
  split; [exact A|]. replace (val (ddiv (sum x) (dint (Z.of_nat (length x))))) with ((val (ddiv (sum x) (dint (Z.of_nat (length x)))) - val (sum x) / n) + val (sum x) / n) by ring. apply Rle_trans with (1 := Rabs_triang _ _).
  assert (TY : tiny <= 1). { rewrite tiny_pow, <- Rinv_1. apply Rinv_le_contravar; [lra|]. apply pow_R1_Rle. lra. }
  assert (E1 : eps <= / 8). { apply Rle_trans with (2 := E21). apply Rle_trans with (2 := EN). rewrite <- (Rmult_1_r eps) at 1. apply Rmult_le_compat_l; lra. }
  assert (eps * (5 / 4 * b) <= / 8 * (5 / 4 * b)) by (apply Rmult_le_compat_r; lra). replace (2 ^ 31) with (2 * 2 ^ 30) by reflexivity. lra.
Qed.

(** the sum of the squares is a sum in one particular order *)
Lemma fold_sums {A} (g : A -> double) l l0 s : sumsTo l0 s -> sumsTo (l0 ++ map g l) (fold_left (fun s v => dplus s (g v)) l s).
Proof.
  revert l0 s. induction l as [|a l IH]; intros l0 s H; cbn [map fold_left]; [now rewrite app_nil_r|]. replace (l0 ++ g a :: map g l) with ((l0 ++ [g a]) ++ map g l) by (rewrite <- app_assoc; reflexivity). apply IH. apply sums_add with (l1 := l0) (l2 := [g a]); auto. constructor.
Qed.
Lemma sums_nonneg l s : sumsTo l s -> finite s -> (forall x, In x l -> 0 <= val x) -> 0 <= val s.
Proof.
  induction 1 as [x|l1 a l2 b l H1 IH1 H2 IH2 P]; intros F H; [apply H; now left|]. destruct (plus_fin _ _ F) as (Fa & Fb & ->).
  assert (Q : forall x, In x (l1 ++ l2) -> 0 <= val x). { intros x I. apply H. eapply Permutation_in; [apply Permutation_sym, P|exact I]. }
  assert (0 <= val a) by (apply IH1; auto; intros; apply Q, in_or_app; auto). assert (0 <= val b) by (apply IH2; auto; intros; apply Q, in_or_app; auto).
  rewrite <- (round_0 radix2 fexp64 (round_mode mode_NE)). apply round_le; try exact _. lra.
Qed.
Definition square (m v : double) : double := dmult (dminus v m) (dminus v m).
Lemma square_ok m v : finite m -> finite v -> Rabs (val m) <= 2 ^ 31 + 1 -> Rabs (val v) <= 2 ^ 30 ->
  finite (square m v) /\ 0 <= val (square m v) <= 2 ^ 66 /\ Rabs (val (square m v) - (val v - val m) ^ 2) <= 4 * eps * (val v - val m) ^ 2 + tiny.
Proof.
  intros Fm Fv Bm Bv. pose proof eps_pos as EP. assert (ET : eps <= / 1024). { unfold eps. apply Rinv_le_contravar; [lra|]. apply Rle_trans with (2 ^ 10); [lra|]. apply Rle_pow; [lra|lia]. }
  assert (D : Rabs (val v - val m) <= 2 ^ 32). { apply Rabs_le_inv in Bm, Bv. apply Rabs_le. lra. }
  assert (MM : Rabs (val v - val m) <= maxDouble). { apply small_max. apply Rle_trans with (1 := D). apply Rle_pow; [lra|lia]. }
  pose proof (minus_ok v m Fv Fm MM) as F. pose proof (minus_rel v m Fv Fm MM) as E. set (t := dminus v m) in *. set (r := val v - val m) in *.
  assert (TB : Rabs (val t - r) <= / 1024 * Rabs r) by (apply Rle_trans with (1 := E), Rmult_le_compat_r; [apply Rabs_pos|exact ET]).
  assert (T2 : Rabs (val t) <= 1025 / 1024 * Rabs r). { replace (val t) with (r + (val t - r)) by ring. apply Rle_trans with (1 := Rabs_triang _ _). lra. }
  assert (R2 : r ^ 2 = Rabs r * Rabs r) by (rewrite <- Rabs_mult, Rabs_pos_eq by nra; ring). assert (TT : Rabs (val t * val t) <= 3 / 2 * r ^ 2).
  { rewrite Rabs_mult, R2. apply Rle_trans with ((1025 / 1024 * Rabs r) * (1025 / 1024 * Rabs r)); [apply Rmult_le_compat; auto using Rabs_pos|]. pose proof (Rabs_pos r). assert (0 <= Rabs r * Rabs r) by (apply Rmult_le_pos; auto). lra. }
  assert (R64 : r ^ 2 <= 2 ^ 64). { rewrite R2. replace (2 ^ 64) with (2 ^ 32 * 2 ^ 32) by (rewrite pow_split; reflexivity). apply Rmult_le_compat; auto using Rabs_pos. }
  assert (P64 : 0 < 2 ^ 64) by (apply pow_lt; lra). assert (P66 : 2 ^ 66 = 4 * 2 ^ 64) by (replace (2 ^ 66) with (2 * (2 * 2 ^ 64)) by reflexivity; ring).
  assert (M2 : Rabs (val t * val t) <= maxDouble). { apply small_max. apply Rle_trans with (2 ^ 66); [lra|]. apply Rle_pow; [lra|lia]. }
  pose proof (mult_ok t t (proj1 F) (proj1 F) M2) as F2. pose proof (faithful_err _ _ F2 M2) as E2. unfold square. fold t. split; [apply F2|].
  assert (TY : tiny <= 1). { rewrite tiny_pow, <- Rinv_1. apply Rinv_le_contravar; [lra|]. apply pow_R1_Rle. lra. } assert (P1 : 1 <= 2 ^ 64) by (apply pow_R1_Rle; lra).
  assert (R0 : 0 <= r ^ 2) by (rewrite R2; apply Rmult_le_pos; apply Rabs_pos). assert (EE : eps * Rabs (val t * val t) <= eps * (3 / 2 * r ^ 2)) by (apply Rmult_le_compat_l; lra). assert (ER : eps * r ^ 2 <= / 1024 * r ^ 2) by (apply Rmult_le_compat_r; lra).
  split.
  - split.
    + destruct zero_ok as (FZ & VZ). rewrite <- VZ. apply F2; auto. rewrite VZ. apply Rle_0_sqr.
    + apply Rabs_le_inv in E2, TT. lra.
  - replace (val (dmult t t) - r ^ 2) with ((val (dmult t t) - val t * val t) + (val t - r) * (val t + r)) by ring. apply Rle_trans with (1 := Rabs_triang _ _).
    assert (X : Rabs ((val t - r) * (val t + r)) <= (eps * Rabs r) * (2049 / 1024 * Rabs r)). { rewrite Rabs_mult. apply Rmult_le_compat; auto using Rabs_pos. apply Rle_trans with (1 := Rabs_triang _ _). lra. }
    replace (eps * Rabs r * (2049 / 1024 * Rabs r)) with (2049 / 1024 * (eps * r ^ 2)) in X by (rewrite R2; ring). assert (0 <= eps * r ^ 2) by (apply Rmult_le_pos; lra). lra.
Qed.
Definition squares (m : double) (x : list double) : double := fold_left (fun s v => let tmp := dminus v m in dplus s (dmult tmp tmp)) x (dint 0).
Definition deviations (m : double) (x : list double) : R := total (map (fun v => (val v - val m) ^ 2) x).
Lemma deviations_pos m x : 0 <= deviations m x.
Proof. unfold deviations. apply total_pos. intros y I. apply in_map_iff in I as (v & <- & _). apply pow2_ge_0. Qed.
Lemma total_close (f g : double -> R) c d x : (forall v, In v x -> Rabs (f v - g v) <= c * g v + d) -> Rabs (total (map f x) - total (map g x)) <= c * total (map g x) + INR (length x) * d.
Proof.
  induction x as [|a x IH]; intros H; [cbn; rewrite Rminus_0_r, Rabs_R0; lra|]. cbn [map length]. change (total (f a :: map f x)) with (f a + total (map f x)). change (total (g a :: map g x)) with (g a + total (map g x)). rewrite S_INR.
  replace (f a + total (map f x) - (g a + total (map g x))) with ((f a - g a) + (total (map f x) - total (map g x))) by ring. apply Rle_trans with (1 := Rabs_triang _ _). pose proof (H a (or_introl eq_refl)). assert (Rabs (total (map f x) - total (map g x)) <= c * total (map g x) + INR (length x) * d) by (apply IH; intros; apply H; now right). lra.
Qed.
Lemma squares_ok m x : finite m -> Rabs (val m) <= 2 ^ 31 + 1 -> (Z.of_nat (length x) < 2 ^ 31)%Z -> (forall v, In v x -> finite v /\ Rabs (val v) <= 2 ^ 30) ->
  finite (squares m x) /\ 0 <= val (squares m x) <= 2 ^ 98 /\ Rabs (val (squares m x) - deviations m x) <= (3 * INR (length x) + 5) * eps * deviations m x + 2 * INR (length x) * tiny.
Proof.
  intros Fm Bm N H. assert (S : sumsTo ([dint 0] ++ map (square m) x) (squares m x)) by (unfold squares; apply (fold_sums (square m)); constructor).
  destruct zero_ok as (FZ & VZ). assert (G : forall y, In y ([dint 0] ++ map (square m) x) -> finite y /\ 0 <= val y <= 2 ^ 66).
  { intros y [<-|I]; [rewrite VZ; split; auto; split; [lra|apply pow_le; lra]|]. apply in_map_iff in I as (v & <- & I). destruct (H v I). destruct (square_ok m v) as (A & B & _); auto. }
  assert (LN : length ([dint 0] ++ map (square m) x) = Datatypes.S (length x)) by (cbn; now rewrite map_length). set (n := INR (length x)) in *. assert (n0 : 0 <= n) by apply pos_INR.
  assert (N31 : n + 1 <= 2 ^ 31). { unfold n. rewrite <- S_INR, INR_IZR_INZ, (pow_IZR 2 31). apply IZR_le. cbn [Z.of_nat] in N. lia. }
  assert (SZ : sizes ([dint 0] ++ map (square m) x) <= 2 ^ 97).
  { apply Rle_trans with (INR (length ([dint 0] ++ map (square m) x)) * 2 ^ 66). { apply sizes_bound. intros y I. apply G in I. rewrite Rabs_pos_eq; lra. } rewrite LN, S_INR. fold n. replace (2 ^ 97) with (2 ^ 31 * 2 ^ 66) by (rewrite pow_split; reflexivity). apply Rmult_le_compat_r; [apply pow_le; lra|exact N31]. }
  assert (P97 : 2 ^ 97 <= 2 ^ 99) by (apply Rle_pow; [lra|lia]). destruct (sums_any' _ _ S) as (F & E); [intros y I; now apply G|rewrite LN; lia|lra|]. split; [exact F|].
  assert (NN : 0 <= val (squares m x)) by (apply (sums_nonneg _ _ S F); intros y I; apply G, I).
  assert (T : total (map val ([dint 0] ++ map (square m) x)) = total (map (fun v => val (square m v)) x)). { cbn [app map]. rewrite map_map. change (total (val (dint 0) :: map (fun v => val (square m v)) x)) with (val (dint 0) + total (map (fun v => val (square m v)) x)). rewrite VZ. ring. }
  assert (SQ : sizes ([dint 0] ++ map (square m) x) = total (map (fun v => val (square m v)) x)).
  { rewrite <- T. unfold sizes. f_equal. rewrite map_ext_in with (f := fun y => Rabs (val y)) (g := val) by (intros y I; apply Rabs_pos_eq; apply G, I). reflexivity. }
  rewrite LN, S_INR in E. fold n in E. rewrite T, SQ in E. rewrite SQ in SZ. replace (2 * (n + 1 - 1) * eps) with (2 * n * eps) in E by ring. set (w := total (map (fun v => val (square m v)) x)) in *.
  assert (C : Rabs (w - deviations m x) <= 4 * eps * deviations m x + n * tiny). { unfold w, deviations, n. apply total_close. intros v I. destruct (H v I). apply square_ok; auto. }
  pose proof (deviations_pos m x) as DP. set (t := deviations m x) in *. pose proof eps_pos as EP. assert (T0 : 0 < tiny) by apply bpow_gt_0.
  assert (EN : n * eps <= / 2 ^ 20). { apply Rle_trans with (2 ^ 31 * eps); [apply Rmult_le_compat_r; lra|]. unfold eps. replace (2 ^ 52) with (2 ^ 31 * 2 ^ 21) by (rewrite pow_split; reflexivity). rewrite Rinv_mult, <- Rmult_assoc, Rinv_r, Rmult_1_l by (apply pow_nonzero; lra). apply Rinv_le_contravar; [apply pow_lt; lra|apply Rle_pow; [lra|lia]]. }
  assert (E20 : / 2 ^ 20 <= / 1024) by (apply Rinv_le_contravar; [lra|]; apply Rle_trans with (2 ^ 10); [lra|apply Rle_pow; [lra|lia]]). assert (ET : eps <= / 1024). { unfold eps. apply Rinv_le_contravar; [lra|]. apply Rle_trans with (2 ^ 10); [lra|]. apply Rle_pow; [lra|lia]. }
  split.
  - split; [exact NN|]. assert (W0 : 0 <= w) by (rewrite <- SQ; apply sizes_pos). assert (2 * n * eps * w <= 2 * / 1024 * w) by (apply Rmult_le_compat_r; lra). apply Rabs_le_inv in E. replace (2 ^ 98) with (2 * 2 ^ 97) by reflexivity. lra.
  - replace (val (squares m x) - t) with ((val (squares m x) - w) + (w - t)) by ring. apply Rle_trans with (1 := Rabs_triang _ _).
    assert (WT : w <= 1025 / 1024 * t + 4 / 1024 * t + n * tiny). { apply Rabs_le_inv in C. assert (4 * eps * t <= 4 * / 1024 * t) by (apply Rmult_le_compat_r; lra). lra. }
    assert (n0e : 0 <= n * eps) by (apply Rmult_le_pos; lra). assert (2 * n * eps * w <= 2 * n * eps * (1025 / 1024 * t + 4 / 1024 * t + n * tiny)) by (apply Rmult_le_compat_l; lra).
    assert (n * eps * t >= 0) by (apply Rle_ge, Rmult_le_pos; lra). assert (0 <= eps * t) by (apply Rmult_le_pos; lra). assert (nt : 0 <= n * tiny) by (apply Rmult_le_pos; lra). assert (n * eps * (n * tiny) <= / 1024 * (n * tiny)) by (apply Rmult_le_compat_r; lra). lra.
Qed.
Lemma over_ok r s n : finite s -> 0 <= val s <= 2 ^ 98 -> (1 <= n)%nat -> (Z.of_nat n <= 2 ^ 31)%Z ->
  finite (d_over r s n) /\ 0 <= val (d_over r s n) <= 2 ^ 99 /\ Rabs (val (d_over r s n) - val s / INR n) <= 4 * eps * (val s / INR n) + tiny.
Proof.
  intros Fs Bs L N. destruct (count_ok n L N) as (Fn & Vn & Bn). pose proof eps_ten as ET. pose proof eps_pos as EP. assert (T0 : 0 < tiny) by apply bpow_gt_0. pose proof tiny_one as T1. destruct zero_ok as (FZ & VZ). destruct one_ok as (FO & VO).
  set (a := val s / INR n). assert (A0 : 0 <= a) by (unfold a, Rdiv; apply Rmult_le_pos; [lra|left; apply Rinv_0_lt_compat; lra]). assert (A1 : a <= 2 ^ 98). { pose proof (div_bound (val s) (INR n)) as D. fold a in D. rewrite !Rabs_pos_eq in D by lra. lra. }
  assert (P99 : 2 ^ 99 = 2 * 2 ^ 98) by reflexivity. assert (P1 : 1 <= 2 ^ 98) by (apply pow_R1_Rle; lra). assert (EA : eps * a <= / 1024 * a) by (apply Rmult_le_compat_r; lra). assert (EA0 : 0 <= eps * a) by (apply Rmult_le_pos; lra).
  enough (X : finite (d_over r s n) /\ 0 <= val (d_over r s n) /\ Rabs (val (d_over r s n) - a) <= 4 * eps * a + tiny). { destruct X as (X1 & X2 & X3). split; [exact X1|]. split; [|exact X3]. split; [exact X2|]. apply Rabs_le_inv in X3. lra. }
  destruct r; cbn [d_over].
  - assert (I1 : / 2 ^ 31 <= / INR n <= 1). { split; [apply Rinv_le_contravar; lra|]. rewrite <- Rinv_1. apply Rinv_le_contravar; lra. } assert (PI : 0 < / 2 ^ 31) by (apply Rinv_0_lt_compat, pow_lt; lra).
    assert (M1 : Rabs (val (dint 1) / val (dint (Z.of_nat n))) <= maxDouble). { rewrite VO, Vn. unfold Rdiv. rewrite Rmult_1_l. apply small_max. rewrite Rabs_pos_eq by lra. apply Rle_trans with 1; [lra|]. apply pow_R1_Rle. lra. }
    pose proof (div_ok (dint 1) (dint (Z.of_nat n)) FO ltac:(lra) M1) as F. set (i := ddiv (dint 1) (dint (Z.of_nat n))) in *. rewrite VO, Vn in F, M1. replace (1 / INR n) with (/ INR n) in * by (unfold Rdiv; ring).
    assert (L9 : / 2 ^ 900 <= Rabs (/ INR n)). { rewrite Rabs_pos_eq by lra. apply Rle_trans with (/ 2 ^ 31); [|lra]. apply Rinv_le_contravar; [apply pow_lt; lra|apply Rle_pow; [lra|lia]]. }
    pose proof (faithful_rel _ _ F M1 L9) as E. rewrite (Rabs_pos_eq (/ INR n)) in E by lra. pose proof eps1 as E1. assert (E' : Rabs (val i - / INR n) <= 65 / 64 * eps * / INR n) by (apply Rle_trans with (1 := E); apply Rmult_le_compat_r; lra).
    assert (I0 : 0 <= val i) by (rewrite <- VZ; apply F; auto; rewrite VZ; lra).
    assert (D : Rabs (val s * val i - a) <= 65 / 64 * eps * a). { replace (val s * val i - a) with (val s * (val i - / INR n)) by (unfold a, Rdiv; ring). rewrite Rabs_mult, (Rabs_pos_eq (val s)) by lra. apply Rle_trans with (val s * (65 / 64 * eps * / INR n)); [apply Rmult_le_compat_l; lra|]. right. unfold a, Rdiv. ring. }
    assert (S0 : 0 <= val s * val i) by (apply Rmult_le_pos; lra). assert (SB : val s * val i <= 65 / 64 * a) by (apply Rabs_le_inv in D; lra).
    assert (M2 : Rabs (val s * val i) <= maxDouble). { apply small_max. rewrite Rabs_pos_eq by auto. replace (2 ^ 100) with (4 * 2 ^ 98) by (replace (2 ^ 100) with (2 * (2 * 2 ^ 98)) by reflexivity; ring). lra. }
    pose proof (mult_ok s i Fs (proj1 F) M2) as F2. pose proof (faithful_err _ _ F2 M2) as E2. split; [apply F2|]. split; [rewrite <- VZ; apply F2; auto; rewrite VZ; lra|].
    replace (val (dmult s i) - a) with ((val (dmult s i) - val s * val i) + (val s * val i - a)) by ring. apply Rle_trans with (1 := Rabs_triang _ _). rewrite (Rabs_pos_eq (val s * val i)) in E2 by auto. assert (eps * (val s * val i) <= eps * (65 / 64 * a)) by (apply Rmult_le_compat_l; lra). lra.
  - assert (M1 : Rabs (val s / val (dint (Z.of_nat n))) <= maxDouble). { rewrite Vn. fold a. apply small_max. rewrite Rabs_pos_eq by lra. replace (2 ^ 100) with (4 * 2 ^ 98) by (replace (2 ^ 100) with (2 * (2 * 2 ^ 98)) by reflexivity; ring). lra. }
    pose proof (div_ok s (dint (Z.of_nat n)) Fs ltac:(lra) M1) as F. rewrite Vn in F, M1. fold a in F, M1. pose proof (faithful_err _ _ F M1) as E. rewrite (Rabs_pos_eq a) in E by lra. split; [apply F|]. split; [rewrite <- VZ; apply F; auto; rewrite VZ; lra|]. lra.
Qed.
Lemma sqrt_ok q : finite q -> 0 <= val q <= 2 ^ 99 -> finite (dsqrt q) /\ (val q = 0 -> val (dsqrt q) = 0) /\
  (0 < val q -> / 2 ^ 537 <= val (dsqrt q) <= 2 ^ 50 /\ Rabs (val (dsqrt q) ^ 2 - val q) <= 5 * eps * val q).
Proof.
  intros F B. destruct (Bsqrt_correct 53 1024 _ _ mode_NE q) as (V & FF & _). fold (dsqrt q) in V, FF. change (B2R q) with (val q) in V. change (B2R (dsqrt q)) with (val (dsqrt q)) in V. split; [|split].
  - red. rewrite FF. destruct q as [s|s| |[|] m e H]; try discriminate F; try reflexivity. exfalso. destruct B as (B & _). unfold val in B. cbn [B2R cond_Zopp] in B. pose proof (F2R_lt_0 radix2 (Float radix2 (Z.neg m) e)) as X. cbn [Fnum] in X. specialize (X ltac:(lia)). change (- Z.pos m)%Z with (Z.neg m) in B. lra.
  - intros Z. rewrite V, Z, sqrt_0. apply round_0. exact _.
  - intros P. assert (Q : bpow radix2 (-1074) <= val q). { apply generic_format_ge_bpow with (fexp := fexp64); auto; [|apply val_fmt]. intros e. apply Z.le_max_r. }
    assert (S537 : bpow radix2 (-537) <= sqrt (val q)). { rewrite <- (sqrt_square (bpow radix2 (-537))) by apply bpow_ge_0. apply sqrt_le_1_alt. rewrite <- bpow_plus. exact Q. }
    assert (B50 : sqrt (val q) <= bpow radix2 50). { rewrite <- (sqrt_square (bpow radix2 50)) by apply bpow_ge_0. apply sqrt_le_1_alt. rewrite <- bpow_plus. change (50 + 50)%Z with (Z.of_nat 100). rewrite bpow_pow. apply Rle_trans with (2 ^ 99); [lra|]. apply Rle_pow; [lra|lia]. }
    change (-537)%Z with (- Z.of_nat 537)%Z in S537. change 50%Z with (Z.of_nat 50) in B50. 
    assert (R1 : bpow radix2 (- Z.of_nat 537) <= val (dsqrt q) <= bpow radix2 (Z.of_nat 50)).
    { rewrite V. split; [apply round_ge_generic|apply round_le_generic]; auto; try exact _; apply generic_format_bpow; cbv; discriminate. }
    rewrite bpow_opp, !bpow_pow in *. split; [exact R1|]. pose proof (rnd_err (sqrt (val q))) as E. rewrite <- V in E. pose proof eps_pos as EP. pose proof eps_ten as ET. assert (P537 : 0 < / 2 ^ 537) by (apply Rinv_0_lt_compat, pow_lt; lra). set (v := val (dsqrt q)) in *. set (u := sqrt (val q)) in *. assert (U : val q = u * u) by (unfold u; rewrite sqrt_sqrt; lra).
    rewrite (Rabs_pos_eq u) in E by lra. assert (T : tiny <= / 1024 * (eps * u)).
    { apply Rle_trans with (/ 1024 * (eps * / 2 ^ 537)); [|apply Rmult_le_compat_l; [lra|]; apply Rmult_le_compat_l; lra]. rewrite tiny_pow. unfold eps. replace (/ 1024) with (/ 2 ^ 10) by (f_equal; lra). rewrite <- !Rinv_mult, <- !pow_add. apply Rinv_le_contravar; [apply pow_lt; lra|]. apply Rle_pow; [lra|lia]. }
    assert (E' : Rabs (v - u) <= 1025 / 1024 * (eps * u)) by lra. assert (EU : eps * u <= / 1024 * u) by (apply Rmult_le_compat_r; lra). replace (v ^ 2 - val q) with ((v - u) * (v + u)) by (rewrite U; ring). rewrite Rabs_mult. apply Rle_trans with (1025 / 1024 * (eps * u) * (2051 / 1024 * u)).
    + apply Rmult_le_compat; auto using Rabs_pos. apply Rabs_le_inv in E'. rewrite Rabs_pos_eq; lra.
    + rewrite U. assert (0 <= eps * (u * u)) by (apply Rmult_le_pos; [lra|]; apply Rmult_le_pos; lra). replace (1025 / 1024 * (eps * u) * (2051 / 1024 * u)) with (1025 / 1024 * (2051 / 1024) * (eps * (u * u))) by ring. lra.
Qed.
Lemma std_ok r m x : finite m -> Rabs (val m) <= 2 ^ 31 + 1 -> x <> [] -> (Z.of_nat (length x) < 2 ^ 31)%Z -> (forall v, In v x -> finite v /\ Rabs (val v) <= 2 ^ 30) ->
  let std := d_featureStd r m x in let variance := deviations m x / INR (length x) in
  finite std /\ / 2 ^ 537 <= val std <= 2 ^ 50 /\ ((val std = 1 /\ variance <= 4 * tiny) \/ Rabs (val std ^ 2 - variance) <= (3 * INR (length x) + 15) * eps * variance + 4 * tiny).
Proof.
  intros Fm Bm NE N H std variance. assert (L : (1 <= length x)%nat) by (destruct x; [congruence|cbn; lia]). destruct (squares_ok m x Fm Bm N H) as (Fs & Bs & Es). destruct (over_ok r _ (length x) Fs Bs L ltac:(lia)) as (Fq & Bq & Eq). destruct (sqrt_ok _ Fq Bq) as (Fv & Z0 & Z1).
  assert (SD : std = if deqb (dsqrt (d_over r (squares m x) (length x))) (dint 0) then dint 1 else dsqrt (d_over r (squares m x) (length x))) by reflexivity. rewrite SD. set (q := d_over r (squares m x) (length x)) in *. clear SD. clearbody q. destruct zero_ok as (FZ & VZ). destruct one_ok as (FO & VO).
  destruct (count_ok _ L ltac:(lia)) as (_ & _ & Bn). set (n := INR (length x)) in *. pose proof (deviations_pos m x) as DP. set (t := deviations m x) in *. set (s := val (squares m x)) in *. pose proof eps_pos as EP. pose proof eps_ten as ET. assert (T0 : 0 < tiny) by apply bpow_gt_0.
  assert (In0 : 0 < / n) by (apply Rinv_0_lt_compat; lra). assert (EN : n * eps <= / 1024). { apply Rle_trans with (2 ^ 31 * eps); [apply Rmult_le_compat_r; lra|]. unfold eps. replace (2 ^ 52) with (2 ^ 31 * 2 ^ 21) by (rewrite pow_split; reflexivity). rewrite Rinv_mult, <- Rmult_assoc, Rinv_r, Rmult_1_l by (apply pow_nonzero; lra). apply Rinv_le_contravar; [lra|]. apply Rle_trans with (2 ^ 10); [lra|apply Rle_pow; [lra|lia]]. }
  assert (V0 : 0 <= variance) by (unfold variance, Rdiv; apply Rmult_le_pos; lra).
  assert (E1 : Rabs (s / n - variance) <= (3 * n + 5) * eps * variance + 2 * tiny).
  { replace (s / n - variance) with ((s - t) * / n) by (unfold variance, Rdiv; ring). rewrite Rabs_mult, (Rabs_pos_eq (/ n)) by lra. apply Rle_trans with (((3 * n + 5) * eps * t + 2 * n * tiny) * / n); [apply Rmult_le_compat_r; lra|]. right. unfold variance. field. lra. }
  set (a := s / n) in *. assert (A0 : 0 <= a) by (unfold a, Rdiv; apply Rmult_le_pos; lra). assert (C : (3 * n + 5) * eps * variance <= 8 / 1024 * variance) by (apply Rmult_le_compat_r; lra). assert (EA : eps * a <= / 1024 * a) by (apply Rmult_le_compat_r; lra).
  assert (EV : 0 <= eps * variance) by (apply Rmult_le_pos; lra). assert (E1' := E1). apply Rabs_le_inv in E1'. assert (Eq' := Eq). apply Rabs_le_inv in Eq'.
  unfold deqb. rewrite Beqb_correct by auto. change (B2R (dsqrt q)) with (val (dsqrt q)). change (B2R (dint 0)) with (val (dint 0)). rewrite VZ. destruct (Req_bool_spec (val (dsqrt q)) 0) as [Q|Q].
  - split; [exact FO|]. rewrite VO. split. { split; [|apply pow_R1_Rle; lra]. rewrite <- Rinv_1. apply Rinv_le_contravar; [lra|]. apply pow_R1_Rle. lra. } left. split; [reflexivity|].
    assert (QZ : val q = 0). { destruct (Req_dec (val q) 0) as [|X]; auto. destruct Z1 as ((X1 & _) & _); [lra|]. assert (0 < / 2 ^ 537) by (apply Rinv_0_lt_compat, pow_lt; lra). lra. } rewrite QZ in *. lra.
  - destruct Z1 as (X1 & X2). { destruct (Req_dec (val q) 0) as [X|X]; [apply Z0 in X; contradiction|lra]. }
    split; [exact Fv|]. split; [exact X1|]. right. replace (val (dsqrt q) ^ 2 - variance) with ((val (dsqrt q) ^ 2 - val q) + ((val q - a) + (a - variance))) by ring. apply Rle_trans with (1 := Rabs_triang _ _). pose proof (Rabs_triang (val q - a) (a - variance)) as TR.
    assert (AV : a <= 1033 / 1024 * variance + 2 * tiny) by lra. assert (QV : val q <= 1038 / 1024 * variance + 4 * tiny) by lra.
    assert (eps * a <= eps * (1033 / 1024 * variance + 2 * tiny)) by (apply Rmult_le_compat_l; lra). assert (eps * val q <= eps * (1038 / 1024 * variance + 4 * tiny)) by (apply Rmult_le_compat_l; lra). assert (eps * tiny <= / 1024 * tiny) by (apply Rmult_le_compat_r; lra). lra.
Qed.
Lemma transformed_ok y m std : finite y -> finite m -> finite std -> Rabs (val y) <= 2 ^ 30 -> Rabs (val m) <= 2 ^ 31 + 1 -> / 2 ^ 537 <= val std <= 2 ^ 50 ->
  let w := dmult (dminus y m) (ddiv (dint 1) std) in finite w /\ Rabs (val w - (val y - val m) / val std) <= 4 * eps * Rabs ((val y - val m) / val std) + tiny.
Proof.
  intros Fy Fm Fs By Bm Bs w. pose proof eps_pos as EP. pose proof eps_ten as ET. destruct one_ok as (FO & VO). assert (P537 : 0 < / 2 ^ 537) by (apply Rinv_0_lt_compat, pow_lt; lra).
  assert (D : Rabs (val y - val m) <= 2 ^ 32). { apply Rabs_le_inv in Bm, By. apply Rabs_le. lra. } assert (MM : Rabs (val y - val m) <= maxDouble) by (apply small_max; apply Rle_trans with (1 := D); apply Rle_pow; [lra|lia]).
  pose proof (minus_ok y m Fy Fm MM) as F. pose proof (minus_rel y m Fy Fm MM) as E. set (d := dminus y m) in *. set (e := val y - val m) in *. set (u := val std) in *. assert (P50 : 0 < 2 ^ 50) by (apply pow_lt; lra).
  assert (I1 : / 2 ^ 50 <= / u <= 2 ^ 537). { split; [apply Rinv_le_contravar; lra|]. rewrite <- (Rinv_inv (2 ^ 537)). apply Rinv_le_contravar; lra. } assert (PI : 0 < / 2 ^ 50) by (apply Rinv_0_lt_compat; lra).
  assert (P5 : 2 ^ 537 <= 2 ^ 900) by (apply Rle_pow; [lra|lia]). assert (P9 : 2 ^ 900 <= 2 ^ 1000) by (apply Rle_pow; [lra|lia]).
  assert (M1 : Rabs (val (dint 1) / val std) <= maxDouble). { rewrite VO. fold u. unfold Rdiv. rewrite Rmult_1_l. apply big. rewrite Rabs_pos_eq; lra. }
  pose proof (div_ok (dint 1) std FO ltac:(fold u; lra) M1) as G. set (i := ddiv (dint 1) std) in *. rewrite VO in G, M1. fold u in G, M1. replace (1 / u) with (/ u) in * by (unfold Rdiv; ring).
  assert (L9 : / 2 ^ 900 <= Rabs (/ u)). { rewrite Rabs_pos_eq by lra. apply Rle_trans with (/ 2 ^ 50); [|lra]. apply Rinv_le_contravar; [lra|apply Rle_pow; [lra|lia]]. }
  pose proof (faithful_rel _ _ G M1 L9) as E2. pose proof eps1 as EE. destruct (rel_mult (val i) (/ u) (65 / 64 * eps)) as (d2 & B2 & V2); [apply Rle_trans with (1 := E2); apply Rmult_le_compat_r; [apply Rabs_pos|lra]|lra|].
  destruct (rel_mult (val d) e eps) as (d1 & B1 & V1); [exact E|lra|]. assert (PR : val d * val i = e / u * ((1 + d1) * (1 + d2))) by (rewrite V1, V2; unfold Rdiv; ring).
  assert (DD : Rabs (d1 * d2) <= / 512 * eps). { rewrite Rabs_mult. rewrite (Rmult_comm (/ 512)). apply Rmult_le_compat; auto using Rabs_pos; try lra. } apply Rabs_le_inv in B1, B2, DD.
  set (g := e / u) in *. assert (DP : Rabs (val d * val i - g) <= 33 / 16 * eps * Rabs g). { rewrite PR. replace (g * ((1 + d1) * (1 + d2)) - g) with (g * (d1 + d2 + d1 * d2)) by ring. rewrite Rabs_mult, Rmult_comm. apply Rmult_le_compat_r; [apply Rabs_pos|]. apply Rabs_le. lra. }
  assert (EG : eps * Rabs g <= / 1024 * Rabs g) by (apply Rmult_le_compat_r; [apply Rabs_pos|lra]). assert (BG : Rabs (val d * val i) <= 9 / 8 * Rabs g). { replace (val d * val i) with (g + (val d * val i - g)) by ring. apply Rle_trans with (1 := Rabs_triang _ _). pose proof (Rabs_pos g). lra. }
  assert (GB : Rabs g <= 2 ^ 32 * 2 ^ 537). { unfold g, Rdiv. rewrite Rabs_mult, (Rabs_pos_eq (/ u)) by lra. apply Rmult_le_compat; auto using Rabs_pos; lra. }
  assert (M2 : Rabs (val d * val i) <= maxDouble). { apply big. apply Rle_trans with (2 * (2 ^ 32 * 2 ^ 537)); [pose proof (Rabs_pos g); lra|]. rewrite pow_split. change (2 * 2 ^ (32 + 537)) with (2 ^ 570). apply Rle_pow; [lra|lia]. }
  pose proof (mult_ok d i (proj1 F) (proj1 G) M2) as F2. pose proof (faithful_err _ _ F2 M2) as E3. fold w in F2, E3. split; [apply F2|]. replace (val w - g) with ((val w - val d * val i) + (val d * val i - g)) by ring. apply Rle_trans with (1 := Rabs_triang _ _).
  assert (eps * Rabs (val d * val i) <= eps * (9 / 8 * Rabs g)) by (apply Rmult_le_compat_l; lra). assert (0 <= eps * Rabs g) by (apply Rmult_le_pos; [lra|apply Rabs_pos]). lra.
Qed.

(** around another centre *)
Lemma shift_ok (f : double -> R) m c x : total (map (fun v => (f v - m) ^ 2) x) = total (map (fun v => (f v - c) ^ 2) x) + 2 * (c - m) * (total (map f x) - INR (length x) * c) + INR (length x) * (c - m) ^ 2.
Proof.
  induction x as [|a x IH]; [cbn; ring|]. cbn [map length]. change (total (?u :: ?l)) with (u + total l). rewrite S_INR. change (total ((f a - m) ^ 2 :: map (fun v => (f v - m) ^ 2) x)) with ((f a - m) ^ 2 + total (map (fun v => (f v - m) ^ 2) x)).
  change (total ((f a - c) ^ 2 :: map (fun v => (f v - c) ^ 2) x)) with ((f a - c) ^ 2 + total (map (fun v => (f v - c) ^ 2) x)). change (total (f a :: map f x)) with (f a + total (map f x)). rewrite IH. ring.
Qed.
(** sums of equal integers, or multiples of a power of 2, are exact *)
Lemma dyadic a k : (Z.abs a < 2 ^ 53)%Z -> (k <= 1000)%nat -> finite (double_of (IZR a / 2 ^ k)) /\ val (double_of (IZR a / 2 ^ k)) = IZR a / 2 ^ k /\ Rabs (IZR a / 2 ^ k) <= maxDouble.
Proof.
  intros A K. assert (P : 1 <= 2 ^ k) by (apply pow_R1_Rle; lra). assert (M : Rabs (IZR a / 2 ^ k) <= maxDouble).
  { apply small_max. apply Rle_trans with (1 := div_bound (IZR a) (2 ^ k) P). rewrite <- abs_IZR. apply Rle_trans with (IZR (2 ^ 53)); [apply IZR_le; lia|]. replace (IZR (2 ^ 53)) with (2 ^ 53) by exact (pow_IZR 2 53). apply Rle_pow; [lra|lia]. }
  assert (F : fmt (IZR a / 2 ^ k)). { apply (generic_format_FLT radix2 (-1074) 53). apply (FLT_spec radix2 (-1074) 53 _ (Float radix2 a (- Z.of_nat k))); cbn [Fnum Fexp]; [|exact A|lia]. unfold F2R. cbn [Fnum Fexp]. rewrite bpow_opp, bpow_pow. reflexivity. }
  destruct (double_of_fmt _ M F) as (G & V). auto.
Qed.
Lemma sums_const l s z k : sumsTo l s -> (k <= 1000)%nat -> (forall x, In x l -> finite x /\ val x = IZR z / 2 ^ k) -> (Z.abs z * Z.of_nat (length l) < 2 ^ 53)%Z ->
  (1 <= length l)%nat /\ finite s /\ val s = IZR (z * Z.of_nat (length l)) / 2 ^ k.
Proof.
  intros H K. induction H as [x|l1 a l2 b l H1 IH1 H2 IH2 P]; intros H N.
  - cbn [length]. split; [lia|]. destruct (H x (or_introl eq_refl)) as (F & V). split; auto. rewrite V. do 2 f_equal. lia.
  - pose proof (Permutation_length P) as L. rewrite app_length in L. assert (Q : forall x, In x (l1 ++ l2) -> finite x /\ val x = IZR z / 2 ^ k). { intros x I. apply H. eapply Permutation_in; [apply Permutation_sym, P|exact I]. }
    destruct IH1 as (L1 & F1 & V1); [intros; apply Q, in_or_app; auto|nia|]. destruct IH2 as (L2 & F2 & V2); [intros; apply Q, in_or_app; auto|nia|]. split; [lia|].
    assert (S : val a + val b = IZR (z * Z.of_nat (length l)) / 2 ^ k). { rewrite V1, V2. unfold Rdiv. rewrite <- Rmult_plus_distr_r, <- plus_IZR. do 2 f_equal. rewrite L. lia. }
    destruct (dyadic (z * Z.of_nat (length l)) k) as (FI & VI & MI); [lia|exact K|]. assert (M : Rabs (val a + val b) <= maxDouble) by (rewrite S; exact MI).
    pose proof (plus_ok a b F1 F2 M) as F. split; [apply F|]. rewrite <- S. apply (faithful_exact _ _ _ F FI). now rewrite S.
Qed.
Lemma const_mean sum x z k : summation sum -> x <> [] -> (Z.of_nat (length x) < 2 ^ 31)%Z -> (k <= 1000)%nat -> (Z.abs z * Z.of_nat (length x) < 2 ^ 53)%Z -> (forall v, In v x -> finite v /\ val v = IZR z / 2 ^ k) ->
  finite (d_featureMean sum x) /\ val (d_featureMean sum x) = IZR z / 2 ^ k.
Proof.
  intros S NE N K B H. assert (L : (1 <= length x)%nat) by (destruct x; [congruence|cbn; lia]). destruct (count_ok _ L ltac:(lia)) as (Fn & Vn & Bn). destruct (sums_const x (sum x) z k (S x NE) K H B) as (_ & Fs & Vs).
  assert (DF : d_featureMean sum x = ddiv (sum x) (dint (Z.of_nat (length x)))) by (unfold d_featureMean; destruct x; [congruence|reflexivity]). rewrite DF. destruct (dyadic z k) as (Fz & Vz & Mz); [nia|exact K|].
  assert (Q : val (sum x) / val (dint (Z.of_nat (length x))) = IZR z / 2 ^ k). { rewrite Vn, Vs, mult_IZR, <- INR_IZR_INZ. assert (2 ^ k <> 0) by (apply pow_nonzero; lra). field. split; first [assumption|lra]. }
  assert (M : Rabs (val (sum x) / val (dint (Z.of_nat (length x)))) <= maxDouble) by (rewrite Q; exact Mz).
  pose proof (div_ok (sum x) (dint (Z.of_nat (length x))) Fs ltac:(lra) M) as F. split; [apply F|]. rewrite <- Q. apply (faithful_exact _ _ _ F Fz). now rewrite Q.
Qed.
Lemma minus_same a b : finite a -> finite b -> val a = val b -> finite (dminus a b) /\ val (dminus a b) = 0.
Proof.
  intros Fa Fb E. assert (M : Rabs (val a - val b) <= maxDouble) by (rewrite E, Rminus_eq_0, Rabs_R0; apply Rle_trans with (Rabs 0); [rewrite Rabs_R0; lra|apply small_max; rewrite Rabs_R0; apply pow_le; lra]).
  pose proof (minus_ok a b Fa Fb M) as F. split; [apply F|]. destruct zero_ok as (FZ & VZ). assert (X : val a - val b = 0) by lra. rewrite X in F. apply (faithful_exact _ _ _ F FZ VZ).
Qed.
Lemma mult_zero a b : finite a -> finite b -> val a = 0 -> finite (dmult a b) /\ val (dmult a b) = 0.
Proof.
  intros Fa Fb E. assert (X : val a * val b = 0) by (rewrite E; ring). assert (M : Rabs (val a * val b) <= maxDouble) by (rewrite X; apply small_max; rewrite Rabs_R0; apply pow_le; lra).
  pose proof (mult_ok a b Fa Fb M) as F. split; [apply F|]. destruct zero_ok as (FZ & VZ). rewrite X in F. apply (faithful_exact _ _ _ F FZ VZ).
Qed.
Lemma const_std r m x : finite m -> x <> [] -> (Z.of_nat (length x) < 2 ^ 31)%Z -> (forall v, In v x -> finite v /\ val v = val m) -> d_featureStd r m x = dint 1.
Proof.
  intros Fm NE N H. assert (L : (1 <= length x)%nat) by (destruct x; [congruence|cbn; lia]). destruct zero_ok as (FZ & VZ).
  assert (S : sumsTo ([dint 0] ++ map (square m) x) (squares m x)) by (unfold squares; apply (fold_sums (square m)); constructor).
  destruct (sums_zero _ _ S) as (Fs & Vs). { intros y [<-|I]; [auto|]. apply in_map_iff in I as (v & <- & I). destruct (H v I) as (Fv & Vv). destruct (minus_same v m Fv Fm Vv) as (F & V). apply mult_zero; auto. }
  destruct (over_ok r (squares m x) (length x)) as (Fq & _ & Eq); auto; [rewrite Vs; split; [lra|apply pow_le; lra]|lia|].
  assert (Vq : val (d_over r (squares m x) (length x)) = 0).
  { destruct (count_ok _ L ltac:(lia)) as (Fn & Vn & Bn). destruct r; cbn [d_over].
    - destruct one_ok as (FO & VO). assert (M1 : Rabs (val (dint 1) / val (dint (Z.of_nat (length x)))) <= maxDouble). { apply small_max. rewrite VO, Vn. apply Rle_trans with (1 := div_bound 1 _ (proj1 Bn)). rewrite Rabs_R1. apply pow_R1_Rle. lra. }
      apply mult_zero; auto. apply (div_ok (dint 1) (dint (Z.of_nat (length x))) FO ltac:(lra) M1).
    - assert (X : val (squares m x) / val (dint (Z.of_nat (length x))) = 0) by (rewrite Vs; unfold Rdiv; ring). assert (M1 : Rabs (val (squares m x) / val (dint (Z.of_nat (length x)))) <= maxDouble) by (rewrite X; apply small_max; rewrite Rabs_R0; apply pow_le; lra).
      pose proof (div_ok (squares m x) (dint (Z.of_nat (length x))) Fs ltac:(lra) M1) as F. rewrite X in F. apply (faithful_exact _ _ _ F FZ VZ). }
  destruct (sqrt_ok _ Fq) as (Fv & Z0 & _); [rewrite Vq; split; [lra|apply pow_le; lra]|]. specialize (Z0 Vq).
  unfold d_featureStd. fold (squares m x). replace (deqb _ _) with true; [reflexivity|]. symmetry. unfold deqb. rewrite Beqb_correct by auto. change (B2R (dsqrt (d_over r (squares m x) (length x)))) with (val (dsqrt (d_over r (squares m x) (length x)))). change (B2R (dint 0)) with (val (dint 0)). rewrite Z0, VZ. apply Req_bool_true. reflexivity.
Qed.
