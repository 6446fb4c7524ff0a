(** Proofs about FloatSplit_Model. *)
From Coq Require Import Permutation Lra Lia Psatz.
From Flocq Require Import Core BinarySingleNaN.
From Verif Require Import Base BaseFacts Activation_Model Float_Model Float_Spec Float_Proofs DataSet_Model DataSet_Spec DataSet_Proofs FloatSplit_Model.
Local Open Scope R_scope.

Lemma leb_ok x y : finite x -> finite y -> dleb x y = true <-> val x <= val y.
Proof. intros Fx Fy. unfold dleb. rewrite Bleb_correct by auto. unfold val. case Rle_bool_spec; intros; split; auto; try discriminate; lra. Qed.

Lemma mult_comm (x y : double) : dmult x y = dmult y x.
Proof.
  apply B2SF_inj. unfold dmult, Bmult. destruct x as [[]|[]| |[] ? ? ?], y as [[]|[]| |[] ? ? ?]; try reflexivity; rewrite !B2SF_SF2B; rewrite Pos.mul_comm, Z.add_comm; reflexivity.
Qed.
(** the product that is rounded up *)
Lemma product_ok (r : double) N : finite r -> 0 <= val r <= 1 -> (Z.of_nat N < 2 ^ 31)%Z ->
  faithful (dmult r (dint (Z.of_nat N))) (val r * INR N) /\ 0 <= val (dmult r (dint (Z.of_nat N))) <= INR N /\ Rabs (val r * INR N) <= maxDouble.
Proof.
  intros F B HN. destruct (int_ok (Z.of_nat N)) as (F1 & V1); [rewrite Z.abs_eq; lia|]. pose proof (pos_INR N) as PN.
  assert (E : IZR (Z.of_nat N) = INR N) by (now rewrite <- INR_IZR_INZ).
  assert (BN : INR N <= 2 ^ 31). { rewrite <- E. assert (H : IZR (Z.of_nat N) <= IZR (2 ^ 31)) by (apply IZR_le; lia). rewrite pow_IZR. exact H. }
  assert (M : Rabs (val r * INR N) <= maxDouble).
  { apply small_max. rewrite Rabs_pos_eq by nra. apply Rle_trans with (INR N); [nra|]. apply Rle_trans with (1 := BN). apply Rle_pow; [lra|lia]. }
  pose proof (mult_ok r (dint (Z.of_nat N)) F F1) as P. rewrite V1, E in P. specialize (P M). split; [exact P|]. split; [|exact M].
  rewrite <- E. apply (faithful_ints _ _ 0 (Z.of_nat N) P); [lia|rewrite Z.abs_eq; lia|]. rewrite E. nra.
Qed.
Lemma ceil_ok x N : finite x -> 0 <= val x <= INR N -> (Z.of_nat N < 2 ^ 31)%Z ->
  exists k, d_ceil x = Ok (Z.of_nat k) /\ (k <= N)%nat /\ INR k - 1 < val x <= INR k.
Proof.
  intros F B HN. unfold d_ceil. rewrite F. cbv zeta. fold (val x).
  assert (Z0 : (0 <= Base.Zceil (val x))%Z) by (apply Zceil_nonneg; lra).
  assert (ZN : (Base.Zceil (val x) <= Z.of_nat N)%Z) by (apply Zceil_le; rewrite <- INR_IZR_INZ; lra).
  exists (Z.to_nat (Base.Zceil (val x))). rewrite Z2Nat.id by auto. split; [|split; [lia|]].
  - destruct (Z.leb_spec (- 2 ^ 31) (Base.Zceil (val x))); [|lia]. destruct (Z.ltb_spec (Base.Zceil (val x)) (2 ^ 31)); [reflexivity|lia].
  - rewrite INR_IZR_INZ, Z2Nat.id by auto. apply Zceil_bound.
Qed.

(** the real ratio that leads to the same number *)
Lemma ratio_of k N : (k <= N)%nat -> exists r, 0 <= r <= 1 /\ r * INR N = INR k.
Proof.
  intros H. destruct N as [|N]; [exists 0; split; [lra|]; replace k with 0%nat by lia; cbn; lra|]. assert (P : 0 < INR (S N)) by (apply lt_0_INR; lia).
  exists (INR k / INR (S N)). apply le_INR in H. pose proof (pos_INR k). split; [|field; lra]. split.
  - unfold Rdiv. apply Rmult_le_pos; [lra|]. left. now apply Rinv_0_lt_compat.
  - apply Rmult_le_reg_r with (INR (S N)); auto. unfold Rdiv. rewrite Rmult_assoc, Rinv_l by lra. lra.
Qed.
Lemma Zceil_INR k : Base.Zceil (INR k) = Z.of_nat k.
Proof. apply Zceil_spec. rewrite <- INR_IZR_INZ. lra. Qed.

Section Split.
Context {V : Type}.
Lemma split_same (h : heap V) ds (ratio : double) sh shuf N r k :
  samples h ds = Ok N -> finite ratio -> 0 <= val ratio <= 1 -> 0 <= r <= 1 ->
  d_ceil (dmult ratio (dint (Z.of_nat N))) = Ok (Z.of_nat k) -> r * INR N = INR k ->
  d_splitRatio h ds ratio sh shuf [] = splitRatio h ds r sh shuf [].
Proof.
  intros HS F B Br Ek Er. unfold d_splitRatio, splitRatio. destruct (int_ok 0) as (F0 & V0); [lia|]. destruct (int_ok 1) as (F1 & V1); [lia|].
  rewrite (proj2 (leb_ok _ _ F0 F)) by (rewrite V0; lra). rewrite (proj2 (leb_ok _ _ F F1)) by (rewrite V1; lra).
  rewrite (proj2 (Rleb_true 0 r)) by lra. rewrite (proj2 (Rleb_true r 1)) by lra. cbn [andb check bind]. rewrite HS. cbn [bind].
  rewrite fillIndices_spec. cbn [bind]. rewrite Ek, Er, Zceil_INR. reflexivity.
Qed.
Lemma sample_same (h : heap V) ds (fraction : double) idx rep shuf N r k :
  samples h ds = Ok N ->
  d_ceil (dmult (dint (Z.of_nat N)) fraction) = Ok (Z.of_nat k) -> r * INR N = INR k ->
  d_sample h ds fraction rep idx shuf = sample h ds r rep idx shuf.
Proof.
  intros HS Ek Er. unfold d_sample, sample. rewrite HS. cbn [bind]. rewrite Ek, (Rmult_comm (INR N)), Er, Zceil_INR. reflexivity.
Qed.
End Split.

(** ** the size *)
Lemma nearest_err y r : nearest y r -> Rabs r <= maxDouble -> Rabs (val y - r) <= eps * Rabs r + tiny.
Proof.
  intros (_ & N) H. pose proof (double_of_faithful r H) as F. apply Rle_trans with (2 := faithful_err _ _ F H). apply N. apply F.
Qed.
Lemma eps_tiny : eps + tiny <= / 2 ^ 51 * (2 / 3).
Proof.
  pose proof tiny_small as T. assert (E : eps = / 2 ^ 51 * / 2). { unfold eps. change (2 ^ 52) with (2 * 2 ^ 51). rewrite Rinv_mult. ring. }
  assert (U : / 2 ^ 200 <= / 2 ^ 51 * / 6).
  { rewrite <- Rinv_mult. apply Rinv_le_contravar; [apply Rmult_lt_0_compat; [apply pow_lt; lra|lra]|].
    apply Rle_trans with (2 ^ 51 * 2 ^ 149); [|rewrite <- pow_add; apply Rle_refl]. apply Rmult_le_compat_l; [apply pow_le; lra|]. apply Rle_trans with (2 ^ 3); [lra|]. apply Rle_pow; [lra|lia]. }
  lra.
Qed.
(** the computed number of instances is near the exact one *)
Lemma product_near (r : double) N p q : (Z.of_nat N < 2 ^ 31)%Z -> (0 <= p <= q)%Z -> (0 < q)%Z -> finite r -> 0 <= val r <= 1 -> nearest r (IZR p / IZR q) ->
  Rabs (val (dmult r (dint (Z.of_nat N))) - IZR p / IZR q * INR N) < / 2 ^ 19.
Proof.
  intros HN Hp Hq F B Hr. destruct (product_ok r N F B HN) as (P & Pb & M). pose proof (faithful_err _ _ P M) as E1.
  assert (Q : 0 < IZR q) by (apply IZR_lt; lia). assert (R1 : 0 <= IZR p / IZR q <= 1).
  { assert (0 <= IZR p) by (apply IZR_le; lia). assert (IZR p <= IZR q) by (apply IZR_le; lia). split.
    - unfold Rdiv. apply Rmult_le_pos; [lra|]. left. now apply Rinv_0_lt_compat.
    - apply Rmult_le_reg_r with (IZR q); auto. unfold Rdiv. rewrite Rmult_assoc, Rinv_l by lra. lra. }
  set (x := IZR p / IZR q) in *. assert (Mx : Rabs x <= maxDouble). { apply small_max. rewrite Rabs_pos_eq by lra. apply Rle_trans with (2 ^ 0); [cbn; lra|]. apply Rle_pow; [lra|lia]. }
  pose proof (nearest_err _ _ Hr Mx) as E2. rewrite (Rabs_pos_eq x) in E2 by lra. pose proof (pos_INR N) as PN. rewrite (Rabs_pos_eq (val r * INR N)) in E1 by nra.
  pose proof eps_tiny as ET. pose proof eps_pos as EP. pose proof tiny_pos as TP.
  set (f := val (dmult r (dint (Z.of_nat N)))) in *. destruct N as [|N].
  { cbn [INR] in *. replace f with 0 by lra. rewrite Rmult_0_r, Rminus_0_r, Rabs_R0. apply Rinv_0_lt_compat, pow_lt. lra. }
  assert (N1 : 1 <= INR (S N)) by (rewrite S_INR; pose proof (pos_INR N); lra).
  assert (BN : INR (S N) <= 2 ^ 31). { rewrite INR_IZR_INZ. assert (H : IZR (Z.of_nat (S N)) <= IZR (2 ^ 31)) by (apply IZR_le; lia). rewrite pow_IZR. exact H. }
  assert (A1 : Rabs (f - val r * INR (S N)) <= (eps + tiny) * INR (S N)). { apply Rle_trans with (1 := E1). assert (X1 : val r * INR (S N) <= INR (S N)) by nra. apply (Rmult_le_compat_l eps) in X1; [|lra]. assert (X2 : tiny <= tiny * INR (S N)) by (clear - N1 TP; nra). lra. }
  assert (A2 : Rabs (val r * INR (S N) - x * INR (S N)) <= (eps + tiny) * INR (S N)).
  { rewrite <- Rmult_minus_distr_r, Rabs_mult, (Rabs_pos_eq (INR (S N))) by lra. apply Rmult_le_compat_r; [lra|]. apply Rle_trans with (1 := E2). assert (X1 : x <= 1) by lra. apply (Rmult_le_compat_l eps) in X1; lra. }
  assert (A3 : (eps + tiny) * INR (S N) <= / 2 ^ 51 * (2 / 3) * 2 ^ 31). { apply Rmult_le_compat; lra. }
  assert (A4 : / 2 ^ 51 * (2 / 3) * 2 ^ 31 = / 2 ^ 20 * (2 / 3)). { replace (2 ^ 51) with (2 ^ 20 * 2 ^ 31) by (rewrite <- pow_add; reflexivity). field. }
  assert (A5 : / 2 ^ 19 = 2 * / 2 ^ 20). { change (2 ^ 20) with (2 * 2 ^ 19). field. }
  assert (A6 : 0 < / 2 ^ 20) by (apply Rinv_0_lt_compat, pow_lt; lra).
  replace (f - x * INR (S N)) with ((f - val r * INR (S N)) + (val r * INR (S N) - x * INR (S N))) by ring. pose proof (Rabs_triang (f - val r * INR (S N)) (val r * INR (S N) - x * INR (S N))). lra.
Qed.
(** rounding up a number near p N / q *)
Lemma near_ceil v k N p q : (0 < q <= 2 ^ 19)%Z -> Rabs (v - IZR p / IZR q * INR N) < / 2 ^ 19 -> INR k - 1 < v <= INR k ->
  (q * (Z.of_nat k - 1) <= p * Z.of_nat N <= q * Z.of_nat k)%Z.
Proof.
  intros Hq A B. assert (Q : 0 < IZR q) by (apply IZR_lt; lia). assert (Q2 : / 2 ^ 19 <= / IZR q).
  { apply Rinv_le_contravar; auto. rewrite pow_IZR. apply IZR_le. exact (proj2 Hq). }
  rewrite (INR_IZR_INZ k), (INR_IZR_INZ N) in *. apply Rabs_def2 in A. destruct A as (A1 & A2).
  set (w := IZR p / IZR q * IZR (Z.of_nat N)) in *. assert (W : w * IZR q = IZR (p * Z.of_nat N)) by (unfold w; rewrite mult_IZR; field; lra).
  assert (I1 : / IZR q * IZR q = 1) by (apply Rinv_l; lra). split; apply Z.nlt_ge; intros L.
  - assert (L' : (p * Z.of_nat N <= q * (Z.of_nat k - 1) - 1)%Z) by lia. apply IZR_le in L'. rewrite minus_IZR, (mult_IZR q), minus_IZR in L'. rewrite <- W in L'. nra.
  - assert (L' : (q * Z.of_nat k + 1 <= p * Z.of_nat N)%Z) by lia. apply IZR_le in L'. rewrite plus_IZR, (mult_IZR q) in L'. rewrite <- W in L'. nra.
Qed.
Lemma size_cases k N p q : (0 < q)%Z -> (q * (Z.of_nat k - 1) <= p * Z.of_nat N <= q * Z.of_nat k)%Z ->
  (~ (q | p * Z.of_nat N) -> q * (Z.of_nat k - 1) < p * Z.of_nat N < q * Z.of_nat k)%Z /\
  ((q | p * Z.of_nat N) -> q * Z.of_nat k = p * Z.of_nat N \/ q * Z.of_nat k = p * Z.of_nat N + q)%Z.
Proof.
  intros Hq (C1 & C2). split.
  - intros N0. split; apply Z.le_neq; split; auto; intros C; apply N0; [exists (Z.of_nat k - 1)%Z|exists (Z.of_nat k)]; lia.
  - intros (c & Ec). rewrite Ec in *. assert (c = Z.of_nat k \/ c = Z.of_nat k - 1)%Z as [-> | ->] by nia; [left|right]; ring.
Qed.
Lemma nearest_unit (ratio : double) p q : (0 <= p <= q)%Z -> (0 < q)%Z -> nearest ratio (IZR p / IZR q) -> 0 <= val ratio <= 1.
Proof.
  intros Hp Hq Hr. assert (Q : 0 < IZR q) by (apply IZR_lt; lia). assert (R1 : 0 <= IZR p / IZR q <= 1).
  { assert (0 <= IZR p) by (apply IZR_le; lia). assert (IZR p <= IZR q) by (apply IZR_le; lia). split.
    - unfold Rdiv. apply Rmult_le_pos; [lra|]. left. now apply Rinv_0_lt_compat.
    - apply Rmult_le_reg_r with (IZR q); auto. unfold Rdiv. rewrite Rmult_assoc, Rinv_l by lra. lra. }
  destruct Hr as (_ & Hr). destruct (int_ok 0) as (F0 & V0); [lia|]. destruct (int_ok 1) as (F1 & V1); [lia|]. pose proof (Hr _ F0) as H0. pose proof (Hr _ F1) as H1.
  rewrite V0 in H0. rewrite V1 in H1. rewrite (Rabs_left1 (0 - _)) in H0 by lra. rewrite (Rabs_pos_eq (1 - _)) in H1 by lra. apply Rabs_le_inv in H0, H1.
  split; apply Rnot_lt_le; intros C; lra.
Qed.
(** quotients are closest *)
Lemma div_nearest x y : finite x -> val y <> 0 -> Rabs (val x / val y) <= maxDouble -> nearest (ddiv x y) (val x / val y).
Proof.
  intros Fx Fy H. pose proof (Bdiv_correct 53 1024 _ _ mode_NE x y Fy) as C. rewrite Rlt_bool_true in C by now apply round_small. destruct C as (C1 & C2 & _). red in Fx. rewrite Fx in C2.
  split; [exact C2|]. intros d Fd. unfold val at 1, ddiv. rewrite C1. pose proof (round_N_pt radix2 fexp64 (fun x => negb (Z.even x)) (val x / val y)) as (_ & N). apply N, val_fmt.
Qed.
Lemma quotient_nearest p q : (0 <= p <= q)%Z -> (0 < q <= 2 ^ 53)%Z -> nearest (ddiv (dint p) (dint q)) (IZR p / IZR q).
Proof.
  intros Hp Hq. destruct (int_ok p) as (F1 & V1); [lia|]. destruct (int_ok q) as (F2 & V2); [lia|]. rewrite <- V1, <- V2. assert (Q : 0 < IZR q) by (apply IZR_lt; lia).
  apply div_nearest; auto; rewrite V2; [lra|]. rewrite V1. assert (0 <= IZR p) by (apply IZR_le; lia). assert (IZR p <= IZR q) by (apply IZR_le; lia).
  apply small_max. rewrite Rabs_pos_eq by (unfold Rdiv; apply Rmult_le_pos; [lra|]; left; now apply Rinv_0_lt_compat).
  apply Rle_trans with 1; [|apply Rle_trans with (2 ^ 0); [cbn; lra|]; apply Rle_pow; [lra|lia]].
  apply Rmult_le_reg_r with (IZR q); auto. unfold Rdiv. rewrite Rmult_assoc, Rinv_l by lra. lra.
Qed.
Lemma seven_percent : val (dmult (literal 7 2) (dint 100)) = 7 + / 2 ^ 50.
Proof.
  unfold val. rewrite <- SF2R_B2SF. set (s := B2SF _). vm_compute in s. subst s. cbn [SF2R]. unfold F2R. cbn [Fnum Fexp cond_Zopp]. change (bpow radix2 (-50)) with (/ IZR (2 ^ 50)). rewrite pow_IZR.
  change (Z.of_nat 50) with 50%Z. assert (IZR (2 ^ 50) <> 0) by (apply not_0_IZR; discriminate).
  replace 7881299347898369%Z with (7 * 2 ^ 50 + 1)%Z by reflexivity. rewrite plus_IZR, mult_IZR. field. auto.
Qed.
