(** Properties C30 and C31: activation functions and softmax. *)
From Verif Require Import Base BaseFacts Matrix RSum MatOps Deriv Activation_Model Activation_Proofs.
Local Open Scope R_scope.

(** C30.  Ranges. *)
Theorem C30_ranges : forall a,
  0 <= act_fun LOGISTIC a <= 1 /\ -1 < act_fun TANH a < 1 /\
  -1.7159 < act_fun TANH_SCALED a < 1.7159 /\ 0 <= act_fun RECTIFIER a.
Proof. exact act_fun_range_proof. Qed.

(** C30.  All activation functions are non-decreasing. *)
Theorem C30_non_decreasing : forall act x y, x <= y -> act_fun act x <= act_fun act y.
Proof. exact act_fun_monotone. Qed.

(** C30.  The derivative function, applied to the output, gives the derivative, for every
    argument at which the activation function is differentiable, i.e. everywhere except
    at -45 and 45 for the logistic function (which is cut off there) and at 0 for the
    rectifier. *)
Theorem C30_derivatives : forall act a,
  (act = LOGISTIC -> a <> -45 /\ a <> 45) -> (act = RECTIFIER -> a <> 0) ->
  derivable_pt_lim (act_fun act) a (act_der act (act_fun act a)).
Proof.
  intros act a H1 H2. apply act_derivative. destruct act; simpl; auto.
Qed.

(** C30.  The logistic function differs from 1 / (1 + exp (-a)) by at most exp (-45). *)
Theorem C30_logistic_error : forall a,
  Rabs (act_fun LOGISTIC a - / (1 + exp (- a))) <= exp (-45).
Proof.
  intros a. simpl. pose proof (logistic_bounds a) as B. rewrite logistic_mid in *.
  pose proof (exp_pos (-45)) as P45. pose proof (exp_pos (- a)) as PA.
  unfold Rltb. destruct (Rlt_dec a (-45)) as [L1|]; [|destruct (Rlt_dec 45 a) as [L2|]].
  - rewrite Rabs_left1 by lra. apply Rle_trans with (/ exp (- a)).
    + replace (- (0 - / (1 + exp (- a)))) with (/ (1 + exp (- a))) by ring.
      apply Rinv_le_contravar; lra.
    + rewrite exp_Ropp, Rinv_inv. left. apply exp_increasing. lra.
  - rewrite Rabs_right by lra. apply Rle_trans with (exp (- a)).
    + apply Rmult_le_reg_r with (1 + exp (- a)); [lra|].
      replace ((1 - / (1 + exp (- a))) * (1 + exp (- a))) with (exp (- a)) by (field; lra). nra.
    + left. apply exp_increasing. lra.
  - rewrite Rminus_diag_eq, Rabs_R0 by reflexivity. lra.
Qed.

(** C30.  The matrix functions apply these functions to each coefficient. *)
Theorem C30_matrix_functions : forall act a z,
  rows a = rows z -> cols a = cols z ->
  (exists y, activationFunction act a z = Ok y /\ rows y = rows a /\ cols y = cols a /\
     forall i j, (i < rows a)%nat -> (j < cols a)%nat -> at_ y i j = act_fun act (at_ a i j)) /\
  (exists d, activationFunctionDerivative act a z = Ok d /\ rows d = rows a /\ cols d = cols a /\
     forall i j, (i < rows a)%nat -> (j < cols a)%nat -> at_ d i j = act_der act (at_ a i j)).
Proof.
  intros act a z Hr Hc.
  destruct (activationFunction_Ok act a z (rows a) (cols a)) as (y & E & (S1 & S2) & V); [split; auto..|].
  destruct (activationFunctionDerivative_Ok act a z (rows a) (cols a)) as (d & E' & (S1' & S2') & V'); [split; auto..|].
  split.
  - exists y. auto.
  - exists d. auto.
Qed.

(** C31.  Every entry after softmax is exp(y_nj) / sum_k exp(y_nk). *)
Theorem C31_softmax_formula : forall y, (0 < rows y)%nat -> (0 < cols y)%nat ->
  exists s, softmax y = Ok s /\ rows s = rows y /\ cols s = cols y /\
  forall n j, (n < rows y)%nat -> (j < cols y)%nat ->
    at_ s n j = exp (at_ y n j) / rsum (cols y) (fun k => exp (at_ y n k)).
Proof.
  intros y Hr Hc. destruct (softmax_spec y (rows y) (cols y)) as (s & E & (S1 & S2) & V); [split; auto|auto..|].
  exists s. auto.
Qed.

(** C31.  Rows are probability distributions with positive entries, and softmax keeps the
    order of the entries of a row. *)
Theorem C31_softmax_distribution : forall y s, softmax y = Ok s ->
  forall n, (n < rows y)%nat ->
  rsum (cols y) (fun j => at_ s n j) = 1 /\
  (forall j, (j < cols y)%nat -> 0 < at_ s n j <= 1) /\
  (forall j k, (j < cols y)%nat -> (k < cols y)%nat ->
     (at_ s n j < at_ s n k <-> at_ y n j < at_ y n k)).
Proof.
  intros y s E n Hn.
  assert (Hc : (0 < cols y)%nat).
  { destruct (Nat.ltb_spec 0 (cols y)); auto. unfold softmax, maxCoeff in E.
    rewrite (proj2 (Nat.ltb_ge 0 (cols y))), andb_false_r in E by lia. discriminate. }
  destruct (C31_softmax_formula y) as (s' & E' & _ & _ & V); [lia|lia|].
  assert (s' = s) by congruence. subst s'.
  set (T := rsum (cols y) (fun k => exp (at_ y n k))) in *.
  assert (P : 0 < T) by (apply rsum_pos; auto; intros; apply exp_pos).
  repeat split.
  - rewrite (rsum_ext _ _ (fun j => exp (at_ y n j) * / T)) by (intros; apply V; auto).
    rewrite rsum_scal_r. fold T. field. lra.
  - rewrite V by auto. apply Rdiv_lt_0_compat; auto. apply exp_pos.
  - rewrite V by auto. fold T. apply Rmult_le_reg_r with T; auto. unfold Rdiv.
    rewrite Rmult_assoc, Rinv_l, Rmult_1_r, Rmult_1_l by lra.
    apply (rsum_ge_term (cols y) (fun k => exp (at_ y n k))); auto. intros. left. apply exp_pos.
  - rewrite !V by auto. fold T. intros H1. apply exp_lt_inv.
    apply Rmult_lt_reg_r with (/ T); auto. now apply Rinv_0_lt_compat.
  - rewrite !V by auto. fold T. intros H1. apply Rmult_lt_compat_r; [now apply Rinv_0_lt_compat|].
    now apply exp_increasing.
Qed.

(** C31.  The result does not change when a constant is added to each entry of a row
    (possibly different constants for different rows). *)
Theorem C31_softmax_shift : forall y y' s s' (shift : nat -> R),
  rows y' = rows y -> cols y' = cols y ->
  (forall n j, (n < rows y)%nat -> (j < cols y)%nat -> at_ y' n j = at_ y n j + shift n) ->
  softmax y = Ok s -> softmax y' = Ok s' -> meq s s'.
Proof.
  intros y y' s s' shift Hr Hc H E E'.
  assert (Hp : (0 < rows y)%nat /\ (0 < cols y)%nat).
  { unfold softmax, maxCoeff in E. destruct (Nat.ltb_spec 0 (rows y)), (Nat.ltb_spec 0 (cols y)); auto; discriminate. }
  destruct (C31_softmax_formula y) as (t & F & R1 & C1 & V); try tauto.
  destruct (C31_softmax_formula y') as (t' & F' & R1' & C1' & V'); try (rewrite ?Hr, ?Hc; tauto).
  assert (t = s) by congruence. assert (t' = s') by congruence. subst t t'.
  split; [congruence|]. split; [congruence|]. intros i j Hi Hj. rewrite V, V' by congruence.
  rewrite Hc, H by congruence.
  rewrite (rsum_ext _ (fun k => exp (at_ y' i k)) (fun k => exp (shift i) * exp (at_ y i k))).
  2:{ intros k Hk. rewrite H by congruence. rewrite exp_plus. ring. }
  rewrite rsum_scal, exp_plus. pose proof (exp_pos (shift i)).
  assert (0 < rsum (cols y) (fun k => exp (at_ y i k))) by (apply rsum_pos; [tauto|]; intros; apply exp_pos).
  field. lra.
Qed.

Print Assumptions C30_ranges.
Print Assumptions C30_non_decreasing.
Print Assumptions C30_derivatives.
Print Assumptions C30_logistic_error.
Print Assumptions C30_matrix_functions.
Print Assumptions C31_softmax_formula.
Print Assumptions C31_softmax_distribution.
Print Assumptions C31_softmax_shift.

(** the conditions of the derivative theorem hold at 1 for all activation functions *)
Example ex_derivative : forall act, derivable_pt_lim (act_fun act) 1 (act_der act (act_fun act 1)).
Proof. intros act. apply C30_derivatives; intros; lra. Qed.

(** softmax is defined for a 2 x 3 matrix *)
Example ex_softmax : exists s, softmax (mkMat 2 3 (fun i j => INR i - INR j)) = Ok s /\
  at_ s 1 2 < at_ s 1 0.
Proof.
  destruct (C31_softmax_formula (mkMat 2 3 (fun i j => INR i - INR j))) as (s & E & _); simpl; try lia.
  exists s. split; auto. apply (proj2 (proj2 (C31_softmax_distribution _ _ E 1%nat ltac:(simpl; lia))) 2%nat 0%nat);
  simpl; try lia; lra.
Qed.
