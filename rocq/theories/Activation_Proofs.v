(** Proofs about the activation functions. *)
From Verif Require Import Base BaseFacts Matrix RSum MatOps Deriv Activation_Model.
From Verif Require Export Activation_Spec.
Local Open Scope R_scope.

Lemma logistic_mid a : 1 / (1 + exp (- a)) = / (1 + exp (- a)).
Proof. unfold Rdiv. ring. Qed.

Lemma D_logistic t : D (fun a => 1 / (1 + exp (- a))) t
  (1 / (1 + exp (- t)) * (1 - 1 / (1 + exp (- t)))).
Proof.
  pose proof (exp_pos (- t)) as P.
  eapply D_eq; [|apply (D_div (fun _ => 1) (fun a => 1 + exp (- a)))].
  2: apply D_const.
  2: apply (D_plus (fun _ => 1) (fun a => exp (- a))); [apply D_const|apply (D_exp (fun a => - a)), D_opp, D_id].
  2: lra.
  unfold Rsqr. field. lra.
Qed.

Lemma near t c : t <> c -> exists d, 0 < d /\ forall x, Rabs (x - t) < d -> (x < c <-> t < c) /\ (c < x <-> c < t).
Proof.
  intros H. exists (Rabs (t - c)). split; [apply Rabs_pos_lt; lra|].
  intros x Hx. unfold Rabs in Hx. destruct (Rcase_abs (x - t)), (Rcase_abs (t - c)); lra.
Qed.

Lemma act_derivative act a : act_smooth act a -> D (act_fun act) a (act_der act (act_fun act a)).
Proof.
  intros H. destruct act; simpl in *.
  - destruct H as (H1 & H2).
    destruct (near a (-45) H1) as (d1 & P1 & N1). destruct (near a 45 H2) as (d2 & P2 & N2).
    assert (P : 0 < Rmin d1 d2) by now apply Rmin_pos.
    assert (L : forall x, Rabs (x - a) < Rmin d1 d2 -> Rabs (x - a) < d1 /\ Rabs (x - a) < d2).
    { intros x Hx. pose proof (Rmin_l d1 d2). pose proof (Rmin_r d1 d2). lra. }
    destruct (Rltb a (-45)) eqn:E1; [|destruct (Rltb 45 a) eqn:E2].
    + apply Rltb_true in E1. apply (D_local (fun _ => 0)); [|eapply D_eq; [|apply D_const]; ring].
      exists (Rmin d1 d2). split; auto. intros x Hx. apply L in Hx. destruct Hx as (A & _).
      apply N1 in A. unfold act_fun. rewrite (proj2 (Rltb_true x (-45))) by lra. auto.
    + apply Rltb_false in E1. apply Rltb_true in E2.
      apply (D_local (fun _ => 1)); [|eapply D_eq; [|apply D_const]; ring].
      exists (Rmin d1 d2). split; auto. intros x Hx. apply L in Hx. destruct Hx as (A & B).
      apply N1 in A. apply N2 in B. unfold act_fun. rewrite (proj2 (Rltb_false x (-45))) by lra.
      rewrite (proj2 (Rltb_true 45 x)) by lra. auto.
    + apply Rltb_false in E1. apply Rltb_false in E2.
      apply (D_local (fun a => 1 / (1 + exp (- a)))); [|apply D_logistic].
      exists (Rmin d1 d2). split; auto. intros x Hx. apply L in Hx. destruct Hx as (A & B).
      apply N1 in A. apply N2 in B. unfold act_fun. rewrite (proj2 (Rltb_false x (-45))) by lra.
      rewrite (proj2 (Rltb_false 45 x)) by lra. auto.
  - apply D_tanh.
  - eapply D_eq; [|apply (D_scal 1.7159 (fun a => tanh (0.66666667 * a)))].
    2: apply (D_comp (fun a => 0.66666667 * a) tanh); [apply (D_scal 0.66666667 (fun a => a)), D_id|apply D_tanh].
    simpl. field. lra.
  - destruct (near a 0 H) as (d & P & N). destruct (Rltb 0 (Rmax 0 a)) eqn:E.
    + apply Rltb_true in E. assert (0 < a) by (destruct (Rle_dec 0 a); [lra|rewrite Rmax_left in E; lra]).
      apply (D_local (fun x => x)); [|eapply D_eq; [|apply D_id]; ring].
      exists d. split; auto. intros x Hx. apply N in Hx. unfold act_fun. rewrite Rmax_right; lra.
    + apply Rltb_false in E. assert (a < 0).
      { destruct (Rle_dec 0 a); [rewrite Rmax_right in E; lra|lra]. }
      apply (D_local (fun _ => 0)); [|eapply D_eq; [|apply D_const]; ring].
      exists d. split; auto. intros x Hx. apply N in Hx. unfold act_fun. rewrite Rmax_left; lra.
  - apply D_id.
Qed.

Lemma logistic_bounds a : 0 < 1 / (1 + exp (- a)) < 1.
Proof.
  pose proof (exp_pos (- a)) as P. rewrite logistic_mid. split.
  - apply Rinv_0_lt_compat. lra.
  - rewrite <- Rinv_1. apply Rinv_lt_contravar; lra.
Qed.

Lemma act_fun_monotone act x y : x <= y -> act_fun act x <= act_fun act y.
Proof.
  intros H. destruct act; simpl.
  - pose proof (logistic_bounds x). pose proof (logistic_bounds y).
    assert (1 / (1 + exp (- x)) <= 1 / (1 + exp (- y))).
    { rewrite !logistic_mid. apply Rinv_le_contravar; [pose proof (exp_pos (- y)); lra|].
      assert (exp (- y) <= exp (- x)) by (destruct (Req_dec x y) as [->|]; [lra|left; apply exp_increasing; lra]). lra. }
    unfold Rltb. destruct (Rlt_dec x (-45)), (Rlt_dec y (-45)), (Rlt_dec 45 x), (Rlt_dec 45 y); lra.
  - now apply tanh_le.
  - assert (tanh (0.66666667 * x) <= tanh (0.66666667 * y)) by (apply tanh_le; lra). lra.
  - apply Rmax_lub; [apply Rmax_l|]. apply Rle_trans with y; auto. apply Rmax_r.
  - auto.
Qed.

Lemma act_fun_range_proof a :
  0 <= act_fun LOGISTIC a <= 1 /\ -1 < act_fun TANH a < 1 /\
  -1.7159 < act_fun TANH_SCALED a < 1.7159 /\ 0 <= act_fun RECTIFIER a.
Proof.
  unfold act_fun. split; [|split; [|split]].
  - pose proof (logistic_bounds a). unfold Rltb. destruct (Rlt_dec a (-45)), (Rlt_dec 45 a); lra.
  - apply tanh_range.
  - pose proof (tanh_range (0.66666667 * a)). lra.
  - apply Rmax_l.
Qed.

(** matrix versions *)
Lemma activationFunction_Ok act a z r c : size_is a r c -> size_is z r c ->
  exists y, activationFunction act a z = Ok y /\ size_is y r c /\
    forall i j, at_ y i j = act_fun act (at_ a i j).
Proof.
  intros Ha Hz. unfold activationFunction.
  rewrite (same_size_true a z r c Ha Hz).
  assert (S : size_is (mmap (act_fun act) a) r c) by (destruct Ha; split; auto).
  destruct act; try (eexists; split; [reflexivity|]; split; [exact S|reflexivity]).
Qed.

Lemma activationFunctionDerivative_Ok act z gd r c : size_is z r c -> size_is gd r c ->
  exists d, activationFunctionDerivative act z gd = Ok d /\ size_is d r c /\
    forall i j, at_ d i j = act_der act (at_ z i j).
Proof.
  intros Hz Hg. unfold activationFunctionDerivative.
  rewrite (same_size_true z gd r c Hz Hg).
  assert (S : size_is (mmap (act_der act) z) r c) by (destruct Hz; split; auto).
  destruct act; try (eexists; split; [reflexivity|]; split; [exact S|reflexivity]).
  eexists. split; [reflexivity|]. split; [destruct Hg; split; auto|reflexivity].
Qed.

(** softmax *)
Lemma softmax_spec y r c : size_is y r c -> (0 < r)%nat -> (0 < c)%nat ->
  exists s, softmax y = Ok s /\ size_is s r c /\
    forall n j, (n < r)%nat -> (j < c)%nat ->
      at_ s n j = exp (at_ y n j) / rsum c (fun k => exp (at_ y n k)).
Proof.
  intros (Hr & Hc) R0 C0. unfold softmax, maxCoeff.
  rewrite (proj2 (Nat.ltb_lt 0 (rows y))), (proj2 (Nat.ltb_lt 0 (cols y))) by lia. simpl andb. cbv iota.
  cbn [bind]. match goal with |- context [exp (_ - ?m)] => set (max := m) end. clearbody max.
  match goal with |- context [for_ (rows y) ?b y] => set (body := b) end.
  assert (PS : forall n, 0 < rsum c (fun k => exp (at_ y n k))).
  { intros n. apply rsum_pos; auto. intros. apply exp_pos. }
  destruct (for_inv (fun m s => size_is s r c /\
      (forall n j, (n < r)%nat -> (j < c)%nat -> at_ s n j =
         if Nat.ltb n m then exp (at_ y n j) / rsum c (fun k => exp (at_ y n k)) else at_ y n j)) body r y)
    as (s & E & S1 & S2).
  - split; [split; auto|]. reflexivity.
  - intros m s Hm ((Sr & Sc) & H). unfold body. eexists. split; [reflexivity|].
    split; [split; auto|]. intros n j Hn Hj. unfold rowsum, mrow_map. cbn [rows cols at_]. rewrite Sc, (proj2 (Nat.ltb_lt j c)), Bool.andb_true_r by auto.
    destruct (Nat.eqb_spec n m) as [->|Hne].
    + rewrite Nat.eqb_refl. rewrite (proj2 (Nat.ltb_lt m (S m))) by lia.
      rewrite H by auto. rewrite (proj2 (Nat.ltb_ge m m)) by lia.
      erewrite (rsum_ext c _ (fun k => exp (- max) * exp (at_ y m k))).
      2:{ intros k Hk. rewrite (proj2 (Nat.ltb_lt k c)) by auto. cbn [andb]. rewrite H by auto. rewrite (proj2 (Nat.ltb_ge m m)) by lia.
          unfold Rminus. rewrite exp_plus. ring. }
      rewrite rsum_scal. unfold Rminus. rewrite exp_plus.
      pose proof (exp_pos (- max)). specialize (PS m). field. lra.
    + rewrite H by auto. destruct (Nat.ltb_spec n m), (Nat.ltb_spec n (S m)); auto; lia.
  - rewrite Hr. exists s. split; auto. split; auto. intros n j Hn Hj. rewrite S2 by auto.
    rewrite (proj2 (Nat.ltb_lt n r)) by auto. reflexivity.
Qed.
