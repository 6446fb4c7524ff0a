(** Derivative of the regularisation terms of FC_Model. *)
From Verif Require Import Base BaseFacts Matrix RSum MatOps Vec Deriv Layer_Layout FC_Model.
Local Open Scope R_scope.

Lemma D_Rabs w : w <> 0 -> D Rabs w (w / Rabs w).
Proof.
  intros H. destruct (Rle_lt_dec w 0).
  - apply (D_local (fun x => - x)).
    + exists (- w). split; [lra|]. intros x Hx. rewrite Rabs_left; auto.
      unfold Rabs in Hx. destruct (Rcase_abs (x - w)); lra.
    + rewrite Rabs_left by lra. replace (w / - w) with (- (1)) by (field; lra). apply D_opp, D_id.
  - apply (D_local (fun x => x)).
    + exists w. split; [lra|]. intros x Hx. rewrite Rabs_right; auto.
      unfold Rabs in Hx. destruct (Rcase_abs (x - w)); lra.
    + rewrite Rabs_right by lra. replace (w / w) with 1 by (field; lra). apply D_id.
Qed.

(** derivative of the penalty of one weight *)
Definition regD (r : Regularization) (w : R) : R :=
  (if Rltb 0 (l1Penalty r) then l1Penalty r * w / Rabs w else 0) +
  (if Rltb 0 (l2Penalty r) then l2Penalty r * w else 0).

Lemma regDeriv_Ok r W Wd J I : size_is W J I -> size_is Wd J I ->
  exists Wd', regDeriv r W Wd = Ok Wd' /\ size_is Wd' J I /\
    forall j i, at_ Wd' j i = at_ Wd j i + regD r (at_ W j i).
Proof.
  intros HW HD. unfold regDeriv, regD. destruct (Rltb 0 (l1Penalty r)).
  - rewrite (mmap2_Ok _ _ _ J I) by auto. cbn [bind].
    destruct (Rltb 0 (l2Penalty r)).
    + rewrite (mmap2_Ok _ _ _ J I) by (auto; split; auto). eexists. split; eauto. split; [split; auto|].
      intros. simpl. ring.
    + eexists. split; eauto. split; [split; auto|]. intros. simpl. ring.
  - cbn [bind]. destruct (Rltb 0 (l2Penalty r)).
    + rewrite (mmap2_Ok _ _ _ J I) by (auto; split; auto). eexists. split; eauto. split; [split; auto|].
      intros. simpl. ring.
    + eexists. split; eauto. split; auto. intros. ring.
Qed.

Lemma D_regError r (W : R -> mat) J I W' t0 :
  (forall t, size_is (W t) J I) ->
  (forall j i, (j < J)%nat -> (i < I)%nat -> D (fun t => at_ (W t) j i) t0 (W' j i)) ->
  (0 < l1Penalty r -> forall j i, (j < J)%nat -> (i < I)%nat -> at_ (W t0) j i <> 0) ->
  D (fun t => regError r (W t)) t0
    (rsum J (fun j => rsum I (fun i => regD r (at_ (W t0) j i) * W' j i))).
Proof.
  intros HS HD Hsm. unfold regError.
  apply (D_eq _ _
    ((if Rltb 0 (l1Penalty r) then l1Penalty r * rsum J (fun j => rsum I (fun i => at_ (W t0) j i / Rabs (at_ (W t0) j i) * W' j i)) else 0) +
     (if Rltb 0 (l2Penalty r) then l2Penalty r * rsum J (fun j => rsum I (fun i => 2 * at_ (W t0) j i * W' j i)) * / 2 else 0))).
  { unfold regD. destruct (Rltb 0 (l1Penalty r)), (Rltb 0 (l2Penalty r)).
    - rewrite <- !rsum_scal, <- rsum_scal_r, <- rsum_plus. apply rsum_ext. intros j Hj.
      rewrite <- !rsum_scal, <- rsum_scal_r, <- rsum_plus. apply rsum_ext. intros i Hi.
      unfold Rdiv. set (z := / Rabs _). field.
    - rewrite <- !rsum_scal, Rplus_0_r. apply rsum_ext. intros j Hj.
      rewrite <- !rsum_scal. apply rsum_ext. intros i Hi. unfold Rdiv. ring.
    - rewrite <- !rsum_scal, <- rsum_scal_r, Rplus_0_l. apply rsum_ext. intros j Hj.
      rewrite <- !rsum_scal, <- rsum_scal_r. apply rsum_ext. intros i Hi. field.
    - rewrite rsum_0; [ring|]. intros. apply rsum_0. intros. ring. }
  apply (D_plus (fun t => if Rltb 0 (l1Penalty r) then l1Penalty r * msum (mmap Rabs (W t)) else 0)
                (fun t => if Rltb 0 (l2Penalty r) then l2Penalty r * msum (mmap (fun w => w * w) (W t)) / 2 else 0)).
  - destruct (Rltb 0 (l1Penalty r)) eqn:E; [|apply D_const].
    apply (D_scal _ (fun t => msum (mmap Rabs (W t)))).
    apply (D_ext (fun t => rsum J (fun j => rsum I (fun i => Rabs (at_ (W t) j i))))).
    { intros t. unfold msum, mmap. simpl. destruct (HS t) as (A & B). rewrite A, B. auto. }
    apply (D_sum J (fun j t => rsum I (fun i => Rabs (at_ (W t) j i)))). intros j Hj.
    apply (D_sum I (fun i t => Rabs (at_ (W t) j i))). intros i Hi.
    apply (D_comp (fun t => at_ (W t) j i) Rabs); auto. apply D_Rabs.
    apply Hsm; auto. now apply Rltb_true.
  - destruct (Rltb 0 (l2Penalty r)) eqn:E; [|apply D_const].
    apply (D_scal_r (/ 2) (fun t => l2Penalty r * msum (mmap (fun w => w * w) (W t)))).
    apply (D_scal _ (fun t => msum (mmap (fun w => w * w) (W t)))).
    apply (D_ext (fun t => rsum J (fun j => rsum I (fun i => at_ (W t) j i * at_ (W t) j i)))).
    { intros t. unfold msum, mmap. simpl. destruct (HS t) as (A & B). rewrite A, B. auto. }
    apply (D_sum J (fun j t => rsum I (fun i => at_ (W t) j i * at_ (W t) j i))). intros j Hj.
    apply (D_sum I (fun i t => at_ (W t) j i * at_ (W t) j i)). intros i Hi.
    eapply D_eq; [|apply (D_mult (fun t => at_ (W t) j i) (fun t => at_ (W t) j i)); apply HD; auto]. ring.
Qed.
