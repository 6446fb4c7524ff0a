(** Theorems about FullyConnected (C32, C41). *)
From Verif Require Import Base BaseFacts Matrix RSum MatOps Vec Deriv Activation_Model
  Activation_Proofs Layer_Model Layer_Spec Layer_Proofs Layer_Layout FC_Model Reg_Proofs FC_Proofs.
Local Open Scope R_scope.

(** ** Every state in the life of a layer has the right dimensions. *)
Lemma fc_history_inv junk I J bias act reg s :
  history (fc_class junk) I J (fc_new junk I J bias act reg) s -> fc_inv I J bias act reg s.
Proof.
  induction 1 as [|s p q Hh IH Hp E|s X dropout q Y r Hh IH HX E|s X dropout q Y r ein bp q2 eout Hh IH HX E He1 He2 Eb].
  - unfold fc_inv, fc_new. simpl. repeat (split; auto).
  - unfold paramCount in Hp. destruct (fc_count junk I J bias act reg s IH) as (E1 & _). rewrite E1 in Hp.
    destruct (fc_writeAll junk I J bias act reg s p IH Hp) as (q0 & E0 & I0 & _).
    unfold install in E. rewrite E0 in E. cbn [bind updatedParameters fc_class] in E.
    destruct (fc_updated_general I J bias act reg q0 I0) as (q' & E' & I' & _). congruence.
  - destruct (fc_forward_ok junk I J bias act reg s X dropout (rows X) IH) as (q1 & y & E1 & _ & I1 & _); [split; auto|].
    cbn [forwardPropagate fc_class] in E. congruence.
  - destruct (fc_forward_ok junk I J bias act reg s X dropout (rows X) IH) as (q1 & y & E1 & Sy & I1 & _ & F2 & F3 & F4 & F5); [split; auto|].
    cbn [forwardPropagate backpropagate fc_class] in E, Eb. assert (q1 = q) by congruence. subst q1.
    destruct (fc_backward_ok junk I J bias act reg q (rows X) (fW s) y X ein bp) as (q3 & e3 & E3 & I3 & _);
      auto; try (split; auto; fail); [apply IH|congruence].
Qed.

(** the weight of input [i] of unit [j] in the parameter vector, and its bias *)
Definition weight (I : nat) (bias : bool) (p : list R) (j i : nat) : R :=
  p.[j * (I + if bias then 1 else 0) + i].
Definition biasOf (I : nat) (bias : bool) (p : list R) (j : nat) : R :=
  if bias then p.[j * (I + 1) + I] else 0.
Definition activation (I : nat) (bias : bool) (p : list R) (X : mat) (n j : nat) : R :=
  rsum I (fun i => at_ X n i * weight I bias p j i) + biasOf I bias p j.

(** ** C32: the forward pass.  At any time in the life of the layer, after setting the
    parameters [p], it computes act(x W^T + b) for each row [n] and unit [j], and the
    error term is the sum of the penalties of the weights. *)
Theorem C32_fc_forward junk I J bias act reg s p X dropout :
  history (fc_class junk) I J (fc_new junk I J bias act reg) s ->
  maxSquaredWeightNorm reg <= 0 ->
  length p = (J * (I + if bias then 1 else 0))%nat -> cols X = I ->
  exists q q1 Y r,
    install (fc_class junk) s p = Ok q /\ fc_forward junk q X dropout = Ok (q1, Y, r) /\
    rows Y = rows X /\ cols Y = J /\
    (forall n j, (n < rows X)%nat -> (j < J)%nat ->
       at_ Y n j = act_fun act (activation I bias p X n j)) /\
    r = (if Rltb 0 (l1Penalty reg)
         then l1Penalty reg * rsum J (fun j => rsum I (fun i => Rabs (weight I bias p j i))) else 0) +
        (if Rltb 0 (l2Penalty reg)
         then l2Penalty reg / 2 * rsum J (fun j => rsum I (fun i => (weight I bias p j i) ^ 2)) else 0).
Proof.
  intros Hh Hm Hp HX. apply fc_history_inv in Hh.
  destruct (fc_install junk I J bias act reg Hm s p Hh Hp) as (q & E & Hq & R1 & R2).
  destruct (fc_forward_ok junk I J bias act reg q X dropout (rows X) Hq) as (q1 & y & Ef & Sy & _ & F1 & _); [split; auto|].
  exists q, q1, y, (regError reg (fW q)). destruct Sy as (S1 & S2). split; auto. split; auto. split; auto. split; auto.
  split.
  - intros n j Hn Hj. rewrite F1. f_equal. unfold preact, activation. f_equal.
    + apply rsum_ext. intros i Hi. rewrite R1 by auto. reflexivity.
    + unfold biasOf. destruct bias; auto.
  - unfold regError. assert (SW : size_is (fW q) J I) by apply Hq. destruct SW as (W1 & W2).
    f_equal.
    + destruct (Rltb 0 (l1Penalty reg)); auto. f_equal. unfold msum, mmap. simpl. rewrite W1, W2.
      apply rsum_ext. intros. apply rsum_ext. intros. rewrite R1 by auto. reflexivity.
    + destruct (Rltb 0 (l2Penalty reg)); auto. unfold Rdiv. rewrite Rmult_assoc, (Rmult_comm _ (/ 2)), <- Rmult_assoc. f_equal. unfold msum, mmap. simpl. rewrite W1, W2.
      apply rsum_ext. intros. apply rsum_ext. intros. rewrite R1 by auto. unfold weight, unitParams. ring.
Qed.

(** ** C32: the backward pass returns the exact partial derivatives with respect to all
    parameters and all inputs, wherever the activation function (and the L1 penalty) is
    differentiable. *)
Theorem C32_fc_gradient junk I J bias act reg s p X dropout e bp :
  history (fc_class junk) I J (fc_new junk I J bias act reg) s ->
  maxSquaredWeightNorm reg <= 0 ->
  length p = (J * (I + if bias then 1 else 0))%nat ->
  cols X = I -> rows e = rows X -> cols e = J ->
  (forall n j, (n < rows X)%nat -> (j < J)%nat -> act_smooth act (activation I bias p X n j)) ->
  (0 < l1Penalty reg -> forall j i, (j < J)%nat -> (i < I)%nat -> weight I bias p j i <> 0) ->
  partials_exact (fc_class junk) s p X dropout e bp.
Proof.
  intros Hh Hm Hp HX He1 He2 Sm1 Sm2. apply fc_history_inv in Hh.
  eapply contract_partials; eauto. { apply fc_contract. auto. }
  intros q E. destruct (fc_install junk I J bias act reg Hm s p Hh Hp) as (q0 & E0 & Hq & R1 & R2).
  assert (q0 = q) by congruence. subst q0. split.
  - intros n j Hn Hj. replace (preact I bias (fW q) (fb q) X n j) with (activation I bias p X n j); auto.
    unfold preact, activation. f_equal.
    + apply rsum_ext. intros i Hi. rewrite R1 by auto. reflexivity.
    + unfold biasOf. destruct bias; auto. symmetry. now apply R2.
  - intros Hl j i Hj Hi. rewrite R1 by auto. now apply Sm2.
Qed.

(** ** C41: max-norm.  After setting parameters, the squared norm of the weight vector of
    each unit is at most the limit; vectors within the limit are unchanged, the others are
    multiplied by a positive factor that makes the squared norm equal to the limit; biases
    are unchanged. *)
Theorem C41_max_norm junk I J bias act reg s p :
  history (fc_class junk) I J (fc_new junk I J bias act reg) s ->
  0 < maxSquaredWeightNorm reg ->
  length p = (J * (I + if bias then 1 else 0))%nat ->
  let m := maxSquaredWeightNorm reg in
  let norm2 := fun j => rsum I (fun i => (weight I bias p j i) ^ 2) in
  exists q, install (fc_class junk) s p = Ok q /\
  forall j, (j < J)%nat ->
    rsum I (fun i => (at_ (fW q) j i) ^ 2) <= m /\
    (norm2 j <= m -> forall i, (i < I)%nat -> at_ (fW q) j i = weight I bias p j i) /\
    (m < norm2 j -> rsum I (fun i => (at_ (fW q) j i) ^ 2) = m /\
       exists f, 0 < f < 1 /\ forall i, (i < I)%nat -> at_ (fW q) j i = f * weight I bias p j i) /\
    (bias = true -> at_ (fb q) j 0 = biasOf I bias p j).
Proof.
  intros Hh Hm Hp m norm2. apply fc_history_inv in Hh.
  destruct (fc_writeAll junk I J bias act reg s p Hh Hp) as (q0 & E0 & I0 & R1 & R2).
  destruct (fc_updated_general I J bias act reg q0 I0) as (q & E' & I' & Fb & FW).
  exists q. split. { unfold install. rewrite E0. auto. }
  intros j Hj. specialize (FW Hm j Hj).
  assert (EN : rsum I (fun i => at_ (fW q0) j i * at_ (fW q0) j i) = norm2 j).
  { apply rsum_ext. intros i Hi. rewrite R1 by auto. unfold weight, unitParams. ring. }
  rewrite EN in FW. fold m in FW.
  assert (HN : m < norm2 j -> (forall i, (i < I)%nat -> at_ (fW q) j i = sqrt (m / norm2 j) * weight I bias p j i) /\
            0 < sqrt (m / norm2 j) < 1 /\ rsum I (fun i => (at_ (fW q) j i) ^ 2) = m).
  { intros Hn. assert (Hm' : 0 < m) by (unfold m; auto).
    assert (A : forall i, (i < I)%nat -> at_ (fW q) j i = sqrt (m / norm2 j) * weight I bias p j i).
    { intros i Hi. rewrite FW by auto. apply Rltb_true in Hn. rewrite Hn. rewrite R1 by auto. apply Rmult_comm. }
    assert (P : 0 < m / norm2 j < 1).
    { split; [apply Rdiv_lt_0_compat; lra|]. apply Rmult_lt_reg_r with (norm2 j); [lra|].
      unfold Rdiv. rewrite Rmult_assoc, Rinv_l by lra. lra. }
    split; auto. split.
    - split; [apply sqrt_lt_R0; lra|]. rewrite <- sqrt_1. apply sqrt_lt_1; lra.
    - rewrite (rsum_ext I _ (fun i => m / norm2 j * (weight I bias p j i) ^ 2)).
      + rewrite rsum_scal. fold (norm2 j). unfold Rdiv. rewrite Rmult_assoc, Rinv_l by lra. ring.
      + intros i Hi. rewrite A by auto. set (z := sqrt (m / norm2 j)).
        replace (m / norm2 j) with (z * z) by (apply sqrt_sqrt; lra). ring. }
  assert (HS : norm2 j <= m -> forall i, (i < I)%nat -> at_ (fW q) j i = weight I bias p j i).
  { intros Hn i Hi. rewrite FW by auto. apply Rltb_false in Hn. rewrite Hn. rewrite R1 by auto. auto. }
  split; [|split; [|split]]; auto.
  - destruct (Rle_lt_dec (norm2 j) m) as [Hn|Hn].
    + rewrite (rsum_ext I _ (fun i => weight I bias p j i ^ 2)); [auto|]. intros. now rewrite HS.
    + destruct (HN Hn) as (_ & _ & ->). lra.
  - intros Hn. destruct (HN Hn) as (A & P & Q). split; auto. exists (sqrt (m / norm2 j)). auto.
  - intros Hb. rewrite Fb, R2 by auto. unfold biasOf. rewrite Hb. auto.
Qed.

(** ** The hypotheses can be met: a layer with two inputs, two units and L1, L2 penalties. *)
Example fc_gradient_example : forall junk,
  let p := [1; 2; 3; -1; 1; 0] in
  let X := mkMat 1 2 (fun _ i => INR i) in
  partials_exact (fc_class junk) (fc_new junk 2 2 true TANH (mkReg 1 1 0)) p X false
    (mkMat 1 2 (fun _ j => INR j)) true.
Proof.
  intros junk p X. apply (C32_fc_gradient junk 2 2 true TANH (mkReg 1 1 0)); auto.
  - constructor.
  - simpl. lra.
  - intros. exact Coq.Init.Logic.I.
  - intros _ j i Hj Hi. destruct j as [|[|]], i as [|[|]]; try lia; unfold weight; simpl; lra.
Qed.

Example max_norm_example : forall junk,
  exists q, install (fc_class junk) (fc_new junk 2 1 false LINEAR (mkReg 0 0 4)) [3; 4] = Ok q /\
    (at_ (fW q) 0 0) ^ 2 + (at_ (fW q) 0 1) ^ 2 = 4.
Proof.
  intros junk.
  destruct (C41_max_norm junk 2 1 false LINEAR (mkReg 0 0 4) (fc_new junk 2 1 false LINEAR (mkReg 0 0 4)) [3; 4])
    as (q & E & H); [constructor|simpl; lra|auto|].
  exists q. split; auto. destruct (H 0%nat ltac:(lia)) as (_ & _ & H3 & _).
  destruct H3 as (H3 & _); [unfold weight; simpl; lra|]. simpl in H3 |- *. lra.
Qed.

(** getParameters lists all weights before all biases, which is not the order of the
    parameter vector. *)
Theorem C50_fc_getParameters_order_refuted : exists junk s p q,
  history (fc_class junk) 1 2 (fc_new junk 1 2 true LINEAR (mkReg 0 0 0)) s /\
  length p = paramCount (fc_class junk) s /\
  install (fc_class junk) s p = Ok q /\ exists p', fc_getParameters q = Ok p' /\ p' <> p.
Proof.
  set (junk := fun _ _ : nat => 0).
  exists junk, (fc_new junk 1 2 true LINEAR (mkReg 0 0 0)), [1; 2; 3; 4].
  destruct (fc_install junk 1 2 true LINEAR (mkReg 0 0 0) ltac:(simpl; lra) (fc_new junk 1 2 true LINEAR (mkReg 0 0 0)) [1; 2; 3; 4])
    as (q & E & Hq & R1 & R2); auto.
  { apply (fc_history_inv junk). constructor. }
  exists q. split; [constructor|]. split; auto. split; auto.
  exists [1; 3; 2; 4]. split; [|intros Heq; injection Heq; lra].
  pose proof Hq as (A1 & A2 & A3 & _ & _ & (W1 & W2) & _ & (b1 & b2) & _).
  unfold fc_getParameters. rewrite A1, A2, A3. cbn [for_ for_from].
  repeat (rewrite !mget_Ok by lia; cbn [bind app]).
  rewrite !R1, !R2 by (auto; lia). reflexivity.
Qed.

Print Assumptions C32_fc_forward.
Print Assumptions C32_fc_gradient.
Print Assumptions C41_max_norm.
Print Assumptions C50_fc_getParameters_order_refuted.
