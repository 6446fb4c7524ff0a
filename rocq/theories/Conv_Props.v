(** Theorems about Convolutional (C33, C34, C50). *)
From Verif Require Import Base BaseFacts Matrix RSum MatOps Vec Deriv Acc Activation_Model
  Activation_Proofs Layer_Model Layer_Spec Layer_Proofs Layer_Layout FC_Model Reg_Proofs
  Image_Spec Conv_Model Conv_Proofs.
Local Open Scope R_scope.

(** ** C33: initialize succeeds exactly if there is an output map and the kernel fits:
    then an output map has inRows - 2 * (kernelRows / 2) rows and likewise columns.  (For
    odd kernels this is inRows - kernelRows + 1.) *)
Theorem C33_conv_output_size junk fi R C fo kr kc bias act reg :
  (exists s, conv_new junk fi R C fo kr kc bias act reg = Ok s) <->
  (0 < fo)%nat /\ (2 * (kr / 2) < R)%nat /\ (2 * (kc / 2) < C)%nat.
Proof.
  pose proof (Nat.div_mod kr 2 ltac:(lia)) as Er. pose proof (Nat.div_mod kc 2 ltac:(lia)) as Ec.
  unfold conv_new. split.
  - intros (s & E).
    destruct (Z.leb_spec 0 (Z.of_nat fo * (Z.of_nat R - Z.of_nat (kr / 2 * 2)) * (Z.of_nat C - Z.of_nat (kc / 2 * 2)))); [|discriminate E].
    cbn [check bind] in E.
    destruct (Z.ltb_spec (Z.of_nat fo * (Z.of_nat R - Z.of_nat (kr / 2 * 2)) * (Z.of_nat C - Z.of_nat (kc / 2 * 2))) 1); [discriminate E|].
    destruct (Z.ltb_spec 0 (Z.of_nat (R * C))); [|discriminate E]. cbn [check bind] in E.
    destruct (Z.ltb_spec 0 (Z.of_nat R - Z.of_nat (kr / 2 * 2))); [|discriminate E]. cbn [check bind] in E.
    destruct (Z.ltb_spec 0 (Z.of_nat C - Z.of_nat (kc / 2 * 2))); [|discriminate E].
    destruct fo; [simpl in *; lia|]. lia.
  - intros (H1 & H2 & H3).
    assert (P1 : (0 < Z.of_nat R - Z.of_nat (kr / 2 * 2))%Z) by lia.
    assert (P2 : (0 < Z.of_nat C - Z.of_nat (kc / 2 * 2))%Z) by lia.
    assert (P3 : (0 < (Z.of_nat R - Z.of_nat (kr / 2 * 2)) * (Z.of_nat C - Z.of_nat (kc / 2 * 2)))%Z) by nia.
    assert (P4 : (0 < Z.of_nat fo * (Z.of_nat R - Z.of_nat (kr / 2 * 2)) * (Z.of_nat C - Z.of_nat (kc / 2 * 2)))%Z) by nia.
    assert (P5 : (0 < Z.of_nat (R * C))%Z) by nia.
    assert (P6 : (0 < Z.of_nat R - Z.of_nat kr + Z.of_nat (kr mod 2))%Z) by lia.
    assert (P7 : (0 < Z.of_nat C - Z.of_nat kc + Z.of_nat (kc mod 2))%Z) by lia.
    rewrite (proj2 (Z.leb_le 0 _)) by lia. cbn [check bind].
    rewrite (proj2 (Z.ltb_ge _ 1)) by lia.
    rewrite (proj2 (Z.ltb_lt 0 (Z.of_nat (R * C)))) by lia. cbn [check bind].
    rewrite (proj2 (Z.ltb_lt 0 _) P1), (proj2 (Z.ltb_lt 0 _) P2), (proj2 (Z.ltb_lt 0 _) P3),
      (proj2 (Z.ltb_lt 0 _) P6), (proj2 (Z.ltb_lt 0 _) P7). cbn [check bind]. eauto.
Qed.

(** size of an output map *)
Definition outDim (n k : nat) : nat := n - 2 * (k / 2).

Lemma conv_new_inv junk fi R C fo kr kc bias act reg s :
  conv_new junk fi R C fo kr kc bias act reg = Ok s ->
  geom_ok (cg s) /\ conv_inv (cg s) s /\
  cg s = mkCgeom fi R C fo kr kc bias act reg (R * C) (outDim R kr) (outDim C kc)
           (outDim R kr * outDim C kc) (outDim R kr) (outDim C kc) /\
  (0 < fo)%nat /\ (2 * (kr / 2) < R)%nat /\ (2 * (kc / 2) < C)%nat.
Proof.
  intros E. assert (D : (0 < fo)%nat /\ (2 * (kr / 2) < R)%nat /\ (2 * (kc / 2) < C)%nat)
    by (apply (C33_conv_output_size junk fi R C fo kr kc bias act reg); eauto).
  destruct D as (H1 & H2 & H3).
  pose proof (Nat.div_mod kr 2 ltac:(lia)) as Er. pose proof (Nat.div_mod kc 2 ltac:(lia)) as Ec.
  pose proof (Nat.mod_upper_bound kr 2 ltac:(lia)). pose proof (Nat.mod_upper_bound kc 2 ltac:(lia)).
  unfold conv_new in E.
  destruct (Z.leb 0 _); [|discriminate E]. cbn [check bind] in E.
  destruct (Z.ltb _ 1); [discriminate E|].
  repeat (destruct (Z.ltb 0 _); [|discriminate E]; cbn [check bind] in E).
  assert (E2 : forall a b : conv, Ok a = Ok b -> b = a) by congruence. apply E2 in E. rewrite E. clear E E2. cbn [cg].
  assert (D1 : Z.to_nat (Z.of_nat R - Z.of_nat (kr / 2 * 2)) = outDim R kr) by (unfold outDim; lia).
  assert (D2 : Z.to_nat (Z.of_nat C - Z.of_nat (kc / 2 * 2)) = outDim C kc) by (unfold outDim; lia).
  assert (D3 : Z.to_nat (Z.of_nat R - Z.of_nat kr + Z.of_nat (kr mod 2)) = outDim R kr) by (unfold outDim; lia).
  assert (D4 : Z.to_nat (Z.of_nat C - Z.of_nat kc + Z.of_nat (kc mod 2)) = outDim C kc) by (unfold outDim; lia).
  rewrite D1, D2, D3, D4, !Z2Nat.inj_mul, !Nat2Z.id, !D1, !D2 by lia.
  split; [|split; [|auto]].
  - unfold geom_ok. simpl. unfold outDim. repeat (split; auto); lia.
  - unfold conv_inv, cO, cI. simpl. split; auto.
    split; [apply tsize_map; intros; split; auto|]. split; [apply tsize_map; intros; split; auto|].
    split; [intros ->; repeat split|]. repeat split; lia.
Qed.

Lemma conv_history junk g I O s0 s : geom_ok g -> conv_inv g s0 -> I = cI g -> O = cO g ->
  history (conv_class junk) I O s0 s -> conv_inv g s.
Proof.
  intros Hg H0 -> ->.
  induction 1 as [|s p q Hh IH Hp E|s X dropout q Y r Hh IH HX E|s X dropout q Y r ein bp q2 eout Hh IH HX E He1 He2 Eb].
  - auto.
  - pose proof (ct_count _ _ _ _ _ _ (conv_contract junk g Hg)) as CC. unfold paramCount in Hp. destruct (CC s IH) as (C1 & _). rewrite C1 in Hp.
    destruct (conv_install junk g s p IH Hp) as (q0 & E0 & I0 & _). congruence.
  - destruct (conv_forward_ok junk g Hg s X dropout (rows X) IH) as (q1 & y & E1 & _ & I1 & _); [split; auto|].
    cbn [forwardPropagate conv_class] in E. congruence.
  - destruct (conv_forward_ok junk g Hg s X dropout (rows X) IH) as (q1 & y & E1 & Sy & I1 & _ & _ & _ & F3 & F4 & F5); [split; auto|].
    cbn [forwardPropagate backpropagate conv_class] in E, Eb. assert (q1 = q) by congruence. subst q1.
    destruct (conv_backward_ok junk g Hg q (rows X) y X ein bp) as (q3 & e3 & E3 & I3 & _);
      auto; try (split; auto; fail). congruence.
Qed.

(** The parameter vector lists for each output map [o] and input map [i] the kernel row by
    row, then the bias. *)
Definition kernel (fi kr kc : nat) (bias : bool) (p : list R) (o i r c : nat) : R :=
  p.[(o * fi + i) * (kr * kc + if bias then 1 else 0) + (r * kc + c)].
Definition mapBias (fi kr kc : nat) (bias : bool) (p : list R) (o i : nat) : R :=
  if bias then p.[(o * fi + i) * (kr * kc + 1) + kr * kc] else 0.
(** cross-correlation of all input maps with their kernels, plus the biases *)
Definition correlation (fi R C kr kc : nat) (bias : bool) (p : list Rdefinitions.R) (X : mat) (n o row col : nat) : Rdefinitions.R :=
  rsum fi (fun i =>
    rsum kr (fun r => rsum kc (fun c => kernel fi kr kc bias p o i r c * pixel R C X n i (row + r) (col + c))) +
    mapBias fi kr kc bias p o i).

Definition convParams (fi fo kr kc : nat) (bias : bool) : nat :=
  fo * fi * (kr * kc + if bias then 1 else 0).

Section Link.
Context (junk : nat -> nat -> Rdefinitions.R) (fi R C fo kr kc : nat) (bias : bool) (act : ActivationFunction)
  (reg : Regularization).
Notation g := (mkCgeom fi R C fo kr kc bias act reg (R * C) (outDim R kr) (outDim C kc)
           (outDim R kr * outDim C kc) (outDim R kr) (outDim C kc)).

Lemma params_link : (fo * cF g)%nat = convParams fi fo kr kc bias.
Proof. unfold cF, cB, nb, convParams. cbn [fmin kernelRows kernelCols cbias]. lia. Qed.

Lemma index_link o i l : (o * cF g + (i * cB g + l))%nat =
  ((o * fi + i) * (kr * kc + if bias then 1 else 0) + l)%nat.
Proof. unfold cF, cB, nb. cbn [fmin kernelRows kernelCols cbias]. lia. Qed.

Lemma pre_link p q X n o row col : (o < fo)%nat ->
  (forall o i r c, (o < fo)%nat -> (i < fi)%nat -> (r < kr)%nat -> (c < kc)%nat ->
     at_ (tat (cW q) o i) r c = p.[o * cF g + (i * cB g + (r * kc + c))]) ->
  (bias = true -> forall o i, (o < fo)%nat -> (i < fi)%nat -> at_ (cWb q) o i = p.[o * cF g + (i * cB g + kr * kc)]) ->
  cpre g (fun o i kr kc => at_ (tat (cW q) o i) kr kc) (at_ (cWb q)) (at_ X n) o row col =
  correlation fi R C kr kc bias p X n o row col.
Proof.
  intros Ho R1 R2. unfold cpre, correlation.
  change (fmin g) with fi. change (kernelRows g) with kr. change (kernelCols g) with kc. change (cbias g) with bias.
  change (fmInSize g) with (R * C)%nat. change (inCols g) with C.
  apply rsum_ext. intros i Hi. f_equal.
  - apply rsum_ext. intros r Hr. apply rsum_ext. intros c Hc. rewrite R1 by auto. rewrite index_link.
    unfold kernel, pixel. f_equal. f_equal. lia.
  - unfold mapBias. destruct bias eqn:E; auto. rewrite R2 by auto.
    f_equal. unfold cF, cB, nb. cbn [fmin kernelRows kernelCols cbias]. lia.
Qed.

(** ** C33: the forward pass.  Every output of every map is the activation function of the
    correlation, at any time in the life of the layer. *)
Theorem C33_conv_forward s0 s p X dropout :
  conv_new junk fi R C fo kr kc bias act reg = Ok s0 ->
  history (conv_class junk) (fi * (R * C)) (fo * (outDim R kr * outDim C kc)) s0 s ->
  length p = convParams fi fo kr kc bias -> cols X = (fi * (R * C))%nat ->
  exists q q1 Y reg',
    install (conv_class junk) s p = Ok q /\ conv_forward junk q X dropout = Ok (q1, Y, reg') /\
    rows Y = rows X /\ cols Y = (fo * (outDim R kr * outDim C kc))%nat /\
    (forall n o row col, (n < rows X)%nat -> (o < fo)%nat -> (row < outDim R kr)%nat -> (col < outDim C kc)%nat ->
      pixel (outDim R kr) (outDim C kc) Y n o row col =
      act_fun act (correlation fi R C kr kc bias p X n o row col)) /\
    reg' = (if Rltb 0 (l1Penalty reg)
            then l1Penalty reg * rsum fo (fun o => rsum fi (fun i => rsum kr (fun r => rsum kc (fun c =>
                   Rabs (kernel fi kr kc bias p o i r c))))) else 0) +
           (if Rltb 0 (l2Penalty reg)
            then l2Penalty reg / 2 * rsum fo (fun o => rsum fi (fun i => rsum kr (fun r => rsum kc (fun c =>
                   (kernel fi kr kc bias p o i r c) ^ 2)))) else 0).
Proof.
  intros E0 Hh Hp HX. destruct (conv_new_inv _ _ _ _ _ _ _ _ _ _ _ E0) as (Hg & Hi0 & Eg & _). rewrite Eg in Hg, Hi0.
  apply (conv_history junk g _ _ s0 s Hg Hi0) in Hh; auto. rewrite <- params_link in Hp.
  destruct (conv_install junk g s p Hh Hp) as (q & E & Hq & R1 & R2).
  destruct (conv_forward_ok junk g Hg q X dropout (rows X) Hq) as (q1 & y & Ef & (S1 & S2) & _ & F & _); [split; auto|].
  exists q, q1, y, (cregError g (cW q)). split; auto. split; auto. split; auto. split; [exact S2|]. split.
  - intros n o row col Hn Ho Hr Hc.
    pose proof (F n o row col Hn Ho Hr Hc) as F1. unfold pixel.
    replace (o * (outDim R kr * outDim C kc) + (row * outDim C kc + col))%nat
      with (o * (outDim R kr * outDim C kc) + row * outDim C kc + col)%nat by lia.
    etransitivity; [exact F1|]. cbn [cact]. f_equal. now apply pre_link.
  - assert (RG : forall f : Rdefinitions.R -> Rdefinitions.R,
      rsum fo (fun o => rsum fi (fun i => msum (mmap f (tat (cW q) o i)))) =
      rsum fo (fun o => rsum fi (fun i => rsum kr (fun r => rsum kc (fun c => f (kernel fi kr kc bias p o i r c)))))).
    { intros f. apply rsum_ext. intros o Ho. apply rsum_ext. intros i Hi. destruct Hq as (_ & HW & _).
      destruct (tget_Ok _ _ _ _ _ o i HW Ho Hi) as (_ & (Z1 & Z2)). unfold msum, mmap. simpl rows. simpl cols.
      rewrite Z1, Z2. apply rsum_ext. intros r Hr. apply rsum_ext. intros c Hc. simpl. rewrite R1 by auto.
      unfold kernel. now rewrite index_link. }
    unfold cregError, regError. change (fmout g) with fo. change (fmin g) with fi. change (creg g) with reg.
    rewrite (rsum_ext fo _ (fun o => rsum fi (fun i => if Rltb 0 (l1Penalty reg) then l1Penalty reg * msum (mmap Rabs (tat (cW q) o i)) else 0) +
       rsum fi (fun i => if Rltb 0 (l2Penalty reg) then l2Penalty reg * msum (mmap (fun w => w * w) (tat (cW q) o i)) / 2 else 0)))
      by (intros; apply rsum_plus).
    rewrite rsum_plus. f_equal.
    + destruct (Rltb 0 (l1Penalty reg)); [|apply rsum_0; intros; apply rsum_0; auto].
      rewrite <- RG, <- rsum_scal. apply rsum_ext. intros. now rewrite <- rsum_scal.
    + destruct (Rltb 0 (l2Penalty reg)); [|apply rsum_0; intros; apply rsum_0; auto].
      rewrite (rsum_ext fo _ (fun o => l2Penalty reg / 2 * rsum fi (fun i => msum (mmap (fun w => w * w) (tat (cW q) o i))))).
      2:{ intros. rewrite <- rsum_scal. apply rsum_ext. intros. field. }
      rewrite rsum_scal, RG. f_equal. apply rsum_ext. intros. apply rsum_ext. intros. apply rsum_ext. intros.
      apply rsum_ext. intros. ring.
Qed.

(** ** C34: the backward pass returns the exact partial derivatives with respect to all
    kernel entries, biases and pixels. *)
Theorem C34_conv_gradient s0 s p X dropout e bp :
  conv_new junk fi R C fo kr kc bias act reg = Ok s0 ->
  history (conv_class junk) (fi * (R * C)) (fo * (outDim R kr * outDim C kc)) s0 s ->
  length p = convParams fi fo kr kc bias -> cols X = (fi * (R * C))%nat ->
  rows e = rows X -> cols e = (fo * (outDim R kr * outDim C kc))%nat ->
  (forall n o row col, (n < rows X)%nat -> (o < fo)%nat -> (row < outDim R kr)%nat -> (col < outDim C kc)%nat ->
     act_smooth act (correlation fi R C kr kc bias p X n o row col)) ->
  (0 < l1Penalty reg -> forall o i r c, (o < fo)%nat -> (i < fi)%nat -> (r < kr)%nat -> (c < kc)%nat ->
     kernel fi kr kc bias p o i r c <> 0) ->
  partials_exact (conv_class junk) s p X dropout e bp.
Proof.
  intros E0 Hh Hp HX He1 He2 Sm1 Sm2.
  destruct (conv_new_inv _ _ _ _ _ _ _ _ _ _ _ E0) as (Hg & Hi0 & Eg & _). rewrite Eg in Hg, Hi0.
  apply (conv_history junk g _ _ s0 s Hg Hi0) in Hh; auto. rewrite <- params_link in Hp.
  apply (contract_partials (conv_class junk) (cI g) (cO g) (fo * cF g) (conv_inv g) (conv_smooth g)); auto.
  { apply (conv_contract junk g Hg). }
  intros q E. destruct (conv_install junk g s p Hh Hp) as (q0 & E' & Hq & R1 & R2).
  assert (q0 = q) by congruence. subst q0. split.
  - intros n o row col Hn Ho Hr Hc. cbn [cact]. rewrite (pre_link p q X n o row col Ho R1 R2). now apply Sm1.
  - intros Hl o i r c Ho Hi Hr Hc. rewrite R1 by auto. pose proof (Sm2 Hl o i r c Ho Hi Hr Hc) as Z.
    unfold kernel in Z. now rewrite index_link.
Qed.
End Link.

(** A 3 x 4 image, two maps, kernel 3 x 1 with bias: one output row. *)
Example conv_example : forall junk, exists s0,
  conv_new junk 2 3 4 1 3 1 true TANH (mkReg 0 1 0) = Ok s0 /\
  forall X e, rows X = 2%nat -> cols X = 24%nat -> rows e = 2%nat -> cols e = 4%nat ->
    partials_exact (conv_class junk) s0 [1; 2; 3; 4; 5; 6; 7; 8] X false e true.
Proof.
  intros junk. destruct (proj2 (C33_conv_output_size junk 2 3 4 1 3 1 true TANH (mkReg 0 1 0))) as (s0 & E).
  { simpl. lia. }
  exists s0. split; auto. intros X e H1 H2 H3 H4.
  apply (C34_conv_gradient junk 2 3 4 1 3 1 true TANH (mkReg 0 1 0) s0); auto.
  - constructor.
  - lia.
  - intros. simpl. auto.
  - simpl. lra.
Qed.

Print Assumptions C33_conv_output_size.
Print Assumptions C33_conv_forward.
Print Assumptions C34_conv_gradient.
