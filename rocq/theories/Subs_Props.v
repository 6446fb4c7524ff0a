(** Theorems about Subsampling (C36, C50). *)
From Verif Require Import Base BaseFacts Matrix RSum MatOps Vec Deriv Acc Activation_Model
  Activation_Proofs Layer_Model Layer_Spec Layer_Proofs Layer_Layout FC_Model Reg_Proofs
  Image_Spec Pool_Model Pool Subs_Proofs.
Local Open Scope R_scope.

(** ** Specification *)
(** The parameter vector lists for each output its weight and then its bias. *)
Definition outWeight (bias : bool) (p : list R) (j : nat) : R := p.[j * (1 + if bias then 1 else 0)].
Definition outBias (bias : bool) (p : list R) (j : nat) : R := if bias then p.[j * 2 + 1] else 0.
(** sum of the kr x kc region of map [o] that belongs to output (ro, co) *)
Definition regionSum (R C kr kc : nat) (X : mat) (n o ro co : nat) : Rdefinitions.R :=
  rsum kr (fun r => rsum kc (fun c => pixel R C X n o (ro * kr + r) (co * kc + c))).
(** index of output (ro, co) of map [o] *)
Definition outIndex (R C kr kc o ro co : nat) : nat := o * (R / kr * (C / kc)) + (ro * (C / kc) + co).

(** initialize succeeds exactly if there is a map and the kernel fits *)
Theorem C36_subs_initialize junk fm R C kr kc bias act reg :
  (exists s, subs_new junk fm R C kr kc bias act reg = Ok s) <-> (0 < fm /\ 0 < kr <= R /\ 0 < kc <= C)%nat.
Proof.
  rewrite <- pgeom_new_iff. unfold subs_new. split.
  - intros (s & E). destruct (pgeom_new fm R C kr kc) as [g| | | |]; try discriminate E. eauto.
  - intros (g & E). rewrite E. cbn [bind]. eauto.
Qed.

Lemma subs_new_inv junk fm R C kr kc bias act reg s : subs_new junk fm R C kr kc bias act reg = Ok s ->
  pgeom_ok (pgeom_of fm R C kr kc) /\ subs_inv (pgeom_of fm R C kr kc) bias act reg s.
Proof.
  unfold subs_new. intros E. destruct (pgeom_new fm R C kr kc) as [g| | | |] eqn:Eg; try discriminate E.
  destruct (pgeom_new_ok _ _ _ _ _ _ Eg) as (E1 & Hg & _). rewrite <- E1. split; auto. cbn [bind] in E.
  assert (E2 : forall a b : subs, Ok a = Ok b -> b = a) by congruence. apply E2 in E. rewrite E. clear E E2.
  destruct (psizes g Hg) as (Z1 & Z2). assert (Ef : pfm g = fm) by (rewrite E1; auto).
  assert (Er : pinRows g = R) by (rewrite E1; auto). assert (Ec : pinCols g = C) by (rewrite E1; auto).
  rewrite Ef in Z1, Z2. rewrite Er, Ec in Z1.
  unfold subs_inv. cbn [sg sbias sact sreg sW sWd sWb sWbd sa sy syd se cols].
  rewrite Ef.
  assert (V : forall w, vsize (map (fun o => mkMat (poutRows g) (poutCols g) (w o)) (seq 0 fm)) fm (poutRows g) (poutCols g))
    by (intros; apply vsize_map; intros; split; auto).
  repeat (split; [auto; fail|]). split; [intros ->; auto|]. auto.
Qed.

Lemma subs_history junk g bias act reg I O s0 s : pgeom_ok g -> subs_inv g bias act reg s0 -> I = pI g -> O = pO g ->
  history (subs_class junk) I O s0 s -> subs_inv g bias act reg s.
Proof.
  intros Hg H0 -> ->.
  induction 1 as [|s p q Hh IH Hp E|s X dropout q Y r Hh IH HX E|s X dropout q Y r ein bp q2 eout Hh IH HX E He1 He2 Eb].
  - auto.
  - pose proof (ct_count _ _ _ _ _ _ (subs_contract junk g Hg bias act reg)) as CC. unfold paramCount in Hp.
    destruct (CC s IH) as (C1 & _). rewrite C1 in Hp.
    destruct (subs_install junk g Hg bias act reg s p IH Hp) as (q0 & E0 & I0 & _). congruence.
  - destruct (subs_forward_ok junk g Hg bias act reg s X dropout (rows X) IH) as (q1 & y & E1 & _ & I1 & _); [split; auto|].
    cbn [forwardPropagate subs_class] in E. congruence.
  - destruct (subs_forward_ok junk g Hg bias act reg s X dropout (rows X) IH) as (q1 & y & E1 & Sy & I1 & _ & _ & _ & F3 & F4 & F5); [split; auto|].
    cbn [forwardPropagate backpropagate subs_class] in E, Eb. assert (q1 = q) by congruence. subst q1.
    destruct (subs_backward_ok junk g Hg bias act reg q (rows X) y X ein bp) as (q3 & e3 & E3 & I3 & _);
      auto; try (split; auto; fail). congruence.
Qed.

Section Link.
Context (junk : nat -> nat -> Rdefinitions.R) (fm R C kr kc : nat) (bias : bool) (act : ActivationFunction)
  (reg : Regularization).
Notation g := (pgeom_of fm R C kr kc).
Notation I := (fm * (R * C))%nat.
Notation O := (fm * (R / kr * (C / kc)))%nat.

(** what the activation of an output is in fact: every row of the region is read from the
    first row, so that the first row is counted [kr] times *)
Definition firstRows (X : mat) (n o ro co : nat) : Rdefinitions.R :=
  INR kr * rsum kc (fun c => pixel R C X n o (ro * kr) (co * kc + c)).

Lemma spre_link p q X n o ro co : (o < fm)%nat -> (ro < R / kr)%nat -> (co < C / kc)%nat ->
  (forall o r k, (o < fm)%nat -> (r < R / kr)%nat -> (k < C / kc)%nat -> at_ (vat (sW q) o) r k = p.[pout g o r k * sB bias]) ->
  (bias = true -> forall o r k, (o < fm)%nat -> (r < R / kr)%nat -> (k < C / kc)%nat -> at_ (vat (sWb q) o) r k = p.[pout g o r k * sB bias + 1]) ->
  spre g bias (fun o => at_ (vat (sW q) o)) (fun o => at_ (vat (sWb q) o)) (at_ X n) o ro co =
  firstRows X n o ro co * outWeight bias p (outIndex R C kr kc o ro co) + outBias bias p (outIndex R C kr kc o ro co).
Proof.
  intros Ho Hr Hc R1 R2. unfold spre, firstRows, outWeight, outBias.
  assert (E : pout g o ro co = outIndex R C kr kc o ro co).
  { unfold pout, outIndex. change (pfmOutSize g) with (R / kr * (C / kc))%nat. change (poutCols g) with (C / kc)%nat. lia. }
  rewrite R1, E by auto. change (1 + (if bias then 1%nat else 0%nat))%nat with (sB bias). f_equal.
  - rewrite Rmult_assoc. change (pkernelRows g) with kr. f_equal. rewrite <- rsum_scal_r. change (pkernelCols g) with kc.
    apply rsum_ext. intros c Hk. f_equal. unfold pixel, pbase. f_equal.
    change (pfmInSize g) with (R * C)%nat. change (pinCols g) with C. change (pkernelRows g) with kr. change (pkernelCols g) with kc. lia.
  - destruct bias; auto. rewrite R2 by auto. now rewrite E.
Qed.

(** ** C36: the forward pass at any time in the life of the layer. *)
Theorem C36_subs_forward s0 s p X dropout :
  subs_new junk fm R C kr kc bias act reg = Ok s0 ->
  history (subs_class junk) I O s0 s ->
  length p = (O * (1 + if bias then 1 else 0))%nat -> cols X = I ->
  exists q q1 Y reg',
    install (subs_class junk) s p = Ok q /\ subs_forward junk q X dropout = Ok (q1, Y, reg') /\
    rows Y = rows X /\ cols Y = O /\
    (forall n o ro co, (n < rows X)%nat -> (o < fm)%nat -> (ro < R / kr)%nat -> (co < C / kc)%nat ->
      pixel (R / kr) (C / kc) Y n o ro co =
      act_fun act (firstRows X n o ro co * outWeight bias p (outIndex R C kr kc o ro co) +
                   outBias bias p (outIndex R C kr kc o ro co))) /\
    reg' = (if Rltb 0 (l1Penalty reg) then l1Penalty reg * rsum O (fun j => Rabs (outWeight bias p j)) else 0) +
           (if Rltb 0 (l2Penalty reg) then l2Penalty reg / 2 * rsum O (fun j => (outWeight bias p j) ^ 2) else 0).
Proof.
  intros E0 Hh Hp HX. destruct (subs_new_inv _ _ _ _ _ _ _ _ _ _ E0) as (Hg & Hi0).
  apply (subs_history junk g bias act reg _ _ s0 s Hg Hi0) in Hh; auto.
  destruct (subs_install junk g Hg bias act reg s p Hh Hp) as (q & E & Hq & R1 & R2).
  destruct (subs_forward_ok junk g Hg bias act reg q X dropout (rows X) Hq) as (q1 & y & Ef & (S1 & S2) & _ & F & _); [split; auto|].
  exists q, q1, y, (sregError g reg (sW q)). split; auto. split; auto. split; auto. split; [exact S2|]. split.
  - intros n o ro co Hn Ho Hr Hc. pose proof (F n o ro co Hn Ho Hr Hc) as F1. rewrite spre_link with (p := p) in F1 by auto.
    rewrite <- F1. unfold pixel, pout. f_equal.
    change (pfmOutSize g) with (R / kr * (C / kc))%nat. change (poutCols g) with (C / kc)%nat. lia.
  - assert (RG : forall f : Rdefinitions.R -> Rdefinitions.R,
      rsum fm (fun o => msum (mmap f (vat (sW q) o))) = rsum O (fun j => f (outWeight bias p j))).
    { intros f. change O with (pO g). rewrite (rsum_pout g Hg). change (pfm g) with fm. apply rsum_ext. intros o Ho.
      destruct Hq as (_ & _ & _ & _ & HW & _). destruct (vsize_get _ _ _ _ o HW Ho) as (_ & (Z1 & Z2)).
      unfold msum, mmap. cbn [rows cols at_]. rewrite Z1, Z2. apply rsum_ext. intros r Hr. apply rsum_ext. intros c Hc.
      rewrite R1 by auto. reflexivity. }
    unfold sregError, regError. change (pfm g) with fm. rewrite rsum_plus. f_equal.
    + destruct (Rltb 0 (l1Penalty reg)); [|apply rsum_0; auto]. rewrite <- RG, <- rsum_scal. auto.
    + destruct (Rltb 0 (l2Penalty reg)); [|apply rsum_0; auto].
      rewrite (rsum_ext fm _ (fun o => l2Penalty reg / 2 * msum (mmap (fun w => w * w) (vat (sW q) o)))).
      2:{ intros. field. }
      rewrite rsum_scal, RG. f_equal. apply rsum_ext. intros. ring.
Qed.

(** ** C36: the documented forward pass, for kernels with one row *)
Theorem C36_subs_region_partial s0 s p X dropout :
  kr = 1%nat ->
  subs_new junk fm R C kr kc bias act reg = Ok s0 ->
  history (subs_class junk) I O s0 s ->
  length p = (O * (1 + if bias then 1 else 0))%nat -> cols X = I ->
  exists q q1 Y reg',
    install (subs_class junk) s p = Ok q /\ subs_forward junk q X dropout = Ok (q1, Y, reg') /\
    forall n o ro co, (n < rows X)%nat -> (o < fm)%nat -> (ro < R / kr)%nat -> (co < C / kc)%nat ->
      pixel (R / kr) (C / kc) Y n o ro co =
      act_fun act (outWeight bias p (outIndex R C kr kc o ro co) * regionSum R C kr kc X n o ro co +
                   outBias bias p (outIndex R C kr kc o ro co)).
Proof.
  intros Hk E0 Hh Hp HX. destruct (C36_subs_forward s0 s p X dropout E0 Hh Hp HX) as (q & q1 & Y & reg' & E1 & E2 & _ & _ & F & _).
  exists q, q1, Y, reg'. split; auto. split; auto. intros n o ro co Hn Ho Hr Hc. rewrite F by auto. f_equal. f_equal.
  rewrite Rmult_comm. f_equal. unfold firstRows, regionSum. rewrite Hk. simpl INR. cbn [rsum]. rewrite Rmult_1_l, Rplus_0_l.
  apply rsum_ext. intros. f_equal; lia.
Qed.

(** ** C36: the backward pass returns the exact partial derivatives of what the forward pass
    computes. *)
Theorem C36_subs_gradient s0 s p X dropout e bp :
  subs_new junk fm R C kr kc bias act reg = Ok s0 ->
  history (subs_class junk) I O s0 s ->
  length p = (O * (1 + if bias then 1 else 0))%nat -> cols X = I -> rows e = rows X -> cols e = O ->
  (forall n o ro co, (n < rows X)%nat -> (o < fm)%nat -> (ro < R / kr)%nat -> (co < C / kc)%nat ->
     act_smooth act (firstRows X n o ro co * outWeight bias p (outIndex R C kr kc o ro co) +
                   outBias bias p (outIndex R C kr kc o ro co))) ->
  (0 < l1Penalty reg -> forall j, (j < O)%nat -> outWeight bias p j <> 0) ->
  partials_exact (subs_class junk) s p X dropout e bp.
Proof.
  intros E0 Hh Hp HX He1 He2 Sm1 Sm2.
  destruct (subs_new_inv _ _ _ _ _ _ _ _ _ _ E0) as (Hg & Hi0).
  apply (subs_history junk g bias act reg _ _ s0 s Hg Hi0) in Hh; auto.
  apply (contract_partials (subs_class junk) (pI g) (pO g) (pO g * sB bias) (subs_inv g bias act reg) (subs_smooth g bias act reg)); auto.
  { apply (subs_contract junk g Hg). }
  intros q E. destruct (subs_install junk g Hg bias act reg s p Hh Hp) as (q0 & E' & Hq & R1 & R2).
  assert (q0 = q) by congruence. subst q0. split.
  - intros n o r k Hn Ho Hr Hk. rewrite spre_link with (p := p) by auto. now apply Sm1.
  - intros Hl o r k Ho Hr Hk. rewrite R1 by auto. apply (Sm2 Hl (pout g o r k)). now apply (pout_range g Hg).
Qed.
End Link.

(** ** C36 is false for kernels with two or more rows: for every such kernel there are weights
    and an image for which an output differs from the documented value. *)
Theorem C36_subs_region_refuted junk fm R C kr kc :
  (0 < fm)%nat -> (2 <= kr <= R)%nat -> (0 < kc <= C)%nat ->
  exists s p X q q1 Y reg',
    subs_new junk fm R C kr kc false LINEAR (mkReg 0 0 0) = Ok s /\
    length p = (fm * (R / kr * (C / kc)))%nat /\ cols X = (fm * (R * C))%nat /\
    install (subs_class junk) s p = Ok q /\ subs_forward junk q X false = Ok (q1, Y, reg') /\
    rows X = 1%nat /\ pixel (R / kr) (C / kc) Y 0 0 0 0 <>
      outWeight false p 0 * regionSum R C kr kc X 0 0 0 0 + outBias false p 0.
Proof.
  intros Hf Hk Hc.
  destruct (proj2 (C36_subs_initialize junk fm R C kr kc false LINEAR (mkReg 0 0 0))) as (s & E); [lia|].
  set (O := (fm * (R / kr * (C / kc)))%nat). set (p := repeat 1 O).
  set (X := mkMat 1 (fm * (R * C)) (fun _ i => if Nat.eqb i C then 1 else 0)).
  assert (P1 : (0 < R / kr)%nat) by (apply Nat.div_str_pos; lia).
  assert (P2 : (0 < C / kc)%nat) by (apply Nat.div_str_pos; lia).
  assert (HO : (0 < O)%nat) by (unfold O; apply Nat.mul_pos_pos; [lia|apply Nat.mul_pos_pos; lia]).
  destruct (C36_subs_forward junk fm R C kr kc false LINEAR (mkReg 0 0 0) s s p X false E)
    as (q & q1 & Y & reg' & E1 & E2 & E3 & E4 & F & _); auto.
  { constructor. }
  { unfold p. rewrite repeat_length. fold O. lia. }
  exists s, p, X, q, q1, Y, reg'. split; auto. split; [apply repeat_length|]. split; auto. split; auto. split; auto.
  split; auto. rewrite (F 0%nat 0%nat 0%nat 0%nat) by (auto; simpl; lia). cbn [act_fun].
  assert (W1 : outWeight false p (outIndex R C kr kc 0 0 0) = 1 /\ outWeight false p 0 = 1).
  { unfold outIndex, outWeight. simpl. unfold p. destruct O; [lia|]. simpl. auto. }
  destruct W1 as (W1 & W2). rewrite W1, W2. unfold outBias. rewrite !Rplus_0_r, Rmult_1_r, Rmult_1_l.
  assert (Z1 : firstRows R C kr kc X 0 0 0 0 = 0).
  { unfold firstRows. rewrite (rsum_0 kc); [ring|]. intros c Hc'. unfold pixel, X. cbn [at_].
    destruct (Nat.eqb_spec (0 * (R * C) + (0 * kr * C + (0 * kc + c))) C); auto. lia. }
  assert (Z2 : regionSum R C kr kc X 0 0 0 0 = 1).
  { unfold regionSum. rewrite (rsum_single kr 1); [|lia|].
    - rewrite (rsum_single kc 0); [|lia|].
      + unfold pixel, X. cbn [at_]. destruct (Nat.eqb_spec (0 * (R * C) + ((0 * kr + 1) * C + (0 * kc + 0))) C); auto. lia.
      + intros c Hc' Hn. unfold pixel, X. cbn [at_].
        destruct (Nat.eqb_spec (0 * (R * C) + ((0 * kr + 1) * C + (0 * kc + c))) C); auto. lia.
    - intros r Hr Hn. apply rsum_0. intros c Hc'. unfold pixel, X. cbn [at_].
      destruct (Nat.eqb_spec (0 * (R * C) + ((0 * kr + r) * C + (0 * kc + c))) C) as [Ez|]; auto.
      exfalso. destruct r as [|[|r]]; [lia|lia|]. simpl in Ez. nia. }
  rewrite Z1, Z2. lra.
Qed.

(** A 2 x 4 image with a 1 x 2 kernel and a 2 x 2 kernel *)
Example subs_example : forall junk, exists s0,
  subs_new junk 1 2 4 1 2 true TANH (mkReg 1 1 0) = Ok s0 /\
  forall X e, rows X = 2%nat -> cols X = 8%nat -> rows e = 2%nat -> cols e = 4%nat ->
    partials_exact (subs_class junk) s0 [1; 2; 3; 4; 5; 6; 7; 8] X false e true.
Proof.
  intros junk. destruct (proj2 (C36_subs_initialize junk 1 2 4 1 2 true TANH (mkReg 1 1 0))) as (s0 & E); [lia|].
  exists s0. split; auto. intros X e H1 H2 H3 H4.
  apply (C36_subs_gradient junk 1 2 4 1 2 true TANH (mkReg 1 1 0) s0); auto.
  - constructor.
  - congruence.
  - intros. simpl. auto.
  - intros _ j Hj. simpl in Hj. unfold outWeight. destruct j as [|[|[|[|]]]]; simpl; try lra; lia.
Qed.

(** ** C50: getParameters returns the weights instead of the biases *)
Theorem C50_subs_getParameters_refuted : exists junk s p q,
  subs_new junk 1 1 1 1 1 true LINEAR (mkReg 0 0 0) = Ok s /\
  length p = paramCount (subs_class junk) s /\ install (subs_class junk) s p = Ok q /\
  p = [1; 2] /\ subs_getParameters q = Ok [1; 1].
Proof.
  set (junk := fun _ _ : nat => 0).
  destruct (proj2 (C36_subs_initialize junk 1 1 1 1 1 true LINEAR (mkReg 0 0 0))) as (s & E); [lia|].
  destruct (subs_new_inv _ _ _ _ _ _ _ _ _ _ E) as (Hg & Hi0).
  destruct (subs_install junk _ Hg true LINEAR (mkReg 0 0 0) s [1; 2] Hi0) as (q & E1 & Hq & R1 & R2); auto.
  exists junk, s, [1; 2], q. split; auto. split.
  { pose proof (ct_count _ _ _ _ _ _ (subs_contract junk _ Hg true LINEAR (mkReg 0 0 0)) s Hi0) as (C1 & _).
    unfold paramCount. rewrite C1. reflexivity. }
  split; auto. split; auto. unfold subs_getParameters. destruct Hq as (A1 & A2 & _ & _ & HW & _).
  rewrite A1, A2. change (pfm (pgeom_of 1 1 1 1 1)) with 1%nat. change (poutRows (pgeom_of 1 1 1 1 1)) with 1%nat.
  change (poutCols (pgeom_of 1 1 1 1 1)) with 1%nat. cbn [for_ for_from].
  rewrite (wget_Ok _ 1 1 1 0 0 0) by (auto; exact HW). cbn [bind app]. rewrite R1 by (simpl; lia). reflexivity.
Qed.

Print Assumptions C36_subs_initialize.
Print Assumptions C36_subs_forward.
Print Assumptions C36_subs_region_partial.
Print Assumptions C36_subs_gradient.
Print Assumptions C36_subs_region_refuted.
Print Assumptions C50_subs_getParameters_refuted.
