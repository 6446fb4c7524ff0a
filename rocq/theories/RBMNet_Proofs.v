(** Restricted Boltzmann machines and sparse auto-encoders meet the conditions of LayerFun_Spec.v. *)
From Verif Require Import Base BaseFacts Matrix RSum MatOps Vec Deriv Acc Activation_Model
  Activation_Proofs Layer_Model Layer_Spec Layer_Proofs Layer_Layout LayerFun_Spec FC_Model Reg_Proofs FC_Proofs
  IO_Model IO_Proofs SAE_Model SAE_Spec SAE_Proofs SAELayer_Proofs RBM_Model RBM_Spec RBM_Proofs RBMLayer_Proofs RBMUse_Proofs NetLayers_Proofs.
Local Open Scope R_scope.

(** * Restricted Boltzmann machines *)
Section RBM.
Context (junk : nat -> nat -> R) (u : nat -> R) (M H cdN : nat) (backprop : bool) (reg : Regularization) (w : nat -> nat -> R).
Notation inv := (rbm_inv M H cdN backprop reg).
Notation c := (rbm_class junk u).

(** without backpropagation the weights are the initial ones *)
Definition rbm_frozen (s : rbm) : Prop := backprop = false ->
  (forall h d, (h < H)%nat -> (d < M)%nat -> at_ (qW (rpar s)) h d = w h d) /\
  (forall h, (h < H)%nat -> at_ (qbh (rpar s)) h 0 = 0).
Definition rbm_netInv (s : rbm) : Prop := inv s /\ rbm_frozen s.
Definition rbm_fn (s : rbm) (dropout : bool) (n : nat) (x : nat -> R) (j : nat) : R :=
  act_fun LOGISTIC (rsum M (fun i => x i * at_ (qW (rpar s)) j i) + at_ (qbh (rpar s)) j 0).

Lemma rbm_frozen_par s q : rpar q = rpar s -> rbm_frozen s -> rbm_frozen q.
Proof. intros E F Hb. rewrite E. auto. Qed.

Lemma rbm_same q s : rcfg q = rcfg s -> rpar q = rpar s -> same_fun c H (rbm_K M H backprop) rbm_fn (fun _ => 0) q s.
Proof.
  intros E1 E2. split; [|split]; auto.
  - intros k _. apply readParam_same.
    + cbn [initialize rbm_class]. unfold rbm_initializeLayer. now rewrite E1.
    + intros l Hl. cbn [initialize rbm_class] in Hl. unfold rbm_initializeLayer in Hl. destruct (rbackprop (rcfg s)); [|easy].
      cbn [fst] in Hl. apply in_app_or in Hl. destruct Hl as [Hl|Hl].
      * apply in_flat_map in Hl. destruct Hl as (h & _ & Hl). apply in_map_iff in Hl. destruct Hl as (d & <- & _).
        cbn [load rbm_class rbm_load]. now rewrite E2.
      * apply in_map_iff in Hl. destruct Hl as (h & <- & _). cbn [load rbm_class rbm_load]. now rewrite E2.
  - intros n x j _. unfold rbm_fn. now rewrite E2.
Qed.

Lemma rbm_write_frozen s k v s' : inv s -> rbm_frozen s -> writeParam c s k v = Ok s' -> rbm_frozen s'.
Proof.
  intros I F E Hb. destruct (rbm_layout_init junk u M H cdN backprop reg s I) as (E1 & _). unfold writeParam in E. rewrite E1 in E.
  unfold rbm_locs in E. rewrite Hb in E. destruct k; discriminate E.
Qed.

Lemma rbm_net_contract : contract c M H (rbm_K M H backprop) rbm_netInv (rbm_smooth M H).
Proof.
  pose proof (rbm_contract junk u M H cdN backprop reg) as C. unfold rbm_netInv. constructor.
  - intros s (Hs & _). now apply (ct_count _ _ _ _ _ _ C).
  - intros s k (Hs & _). now apply (ct_read _ _ _ _ _ _ C).
  - intros s k v (Hs & HQ) Hk. destruct (ct_write _ _ _ _ _ _ C s k v Hs Hk) as (s' & E & H1 & H2).
    exists s'. split; [exact E|]. split; [split; [exact H1|exact (rbm_write_frozen s k v s' Hs HQ E)]|exact H2].
  - intros s (Hs & HQ). exists s. split; [reflexivity|]. split; [split; auto|auto].
  - intros s dropout N t0 p p' X X' (Hs & HQ) Hp HX DP DX HS.
    destruct (ct_gradient _ _ _ _ _ _ C s dropout N t0 p p' X X' Hs Hp HX DP DX HS)
      as (q1 & Y & rg & Y' & reg' & HF & HY & HI1 & DY & DR & HB).
    assert (G : forall t, rbm_frozen (q1 t) /\ size_is (mph (rsmp (q1 t))) N H /\ size_is (mv (rsmp (q1 t))) N M).
    { intros t. destruct (HF t) as (q & E1 & E2).
      destruct (rbm_install junk u M H cdN backprop reg s (p t) Hs (Hp t)) as (q' & E3 & Hq & _ & R1 & _).
      assert (q' = q) by congruence. subst q'.
      destruct (rbm_forward_ok junk u M H cdN backprop reg q (X t) dropout N Hq (HX t)) as (q2 & y & Ef & Sy & _ & F1 & _ & F3 & F4).
      cbn [forwardPropagate rbm_class] in E2. assert (E4 : q2 = q1 t) by congruence. rewrite E4 in *.
      rewrite F3, F4. split; [|auto]. destruct F1 as (_ & F1 & _). intros Hb. rewrite F1, (R1 Hb). auto. }
    exists q1, Y, rg, Y', reg'. split; auto. split; auto. split; [intros t; split; auto; apply G|]. split; auto. split; auto.
    intros ein bp He. destruct (HB ein bp He) as (q2 & eout & g & B1 & B2 & B3 & B4 & B5).
    exists q2, eout, g. split; auto. split; [split; auto|auto].
    destruct (G t0) as (G1 & G2 & G3).
    destruct (rbm_backward_ok junk M H cdN backprop reg (q1 t0) N ein bp (HI1 t0) G2 G3 He) as (q3 & e3 & E3 & _ & P3 & _).
    cbn [backpropagate rbm_class] in B1. assert (q3 = q2) by congruence. subst q3. eapply rbm_frozen_par; eauto.
Qed.

Lemma rbm_ok : layer_ok c M H (rbm_K M H backprop) rbm_netInv (rbm_smooth M H) rbm_fn (fun _ => 0).
Proof.
  constructor.
  - apply rbm_net_contract.
  - intros s d n x x' j _ E. unfold rbm_fn. do 2 f_equal. apply rsum_ext. intros i Hi. now rewrite E.
  - reflexivity.
  - intros s X dropout (Hs & HF) HX.
    destruct (rbm_forward_ok junk u M H cdN backprop reg s X dropout (rows X) Hs) as (q & y & E & (S1 & S2) & I1 & F1 & F2 & _); [split; auto|].
    pose proof F1 as (R1 & R2 & _).
    exists q, y. split; auto. split; [split; auto; eapply rbm_frozen_par; eauto|]. split; [now apply rbm_same|]. split; auto. split; auto.
    intros n j _ Hj. rewrite F2 by auto. rewrite probH_preact by (auto; apply Hs). reflexivity.
  - intros s X dropout q Y r ein bp q2 eout (Hs & HF) HX E He1 He2 Eb.
    destruct (rbm_forward_ok junk u M H cdN backprop reg s X dropout (rows X) Hs) as (q1 & y & E1 & Sy & I1 & F1 & _ & F3 & F4); [split; auto|].
    cbn [forwardPropagate backpropagate rbm_class] in E, Eb. assert (q1 = q) by congruence. subst q1.
    destruct (rbm_backward_ok junk M H cdN backprop reg q (rows X) ein bp I1) as (q3 & e3 & E3 & I3 & P3 & _ & _ & _ & _ & G3).
    { now rewrite F4. } { rewrite F3. split; auto. } { split; auto. }
    rewrite Eb in E3. injection E3 as <- <-. destruct F1 as (R1 & R2 & _).
    split; [split; auto; eapply rbm_frozen_par; eauto; eapply rbm_frozen_par; eauto|]. split; [|intros Hbp; now apply G3].
    apply rbm_same; auto. assert (A : rcfg q2 = mkRC M H cdN backprop reg) by apply I3. rewrite A. symmetry. apply I1.
  - intros s s' p q q' (Hs & HF) (Hs' & HF') Hp E E'.
    destruct (rbm_install junk u M H cdN backprop reg s p Hs Hp) as (q1 & E1 & Hq & _ & P1 & R1).
    destruct (rbm_install junk u M H cdN backprop reg s' p Hs' Hp) as (q2 & E2 & Hq' & _ & P2 & R2).
    assert (q1 = q) by congruence. assert (q2 = q') by congruence. subst q1 q2.
    assert (W : (forall h d, (h < H)%nat -> (d < M)%nat -> at_ (qW (rpar q)) h d = at_ (qW (rpar q')) h d) /\
                (forall h, (h < H)%nat -> at_ (qbh (rpar q)) h 0 = at_ (qbh (rpar q')) h 0)).
    { unfold rbm_frozen in *. destruct backprop.
      - destruct (R1 eq_refl) as (A1 & A2), (R2 eq_refl) as (B1 & B2). split; intros; [now rewrite A1, B1|now rewrite A2, B2].
      - rewrite (P1 eq_refl), (P2 eq_refl). destruct (HF eq_refl) as (A1 & A2), (HF' eq_refl) as (B1 & B2).
        split; intros; [now rewrite A1, B1|now rewrite A2, B2]. }
    destruct W as (W1 & W2). split; [|split]; auto.
    + intros k Hk. pose proof (rbm_contract junk u M H cdN backprop reg) as C.
      destruct (install_read _ _ _ _ _ _ s p q C Hs Hp E) as (_ & Rq).
      destruct (install_read _ _ _ _ _ _ s' p q' C Hs' Hp E') as (_ & Rq'). now rewrite Rq, Rq' by auto.
    + intros n x j Hj. unfold rbm_fn. f_equal. f_equal; [|auto]. apply rsum_ext. intros i Hi. now rewrite W1.
Qed.

(** a new machine *)
Lemma rbm_new_netInv s : rbm_new junk M H cdN backprop reg w = Ok s -> rbm_netInv s.
Proof.
  intros E. destruct (rbm_new_ready junk M H cdN backprop reg w) as (s0 & E0 & R & _ & W & _ & B).
  assert (s0 = s) by congruence. subst s0. destruct R as (I & F & Q & _). split; auto. intros _.
  assert (SP : rsize M H (rpar s)) by apply I. rewrite <- F in W, B. split.
  - intros h d Hh Hd. rewrite <- (rflat_w M H (rpar s) SP) by auto. auto.
  - intros h Hh. rewrite <- (rflat_bh M H (rpar s) SP) by auto. auto.
Qed.
Lemma rbm_new_ok : exists s, rbm_new junk M H cdN backprop reg w = Ok s.
Proof. destruct (rbm_new_ready junk M H cdN backprop reg w) as (s0 & E0 & _). eauto. Qed.
End RBM.

(** * Sparse auto-encoders *)
Section SAE.
Context (junk : nat -> nat -> R) (M H : nat) (beta rho lambda : R) (act : ActivationFunction).
Notation inv := (sae_inv M H beta rho lambda act).
Notation c := (sae_class junk).
Notation K := (H * M + H)%nat.

Definition sae_fn (s : sae) (dropout : bool) (n : nat) (x : nat -> R) (j : nat) : R :=
  act_fun act (rsum M (fun i => x i * at_ (pW1 (spar s)) j i) + at_ (pb1 (spar s)) j 0).
Definition sae_rg (s : sae) : R := regError (mkReg 0 lambda 0) (pW1 (spar s)).
Definition sae_netSmooth (s : sae) (X : mat) : Prop := 0 <= lambda /\ sae_smooth M H act s X.

Lemma sae_same q s : scfg q = scfg s -> spar q = spar s -> same_fun c H K sae_fn sae_rg q s.
Proof.
  intros E1 E2. split; [|split].
  - intros k _. apply readParam_same.
    + cbn [initialize sae_class]. unfold sae_initializeLayer. now rewrite E1.
    + intros l Hl. cbn [initialize sae_class] in Hl. unfold sae_initializeLayer in Hl.
      cbn [fst] in Hl. apply in_app_or in Hl. destruct Hl as [Hl|Hl].
      * apply in_flat_map in Hl. destruct Hl as (h & _ & Hl). apply in_map_iff in Hl. destruct Hl as (d & <- & _).
        cbn [load sae_class sae_load]. now rewrite E2.
      * apply in_map_iff in Hl. destruct Hl as (h & <- & _). cbn [load sae_class sae_load]. now rewrite E2.
  - intros n x j _. unfold sae_fn. now rewrite E2.
  - unfold sae_rg. now rewrite E2.
Qed.

Lemma sae_net_contract : contract c M H K inv sae_netSmooth.
Proof.
  constructor.
  - intros s I. destruct (sae_layout_init junk M H beta rho lambda act s I) as (E & L).
    assert (Q : length (sae_locs M H) = K) by apply two_length. split; [|congruence]. refine (eq_trans _ Q). f_equal. exact E.
  - intros s k I Hk. rewrite <- (two_length M H SW Sb) in Hk. apply (layout_read c inv (sae_locs M H)); auto.
    + apply sae_layout_init.
    + apply sae_load_ok.
  - apply sae_write.
  - intros s I. exists s. auto.
  - intros s dropout N t0 p p' X X' Hs Hp HX DP DX HS.
    assert (Hl : 0 <= lambda).
    { destruct (sae_install junk M H beta rho lambda act s (p t0) Hs (Hp t0)) as (q & E & _). apply (HS q E). }
    apply (ct_gradient _ _ _ _ _ _ (sae_contract junk M H beta rho lambda act Hl) s dropout N t0 p p' X X'); auto.
    intros q E. apply (HS q E).
Qed.

Lemma sae_ok : layer_ok c M H K inv sae_netSmooth sae_fn sae_rg.
Proof.
  constructor.
  - apply sae_net_contract.
  - intros s d n x x' j _ E. unfold sae_fn. do 2 f_equal. apply rsum_ext. intros i Hi. now rewrite E.
  - reflexivity.
  - intros s X dropout Hs HX.
    destruct (sae_forward_ok junk M H beta rho lambda act s X dropout (rows X) Hs) as (q & y & E & (S1 & S2) & I1 & F1 & F2 & _); [split; auto|].
    exists q, y. split; auto. split; auto. split; [|split; [|split]]; auto.
    + apply sae_same; auto. assert (A : scfg q = mkCfg M H beta rho lambda act) by apply I1. rewrite A. symmetry. apply Hs.
    + intros n j _ Hj. rewrite F1 by auto. reflexivity.
  - intros s X dropout q Y r ein bp q2 eout Hs HX E He1 He2 Eb.
    destruct (sae_forward_ok junk M H beta rho lambda act s X dropout (rows X) Hs) as (q1 & y & E1 & Sy & I1 & _ & F2 & F3 & F4 & _); [split; auto|].
    cbn [forwardPropagate backpropagate sae_class] in E, Eb. assert (q1 = q) by congruence. subst q1.
    destruct (sae_backward_ok junk M H beta rho lambda act q (rows X) ein bp I1) as (q3 & e3 & E3 & I3 & P3 & _ & _ & _ & G3).
    { now rewrite F4. } { rewrite F3. split; auto. } { split; auto. }
    rewrite Eb in E3. injection E3 as <- <-. split; auto. split; [|intros Hbp; now apply G3].
    apply sae_same; auto. assert (A : scfg q2 = mkCfg M H beta rho lambda act) by apply I3. rewrite A. symmetry. apply I1.
  - intros s s' p q q' Hs Hs' Hp E E'.
    destruct (sae_install junk M H beta rho lambda act s p Hs Hp) as (q1 & E1 & Hq & W1 & B1).
    destruct (sae_install junk M H beta rho lambda act s' p Hs' Hp) as (q2 & E2 & Hq' & W2 & B2).
    assert (q1 = q) by congruence. assert (q2 = q') by congruence. subst q1 q2. split; [|split].
    + intros k Hk. destruct (install_read _ _ _ _ _ _ s p q sae_net_contract Hs Hp E) as (_ & Rq).
      destruct (install_read _ _ _ _ _ _ s' p q' sae_net_contract Hs' Hp E') as (_ & Rq'). now rewrite Rq, Rq' by auto.
    + intros n x j Hj. unfold sae_fn. f_equal. f_equal; [|now rewrite B1, B2]. apply rsum_ext. intros i Hi. now rewrite W1, W2.
    + unfold sae_rg. apply regError_ext with H M; auto; [apply Hq|apply Hq'|]. intros a b Ha Hb. now rewrite W1, W2.
Qed.

(** the parameters of the layer after initializeParameters *)
Definition sae_drawn (u : nat -> R) (s : sae) : Prop :=
  let r := sqrt 6 / sqrt (INR H + INR M + 1) in
  (forall h d, (h < H)%nat -> (d < M)%nat -> at_ (pW1 (spar s)) h d = u (2 * (h * M + d))%nat * (2 * r) + - r) /\
  (forall h, at_ (pb1 (spar s)) h 0 = 0).

Lemma sae_draw_ok u s : inv s -> exists q, sae_initializeParameters u s = Ok q /\ inv q /\ sae_drawn u q.
Proof.
  intros (C & (P1 & P2 & P3 & P4) & SD & G). unfold sae_initializeParameters. rewrite C. cbn [cD cH].
  set (r := sqrt 6 / sqrt (INR H + INR M + 1)).
  set (val := fun h d => u (2 * (h * M + d))%nat * (2 * r) + - r).
  match goal with |- context [for_ H ?b ?w] => set (body := b); set (w0 := w) end.
  destruct (for_inv (fun k (w : mat * mat) => size_is (fst w) H M /\ size_is (snd w) M H /\
      forall h d, (h < k)%nat -> (d < M)%nat -> at_ (fst w) h d = val h d) body H w0)
    as ((W1 & W2) & E & S1 & S2 & F).
  - cbn. split; [auto|]. split; [auto|]. intros; lia.
  - intros j w Hj (S1 & S2 & F). unfold body. clear body w0.
    match goal with |- context [for_ M ?b w] => set (body := b) end.
    destruct (for_inv (fun k (w : mat * mat) => size_is (fst w) H M /\ size_is (snd w) M H /\
      (forall h d, (h < j)%nat -> (d < M)%nat -> at_ (fst w) h d = val h d) /\
      (forall d, (d < k)%nat -> at_ (fst w) j d = val j d)) body M w)
      as (w' & E & S1' & S2' & F' & G').
    + split; auto. split; auto. split; auto. intros; lia.
    + intros i (V1 & V2) Hi ((A1 & A2) & (B1 & B2) & F1 & G1). cbn [fst snd] in *. unfold body.
      rewrite mset_Ok by lia. cbn [bind]. rewrite mset_Ok by lia. cbn [bind]. eexists. split; [reflexivity|]. cbn [fst snd].
      split; [split; auto|]. split; [split; auto|]. split.
      * intros h d Hh Hd. rewrite !at_mupd_other by lia. auto.
      * intros d Hd. rewrite !at_mupd, !Nat.eqb_refl. cbn [andb].
        destruct (Nat.eqb_spec d i) as [->|Hn]; [reflexivity|]. apply G1. lia.
    + exists w'. split; auto. split; auto. split; auto. intros h d Hh Hd.
      destruct (Nat.eq_dec h j) as [->|]; [now apply G'|apply F'; lia].
  - rewrite E. cbn [bind fst snd] in *. eexists. split; [reflexivity|]. split.
    + split; [reflexivity|]. split; [|split; [exact SD|exact G]]. split; [auto|]. split; [auto|]. split; [exact P3|exact P4].
    + split; [|reflexivity]. exact (fun h d Hh Hd => F h d Hh Hd).
Qed.

Lemma sae_new_ok u : exists s, sae_new junk M H beta rho lambda act u = Ok s /\ inv s /\ sae_drawn u s.
Proof.
  unfold sae_new, sae_initialize.
  match goal with |- context [sae_initializeParameters u ?x] => destruct (sae_draw_ok u x) as (q & E & I & Dr); [|rewrite E] end.
  { split; [reflexivity|]. split; [repeat split; reflexivity|]. split; [repeat split; reflexivity|].
    cbn [sgrad]. rewrite map_length, seq_length. reflexivity. }
  cbn [bind]. assert (Lq : length (sparameters q) = dim M H).
  { assert (A : sparameters q = map (junk 0%nat) (seq 0 (dim M H))).
    { clear I Dr. unfold sae_initializeParameters in E. match type of E with bind ?m _ = _ => destruct m as [[W1 W2]| | | |]; try discriminate E end.
      cbn [bind] in E. assert (X : forall a b : sae, Ok a = Ok b -> sparameters b = sparameters a) by congruence. rewrite (X _ _ E). reflexivity. }
    rewrite A, map_length, seq_length. reflexivity. }
  assert (SP : psize M H (spar q)) by apply I.
  rewrite (pack_ok (arrays (spar q))) by (change (concat (arrays (spar q))) with (flat (spar q)); rewrite (flat_length M H _ SP); lia).
  cbn [bind]. eexists. split; [reflexivity|]. split; [exact I|exact Dr].
Qed.
End SAE.
