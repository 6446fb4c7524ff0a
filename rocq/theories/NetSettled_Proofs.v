(** Installing the parameters that a layer or network already has changes nothing. *)
From Verif Require Import Base BaseFacts Matrix RSum MatOps Acc Vec Deriv Activation_Model Activation_Proofs
  Layer_Model Layer_Spec Layer_Proofs Layer_Layout LayerFun_Spec FC_Model Reg_Proofs FC_Proofs
  SimpleLayers_Model SimpleLayers_Proofs Compressed_Proofs Conv_Model Conv_Proofs Conv_Props
  Pool_Model Pool Subs_Proofs Subs_Props MaxPool_Proofs MaxPool_Props NetLayers_Proofs
  Net_Model NetChain_Proofs Net_Proofs NetBuild_Model NetUse_Spec NetBuild_Proofs.
From Verif Require RBM_Model RBM_Proofs RBMLayer_Proofs SAE_Model SAE_Proofs SAELayer_Proofs RBMNet_Proofs.
Local Open Scope R_scope.

Section Settled.
Variable junk : nat -> nat -> R.
Notation kc := (kclass junk).
Notation sf k := (same_fun (kc k) (nO k) (nK k) (nfn junk k) (nrg junk k)).

(** the function of a layer is the one that its parameters stand for *)
Definition settled (k : kind) (s : St (kc k)) : Prop :=
  forall p q, length p = nK k -> (forall i, (i < nK k)%nat -> readParam (kc k) s i = Ok p.[i]) ->
    install (kc k) s p = Ok q -> sf k q s.

Lemma sf_sym k a b : sf k a b -> sf k b a.
Proof. intros (H1 & H2 & H3). split; [|split]; intros; symmetry; auto. Qed.

Lemma settled_same k q s : nInv junk k q -> nInv junk k s -> sf k q s -> settled k s -> settled k q.
Proof.
  intros Vq Vs S H p q' Hp R E.
  destruct (install_Ok kc nI nO nK (nInv junk) (nsmooth junk) (nfn junk) (nrg junk) (nok junk) k s p Vs Hp) as (w & s' & E1 & _ & E2 & V' & _).
  assert (Es : install (kc k) s p = Ok s') by (unfold install; rewrite E1; exact E2).
  assert (S1 : sf k s' s).
  { apply (H p s' Hp); auto. intros i Hi. destruct S as (S1 & _). rewrite <- S1 by auto. auto. }
  pose proof (lo_install _ _ _ _ _ _ _ _ (nok junk k) q s p q' s' Vq Vs Hp E Es) as S2.
  eapply same_fun_trans; [exact S2|]. eapply same_fun_trans; [exact S1|]. now apply sf_sym.
Qed.

Lemma settled_install k s p q : nInv junk k s -> length p = nK k -> install (kc k) s p = Ok q -> settled k q.
Proof.
  intros V Hp E p' q' Hp' R' E'.
  destruct (install_read _ _ _ _ _ _ s p q (lo_contract _ _ _ _ _ _ _ _ (nok junk k)) V Hp E) as (Vq & Rq).
  assert (p' = p).
  { apply (nth_ext _ _ 0 0); [congruence|]. intros i Hi. specialize (R' i). specialize (Rq i).
    rewrite Hp' in Hi. rewrite Rq in R' by auto. specialize (R' Hi). injection R' as R'. auto. }
  subst p'. apply (lo_install _ _ _ _ _ _ _ _ (nok junk k) q s p q' q); auto.
Qed.

(** ** New layers *)
Lemma reads_ok k s p q : nInv junk k s -> length p = nK k -> (forall i, (i < nK k)%nat -> readParam (kc k) s i = Ok p.[i]) ->
  install (kc k) s p = Ok q -> forall i, (i < nK k)%nat -> readParam (kc k) q i = readParam (kc k) s i.
Proof.
  intros V Hp R E i Hi.
  destruct (install_read _ _ _ _ _ _ s p q (lo_contract _ _ _ _ _ _ _ _ (nok junk k)) V Hp E) as (_ & Rq).
  now rewrite Rq, R.
Qed.

Lemma settled_fc i j bias act reg s : nInv junk (KFullyConnected i j bias act reg) s -> settled (KFullyConnected i j bias act reg) s.
Proof.
  intros V p q Hp R E. pose proof (reads_ok _ _ _ _ V Hp R E) as Rq. destruct V as (Hm & V).
  cbn [nK nO kclass nfn nrg] in *.
  destruct (fc_install junk i j bias act reg Hm s p V Hp) as (q1 & E1 & Hq & W1 & B1).
  assert (q1 = q) by congruence. subst q1.
  assert (W2 : forall a b, (a < j)%nat -> (b < i)%nat -> at_ (fW s) a b = p.[a * unitParams i bias + b]).
  { intros a b Ha Hb. assert (Hb' : (b < unitParams i bias)%nat) by (unfold unitParams; lia).
    pose proof (R _ (join_index (unitParams i bias) a b j Ha Hb')) as R1.
    rewrite (fc_read junk i j bias act reg) in R1 by auto. apply Nat.ltb_lt in Hb. rewrite Hb in R1. now injection R1. }
  split; [exact Rq|]. split.
  - intros n x a Ha. unfold fc_fn. f_equal. f_equal.
    + apply rsum_ext. intros b Hb. now rewrite W1, W2.
    + destruct bias; auto. rewrite B1 by auto.
      assert (Hb' : (i < unitParams i true)%nat) by (unfold unitParams; lia).
      pose proof (R _ (join_index (unitParams i true) a i j Ha Hb')) as R1.
      rewrite (fc_read junk i j true act reg) in R1 by auto. rewrite Nat.ltb_irrefl in R1. now injection R1.
  - unfold fc_rg. apply regError_ext with j i; [apply Hq|apply V|]. intros a b Ha Hb. now rewrite W1, W2.
Qed.

Lemma settled_k i j m bias act phi reg s : nInv junk (KCompressed i j m bias act phi reg) s ->
  (forall a b, at_ (kW s) a b = k_weight m phi (at_ (kalpha s)) a b) -> settled (KCompressed i j m bias act phi reg) s.
Proof.
  intros V HW p q Hp R E. pose proof (reads_ok _ _ _ _ V Hp R E) as Rq.
  cbn [nK nO kclass nfn nrg nInv] in *.
  destruct (k_install junk i j m bias act phi reg s p V Hp) as (q1 & E1 & Hq & W1 & B1).
  assert (q1 = q) by congruence. subst q1.
  assert (W2 : forall a b, (a < j)%nat -> (b < m)%nat -> at_ (kalpha s) a b = p.[a * m + b]).
  { intros a b Ha Hb. pose proof (R _ (join_index m a b j Ha Hb)) as R1.
    rewrite (k_read junk i j m bias act phi reg) in R1 by auto. now injection R1. }
  assert (Ew : forall a b, (a < j)%nat -> at_ (kW q) a b = at_ (kW s) a b).
  { intros a b Ha. rewrite B1, HW. unfold k_weight. apply rsum_ext. intros c Hc. now rewrite W1, W2. }
  split; [exact Rq|]. split.
  - intros n x a Ha. unfold k_fn. f_equal. f_equal.
    + apply rsum_ext. intros b Hb. now rewrite Ew.
    + destruct bias; auto.
  - unfold k_rg. apply regError_ext with j m; [apply Hq|apply V|]. intros a b Ha Hb. now rewrite W1, W2.
Qed.

Lemma settled_conv g s : nInv junk (KConvolutional g) s -> settled (KConvolutional g) s.
Proof.
  intros V p q Hp R E. pose proof (reads_ok _ _ _ _ V Hp R E) as Rq. destruct V as (Hg & V).
  cbn [nK nO kclass nfn nrg] in *.
  destruct (conv_install junk g s p V Hp) as (q1 & E1 & Hq & W1 & B1).
  assert (q1 = q) by congruence. subst q1.
  assert (W2 : forall o i kr kcl, (o < fmout g)%nat -> (i < fmin g)%nat -> (kr < kernelRows g)%nat -> (kcl < kernelCols g)%nat ->
     at_ (tat (cW q) o i) kr kcl = at_ (tat (cW s) o i) kr kcl).
  { intros o i kr kcl Ho Hi Hr Hc. rewrite W1 by auto.
    assert (Hk : (o * cF g + (i * cB g + (kr * kernelCols g + kcl)) < fmout g * cF g)%nat).
    { apply join_index; auto. apply join_index; auto. unfold cB. pose proof (join_index (kernelCols g) kr kcl (kernelRows g) Hr Hc). lia. }
    pose proof (R _ Hk) as R1. rewrite (conv_read_w junk g) in R1 by auto. now injection R1. }
  assert (B2 : cbias g = true -> forall o i, (o < fmout g)%nat -> (i < fmin g)%nat -> at_ (cWb q) o i = at_ (cWb s) o i).
  { intros Hb o i Ho Hi. rewrite B1 by auto.
    assert (Hk : (o * cF g + (i * cB g + kernelRows g * kernelCols g) < fmout g * cF g)%nat).
    { apply join_index; auto. apply join_index; auto. unfold cB, nb. rewrite Hb. lia. }
    pose proof (R _ Hk) as R1. rewrite (conv_read_b junk g) in R1 by auto. now injection R1. }
  split; [exact Rq|]. split.
  - intros n x j Hj. unfold conv_fn. pose proof Hj as Hj'. apply Nat.ltb_lt in Hj'. rewrite Hj'.
    destruct (conv_split g Hg j Hj) as (o & row & col & Ho & Hr & Hc & Ej & D1 & D2 & D3). rewrite D1, D2, D3.
    f_equal. unfold cpre. apply rsum_ext. intros i Hi. f_equal.
    + apply rsum_ext. intros kr Hkr. apply rsum_ext. intros kcl Hkc. now rewrite W2.
    + destruct (cbias g) eqn:Eb; auto.
  - unfold conv_rg, cregError. apply rsum_ext. intros o Ho. apply rsum_ext. intros i Hi.
    apply regError_ext with (kernelRows g) (kernelCols g); [apply Hq|apply V|]; auto.
Qed.

Lemma settled_subs g bias act reg s : nInv junk (KSubsampling g bias act reg) s -> settled (KSubsampling g bias act reg) s.
Proof.
  intros V p q Hp R E. pose proof (reads_ok _ _ _ _ V Hp R E) as Rq. destruct V as (Hg & V).
  cbn [nK nO kclass nfn nrg] in *.
  destruct (subs_install junk g Hg bias act reg s p V Hp) as (q1 & E1 & Hq & W1 & B1).
  assert (q1 = q) by congruence. subst q1.
  assert (W2 : forall o r k, (o < pfm g)%nat -> (r < poutRows g)%nat -> (k < poutCols g)%nat -> at_ (vat (sW q) o) r k = at_ (vat (sW s) o) r k).
  { intros o r k Ho Hr Hk. rewrite W1 by auto. pose proof (R _ (w_range g Hg bias o r k Ho Hr Hk)) as R1.
    rewrite (subs_read_w junk g Hg bias act reg) in R1 by auto. now injection R1. }
  assert (B2 : bias = true -> forall o r k, (o < pfm g)%nat -> (r < poutRows g)%nat -> (k < poutCols g)%nat -> at_ (vat (sWb q) o) r k = at_ (vat (sWb s) o) r k).
  { intros Hb o r k Ho Hr Hk. rewrite B1 by auto. pose proof (R _ (b_range g Hg bias o r k Hb Ho Hr Hk)) as R1.
    rewrite (subs_read_b junk g Hg bias act reg) in R1 by auto. now injection R1. }
  split; [exact Rq|]. split.
  - intros n x j Hj. unfold subs_fn. pose proof Hj as Hj'. apply Nat.ltb_lt in Hj'. rewrite Hj'.
    destruct (pout_split g Hg j Hj) as (o & r & k & Ho & Hr & Hk & ->). destruct (decode g Hg o r k Hr Hk) as (-> & -> & ->).
    f_equal. unfold spre. f_equal; [f_equal; apply rsum_ext; intros kcl Hkc; now rewrite W2|]. destruct bias; auto.
  - unfold subs_rg, sregError. apply rsum_ext. intros o Ho.
    apply regError_ext with (poutRows g) (poutCols g); [apply Hq|apply V|]; auto.
Qed.

Lemma settled_rbm i h cdN backprop reg u w s : nInv junk (KRestrictedBoltzmannMachine i h cdN backprop reg u w) s ->
  settled (KRestrictedBoltzmannMachine i h cdN backprop reg u w) s.
Proof.
  intros V p q Hp R E. pose proof (reads_ok _ _ _ _ V Hp R E) as Rq. destruct V as (V & HF).
  cbn [nK nO kclass nfn nrg] in *.
  destruct (RBMLayer_Proofs.rbm_install junk u i h cdN backprop reg s p V Hp) as (q1 & E1 & Hq & _ & P1 & W1).
  assert (q1 = q) by congruence. subst q1.
  split; [exact Rq|]. split; [|reflexivity].
  intros n x j Hj. unfold RBMNet_Proofs.rbm_fn. destruct backprop; [|now rewrite (P1 eq_refl)].
  destruct (W1 eq_refl) as (W & B). destruct (RBMLayer_Proofs.rbm_read junk u i h cdN true reg s V eq_refl) as (R1 & R2).
  f_equal. f_equal.
  - apply rsum_ext. intros k Hk. f_equal. rewrite W by auto.
    assert (Hk' : (j * i + k < RBMLayer_Proofs.rbm_K i h true)%nat).
    { unfold RBMLayer_Proofs.rbm_K. pose proof (join_index i j k h Hj Hk). lia. }
    pose proof (R _ Hk') as R3. rewrite R1 in R3 by auto. now injection R3.
  - rewrite B by auto.
    assert (Hk' : (h * i + j < RBMLayer_Proofs.rbm_K i h true)%nat) by (unfold RBMLayer_Proofs.rbm_K; lia).
    pose proof (R _ Hk') as R3. rewrite R2 in R3 by auto. now injection R3.
Qed.

Lemma settled_sae i h beta rho lambda act s : nInv junk (KSparseAutoEncoder i h beta rho lambda act) s ->
  settled (KSparseAutoEncoder i h beta rho lambda act) s.
Proof.
  intros V p q Hp R E. pose proof (reads_ok _ _ _ _ V Hp R E) as Rq.
  cbn [nK nO kclass nfn nrg nInv] in *.
  destruct (SAELayer_Proofs.sae_install junk i h beta rho lambda act s p V Hp) as (q1 & E1 & Hq & W & B).
  assert (q1 = q) by congruence. subst q1. destruct (SAELayer_Proofs.sae_read junk i h beta rho lambda act s V) as (R1 & R2).
  assert (W2 : forall j k, (j < h)%nat -> (k < i)%nat -> at_ (SAE_Model.pW1 (SAE_Model.spar q)) j k = at_ (SAE_Model.pW1 (SAE_Model.spar s)) j k).
  { intros j k Hj Hk. rewrite W by auto. pose proof (join_index i j k h Hj Hk).
    pose proof (R (j * i + k)%nat ltac:(lia)) as R3. rewrite R1 in R3 by auto. now injection R3. }
  split; [exact Rq|]. split.
  - intros n x j Hj. unfold RBMNet_Proofs.sae_fn. f_equal. f_equal.
    + apply rsum_ext. intros k Hk. now rewrite W2.
    + rewrite B by auto. pose proof (R (h * i + j)%nat ltac:(lia)) as R3. rewrite R2 in R3 by auto. now injection R3.
  - unfold RBMNet_Proofs.sae_rg. apply regError_ext with h i; [apply Hq|apply V|]. auto.
Qed.

Lemma settled_nil k s : nK k = 0%nat -> (forall p q, length p = 0%nat -> install (kc k) s p = Ok q -> q = s) -> settled k s.
Proof. intros H0 H p q Hp _ E. apply H in E; [|congruence]. subst q. apply same_fun_refl. Qed.

Definition isCompressed (k : kind) : bool := match k with KCompressed _ _ _ _ _ _ _ => true | _ => false end.
Lemma settled_inv k s : isCompressed k = false -> nInv junk k s -> settled k s.
Proof.
  destruct k; intros Hk V; try discriminate Hk.
  - apply settled_nil; auto. intros p q Hp E. rewrite (no_install input_class) in E by auto. now injection E.
  - now apply settled_fc.
  - apply settled_nil; auto. intros p q Hp E. rewrite (no_install (extreme_class junk)) in E by auto. now injection E.
  - apply settled_nil; auto. intros p q Hp E. rewrite (no_install (ip_class junk)) in E by auto. now injection E.
  - now apply settled_conv.
  - now apply settled_subs.
  - apply settled_nil; auto. intros p q Hp E. rewrite (no_install (maxp_class junk)) in E by auto. now injection E.
  - apply settled_nil; auto. intros p q Hp E. rewrite (no_install (dropout_class junk)) in E by auto. now injection E.
  - now apply settled_rbm.
  - now apply settled_sae.
Qed.

(** ** Networks *)
Notation net := (net kc).
Notation invs := (invs kc (nInv junk)).
Notation same_layers := (same_layers kc nO nK (nfn junk) (nrg junk)).
Notation installAll := (installAll kc nK).
Notation count := (count kc nK).
Notation readP := (readP kc nK).
Notation good := (good kc nI nO nK (nInv junk) isIn).
Notation usable := (usable junk).
Definition settledAll (ls : list (layer kc)) : Prop := Forall (fun l => settled (lkind kc l) (lobj kc l)) ls.

Lemma settledAll_same a b : same_layers a b -> invs a -> invs b -> settledAll b -> settledAll a.
Proof.
  induction 1 as [|x y a b S F IH]; intros Va Vb H; [constructor|].
  inversion Va as [|? ? V1 V2]; subst. inversion Vb as [|? ? V3 V4]; subst. inversion H as [|? ? H1 H2]; subst.
  constructor; [|apply IH; auto]. destruct S as [k q s S]. cbn [lkind lobj] in *. eapply settled_same; eauto.
Qed.

Lemma settledAll_install a : forall p q, invs a -> length p = count a -> installAll a p = Ok q -> settledAll q.
Proof.
  induction a as [|[k x] a IH]; intros p q V Hp E; cbn [NetChain_Proofs.installAll lkind lobj NetChain_Proofs.count] in *.
  - injection E as <-. constructor.
  - inversion V as [|? ? V1 V2]; subst. cbn [lkind lobj] in *.
    assert (Hf : length (firstn (nK k) p) = nK k) by (rewrite firstn_length; lia).
    assert (Hs : length (skipn (nK k) p) = count a) by (rewrite skipn_length; lia).
    destruct (install (kc k) x (firstn (nK k) p)) as [x'| | | |] eqn:E1; try discriminate E. cbn [bind] in E.
    destruct (installAll a (skipn (nK k) p)) as [a'| | | |] eqn:E2; try discriminate E. cbn [bind] in E.
    injection E as <-. constructor; [|eapply IH; eauto]. cbn [lkind lobj]. eapply settled_install; eauto.
Qed.

Lemma settledAll_idem a : forall p q, invs a -> length p = count a -> settledAll a ->
  (forall k, (k < count a)%nat -> readP a k = Ok p.[k]) -> installAll a p = Ok q -> same_layers q a.
Proof.
  induction a as [|[k x] a IH]; intros p q V Hp H R E; cbn [NetChain_Proofs.installAll lkind lobj NetChain_Proofs.count NetChain_Proofs.readP] in *.
  - injection E as <-. constructor.
  - inversion V as [|? ? V1 V2]; subst. inversion H as [|? ? H1 H2]; subst. cbn [lkind lobj] in *.
    assert (Hf : length (firstn (nK k) p) = nK k) by (rewrite firstn_length; lia).
    assert (Hs : length (skipn (nK k) p) = count a) by (rewrite skipn_length; lia).
    destruct (install (kc k) x (firstn (nK k) p)) as [x'| | | |] eqn:E1; try discriminate E. cbn [bind] in E.
    destruct (installAll a (skipn (nK k) p)) as [a'| | | |] eqn:E2; try discriminate E. cbn [bind] in E.
    injection E as <-. constructor.
    + constructor. apply (H1 (firstn (nK k) p)); auto. intros i Hi. specialize (R i ltac:(lia)).
      apply Nat.ltb_lt in Hi as Hi'. rewrite Hi' in R. rewrite R. f_equal.
      transitivity (nth i (firstn (nK k) p ++ skipn (nK k) p) 0); [now rewrite firstn_skipn|]. now rewrite app_nth1 by lia.
    + apply (IH (skipn (nK k) p)); auto. intros i Hi. specialize (R (nK k + i)%nat ltac:(lia)).
      rewrite (proj2 (Nat.ltb_ge _ _)) in R by lia. replace (nK k + i - nK k)%nat with i in R by lia. rewrite R. f_equal.
      transitivity (nth (nK k + i) (firstn (nK k) p ++ skipn (nK k) p) 0); [now rewrite firstn_skipn|].
      rewrite app_nth2 by lia. f_equal. lia.
Qed.

Lemma drawn_settled w k o : nInv junk k o -> drawn junk w k o -> settled k o.
Proof.
  intros V Dr. destruct (isCompressed k) eqn:Ek; [|now apply settled_inv].
  destruct k; try discriminate Ek. apply settled_k; auto. apply Dr.
Qed.
Lemma drawnLayers_settled cs : forall ls, invs ls -> drawnLayers junk cs ls -> settledAll ls.
Proof.
  induction cs as [|[l|r] cs IH]; intros ls V Dr.
  - destruct ls; [constructor|easy].
  - destruct ls as [|x ls]; [easy|]. inversion V as [|? ? V1 V2]; subst. destruct Dr as (D1 & D2). constructor; [|now apply IH].
    eapply drawn_settled; eauto.
  - now apply IH.
Qed.
Lemma tail_settled d1 d2 d3 cs s : usable d1 d2 d3 cs s -> drawnLayers junk cs (tl (layers kc s)) -> settledAll (layers kc s).
Proof.
  intros U Dr. pose proof (g_invs _ _ _ _ _ _ _ _ _ (u_good _ _ _ _ _ _ U)) as V.
  pose proof (g_starts _ _ _ _ _ _ _ _ _ (u_good _ _ _ _ _ _ U)) as St.
  destruct (layers kc s) as [|x ls]; [easy|]. inversion V as [|? ? V1 V2]; subst. constructor; [|eapply drawnLayers_settled; eauto].
  apply settled_inv; auto. cbn in St. clear - St. destruct (lkind kc x); easy.
Qed.

(** every call changes the parameters or keeps the functions of all layers *)
Lemma calls_effect d1 d2 d3 cs s s' : usable d1 d2 d3 cs s -> calls junk s s' ->
  same_layers (layers kc s') (layers kc s) \/ exists p, length p = P kc s /\ setParameters kc s p = Ok s'.
Proof.
  intros U C. pose proof U as [H1 H2 H3 H4 H5 H6 H7].
  destruct C as [s p s' Hp E|s x s' y HR HX E|s n s' v E|s s' v E|s idx grad s' v g Hi Hg E|s n s' g E|s s' g HN E|s b|s ef|s d Hd].
  - right. eauto.
  - left. destruct (forward_net kc nI nO nK (nInv junk) (nsmooth junk) (nfn junk) (nrg junk) (nok junk) isIn _ _ s x H1 HX)
      as (ls & Y & Yo & Ef & Eo & SY & SYo & En & V & Sm & Fy & Fo & G'); auto.
    unfold net_apply in E. rewrite En in E. cbn [bind] in E. injection E as <- _. exact Sm.
  - left. destruct (error_at_pres kc nI nO nK (nInv junk) (nsmooth junk) (nfn junk) (nrg junk) (nok junk) isIn _ _ s n s' v H1) as (G & S); auto. apply S.
  - left. destruct (error_pres kc nI nO nK (nInv junk) (nsmooth junk) (nfn junk) (nrg junk) (nok junk) isIn _ _ s s' v H1) as (G & S); auto. apply S.
  - left. destruct (errorGradient_pres kc nI nO nK (nInv junk) (nsmooth junk) (nfn junk) (nrg junk) (nok junk) isIn (nin junk) junk _ _ s idx grad s' v g H1) as (G & S & _); auto. apply S.
  - left. unfold gradient_at in E. destruct (errorGradient kc junk s [n] (tempGradient kc s)) as [[[s1 v] g1]| | | |] eqn:E1; try discriminate E.
    cbn [bind] in E. injection E as <- <-.
    destruct (errorGradient_pres kc nI nO nK (nInv junk) (nsmooth junk) (nfn junk) (nrg junk) (nok junk) isIn (nin junk) junk _ _ s [n] (tempGradient kc s) s1 v g1 H1) as (G & S & L); auto.
    { discriminate. } { apply (g_grad _ _ _ _ _ _ _ _ _ H1). } apply S.
  - left. unfold gradient in E. destruct (errorGradient kc junk s (seq 0 (examples kc s)) (tempGradient kc s)) as [[[s1 v] g1]| | | |] eqn:E1; try discriminate E.
    cbn [bind] in E. injection E as <- <-.
    destruct (errorGradient_pres kc nI nO nK (nInv junk) (nsmooth junk) (nfn junk) (nrg junk) (nok junk) isIn (nin junk) junk _ _ s (seq 0 (examples kc s)) (tempGradient kc s) s1 v g1 H1) as (G & S & L); auto.
    { destruct (examples kc s); [lia|discriminate]. } { apply (g_grad _ _ _ _ _ _ _ _ _ H1). } apply S.
  - left. apply same_layers_refl.
  - left. apply same_layers_refl.
  - left. apply same_layers_refl.
Qed.

Lemma set_settled d1 d2 d3 cs s p s' : usable d1 d2 d3 cs s -> length p = P kc s -> setParameters kc s p = Ok s' ->
  settledAll (layers kc s').
Proof.
  intros U Hp E. pose proof (u_good _ _ _ _ _ _ U) as G.
  destruct (set_ok kc nI nO nK (nInv junk) (nsmooth junk) (nfn junk) (nrg junk) (nok junk) isIn _ _ s p G Hp)
    as (ls & E1 & Ei & _). rewrite E in E1. injection E1 as ->. cbn [Net_Model.layers with_layers].
  eapply settledAll_install; eauto; [apply G|]. rewrite <- (g_P _ _ _ _ _ _ _ _ _ G). exact Hp.
Qed.

Lemma reachable_settled d1 d2 d3 cs s : Forall no_max_norm cs -> reachable junk d1 d2 d3 cs s -> settledAll (layers kc s).
Proof.
  intros HF HR. induction HR as [cs s E HO|cs s s' HR IH C|cs s w s' HR IH E].
  - apply (tail_settled d1 d2 d3 cs); [now apply build_usable|now apply (build_drawn junk d1 d2 d3)].
  - pose proof (reachable_usable junk d1 d2 d3 cs s HF HR) as U. pose proof (usable_calls junk d1 d2 d3 cs s s' U C) as U'.
    destruct (calls_effect d1 d2 d3 cs s s' U C) as [S|(p & Hp & E)].
    + apply (settledAll_same _ (layers kc s)); auto; [apply (u_good _ _ _ _ _ _ U')|apply (u_good _ _ _ _ _ _ U)].
    + apply (set_settled d1 d2 d3 cs s p); auto.
  - rewrite (redraw_max_norm junk) in HF. pose proof (reachable_usable junk d1 d2 d3 cs s HF HR) as U.
    destruct (usable_initialize junk d1 d2 d3 cs s w U (initialize_flag _ _ _ _ E)) as (s1 & E1 & U' & Dr & _).
    assert (s1 = s') by congruence. subst s1. apply (tail_settled d1 d2 d3 (redraw w 1 cs)); auto.
Qed.

(** ** Outputs *)
Lemma outputs_same I O s s' x : good I O s -> good I O s' -> same_layers (layers kc s) (layers kc s') ->
  errorFunction kc s = errorFunction kc s' -> dropout kc s = false -> dropout kc s' = false ->
  cols x = I -> (0 < rows x)%nat -> (0 < O)%nat ->
  exists r r' y y', net_apply kc s x = Ok (r, y) /\ net_apply kc s' x = Ok (r', y') /\
    size_is y (rows x) O /\ size_is y' (rows x) O /\
    forall n j, (n < rows x)%nat -> (j < O)%nat -> at_ y n j = at_ y' n j.
Proof.
  intros G1 G2 SL HE HD1 HD2 HX HN HO.
  destruct (forward_net kc nI nO nK (nInv junk) (nsmooth junk) (nfn junk) (nrg junk) (nok junk) isIn _ _ s x G1 HX)
    as (la & Y & Yo & A1 & A2 & A3 & A4 & A5 & A6 & A7 & A8 & A9 & _); [auto|].
  destruct (forward_net kc nI nO nK (nInv junk) (nsmooth junk) (nfn junk) (nrg junk) (nok junk) isIn _ _ s' x G2 HX)
    as (lb & Z & Zo & B1 & B2 & B3 & B4 & B5 & B6 & B7 & B8 & B9 & _); [auto|].
  do 4 eexists. split; [unfold net_apply; rewrite A5; reflexivity|]. split; [unfold net_apply; rewrite B5; reflexivity|].
  cbn [Net_Model.tempOutput Net_Model.with_output]. split; auto. split; auto.
  intros n j Hn Hj. rewrite A9, B9 by auto. rewrite HE. apply outrow_ext; auto.
  intros k Hk. rewrite A8, B8 by auto. rewrite HD1, HD2.
  apply (same_fns kc nI nO nK (nInv junk) (nsmooth junk) (nfn junk) (nrg junk) (nok junk) _ _ SL I O); auto; apply G2.
Qed.

Lemma set_current d1 d2 d3 cs s : usable d1 d2 d3 cs s -> settledAll (layers kc s) ->
  exists s', setParameters kc s (currentParameters kc s) = Ok s' /\ same_layers (layers kc s') (layers kc s) /\
    good (netInputs s) (netOutputs s) s' /\ currentParameters kc s' = currentParameters kc s /\
    errorFunction kc s' = errorFunction kc s /\ dropout kc s' = dropout kc s /\ trainSet kc s' = trainSet kc s.
Proof.
  intros U HS. pose proof (u_good _ _ _ _ _ _ U) as G. unfold currentParameters in *.
  destruct (set_ok kc nI nO nK (nInv junk) (nsmooth junk) (nfn junk) (nrg junk) (nok junk) isIn _ _ s (parameterVector kc s) G (u_vector _ _ _ _ _ _ U))
    as (ls & E1 & Ei & V & _ & _ & G').
  eexists. split; [exact E1|]. split; [|split; [exact G'|auto]].
  cbn [Net_Model.layers with_layers].
  apply (settledAll_idem (layers kc s) (parameterVector kc s)); auto; [apply G| |].
  - rewrite <- (g_P _ _ _ _ _ _ _ _ _ G). apply U.
  - intros k Hk. apply (u_read _ _ _ _ _ _ U). rewrite (g_P _ _ _ _ _ _ _ _ _ G). exact Hk.
Qed.
End Settled.
