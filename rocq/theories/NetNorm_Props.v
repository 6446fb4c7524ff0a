(** Theorems about the limit of the norm of weights in networks, C94. *)
From Coq Require Import Relations.
From Verif Require Import Base BaseFacts Matrix RSum MatOps Vec Deriv Activation_Model Layer_Model FC_Model FC_Proofs Net_Model NetBuild_Model NetUse_Spec
  NetChain_Proofs Net_Proofs NetBuild_Proofs Net_Props NetLayer_Model NetNorm_Spec NetNorm_Proofs NetNormSet_Proofs.
Local Open Scope R_scope.

Section Limit.
Variable junk : nat -> nat -> R.
Notation kc := (kclass junk).
Context (d1 d2 d3 : nat) (cs : list command).
Notation reachable := (reachable junk d1 d2 d3).
(** the parameters that result from the limits *)
Notation limited := (limitParameters [d1; d2; d3] (mkReg 0 0 0) cs).

Lemma set_vector {k} (c : k -> LayerClass) (s s1 : net c) p : setParameters c s p = Ok s1 -> parameterVector c s1 = p /\ P c s1 = P c s.
Proof.
  unfold setParameters. intros E. match type of E with bind ?m _ = _ => destruct m; try discriminate E end. cbn [bind] in E.
  match type of E with bind ?m _ = _ => destruct m; try discriminate E end. cbn [bind] in E. injection E as <-. auto.
Qed.
Lemma set_sim s p : reachable cs s -> length p = dimension kc s ->
  exists t t1 v, reachable (unlimited cs) t /\ s = rl junk (lims cs) v t /\ setParameters kc s p = Ok (rl junk (lims cs) p t1) /\
    setParameters kc t (limited p) = Ok t1 /\ length (limited p) = dimension kc t /\ reachable (unlimited cs) t1 /\ bnds junk (lims cs) (layers kc t1).
Proof.
  intros HR Hp. destruct (reach_sim junk d1 d2 d3 cs s HR) as (t & v & Rt & -> & Lv).
  pose proof (reachable_usable junk d1 d2 d3 _ t (unlimited_ok cs) Rt) as U.
  destruct (set_limited junk _ _ t (lims cs) v p (u_good _ _ _ _ _ _ U) Hp) as (t1 & E1 & E2 & E3 & E4).
  rewrite (limitLs_all junk d1 d2 d3 cs t p U) in E2, E3. exists t, t1, v. repeat (split; [assumption || reflexivity|]). split; [|exact E4].
  apply reach_call with t; auto. now apply call_setParameters with (limited p).
Qed.

(** ** C94: setParameters scales the weights of each unit of a fully connected layer down to the limit and stores all other parameters
    as they are *)
Theorem C94_limited s p : reachable cs s -> length p = dimension kc s ->
  exists s1, setParameters kc s p = Ok s1 /\ currentParameters kc s1 = p /\
    forall k, (k < dimension kc s)%nat -> exists ptr, vget (parameters kc s1) k = Ok ptr /\ loadParam kc (layers kc s1) ptr = Ok (nth k (limited p) 0).
Proof.
  intros HR Hp. destruct (set_sim s p HR Hp) as (t & t1 & v & Rt & -> & E1 & E2 & E3 & Rt1 & _). eexists. split; [exact E1|]. split; [reflexivity|].
  intros k Hk. destruct (set_vector _ _ _ _ E2) as (V1 & V2). change (dimension kc (rl junk (lims cs) v t)) with (P kc t) in Hk. rewrite <- V2 in Hk.
  destruct (C39_pointers junk d1 d2 d3 _ (unlimited_ok cs) t1 k Rt1 Hk) as (_ & _ & ptr & H1 & _ & H2). exists ptr. split; [exact H1|].
  change (layers kc (rl junk (lims cs) p t1)) with (relab junk (lims cs) (layers kc t1)). rewrite relab_loadParam, H2. unfold currentParameters. now rewrite V1.
Qed.

(** ** C94: the network behaves like the network without limits that has these parameters *)
Theorem C94_same_network s p s1 : reachable cs s -> length p = dimension kc s -> setParameters kc s p = Ok s1 ->
  exists t1, reachable (unlimited cs) t1 /\ currentParameters kc t1 = limited p /\ sameBehaviour junk s1 t1.
Proof.
  intros HR Hp E. destruct (set_sim s p HR Hp) as (t & t1 & v & Rt & -> & E1 & E2 & E3 & Rt1 & _). exists t1. split; auto.
  destruct (set_vector _ _ _ _ E2) as (V1 & _). split; [exact V1|]. assert (s1 = rl junk (lims cs) p t1) by congruence. subst s1. apply rl_same.
Qed.
(** ... in every state *)
Theorem C94_every_state s : reachable cs s ->
  exists t, reachable (unlimited cs) t /\ sameBehaviour junk s t /\ dimension kc s = dimension kc t /\
    forall k, (k < dimension kc s)%nat -> exists ptr, vget (parameters kc s) k = Ok ptr /\ loadParam kc (layers kc s) ptr = Ok (nth k (currentParameters kc t) 0).
Proof.
  intros HR. destruct (reach_sim junk d1 d2 d3 cs s HR) as (t & v & Rt & -> & Lv). exists t. split; auto. split; [apply rl_same|]. split; [reflexivity|].
  intros k Hk. destruct (C39_pointers junk d1 d2 d3 _ (unlimited_ok cs) t k Rt Hk) as (_ & _ & ptr & H1 & _ & H2). exists ptr. split; [exact H1|].
  change (layers kc (rl junk (lims cs) v t)) with (relab junk (lims cs) (layers kc t)). now rewrite relab_loadParam.
Qed.

(** ** C94: from the first setParameters on the squared norms of the weights of units do not exceed the limit, whatever is called but
    initialize() *)
Lemma bnds_nth ms ls : forall i l, bnds junk ms ls -> nth_error ls i = Some l -> bnd junk (nth i ms 0) l.
Proof.
  revert ms. induction ls as [|x ls IH]; intros ms [|i] l B E; try discriminate E; destruct B as (B1 & B2).
  - injection E as <-. now destruct ms.
  - rewrite <- nth_hd_tl. now apply IH.
Qed.
Theorem C94_norm s p s1 s2 : reachable cs s -> length p = dimension kc s -> setParameters kc s p = Ok s1 ->
  clos_refl_trans_1n _ (calls junk) s1 s2 ->
  forall i I J bias act reg o, getLayer kc s2 i = Ok (mkLayer kc (KFullyConnected I J bias act reg) o) -> 0 < maxSquaredWeightNorm reg ->
  forall j, (j < J)%nat -> rsum I (fun i => at_ (fW o) j i * at_ (fW o) j i) <= maxSquaredWeightNorm reg.
Proof.
  intros HR Hp E HC i I J bias act reg o EL Hm j Hj. destruct (set_sim s p HR Hp) as (t & t1 & v & Rt & -> & E1 & E2 & E3 & Rt1 & B).
  assert (Es : s1 = rl junk (lims cs) p t1) by congruence. clear E E1 E2 E3.
  assert (Lp : length p = P kc t1).
  { rewrite (C39_dimension junk d1 d2 d3 _ (unlimited_ok cs) t1 Rt1 : P kc t1 = _).
    rewrite <- (C39_dimension junk d1 d2 d3 _ (unlimited_ok cs) t Rt). exact Hp. }
  clear Hp HR. revert t1 p Es Rt1 B Lp.
  induction HC as [s1|s1 sm s2 C HC IH]; intros t1 p -> Rt1 B Lp.
  - unfold getLayer, numberOfLayers in EL.
    destruct (Nat.ltb i (length (layers kc (rl junk (lims cs) p t1)))); try discriminate EL. cbn [check bind] in EL.
    change (layers kc (rl junk (lims cs) p t1)) with (relab junk (lims cs) (layers kc t1)) in EL. rewrite relab_vget in EL. unfold rmap in EL.
    destruct (vget (layers kc t1) i) as [[k o']| | | |] eqn:Ev; try discriminate EL. cbn [bind] in EL. apply vget_Some in Ev.
    pose proof (bnds_nth _ _ _ _ B Ev) as Bi. assert (EQ : sl junk (nth i (lims cs) 0) (mkLayer kc k o') = mkLayer kc (KFullyConnected I J bias act reg) o) by congruence.
    clear - EQ Bi Hj Hm. revert EQ Bi. generalize (nth i (lims cs) 0). intros m EQ Bi. unfold sl in EQ. cbn [lkind lobj] in EQ.
    destruct k; cbn [sk so] in EQ; try (apply (f_equal (lkind kc)) in EQ; discriminate EQ).
    unfold bnd in Bi. cbn [lkind lobj] in Bi.
    pose proof (f_equal (lkind kc) EQ) as EK. cbn [lkind] in EK. injection EK as -> -> -> -> EK.
    assert (EW : fW o = fW o').
    { pose proof (f_equal (fun l : layer kc => match lkind kc l as k return St (kc k) -> mat with KFullyConnected _ _ _ _ _ => fun o => fW o | _ => fun _ => mzero 0 0 end (lobj kc l)) EQ) as EW.
      cbn [lkind lobj] in EW. symmetry. exact EW. }
    rewrite EW. subst reg. cbn [withLimit maxSquaredWeightNorm] in *. now apply Bi.
  - pose proof (reachable_usable junk d1 d2 d3 _ t1 (unlimited_ok cs) Rt1) as U.
    destruct (calls_sim junk _ _ _ _ t1 (lims cs) p sm U Lp C) as (t2 & v2 & C2 & Es2 & L2 & B2).
    apply (IH EL t2 v2); auto. eapply reach_call; eauto.
Qed.

(** ** C94: after setParameters(p), gradient(n) is the gradient of error(n) of the network without limits at the limited parameters *)
Lemma smooth_so m k o X : nsmooth junk (sk m k) (so junk m k o) X -> nsmooth junk k o X.
Proof. destruct k; exact (fun H => H). Qed.
Lemma smooth_relab ls : forall ms X d, smooth_at junk (relab junk ms ls) X d -> smooth_at junk ls X d.
Proof.
  induction ls as [|[k o] ls IH]; intros ms X d H; [exact H|]. cbn [relab smooth_at sl lkind lobj] in *. destruct H as (H1 & H2). split.
  - exact (smooth_so _ _ _ _ H1).
  - intros o' Y r E. apply (IH (tl ms)). apply (H2 (so junk (hd 0 ms) k o') Y r). rewrite so_forward. unfold rmap. rewrite E. reflexivity.
Qed.
Theorem C94_gradient s d n p :
  reachable cs s -> trainSet kc s = Some d -> (n < rows (dataIn d))%nat -> errorFunction kc s = MSE -> length p = dimension kc s ->
  (forall s1 X, setParameters kc s p = Ok s1 -> batch_of (dataIn d) [n] X -> smooth_at junk (layers kc s1) X (dropout kc s)) ->
  exists s1 s2 g t, setParameters kc s p = Ok s1 /\ gradient_at kc junk s1 n = Ok (s2, g) /\ length g = dimension kc s /\ reachable (unlimited cs) t /\
    forall k, (k < dimension kc s)%nat ->
      exists f : R -> R,
        (forall v, exists q q', setParameters kc t (upd (limited p) k v) = Ok q /\ error_at kc q n = Ok (q', f v)) /\
        derivable_pt_lim f (nth k (limited p) 0) (nth k g 0).
Proof.
  intros HR Hd Hn HE Hp HS. destruct (set_sim s p HR Hp) as (t & t1 & v & Rt & -> & E1 & E2 & E3 & Rt1 & _).
  destruct (C37_gradient_exact_mse junk d1 d2 d3 (unlimited cs) (unlimited_ok cs) t d n (limited p) Rt Hd Hn HE E3) as (t1' & t2 & g & F1 & F2 & F3 & F4).
  - intros q X Eq HB. assert (q = t1) by congruence. subst q. apply (smooth_relab _ (lims cs)). exact (HS _ X E1 HB).
  - assert (t1' = t1) by congruence. subst t1'. exists (rl junk (lims cs) p t1), (rl junk (lims cs) p t2), g, t. split; auto. split.
    + rewrite rl_gradient_at. unfold rmap. rewrite F2. reflexivity.
    + auto.
Qed.
End Limit.

(** ** A new network and initialize() do not obey the limit. *)
Theorem C94_initial_refuted :
  exists junk cs s o, reachable junk 1 1 1 cs s /\
    getLayer _ s 1 = Ok (mkLayer (kclass junk) (KFullyConnected 1 1 false LINEAR (mkReg 0 0 1)) o) /\
    ~ rsum 1 (fun i => at_ (fW o) 0 i * at_ (fW o) 0 i) <= 1.
Proof.
  set (z := fun _ _ : nat => 0). exists z, (one (fun _ _ => 2) 1 false (mkReg 0 0 1)). do 2 eexists. split; [|split].
  - apply reach_build; [reflexivity|cbn; lia].
  - reflexivity.
  - cbn. lra.
Qed.

(** ** gradient(n) is not the gradient of error(n) as a function of the parameters that are passed to setParameters, if they exceed a limit:
    here the error does not depend on the parameter in a neighbourhood of 2 but the gradient is 1. *)
Definition half_line : trainData := mkData (mkMat 1 1 (fun _ _ => 1)) (mkMat 1 1 (fun _ _ => 0)).
Lemma half_error (z : nat -> nat -> R) r t : reachable z 1 1 1 (one z 1 false (mkReg 0 0 r)) t -> r <= 0 -> trainSet _ t = Some half_line -> errorFunction _ t = MSE ->
  exists q, error_at _ t 0 = Ok (q, nth 0 (currentParameters _ t) 0 * nth 0 (currentParameters _ t) 0 / 2).
Proof.
  intros HR Hr Ht HE. assert (HM : Forall no_max_norm (one z 1 false (mkReg 0 0 r))) by (constructor; [exact Hr|constructor; [exact Logic.I|constructor]]).
  pose proof (reachable_usable z 1 1 1 _ t HM HR) as U. pose proof (u_fits _ _ _ _ _ _ U _ Ht) as F. pose proof (u_good _ _ _ _ _ _ U) as G.
  destruct (error_at_ok (kclass z) nI nO nK (nInv z) (nsmooth z) (nfn z) (nrg z) (nok z) isIn _ _ t half_line 0 G Ht F) as (q' & E' & _); [cbn; lia|intros _; apply (u_pos _ _ _ _ _ _ U)|].
  assert (EO : netOutputs t = 1%nat) by (destruct F as (_ & F & _); symmetry; exact F).
  exists q'. rewrite E'. do 2 f_equal. rewrite HE, EO. unfold netrow. cbn [rowloss rsum outrow]. rewrite HE. cbn [outrow].
  rewrite (one_fns z z 1 false (mkReg 0 0 r) t _ _ _ _ U) by (auto; cbn; lia || lra).
  rewrite (one_rgs z z 1 false (mkReg 0 0 r) t U) by (auto; cbn; lra). unfold regError, currentParameters. cbn [half_line dataIn dataOut at_ l1Penalty l2Penalty].
  rewrite (proj2 (Rltb_false 0 0)) by lra. field.
Qed.
Theorem C94_gradient_refuted :
  exists junk cs s s1 s2 g (f : R -> R), reachable junk 1 1 1 cs s /\ dimension _ s = 1%nat /\ errorFunction _ s = MSE /\
    setParameters _ s [2] = Ok s1 /\ gradient_at _ junk s1 0 = Ok (s2, g) /\
    (forall v, exists q q', setParameters _ s [v] = Ok q /\ error_at _ q 0 = Ok (q', f v)) /\
    derivable_pt_lim f 2 0 /\ nth 0 g 0 <> 0.
Proof.
  set (z := fun _ _ : nat => 0). set (cs := one z 1 false (mkReg 0 0 1)).
  assert (B : exists s0, build z 1 1 1 cs = Ok s0 /\ netOutputs s0 = 1%nat /\ netInputs s0 = 1%nat /\ dimension _ s0 = 1%nat /\ errorFunction _ s0 = MSE)
    by (eexists; split; [reflexivity|repeat split]).
  destruct B as (s0 & B & BO & BI & BD & BE). set (s := trainingSet _ s0 half_line).
  assert (HR : reachable z 1 1 1 cs s).
  { apply reach_call with s0; [apply reach_build; [exact B|lia]|]. constructor. unfold fits. rewrite BO, BI. auto. }
  assert (LIM : forall v, limitParameters [1; 1; 1]%nat (mkReg 0 0 0) cs [v] = [if Rltb 1 (v * v) then v * sqrt (1 / (v * v)) else v]).
  { intros v. cbn. rewrite (proj2 (Rltb_true 0 1)) by lra. cbn. unfold limitNorm, squaredNorm. cbn [length rsum nth]. rewrite Rplus_0_l. destruct (Rltb 1 (v * v)); reflexivity. }
  set (lv := fun v => if Rltb 1 (v * v) then v * sqrt (1 / (v * v)) else v).
  assert (FR : forall (a b : net (kclass z)) p, setParameters _ a p = Ok b -> trainSet _ b = trainSet _ a /\ errorFunction _ b = errorFunction _ a /\ parameterVector _ b = p).
  { intros a b p E. unfold setParameters in E. match type of E with bind ?m _ = _ => destruct m; try discriminate E end. cbn [bind] in E.
    match type of E with bind ?m _ = _ => destruct m; try discriminate E end. cbn [bind] in E. injection E as <-. auto. }
  assert (EU : unlimited cs = one z 1 false (mkReg 0 0 0)) by reflexivity.
  assert (ERT : forall t p, reachable z 1 1 1 (unlimited cs) t -> trainSet _ t = Some half_line -> errorFunction _ t = MSE -> length p = dimension _ t ->
    exists q q', setParameters _ t p = Ok q /\ error_at _ q 0 = Ok (q', nth 0 p 0 * nth 0 p 0 / 2)).
  { intros t p Rt Ht He Hp. destruct (C39_current_parameters z 1 1 1 _ (unlimited_ok cs) t p Rt Hp) as (q & Eq & _).
    destruct (FR _ _ _ Eq) as (F1 & F2 & F3). destruct (half_error z 0 q) as (q' & E'); [rewrite <- EU; eapply reach_call; [exact Rt|econstructor; eauto]|lra|congruence|congruence|].
    exists q, q'. split; auto. rewrite E'. unfold currentParameters. now rewrite F3. }
  assert (ERR : forall v, exists q q', setParameters _ s [v] = Ok q /\ error_at _ q 0 = Ok (q', lv v * lv v / 2)).
  { intros v. destruct (set_sim z 1 1 1 cs s [v] HR) as (t & t1 & v0 & Rt & Es & E1 & E2 & E3 & Rt1 & _); [symmetry; exact BD|].
    rewrite LIM in E2, E3. assert (Ht : trainSet _ t = Some half_line) by (change (trainSet _ t) with (trainSet _ (rl z (lims cs) v0 t)); rewrite <- Es; reflexivity).
    assert (He : errorFunction _ t = MSE) by (change (errorFunction _ t) with (errorFunction _ (rl z (lims cs) v0 t)); rewrite <- Es; exact BE).
    destruct (ERT t _ Rt Ht He E3) as (q & q' & Eq & Ee). assert (q = t1) by congruence. subst q. do 2 eexists. split; [exact E1|]. rewrite rl_error_at, Ee. reflexivity. }
  destruct (set_sim z 1 1 1 cs s [2] HR) as (t & t1 & v0 & Rt & Es & E1 & E2 & E3 & Rt1 & _); [symmetry; exact BD|]. rewrite LIM in E2, E3.
  assert (Ht : trainSet _ t = Some half_line) by (change (trainSet _ t) with (trainSet _ (rl z (lims cs) v0 t)); rewrite <- Es; reflexivity).
  assert (He : errorFunction _ t = MSE) by (change (errorFunction _ t) with (errorFunction _ (rl z (lims cs) v0 t)); rewrite <- Es; exact BE).
  assert (L1 : forall v, 1 < v -> lv v = 1).
  { intros v Hv. unfold lv. rewrite (proj2 (Rltb_true 1 (v * v))) by nra. replace (1 / (v * v)) with (/ v)² by (unfold Rsqr; field; lra).
    rewrite sqrt_Rsqr by (left; apply Rinv_0_lt_compat; lra). field. lra. }
  fold (lv 2) in E2, E3. rewrite L1 in E2, E3 by lra.
  destruct (C37_gradient_exact_mse z 1 1 1 (unlimited cs) (unlimited_ok cs) t half_line 0 [1] Rt Ht ltac:(cbn; lia) He E3) as (t1' & t2 & g & F1 & F2 & F3 & F4).
  { intros q X Eq HB. apply (usable_smooth z 1 1 1 (unlimited cs)); [|repeat constructor; cbn; lra].
    apply (reachable_usable z 1 1 1 _ q (unlimited_ok cs)). eapply reach_call; [exact Rt|]. econstructor; eauto. }
  assert (t1' = t1) by congruence. subst t1'.
  exists z, cs, s, (rl z (lims cs) [2] t1), (rl z (lims cs) [2] t2), g, (fun v => lv v * lv v / 2).
  split; [exact HR|]. split; [exact BD|]. split; [exact BE|]. split; [exact E1|]. split; [rewrite rl_gradient_at, F2; reflexivity|]. split; [exact ERR|]. split.
  - intros eps Heps. assert (H2 : 0 < / 2) by lra. exists (mkposreal (/ 2) H2). intros h Hh0 Hh. cbn [pos] in Hh. apply Rabs_def2 in Hh.
    rewrite (L1 (2 + h)) by lra. rewrite (L1 2) by lra. replace ((1 * 1 / 2 - 1 * 1 / 2) / h - 0) with 0 by (field; auto). rewrite Rabs_R0. exact Heps.
  - destruct (F4 0%nat) as (f & Hf & HD). { rewrite <- E3. cbn. lia. }
    assert (Q : forall v, f v = v * v / 2).
    { intros v. destruct (Hf v) as (q & q' & Eq & Ee). destruct (ERT t [v] Rt Ht He) as (a & a' & Ea & Eb); [exact E3|]. cbn [upd] in Eq.
      assert (a = q) by congruence. subst a. cbn [nth] in Eb. congruence. }
    assert (HD' : derivable_pt_lim f 1 1).
    { apply (D_ext (fun v => v * v / 2)); [intros; symmetry; auto|]. intros eps Heps. exists (mkposreal eps Heps). intros h Hh0 Hh. cbn [pos] in Hh.
      replace (((1 + h) * (1 + h) / 2 - 1 * 1 / 2) / h - 1) with (h / 2) by (field; auto). unfold Rdiv. rewrite Rabs_mult, (Rabs_pos_eq (/ 2)) by lra.
      pose proof (Rabs_pos h). lra. }
    cbn [nth] in HD. rewrite (uniqueness_limite f 1 _ _ HD HD'). lra.
Qed.

(** ** The hypotheses are met: a network with two limits and a layer without a limit *)
Definition norm_cs (w : nat -> nat -> R) : list command :=
  [SetRegularization (mkReg 0 (/ 10) 4); Add (FullyConnectedLayer 2 TANH true w); SetRegularization (mkReg 0 0 0); Add (FullyConnectedLayer 1 LINEAR false w);
   SetRegularization (mkReg 0 0 1); Add (FullyConnectedLayer 1 TANH true w)].
Example C94_example junk w : exists s, reachable junk 2 1 1 (norm_cs w) s /\ dimension _ s = 10%nat.
Proof. eexists. split; [apply reach_build; [reflexivity|cbn; lia]|reflexivity]. Qed.
(** units with the weights (3, 4) and (1, 1) and the biases 5 and 6, a layer with the weights (7, 8), and a unit with weight -9 and bias 10 *)
Example C94_example_limits w : limitParameters [2; 1; 1]%nat (mkReg 0 0 0) (norm_cs w) [3; 4; 5; 1; 1; 6; 7; 8; -9; 10] =
  [6 / 5; 8 / 5; 5; 1; 1; 6; 7; 8; -1; 10].
Proof.
  unfold norm_cs. cbn [limitParameters layerParams layerOutput limitLayer maxSquaredWeightNorm outputs fold_left Nat.mul Nat.add firstn skipn].
  rewrite (proj2 (Rltb_true 0 4)), (proj2 (Rltb_false 0 0)), (proj2 (Rltb_true 0 1)) by lra. cbn [limitUnits firstn skipn Nat.add app]. unfold limitNorm, squaredNorm. cbn [length rsum nth].
  rewrite (proj2 (Rltb_true 4 _)) by lra. rewrite (proj2 (Rltb_false 4 _)) by lra. rewrite (proj2 (Rltb_true 1 _)) by lra. cbn [map app].
  replace (4 / (0 + 3 * 3 + 4 * 4)) with (2 / 5)² by (unfold Rsqr; field). replace (1 / (0 + -9 * -9)) with (/ 9)² by (unfold Rsqr; field).
  rewrite !sqrt_Rsqr by lra. repeat (f_equal; try field).
Qed.

Print Assumptions C94_limited.
Print Assumptions C94_same_network.
Print Assumptions C94_every_state.
Print Assumptions C94_norm.
Print Assumptions C94_gradient.
Print Assumptions C94_initial_refuted.
Print Assumptions C94_gradient_refuted.
