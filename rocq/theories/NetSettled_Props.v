(** Theorems about reinstalling the current parameters of a network (C58). *)
From Verif Require Import Base BaseFacts Matrix RSum MatOps Vec Activation_Model Layer_Model FC_Model SimpleLayers_Model Conv_Model Pool_Model
  Net_Model NetChain_Proofs Net_Proofs NetBuild_Model NetUse_Spec NetBuild_Proofs Net_Props NetSettled_Proofs NetFixed_Proofs.
Local Open Scope R_scope.

(** ** C58: setParameters(currentParameters()) changes neither outputs nor errors nor parameters, in every state of a
    network without maximal norms: the network already uses the parameters that it
    reports. *)
Theorem C58_set_current_parameters junk d1 d2 d3 cs s x :
  Forall no_max_norm cs -> reachable junk d1 d2 d3 cs s -> dropout _ s = false ->
  cols x = netInputs s -> (0 < rows x)%nat ->
  exists s', setParameters _ s (currentParameters _ s) = Ok s' /\
    currentParameters _ s' = currentParameters _ s /\ dimension _ s' = dimension _ s /\
    errorFunction _ s' = errorFunction _ s /\ trainSet _ s' = trainSet _ s /\
    exists r r' y y', net_apply (kclass junk) s x = Ok (r, y) /\ net_apply (kclass junk) s' x = Ok (r', y') /\
      size_is y (rows x) (netOutputs s) /\ size_is y' (rows x) (netOutputs s) /\
      forall n j, (n < rows x)%nat -> (j < netOutputs s)%nat -> at_ y n j = at_ y' n j.
Proof.
  intros HM HR HD HX HN. pose proof (reachable_usable junk d1 d2 d3 cs s HM HR) as U.
  destruct (set_current junk d1 d2 d3 cs s U (reachable_settled junk d1 d2 d3 cs s HM HR)) as (s' & E & S & G & P1 & P2 & P3 & P4).
  exists s'. split; auto. split; auto. split.
  { unfold dimension. rewrite (g_P _ _ _ _ _ _ _ _ _ G), (g_P _ _ _ _ _ _ _ _ _ (u_good _ _ _ _ _ _ U)).
    rewrite !count_kinds. f_equal. eapply same_kinds; eauto. }
  split; auto. split; auto.
  destruct (outputs_same junk _ _ s' s x G (u_good _ _ _ _ _ _ U) S) as (r' & r & y' & y & A1 & A2 & A3 & A4 & A5); auto; [congruence|apply U|].
  exists r, r', y, y'. repeat (split; auto). intros. symmetry. auto.
Qed.

(** the same for error(n) *)
Theorem C58_error_unchanged junk d1 d2 d3 cs s d n :
  Forall no_max_norm cs -> reachable junk d1 d2 d3 cs s -> dropout _ s = false ->
  trainSet _ s = Some d -> (n < rows (dataIn d))%nat ->
  exists s' q q' v, setParameters _ s (currentParameters _ s) = Ok s' /\
    error_at (kclass junk) s n = Ok (q, v) /\ error_at (kclass junk) s' n = Ok (q', v).
Proof.
  intros HM HR HD Hd Hn. pose proof (reachable_usable junk d1 d2 d3 cs s HM HR) as U. pose proof (u_good _ _ _ _ _ _ U) as G.
  pose proof (u_fits _ _ _ _ _ _ U d Hd) as F. pose proof (u_pos _ _ _ _ _ _ U) as HO.
  destruct (set_current junk d1 d2 d3 cs s U (reachable_settled junk d1 d2 d3 cs s HM HR)) as (s' & E & S & G' & P1 & P2 & P3 & P4).
  destruct (error_at_ok (kclass junk) nI nO nK (nInv junk) (nsmooth junk) (nfn junk) (nrg junk) (nok junk) isIn _ _ s d n G Hd F) as (q & Eq & _); auto.
  destruct (error_at_ok (kclass junk) nI nO nK (nInv junk) (nsmooth junk) (nfn junk) (nrg junk) (nok junk) isIn _ _ s' d n G') as (q' & Eq' & _); auto; [congruence|].
  exists s', q, q'. eexists. split; auto. split; [exact Eq|]. rewrite Eq'. do 2 f_equal. f_equal.
  - rewrite P2. apply rowloss_ext; auto. intros j Hj. unfold netrow. rewrite P2, P3, HD. apply outrow_ext; auto. intros k Hk.
    apply (same_fns (kclass junk) nI nO nK (nInv junk) (nsmooth junk) (nfn junk) (nrg junk) (nok junk) _ _ S (netInputs s) (netOutputs s)); auto; apply G.
  - apply (same_rgs (kclass junk) nO nK (nfn junk) (nrg junk) _ _ S).
Qed.

(** the whole object is the same as before: later calls cannot tell the difference either *)
Theorem C58_set_current_identity junk d1 d2 d3 cs s : Forall no_max_norm cs -> reachable junk d1 d2 d3 cs s ->
  setParameters (kclass junk) s (currentParameters (kclass junk) s) = Ok s.
Proof. apply set_current_same. Qed.

(** ** It is false for networks with a maximal norm: the random weights of a new layer are not rescaled
    until setParameters is called.  One linear unit without bias, weight 2, maximal squared norm 1. *)
Theorem C58_max_norm_refuted :
  exists junk cs s s' r r' y y' x, reachable junk 1 1 1 cs s /\ dropout _ s = false /\ size_is x 1 1 /\
    setParameters _ s (currentParameters _ s) = Ok s' /\
    net_apply (kclass junk) s x = Ok (r, y) /\ net_apply (kclass junk) s' x = Ok (r', y') /\
    at_ y 0 0 = 2 /\ at_ y' 0 0 = 1.
Proof.
  set (z := fun _ _ : nat => 2). set (cs := one z 1 false (mkReg 0 0 1)).
  exists z, cs. do 6 eexists. exists (mkMat 1 1 (fun _ _ => 1)). split. { apply reach_build; [reflexivity|cbn; lia]. }
  split; [reflexivity|]. split; [split; reflexivity|]. split.
  { cbn. unfold setParameters; cbn. unfold mset, mupd. cbn. unfold fc_updatedParameters. cbn. rewrite (proj2 (Rltb_true 0 1)) by lra. cbn.
    match goal with |- context [Rltb 1 ?n] => rewrite (proj2 (Rltb_true 1 n)) by (cbn; unfold z; lra) end. cbn. reflexivity. }
  split; [cbn; reflexivity|]. split; [cbn; reflexivity|]. split; cbn; unfold z; [ring|].
  replace (1 / (0 + 2 * 2)) with (/ 2)² by (unfold Rsqr; field). rewrite sqrt_Rsqr by lra. lra.
Qed.

(** ** The hypotheses are met by a network with all kinds of layers. *)
Example ex_set_current junk w : exists s s' r r' y y', reachable junk 1 6 6 (ex_cs w) s /\ dimension _ s = 65%nat /\
  setParameters _ s (currentParameters _ s) = Ok s' /\
  net_apply (kclass junk) s (dataIn ex_data) = Ok (r, y) /\ net_apply (kclass junk) s' (dataIn ex_data) = Ok (r', y') /\
  at_ y 4 1 = at_ y' 4 1.
Proof.
  destruct (ex_net_reachable junk w) as (s & HR & Hd & HE & HDr & HM & HS & HP).
  destruct (reachable_usable junk 1 6 6 (ex_cs w) s HM HR) as [_ EI _ _ _ F _]. specialize (F _ Hd). destruct F as (F1 & F2 & F3).
  destruct (C58_set_current_parameters junk 1 6 6 (ex_cs w) s (dataIn ex_data) HM HR HDr) as (s' & E & _ & _ & _ & _ & r & r' & y & y' & A1 & A2 & _ & _ & A5); auto.
  { cbn. lia. }
  exists s, s', r, r', y, y'. repeat (split; auto). apply A5; [cbn; lia|]. rewrite <- F2. cbn. lia.
Qed.

Print Assumptions C58_set_current_parameters.
Print Assumptions C58_error_unchanged.
Print Assumptions C58_set_current_identity.
Print Assumptions C58_max_norm_refuted.
