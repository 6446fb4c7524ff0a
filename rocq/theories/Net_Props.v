(** Theorems about networks (C37, C38, C39). *)
From Verif Require Import Base BaseFacts Matrix RSum MatOps Vec Deriv Activation_Model Activation_Proofs
  Layer_Model Layer_Spec LayerFun_Spec FC_Model SimpleLayers_Model Conv_Model Pool_Model
  Net_Model NetChain_Proofs Net_Proofs NetBuild_Model NetUse_Spec NetBuild_Proofs.
Local Open Scope R_scope.

Lemma wired_fun {K} (c : K -> LayerClass) (i o : K -> nat) ls : forall I O O', wired c i o I ls O -> wired c i o I ls O' -> O = O'.
Proof. induction ls as [|l ls IH]; cbn [wired]; intros I O O' H H'; [congruence|]. destruct H, H'. eauto. Qed.

Section Props.
Variables (junk : nat -> nat -> R) (d1 d2 d3 : nat) (cs : list command).
Notation kc := (kclass junk).
Notation reachable := (reachable junk d1 d2 d3 cs).

Notation batch_gradient := (batch_gradient kc nI nO nK (nInv junk) (nsmooth junk) (nfn junk) (nrg junk) (nok junk) isIn (nin junk)).
Notation error_at_ok := (error_at_ok kc nI nO nK (nInv junk) (nsmooth junk) (nfn junk) (nrg junk) (nok junk) isIn).
Notation set_ok := (set_ok kc nI nO nK (nInv junk) (nsmooth junk) (nfn junk) (nrg junk) (nok junk) isIn).
Notation forward_net := (forward_net kc nI nO nK (nInv junk) (nsmooth junk) (nfn junk) (nrg junk) (nok junk) isIn).
Notation netrow := (netrow kc (nfn junk)).
Notation rgs := (rgs kc (nrg junk)).
Notation fns := (fns kc (nfn junk)).
Hypothesis HM : Forall no_max_norm cs.

Lemma rowloss_mse O y t : rowobj MSE O y t = rowloss MSE O y t.
Proof. reflexivity. Qed.

(** ** C37: gradient(n) is the gradient of error(n) with respect to the parameters, for the mean
    squared error: after setParameters(p), component k is the derivative of
    v -> error(n) with parameter k replaced by v.  If dropout is active, all runs use the
    same random numbers. *)
Theorem C37_gradient_exact_mse s d n p :
  reachable s -> trainSet kc s = Some d -> (n < rows (dataIn d))%nat -> errorFunction kc s = MSE ->
  length p = dimension kc s ->
  (forall s1 X, setParameters kc s p = Ok s1 -> batch_of (dataIn d) [n] X -> smooth_at junk (layers kc s1) X (dropout kc s)) ->
  exists s1 s2 g, setParameters kc s p = Ok s1 /\ gradient_at kc junk s1 n = Ok (s2, g) /\ length g = dimension kc s /\
    forall k, (k < dimension kc s)%nat ->
      exists f : R -> R,
        (forall v, exists q q', setParameters kc s (upd p k v) = Ok q /\ error_at kc q n = Ok (q', f v)) /\
        derivable_pt_lim f (nth k p 0) (nth k g 0).
Proof.
  intros HR Hd Hn HE Hp HS. pose proof (reachable_usable junk d1 d2 d3 cs s HM HR) as U.
  pose proof (u_good _ _ _ _ _ _ U) as G. pose proof (u_fits _ _ _ _ _ _ U d Hd) as F.
  destruct (set_ok _ _ s p G Hp) as (ls & Es & _ & _ & _ & _ & G1).
  destruct (batch_gradient junk _ _ s d [n] p (tempGradient kc s) G Hd F) as (s1 & s2 & g & E1 & E2 & Lg & _ & _ & HG); auto.
  { apply (g_grad _ _ _ _ _ _ _ _ _ G). }
  { congruence. }
  { intros s1 X E HB. apply smooth_run_at. eauto. }
  assert (s1 = with_layers kc (with_vector kc s p) ls) by congruence.
  exists s1, (with_gradient kc s2 g), g. split; auto. split.
  { unfold gradient_at. replace (tempGradient kc s1) with (tempGradient kc s) by (subst s1; reflexivity). now rewrite E2. }
  split; auto. intros k Hk. destruct (HG k Hk) as (q & Eq & HD).
  exists (fun v => batchobj kc (nfn junk) (q v) d [n] (netOutputs s) + rgs (layers kc (q v)) / INR (length [n])). split; [|exact HD].
  intros v. assert (Lu : length (upd p k v) = P kc s) by now rewrite upd_length.
  destruct (set_ok _ _ s (upd p k v) G Lu) as (lv & Ev & _ & _ & _ & _ & Gv).
  assert (EQ : q v = with_layers kc (with_vector kc s (upd p k v)) lv) by (pose proof (Eq v); congruence).
  rewrite <- EQ in Gv.
  destruct (error_at_ok _ _ (q v) d n Gv) as (q' & E' & _); auto. { rewrite EQ. exact Hd. }
  { intros _. apply (u_pos _ _ _ _ _ _ U). }
  exists (q v), q'. split; auto. rewrite E'. do 2 f_equal. unfold batchobj. cbn [length rsum nth INR].
  assert (errorFunction kc (q v) = MSE) as -> by (rewrite EQ; exact HE). rewrite rowloss_mse. field.
Qed.

(** for layers without kinks there is nothing to assume about the point *)
Theorem C37_gradient_exact_smooth_layers s d n p :
  Forall always_smooth cs ->
  reachable s -> trainSet kc s = Some d -> (n < rows (dataIn d))%nat -> errorFunction kc s = MSE ->
  length p = dimension kc s ->
  exists s1 s2 g, setParameters kc s p = Ok s1 /\ gradient_at kc junk s1 n = Ok (s2, g) /\ length g = dimension kc s /\
    forall k, (k < dimension kc s)%nat ->
      exists f : R -> R,
        (forall v, exists q q', setParameters kc s (upd p k v) = Ok q /\ error_at kc q n = Ok (q', f v)) /\
        derivable_pt_lim f (nth k p 0) (nth k g 0).
Proof.
  intros HA HR Hd Hn HE Hp. apply (C37_gradient_exact_mse s d n p); auto.
  intros s1 X E _. pose proof (reachable_usable junk d1 d2 d3 cs s HM HR) as U.
  eapply usable_smooth; eauto. eapply usable_set; eauto.
Qed.

(** With the cross entropy, and targets that sum to one, gradient(n) is the gradient of error(n) without
    the 10^-10 that error(n) adds to the outputs before it takes the logarithm.
    Missing: error(n) itself (see C37_cross_entropy_refuted) and targets that do not sum
    to one. *)
Theorem C37_gradient_cross_entropy_partial s d n p :
  reachable s -> trainSet kc s = Some d -> (n < rows (dataIn d))%nat -> errorFunction kc s = CE ->
  rsum (netOutputs s) (at_ (dataOut d) n) = 1 ->
  length p = dimension kc s ->
  (forall s1 X, setParameters kc s p = Ok s1 -> batch_of (dataIn d) [n] X -> smooth_at junk (layers kc s1) X (dropout kc s)) ->
  exists s1 s2 g, setParameters kc s p = Ok s1 /\ gradient_at kc junk s1 n = Ok (s2, g) /\ length g = dimension kc s /\
    forall k, (k < dimension kc s)%nat ->
      exists f : R -> R,
        (forall v, exists q q' q'' e y, setParameters kc s (upd p k v) = Ok q /\ error_at kc q n = Ok (q', e) /\
           net_apply kc q (instance (dataIn d) n) = Ok (q'', y) /\
           (forall j, (j < netOutputs s)%nat -> 0 < at_ y 0 j) /\
           f v = e + rsum (netOutputs s) (fun j => at_ (dataOut d) n j * (ln (at_ y 0 j + / 10 ^ 10) - ln (at_ y 0 j)))) /\
        derivable_pt_lim f (nth k p 0) (nth k g 0).
Proof.
  intros HR Hd Hn HE HT Hp HS. pose proof (reachable_usable junk d1 d2 d3 cs s HM HR) as U.
  pose proof (u_good _ _ _ _ _ _ U) as G. pose proof (u_fits _ _ _ _ _ _ U d Hd) as F. pose proof (u_pos _ _ _ _ _ _ U) as HO.
  destruct (set_ok _ _ s p G Hp) as (ls & Es & _ & _ & _ & _ & G1).
  destruct (batch_gradient junk _ _ s d [n] p (tempGradient kc s) G Hd F) as (s1 & s2 & g & E1 & E2 & Lg & _ & _ & HG); auto.
  { apply (g_grad _ _ _ _ _ _ _ _ _ G). }
  { intros s1 X E HB. apply smooth_run_at. eauto. }
  assert (s1 = with_layers kc (with_vector kc s p) ls) by congruence.
  exists s1, (with_gradient kc s2 g), g. split; auto. split.
  { unfold gradient_at. replace (tempGradient kc s1) with (tempGradient kc s) by (subst s1; reflexivity). now rewrite E2. }
  split; auto. intros k Hk. destruct (HG k Hk) as (q & Eq & HD).
  exists (fun v => batchobj kc (nfn junk) (q v) d [n] (netOutputs s) + rgs (layers kc (q v)) / INR (length [n])). split; [|exact HD].
  intros v. assert (Lu : length (upd p k v) = P kc s) by now rewrite upd_length.
  destruct (set_ok _ _ s (upd p k v) G Lu) as (lv & Ev & _ & _ & _ & _ & Gv).
  assert (EQ : q v = with_layers kc (with_vector kc s (upd p k v)) lv) by (pose proof (Eq v); congruence).
  rewrite <- EQ in Gv.
  destruct (error_at_ok _ _ (q v) d n Gv) as (q' & E' & _); auto. { rewrite EQ. exact Hd. }
  destruct (forward_net _ _ (q v) (instance (dataIn d) n) Gv) as (l2 & Y & Yo & A1 & A2 & A3 & A4 & A5 & A6 & A7 & A8 & A9 & _).
  { apply F. } { intros _. cbn. lia. }
  assert (EF : errorFunction kc (q v) = CE) by (rewrite EQ; exact HE). rewrite EF in *.
  assert (Yj : forall j, (j < netOutputs s)%nat -> at_ Yo 0 j = netrow (q v) (netOutputs s) 0 (at_ (dataIn d) n) j).
  { intros j Hj. rewrite A9 by (simpl; auto). unfold Net_Proofs.netrow. rewrite EF. apply outrow_ext; auto.
    intros i Hi. rewrite A8 by (simpl; auto). reflexivity. }
  do 5 eexists. split; [apply Eq|]. split; [exact E'|]. split; [unfold net_apply; rewrite A5; reflexivity|].
  cbn [Net_Model.tempOutput Net_Model.with_output]. split.
  - intros j Hj. rewrite Yj by auto. unfold Net_Proofs.netrow. rewrite EF. cbn [outrow].
    apply Rmult_lt_0_compat; [apply exp_pos|]. apply Rinv_0_lt_compat. apply rsum_pos; auto. intros. apply exp_pos.
  - unfold batchobj. rewrite EF. cbn [length rsum nth INR rowobj rowloss].
    rewrite (rsum_ext _ (fun j => at_ (dataOut d) n j * (ln (at_ Yo 0 j + / 10 ^ 10) - ln (at_ Yo 0 j)))
      (fun j => at_ (dataOut d) n j * ln (netrow (q v) (netOutputs s) 0 (at_ (dataIn d) n) j + eps10) -
                at_ (dataOut d) n j * ln (netrow (q v) (netOutputs s) 0 (at_ (dataIn d) n) j))).
    2:{ intros j Hj. rewrite Yj by auto. unfold eps10. ring. }
    rewrite rsum_minus. field.
Qed.

(** ** C38: errorGradient over a batch *)
Lemma netrow_rows s O n x j : good kc nI nO nK (nInv junk) isIn (netInputs s) O s -> dropout kc s = false -> (j < O)%nat ->
  netrow s O n x j = netrow s O 0 x j.
Proof.
  intros G HDr Hj. unfold Net_Proofs.netrow. rewrite HDr. apply outrow_ext; auto. intros k Hk.
  apply (fns_rows kc nI nO nK (nInv junk) (nsmooth junk) (nfn junk) (nrg junk) (nok junk) (layers kc s) (netInputs s) O); auto; apply G.
Qed.

(** Without dropout, the value is the mean of the errors of the instances, ... *)
Theorem C38_value_is_mean s d idx grad s' v g :
  reachable s -> trainSet kc s = Some d -> dropout kc s = false -> idx <> [] ->
  errorGradient kc junk s idx grad = Ok (s', v, g) ->
  exists e : nat -> R,
    (forall i, (i < length idx)%nat -> exists q, error_at kc s (nth i idx 0%nat) = Ok (q, e i)) /\
    v = rsum (length idx) e / INR (length idx).
Proof.
  intros HR Hd HDr Hi E. pose proof (reachable_usable junk d1 d2 d3 cs s HM HR) as U.
  pose proof (u_good _ _ _ _ _ _ U) as G. pose proof (u_fits _ _ _ _ _ _ U d Hd) as F. pose proof (u_pos _ _ _ _ _ _ U) as HO.
  destruct (errorGradient_value kc nI nO nK (nInv junk) (nsmooth junk) (nfn junk) (nrg junk) (nok junk) isIn
     junk _ _ s d idx grad s' v g G Hd F HO Hi E) as (Hin & Ev).
  exists (fun i => rowloss (errorFunction kc s) (netOutputs s) (netrow s (netOutputs s) 0 (at_ (dataIn d) (nth i idx 0%nat)))
     (at_ (dataOut d) (nth i idx 0%nat)) + rgs (layers kc s)). split.
  - intros i Hn. destruct (error_at_ok _ _ s d (nth i idx 0%nat) G Hd F) as (q & Eq & _); auto.
    + rewrite Forall_forall in Hin. apply Hin. now apply nth_In.
    + exists q. exact Eq.
  - rewrite Ev. unfold batchloss. rewrite rsum_plus, rsum_const.
    assert (INR (length idx) <> 0) by (apply not_0_INR; destruct idx; [easy|discriminate]).
    rewrite (rsum_ext _ _ (fun i => rowloss (errorFunction kc s) (netOutputs s) (netrow s (netOutputs s) 0 (at_ (dataIn d) (nth i idx 0%nat)))
     (at_ (dataOut d) (nth i idx 0%nat)))).
    + field. auto.
    + intros i Hn. apply rowloss_ext; auto. intros k Hk. now apply netrow_rows.
Qed.

(** ... and error() is the mean of the errors of all instances. *)
Theorem C38_error_is_mean s d :
  reachable s -> trainSet kc s = Some d -> dropout kc s = false ->
  exists s' (e : nat -> R), error kc s = Ok (s', rsum (rows (dataIn d)) (fun n => e n / INR (rows (dataIn d)))) /\
    forall n, (n < rows (dataIn d))%nat -> exists q, error_at kc s n = Ok (q, e n).
Proof.
  intros HR Hd HDr. pose proof (reachable_usable junk d1 d2 d3 cs s HM HR) as U.
  pose proof (u_good _ _ _ _ _ _ U) as G. pose proof (u_fits _ _ _ _ _ _ U d Hd) as F. pose proof (u_pos _ _ _ _ _ _ U) as HO.
  set (O := netOutputs s) in *. set (N := rows (dataIn d)).
  set (e := fun n => rowloss (errorFunction kc s) O (netrow s O 0 (at_ (dataIn d) n)) (at_ (dataOut d) n) + rgs (layers kc s)).
  unfold error, examples. rewrite Hd. fold N.
  destruct (for_inv (fun k (st : net kc * R) => good kc nI nO nK (nInv junk) isIn (netInputs s) O (fst st) /\
      same_net kc nO nK (nfn junk) (nrg junk) (fst st) s /\ snd st = rsum k (fun n => e n / INR N))
     (fun n '(s, e) => ' (s, v) <- error_at kc s n ;; Ok (s, e + v / INR N)) N (s, 0)) as ([s' v] & E & G' & _ & Ev).
  - cbn [fst snd rsum]. split; auto. split; auto. apply same_net_refl.
  - intros k [a x] Hk (Ga & Sa & Ex). cbn [fst snd] in *. pose proof Sa as (S1 & S2 & S3 & S4 & _).
    destruct (error_at_ok _ _ a d k Ga) as (b & Eb & Gb & Sb); auto; [congruence|]. rewrite Eb. cbn [bind].
    eexists. split; [reflexivity|]. cbn [fst snd]. split; auto. split.
    + eapply same_net_trans; eauto.
    + cbn [rsum]. rewrite Ex. do 2 f_equal. unfold e. f_equal.
      * rewrite S2. apply rowloss_ext; auto. intros j Hj. unfold Net_Proofs.netrow. rewrite S2, S3, HDr. apply outrow_ext; auto.
        intros i Hi. apply (same_fns kc nI nO nK (nInv junk) (nsmooth junk) (nfn junk) (nrg junk) (nok junk) _ _ S1 (netInputs s) O); auto; apply G.
      * apply (same_rgs kc nO nK (nfn junk) (nrg junk) _ _ S1).
  - exists s', e. cbn [snd] in Ev. rewrite E, Ev. split; auto.
    intros n Hn. destruct (error_at_ok _ _ s d n G Hd F) as (q & Eq & _); auto. exists q. exact Eq.
Qed.

(** What the gradient of a batch is, for the mean squared error without dropout: error(i) is the sum of
    half of the squared distance and a penalty; errorGradient returns the gradient of the mean of the
    squared distances plus the penalty divided by the size of the batch. *)
Theorem C38_gradient_general_partial s d idx p grad :
  reachable s -> trainSet kc s = Some d -> errorFunction kc s = MSE -> dropout kc s = false ->
  idx <> [] -> Forall (fun n => (n < rows (dataIn d))%nat) idx ->
  length p = dimension kc s -> length grad = dimension kc s ->
  (forall s1 X, setParameters kc s p = Ok s1 -> batch_of (dataIn d) idx X -> smooth_at junk (layers kc s1) X false) ->
  exists s1 s2 e g, setParameters kc s p = Ok s1 /\ errorGradient kc junk s1 idx grad = Ok (s2, e, g) /\ length g = dimension kc s /\
    forall k, (k < dimension kc s)%nat ->
      exists (dist : nat -> R -> R) (penalty : R -> R),
        (forall v, exists q, setParameters kc s (upd p k v) = Ok q /\
           forall i, (i < length idx)%nat -> exists q' q'' y, error_at kc q (nth i idx 0%nat) = Ok (q', dist i v + penalty v) /\
             net_apply kc q (instance (dataIn d) (nth i idx 0%nat)) = Ok (q'', y) /\
             dist i v = rsum (netOutputs s) (fun j => (at_ y 0 j - at_ (dataOut d) (nth i idx 0%nat) j)²) / 2) /\
        (Forall no_penalty cs -> forall v, penalty v = 0) /\
        derivable_pt_lim (fun v => rsum (length idx) (fun i => dist i v) / INR (length idx) + penalty v / INR (length idx))
          (nth k p 0) (nth k g 0).
Proof.
  intros HR Hd HE HDr Hi Hin Hp Hgr HS. pose proof (reachable_usable junk d1 d2 d3 cs s HM HR) as U.
  pose proof (u_good _ _ _ _ _ _ U) as G. pose proof (u_fits _ _ _ _ _ _ U d Hd) as F. pose proof (u_pos _ _ _ _ _ _ U) as HO.
  assert (HN : (0 < length idx)%nat) by (destruct idx; [easy|simpl; lia]).
  destruct (batch_gradient junk _ _ s d idx p grad G Hd F) as (s1 & s2 & g & E1 & E2 & Lg & _ & _ & HG); auto.
  { congruence. }
  { intros s1 X E HB. rewrite HDr. apply smooth_run_at. eauto. }
  exists s1, s2. do 2 eexists. split; auto. split; [exact E2|]. split; auto.
  intros k Hk. destruct (HG k Hk) as (q & Eq & HD).
  assert (Q : forall v, good kc nI nO nK (nInv junk) isIn (netInputs s) (netOutputs s) (q v) /\
     errorFunction kc (q v) = MSE /\ dropout kc (q v) = false /\ trainSet kc (q v) = Some d /\ usable junk d1 d2 d3 cs (q v) /\
     netInputs (q v) = netInputs s).
  { intros v. assert (Lu : length (upd p k v) = P kc s) by now rewrite upd_length.
    destruct (set_ok _ _ s (upd p k v) G Lu) as (lv & Ev & _ & _ & _ & _ & Gv).
    assert (EQ : q v = with_layers kc (with_vector kc s (upd p k v)) lv) by (pose proof (Eq v); congruence).
    assert (Uq : usable junk d1 d2 d3 cs (q v)) by (eapply usable_set; eauto).
    rewrite <- EQ in Gv. rewrite EQ at 2 3 4 6. auto 10. }
  exists (fun i v => rowobj MSE (netOutputs s) (netrow (q v) (netOutputs s) 0 (at_ (dataIn d) (nth i idx 0%nat))) (at_ (dataOut d) (nth i idx 0%nat))),
    (fun v => rgs (layers kc (q v))). split; [|split].
  - intros v. destruct (Q v) as (Gv & Ev & Dv & Tv & Uq & Iv). exists (q v). split; auto. intros i Hn.
    assert (Hr : (nth i idx 0 < rows (dataIn d))%nat) by (rewrite Forall_forall in Hin; apply Hin; now apply nth_In).
    destruct (error_at_ok _ _ (q v) d (nth i idx 0%nat) Gv) as (q' & E' & _); auto.
    destruct (forward_net _ _ (q v) (instance (dataIn d) (nth i idx 0%nat)) Gv) as (l2 & Y & Yo & A1 & A2 & A3 & A4 & A5 & A6 & A7 & A8 & A9 & _).
    { apply F. } { intros _. cbn. lia. }
    exists q'. do 2 eexists. split; [rewrite Ev in E'; exact E'|]. split; [unfold net_apply; rewrite A5; reflexivity|].
    cbn [Net_Model.tempOutput Net_Model.with_output rowobj]. f_equal. apply rsum_ext. intros j Hj. unfold Rsqr.
    rewrite A9 by (simpl; auto).
    assert (Z : netrow (q v) (netOutputs s) 0 (at_ (dataIn d) (nth i idx 0%nat)) j = outrow (errorFunction kc (q v)) (netOutputs s) (at_ Y 0) j).
    { unfold Net_Proofs.netrow. apply outrow_ext; auto. intros m Hm. rewrite A8 by (simpl; auto). reflexivity. }
    now rewrite Z.
  - intros HP v. destruct (Q v) as (_ & _ & _ & _ & Uq & _). eapply usable_noReg; eauto.
  - eapply D_ext; [|exact HD]. intros v. cbn beta. f_equal. unfold batchobj. f_equal. apply rsum_ext. intros i Hn.
    destruct (Q v) as (Gv & Ev & Dv & Tv & Uq & Iv). rewrite Ev. apply rowobj_ext; auto. intros j Hj. apply netrow_rows; auto. now rewrite Iv.
Qed.

(** So it is the gradient of the mean of the errors if the batch has one instance or there are
    no penalties. *)
Theorem C38_gradient_exact_partial s d idx p grad :
  reachable s -> trainSet kc s = Some d -> errorFunction kc s = MSE -> dropout kc s = false ->
  (length idx = 1%nat \/ idx <> [] /\ Forall no_penalty cs) ->
  Forall (fun n => (n < rows (dataIn d))%nat) idx ->
  length p = dimension kc s -> length grad = dimension kc s ->
  (forall s1 X, setParameters kc s p = Ok s1 -> batch_of (dataIn d) idx X -> smooth_at junk (layers kc s1) X false) ->
  exists s1 s2 e g, setParameters kc s p = Ok s1 /\ errorGradient kc junk s1 idx grad = Ok (s2, e, g) /\ length g = dimension kc s /\
    forall k, (k < dimension kc s)%nat ->
      exists err : nat -> R -> R,
        (forall v, exists q, setParameters kc s (upd p k v) = Ok q /\
           forall i, (i < length idx)%nat -> exists q', error_at kc q (nth i idx 0%nat) = Ok (q', err i v)) /\
        derivable_pt_lim (fun v => rsum (length idx) (fun i => err i v) / INR (length idx)) (nth k p 0) (nth k g 0).
Proof.
  intros HR Hd HE HDr Hcase Hin Hp Hgr HS.
  assert (Hi : idx <> []) by (destruct Hcase as [H|(H & _)]; [destruct idx; [discriminate|easy]|auto]).
  destruct (C38_gradient_general_partial s d idx p grad HR Hd HE HDr Hi Hin Hp Hgr HS) as (s1 & s2 & e & g & E1 & E2 & Lg & HG).
  exists s1, s2, e, g. split; auto. split; auto. split; auto. intros k Hk.
  destruct (HG k Hk) as (dist & pen & H1 & H2 & HD). exists (fun i v => dist i v + pen v). split.
  - intros v. destruct (H1 v) as (q & Eq & Hq). exists q. split; auto. intros i Hn. destruct (Hq i Hn) as (q' & q'' & y & A & _).
    exists q'. exact A.
  - eapply D_ext; [|exact HD]. intros v. cbn beta. rewrite rsum_plus, rsum_const.
    assert (INR (length idx) <> 0) by (apply not_0_INR; destruct idx; [easy|discriminate]).
    destruct Hcase as [H3|(_ & H3)].
    + rewrite H3. simpl. field.
    + rewrite (H2 H3). field. auto.
Qed.

(** ** C39: parameters *)
(** The dimension is the sum of the numbers of parameters of the layers. *)
Theorem C39_dimension s : reachable s -> dimension kc s = totalParams [d1; d2; d3] cs.
Proof. intros HR. apply usable_dimension. now apply reachable_usable. Qed.

(** Every sequence of layers in which each layer fits its predecessor can be built. *)
Theorem C39_network_can_be_built : commandsFit [d1; d2; d3] cs ->
  exists s, build junk d1 d2 d3 cs = Ok s /\ netInputs s = (d1 * d2 * d3)%nat /\
    netOutputs s = outputs (finalOutput [d1; d2; d3] cs) /\ errorFunction kc s = MSE /\ dropout kc s = false.
Proof. intros HC. now apply build_ok. Qed.

(** After setParameters(p), currentParameters() returns p, ... *)
Theorem C39_current_parameters s p :
  reachable s -> length p = dimension kc s ->
  exists s', setParameters kc s p = Ok s' /\ currentParameters kc s' = p /\ dimension kc s' = dimension kc s.
Proof.
  intros HR Hp. pose proof (reachable_usable junk d1 d2 d3 cs s HM HR) as U.
  destruct (set_ok _ _ s p (u_good _ _ _ _ _ _ U) Hp) as (ls & E & _). eexists. split; [exact E|]. auto.
Qed.

(** ... and in every state, number k of currentParameters() is the value of the coefficient of a layer to which
    pointer k points; calls other than setParameters do not change them. *)
Theorem C39_pointers s k : reachable s -> (k < dimension kc s)%nat ->
  length (parameters kc s) = dimension kc s /\ length (currentParameters kc s) = dimension kc s /\
  exists ptr, vget (parameters kc s) k = Ok ptr /\ vget (derivatives kc s) k = Ok ptr /\
    loadParam kc (layers kc s) ptr = Ok (nth k (currentParameters kc s) 0).
Proof.
  intros HR Hk. pose proof (reachable_usable junk d1 d2 d3 cs s HM HR) as U. pose proof (u_good _ _ _ _ _ _ U) as G.
  pose proof G as [H1 H2 H3 H4 H5 H6 H7 H8].
  split; [|split; [apply (u_vector _ _ _ _ _ _ U)|]].
  - rewrite H4, (ptrs_length kc nK). symmetry. apply H6.
  - destruct (load_ptrs kc nK (layers kc s) [] k) as (ptr & E1 & E2 & _). { rewrite <- H6. exact Hk. }
    exists ptr. rewrite H4, H5. split; auto. split; auto. cbn [app] in E2. rewrite E2. now apply (u_read _ _ _ _ _ _ U).
Qed.

(** The outputs are determined by the parameters: whatever has been done with two networks that were built in
    the same way, after setParameters(p) both return the same outputs (without dropout). *)
Theorem C39_outputs_determined s s' p q q' x :
  reachable s -> reachable s' -> length p = dimension kc s ->
  setParameters kc s p = Ok q -> setParameters kc s' p = Ok q' ->
  errorFunction kc s = errorFunction kc s' -> dropout kc s = false -> dropout kc s' = false ->
  cols x = netInputs s -> (0 < rows x)%nat ->
  exists r r' y y', net_apply kc q x = Ok (r, y) /\ net_apply kc q' x = Ok (r', y') /\
    size_is y (rows x) (netOutputs s) /\ size_is y' (rows x) (netOutputs s) /\
    forall n j, (n < rows x)%nat -> (j < netOutputs s)%nat -> at_ y n j = at_ y' n j.
Proof.
  intros HR HR' Hp E E' HE HD1 HD2 HX HN.
  pose proof (reachable_usable junk d1 d2 d3 cs s HM HR) as U. pose proof (reachable_usable junk d1 d2 d3 cs s' HM HR') as U'.
  pose proof (u_good _ _ _ _ _ _ U) as G. pose proof (u_good _ _ _ _ _ _ U') as G'.
  assert (EP : P kc s' = P kc s) by (rewrite (usable_dimension _ _ _ _ _ _ U), (usable_dimension _ _ _ _ _ _ U'); auto).
  assert (EO : netOutputs s' = netOutputs s).
  { pose proof (g_wired _ _ _ _ _ _ _ _ _ G) as W. pose proof (g_wired _ _ _ _ _ _ _ _ _ G') as W'.
    assert (M : map (lkind kc) (layers kc s') = map (lkind kc) (layers kc s)).
    { rewrite (u_kinds _ _ _ _ _ _ U), (u_kinds _ _ _ _ _ _ U'); auto. }
    apply (map_kind_wired kc nI nO _ _ M) in W.
    rewrite (u_inputs _ _ _ _ _ _ U) in W. rewrite (u_inputs _ _ _ _ _ _ U') in W'.
    eapply wired_fun; eauto. }
  assert (EI : netInputs s' = netInputs s) by (rewrite (u_inputs _ _ _ _ _ _ U), (u_inputs _ _ _ _ _ _ U'); auto).
  rewrite EO, EI in G'.
  destruct (set_ok _ _ s p G Hp) as (ls & E1 & I1 & V1 & M1 & R1 & G1).
  destruct (set_ok _ _ s' p G') as (ls' & E2 & I2 & V2 & M2 & R2 & G2). { unfold dimension in Hp. congruence. }
  rewrite E in E1. injection E1 as ->. rewrite E' in E2. injection E2 as ->.
  assert (SL : same_layers kc nO nK (nfn junk) (nrg junk) ls ls').
  { apply (installAll_same kc nI nO nK (nInv junk) (nsmooth junk) (nfn junk) (nrg junk) (nok junk) (layers kc s) (layers kc s') p); auto; try apply G; try apply G'.
    - rewrite (u_kinds _ _ _ _ _ _ U), (u_kinds _ _ _ _ _ _ U'); auto.
    - rewrite <- (g_P _ _ _ _ _ _ _ _ _ G). exact Hp. }
  pose proof (u_pos _ _ _ _ _ _ U) as HO.
  destruct (forward_net _ _ _ x G1 HX) as (la & Y & Yo & A1 & A2 & A3 & A4 & A5 & A6 & A7 & A8 & A9 & _); [auto|].
  destruct (forward_net _ _ _ x G2 HX) as (lb & Z & Zo & B1 & B2 & B3 & B4 & B5 & B6 & B7 & B8 & B9 & _); [auto|].
  do 4 eexists. split; [unfold net_apply; rewrite A5; reflexivity|]. split; [unfold net_apply; rewrite B5; reflexivity|].
  cbn [Net_Model.tempOutput Net_Model.with_output]. split; auto. split; auto.
  intros n j Hn Hj. rewrite A9, B9 by auto.
  cbn [Net_Model.errorFunction Net_Model.with_layers Net_Model.with_vector]. rewrite <- HE. apply outrow_ext; auto.
  intros k Hk. rewrite A8, B8 by auto.
  cbn [Net_Model.layers Net_Model.with_layers Net_Model.with_vector Net_Model.dropout]. rewrite HD1, HD2.
  apply (same_fns kc nI nO nK (nInv junk) (nsmooth junk) (nfn junk) (nrg junk) (nok junk) _ _ SL (netInputs s) (netOutputs s)); auto; apply G2.
Qed.
End Props.

(** * Networks with one layer, for the counterexamples *)
Section One.
Variables (junk w : nat -> nat -> R) (J : nat) (bias : bool) (reg : Regularization).
Notation kc := (kclass junk).
Definition one : list command := [SetRegularization reg; Add (FullyConnectedLayer J LINEAR bias w)].

Lemma one_layers s : usable junk 1 1 1 one s -> maxSquaredWeightNorm reg <= 0 ->
  exists o1 o2, layers kc s = [mkLayer kc (KInput 1) o1; mkLayer kc (KFullyConnected 1 J bias LINEAR reg) o2] /\
    FC_Proofs.fc_inv 1 J bias LINEAR reg o2 /\
    forall k, (k < J * FC_Proofs.unitParams 1 bias)%nat -> readParam (fc_class junk) o2 k = Ok (nth k (parameterVector kc s) 0).
Proof.
  intros U Hm. pose proof (u_kinds _ _ _ _ _ _ U) as M. pose proof (u_good _ _ _ _ _ _ U) as G. pose proof (u_read _ _ _ _ _ _ U) as RD.
  pose proof (g_invs _ _ _ _ _ _ _ _ _ G) as V. pose proof (g_P _ _ _ _ _ _ _ _ _ G) as HP. rewrite HP in RD. clear HP G U.
  destruct (layers kc s) as [|[k1 o1] [|[k2 o2] [|]]]; try discriminate M.
  cbn [map lkind one kindsOf kindOf fst snd] in M. injection M as -> ->.
  exists o1, o2. split; auto. inversion V as [|? ? V1 V2]; subst. inversion V2 as [|? ? V3 V4]; subst.
  split; [apply V3|]. intros k Hk. rewrite <- (RD k).
  - cbn [readP lkind nK lobj]. rewrite Nat.sub_0_r. change (Nat.ltb k 0) with false. cbn iota.
    apply Nat.ltb_lt in Hk. cbn [outputs fold_left Nat.mul Nat.add]. now rewrite Hk.
  - cbn [count lkind nK]. cbn [outputs fold_left Nat.mul Nat.add]. lia.
Qed.

(** the output of the layer *)
Lemma one_fns s x dr n j : usable junk 1 1 1 one s -> maxSquaredWeightNorm reg <= 0 -> bias = false -> (J <= 2)%nat -> (j < J)%nat ->
  fns kc (nfn junk) (layers kc s) dr n x j = x 0%nat * nth j (parameterVector kc s) 0.
Proof.
  intros U Hm Hb HJ Hj. destruct (one_layers s U Hm) as (o1 & o2 & -> & (I1 & I2 & I3 & I4 & I5 & (I6 & I7) & _) & RD).
  rewrite Hb in *. assert (W : at_ (fW o2) j 0 = nth j (parameterVector kc s) 0).
  { assert (Ej : (j < J * FC_Proofs.unitParams 1 false)%nat) by (unfold FC_Proofs.unitParams; lia). specialize (RD j Ej).
    unfold readParam in RD. cbn [initialize fc_class] in RD. unfold fc_initialize in RD. rewrite I1, I2, I3 in RD. cbn [fst] in RD.
    assert (V : vget (flat_map (fun j => map (LW j) (seq 0 1) ++ []) (seq 0 J)) j = Ok (LW j 0)).
    { destruct J as [|[|[|J']]]; destruct j as [|[|j']]; try lia; reflexivity. }
    assert (RD2 : (l <- vget (flat_map (fun j => map (LW j) (seq 0 1) ++ []) (seq 0 J)) j ;; fc_load o2 l) = Ok (nth j (parameterVector kc s) 0)) by exact RD.
    clear RD. rename RD2 into RD. rewrite V in RD. cbn [bind fc_load] in RD. unfold mget in RD. destruct (inside (fW o2) j 0); [now injection RD|discriminate RD]. }
  cbn [fns lkind lobj nfn]. unfold NetLayers_Proofs.fc_fn. cbn. rewrite W. ring.
Qed.
Lemma one_rgs s : usable junk 1 1 1 one s -> maxSquaredWeightNorm reg <= 0 -> bias = false -> J = 1%nat ->
  rgs kc (nrg junk) (layers kc s) = regError reg (mkMat 1 1 (fun _ _ => nth 0 (parameterVector kc s) 0)).
Proof.
  intros U Hm Hb HJ. destruct (one_layers s U Hm) as (o1 & o2 & -> & (I1 & I2 & I3 & I4 & I5 & (I6 & I7) & _) & RD).
  rewrite Hb, HJ in *. assert (W : at_ (fW o2) 0 0 = nth 0 (parameterVector kc s) 0).
  { specialize (RD 0%nat ltac:(cbn; lia)).
    unfold readParam in RD. cbn [initialize fc_class] in RD. unfold fc_initialize in RD. rewrite I1, I2, I3 in RD. cbn in RD.
    unfold mget in RD. destruct (inside (fW o2) 0 0); [now injection RD|discriminate RD]. }
  cbn [rgs lkind lobj nrg]. unfold NetLayers_Proofs.fc_rg. rewrite Rplus_0_l, Rplus_0_r.
  unfold regError, msum, mmap. cbn [rows cols at_]. rewrite I6, I7. cbn [rsum]. now rewrite W.
Qed.
End One.

(** ** C37 is false for the cross entropy: error(n) adds 10^-10 to the outputs but its gradient
    does not.  Two linear units without bias, input 1, target (1, 0), all weights 0. *)
Theorem C37_cross_entropy_refuted :
  exists junk cs s d p s1 s2 g (f : R -> R) l,
    Forall no_max_norm cs /\ Forall always_smooth cs /\ Forall no_penalty cs /\ reachable junk 1 1 1 cs s /\
    trainSet _ s = Some d /\ errorFunction _ s = CE /\ rsum (netOutputs s) (at_ (dataOut d) 0) = 1 /\ length p = dimension _ s /\
    setParameters _ s p = Ok s1 /\ gradient_at _ junk s1 0 = Ok (s2, g) /\
    (forall v, exists q q', setParameters _ s (upd p 0 v) = Ok q /\ error_at _ q 0 = Ok (q', f v)) /\
    derivable_pt_lim f (nth 0 p 0) l /\ l <> nth 0 g 0.
Proof.
  set (z := fun _ _ : nat => 0). set (r0 := mkReg 0 0 0). set (cs := one z 2 false r0).
  assert (HM : Forall no_max_norm cs) by (repeat constructor; simpl; lra).
  assert (B : exists s0, build z 1 1 1 cs = Ok s0 /\ netOutputs s0 = 2%nat /\ netInputs s0 = 1%nat) by (eexists; repeat split; reflexivity).
  destruct B as (s0 & B & BO & BI).
  set (d := mkData (mkMat 1 1 (fun _ _ => 1)) (mkMat 1 2 (fun _ j => if Nat.eqb j 0 then 1 else 0))).
  set (s := trainingSet (kclass z) (setErrorFunction (kclass z) s0 CE) d).
  assert (HR : reachable z 1 1 1 cs s).
  { apply reach_call with (setErrorFunction (kclass z) s0 CE).
    - apply reach_call with s0; [apply reach_build; auto; lia|constructor].
    - constructor. unfold fits. cbn. auto. }
  pose proof (reachable_usable z 1 1 1 cs s HM HR) as U.
  pose proof (u_good _ _ _ _ _ _ U) as G.
  assert (HP : P (kclass z) s = 2%nat) by exact (usable_dimension _ _ _ _ _ _ U).
  assert (EO : netOutputs s = 2%nat) by exact BO. assert (EI : netInputs s = 1%nat) by exact BI.
  assert (F : data_fits d (netInputs s) (netOutputs s)) by (unfold data_fits; rewrite EO, EI; cbn; auto).
  destruct (Net_Proofs.batch_gradient (kclass z) nI nO nK (nInv z) (nsmooth z) (nfn z) (nrg z) (nok z) isIn (nin z) z _ _ s d [0%nat] [0; 0] (tempGradient (kclass z) s) G)
    as (s1 & s2 & g & E1 & E2 & Lg & _ & _ & HG); auto.
  { apply (g_grad _ _ _ _ _ _ _ _ _ G). }
  { intros _. rewrite EO. split; [lia|]. constructor; auto. cbn. ring. }
  { intros s1 X E HB. apply smooth_run_at. apply (usable_smooth z 1 1 1 cs).
    - eapply usable_set; [exact U| |exact E]. auto.
    - repeat constructor; simpl; lra. }
  assert (Et : tempGradient (kclass z) s1 = tempGradient (kclass z) s).
  { destruct (set_ok (kclass z) nI nO nK (nInv z) (nsmooth z) (nfn z) (nrg z) (nok z) isIn _ _ s [0; 0] G) as (ls & Es & _); auto.
    rewrite E1 in Es. injection Es as ->. reflexivity. }
  destruct (HG 0%nat) as (q & Eq & HD); [lia|].
  assert (Q : forall v, usable z 1 1 1 cs (q v) /\ errorFunction (kclass z) (q v) = CE /\ parameterVector (kclass z) (q v) = [v; 0] /\ trainSet (kclass z) (q v) = Some d /\
     netOutputs (q v) = 2%nat /\ netInputs (q v) = 1%nat).
  { intros v. destruct (set_ok (kclass z) nI nO nK (nInv z) (nsmooth z) (nfn z) (nrg z) (nok z) isIn _ _ s [v; 0] G) as (ls & Es & _); auto.
    assert (EQ : q v = with_layers (kclass z) (with_vector (kclass z) s [v; 0]) ls) by (pose proof (Eq v); cbn in *; congruence).
    split; [eapply usable_set; [exact U| |apply Eq]; now rewrite upd_length|]. rewrite EQ. auto 10. }
  set (sm := fun v => exp v / (exp v + 1)).
  assert (NR : forall v j, (j < 2)%nat -> netrow (kclass z) (nfn z) (q v) 2 0 (fun _ => 1) j = if Nat.eqb j 0 then sm v else 1 / (exp v + 1)).
  { intros v j Hj. destruct (Q v) as (Uq & Ef & Ep & _). unfold netrow. rewrite Ef. cbn [outrow rsum].
    rewrite !(one_fns z z 2 false r0 (q v)) by (auto; cbn; lra || lia). rewrite Ep. cbn [nth].
    replace (1 * v) with v by ring. replace (1 * 0) with 0 by ring. rewrite exp_0, Rplus_0_l.
    destruct j as [|[|]]; [| |lia]; cbn [nth Nat.eqb]; unfold sm; rewrite ?Rmult_1_l, ?exp_0; reflexivity. }
  assert (RG : forall v, rgs (kclass z) (nrg z) (layers (kclass z) (q v)) = 0).
  { intros v. destruct (Q v) as (Uq & _). apply (usable_noReg z 1 1 1 cs); auto. repeat constructor; auto. }
  assert (Hexp : forall v, exp v + 1 <> 0) by (intros v; pose proof (exp_pos v); lra).
  assert (Dsm : D sm 0 (1 / 4)).
  { unfold sm. eapply D_eq; [|apply (D_div exp (fun v => exp v + 1))].
    2:{ apply (D_exp (fun v => v)), D_id. } 2:{ apply D_plus; [apply (D_exp (fun v => v)), D_id|apply D_const]. } 2:{ apply Hexp. }
    rewrite exp_0. unfold Rsqr. field. }
  assert (S0 : sm 0 = / 2) by (unfold sm; rewrite exp_0; field).
  (* the gradient *)
  assert (Hg : nth 0 g 0 = - (1 / 2)).
  { apply (D_unique (fun v => - ln (sm v)) 0).
    - eapply D_ext; [|exact HD]. intros v. cbn beta. rewrite RG. unfold batchobj. rewrite EO.
      destruct (Q v) as (_ & Ef & _). rewrite Ef. cbn [length rsum nth INR rowobj].
      change (at_ (dataIn d) 0) with (fun _ : nat => 1). rewrite !NR by lia. cbn. field.
    - eapply D_eq; [|apply D_opp; apply (D_ln sm); [exact Dsm|rewrite S0; lra]]. rewrite S0. field. }
  exists z, cs, s, d, [0; 0], s1, (with_gradient (kclass z) s2 g), g, (fun v => - ln (sm v + eps10)), (- (/ (sm 0 + eps10) * (1 / 4))).
  split; auto. split; [repeat constructor; simpl; lra|]. split; [repeat constructor; auto|]. split; auto. split; auto. split; auto.
  split; [rewrite EO; cbn; ring|]. split; auto. split; auto.
  split. { unfold gradient_at.  rewrite Et, E2. reflexivity. }
  split.
  { intros v. destruct (Q v) as (Uq & Ef & Ep & Et' & EOq & EIq).
    pose proof (u_good _ _ _ _ _ _ Uq) as Gq. rewrite EOq, EIq in Gq. rewrite EO, EI in F.
    destruct (error_at_ok (kclass z) nI nO nK (nInv z) (nsmooth z) (nfn z) (nrg z) (nok z) isIn 1 2 (q v) d 0 Gq Et' F) as (q' & E' & _); [cbn; lia|lia|].
    exists (q v), q'. split; [apply Eq|].  rewrite E'. do 2 f_equal. rewrite RG, Ef. cbn [rowloss rsum].
    change (at_ (dataIn d) 0) with (fun _ : nat => 1). rewrite !NR by lia. cbn. ring. }
  assert (He : 0 < eps10) by (unfold eps10; apply Rinv_0_lt_compat; apply pow_lt; lra).
  split.
  - apply D_opp. apply (D_ln (fun v => sm v + eps10)).
    + eapply D_eq; [|apply D_plus; [exact Dsm|apply D_const]]. ring.
    + cbn [nth]. rewrite S0. lra.
  - rewrite Hg, S0. intros E. assert (X : / (/ 2 + eps10) = 2) by lra.
    assert (Y : (/ 2 + eps10) * / (/ 2 + eps10) = 1) by (apply Rinv_r; lra). rewrite X in Y. lra.
Qed.

(** ** C38 is false for the gradient if there is a penalty and the batch has more than one instance: the
    gradient of the penalty is divided by the size of the batch, the penalty itself is not.  One linear unit
    without bias, L2 penalty 1, two instances with input 0 and target 0, weight 1. *)
Theorem C38_gradient_refuted :
  exists junk cs s d idx p grad s1 s2 e g (err : nat -> R -> R) l,
    Forall no_max_norm cs /\ Forall always_smooth cs /\ reachable junk 1 1 1 cs s /\
    trainSet _ s = Some d /\ errorFunction _ s = MSE /\ dropout _ s = false /\
    idx = [0%nat; 1%nat] /\ rows (dataIn d) = 2%nat /\ length p = dimension _ s /\ length grad = dimension _ s /\
    setParameters _ s p = Ok s1 /\ errorGradient _ junk s1 idx grad = Ok (s2, e, g) /\
    (forall v, exists q, setParameters _ s (upd p 0 v) = Ok q /\
       forall i, (i < length idx)%nat -> exists q', error_at _ q (nth i idx 0%nat) = Ok (q', err i v)) /\
    derivable_pt_lim (fun v => rsum (length idx) (fun i => err i v) / INR (length idx)) (nth 0 p 0) l /\
    l <> nth 0 g 0.
Proof.
  set (z := fun _ _ : nat => 0). set (r0 := mkReg 0 1 0). set (cs := one z 1 false r0).
  assert (HM : Forall no_max_norm cs) by (repeat constructor; simpl; lra).
  assert (B : exists s0, build z 1 1 1 cs = Ok s0 /\ netOutputs s0 = 1%nat /\ netInputs s0 = 1%nat /\
     errorFunction _ s0 = MSE /\ dropout _ s0 = false) by (eexists; repeat split; reflexivity).
  destruct B as (s0 & B & BO & BI & BE & BD).
  set (d := mkData (mkMat 2 1 (fun _ _ => 0)) (mkMat 2 1 (fun _ _ => 0))).
  set (s := trainingSet (kclass z) s0 d).
  assert (HR : reachable z 1 1 1 cs s).
  { apply reach_call with s0; [apply reach_build; auto; lia|]. constructor. unfold fits. cbn. auto. }
  pose proof (reachable_usable z 1 1 1 cs s HM HR) as U.
  pose proof (u_good _ _ _ _ _ _ U) as G.
  assert (HP : P (kclass z) s = 1%nat) by exact (usable_dimension _ _ _ _ _ _ U).
  assert (EO : netOutputs s = 1%nat) by exact BO. assert (EI : netInputs s = 1%nat) by exact BI.
  assert (EE : errorFunction (kclass z) s = MSE) by exact BE.
  assert (F : data_fits d (netInputs s) (netOutputs s)) by (unfold data_fits; rewrite EO, EI; cbn; auto).
  assert (Hsm : Forall always_smooth cs) by (repeat constructor; simpl; lra).
  destruct (Net_Proofs.batch_gradient (kclass z) nI nO nK (nInv z) (nsmooth z) (nfn z) (nrg z) (nok z) isIn (nin z) z _ _ s d [0; 1]%nat [1] [0] G)
    as (s1 & s2 & g & E1 & E2 & Lg & _ & _ & HG); auto.
  { cbn. lia. }
  { repeat constructor. }
  { intros HC. discriminate (eq_trans (eq_sym EE) HC). }
  { intros s1 X E HB. apply smooth_run_at. apply (usable_smooth z 1 1 1 cs); auto.
    eapply usable_set; [exact U| |exact E]. auto. }
  destruct (HG 0%nat) as (q & Eq & HD); [lia|].
  assert (Q : forall v, usable z 1 1 1 cs (q v) /\ errorFunction (kclass z) (q v) = MSE /\ parameterVector (kclass z) (q v) = [v] /\ trainSet (kclass z) (q v) = Some d /\
     netOutputs (q v) = 1%nat /\ netInputs (q v) = 1%nat).
  { intros v. destruct (set_ok (kclass z) nI nO nK (nInv z) (nsmooth z) (nfn z) (nrg z) (nok z) isIn _ _ s [v] G) as (ls & Es & _); auto.
    assert (EQ : q v = with_layers (kclass z) (with_vector (kclass z) s [v]) ls) by (pose proof (Eq v); cbn in *; congruence).
    split; [eapply usable_set; [exact U| |apply Eq]; now rewrite upd_length|]. rewrite EQ. auto 10. }
  assert (NR : forall v n j, (j < 1)%nat -> netrow (kclass z) (nfn z) (q v) 1 n (fun _ => 0) j = 0).
  { intros v n j Hj. destruct (Q v) as (Uq & Ef & Ep & _). unfold netrow. rewrite Ef. cbn [outrow].
    rewrite (one_fns z z 1 false r0 (q v)) by (auto; cbn; lra || lia). ring. }
  assert (RG : forall v, rgs (kclass z) (nrg z) (layers (kclass z) (q v)) = v * v / 2).
  { intros v. destruct (Q v) as (Uq & _ & Ep & _). rewrite (one_rgs z z 1 false r0 (q v)) by (auto; cbn; lra). rewrite Ep.
    unfold regError. cbn. rewrite ?(proj2 (Rltb_true 0 1)) by lra. rewrite ?(proj2 (Rltb_false 0 0)) by lra. field. }
  assert (D2 : forall c, D (fun v => c * (v * v)) 1 (2 * c)).
  { intros c. eapply D_eq; [|apply D_scal, D_mult; apply D_id]. cbn beta. ring. }
  assert (Hg : nth 0 g 0 = 1 / 2).
  { apply (D_unique (fun v => / 4 * (v * v)) 1).
    - eapply D_ext; [|exact HD]. intros v. cbn beta. rewrite RG. unfold batchobj. rewrite EO.
      destruct (Q v) as (_ & Ef & _). rewrite Ef. cbn [length rsum nth INR rowobj].
      change (at_ (dataIn d) 0) with (fun _ : nat => 0). change (at_ (dataIn d) 1) with (fun _ : nat => 0). rewrite !NR by lia. cbn. field.
    - eapply D_eq; [|apply D2]. field. }
  exists z, cs, s, d, [0%nat; 1%nat], [1], [0], s1, s2. do 2 eexists. exists (fun _ v => / 2 * (v * v)), 1.
  split; auto. split; auto. split; auto. split; auto. split; auto. split; auto. split; auto. split; auto. split; auto. split; auto.
  split; auto. split; [exact E2|]. split; [|split].
  - intros v. destruct (Q v) as (Uq & Ef & Ep & Et' & EOq & EIq). exists (q v). split; [apply Eq|]. intros i Hi.
    pose proof (u_good _ _ _ _ _ _ Uq) as Gq. rewrite EOq, EIq in Gq. rewrite EO, EI in F.
    destruct (error_at_ok (kclass z) nI nO nK (nInv z) (nsmooth z) (nfn z) (nrg z) (nok z) isIn 1 1 (q v) d (nth i [0; 1] 0)%nat Gq Et' F) as (q' & E' & _);
      [cbn [length] in Hi; destruct i as [|[|]]; cbn; lia|lia|].
    exists q'. rewrite E'. do 2 f_equal. rewrite RG, Ef. cbn [rowloss rsum].
    change (at_ (dataIn d) (nth i [0; 1] 0)%nat) with (fun _ : nat => 0). rewrite !NR by lia. cbn. field.
  - eapply D_ext; [|eapply D_eq; [|apply (D2 (/2))]]; [|field]. intros v. cbn. field.
  - rewrite Hg. lra.
Qed.

(** ** C39 needs no_max_norm: a layer that rescales the weights changes the coefficients
    but not the vector that currentParameters() returns. *)
Theorem C39_max_norm_refuted :
  exists junk cs s p s' ptr v,
    reachable junk 1 1 1 cs s /\ length p = dimension _ s /\ setParameters _ s p = Ok s' /\
    vget (parameters _ s') 0 = Ok ptr /\ loadParam _ (layers _ s') ptr = Ok v /\
    currentParameters _ s' = p /\ v <> nth 0 (currentParameters _ s') 0.
Proof.
  set (z := fun _ _ : nat => 0). set (cs := one z 1 false (mkReg 0 0 1)).
  exists z, cs. eexists. exists [2]. do 3 eexists. split. { apply reach_build; [reflexivity|cbn; lia]. }
  split; [reflexivity|]. split. { cbn.
unfold setParameters; cbn. unfold mset, mupd. cbn. unfold fc_updatedParameters. cbn. rewrite (proj2 (Rltb_true 0 1)) by lra. cbn. match goal with |- context [Rltb 1 ?n] => rewrite (proj2 (Rltb_true 1 n)) by (cbn; lra) end. cbn. reflexivity. } split; [reflexivity|]. split; [cbn; unfold mget, inside, mrow_map; cbn; reflexivity|]. split; [reflexivity|]. cbn.
  replace (1 / (0 + 2 * 2)) with (/ 2)² by (unfold Rsqr; field). rewrite sqrt_Rsqr by lra. lra.
Qed.

(** ** The hypotheses are met: a network with all kinds of layers that are differentiable everywhere, with
    penalties, and a training set with five instances *)
Definition ex_cs (w : nat -> nat -> R) : list command :=
  [SetRegularization (mkReg 0 (/ 10) 0); Add (ConvolutionalLayer 2 3 3 TANH true w); Add (SubsamplingLayer 2 2 TANH_SCALED true w);
   Add (DropoutLayer (/ 2) (fun _ => w)); Add (CompressedLayer 3 2 TANH true w w); Add (ExtremeLayer 4 TANH true w);
   Add (SparseAutoEncoderLayer 3 3 (1 / 10) TANH w); Add (FullyConnectedLayer 2 LINEAR true w)].
Definition ex_data : trainData := mkData (mkMat 5 36 (fun n j => INR (n * j))) (mkMat 5 2 (fun n j => if Nat.eqb n j then 1 else 0)).

Example ex_net_reachable junk w : exists s, reachable junk 1 6 6 (ex_cs w) s /\ trainSet _ s = Some ex_data /\
  errorFunction _ s = MSE /\ dropout _ s = false /\ Forall no_max_norm (ex_cs w) /\ Forall always_smooth (ex_cs w) /\
  dimension _ s = 65%nat.
Proof.
  assert (HM : Forall no_max_norm (ex_cs w)) by (repeat constructor; simpl; lra).
  destruct (C39_network_can_be_built junk 1 6 6 (ex_cs w) HM) as (s0 & B & BI & BO & BE & BD). { cbn. lia. }
  assert (HR : reachable junk 1 6 6 (ex_cs w) s0) by (apply reach_build; auto; rewrite BO; cbn; lia).
  exists (trainingSet (kclass junk) s0 ex_data). split; [|split; [|split; [|split; [|split; [|split]]]]]; auto.
  - apply reach_call with s0; auto. constructor. unfold fits. rewrite BI, BO. cbn. auto.
  - repeat constructor; simpl; lra.
  - change (dimension (kclass junk) s0 = 65%nat). rewrite (C39_dimension junk 1 6 6 (ex_cs w) HM s0 HR). reflexivity.
Qed.

(** ... so there is a gradient that is exact at every point. *)
Example ex_net_gradient junk w p : length p = 65%nat ->
  exists s s1 s2 g, reachable junk 1 6 6 (ex_cs w) s /\ setParameters (kclass junk) s p = Ok s1 /\ gradient_at _ junk s1 3 = Ok (s2, g) /\ length g = 65%nat.
Proof.
  intros Hp. destruct (ex_net_reachable junk w) as (s & HR & Hd & HE & _ & HM & HS & HP).
  destruct (C37_gradient_exact_smooth_layers junk 1 6 6 (ex_cs w) HM s ex_data 3 p HS HR Hd) as (s1 & s2 & g & E1 & E2 & L & _); auto.
  - cbn. lia.
  - congruence.
  - exists s, s1, s2, g. split; auto. split; auto. split; auto. congruence.
Qed.

(** ... and a batch *)
Example ex_net_batch junk w p : length p = 65%nat ->
  exists s s1 s2 e g, reachable junk 1 6 6 (ex_cs w) s /\ setParameters (kclass junk) s p = Ok s1 /\
    errorGradient _ junk s1 [4; 0; 4]%nat (repeat 0 65) = Ok (s2, e, g) /\ length g = 65%nat.
Proof.
  intros Hp. destruct (ex_net_reachable junk w) as (s & HR & Hd & HE & HDr & HM & HS & HP).
  destruct (C38_gradient_general_partial junk 1 6 6 (ex_cs w) HM s ex_data [4; 0; 4]%nat p (repeat 0 65) HR Hd HE HDr)
    as (s1 & s2 & e & g & E1 & E2 & L & _).
  - discriminate.
  - repeat constructor.
  - congruence.
  - now rewrite HP.
  - intros s1 X E _. apply (usable_smooth junk 1 6 6 (ex_cs w)); auto.
    apply (usable_set junk 1 6 6 (ex_cs w) s p); [apply reachable_usable; auto|rewrite Hp; symmetry; exact HP|exact E].
  - exists s, s1, s2, e, g. split; auto. split; auto. split; auto. congruence.
Qed.

Print Assumptions C37_gradient_exact_mse.
Print Assumptions C37_gradient_exact_smooth_layers.
Print Assumptions C37_gradient_cross_entropy_partial.
Print Assumptions C37_cross_entropy_refuted.
Print Assumptions C38_value_is_mean.
Print Assumptions C38_error_is_mean.
Print Assumptions C38_gradient_general_partial.
Print Assumptions C38_gradient_exact_partial.
Print Assumptions C38_gradient_refuted.
Print Assumptions C39_dimension.
Print Assumptions C39_network_can_be_built.
Print Assumptions C39_current_parameters.
Print Assumptions C39_pointers.
Print Assumptions C39_outputs_determined.
Print Assumptions C39_max_norm_refuted.
