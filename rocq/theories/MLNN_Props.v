(** Theorems about makeMLNN (C89). *)
From Verif Require Import Base BaseFacts Matrix RSum MatOps Vec Activation_Model Layer_Model Layer_Proofs FC_Model FC_Proofs SimpleLayers_Model Conv_Model
  Pool_Model Net_Model NetChain_Proofs NetLayers_Proofs Net_Proofs NetBuild_Model NetUse_Spec NetBuild_Proofs Net_Props Train_Model Train_Spec.
Local Open Scope R_scope.

Section MLNN.
Variables (junk : nat -> nat -> R) (w : nat -> nat -> nat -> R) (g h : ActivationFunction) (n F : nat) (hidden : list nat).
Notation kc := (kclass junk).
Notation calls := (mlnnCalls w g h F).

Lemma mlnn_max_norm l : forall i, Forall no_max_norm (calls i l).
Proof. induction l as [|u l IH]; intros i; cbn [mlnnCalls]; constructor; auto; exact Logic.I. Qed.
Lemma mlnn_no_penalty : Forall no_penalty (calls 1 hidden).
Proof. generalize 1%nat. induction hidden as [|u l IH]; intros i; cbn [mlnnCalls]; constructor; auto; exact Logic.I. Qed.
Lemma mlnn_smooth l : smooth_act g -> smooth_act h -> forall i, Forall always_smooth (calls i l).
Proof. intros Hg Hh. induction l as [|u l IH]; intros i; cbn [mlnnCalls]; constructor; auto. Qed.
Lemma mlnn_fit l : forall i info, commandsFit info (calls i l).
Proof. induction l as [|u l IH]; intros i info; cbn; auto. Qed.
Lemma mlnn_final l : forall i info, finalOutput info (calls i l) = [F].
Proof. induction l as [|u l IH]; intros i info; cbn; auto. Qed.
Lemma mlnn_total l : forall i info, totalParams info (calls i l) = mlpParams (outputs info) (l ++ [F]).
Proof.
  induction l as [|u l IH]; intros i info; cbn [mlnnCalls totalParams layerParams layerOutput app mlpParams].
  - lia.
  - rewrite IH. unfold outputs at 2. cbn. rewrite Nat.add_0_r. lia.
Qed.


Lemma mlp_ext layers : forall m p p' x x' j, (forall k, p k = p' k) -> (forall i, (i < m)%nat -> x i = x' i) ->
  (j < last (map fst layers) m)%nat -> mlp m layers p x j = mlp m layers p' x' j.
Proof.
  induction layers as [|[u act] layers IH]; intros m p p' x x' j HP HX Hj; [now apply HX|]. cbn [mlp]. apply IH.
  - intros k. apply HP.
  - intros i Hi. rewrite HP. do 2 f_equal. apply rsum_ext. intros k Hk. now rewrite HP, HX.
  - cbn [map fst] in Hj. destruct layers as [|y layers]; [exact Hj|]. cbn [map last] in *. destruct (map fst layers); auto.
    clear - Hj. revert Hj. induction l as [|z l IH]; cbn; auto. destruct l; auto.
Qed.
Lemma last_sizes l m : last (map fst (map (fun u => (u, g)) l ++ [(F, h)])) m = F.
Proof. rewrite map_app. apply last_last. Qed.

(** one layer *)
Lemma fc_layer_fn I J act reg (o : St (kc (KFullyConnected I J true act reg))) p dr m x j : nInv junk (KFullyConnected I J true act reg) o ->
  (forall k, (k < J * (I + 1))%nat -> readParam (kc (KFullyConnected I J true act reg)) o k = Ok (p k)) -> (j < J)%nat ->
  nfn junk (KFullyConnected I J true act reg) o dr m x j = act_fun act (rsum I (fun i => p (j * (I + 1) + i)%nat * x i) + p (j * (I + 1) + I)%nat).
Proof.
  cbn [nInv nfn kclass]. intros (_ & V) HR Hj. unfold fc_fn.
  assert (R : forall i, (i < I + 1)%nat -> (if Nat.ltb i I then at_ (fW o) j i else at_ (fb o) j 0) = p (j * (I + 1) + i)%nat).
  { intros i Hi. pose proof (fc_read junk I J true act reg o j i V Hj Hi) as A. unfold unitParams in A.
    rewrite HR in A; [congruence|]. assert (j * (I + 1) + i < (j + 1) * (I + 1))%nat by lia. assert ((j + 1) * (I + 1) <= J * (I + 1))%nat by (apply Nat.mul_le_mono_r; lia). lia. }
  do 2 f_equal.
  - apply rsum_ext. intros i Hi. rewrite <- R by lia. rewrite (proj2 (Nat.ltb_lt _ _)) by auto. ring.
  - rewrite <- R by lia. rewrite Nat.ltb_irrefl. reflexivity.
Qed.

Lemma mlnn_fns l : forall i info reg ls p dr m x j, map (lkind kc) ls = kindsOf info reg (calls i l) -> invs kc (nInv junk) ls ->
  (forall k, (k < count kc nK ls)%nat -> readP kc nK ls k = Ok (p k)) -> (j < F)%nat ->
  fns kc (nfn junk) ls dr m x j = mlp (outputs info) (map (fun u => (u, g)) l ++ [(F, h)]) p x j.
Proof.
  assert (Step : forall I J act reg o ls p dr m x rest, invs kc (nInv junk) (mkLayer kc (KFullyConnected I J true act reg) o :: ls) ->
     (forall k, (k < count kc nK (mkLayer kc (KFullyConnected I J true act reg) o :: ls))%nat -> readP kc nK (mkLayer kc (KFullyConnected I J true act reg) o :: ls) k = Ok (p k)) ->
     (forall p' j, (forall k, (k < count kc nK ls)%nat -> readP kc nK ls k = Ok (p' k)) -> (j < F)%nat ->
        fns kc (nfn junk) ls dr m (nfn junk (KFullyConnected I J true act reg) o dr m x) j = mlp J rest p' (nfn junk (KFullyConnected I J true act reg) o dr m x) j) ->
     last (map fst rest) J = F -> forall j, (j < F)%nat ->
     fns kc (nfn junk) (mkLayer kc (KFullyConnected I J true act reg) o :: ls) dr m x j = mlp I ((J, act) :: rest) p x j).
  { intros I J act reg o ls p dr m x rest V HR IH HL j Hj. inversion V as [|? ? V1 V2]; subst.
    cbn [fns lkind lobj mlp count readP nK] in *. unfold unitParams in *.
    rewrite (IH (fun k => p (J * (I + 1) + k)%nat)); auto.
    - apply mlp_ext; auto. intros q Hq. apply fc_layer_fn; auto. intros k Hk. rewrite <- HR by lia. now rewrite (proj2 (Nat.ltb_lt _ _)).
    - intros k Hk. rewrite <- HR by lia. rewrite (proj2 (Nat.ltb_ge _ _)) by lia. f_equal. lia. }
  induction l as [|u l IH]; intros i info reg ls p dr m x j M V HR Hj; cbn [mlnnCalls kindsOf kindOf fst snd map app] in *;
    destruct ls as [|[k o] ls]; try discriminate M; cbn [map lkind] in M; injection M as Mk M; subst k.
  - destruct ls; [|discriminate M]. apply (Step _ _ _ _ _ _ _ _ _ _ [] V HR); auto.
  - apply (Step _ _ _ _ _ _ _ _ _ _ _ V HR); auto; [|apply last_sizes].
    intros p' q Hp Hq. inversion V as [|? ? V1 V2]; subst. rewrite (IH (S i) [u] reg ls p' dr m _ q M V2 Hp Hq). unfold outputs. cbn [fold_left]. now rewrite Nat.mul_1_l.
Qed.

Lemma mlnn_wired l : forall i info reg I ls O, map (lkind kc) ls = kindsOf info reg (calls i l) -> wired kc nI nO I ls O -> O = F.
Proof.
  induction l as [|u l IH]; intros i info reg I ls O M W; cbn [mlnnCalls kindsOf kindOf fst snd map app] in *;
    destruct ls as [|[k o] ls]; try discriminate M; cbn [map lkind wired] in *; injection M as Mk M; subst k; destruct W as (_ & W).
  - destruct ls; [|discriminate M]. cbn in W. auto.
  - eauto.
Qed.

(** makeMLNN always succeeds; the network has the requested inputs and outputs and the weights and biases of a multilayer perceptron. *)
Theorem C89_makeMLNN : (0 < F)%nat -> exists s, makeMLNN junk w g h n F hidden = Ok s /\ netInputs s = n /\ netOutputs s = F /\
  dimension kc s = mlpParams n (hidden ++ [F]) /\ errorFunction kc s = MSE /\ dropout kc s = false /\ reachable junk n 1 1 (calls 1 hidden) s.
Proof.
  intros HF.
  destruct (C39_network_can_be_built junk n 1 1 _ (mlnn_max_norm hidden 1) (mlnn_fit hidden 1 _)) as (s & E & HI & HO & HE & HD).
  exists s. split; [exact E|]. rewrite mlnn_final in HO. split; [lia|]. unfold outputs in HO. cbn in HO. split; [lia|].
  assert (HR : reachable junk n 1 1 (calls 1 hidden) s) by (apply reach_build; auto; lia).
  split; [|auto]. rewrite (C39_dimension junk n 1 1 _ (mlnn_max_norm hidden 1) s HR), mlnn_total. f_equal. unfold outputs. cbn. lia.
Qed.

(** the function of the network *)
Notation net_fun s x := (mlp n (map (fun u => (u, g)) hidden ++ [(F, h)]) (fun k => nth k (currentParameters kc s) 0) x).
Lemma mlnn_outputs s : reachable junk n 1 1 (calls 1 hidden) s -> netOutputs s = F.
Proof.
  intros HR. pose proof (reachable_usable junk n 1 1 _ s (mlnn_max_norm hidden 1) HR) as U. pose proof (u_good _ _ _ _ _ _ U) as G.
  pose proof (u_kinds _ _ _ _ _ _ U) as K. pose proof (g_wired _ _ _ _ _ _ _ _ _ G) as W.
  destruct (layers kc s) as [|l0 ls]; [discriminate K|]. cbn [map wired] in *. injection K as _ K. destruct W as (_ & W). eapply mlnn_wired; eauto.
Qed.
Lemma mlnn_value s dr m x k : reachable junk n 1 1 (calls 1 hidden) s -> (k < F)%nat -> fns kc (nfn junk) (layers kc s) dr m x k = net_fun s x k.
Proof.
  intros HR Hk. pose proof (reachable_usable junk n 1 1 _ s (mlnn_max_norm hidden 1) HR) as U. pose proof (u_good _ _ _ _ _ _ U) as G.
  pose proof (u_kinds _ _ _ _ _ _ U) as K. pose proof (g_invs _ _ _ _ _ _ _ _ _ G) as V. pose proof (u_read _ _ _ _ _ _ U) as RD.
  rewrite (g_P _ _ _ _ _ _ _ _ _ G) in RD.
  destruct (layers kc s) as [|[k0 o] ls]; [discriminate K|]. cbn [map lkind] in K. injection K as -> K. pose proof (Forall_inv_tail V) as V2.
  cbn [fns lkind lobj nfn count readP nK] in *. rewrite (mlnn_fns hidden 1 [n; 1%nat; 1%nat] _ ls (fun k => nth k (currentParameters kc s) 0) _ _ _ k K V2); auto.
  - replace (outputs [n; 1%nat; 1%nat]) with n by (unfold outputs; cbn; lia). apply mlp_ext; auto; [|rewrite last_sizes; auto].
    intros q Hq. rewrite (proj2 (Nat.ltb_lt _ _)) by lia. reflexivity.
  - intros q Hq. specialize (RD q). rewrite Nat.sub_0_r in RD. exact (RD Hq).
Qed.

(** Whatever has been done with the network, operator() computes the function of the multilayer perceptron with the current parameters, followed by the softmax
    function if the error function is the cross entropy. *)
Theorem C89_output s x : reachable junk n 1 1 (calls 1 hidden) s -> cols x = n -> (0 < rows x)%nat ->
  exists s' y, net_apply kc s x = Ok (s', y) /\ size_is y (rows x) F /\
    forall i j, (i < rows x)%nat -> (j < F)%nat ->
      let z := mlp n (map (fun u => (u, g)) hidden ++ [(F, h)]) (fun k => nth k (currentParameters kc s) 0) (at_ x i) in
      at_ y i j = match errorFunction kc s with MSE => z j | CE => exp (z j) / rsum F (fun k => exp (z k)) end.
Proof.
  intros HR HX HN. pose proof (reachable_usable junk n 1 1 _ s (mlnn_max_norm hidden 1) HR) as U. pose proof (u_good _ _ _ _ _ _ U) as G.
  pose proof (mlnn_outputs s HR) as HO.
  assert (HI : cols x = netInputs s). { rewrite (u_inputs _ _ _ _ _ _ U). lia. }
  destruct (forward_net kc nI nO nK (nInv junk) (nsmooth junk) (nfn junk) (nrg junk) (nok junk) isIn _ _ s x G HI)
    as (la & Y & Yo & A1 & A2 & A3 & A4 & A5 & A6 & A7 & A8 & A9 & _).
  { intros _. split; auto. apply U. }
  do 2 eexists. split; [unfold net_apply; rewrite A5; reflexivity|]. cbn [Net_Model.tempOutput Net_Model.with_output]. rewrite HO in *. split; [exact A4|].
  intros i j Hi Hj. cbn zeta. rewrite A9 by auto. unfold outrow.
  assert (HY : forall k, (k < F)%nat -> at_ Y i k = net_fun s (at_ x i) k) by (intros k Hk; rewrite A8 by auto; now apply mlnn_value).
  destruct (errorFunction kc s); [now apply HY|]. rewrite HY by auto. f_equal. apply rsum_ext. intros k Hk. now rewrite HY.
Qed.

(** error(i) is half the squared distance between this function and the target, or their cross entropy (with 1e-10 added to each output, see C37). *)
Theorem C89_error s d i : reachable junk n 1 1 (calls 1 hidden) s -> trainSet kc s = Some d -> (i < rows (dataIn d))%nat ->
  exists s', error_at kc s i = Ok (s',
    let z := mlp n (map (fun u => (u, g)) hidden ++ [(F, h)]) (fun k => nth k (currentParameters kc s) 0) (at_ (dataIn d) i) in
    let t := at_ (dataOut d) i in
    match errorFunction kc s with
    | MSE => / 2 * rsum F (fun j => (z j - t j) ^ 2)
    | CE => - rsum F (fun j => t j * ln (exp (z j) / rsum F (fun k => exp (z k)) + / 10 ^ 10))
    end).
Proof.
  intros HR HD Hi. pose proof (reachable_usable junk n 1 1 _ s (mlnn_max_norm hidden 1) HR) as U. pose proof (u_good _ _ _ _ _ _ U) as G.
  pose proof (mlnn_outputs s HR) as HO.
  destruct (error_at_ok kc nI nO nK (nInv junk) (nsmooth junk) (nfn junk) (nrg junk) (nok junk) isIn _ _ s d i G HD) as (s' & E & _); auto.
  { apply (u_fits _ _ _ _ _ _ U). exact HD. } { intros _. apply U. }
  exists s'. rewrite E. do 2 f_equal. rewrite HO.
  rewrite (usable_noReg junk n 1 1 _ s U) by (apply mlnn_no_penalty). rewrite Rplus_0_r.
  set (z := net_fun s (at_ (dataIn d) i)).
  assert (HZ : forall j, (j < F)%nat -> netrow kc (nfn junk) s F 0 (at_ (dataIn d) i) j = outrow (errorFunction kc s) F z j).
  { intros j Hj. unfold netrow. apply outrow_ext; auto. intros k Hk. now apply mlnn_value. }
  unfold rowloss. destruct (errorFunction kc s); cbn zeta; unfold outrow in HZ.
  - rewrite (rsum_ext F _ (fun j => (z j - at_ (dataOut d) i j) ^ 2)). { unfold Rdiv. ring. } intros j Hj. rewrite HZ by auto. cbn. ring.
  - f_equal. apply rsum_ext. intros j Hj. rewrite HZ by auto. reflexivity.
Qed.
End MLNN.

(** ** The hypotheses are met: two inputs, three hidden units and one output; the training set is the exclusive or *)
Definition xor_data : trainData := mkData (mkMat 4 2 (fun n j => if Nat.testbit n j then 1 else 0)) (mkMat 4 1 (fun n _ => if xorb (Nat.testbit n 0) (Nat.testbit n 1) then 1 else 0)).
Notation xor_calls w := (mlnnCalls w TANH TANH 1 1 [3%nat]).

Example xor_net junk w : exists s0 (s : net (kclass junk)), makeMLNN junk w TANH TANH 2 1 [3%nat] = Ok s0 /\ s = trainingSet (kclass junk) s0 xor_data /\
  reachable junk 2 1 1 (xor_calls w) s /\ trainSet (kclass junk) s = Some xor_data /\ dimension (kclass junk) s = 13%nat.
Proof.
  destruct (C89_makeMLNN junk w TANH TANH 2 1 [3%nat]) as (s0 & E & HI & HO & HD & _ & _ & HR); [lia|]. exists s0. eexists. split; [exact E|]. split; [reflexivity|].
  split; [|split; [reflexivity|exact HD]]. eapply reach_call; [exact HR|]. constructor. unfold fits. rewrite HI, HO. cbn. auto.
Qed.
Example xor_output junk (w : nat -> nat -> nat -> R) : exists s s' y, reachable junk 2 1 1 (xor_calls w) s /\ net_apply (kclass junk) s (dataIn xor_data) = Ok (s', y) /\ size_is y 4 1.
Proof.
  destruct (xor_net junk w) as (s0 & s & _ & _ & HR & _). destruct (C89_output junk w TANH TANH 2 1 [3%nat] s (dataIn xor_data) HR) as (s' & y & E & Sz & _); [reflexivity|cbn; lia|]. exists s, s', y. auto.
Qed.
Example xor_error junk (w : nat -> nat -> nat -> R) : exists s s' e, reachable junk 2 1 1 (xor_calls w) s /\ error_at (kclass junk) s 3 = Ok (s', e).
Proof.
  destruct (xor_net junk w) as (s0 & s & _ & _ & HR & HD & _). destruct (C89_error junk w TANH TANH 2 1 [3%nat] s xor_data 3 HR HD) as (s' & E); [cbn; lia|]. eexists _, _, _. split; [exact HR|exact E].
Qed.

Print Assumptions C89_makeMLNN.
Print Assumptions C89_output.
Print Assumptions C89_error.
