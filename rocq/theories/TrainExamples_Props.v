(** The hypotheses of the theorems about train (C87, C88) are met: the network for the exclusive or, see MLNN_Props.v. *)
From Coq Require Import String.
From Verif Require Import Base BaseFacts Matrix RSum Deriv Activation_Model Layer_Model Net_Model NetBuild_Model NetUse_Spec Evaluation_Model MBSGD_Model Alglib_Model Alglib_Spec
  Alglib_Props Train_Model Train_Spec Train_Props TrainCma_Props MLNN_Props IPOP_Model IPOP_Spec.
Local Open Scope R_scope.

Section Examples.
Variables (junk : nat -> nat -> R) (w w' : nat -> nat -> nat -> R).
Notation kc := (kclass junk).
Notation cs := (mlnnCalls w TANH TANH 1 1 [3%nat]).
(** the evaluator of the training set *)
Definition xor_evaluate := multiclassEvaluate junk true xor_data.

Example xor_ready ef : ef = MSE -> exists s, ready junk 2 1 1 xor_evaluate cs xor_data ef s /\ Net_Model.dimension kc s = 13%nat.
Proof.
  intros ->. destruct (xor_net junk w) as (s0 & s & _ & _ & HR & HD & HP). exists s. split; [|exact HP].
  split; [exact HR|]. split; [exact HD|]. split; [cbn; lia|]. split; [lia|]. split; [apply mlnn_max_norm|].
  split; [apply mlnn_smooth; exact Logic.I|]. split; [discriminate|].
  intros cs1 HM. apply C87_multiclassEvaluator; auto.
Qed.

(** A library for each algorithm: solvers that ask for the gradient at the start and for the error at the origin and return the ones,
    permutations that reverse, populations of 5 equal points, at most 3 generations *)
Definition origin := repeat 0 13.
Definition ones := repeat 1 13.
Definition exampleLibraries : externals :=
  mkExternals (probing origin ones) (probing origin ones) (probing origin ones) (fun _ => false) (fun _ l => rev l) (fun _ => false)
    5 3 (fun r _ => repeat ones (5 * 2 ^ r)) (fun _ h => Nat.leb 3 (length h)).
(** 100 function evaluations, 7 iterations, 2 restarts *)
Definition exampleStop : criteria := mkCriteria 100 7 2 0 0 0.

Open Scope string_scope.
Notation trained algorithm fuel s s' := (train junk xor_evaluate exampleLibraries w' fuel algorithm MSE exampleStop true false s = Ok (s', true)).

Example xor_MBSGD : exists s s' epochs x0 m error, trained "MBSGD" 8%nat s s' /\ Forall (is_epoch 4) epochs /\ length epochs = 7%nat /\
  descends error x0 (concat epochs) (Net_Model.currentParameters kc s') m.
Proof.
  destruct (xor_ready MSE eq_refl) as (s & HR & _).
  destruct (C88_train_MBSGD junk 2 1 1 xor_evaluate exampleLibraries w' exampleStop true cs xor_data MSE s HR) as (cs1 & x0 & error & _ & _ & H).
  { intros h l. apply Permutation_rev. }
  destruct (H 8%nat) as (NF & [F|(s' & epochs & m & E & _ & _ & H1 & H2 & H3 & H4)]).
  - exfalso. apply NF; [discriminate|cbn; lia|exact F].
  - exists s, s', epochs, x0, m, error. split; [exact E|]. split; [exact H1|]. split; [|apply H4; auto; apply mlnn_no_penalty].
    destruct H3 as [H3|H3]; [reflexivity| |]. { cbn in H2, H3. lia. } cbn in H3. tauto.
Qed.

Notation trainedOn algorithm fuel s s' := (train junk xor_evaluate exampleLibraries w' fuel algorithm MSE exampleStop false false s = Ok (s', true)).
Lemma parameters_length s : ready junk 2 1 1 xor_evaluate cs xor_data MSE s -> length (Net_Model.currentParameters kc s) = Net_Model.dimension kc s.
Proof. intros (HR & _). apply (NetBuild_Proofs.u_vector _ _ _ _ _ _ (NetBuild_Proofs.reachable_usable junk 2 1 1 cs s (mlnn_max_norm w TANH TANH 1 [3%nat] 1) HR)). Qed.

Example xor_gradient algorithm : In algorithm ["CG"; "LBFGS"] -> exists s s', trainedOn algorithm 4%nat s s' /\ Net_Model.currentParameters kc s' = ones.
Proof.
  intros HA. destruct (xor_ready MSE eq_refl) as (s & HR & HP).
  assert (HA' : exists S memory, ((algorithm, S, memory) = ("CG", mincg exampleLibraries, 0%Z) \/ (algorithm, S, memory) = ("LBFGS", minlbfgs exampleLibraries, 10%Z)) /\ S = probing origin ones).
  { destruct HA as [<-|[<-|[]]]; do 2 eexists; (split; [auto|reflexivity]). }
  destruct HA' as (S & memory & HA' & ->).
  destruct (C88_train_gradient junk 2 1 1 xor_evaluate exampleLibraries w' exampleStop false cs xor_data MSE s algorithm _ memory HR HA') as (cs1 & x0 & error & gradient & (_ & St) & _ & _ & H).
  { intros l. apply Zle_0_nat. }
  destruct (H 3%nat ones 4%nat) as (s' & E & _ & [P|((i & I) & _)]).
  - rewrite HP. apply probing_solves; try reflexivity. rewrite St, <- HP. now apply parameters_length.
  - intros l _. now rewrite HP.
  - lia.
  - exists s, s'. split; [exact E|exact P].
  - discriminate I.
Qed.

Example xor_LMA : exists s s', trainedOn "LMA" 4%nat s s' /\ Net_Model.currentParameters kc s' = ones.
Proof.
  destruct (xor_ready MSE eq_refl) as (s & HR & HP).
  destruct (C88_train_LMA junk 2 1 1 xor_evaluate exampleLibraries w' exampleStop false cs xor_data MSE s HR) as (cs1 & x0 & error & gradient & (_ & St) & _ & _ & H).
  { intros l. apply Zle_0_nat. }
  destruct (H 3%nat ones 4%nat) as (s' & E & _ & [P|((i & I) & _)]).
  - rewrite HP. apply probing_solves; try reflexivity. rewrite St, <- HP. now apply parameters_length.
  - intros l _. now rewrite HP.
  - lia.
  - exists s, s'. split; [exact E|exact P].
  - discriminate I.
Qed.

(** the mean error of this network is less than 3 *)
Lemma xor_bounded s error x : ready junk 2 1 1 xor_evaluate cs xor_data MSE s -> network_error junk 2 1 1 cs xor_data MSE error ->
  length x = Net_Model.dimension kc s -> batchError error (seq 0 4) x < 3.
Proof.
  intros HR HE Hx. assert (B : forall i, (i < 4)%nat -> error i x <= 2).
  { intros i Hi. destruct HR as (HR & HD & _).
    assert (T : trainable junk 2 1 1 cs xor_data MSE (useDropout kc (setErrorFunction kc s MSE) false)) by now apply prepared_trainable.
    destruct (HE _ x i T Hx Hi) as (s1 & s2 & E1 & E2).
    destruct (Train_Proofs.set_train junk 2 1 1 cs xor_data MSE (mlnn_max_norm _ _ _ _ _ _) _ x T Hx) as (s1' & E1' & (R1 & D1 & F1 & _) & P1).
    rewrite E1 in E1'. injection E1' as <-.
    destruct (C89_error junk w TANH TANH 2 1 [3%nat] s1 xor_data i R1 D1 Hi) as (s3 & E3). rewrite E2, F1 in E3.
    assert (A : forall (a b : Net_Model.net kc) (u v : R), Ok (a, u) = Ok (b, v) -> u = v) by congruence. rewrite (A _ _ _ _ E3). cbn zeta. set (z := mlp _ _ _ _).
    assert (Hz : -1 < z 0%nat < 1) by (apply tanh_range). cbn [rsum]. set (y := z 0%nat) in *.
    assert (T2 : 0 <= at_ (dataOut xor_data) i 0 <= 1). { cbn. destruct (xorb _ _); lra. } set (t := at_ (dataOut xor_data) i 0) in *.
    assert ((y - t) * (y - t) <= 4) by nra. cbn [pow]. lra. }
  unfold batchError. cbn [seq length nth rsum INR]. pose proof (B 0%nat). pose proof (B 1%nat). pose proof (B 2%nat). pose proof (B 3%nat).
  assert (error 0%nat x <= 2 /\ error 1%nat x <= 2 /\ error 2%nat x <= 2 /\ error 3%nat x <= 2) by (repeat split; apply B; lia). lra.
Qed.

Example xor_CMAES : exists s s' fuel, trainedOn "CMAES" fuel s s' /\ length (Net_Model.currentParameters kc s') = 13%nat.
Proof.
  destruct (xor_ready MSE eq_refl) as (s & HR & HP).
  destruct (C88_train_CMAES junk 2 1 1 xor_evaluate exampleLibraries w' exampleStop false cs xor_data MSE s HR) as (cs1 & x0 & error & (-> & St) & HE & H).
  { split; [cbn; lia|]. split; [intros; cbn; apply repeat_length|]. split; [|reflexivity]. intros r h x Hx. cbn in Hx. apply repeat_spec in Hx. rewrite HP, Hx. reflexivity. }
  { right. cbn. lia. } { cbn. lia. }
  destruct H as (Tm & value & _ & H). { intros x Hx. eapply xor_bounded; eauto. }
  destruct Tm as (f0 & Tm). { cbn. lia. }
  destruct (H f0) as [F|(o & s' & _ & E & _ & L & I & _)]. { exfalso. exact (Tm f0 (Nat.le_refl _) F). }
  exists s, s', f0. split; [exact E|]. rewrite Forall_forall in L. rewrite <- HP. auto.
Qed.
End Examples.

(** An exception about an unknown algorithm does not leave the network alone, although nothing has been learned. *)
Theorem C88_unknown_algorithm_refuted :
  ~ (forall junk d1 d2 d3 evaluate ext w fuel algorithm stop dropout cs d s s', reachable junk d1 d2 d3 cs s -> trainSet (kclass junk) s = Some d ->
       train junk evaluate ext w fuel algorithm (errorFunction (kclass junk) s) stop false dropout s = Ok (s', false) -> s' = s).
Proof.
  intros H. set (z := fun _ _ : nat => 0). set (zz := fun _ _ _ : nat => 0). destruct (xor_ready z zz MSE eq_refl) as (s & (HR & HD & _) & _).
  destruct (C88_unknown_algorithm z 2 1 1 (xor_evaluate z) exampleLibraries zz 0 "SGD" exampleStop false (negb (Net_Model.dropout (kclass z) s)) _ xor_data
    (errorFunction (kclass z) s) s (mlnn_max_norm zz TANH TANH 1 [3%nat] 1) ltac:(discriminate) HR HD) as (cs1 & x0 & s' & _ & E & _ & _ & D).
  { cbn. intuition discriminate. }
  specialize (H _ _ _ _ _ _ _ _ _ _ _ _ _ _ _ HR HD E). rewrite H in D. destruct (Net_Model.dropout (kclass z) s); discriminate D.
Qed.

Print Assumptions C88_unknown_algorithm_refuted.
