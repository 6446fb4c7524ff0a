(** Properties C21-C26 and C49: mini-batch stochastic gradient descent. *)
From Verif Require Import Base BaseFacts Vec DataSet_Model MBSGD_Model MBSGD_Spec MBSGD_Proofs.
Local Open Scope R_scope.

(** C24.  The constructor throws exactly if an argument is outside its documented
    interval. *)
Theorem C24_constructor_checks_arguments :
  forall lr mo bs ne de ml mg mm ming maxg mi ms p0,
  (newMBSGD lr mo bs ne de ml mg mm ming maxg mi ms p0 = Throw <->
     ~ admissible lr mo bs de ml mg mm) /\
  (admissible lr mo bs de ml mg mm ->
     exists c s, newMBSGD lr mo bs ne de ml mg mm ming maxg mi ms p0 = Ok (c, s) /\
       nesterov c = ne /\ batchSize c = bs /\ alphaDecay c = de /\ minAlpha c = ml /\
       etaGain c = mg /\ maxEta c = mm /\ minGain c = ming /\ maxGain c = maxg /\
       alpha s = lr /\ eta s = mo /\ fresh s).
Proof.
  intros. destruct (newMBSGD_spec lr mo bs ne de ml mg mm ming maxg mi ms p0) as [[A E]|[A E]]; rewrite E.
  - split; [split; [discriminate|tauto]|]. intros _. do 2 eexists. split; [reflexivity|].
    repeat split; auto.
  - split; [tauto|]. intros; tauto.
Qed.

(** C21.  Every step works and computes gradients for max(N/b, 1) batches of
    min(b, N) different valid indices; no instance occurs twice; N mod b instances
    (none if N < b) are left out. *)
Theorem C21_epoch_uses_disjoint_batches :
  forall pb c a0 e0 s, proper pb -> reachable pb c a0 e0 s ->
  let N := examples pb in let b := Z.to_nat (batchSize c) in
  exists run s' h, step pb c s = Ok (run, s') /\ history s' = history s ++ h /\
    epochs h = 1%nat /\
    length (batchesOf h) = Nat.max (N / b) 1 /\
    (forall x, In x (batchesOf h) -> length x = Nat.min b N) /\
    NoDup (concat (batchesOf h)) /\
    (forall i, In i (concat (batchesOf h)) -> (i < N)%nat) /\
    (N - length (concat (batchesOf h)) = if Nat.ltb N b then 0 else N mod b)%nat.
Proof. exact epoch_batches. Qed.

(** C22.  After k batches since construction (restarts included) learning rate and
    momentum are the documented ones. *)
Theorem C22_schedules :
  forall pb c a0 e0 s, proper pb -> reachable pb c a0 e0 s ->
  let k := length (gradients (history s)) in
  (k = 0%nat -> alpha s = a0 /\ eta s = e0) /\
  ((0 < k)%nat -> alpha s = Rmax (a0 * alphaDecay c ^ k) (minAlpha c) /\
                  eta s = Rmin (e0 + INR k * etaGain c) (maxEta c)).
Proof.
  intros pb c a0 e0 s HP HR k. destruct (reachable_inv _ _ _ _ _ HP HR).
  fold k in inv_alpha, inv_eta. split; intros Hk.
  - rewrite Hk in *. auto.
  - destruct k; [lia|]. auto.
Qed.

(** C22.  The learning rate never increases and stays above its minimum if it started
    there; the momentum never decreases and stays below its maximum if it started there. *)
Theorem C22_schedules_monotone :
  forall pb c a0 e0 s run s', proper pb -> reachable pb c a0 e0 s -> step pb c s = Ok (run, s') ->
  (minAlpha c <= a0 -> minAlpha c <= alpha s' <= alpha s) /\
  (e0 <= maxEta c -> eta s <= eta s' <= maxEta c) /\
  minAlpha c <= alpha s' /\ eta s' <= maxEta c.
Proof.
  intros pb c a0 e0 s run s' HP HR E.
  destruct (reachable_inv _ _ _ _ _ HP HR).
  destruct (step_ok pb c s) as (run' & s2 & h & idx & E2 & _ & _ & _ & _ & _ & _ & _ & HA & _); auto.
  rewrite E2 in E. inversion E; subst run' s2. clear E.
  destruct (HA a0 e0 _ inv_alpha inv_eta) as [A B]. rewrite A, B, inv_alpha, inv_eta.
  set (n := numBatches (examples pb) (Z.to_nat (batchSize c))) in *.
  assert (Hn : (0 < n)%nat) by (unfold n, numBatches; lia). clearbody n.
  set (k := length (gradients (history s))).
  assert (A1 : forall m i, minAlpha c <= a0 -> minAlpha c <= learningRate c a0 (i + m) <= learningRate c a0 i).
  { intros m i H0. assert (L : forall i, minAlpha c <= learningRate c a0 i).
    { intros [|j]; simpl; auto. apply Rmax_r. }
    split; auto. induction m as [|m IH]; [rewrite Nat.add_0_r; lra|].
    rewrite <- plus_n_Sm, learningRate_S by auto. specialize (L (i + m)%nat). eapply Rle_trans; [|exact IH].
    apply Rmax_lub; auto. destruct inv_config as (_ & D & M). nra. }
  assert (B1 : forall m i, e0 <= maxEta c -> momentumRate c e0 i <= momentumRate c e0 (i + m) <= maxEta c).
  { intros m i H0. assert (L : forall i, momentumRate c e0 i <= maxEta c).
    { intros [|j]; simpl; auto. apply Rmin_r. }
    split; auto. induction m as [|m IH]; [rewrite Nat.add_0_r; lra|].
    rewrite <- plus_n_Sm, momentumRate_S by auto. specialize (L (i + m)%nat). eapply Rle_trans; [exact IH|].
    apply Rmin_glb; auto. lra. }
  repeat split.
  - now apply A1.
  - now apply A1.
  - now apply B1.
  - now apply B1.
  - destruct (k + n)%nat eqn:Ek; [lia|]. apply Rmax_r.
  - destruct (k + n)%nat eqn:Ek; [lia|]. apply Rmin_r.
Qed.

(** C23.  With adaptive gains, after every step every gain lies in [minGain, maxGain]. *)
Theorem C23_gains_in_range :
  forall pb c a0 e0 s run s', proper pb -> reachable pb c a0 e0 s -> step pb c s = Ok (run, s') ->
  minGain c <= maxGain c -> (minGain c <> 1 \/ maxGain c <> 1) ->
  length (gains s') = dimension pb /\
  forall j, (j < dimension pb)%nat -> minGain c <= (gains s').[j] <= maxGain c.
Proof.
  intros pb c a0 e0 s run s' HP HR E HL HU.
  destruct (reachable_inv _ _ _ _ _ HP HR).
  destruct (step_ok pb c s) as (run' & s2 & h & idx & E2 & _ & HS & _ & _ & _ & _ & _ & _ & _ & HG & _); auto.
  rewrite E2 in E. inversion E; subst run' s2. clear E.
  split; [apply HS|]. apply HG; auto.
  unfold useGain, Reqb. destruct (Req_EM_T (minGain c) 1), (Req_EM_T (maxGain c) 1); simpl; auto. tauto.
Qed.

(** C25.  In every run (a fresh start followed by any number of epochs) the parameters,
    their last change and the gains are those of the documented recursion; gradients
    are taken where it says; without Nesterov momentum the problem has the current
    parameters after every step. *)
Theorem C25_documented_recursion :
  forall pb c a0 e0 s n s1 b s2,
  proper pb -> reachable pb c a0 e0 s -> fresh s ->
  ran pb c s n s1 -> step pb c s1 = Ok (b, s2) ->
  exists h, history s2 = history s ++ h /\ epochs h = S n /\
    documented (dimension pb) c (alpha s) (eta s) (optParameters s) (gradients h)
      (parameters s2) (momentum s2) (gains s2) /\
    (nesterov c = false -> optParameters s2 = parameters s2).
Proof.
  intros pb c a0 e0 s n s1 b s2 HP HR HF R E.
  destruct (run_documented _ _ _ _ _ _ _ _ _ HP HR HF R E) as (h & A & B & C & D & _).
  exists h. auto.
Qed.

(** C25.  result() returns the parameters and gives them to the problem. *)
Theorem C25_result :
  forall s p s', result s = (p, s') -> p = parameters s /\ optParameters s' = parameters s.
Proof. intros s p s' H. inversion H. auto. Qed.

(** C26.  A step of a run says "go on" exactly by the documented rule; saying "stop" it
    makes the state fresh, so that the next step starts a run from the parameters the
    problem has then (C25 with that state). *)
Theorem C26_stopping_rule :
  forall pb c a0 e0 s n s1 b s2,
  proper pb -> reachable pb c a0 e0 s -> fresh s ->
  ran pb c s n s1 -> step pb c s1 = Ok (b, s2) ->
  (b = true <-> wants_more c (S n) (momentum s2)) /\ (b = false <-> fresh s2).
Proof.
  intros pb c a0 e0 s n s1 b s2 HP HR HF R E.
  destruct (run_documented _ _ _ _ _ _ _ _ _ HP HR HF R E) as (h & _ & _ & _ & _ & A & B).
  split.
  - rewrite A. unfold keepsGoing, wants_more.
    rewrite andb_true_iff, !orb_true_iff, Z.eqb_eq, Z.ltb_lt, Reqb_true, Rleb_true. tauto.
  - unfold fresh. rewrite B. destruct b; split; intros; try discriminate; auto; lia.
Qed.

(** C26.  optimize() performs the epochs of a run until the first one after which the
    stopping rule holds or an interrupt arrived. *)
Theorem C26_optimize_stops_at_first :
  forall fuel pb c a0 e0 s s',
  proper pb -> reachable pb c a0 e0 s -> fresh s -> optimize fuel pb c s = Ok s' ->
  exists n s1 b, ran pb c s n s1 /\ step pb c s1 = Ok (b, s') /\
    (~ wants_more c (S n) (momentum s') \/ signaled pb (history s') = true) /\
    (forall i si, (0 < i <= n)%nat -> ran pb c s i si ->
       wants_more c i (momentum si) /\ signaled pb (history si) = false) /\
    (maximalIterations c <> -1 -> Z.of_nat (S n) <= Z.max 1 (maximalIterations c))%Z.
Proof.
  intros fuel pb c a0 e0 s s' HP HR HF E.
  destruct (optimize_runs pb c fuel s 0 s s' (ran_0 _ _ _) E) as (n & s1 & b & R & ES & H1 & H2).
  simpl in R. exists n, s1, b. split; auto. split; auto.
  pose proof (C26_stopping_rule _ _ _ _ _ _ _ _ _ HP HR HF R ES) as [SR _].
  assert (W : forall i si, (0 < i)%nat -> ran pb c s i si -> wants_more c i (momentum si)).
  { intros i si Hi Ri. inversion Ri as [|m sm sm' Rm Em]; subst; [lia|].
    apply (C26_stopping_rule _ _ _ _ _ _ _ _ _ HP HR HF Rm Em). reflexivity. }
  split; [|split].
  - destruct H1 as [->|H1]; auto. left. intros HW. apply SR in HW. discriminate.
  - intros i si Hi Ri. split; [apply W; auto; lia|]. apply (H2 i si); auto.
  - intros HM. destruct n as [|n]; [lia|].
    destruct (W (S n) s1 ltac:(lia) R) as [[HW|HW] _]; lia.
Qed.

(** C26.  With a maximal number of iterations optimize() ends. *)
Theorem C26_optimize_terminates :
  forall pb c a0 e0 s, proper pb -> reachable pb c a0 e0 s -> fresh s ->
  (maximalIterations c <> -1)%Z -> exists fuel s', optimize fuel pb c s = Ok s'.
Proof.
  intros pb c a0 e0 s HP HR HF HM.
  destruct (optimize_terminates pb c a0 e0 s HP HR HF HM) as [s' E]. eauto.
Qed.

(** C49 is false: the class documentation promises that a gain is increased while the
    parameter keeps changing in the same direction.  Without momentum the opposite
    happens in every round in which the direction is kept. *)
Theorem C49_gain_increases_when_direction_kept_refuted :
  forall pb c P s startN endN s' st en,
  sizes P s -> (forall h p b, length (snd (answer pb h p b)) = P) ->
  (0 <= startN <= endN)%Z -> (endN <= Z.of_nat (length (randomIndices s)))%Z ->
  batchRound pb c (s, startN, endN) = Ok (s', st, en) ->
  useGain c = true -> 0 < minGain c -> minGain c <= maxGain c -> eta s = 0 -> 0 < alpha s ->
  forall j, (j < P)%nat -> (momentum s).[j] * (momentum s').[j] > 0 ->
  (gains s').[j] = Rmin (maxGain c) (Rmax (minGain c) ((gains s).[j] * (95 / 100))).
Proof. exact gain_rule. Qed.

Print Assumptions C24_constructor_checks_arguments.
Print Assumptions C21_epoch_uses_disjoint_batches.
Print Assumptions C22_schedules.
Print Assumptions C22_schedules_monotone.
Print Assumptions C23_gains_in_range.
Print Assumptions C25_documented_recursion.
Print Assumptions C25_result.
Print Assumptions C26_stopping_rule.
Print Assumptions C26_optimize_stops_at_first.
Print Assumptions C26_optimize_terminates.
Print Assumptions C49_gain_increases_when_direction_kept_refuted.

(** ** a concrete problem: two parameters, five examples, batches of two, Nesterov
    momentum, decaying learning rate, gains, three iterations *)
Definition exProblem : problem :=
  mkProblem 2 5 (fun _ p b => (1, [p.[0] - INR (length b); -1])) (fun _ l => rev l) (fun _ => false).
Definition exConfig : config :=
  mkConfig true (1 / 2) (1 / 100) (1 / 10) (9 / 10) 2 (1 / 10) 10 3 (1 / 1000).

Example exProblem_proper : proper exProblem.
Proof. repeat split; simpl; auto; try lia. intros. apply Permutation_rev. Qed.

Example exState_reachable :
  exists s, reachable exProblem exConfig (1 / 2) (1 / 2) s /\ fresh s /\
    maximalIterations exConfig <> (-1)%Z /\ useGain exConfig = true.
Proof.
  destruct (newMBSGD_spec (1/2) (1/2) 2 true (1/2) (1/100) (1/10) (9/10) (1/10) 10 3 (1/1000) [3; 4])
    as [[A E]|[A E]].
  - eexists. split; [eapply r_new; eauto|]. repeat split; simpl; try lia.
    unfold useGain, Reqb. simpl. destruct (Req_EM_T (1/10) 1); [lra|]. reflexivity.
  - exfalso. apply A. unfold admissible. repeat split; lra || lia.
Qed.

(** hypotheses of the refutation: one round with gradient -1 after a change of +1 *)
Example exGain :
  let pb := mkProblem 1 1 (fun _ _ _ => (0, [-1])) (fun _ l => l) (fun _ => false) in
  let c := mkConfig false 1 0 0 1 1 (1 / 10) 10 (-1) 0 in
  let s := mkSgd 1 1 1 0 1 0 0 [0] [1] [0] [1] [0%nat] [0] [] in
  sizes 1 s /\ (forall h p b, length (snd (answer pb h p b)) = 1%nat) /\ useGain c = true /\
  exists s' st en, batchRound pb c (s, 0%Z, 1%Z) = Ok (s', st, en) /\
    (momentum s).[0] * (momentum s').[0] > 0.
Proof.
  intros pb c s. assert (HU : useGain c = true).
  { unfold useGain, Reqb, c. simpl. destruct (Req_EM_T (1/10) 1); [lra|]. reflexivity. }
  assert (HS : sizes 1 s) by (repeat split).
  assert (HA : forall h p b, length (snd (answer pb h p b)) = 1%nat) by reflexivity.
  split; auto. split; auto. split; auto.
  assert (He : (1 <= Z.of_nat (length (randomIndices s)))%Z) by (simpl; lia).
  destruct (round_ok pb c 1 s 0 1 HS HA ltac:(lia) He) as
    (s2 & h2 & at_ & err & grad & EB2 & _ & _ & _ & _ & _ & EH & EG & _ & _ & _ & _ & _ & _ & _ & _ & EV).
  exists s2. do 2 eexists. split; [exact EB2|].
  destruct (EV 0%nat ltac:(lia)) as (_ & V2 & V3 & _). rewrite HU in V3.
  assert (Hg : grad = [-1]).
  { unfold batchRound in EB2. simpl in EB2. unfold errorGradient in EB2. simpl in EB2. rewrite HU in EB2. 
    clear - EB2 EH EG. unfold updateGains, for_ in EB2. simpl in EB2.
    unfold vminus, vadd, vmap2 in EB2. simpl in EB2. inversion EB2; subst s2. simpl in EH. subst h2.
    simpl in EG. inversion EG. reflexivity. }
  assert (R : 1 / 10 <= (gains s2).[0] <= 10).
  { rewrite V2. apply (newGain_range c); auto. simpl. lra. }
  rewrite V3. subst grad. simpl in *. lra.
Qed.
