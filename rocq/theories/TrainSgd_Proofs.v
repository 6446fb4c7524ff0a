(** Proofs about stochastic gradient descent on networks. *)
From Verif Require Import Base BaseFacts Matrix RSum MatOps Vec Deriv Activation_Model Layer_Model Net_Model NetBuild_Model NetUse_Spec NetBuild_Proofs
  MaxPool_Proofs Evaluation_Model Alglib_Model Alglib_Spec Train_Model Train_Spec Train_Proofs DataSet_Model MBSGD_Model MBSGD_Spec MBSGD_Proofs MBSGD_Props.
Local Open Scope R_scope.

(** * The histories of MBSGD *)
Section Script.
Variables (pb : problem) (p0 : list R).

(** [script h p]: what MBSGD does to a problem; [p] are the parameters at the end *)
Inductive script : list event -> list R -> Prop :=
| script_nil : script [] p0
| script_set h p p' : script h p -> length p' = MBSGD_Model.dimension pb -> script (h ++ [SetParameters p']) p'
| script_gradient h p batch e g : script h p -> answer pb h p batch = (e, g) -> script (h ++ [ErrorGradient p batch e g]) p
| script_finished h p : script h p -> script (h ++ [FinishedIteration]) p.

Definition scripted (s : sgd) : Prop := script (history s) (optParameters s) /\ length (parameters s) = MBSGD_Model.dimension pb.

Lemma vmap2_length f a b c : vmap2 f a b = Ok c -> length c = length a.
Proof.
  intros E. assert (L : length a = length b). { unfold vmap2 in E. destruct (Nat.eqb_spec (length a) (length b)); auto. discriminate. }
  destruct (vmap2_Ok f a b L) as (c' & E' & L' & _). congruence.
Qed.

Lemma script_round c s a b s' a' b' : scripted s -> batchRound pb c (s, a, b) = Ok (s', a', b') -> scripted s'.
Proof.
  intros (H & L) E. unfold batchRound in E.
  assert (H1 : exists s1, (if nesterov c then p <- vadd (parameters s) (vscale (eta s) (momentum s)) ;; Ok (MBSGD_Model.setParameters p s) else Ok s) = Ok s1 /\ scripted s1).
  { destruct (nesterov c).
    - destruct (vadd (parameters s) (vscale (eta s) (momentum s))) as [p| | | |] eqn:Ep; try discriminate E. eexists. split; [reflexivity|].
      split; auto. cbn. apply script_set with (p := optParameters s); auto. apply vmap2_length in Ep. congruence.
    - exists s. split; auto. split; auto. }
  destruct H1 as (s1 & E1 & H1 & L1). rewrite E1 in E. cbn [bind] in E. clear E1 H L s. unfold MBSGD_Model.errorGradient in E.
  destruct (zidx a) as [ka| | | |]; try discriminate E. destruct (zidx b) as [kb| | | |]; try discriminate E. cbn [bind] in E.
  destruct (Nat.leb ka kb && Nat.leb kb (length (randomIndices s1)))%bool; [|discriminate E].
  destruct (answer pb (history s1) (optParameters s1) (firstn (kb - ka) (skipn ka (randomIndices s1)))) as [e g] eqn:Ea. cbn [bind] in E. cbn [dimP momentum gradient gains parameters eta alpha history optParameters] in E.
  match type of E with (' (_, _) <- ?m ;; _) = _ => destruct m as [[gns grad]| | | |]; try discriminate E end. cbn [bind] in E.
  match type of E with (_ <- ?m ;; _) = _ => destruct m as [mom| | | |]; try discriminate E end. cbn [bind] in E.
  destruct (vadd (parameters s1) mom) as [par| | | |] eqn:Ep; try discriminate E. cbn [bind] in E. apply vmap2_length in Ep.
  assert (E' : forall x y : sgd * Z * Z, Ok x = Ok y -> fst (fst x) = fst (fst y)) by congruence. apply E' in E. cbn [fst] in E. subst s'.
  pose proof (script_gradient _ _ _ _ _ H1 Ea) as H2.
  destruct (nesterov c); split; cbn; try congruence; auto.
  eapply script_set; eauto. congruence.
Qed.

Lemma script_step c s b s' : length (optParameters s) = MBSGD_Model.dimension pb -> ((0 <= iteration s)%Z -> length (parameters s) = MBSGD_Model.dimension pb) ->
  script (history s) (optParameters s) -> step pb c s = Ok (b, s') -> scripted s'.
Proof.
  intros LO LP H E. unfold step in E.
  assert (H1 : exists s1, (if Z.ltb (iteration s) 0 then MBSGD_Model.initialize pb c s else Ok s) = Ok s1 /\ scripted s1).
  { destruct (Z.ltb_spec (iteration s) 0) as [F|F].
    - destruct (MBSGD_Model.initialize pb c s) as [s1| | | |] eqn:E1; try discriminate E. exists s1. split; auto. unfold MBSGD_Model.initialize in E1.
      match type of E1 with (_ <- ?m ;; _) = _ => destruct m as [idx| | | |]; try discriminate E1 end. cbn [bind] in E1. injection E1 as <-.
      split; auto.
    - exists s. split; auto. split; auto. }
  destruct H1 as (s1 & E1 & S1). rewrite E1 in E. cbn [bind] in E. clear E1 H LO LP s.
  destruct (check (0 <? dimP s1)%Z) as [[]| | | |]; try discriminate E. cbn [bind] in E.
  destruct (check (0 <? numN s1)%Z) as [[]| | | |]; try discriminate E. cbn [bind] in E.
  destruct (check (0 <? batches s1)%Z) as [[]| | | |]; try discriminate E. cbn [bind] in E.
  destruct (zidx (numN s1)) as [n| | | |]; try discriminate E. cbn [bind] in E.
  match type of E with (_ <- ?m ;; _) = _ => destruct m as [idx| | | |]; try discriminate E end. cbn [bind] in E. cbn [batches] in E.
  destruct (zidx (batches s1)) as [m| | | |]; try discriminate E. cbn [bind] in E.
  match type of E with (' _ <- ?m ;; _) = _ => destruct m as [[[s2 u] v]| | | |] eqn:El; try discriminate E end. cbn [bind] in E.
  assert (S2 : scripted s2).
  { change (scripted (fst (fst (s2, u, v)))). unfold for_ in El. refine (for_pres (fun st : sgd * Z * Z => scripted (fst (fst st))) _ _ _ _ _ _ El _).
    - intros _ [[x xa] xb] [[y ya] yb] Ex Hx. eapply script_round; eauto.
    - exact S1. }
  injection E as _ <-. destruct S2 as (A & B). split; cbn; auto. now apply script_finished.
Qed.

(** [went s n s']: [n] steps lead from [s] to [s'] *)
Inductive went (c : config) (s : sgd) : nat -> sgd -> Prop :=
| went_0 : went c s 0 s
| went_S n s1 b s2 : went c s n s1 -> step pb c s1 = Ok (b, s2) -> went c s (S n) s2.
Lemma ran_went c s n s1 : ran pb c s n s1 -> went c s n s1.
Proof. intros H. induction H; econstructor; eauto. Qed.
Lemma went_reachable c a0 e0 s n s1 : MBSGD_Spec.reachable pb c a0 e0 s -> went c s n s1 -> MBSGD_Spec.reachable pb c a0 e0 s1.
Proof. intros HR H. induction H; auto. eapply r_step; eauto. Qed.

Lemma script_went c a0 e0 s n s1 : proper pb -> MBSGD_Spec.reachable pb c a0 e0 s -> history s = [] -> optParameters s = p0 ->
  went c s n s1 -> script (history s1) (optParameters s1).
Proof.
  intros HP HR H0 HO H. induction H as [|n s1 b s2 H IH E]; [rewrite H0, HO; apply script_nil|].
  pose proof (went_reachable _ _ _ _ _ _ HR H) as HR1. destruct (reachable_inv _ _ _ _ _ HP HR1). destruct inv_good as (G1 & G2).
  eapply script_step; eauto. intros F. destruct G2 as [G2|(G2 & _)]; [lia|]. apply G2.
Qed.

(** the epochs of a run *)
Lemma epochs_went c a0 e0 s n s1 : proper pb -> MBSGD_Spec.reachable pb c a0 e0 s -> history s = [] -> went c s n s1 ->
  exists eps : list (list (list nat)), batchesOf (history s1) = concat eps /\ length eps = n /\
    forall bs, In bs eps -> length bs = Nat.max (MBSGD_Model.examples pb / Z.to_nat (batchSize c)) 1 /\
      (forall x, In x bs -> length x = Nat.min (Z.to_nat (batchSize c)) (MBSGD_Model.examples pb)) /\ NoDup (concat bs) /\
      (forall i, In i (concat bs) -> (i < MBSGD_Model.examples pb)%nat).
Proof.
  intros HP HR H0 H. induction H as [|n s1 b s2 H IH E].
  - exists []. rewrite H0. split; auto. split; auto. intros bs [].
  - destruct IH as (eps & E1 & L & HE). pose proof (went_reachable _ _ _ _ _ _ HR H) as HR1.
    destruct (C21_epoch_uses_disjoint_batches pb c a0 e0 s1 HP HR1) as (run & s2' & h & E2 & EH & _ & B1 & B2 & B3 & B4 & _).
    rewrite E2 in E. injection E as -> ->. exists (eps ++ [batchesOf h]). split; [|split].
    + rewrite EH, batchesOf_app, concat_app, E1. simpl. now rewrite app_nil_r.
    + rewrite app_length, L. simpl. lia.
    + intros bs Hb. apply in_app_or in Hb as [Hb|[<-|[]]]; auto.
Qed.

(** optimize() can only run out of fuel *)
Lemma optimize_outcome c a0 e0 fuel : proper pb -> forall s, MBSGD_Spec.reachable pb c a0 e0 s ->
  MBSGD_Model.optimize fuel pb c s = Fuel \/ exists s', MBSGD_Model.optimize fuel pb c s = Ok s'.
Proof.
  intros HP. induction fuel as [|f IH]; intros s HR; cbn [MBSGD_Model.optimize]; auto.
  destruct (C21_epoch_uses_disjoint_batches pb c a0 e0 s HP HR) as (run & s' & h & E & _). rewrite E. cbn [bind].
  destruct (run && negb (signaled pb (history s')))%bool; eauto. apply IH. eapply r_step; eauto.
Qed.
Lemma optimize_more c fuel k : forall s s', MBSGD_Model.optimize fuel pb c s = Ok s' -> MBSGD_Model.optimize (k + fuel) pb c s = Ok s'.
Proof.
  induction fuel as [|f IH]; intros s s' E; [discriminate E|]. rewrite Nat.add_succ_r. cbn [MBSGD_Model.optimize] in *.
  destruct (step pb c s) as [[run s1]| | | |]; try discriminate E. cbn [bind] in *. destruct (run && negb (signaled pb (history s1)))%bool; auto.
Qed.
End Script.

Lemma gradients_batches h : batchesOf (gradients h) = batchesOf h.
Proof. induction h as [|[] h IH]; simpl; congruence. Qed.
Lemma in_batches p b e g h : In (ErrorGradient p b e g) h -> In b (batchesOf h).
Proof. induction h as [|x h IH]; intros H; [destruct H|]. destruct H as [->|H]; simpl; auto. destruct x; simpl; auto. Qed.

(** * Networks *)
Section Net.
Variables (junk : nat -> nat -> R) (d1 d2 d3 : nat) (cs : list command) (d : trainData) (ef : ErrorFunction).
Notation kc := (kclass junk).
Notation net := (Net_Model.net kc).
Notation trainable := (trainable junk d1 d2 d3 cs d ef).
Notation params := (Net_Model.currentParameters kc).
Notation dim := (Net_Model.dimension kc).
Notation N := (rows (dataIn d)).
Hypothesis HM : Forall no_max_norm cs.
Hypothesis HS : Forall always_smooth cs.
Hypothesis HCE : ef = CE -> forall i, (i < N)%nat -> rsum (cols (dataOut d)) (at_ (dataOut d) i) = 1.
Variable evaluate : net -> res net.
Hypothesis HE : only_applies junk d1 d2 d3 evaluate cs d ef.
Variable s0 : net.
Hypothesis H0 : trainable s0.
Notation eN := (eN junk d ef s0).
Notation gB := (gB junk s0).
Variables (shuffle : list event -> list nat -> list nat) (signaled : list event -> bool).
Notation pb := (net_problem junk evaluate shuffle signaled s0).
Definition valid (b : list nat) : Prop := b <> [] /\ Forall (fun i => (i < N)%nat) b.

Lemma replay_script h p : script pb (params s0) h p -> (forall b, In b (batchesOf h) -> valid b) ->
  (exists q, replay junk evaluate s0 h = Ok q /\ trainable q /\ params q = p) /\
  (forall at_ b e g, In (ErrorGradient at_ b e g) h -> e = batchError eN b at_ /\ g = gB b at_ /\ length at_ = dim s0).
Proof.
  intros S. induction S as [|h p p' S IH L|h p b e g S IH Ea|h p S IH]; intros HV.
  - split; [exists s0; auto|]. intros ? ? ? ? [].
  - rewrite batchesOf_app in HV. destruct IH as ((q & E & T & P) & IH). { intros b Hb. apply HV. apply in_or_app. auto. }
    cbn [MBSGD_Model.dimension net_problem] in L. split.
    + destruct (set_train junk d1 d2 d3 cs d ef HM q p' T) as (q' & E' & T' & P'). { rewrite L. eapply train_dims; eauto. }
      exists q'. split; auto. unfold replay in *. rewrite for_each_app, E. cbn [bind for_each happens]. now rewrite E'.
    + intros a b e g H. apply in_app_or in H as [H|[H|[]]]; [eauto|discriminate H].
  - rewrite batchesOf_app in HV. destruct IH as ((q & E & T & P) & IH). { intros b' Hb. apply HV. apply in_or_app. auto. }
    destruct (HV b) as (Hb & Hin). { apply in_or_app. right. simpl. auto. }
    destruct (gB_of junk d1 d2 d3 cs d ef HM HS HCE s0 H0 q b T Hb Hin) as (q' & E' & T' & P'). rewrite P in *.
    assert (LG : length (gB b p) = dim s0). { eapply gB_length; eauto. rewrite <- P. rewrite (train_length junk d1 d2 d3 cs d ef HM q T). eapply train_dims; eauto. }
    cbn [answer net_problem] in Ea. unfold net_answer in Ea. rewrite E in Ea. cbn [bind] in Ea. rewrite E' in Ea. rewrite LG, Nat.eqb_refl in Ea. injection Ea as <- <-.
    split.
    + exists q'. split; auto. unfold replay in *. rewrite for_each_app, E. cbn [bind for_each happens]. rewrite E'. cbn [bind]. now rewrite Nat.eqb_refl.
    + intros a b' e g H. apply in_app_or in H as [H|[H|[]]]; [eauto|]. injection H as <- <- <- <-. split; auto. split; auto.
      rewrite <- P. rewrite (train_length junk d1 d2 d3 cs d ef HM q T). eapply train_dims; eauto.
  - rewrite batchesOf_app in HV. destruct IH as ((q & E & T & P) & IH). { intros b Hb. apply HV. apply in_or_app. auto. }
    split.
    + destruct (finished_train junk d1 d2 d3 cs d ef HM evaluate HE q T) as (q' & E' & T' & P').
      exists q'. split; [|split; congruence]. unfold replay in *. rewrite for_each_app, E. cbn [bind for_each happens]. now rewrite E'.
    + intros a b e g H. apply in_app_or in H as [H|[H|[]]]; [eauto|discriminate H].
Qed.

Hypothesis HP : (0 < dim s0)%nat.
Hypothesis HN : (0 < N)%nat.
Hypothesis HSh : forall h l, Permutation l (shuffle h l).

Lemma net_proper : proper pb.
Proof.
  split; [exact HP|]. split; [cbn; rewrite (train_examples junk d1 d2 d3 cs d ef s0 H0); exact HN|]. split; [|exact HSh].
  intros h p b. cbn. unfold net_answer.
  match goal with |- length (snd (match ?m with _ => _ end)) = _ => destruct m as [[[q v] g]| | | |]; try apply repeat_length end.
  destruct (Nat.eqb_spec (length g) (dim s0)); auto. apply repeat_length.
Qed.

(** the settings of train *)
Variables (maxIter : Z) (minStep : R).
Definition sgdConfig : config := mkConfig false 1 0 0 1 10 1 1 maxIter minStep.
Definition sgdStart : sgd := mkSgd (-1) (-1) (-1) (-1) (1 / 100) (1 / 2) 0 [] [] [] [] [] (params s0) [].
Lemma sgd_new : newMBSGD (1 / 100) (1 / 2) 10 false 1 0 0 1 1 1 maxIter minStep (params s0) = Ok (sgdConfig, sgdStart).
Proof.
  clear - s0. destruct (newMBSGD_spec (1 / 100) (1 / 2) 10 false 1 0 0 1 1 1 maxIter minStep (params s0)) as [(_ & E)|(A & _)]; [exact E|].
  exfalso. apply A. unfold admissible. repeat split; lra || lia.
Qed.
Lemma sgd_reachable : MBSGD_Spec.reachable pb sgdConfig (1 / 100) (1 / 2) sgdStart.
Proof. eapply r_new; [exact sgd_new| |reflexivity|reflexivity]. cbn. eapply train_length; eauto. Qed.
Lemma sgd_noGain : useGain sgdConfig = false.
Proof. unfold useGain. cbn. unfold Reqb. destruct (Req_EM_T 1 1); [reflexivity|lra]. Qed.
Lemma sgd_rate k : learningRate sgdConfig (1 / 100) k = 1 / 100.
Proof. destruct k; auto. unfold learningRate. cbn [alphaDecay minAlpha sgdConfig]. rewrite pow1, Rmult_1_r. apply Rmax_left. lra. Qed.
Lemma sgd_momentum k : momentumRate sgdConfig (1 / 2) k = 1 / 2.
Proof. destruct k; auto. unfold momentumRate. cbn [etaGain maxEta sgdConfig]. rewrite Rmult_0_r, Rplus_0_r. apply Rmin_left. lra. Qed.

Lemma documented_descends evs p m g : ef = MSE -> Forall no_penalty cs ->
  documented (dim s0) sgdConfig (1 / 100) (1 / 2) (params s0) evs p m g ->
  (forall at_ b e g, In (ErrorGradient at_ b e g) evs -> valid b /\ g = gB b at_ /\ length at_ = dim s0) ->
  descends eN (params s0) (batchesOf evs) p m.
Proof.
  intros HF HNP H. pose proof (train_length junk d1 d2 d3 cs d ef HM s0 H0) as L0.
  induction H as [L|evs p m gn point batch err grad p' m' gn' H IH k L1 L2 L3 L4 HJ]; intros HV.
  - cbn. rewrite <- L0. apply descends_start.
  - rewrite batchesOf_app. cbn [batchesOf].
    destruct (documented_sizes _ _ _ _ _ _ _ _ _ H) as (Lp & Lm & Lg).
    assert (EP : point = p). { apply (nth_ext _ _ 0 0); [congruence|]. intros j Hj. destruct (HJ j) as (A & _); [congruence|]. exact A. }
    destruct (HV point batch err grad) as (Hb & Hg & _). { apply in_or_app. simpl. auto. }
    apply descends_batch with (x := p) (m := m) (g := grad); try congruence.
    + apply IH. intros at_ b e g Hi. eapply HV. apply in_or_app. eauto.
    + rewrite Hg, EP. destruct Hb as (B1 & B2). eapply gradient_exact; eauto.
    + intros j Hj. rewrite L0 in Hj. destruct (HJ j Hj) as (_ & A & B & C).
      pose proof (documented_gains_one _ _ _ _ _ _ _ _ _ sgd_noGain H j Hj) as G1.
      rewrite C, B, A. unfold newGain. rewrite sgd_noGain, G1, sgd_rate, sgd_momentum. lra.
Qed.

(** the whole run *)
Lemma sgd_run fuel o : MBSGD_Model.optimize fuel pb sgdConfig sgdStart = Ok o ->
  exists q eps m, replay junk evaluate s0 (history (snd (result o))) = Ok q /\ trainable q /\ params q = parameters o /\
    eps <> [] /\ Forall (is_epoch N) eps /\ (maxIter <> -1 -> Z.of_nat (length eps) <= Z.max 1 maxIter)%Z /\
    ((forall h, signaled h = false) -> (maxIter <> -1 /\ maxIter <= Z.of_nat (length eps))%Z \/ minStep <> 0 /\ norm m < minStep) /\
    (ef = MSE -> Forall no_penalty cs -> descends eN (params s0) (concat eps) (params q) m).
Proof.
  intros E. pose proof net_proper as HPr. pose proof sgd_reachable as HR.
  destruct (C26_optimize_stops_at_first fuel pb sgdConfig _ _ sgdStart o HPr HR) as (n & s1 & b & R1 & E1 & St & _ & Bd); auto. { unfold fresh. cbn. lia. }
  pose proof (went_S pb sgdConfig sgdStart n s1 b o (ran_went _ _ _ _ _ R1) E1) as W.
  pose proof (script_went pb (params s0) sgdConfig _ _ sgdStart _ o HPr HR eq_refl eq_refl W) as Sc.
  destruct (epochs_went pb sgdConfig _ _ sgdStart _ o HPr HR eq_refl W) as (eps & Eb & Le & He).
  destruct (run_documented pb sgdConfig _ _ sgdStart n s1 b o HPr HR ltac:(cbn; lia) R1 E1) as (h & Eh & _ & Hd & Ho & _). cbn in Eh. subst h.
  specialize (Ho eq_refl).
  assert (HX : MBSGD_Model.examples pb = N). { cbn. eapply train_examples; eauto. }
  rewrite HX in He. change (Z.to_nat (batchSize sgdConfig)) with 10%nat in He.
  assert (HV : forall b, In b (batchesOf (history o)) -> valid b).
  { intros bt Hb. rewrite Eb in Hb. apply in_concat in Hb as (ep & He1 & He2). destruct (He ep He1) as (_ & A & _ & B). split.
    - intros ->. specialize (A _ He2). cbn [length] in A. lia.
    - apply Forall_forall. intros i Hi. apply B. apply in_concat. eauto. }
  destruct (documented_sizes _ _ _ _ _ _ _ _ _ Hd) as (Lp & _).
  pose proof (script_set pb (params s0) _ _ (parameters o) Sc Lp) as Sc'.
  destruct (replay_script _ _ Sc') as ((q & Eq & Tq & Pq) & HG). { rewrite batchesOf_app. cbn. rewrite app_nil_r. exact HV. }
  exists q, eps, (momentum o). split; [exact Eq|]. split; auto. split; auto. split; [destruct eps; [discriminate Le|easy]|]. split.
  { apply Forall_forall. intros ep Hp. destruct (He ep Hp) as (A & B & C & F). split; auto. }
  split; [rewrite Le; exact Bd|]. split.
  { intros Hs. cbn [MBSGD_Model.signaled net_problem] in St. rewrite Hs in St. destruct St as [St|St]; [|discriminate St]. unfold wants_more in St. cbn [maximalIterations minimalSearchSpaceStep sgdConfig] in St.
    rewrite Le. destruct (Z.eq_dec maxIter (-1)) as [A|A]; [|destruct (Z.lt_ge_cases (Z.of_nat (S n)) maxIter) as [B|B]; [|left; lia]];
      (right; destruct (Req_EM_T minStep 0) as [F|F]; [exfalso; tauto|]; split; auto; apply Rnot_le_lt; tauto). }
  intros HF HNP. rewrite Pq, <- Eb, <- gradients_batches. eapply documented_descends; eauto.
  intros at_ bt e g Hi. assert (Hi' : In (ErrorGradient at_ bt e g) (history o)). { unfold gradients in Hi. apply filter_In in Hi. tauto. }
  destruct (HG at_ bt e g) as (_ & A & B). { apply in_or_app. auto. } split; auto. apply HV. eapply in_batches; eauto.
Qed.

Lemma sgd_outcome fuel : MBSGD_Model.optimize fuel pb sgdConfig sgdStart = Fuel \/ exists o, MBSGD_Model.optimize fuel pb sgdConfig sgdStart = Ok o.
Proof. eapply optimize_outcome; [exact net_proper|exact sgd_reachable]. Qed.
Lemma sgd_ends fuel : (maxIter <> -1)%Z -> (Z.to_nat maxIter < fuel)%nat -> exists o, MBSGD_Model.optimize fuel pb sgdConfig sgdStart = Ok o.
Proof.
  intros HI Hf. destruct (optimize_terminates pb sgdConfig _ _ sgdStart net_proper sgd_reachable) as (o & E); auto. { cbn. lia. }
  exists o. replace fuel with ((fuel - S (Z.to_nat (maximalIterations sgdConfig))) + S (Z.to_nat (maximalIterations sgdConfig)))%nat by (cbn [maximalIterations sgdConfig]; lia).
  now apply optimize_more.
Qed.
End Net.
