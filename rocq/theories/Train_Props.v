(** Theorems about the training of networks (C87, C88); examples are in TrainExamples_Props.v. *)
From Coq Require Import String.
From Verif Require Import Base BaseFacts Matrix RSum MatOps Vec Deriv Activation_Model Layer_Model Layer_Proofs FC_Model SimpleLayers_Model Conv_Model
  Pool_Model Net_Model NetChain_Proofs Net_Proofs NetBuild_Model NetUse_Spec NetBuild_Proofs Net_Props NetInit_Proofs NetInit_Props Evaluation_Model MBSGD_Model
  Alglib_Model Alglib_Spec Alglib_Proofs Alglib_Props Train_Model Train_Spec Train_Proofs TrainSgd_Proofs.
Local Open Scope R_scope.

Section Train.
Variables (junk : nat -> nat -> R) (d1 d2 d3 : nat).
Notation kc := (kclass junk).
Notation net := (Net_Model.net kc).
Notation params := (Net_Model.currentParameters kc).
Notation dim := (Net_Model.dimension kc).

(** * C87: a network is a deterministic optimization problem.
    [error i x] is what error(i) returns after setParameters(x).  As seen by an optimizer, error() is the mean of these, errorGradient()
    returns error() and a vector that only depends on the parameters; for the mean squared error it is the gradient.  A single
    instance may have penalties, the error of several instances only has this gradient if there are none (see C38). *)
Theorem C87_network_is_objective evaluate cs d ef s : Forall no_max_norm cs -> Forall always_smooth cs -> (0 < rows (dataIn d))%nat ->
  (ef = CE -> forall i, (i < rows (dataIn d))%nat -> rsum (cols (dataOut d)) (at_ (dataOut d) i) = 1) ->
  only_applies junk d1 d2 d3 evaluate cs d ef -> trainable junk d1 d2 d3 cs d ef s ->
  let N := rows (dataIn d) in
  exists (error : nat -> vec -> R) (gradient : list nat -> vec -> vec),
    network_error junk d1 d2 d3 cs d ef error /\
    behaves (net_objective junk evaluate) (trainable junk d1 d2 d3 cs d ef) (dim s) N
      (batchError error (seq 0 N)) (gradient (seq 0 N)) error (fun i => gradient [i]) /\
    (ef = MSE -> forall batch x, (length batch = 1%nat \/ batch <> [] /\ Forall no_penalty cs) -> Forall (fun i => (i < N)%nat) batch ->
       length x = dim s -> gradient_of (batchError error batch) x (gradient batch x)).
Proof.
  intros HM HS HN HCE HE T N. exists (eN junk d ef s), (gB junk s). split; [now apply network_error_ok|]. split; [now apply net_behaves|].
  intros HF batch x Hc Hin Hx. eapply gradient_exact; eauto.
Qed.

(** finishedIteration() evaluates the network without dropout and changes neither its parameters nor the use of dropout. *)
Theorem C87_finishedIteration evaluate cs d ef s : Forall no_max_norm cs -> only_applies junk d1 d2 d3 evaluate cs d ef ->
  reachable junk d1 d2 d3 cs s -> trainSet kc s = Some d -> errorFunction kc s = ef ->
  exists s', net_finishedIteration junk evaluate s = Ok s' /\ reachable junk d1 d2 d3 cs s' /\ params s' = params s /\
    dropout kc s' = dropout kc s /\ trainSet kc s' = Some d /\ errorFunction kc s' = ef.
Proof.
  intros HM HE HR HD HF. assert (T0 : trainable junk d1 d2 d3 cs d ef (useDropout kc s false)).
  { split; [|auto]. eapply reach_call; [exact HR|]. apply call_useDropout. }
  destruct (HE _ T0) as (q & E & A). destruct (applies_kept junk d1 d2 d3 cs d ef HM _ _ T0 A) as ((T1 & T2 & T3 & T4) & P1).
  unfold net_finishedIteration. rewrite E. cbn [bind]. eexists. split; [reflexivity|]. split; auto.
  eapply reach_call; [exact T1|]. apply call_useDropout.
Qed.

(** MulticlassEvaluator is such an evaluator, on the training set or any other data set. *)
Theorem C87_multiclassEvaluator logs d' cs d ef : Forall no_max_norm cs -> cols (dataIn d') = (d1 * d2 * d3)%nat ->
  only_applies junk d1 d2 d3 (multiclassEvaluate junk logs d') cs d ef.
Proof.
  intros HM HC s T. unfold multiclassEvaluate. destruct logs; [|exists s; split; [reflexivity|apply applies_none]].
  destruct (for_inv (fun _ (q : net) => applies junk s q) (fun n s => x <- rowOf (dataIn d') n ;; ' (s, _) <- net_apply kc s x ;; Ok s) (rows (dataIn d')) s) as (q & E & A).
  - apply applies_none.
  - intros k q Hk A. destruct (applies_kept junk d1 d2 d3 cs d ef HM _ _ T A) as (Tq & _).
    unfold rowOf. rewrite (proj2 (Nat.ltb_lt _ _)) by auto. cbn [check bind]. set (x := mkMat 1 (cols (dataIn d')) (fun _ j => at_ (dataIn d') k j)).
    assert (HX : cols x = netInputs q). { cbn [cols x]. rewrite HC. symmetry. apply (u_inputs _ _ _ _ _ _ (train_usable junk d1 d2 d3 cs d ef HM q Tq)). }
    destruct (forward_net kc nI nO nK (nInv junk) (nsmooth junk) (nfn junk) (nrg junk) (nok junk) isIn _ _ q x (train_good junk d1 d2 d3 cs d ef HM q Tq) HX)
      as (ls & Y & Yo & Ef & Eo & SY & SYo & En & _).
    { intros _. split; [cbn; lia|]. eapply train_pos; eauto. }
    assert (Ea : exists q' y, net_apply kc q x = Ok (q', y)). { unfold net_apply. rewrite En. cbn [bind]. eauto. }
    destruct Ea as (q' & y & Ea). rewrite Ea. cbn [bind]. exists q'. split; [reflexivity|].
    apply (applies_next junk s q x q' y); auto.
  - exists q. auto.
Qed.

(** * C88: train *)
Lemma redraw_smooth w cs : forall i, Forall always_smooth cs -> Forall always_smooth (redraw w i cs).
Proof.
  induction cs as [|[l|r] cs IH]; intros i H; cbn [redraw]; auto; inversion H as [|? ? H1 H2]; subst; constructor; auto. destruct l; exact H1.
Qed.
Lemma redraw_penalty w cs : forall i, Forall no_penalty cs -> Forall no_penalty (redraw w i cs).
Proof. induction cs as [|[l|r] cs IH]; intros i H; cbn [redraw]; auto; inversion H as [|? ? H1 H2]; subst; constructor; auto. Qed.

Lemma smooth_no_rbm cs : Forall always_smooth cs -> Forall no_rbm cs.
Proof. apply Forall_impl. intros [[]|] X; try exact I; destruct X. Qed.

(** the preparations of train *)
Definition prepare (w : nat -> nat -> nat -> R) (reinitialize : bool) (s : net) : res net := if reinitialize then net_initialize junk w s else Ok s.
Lemma prepare_ok w reinitialize cs d s : Forall no_max_norm cs -> (reinitialize = true -> Forall no_rbm cs) -> reachable junk d1 d2 d3 cs s -> trainSet kc s = Some d ->
  exists cs1 s1, prepare w reinitialize s = Ok s1 /\ starts junk d1 d2 d3 w reinitialize cs s cs1 (params s1) /\
    reachable junk d1 d2 d3 cs1 s1 /\ trainSet kc s1 = Some d /\ Forall no_max_norm cs1 /\ (Forall always_smooth cs -> Forall always_smooth cs1) /\
    (Forall no_penalty cs -> Forall no_penalty cs1) /\ dim s1 = dim s.
Proof.
  intros HM HB HR HD. unfold prepare, starts. destruct reinitialize.
  - destruct (C86_initialize_like_new_partial junk d1 d2 d3 cs s w HM (HB eq_refl) HR) as (f & s1 & Ef & E1 & R1 & P1 & D1 & F1 & T1 & _).
    exists (redraw w 1 cs), s1. split; auto. split; [split; auto; exists f; auto|]. split; auto. split; [congruence|].
    split; [now apply (redraw_max_norm junk)|]. split; [apply redraw_smooth|]. split; [apply redraw_penalty|exact D1].
  - exists cs, s. split; auto 10.
Qed.
Lemma prepared_trainable cs1 d ef s1 : reachable junk d1 d2 d3 cs1 s1 -> trainSet kc s1 = Some d ->
  trainable junk d1 d2 d3 cs1 d ef (useDropout kc (setErrorFunction kc s1 ef) false).
Proof.
  intros HR HD. split; [|auto]. eapply reach_call; [|apply call_useDropout]. eapply reach_call; [exact HR|]. constructor.
Qed.
Lemma finally_trainable cs1 d ef s1 : trainable junk d1 d2 d3 cs1 d ef s1 -> trainable junk d1 d2 d3 cs1 d ef (useDropout kc s1 false).
Proof. intros (T1 & T2 & T3 & T4). split; [|auto]. eapply reach_call; [exact T1|]. apply call_useDropout. Qed.

Open Scope string_scope.

(** MBSGD performs gradient descent on batches of ten instances with learning rate 1/100 and momentum 1/2 (the constructor's defaults), starting at
    the current or the new parameters, for the number of epochs given by the stopping criteria. *)
Theorem C88_train_MBSGD evaluate ext w stop reinitialize cs d ef s : ready junk d1 d2 d3 evaluate cs d ef s ->
  (forall h l, Permutation l (permute ext h l)) ->
  let N := rows (dataIn d) in
  exists cs1 x0 error, starts junk d1 d2 d3 w reinitialize cs s cs1 x0 /\ network_error junk d1 d2 d3 cs1 d ef error /\
  forall fuel, let run := train junk evaluate ext w fuel "MBSGD" ef stop reinitialize false s in
    ((maxIterations stop <> -1)%Z -> (Z.to_nat (maxIterations stop) < fuel)%nat -> run <> Fuel) /\
    (run = Fuel \/ exists s' epochs m, run = Ok (s', true) /\ trainable junk d1 d2 d3 cs1 d ef s' /\
      epochs <> [] /\ Forall (is_epoch N) epochs /\
      (maxIterations stop <> -1 -> Z.of_nat (length epochs) <= Z.max 1 (maxIterations stop))%Z /\
      ((forall h, interruptedSgd ext h = false) ->
        (maxIterations stop <> -1 /\ maxIterations stop <= Z.of_nat (length epochs))%Z \/ minSearchSpaceStep stop <> 0 /\ norm m < minSearchSpaceStep stop) /\
      (ef = MSE -> Forall no_penalty cs -> descends error x0 (concat epochs) (params s') m)).
Proof.
  intros (HR & HD & HN & HP & HM & HS & HCE & HE) HSh N.
  destruct (prepare_ok w reinitialize cs d s HM (fun _ => smooth_no_rbm cs HS) HR HD) as (cs1 & s1 & E1 & St & R1 & D1 & M1 & S1 & P1 & Dm).
  set (q := useDropout kc (setErrorFunction kc s1 ef) false). pose proof (prepared_trainable cs1 d ef s1 R1 D1) as T. fold q in T.
  exists cs1, (params q), (eN junk d ef q). split; [exact St|]. split; [apply network_error_ok; auto|].
  assert (HPq : (0 < dim q)%nat) by (change (dim q) with (dim s1); lia).
  intros fuel run.
  assert (ER : run = (o <- MBSGD_Model.optimize fuel (net_problem junk evaluate (permute ext) (interruptedSgd ext) q) (sgdConfig (maxIterations stop) (minSearchSpaceStep stop)) (sgdStart junk q) ;;
     s' <- replay junk evaluate q (history (snd (MBSGD_Model.result o))) ;; Ok (useDropout kc s' false, true))).
  { unfold run, train. fold (prepare w reinitialize s). rewrite E1. cbn [bind]. cbn [String.eqb Ascii.eqb Bool.eqb]. fold q. unfold mbsgd_train.
    rewrite (sgd_new junk). cbn [bind]. destruct (MBSGD_Model.optimize _ _ _ _); reflexivity. }
  specialize (S1 HS). specialize (HE cs1 M1). split.
  - intros HI Hf EF. destruct (sgd_ends junk d1 d2 d3 cs1 d ef M1 evaluate q T (permute ext) (interruptedSgd ext) HPq HN HSh (maxIterations stop) (minSearchSpaceStep stop) fuel HI Hf) as (o & Eo).
    destruct (sgd_run junk d1 d2 d3 cs1 d ef M1 S1 HCE evaluate HE q T (permute ext) (interruptedSgd ext) HPq HN HSh (maxIterations stop) (minSearchSpaceStep stop) fuel o Eo) as (q' & eps & m & Eq & _).
    rewrite ER, Eo in EF. cbn [bind] in EF. rewrite Eq in EF. discriminate EF.
  - destruct (sgd_outcome junk d1 d2 d3 cs1 d ef M1 evaluate q T (permute ext) (interruptedSgd ext) HPq HN HSh (maxIterations stop) (minSearchSpaceStep stop) fuel) as [Eo|(o & Eo)].
    + left. rewrite ER, Eo. reflexivity.
    + right. destruct (sgd_run junk d1 d2 d3 cs1 d ef M1 S1 HCE evaluate HE q T (permute ext) (interruptedSgd ext) HPq HN HSh (maxIterations stop) (minSearchSpaceStep stop) fuel o Eo)
        as (q' & eps & m & Eq & Tq & Pq & A1 & A2 & A3 & A4 & A5).
      exists (useDropout kc q' false), eps, m. split; [rewrite ER, Eo; cbn [bind]; rewrite Eq; reflexivity|].
      split; [now apply finally_trainable|]. split; auto. split; auto 10.
Qed.

(** CG and L-BFGS run ALGLIB's solver on the mean error of the training set, starting at the current or the new parameters, and leave the
    result of the solver in the network ... *)
Theorem C88_train_gradient evaluate ext w stop reinitialize cs d ef s algorithm S memory : ready junk d1 d2 d3 evaluate cs d ef s ->
  (algorithm, S, memory) = ("CG", mincg ext, 0%Z) \/ (algorithm, S, memory) = ("LBFGS", minlbfgs ext, 10%Z) ->
  (forall l, (0 <= repiterationscount S l)%Z) ->
  let N := rows (dataIn d) in
  exists cs1 x0 error gradient, starts junk d1 d2 d3 w reinitialize cs s cs1 x0 /\ network_error junk d1 d2 d3 cs1 d ef error /\
  let e := batchError error (seq 0 N) in
  (ef = MSE -> Forall no_penalty cs -> forall x, length x = dim s -> gradient_of e x (gradient x)) /\
  let start := create S (Z.min memory (Z.of_nat (dim s))) x0 (minSearchSpaceStep stop) (minValueDifferences stop) 0
    (if Z.eqb (maxIterations stop) (-1) then 0%Z else maxIterations stop) in
  forall k r fuel, solves S (dim s) e gradient k start r -> (forall l, visits S (dim s) e gradient start l -> length (results S l) = dim s) -> (k < fuel)%nat ->
  exists s', train junk evaluate ext w fuel algorithm ef stop reinitialize false s = Ok (s', true) /\ trainable junk d1 d2 d3 cs1 d ef s' /\
    (params s' = r \/ (exists i, interrupted ext i = true) /\ exists l, visits S (dim s) e gradient start l /\ params s' = results S l).
Proof.
  intros (HR & HD & HN & HP & HM & HS & HCE & HE) HA Hrep N.
  destruct (prepare_ok w reinitialize cs d s HM (fun _ => smooth_no_rbm cs HS) HR HD) as (cs1 & s1 & E1 & St & R1 & D1 & M1 & S1 & P1 & Dm).
  set (q := useDropout kc (setErrorFunction kc s1 ef) false). pose proof (prepared_trainable cs1 d ef s1 R1 D1) as T. fold q in T.
  exists cs1, (params q), (eN junk d ef q), (gB junk q (seq 0 N)). split; [exact St|]. split; [apply network_error_ok; auto|].
  assert (Dq : dim q = dim s) by exact Dm. specialize (S1 HS). specialize (HE cs1 M1). intros e. split.
  { intros HF HNP x Hx. rewrite <- Dq in Hx. eapply gradient_exact; eauto. right. split; auto. unfold N. destruct (rows (dataIn d)); [lia|discriminate]. apply allIn. }
  intros start k r fuel Hs Hl Hk.
  assert (Est : start = created S (alglibStop stop) (Z.min memory (Z.of_nat (dim s))) (params q)) by (symmetry; apply (C85_settings S (alglibStop stop))).
  clearbody start. subst start.
  pose proof (net_behaves junk d1 d2 d3 cs1 d ef M1 S1 HCE evaluate HE q T HN) as HB. fold N in HB. fold e in HB. rewrite Dq in HB.
  destruct (cg_optimize_ok S (net_objective junk evaluate) (alglibStop stop) (dim s) N (trainable junk d1 d2 d3 cs1 d ef) e (gB junk q (seq 0 N)) _ _ HB Hrep
    (interrupted ext) k (optimizer_new S memory) q r fuel T) as (o & p & Eo & Tp & Fin); auto; try reflexivity.
  assert (HX : length (optimum o) = dim s /\ (optimum o = r \/ (exists i, interrupted ext i = true) /\ exists l, visits S (dim s) e (gB junk q (seq 0 N)) (created S (alglibStop stop) (Z.min memory (Z.of_nat (dim s))) (params q)) l /\ optimum o = results S l)).
  { destruct Fin as [(F & _)|(F & l & Hv & Ho & _)].
    - rewrite F. split; auto. eapply solves_length; eauto.
    - rewrite Ho. split; [apply Hl; exact Hv|]. right. split; auto. exists l. auto. }
  destruct HX as (L & HX). destruct (set_train junk d1 d2 d3 cs1 d ef M1 p (optimum o) Tp) as (p' & Ep & Tp' & Pp).
  { rewrite L, <- Dq. eapply train_dims; eauto. }
  assert (EC : cg_train junk evaluate ext S memory stop fuel q = Ok p').
  { unfold cg_train. rewrite Eo. cbn [bind]. unfold cg_result. cbn [Alglib_Model.setParameters net_objective]. rewrite Ep. reflexivity. }
  exists (useDropout kc p' false). split; [|split; [now apply finally_trainable|]].
  - unfold train. fold (prepare w reinitialize s). rewrite E1. cbn [bind]. fold q.
    destruct HA as [HA|HA]; injection HA as -> -> ->; cbn [String.eqb Ascii.eqb Bool.eqb]; rewrite EC; reflexivity.
  - change (params (useDropout kc p' false)) with (params p'). rewrite Pp. exact HX.
Qed.

(** ... and LMA does the same with the errors of the single instances. *)
Theorem C88_train_LMA evaluate ext w stop reinitialize cs d ef s : ready junk d1 d2 d3 evaluate cs d ef s ->
  let S := minlm ext in
  (forall l, (0 <= repiterationscount S l)%Z) ->
  let N := rows (dataIn d) in
  exists cs1 x0 error gradient, starts junk d1 d2 d3 w reinitialize cs s cs1 x0 /\ network_error junk d1 d2 d3 cs1 d ef error /\
  (ef = MSE -> forall i x, (i < N)%nat -> length x = dim s -> gradient_of (error i) x (gradient i x)) /\
  let e := allErrors N error in let g := allGradients N gradient in
  let start := create S 0 x0 (minSearchSpaceStep stop) (minValueDifferences stop) 0
    (if Z.eqb (maxIterations stop) (-1) then 0%Z else maxIterations stop) in
  forall k r fuel, solves S (dim s) e g k start r -> (forall l, visits S (dim s) e g start l -> length (results S l) = dim s) -> (k < fuel)%nat ->
  exists s', train junk evaluate ext w fuel "LMA" ef stop reinitialize false s = Ok (s', true) /\ trainable junk d1 d2 d3 cs1 d ef s' /\
    (params s' = r \/ (exists i, interrupted ext i = true) /\ exists l, visits S (dim s) e g start l /\ params s' = results S l).
Proof.
  intros (HR & HD & HN & HP & HM & HS & HCE & HE) S Hrep N.
  destruct (prepare_ok w reinitialize cs d s HM (fun _ => smooth_no_rbm cs HS) HR HD) as (cs1 & s1 & E1 & St & R1 & D1 & M1 & S1 & P1 & Dm).
  set (q := useDropout kc (setErrorFunction kc s1 ef) false). pose proof (prepared_trainable cs1 d ef s1 R1 D1) as T. fold q in T.
  exists cs1, (params q), (eN junk d ef q), (fun i => gB junk q [i]). split; [exact St|]. split; [apply network_error_ok; auto|].
  assert (Dq : dim q = dim s) by exact Dm. specialize (S1 HS). specialize (HE cs1 M1). split.
  { intros HF i x Hi Hx. rewrite <- Dq in Hx. destruct (gradient_exact junk d1 d2 d3 cs1 d ef M1 S1 HCE q T [i] x HF) as (G1 & G2); auto.
    split; auto. intros j Hj. eapply D_ext; [|exact (G2 j Hj)]. intros v. cbn. unfold batchError. cbn. field. }
  intros e g start k r fuel Hs Hl Hk.
  assert (Est : start = created S (alglibStop stop) 0 (params q)) by (symmetry; apply (C85_settings S (alglibStop stop))).
  clearbody start. subst start.
  pose proof (net_behaves junk d1 d2 d3 cs1 d ef M1 S1 HCE evaluate HE q T HN) as HB. fold N in HB. rewrite Dq in HB.
  destruct (lma_optimize_ok S (net_objective junk evaluate) (alglibStop stop) (dim s) N (trainable junk d1 d2 d3 cs1 d ef) _ _ _ _ HB Hrep
    (interrupted ext) k (optimizer_new S 0) q r fuel T) as (o & p & Eo & Tp & Fin); auto; try reflexivity.
  assert (HX : length (optimum o) = dim s /\ (optimum o = r \/ (exists i, interrupted ext i = true) /\ exists l, visits S (dim s) e g (created S (alglibStop stop) 0 (params q)) l /\ optimum o = results S l)).
  { destruct Fin as [(F & _)|(F & l & Hv & Ho & _)].
    - rewrite F. split; auto. eapply solves_length; eauto.
    - rewrite Ho. split; [apply Hl; exact Hv|]. right. split; auto. exists l. auto. }
  destruct HX as (L & HX). destruct (set_train junk d1 d2 d3 cs1 d ef M1 p (optimum o) Tp) as (p' & Ep & Tp' & Pp).
  { rewrite L, <- Dq. eapply train_dims; eauto. }
  assert (EC : lma_train junk evaluate ext stop fuel q = Ok p').
  { unfold lma_train. fold S. rewrite Eo. cbn [bind]. unfold lma_result. cbn [Alglib_Model.setParameters net_objective]. rewrite Ep. reflexivity. }
  exists (useDropout kc p' false). split; [|split; [now apply finally_trainable|]].
  - unfold train. fold (prepare w reinitialize s). rewrite E1. cbn [bind]. fold q. cbn [String.eqb Ascii.eqb Bool.eqb]. rewrite EC. reflexivity.
  - change (params (useDropout kc p' false)) with (params p'). rewrite Pp. exact HX.
Qed.

(** After any training that returns, dropout is off. *)
Theorem C88_no_dropout_afterwards evaluate ext w fuel algorithm ef stop reinitialize dropout s s' :
  train junk evaluate ext w fuel algorithm ef stop reinitialize dropout s = Ok (s', true) -> Net_Model.dropout kc s' = false.
Proof.
  unfold train. fold (prepare w reinitialize s). destruct (prepare w reinitialize s) as [s1| | | |]; try discriminate. cbn [bind].
  repeat match goal with |- context [if String.eqb algorithm ?a then _ else _] => destruct (String.eqb algorithm a) end;
    try (match goal with |- bind ?m _ = _ -> _ => destruct m; try discriminate end; cbn [bind]; intros E; injection E as <-; reflexivity).
  discriminate.
Qed.

(** With any other name train throws, but only after it has changed the network. *)
Theorem C88_unknown_algorithm evaluate ext w fuel algorithm stop reinitialize dropout cs d ef s : Forall no_max_norm cs -> (reinitialize = true -> Forall no_rbm cs) ->
  reachable junk d1 d2 d3 cs s -> trainSet kc s = Some d -> ~ In algorithm ["MBSGD"; "LMA"; "CG"; "LBFGS"; "CMAES"] ->
  exists cs1 x0 s', starts junk d1 d2 d3 w reinitialize cs s cs1 x0 /\ train junk evaluate ext w fuel algorithm ef stop reinitialize dropout s = Ok (s', false) /\
    params s' = x0 /\ errorFunction kc s' = ef /\ Net_Model.dropout kc s' = dropout.
Proof.
  intros HM HB HR HD HA. destruct (prepare_ok w reinitialize cs d s HM HB HR HD) as (cs1 & s1 & E1 & St & _).
  exists cs1, (params s1). eexists. split; [exact St|]. split; [|split; [|split]].
  - unfold train. fold (prepare w reinitialize s). rewrite E1. cbn [bind].
    repeat match goal with |- context [if String.eqb algorithm ?a then _ else _] => destruct (String.eqb_spec algorithm a) as [X|_]; [exfalso; apply HA; rewrite X; simpl; tauto|] end.
    reflexivity.
  - reflexivity.
  - reflexivity.
  - reflexivity.
Qed.
End Train.

Print Assumptions C87_network_is_objective.
Print Assumptions C87_finishedIteration.
Print Assumptions C87_multiclassEvaluator.
Print Assumptions C88_train_MBSGD.
Print Assumptions C88_train_gradient.
Print Assumptions C88_train_LMA.
Print Assumptions C88_no_dropout_afterwards.
Print Assumptions C88_unknown_algorithm.
