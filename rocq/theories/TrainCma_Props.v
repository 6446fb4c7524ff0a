(** Training with CMA-ES (C88). *)
From Coq Require Import String.
From Verif Require Import Base BaseFacts Matrix RSum Net_Model NetBuild_Model NetUse_Spec Evaluation_Model Train_Model Train_Spec Train_Proofs Train_Props
  IPOP_Model IPOP_Spec IPOP_Proofs IPOP_Props TrainCma_Proofs.
Local Open Scope R_scope.

Section Train.
Variables (junk : nat -> nat -> R) (d1 d2 d3 : nat).
Notation kc := (kclass junk).
Notation params := (Net_Model.currentParameters kc).
Notation dim := (Net_Model.dimension kc).

Lemma netError_is cs d ef q x : Forall no_max_norm cs -> trainable junk d1 d2 d3 cs d ef q -> length x = dim q ->
  netError junk q x = batchError (eN junk d ef q) (seq 0 (rows (dataIn d))) x.
Proof.
  intros HM T Hx. destruct (set_train junk d1 d2 d3 cs d ef HM q x T Hx) as (q1 & E1 & T1 & P1).
  destruct (error_train junk d1 d2 d3 cs d ef HM q1 T1) as (q2 & E2 & _). unfold netError. rewrite E1. cbn [bind]. rewrite E2. cbn [bind].
  unfold batchError. rewrite seq_length, (nth_seq_ext (rows (dataIn d)) (fun i => eN junk d ef q i x)). f_equal. apply rsum_ext. intros i _.
  rewrite <- P1. eapply eN_of; eauto.
Qed.

Lemma evaluateAll_ok cs d ef n : Forall no_max_norm cs -> forall tr q, trainable junk d1 d2 d3 cs d ef q -> dim q = n -> Forall (fun x => length x = n) (evaluated tr) ->
  exists q', evaluateAll junk q tr = Ok q' /\ trainable junk d1 d2 d3 cs d ef q' /\ dim q' = n.
Proof.
  intros HM. induction tr as [|ev tr IH]; intros q T Dq HL; [exists q; auto|]. unfold evaluateAll. cbn [for_each].
  destruct ev as [l|x]; cbn [bind].
  - apply IH; auto.
  - inversion HL as [|? ? H1 H2]; subst. destruct (set_train junk d1 d2 d3 cs d ef HM q x T H1) as (q1 & E1 & T1 & _). rewrite E1. cbn [bind].
    destruct (error_train junk d1 d2 d3 cs d ef HM q1 T1) as (q2 & E2 & T2 & _). rewrite E2. cbn [bind].
    apply IH; auto. eapply train_dims; eauto.
Qed.

Open Scope string_scope.

(** CMAES evaluates the mean error of the training set at points that the library proposes and leaves the best of all evaluated
    points in the network; the documented limits of the stopping criteria apply as in C29. *)
Theorem C88_train_CMAES evaluate ext w stop reinitialize cs d ef s : ready junk d1 d2 d3 evaluate cs d ef s ->
  library_ok (dim s) (lambda0 ext) (samplePopulation ext) (libraryTerminates ext) ->
  (maxFunctionEvaluations stop = -1 \/ 1 <= maxFunctionEvaluations stop)%Z -> (0 <= maxRestarts stop)%Z ->
  let N := rows (dataIn d) in
  exists cs1 x0 error, starts junk d1 d2 d3 w reinitialize cs s cs1 x0 /\ network_error junk d1 d2 d3 cs1 d ef error /\
  let e := batchError error (seq 0 N) in
  ((forall x, length x = dim s -> e x < dblmax ext) ->
   ((1 <= maxFunctionEvaluations stop)%Z -> exists fuel0, forall fuel, (fuel0 <= fuel)%nat ->
      train junk evaluate ext w fuel "CMAES" ef stop reinitialize false s <> Fuel) /\
   exists value, (forall x, length x = dim s -> value x = e x) /\
   forall fuel, let run := train junk evaluate ext w fuel "CMAES" ef stop reinitialize false s in
     let optimization := optimize (dim s) value (samplePopulation ext) (libraryTerminates ext) (maxFunctionEvaluations stop) (maxRestarts stop) (minValue stop)
       fuel (ipop_init (dblmax ext) (lambda0 ext)) in
     run = Fuel \/ exists o s', optimization = Ok o /\ run = Ok (s', true) /\ trainable junk d1 d2 d3 cs1 d ef s' /\
       Forall (fun x => length x = dim s) (evaluated (trace o)) /\ In (params s') (evaluated (trace o)) /\
       forall y, In y (evaluated (trace o)) -> e (params s') <= e y).
Proof.
  intros (HR & HD & HN & HP & HM & HS & HCE & HE) HL HF HRs N.
  destruct (prepare_ok junk d1 d2 d3 w reinitialize cs d s HM (fun _ => smooth_no_rbm cs HS) HR HD) as (cs1 & s1 & E1 & St & R1 & D1 & M1 & S1 & P1 & Dm).
  set (q := useDropout kc (setErrorFunction kc s1 ef) false). pose proof (prepared_trainable junk d1 d2 d3 cs1 d ef s1 R1 D1) as T. fold q in T.
  exists cs1, (params q), (eN junk d ef q). split; [exact St|]. split; [apply network_error_ok; auto|]. intros e HB.
  assert (Dq : dim q = dim s) by exact Dm.
  assert (HV : forall x, length x = dim s -> netError junk q x = e x). { intros x Hx. apply (netError_is cs1); auto. now rewrite Dq. }
  assert (HB' : forall x, length x = dim s -> netError junk q x < dblmax ext). { intros x Hx. rewrite HV by auto. auto. }
  set (opt := fun fuel => optimize (dim s) (netError junk q) (samplePopulation ext) (libraryTerminates ext) (maxFunctionEvaluations stop) (maxRestarts stop) (minValue stop)
       fuel (ipop_init (dblmax ext) (lambda0 ext))).
  assert (ER : forall fuel, train junk evaluate ext w fuel "CMAES" ef stop reinitialize false s = (o <- opt fuel ;; s' <- evaluateAll junk q (trace o) ;;
      x <- result o ;; s' <- Net_Model.setParameters kc s' x ;; Ok (useDropout kc s' false, true))).
  { intros fuel. unfold train. fold (prepare junk w reinitialize s). rewrite E1. cbn [bind]. cbn [String.eqb Ascii.eqb Bool.eqb]. fold q. unfold cmaes_train.
    rewrite Dq. fold (opt fuel). destruct (opt fuel) as [o| | | |]; cbn [bind]; try reflexivity.
    destruct (evaluateAll junk q (trace o)) as [p| | | |]; cbn [bind]; try reflexivity. destruct (result o) as [x| | | |]; reflexivity. }
  assert (OK : forall fuel o, opt fuel = Ok o -> exists s', train junk evaluate ext w fuel "CMAES" ef stop reinitialize false s = Ok (s', true) /\ trainable junk d1 d2 d3 cs1 d ef s' /\
       Forall (fun x => length x = dim s) (evaluated (trace o)) /\ In (params s') (evaluated (trace o)) /\ forall y, In y (evaluated (trace o)) -> e (params s') <= e y).
  { intros fuel o Eo.
    destruct (C29_result_is_best_point _ _ _ _ _ _ _ _ _ _ _ HL HB' HF HRs Eo) as (x & Ex & Lx & Ix & Bx).
    assert (HZ : Forall (fun x => length x = dim s) (evaluated (trace o))). { apply (optimize_sized _ _ _ _ _ _ _ _ _ _ Eo). constructor. }
    destruct (evaluateAll_ok cs1 d ef (dim s) M1 (trace o) q T Dq HZ) as (p & Ep & Tp & Dp).
    destruct (set_train junk d1 d2 d3 cs1 d ef M1 p x Tp) as (p' & Ep' & Tp' & Pp); [congruence|].
    exists (useDropout kc p' false). rewrite ER, Eo. cbn [bind]. rewrite Ep. cbn [bind]. rewrite Ex. cbn [bind]. rewrite Ep'. cbn [bind]. split; [reflexivity|].
    split; [now apply finally_trainable|]. split; auto. change (params (useDropout kc p' false)) with (params p'). rewrite Pp. split; auto.
    intros y Hy. rewrite <- (HV x Lx), <- (HV y); auto. rewrite Forall_forall in HZ. auto. }
  split.
  - intros H1. destruct (C29_optimize_terminates (dim s) (netError junk q) (dblmax ext) _ _ _ _ (minValue stop) _ HL HB' H1 HRs) as (f0 & Hf). exists f0. intros fuel Hle.
    destruct (Hf fuel Hle) as (o & Eo). destruct (OK fuel o Eo) as (s' & Es & _). rewrite Es. discriminate.
  - exists (netError junk q). split; auto. intros fuel. cbn zeta. fold (opt fuel).
    destruct (optimize_partial (dim s) (netError junk q) (dblmax ext) _ _ _ _ (minValue stop) _ HL HB' HF HRs fuel 0 _ (between_init (dim s) (netError junk q) (dblmax ext) _ (lambda0 ext)))
      as [F|(o & F & _)]; [lia| |].
    + left. rewrite ER. unfold opt. rewrite F. reflexivity.
    + right. fold (opt fuel) in F. destruct (OK fuel o F) as (s' & Es & A). exists o, s'. auto.
Qed.
End Train.
Print Assumptions C88_train_CMAES.
