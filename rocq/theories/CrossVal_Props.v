(** Properties C03 (complement of a split), C16 (cross validation), C17 (evaluator). *)
From Verif Require Import BaseFacts DataSet_Model DataSet_Spec DataSet_Proofs
  Evaluation_Model Evaluation_Spec Evaluation_Proofs CrossVal_Proofs Evaluation_Props.

(** C03.  Merging all groups of a split but one into an empty view gives the
    complement of that group.  (The vector of groups, its copy without element [i]
    and the empty view live behind the old memory, as in crossValidation.) *)
Theorem C03_complement_of_split :
  forall V (h : heap V) ds n shuf (rows : list (V * V)) i,
  reachable h -> lists h ds rows -> 1 < n -> shuffles shuf -> i < n ->
  exists vs h' test train,
    splitGroups h ds n true shuf [] = Ok vs /\ length vs = n /\
    merge (h ++ vs ++ erase i vs ++ [View ds []]) (length h + (n + (n - 1)))
          (seq (length h + n) (n - 1)) = Ok h' /\
    lists h' (length h + i) test /\
    lists h' (length h + (n + (n - 1))) train /\
    Permutation (train ++ test) rows.
Proof. intros V. exact (@complement_ok V). Qed.

(** C16, the part that holds: with at least as many instances as folds, cross
    validation (if the optimizer stops, see the next theorem) trains once per fold;
    in each fold training and test set together are the data set (so no instance is in both); the
    test sets of all folds together are the data set (so every instance is tested
    exactly once).
    What is missing: the accuracy of a fold is an integer quotient ([accOf]), so the
    returned number is not the mean accuracy; see the refutation below. *)
Theorem C16_cross_validation_partial :
  forall L (init : source -> L -> L) step predict signaled fuel h outputs ds n shuf rows l,
  reachable h -> lists h ds rows -> 1 < n -> n <= length rows -> shuffles shuf ->
  (forall l, Forall (fun r => 0 < length (snd r) /\ 0 < length (predict l (fst r))) rows) ->
  crossValidation init step predict signaled fuel h outputs ds n shuf l = Fuel \/
  exists v log tests,
    crossValidation init step predict signaled fuel h outputs ds n shuf l = Ok (v, log) /\
    length log = n /\ length tests = n /\
    Permutation (concat tests) rows /\
    v = mean (map fTestAccuracy log) /\
    forall i f test, nth_error log i = Some f -> nth_error tests i = Some test ->
      exists train tst,
      lists (fMem f) (fTest f) test /\ lists (fMem f) (fTraining f) train /\
      Permutation (train ++ test) rows /\ 0 < length test /\
      source_of (fMem f) outputs (fTest f) = Ok tst /\ srcSamples tst = length test /\
      accOf predict tst (fRounds f) (fLast f) (fTestAccuracy f) /\
      ((forall s l, fst (step s (init s l)) = true) -> (forall j k, signaled j k = false) -> 0 < fRounds f).
Proof. intros L. exact (@crossValidation_ok L). Qed.

(** C16.  It ends when the optimizer ends: [m] bounds the steps it still takes. *)
Theorem C16_cross_validation_terminates :
  forall L (init : source -> L -> L) step predict signaled (m : L -> nat) fuel h outputs ds n shuf rows l,
  reachable h -> lists h ds rows -> 1 < n -> n <= length rows -> shuffles shuf ->
  (forall l, Forall (fun r => 0 < length (snd r) /\ 0 < length (predict l (fst r))) rows) ->
  (forall s l, fst (step s l) = true -> m (snd (step s l)) < m l) ->
  (forall s l, m (init s l) <= fuel) ->
  crossValidation init step predict signaled fuel h outputs ds n shuf l <> Fuel.
Proof. intros L. exact (@crossValidation_stops L). Qed.

(** C16 is false as stated: the accuracy of a fold is 0 unless all test instances
    are hits; if every fold has at least one mistake, 0 is returned. *)
Theorem C16_mean_accuracy_refuted :
  forall L (init : source -> L -> L) step predict signaled fuel h outputs ds n shuf rows l v log,
  reachable h -> lists h ds rows -> 1 < n -> n <= length rows -> shuffles shuf ->
  (forall l, Forall (fun r => 0 < length (snd r) /\ 0 < length (predict l (fst r))) rows) ->
  crossValidation init step predict signaled fuel h outputs ds n shuf l = Ok (v, log) ->
  (forall s l, fst (step s (init s l)) = true) -> (forall j k, signaled j k = false) ->
  (forall f, In f log -> exists tst hits, source_of (fMem f) outputs (fTest f) = Ok tst /\
     classificationHits (predict (fLast f)) tst = Ok hits /\ hits < srcSamples tst) ->
  v = 0%R.
Proof.
  intros L init step predict signaled fuel h outputs ds n shuf rows l v log Hr Ll Hn Hle Hsh D E St Sg W.
  destruct (crossValidation_ok init step predict signaled fuel h outputs ds n shuf rows l Hr Ll Hn Hle Hsh D)
    as [E'|(v' & log' & tests & E' & Ln & Lt & P & -> & G)]; [congruence|].
  rewrite E in E'. inversion E'; subst. unfold mean.
  assert (Z : forall f, In f log' -> fTestAccuracy f = 0%R).
  { intros f Hf. destruct (W f Hf) as (tst & hits & E1 & E2 & Hlt).
    apply In_nth_error in Hf. destruct Hf as [i Hi].
    destruct (nth_error_lt tests i) as [test Ht].
    { rewrite Lt. apply nth_error_Some. congruence. }
    destruct (G i f test Hi Ht) as (train & tst' & _ & _ & _ & _ & E3 & _ & A & Pos).
    rewrite E1 in E3. inversion E3; subst tst'.
    exact (fold_wrong predict tst _ _ _ hits (Pos St Sg) A E2 Hlt). }
  assert (Z' : fold_right Rplus 0%R (map fTestAccuracy log') = 0%R).
  { clear - Z. induction log' as [|f log' IH]; simpl; auto.
    rewrite (Z f) by (left; reflexivity). rewrite IH; [lra|]. intros; apply Z; now right. }
  rewrite Z'. unfold Rdiv. ring.
Qed.

(** C16.  More folds than instances: the accuracy of the first (empty) test set is a
    division of integers by zero. *)
Theorem C16_more_folds_than_instances_refuted :
  forall L (init : source -> L -> L) step predict signaled fuel h outputs ds n shuf rows l,
  reachable h -> lists h ds rows -> 1 < n -> length rows < n -> shuffles shuf ->
  (forall l, Forall (fun r => 0 < length (snd r) /\ 0 < length (predict l (fst r))) rows) ->
  (forall train l, fst (step train l) = true) -> signaled 0 1 = false -> 0 < fuel ->
  crossValidation init step predict signaled fuel h outputs ds n shuf l = UB.
Proof. intros L. exact (@crossValidation_empty_test L). Qed.

(** C17.  Lines are logged exactly at the iterations interval, 2*interval, ...;
    correct is the number of hits of the learner passed in that call, correct + wrong
    the number of instances.  (The logged error is sse / N, see [reports].) *)
Theorem C17_evaluator_logs_every_interval :
  forall interval (calls : list ((vec -> vec) * source)) (rowss : list (list (vec * vec))),
  0 < interval -> Forall2 callable calls rowss ->
  exists e, evaluations (newEvaluator interval) calls = Ok e /\
    map lIteration (eLog e) = filter (fun k => k mod interval =? 0) (seq 1 (length calls)) /\
    Forall (fun line => exists c rows, nth_error calls (lIteration line - 1) = Some c /\
       nth_error rowss (lIteration line - 1) = Some rows /\ reports line (fst c) rows) (eLog e).
Proof. exact evaluations_ok. Qed.

(** The documentation calls the logged error SSE; it is the SSE divided by N. *)
Theorem C17_logged_error_is_sse_refuted :
  exists (learner : vec -> vec) ds rows e line s, callable (learner, ds) rows /\
    evaluations (newEvaluator 1) [(learner, ds)] = Ok e /\ eLog e = [line] /\
    sse learner ds = Ok s /\ lError line <> s.
Proof.
  set (rows := [([0%R], [1%R]); ([0%R], [1%R])]).
  assert (C : callable ((fun x => x), ex_source rows 1) rows).
  { split; [apply ex_shows|]. repeat constructor. }
  destruct (evaluate_ok (newEvaluator 1) _ rows ltac:(simpl; lia) C) as (e & E & _ & _ & H).
  simpl in H. destruct H as (line & El & _ & (ts & ps & _ & _ & _ & _ & Ee)).
  exists (fun x => x), (ex_source rows 1), rows, e, line. eexists.
  split; [exact C|]. split; [unfold evaluations; cbn [for_each]; rewrite E; reflexivity|].
  split; [exact El|]. split.
  - apply (sse_ok (fun x => x) _ rows (ex_shows rows 1)). repeat constructor.
  - rewrite Ee. simpl. unfold sum_rows. simpl. lra.
Qed.

Print Assumptions C03_complement_of_split.
Print Assumptions C16_cross_validation_partial.
Print Assumptions C16_cross_validation_terminates.
Print Assumptions C16_mean_accuracy_refuted.
Print Assumptions C16_more_folds_than_instances_refuted.
Print Assumptions C17_evaluator_logs_every_interval.
Print Assumptions C17_logged_error_is_sse_refuted.

(** Two-fold cross validation of four instances with a learner that always predicts
    class 0 and an optimizer that takes one step: each fold has one hit of two. *)
Definition cv_rows : list (vec * vec) :=
  [([1%R], [1%R; 0%R]); ([2%R], [0%R; 1%R]); ([3%R], [1%R; 0%R]); ([4%R], [0%R; 1%R])].
Definition cv_init (s : source) (l : bool) : bool := true.
Definition cv_step (s : source) (l : bool) : bool * bool := (l, false).
Definition cv_predict (l : bool) (x : vec) : vec := [1%R; 0%R].

Example cv_hypotheses :
  reachable [Direct cv_rows] /\ lists [Direct cv_rows] 0 cv_rows /\ 1 < 2 /\ 2 <= length cv_rows /\
  shuffles (fun l => l) /\
  (forall l, Forall (fun r => 0 < length (snd r) /\ 0 < length (cv_predict l (fst r))) cv_rows) /\
  (forall s l, fst (cv_step s (cv_init s l)) = true) /\
  (forall s l, fst (cv_step s l) = true ->
     (if snd (cv_step s l) then 1 else 0) < (if l then 1 else 0)).
Proof.
  split; [|split; [|split; [|split; [|split; [|split; [|split]]]]]].
  - exists [Direct cv_rows], []. split; [intros o [<-|[]]; eexists; reflexivity|]. split; [constructor|reflexivity].
  - now apply lists_direct.
  - lia.
  - simpl. lia.
  - intros l. apply Permutation_refl.
  - intros l. repeat constructor.
  - reflexivity.
  - intros s [|] H; simpl in *; [lia|discriminate].
Qed.

Lemma mc10 : maxCoeff [1%R; 0%R] = Ok 0.
Proof.
  destruct (maxCoeff_ok [1%R; 0%R]) as (i & E & F); [simpl; lia|].
  rewrite (first_largest_fun _ _ _ F ex_max10) in E. exact E.
Qed.
Lemma mc01 : maxCoeff [0%R; 1%R] = Ok 1.
Proof.
  destruct (maxCoeff_ok [0%R; 1%R]) as (i & E & F); [simpl; lia|].
  rewrite (first_largest_fun _ _ _ F ex_max01) in E. exact E.
Qed.

Definition is_zero (r : res (R * list (fold (L := bool)))) : Prop :=
  match r with
  | Ok (v, log) => v = 0%R /\
      map (fun f => classificationHits (cv_predict (fLast f))
             (mkSource 2 2 (getInstance (fMem f) (fTest f)) (getTarget (fMem f) (fTest f)))) log
      = [Ok 1; Ok 1]
  | _ => False
  end.

Example cv_result : is_zero (crossValidation cv_init cv_step cv_predict (fun _ _ => false)
  1 [Direct cv_rows] 2 0 2 (fun l => l) true).
Proof.
  unfold crossValidation, splitGroups. simpl.
  replace (Zfloor (1 + 1 + / 2)) with 2%Z.
  2: { symmetry. replace (1 + 1)%R with (INR 2) by (simpl; lra). apply Zfloor_half. }
  simpl. unfold cv_rows, classificationHits, for_.
  cbn -[maxCoeff Rplus Rdiv]. unfold cv_predict.
  rewrite ?mc10, ?mc01. cbn -[maxCoeff Rplus Rdiv].
  rewrite ?mc10, ?mc01. cbn -[maxCoeff Rplus Rdiv].
  unfold is_zero. cbn -[maxCoeff Rplus Rdiv].
  split; [unfold Rdiv; ring|]. 
  unfold cv_predict. repeat (rewrite ?mc10, ?mc01; cbn -[maxCoeff Rplus Rdiv]). reflexivity.
Qed.
