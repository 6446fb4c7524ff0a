(** Properties C11-C15: evaluation functions.  Vocabulary: Evaluation_Spec.v. *)
From Verif Require Import BaseFacts DataSet_Model Evaluation_Model Evaluation_Spec Evaluation_Proofs.
Local Open Scope R_scope.

(** C11.  Two or more components: the first index of a largest component. *)
Theorem C11_decoding_first_largest :
  forall v, (2 <= length v)%nat ->
  exists i, oneOfCDecoding v = Ok i /\ first_largest v i.
Proof.
  intros v H. destruct (decoding_ok v) as (c & E & K); [lia|].
  exists c. split; auto. now apply (class_of_large v (length v) c).
Qed.

(** C11.  One component: class 1 if it is at least 1/2, otherwise class 0. *)
Theorem C11_decoding_single :
  forall x, oneOfCDecoding [x] = Ok (if Rle_dec (/ 2) x then 1 else 0)%nat.
Proof.
  intros x. unfold oneOfCDecoding. simpl. unfold Rleb. now destruct (Rle_dec (/ 2) x).
Qed.

(** C11.  An empty vector has no class: the result is an out-of-range access. *)
Theorem C11_decoding_empty : oneOfCDecoding [] = UB.
Proof. reflexivity. Qed.

(** C12.  Data sets with C >= 2 outputs. *)
Theorem C12_confusion_matrix_hits_accuracy :
  forall learner ds rows C,
  shows ds rows -> srcOutputs ds = C -> (2 <= C)%nat -> dimensions learner rows C ->
  exists m hits ts ps,
    confusionMatrix learner ds = Ok m /\ classificationHits learner ds = Ok hits /\
    target_classes rows ts /\ predicted_classes learner rows ps /\
    length m = C /\ (forall row, In row m -> length row = C) /\
    (forall i j, (i < C)%nat -> (j < C)%nat ->
       entry m i j = number (fun t p => Nat.eqb t i && Nat.eqb p j) ts ps) /\
    sum_below C (fun i => sum_below C (fun j => entry m i j)) = length rows /\
    sum_below C (fun i => entry m i i) = hits /\
    (forall i, (i < C)%nat -> sum_below C (fun j => entry m i j) = count_occ Nat.eq_dec ts i) /\
    ((0 < length rows)%nat ->
       accuracy learner ds = Ok (INR hits / INR (length rows)) /\
       0 <= INR hits / INR (length rows) <= 1).
Proof. exact confusion_ok. Qed.

(** C12.  The number of hits is the number of instances whose predicted class is
    the class of the target. *)
Theorem C12_hits_count :
  forall learner ds rows C ts ps,
  shows ds rows -> srcOutputs ds = C -> (2 <= C)%nat -> dimensions learner rows C ->
  target_classes rows ts -> predicted_classes learner rows ps ->
  classificationHits learner ds = Ok (number Nat.eqb ts ps).
Proof. exact hits_ok. Qed.

(** C13 is false: for a single output the matrix is 1x1 and as soon as one target
    or one prediction belongs to class 1 an entry outside of it is accessed. *)
Theorem C13_confusion_matrix_single_output_refuted :
  forall (learner : vec -> vec) ds (rows : list (vec * vec)),
  shows ds rows -> srcOutputs ds = 1%nat -> dimensions learner rows 1 ->
  (exists r y, In r rows /\ ((snd r = [y] \/ learner (fst r) = [y]) /\ / 2 <= y)) ->
  confusionMatrix learner ds = UB.
Proof. exact confusion_single. Qed.

(** C14 *)
Theorem C14_weighted_accuracy :
  forall (learner : vec -> vec) ds (rows : list (vec * vec)) ws,
  shows ds rows -> length ws = length rows ->
  Forall (fun r => (0 < length (snd r))%nat /\ (0 < length (learner (fst r)))%nat) rows ->
  exists ts ps v,
    target_classes rows ts /\ predicted_classes learner rows ps /\
    weightedAccuracy learner ds ws = Ok v /\
    v = dot ws (map (fun p => Nat.eqb (fst p) (snd p)) (combine ts ps)) /\
    (Forall (fun w => 0 <= w) ws -> fold_right Rplus 0 ws = 1 -> 0 <= v <= 1) /\
    ((0 < length rows)%nat -> ws = repeat (/ INR (length rows)) (length rows) ->
       accuracy learner ds = Ok v).
Proof.
  intros learner ds rows ws Sh L F.
  destruct (classes_exist _ _ F) as (ts & ps & T & P & _ & _).
  exists ts, ps. eexists. split; [exact T|]. split; [exact P|].
  split; [exact (weighted_ok learner ds rows ts ps ws Sh F T P L)|]. split; [reflexivity|]. split.
  - intros Hp Hs. rewrite <- Hs. now apply dot_bounds.
  - intros Hn ->. rewrite (accuracy_ok learner ds rows ts ps Sh F T P). f_equal.
    rewrite dot_uniform; [now rewrite filter_map_number|].
    rewrite map_length, combine_length.
    rewrite <- (Forall2_length _ _ T), <- (Forall2_length _ _ P). lia.
Qed.

(** C15.  [sq_dist] is the squared euclidean distance, [sum_rows] the sum over the
    instances. *)
Theorem C15_error_measures :
  forall (learner : vec -> vec) ds (rows : list (vec * vec)),
  shows ds rows -> Forall (fun r => length (learner (fst r)) = length (snd r)) rows ->
  exists e, sse learner ds = Ok e /\
    e = sum_rows (fun r => sq_dist (learner (fst r)) (snd r)) rows /\
    0 <= e /\ (e = 0 <-> Forall (fun r => learner (fst r) = snd r) rows) /\
    mse learner ds = Ok (e / INR (length rows)) /\
    rmse learner ds = Ok (sqrt (e / INR (length rows))).
Proof.
  intros learner ds rows Sh F. eexists. split; [apply sse_ok; eauto|]. split; [reflexivity|].
  split; [apply sum_rows_nonneg; intros; apply sq_dist_nonneg|].
  split; [now apply sse_zero|].
  unfold rmse, mse. rewrite (sse_ok _ _ _ Sh F). destruct Sh as [-> _]. simpl. auto.
Qed.

Print Assumptions C11_decoding_first_largest.
Print Assumptions C11_decoding_single.
Print Assumptions C11_decoding_empty.
Print Assumptions C12_confusion_matrix_hits_accuracy.
Print Assumptions C12_hits_count.
Print Assumptions C13_confusion_matrix_single_output_refuted.
Print Assumptions C14_weighted_accuracy.
Print Assumptions C15_error_measures.

(** A data set with three instances and two classes, and a learner that predicts
    the first class only: the hypotheses are met and two of three are hits. *)
Definition ex_rows3 : list (vec * vec) := [([1], [1; 0]); ([2], [0; 1]); ([3], [1; 0])].
Definition ex_source (rows : list (vec * vec)) (C : nat) : source :=
  mkSource (length rows) C (fun i => r <- vget rows i ;; Ok (fst r))
           (fun i => r <- vget rows i ;; Ok (snd r)).
Definition ex_learner (x : vec) : vec := [1; 0].

Lemma ex_shows rows C : shows (ex_source rows C) rows.
Proof.
  split; [reflexivity|]. intros i r H. simpl. unfold vget. rewrite H. auto.
Qed.

Example ex_dims : dimensions ex_learner ex_rows3 2.
Proof. repeat constructor. Qed.

Lemma ex_max10 : first_largest [1; 0] 0.
Proof.
  exists 1. split; [reflexivity|]. split; [|intros; lia].
  intros [|[|[|j]]] y H; simpl in H; inversion H; lra.
Qed.
Lemma ex_max01 : first_largest [0; 1] 1.
Proof.
  exists 1. split; [reflexivity|]. split.
  - intros [|[|[|j]]] y H; simpl in H; inversion H; lra.
  - intros [|j] y Hj H; [simpl in H; inversion H; lra|lia].
Qed.

Example ex_hits : classificationHits ex_learner (ex_source ex_rows3 2) = Ok 2%nat.
Proof.
  apply (C12_hits_count ex_learner _ ex_rows3 2 [0; 1; 0]%nat [0; 0; 0]%nat).
  - apply ex_shows.
  - reflexivity.
  - lia.
  - apply ex_dims.
  - repeat constructor; simpl; auto using ex_max10, ex_max01.
  - repeat constructor; simpl; auto using ex_max10.
Qed.

Example ex_weights3 : Forall (fun w => 0 <= w) [/2; /4; /4] /\ fold_right Rplus 0 [/2; /4; /4] = 1.
Proof. split; [repeat constructor; lra|simpl; lra]. Qed.

(** one output: the XOR targets with a perfect learner *)
Example ex_single : confusionMatrix (fun x => x) (ex_source [([0], [0]); ([1], [1])] 1) = UB.
Proof.
  apply C13_confusion_matrix_single_output_refuted with (rows := [([0], [0]); ([1], [1])]).
  - apply ex_shows.
  - reflexivity.
  - repeat constructor.
  - exists ([1], [1]), 1. split; [simpl; auto|]. split; [auto|lra].
Qed.
