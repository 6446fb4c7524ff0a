(** Property C09: a learner owns exactly the data sets it created. *)
From Verif Require Import BaseFacts Learner_Model Learner_Proofs.

(** C09.  For every sequence of calls followed by destruction: no undefined
    deletion happens, and the objects deleted are exactly the objects the learner
    created, each once (so never one of the caller). *)
Theorem C09_created_data_sets_deleted_once :
  forall size ops,
  exists l log, lrun size ops newLearner = Ok l /\ destroy l = Ok log /\
    NoDup log /\ forall p, In p log <-> exists k, p = Own k /\ k < created l.
Proof. exact ownership. Qed.

(** C09.  At every moment the training and validation set in use are alive. *)
Theorem C09_current_data_sets_alive :
  forall size ops l, lrun size ops newLearner = Ok l ->
  forall p, trainSet l = Some p \/ validSet l = Some p -> ~ In p (deleted l).
Proof. exact current_not_deleted. Qed.

(** C09.  The training set in use, and the cached number of instances, are those of
    the last call that set it, whatever was done to the validation set since. *)
Theorem C09_last_training_set_in_use :
  forall size ops1 u ops2 l,
  forallb (fun o => negb (sets_training o)) ops2 = true ->
  lrun size (ops1 ++ TrainingSet u :: ops2) newLearner = Ok l ->
  trainSet l = Some (User u) /\ cachedN l = size (User u).
Proof. exact last_training_set. Qed.

(** The data sets that calls select, and the number of data sets created by then: each call for
    the training (validation) set replaces or removes the training (validation) set and leaves the
    other one alone. *)
Definition select (st : option ptr * option ptr * nat) (o : lop) : option ptr * option ptr * nat :=
  let '(t, v, k) := st in
  match o with
  | TrainingSetMatrices => (Some (Own k), v, S k)
  | TrainingSet u => (Some (User u), v, k)
  | RemoveTrainingSet => (None, v, k)
  | ValidationSetMatrices => (t, Some (Own k), S k)
  | ValidationSet u => (t, Some (User u), k)
  | RemoveValidationSet => (t, None, k)
  end.

(** C09.  After any sequence of calls the sets in use are the selected ones, and the cached number
    of instances is that of the training set in use, 0 if there is none. *)
Theorem C09_sets_in_use :
  forall size ops l, lrun size ops newLearner = Ok l ->
  (trainSet l, validSet l, created l) = fold_left select ops (None, None, 0) /\
  cachedN l = match trainSet l with Some p => size p | None => 0 end.
Proof.
  intros size ops l. change (None, None, 0) with (trainSet newLearner, validSet newLearner, created newLearner).
  assert (H : cachedN newLearner = match trainSet newLearner with Some p => size p | None => 0 end) by reflexivity.
  revert H. generalize newLearner. unfold lrun. induction ops as [|o ops IH]; intros l0 H E; cbn [for_each fold_left] in *.
  - injection E as <-. auto.
  - apply bind_Ok in E. destruct E as (l1 & E1 & E2).
    assert (G : (trainSet l1, validSet l1, created l1) = select (trainSet l0, validSet l0, created l0) o /\
                cachedN l1 = match trainSet l1 with Some p => size p | None => 0 end).
    { destruct o; cbn [lstep select] in *; apply bind_Ok in E1; destruct E1 as (d & _ & E1).
      1,2: apply bind_Ok in E1; destruct E1 as (n & En & E1); unfold sizeOf in En;
        match type of En with (if ?b then _ else _) = _ => destruct b; [discriminate En|] end.
      all: inversion E1; subst; cbn; auto. inversion En; auto. inversion En; auto. }
    destruct G as (G1 & G2). rewrite <- G1. apply IH; auto.
Qed.

Print Assumptions C09_sets_in_use.
Print Assumptions C09_created_data_sets_deleted_once.
Print Assumptions C09_current_data_sets_alive.
Print Assumptions C09_last_training_set_in_use.

(** a history with two owned training sets and an owned validation set *)
Example ex_history :
  (l <- lrun (fun _ => 3) [TrainingSetMatrices; ValidationSetMatrices; TrainingSetMatrices;
                           TrainingSet 7; ValidationSet 7] newLearner ;; destroy l)
  = Ok [Own 1; Own 2; Own 0].
Proof. reflexivity. Qed.
