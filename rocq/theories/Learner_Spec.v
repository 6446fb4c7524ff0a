(** What the theorems about the data sets of a learner (C09) refer to. *)
From Verif Require Import Base Learner_Model.

(** calls that replace or remove the training set *)
Definition sets_training (o : lop) : bool :=
  match o with TrainingSetMatrices | TrainingSet _ | RemoveTrainingSet => true | _ => false end.
