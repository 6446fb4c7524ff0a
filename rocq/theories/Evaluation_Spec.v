(** Specification vocabulary for the evaluation functions. *)
From Verif Require Import Base DataSet_Model Evaluation_Model.
Local Open Scope R_scope.

(** the data set shows exactly these (input, target) pairs *)
Definition shows (ds : source) (rows : list (vec * vec)) : Prop :=
  srcSamples ds = length rows /\
  forall i r, nth_error rows i = Some r ->
    srcInstance ds i = Ok (fst r) /\ srcTarget ds i = Ok (snd r).

(** [i] is the first index of a largest component of [v] *)
Definition first_largest (v : vec) (i : nat) : Prop :=
  exists x, nth_error v i = Some x /\
    (forall j y, nth_error v j = Some y -> y <= x) /\
    (forall j y, (j < i)%nat -> nth_error v j = Some y -> y < x).

(** the class that an output vector stands for: two classes for one output,
    otherwise one class per component *)
Definition class_of (v : vec) (c : nat) : Prop :=
  match v with
  | [x] => (/ 2 <= x /\ c = 1%nat) \/ (x < / 2 /\ c = 0%nat)
  | _ => first_largest v c
  end.

(** classes of the targets and of the predictions, instance by instance *)
Definition target_classes (rows : list (vec * vec)) (ts : list nat) : Prop :=
  Forall2 (fun r c => class_of (snd r) c) rows ts.
Definition predicted_classes (learner : vec -> vec) (rows : list (vec * vec)) (ps : list nat) : Prop :=
  Forall2 (fun r c => class_of (learner (fst r)) c) rows ps.

(** number of instances whose pair (target class, predicted class) satisfies [P] *)
Definition number (P : nat -> nat -> bool) (ts ps : list nat) : nat :=
  length (filter (fun p => P (fst p) (snd p)) (combine ts ps)).

(** all vectors have [C] components *)
Definition dimensions (learner : vec -> vec) (rows : list (vec * vec)) (C : nat) : Prop :=
  Forall (fun r => length (snd r) = C /\ length (learner (fst r)) = C) rows.

(** entry of a matrix that is given by its rows *)
Definition entry (m : list (list nat)) (i j : nat) : nat := nth j (nth i m []) 0%nat.

(** sum_{i < n} f i *)
Definition sum_below (n : nat) (f : nat -> nat) : nat := list_sum (map f (seq 0 n)).

(** sum of the weights whose flag is set *)
Fixpoint dot (ws : list R) (bs : list bool) : R :=
  match ws, bs with
  | w :: ws, b :: bs => (if b then w else 0) + dot ws bs
  | _, _ => 0
  end.

(** squared distance of two vectors of the same size *)
Fixpoint sq_dist (a b : vec) : R :=
  match a, b with
  | x :: a, y :: b => (x - y) * (x - y) + sq_dist a b
  | _, _ => 0
  end.

(** sum of [f] over the rows *)
Definition sum_rows (f : vec * vec -> R) (rows : list (vec * vec)) : R :=
  fold_right (fun r s => f r + s) 0 rows.

(** arithmetic mean *)
Definition mean (l : list R) : R := (fold_right Rplus 0 l / INR (length l))%R.

Close Scope R_scope.

(** What crossValidation takes as the accuracy of a fold after [k] executions of its
    training loop, the last one in state [last]: the integer quotient of the hits
    on the test set and its size (0 if the loop body was never executed). *)
Definition accOf {L} (predict : L -> vec -> vec) (test : source) (k : nat) (last : L) (acc : R) : Prop :=
  (k = 0 -> acc = 0%R) /\
  (0 < k -> exists hits, classificationHits (predict last) test = Ok hits /\
      hits <= srcSamples test /\ acc = INR (hits / srcSamples test)).

(** a sequence of evaluations by one evaluator *)
Definition evaluations (e : evaluator) (calls : list ((vec -> vec) * source)) : res evaluator :=
  for_each calls (fun c e => evaluate e (fst c) (snd c)) e.

(** one line of the log belongs to this learner and these rows *)
Definition reports (line : logLine) (learner : vec -> vec) (rows : list (vec * vec)) : Prop :=
  exists ts ps, target_classes rows ts /\ predicted_classes learner rows ps /\
    lCorrect line = number Nat.eqb ts ps /\ lCorrect line + lWrong line = length rows /\
    lError line = (sum_rows (fun r => sq_dist (learner (fst r)) (snd r)) rows / INR (length rows))%R.

Definition callable (c : (vec -> vec) * source) (rows : list (vec * vec)) : Prop :=
  shows (snd c) rows /\
  Forall (fun r => 0 < length (snd r) /\ length (fst c (fst r)) = length (snd r)) rows.

