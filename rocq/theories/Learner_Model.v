(** Model of the data set bookkeeping of a learner, /repo/src/Learner.cpp, and of
    the memory events it causes. *)
From Verif Require Import Base.

(** Addresses of data sets: [User u] belongs to the caller, [Own k] is the k-th
    object created by the learner with [new DirectStorageDataSet]. *)
Inductive ptr := User (u : nat) | Own (k : nat).

Definition ptr_eqb (p q : ptr) : bool :=
  match p, q with
  | User a, User b => Nat.eqb a b
  | Own a, Own b => Nat.eqb a b
  | _, _ => false
  end.

(** Learner.h 21-24, and a log of memory events: how many objects the learner
    created and which objects it deleted (newest first).  [sizes] gives the number
    of instances an object reports. *)
Record learner := mkLearner {
  trainSet : option ptr;
  validSet : option ptr;
  deleteTrainSet : bool;
  deleteValidSet : bool;
  cachedN : nat;
  created : nat;
  deleted : list ptr
}.

(** Learner.cpp 7-11 *)
Definition newLearner : learner := mkLearner None None false false 0 0 [].

(** [delete p]: deleting an object twice, or one that was never created by [new]
    (an object of the caller), is undefined behaviour. *)
Definition delete (p : ptr) (created : nat) (deleted : list ptr) : res (list ptr) :=
  match p with
  | User _ => UB
  | Own k => if (Nat.ltb k created && negb (existsb (ptr_eqb p) deleted))%bool
             then Ok (p :: deleted) else UB
  end.

(** [if(flag && p) delete p;] *)
Definition deleteIf (flag : bool) (p : option ptr) (created : nat) (deleted : list ptr)
  : res (list ptr) :=
  match flag, p with
  | true, Some q => delete q created deleted
  | _, _ => Ok deleted
  end.

(** [sizeOf p created deleted]: [p->samples()], undefined if [p] was deleted *)
Definition sizeOf (size : ptr -> nat) (p : ptr) (deleted : list ptr) : res nat :=
  if existsb (ptr_eqb p) deleted then UB else Ok (size p).

Inductive lop :=
| TrainingSetMatrices        (* trainingSet(MatrixXd&, MatrixXd&) *)
| TrainingSet (u : nat)      (* trainingSet(DataSet&) *)
| RemoveTrainingSet
| ValidationSetMatrices
| ValidationSet (u : nat)
| RemoveValidationSet.

Definition lstep (size : ptr -> nat) (l : learner) (o : lop) : res learner :=
  match o with
  | TrainingSetMatrices =>  (* Learner.cpp 21-30 *)
      d <- deleteIf (deleteTrainSet l) (trainSet l) (created l) (deleted l) ;;
      let p := Own (created l) in
      n <- sizeOf size p d ;;
      Ok (mkLearner (Some p) (validSet l) true (deleteValidSet l) n (S (created l)) d)
  | TrainingSet u =>        (* Learner.cpp 32-40 *)
      d <- deleteIf (deleteTrainSet l) (trainSet l) (created l) (deleted l) ;;
      n <- sizeOf size (User u) d ;;
      Ok (mkLearner (Some (User u)) (validSet l) false (deleteValidSet l) n (created l) d)
  | RemoveTrainingSet =>    (* Learner.cpp 42-50 *)
      d <- deleteIf (deleteTrainSet l) (trainSet l) (created l) (deleted l) ;;
      Ok (mkLearner None (validSet l) false (deleteValidSet l) 0 (created l) d)
  | ValidationSetMatrices => (* Learner.cpp 52-60 *)
      d <- deleteIf (deleteValidSet l) (validSet l) (created l) (deleted l) ;;
      Ok (mkLearner (trainSet l) (Some (Own (created l))) (deleteTrainSet l) true (cachedN l)
                    (S (created l)) d)
  | ValidationSet u =>      (* Learner.cpp 62-69 *)
      d <- deleteIf (deleteValidSet l) (validSet l) (created l) (deleted l) ;;
      Ok (mkLearner (trainSet l) (Some (User u)) (deleteTrainSet l) false (cachedN l) (created l) d)
  | RemoveValidationSet =>  (* Learner.cpp 71-78 *)
      d <- deleteIf (deleteValidSet l) (validSet l) (created l) (deleted l) ;;
      Ok (mkLearner (trainSet l) None (deleteTrainSet l) false (cachedN l) (created l) d)
  end.

Definition lrun (size : ptr -> nat) (ops : list lop) (l : learner) : res learner :=
  for_each ops (fun o l => lstep size l o) l.

(** Learner.cpp 13-19, ~Learner; the result is the final log of deletions *)
Definition destroy (l : learner) : res (list ptr) :=
  d <- deleteIf (deleteTrainSet l) (trainSet l) (created l) (deleted l) ;;
  deleteIf (deleteValidSet l) (validSet l) (created l) d.
