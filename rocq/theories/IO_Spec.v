(** Specification vocabulary for the file formats. *)
From Verif Require Import Base Matrix IO_Model.

(** entry by entry image of a matrix *)
Definition mmap (f : R -> R) (m : mat) : mat :=
  mkMat (rows m) (cols m) (fun i j => f (at_ m i j)).

(** One instance of a LibSVM file: integer label and (index, value) pairs. *)
Notation instance := (Z * list (nat * R))%type.

(** the line of the file for an instance *)
Definition line_of (r : instance) : list word :=
  WNum (IZR (fst r)) :: map (fun p => WFeat (fst p) (snd p)) (snd r).

(** indices count from one and increase along the line *)
Fixpoint increasing_from (lo : nat) (fs : list (nat * R)) : Prop :=
  match fs with
  | [] => True
  | p :: fs' => lo <= fst p /\ increasing_from (S (fst p)) fs'
  end.
Definition well_formed (r : instance) : Prop := increasing_from 1 (snd r).

(** the value that an instance gives to the feature with index [k]; features that are
    not mentioned are zero *)
Definition feature (fs : list (nat * R)) (k : nat) (x : R) : Prop :=
  In (k, x) fs \/ (x = 0%R /\ forall y, ~ In (k, y) fs).

(** [W] is the smallest number of columns that is at least [c] and has room for every
    index in the file *)
Definition width (file : list instance) (c W : nat) : Prop :=
  c <= W /\
  (forall r k x, In r file -> In (k, x) (snd r) -> k <= W) /\
  (W = c \/ exists r x, In r file /\ In (W, x) (snd r)).

(** [ls] lists the different labels of the file *)
Definition labels (file : list instance) (ls : list Z) : Prop :=
  NoDup ls /\ forall z, In z ls <-> In z (map fst file).
