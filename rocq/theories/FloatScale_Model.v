(** Double precision: scaleData, /repo/src/Preprocessing.cpp 9-19.  (Preproc_Model models the same function with real numbers.)  Doubles as in
    Float_Model; matrices are lists of rows. *)
From Coq Require Import ZArith List.
From Flocq Require Import Core BinarySingleNaN.
From Verif Require Import Base Activation_Model Float_Model FloatSplit_Model.

(** minCoeff(): the order does not matter without NaN (but for the sign of zero) *)
Definition d_min (x : double) (l : list double) : double := fold_left (fun a b => if dltb b a then b else a) l x.

(** scaleData; minCoeff of an empty matrix is an assertion; [min >= max] is [max <= min] *)
Definition d_scaleData (data : list (list double)) (min max : double) : res (list (list double)) :=
  if dleb max min then Throw else
  match concat data with
  | [] => Abort
  | x :: l =>
      let minData := d_min x l in
      let maxData := d_max x l in
      let dataRange := dminus maxData minData in
      let desiredRange := dminus max min in
      let scaling := ddiv desiredRange dataRange in
      Ok (map (map (fun v => dplus (dmult v scaling) (dminus min (dmult minData scaling)))) data)
  end.
