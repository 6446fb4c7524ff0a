(** What the theorems about data files as text (C96) refer to. *)
From Coq Require Import Ascii.
From Verif Require Import Base Matrix IO_Model IO_Spec Text_Model Text_Spec.
Local Open Scope R_scope.

(** entry by entry the closest numbers with six digits *)
Definition roundedTo (m m' : mat) : Prop :=
  rows m' = rows m /\ cols m' = cols m /\ forall i j, (i < rows m)%nat -> (j < cols m)%nat -> closestSix (at_ m i j) (at_ m' i j).

(** integers with an optional minus sign *)
Definition integerNumeral (t : list ascii) (z : Z) : Prop :=
  digits t z \/ exists t' z', t = "-"%char :: t' /\ digits t' z' /\ z = (- z')%Z.

(** A LibSVM file for a list of instances: a line for each instance with its label and index:value for its features, separated by
    blanks and tabulators; the last end of line can be missing; there can be empty lines. *)
Definition blanks (t : list ascii) : Prop := Forall (fun c => In c [" "; "009"]%char) t.
Inductive featuresText : list (nat * R) -> list ascii -> Prop :=
| features_none w : blanks w -> featuresText [] w
| features_next w k t v tv fs r : blanks w -> w <> [] -> digits t (Z.of_nat k) -> numeral tv v -> featuresText fs r ->
    featuresText ((k, v) :: fs) (w ++ t ++ ":"%char :: tv ++ r).
Inductive lineText : instance -> list ascii -> Prop :=
| line_text w z t fs r : blanks w -> integerNumeral t z -> featuresText fs r -> lineText (z, fs) (w ++ t ++ r).
Inductive fileText : list instance -> list ascii -> Prop :=
| file_end w : blanks w -> fileText [] w
| file_last i l : lineText i l -> fileText [i] l
| file_empty w file t : blanks w -> fileText file t -> fileText file (w ++ "010"%char :: t)
| file_line i l file t : lineText i l -> fileText file t -> fileText (i :: file) (l ++ "010"%char :: t).

(** A FANN file for a dataset: the number of instances, inputs and outputs, then the inputs and the outputs of each instance; all
    numbers are separated by white space of any kind. *)
Inductive numbersText : list R -> list ascii -> Prop :=
| numbers_none w : white w -> numbersText [] w
| numbers_next w t v vs r : white w -> numeral t v -> separated r -> numbersText vs r -> numbersText (v :: vs) (w ++ t ++ r).
Definition rowNumbers (m : mat) (n : nat) : list R := map (fun j => at_ m n j) (seq 0 (cols m)).
Definition fannText (inp out : mat) (t : list ascii) : Prop :=
  exists w1 t1 w2 t2 w3 t3 r, t = w1 ++ t1 ++ w2 ++ t2 ++ w3 ++ t3 ++ r /\
    white w1 /\ digits t1 (Z.of_nat (rows inp)) /\
    white w2 /\ w2 <> [] /\ digits t2 (Z.of_nat (cols inp)) /\
    white w3 /\ w3 <> [] /\ digits t3 (Z.of_nat (cols out)) /\
    separated r /\ numbersText (concat (map (fun n => rowNumbers inp n ++ rowNumbers out n) (seq 0 (rows inp)))) r.
