(** What the theorems about numbers as text (C95) refer to. *)
From Coq Require Import Ascii.
From Verif Require Import Base NetIO_Spec Text_Model.
Local Open Scope R_scope.

(** decimal numerals and the numbers that they denote *)
Definition digitTable : list (ascii * Z) :=
  [("0", 0); ("1", 1); ("2", 2); ("3", 3); ("4", 4); ("5", 5); ("6", 6); ("7", 7); ("8", 8); ("9", 9)]%char%Z.
Inductive digits : list ascii -> Z -> Prop :=
| digits_one c d : In (c, d) digitTable -> digits [c] d
| digits_more t z c d : digits t z -> In (c, d) digitTable -> digits (t ++ [c]) (10 * z + d).
Inductive unsignedNumeral : list ascii -> R -> Prop :=
| numeral_integer t z : digits t z -> unsignedNumeral t (IZR z)
| numeral_fraction t1 t2 z f : digits t1 z -> digits t2 f -> unsignedNumeral (t1 ++ "."%char :: t2) (IZR z + IZR f / 10 ^ length t2).
Inductive numeral : list ascii -> R -> Prop :=
| numeral_plain t v : unsignedNumeral t v -> numeral t v
| numeral_large t v e z : unsignedNumeral t v -> digits e z -> numeral (t ++ "e"%char :: "+"%char :: e) (v * powerRZ 10 z)
| numeral_small t v e z : unsignedNumeral t v -> digits e z -> numeral (t ++ "e"%char :: "-"%char :: e) (v * powerRZ 10 (- z))
| numeral_negative t v : numeral t v -> (forall t', t <> "-"%char :: t') -> numeral ("-"%char :: t) (- v).

(** [r] is a number with six digits that is as close to [x] as possible *)
Definition closestSix (x r : R) : Prop := sixDigits r /\ forall y, sixDigits y -> Rabs (r - x) <= Rabs (y - x).

(** white space, and what can follow a number: nothing or white space *)
Definition white (t : list ascii) : Prop := Forall (fun c => In c [" "; "009"; "010"; "011"; "012"; "013"]%char) t.
Definition separated (t : list ascii) : Prop := t = [] \/ exists c t', t = c :: t' /\ white [c].
