(** What the theorems about network files as text (C97) refer to. *)
From Coq Require Import Ascii String.
From Verif Require Import Base Matrix Net_Model NetBuild_Model NetUse_Spec NetIO_Model NetIO_Spec Text_Spec TextNet_Model.
Local Open Scope R_scope.

(** Names of compressions are words: not empty and without white space. *)
Definition isWord (w : string) : Prop :=
  w <> ""%string /\ forall c, In c (list_ascii_of_string w) -> ~ white [c].
Definition namesAreWords (c : netCall) : Prop :=
  match c with CompressedCall _ _ _ co _ _ | CompressedOutputCall _ _ _ co _ _ => isWord co | _ => True end.

(** A network that has been built by the calls [cs] and has been used afterwards in any way *)
Inductive usedText (junk : nat -> nat -> R) (d : draws) (cs : list netCall) : textNet junk -> Prop :=
| usedText_build st : textCalls junk d cs (textNet_new junk) = Ok st -> (0 < netOutputs (theNet junk (member junk st)))%nat -> usedText junk d cs st
| usedText_call st s : usedText junk d cs st -> calls junk (theNet junk (member junk st)) s ->
    errorFunction _ s = errorFunction _ (theNet junk (member junk st)) ->
    usedText junk d cs (mkTextNet junk (mkState junk s (theReg junk (member junk st)) (architecture junk (member junk st)) (count junk (member junk st))) (archText junk st))
| usedText_setting st c st' : usedText junk d cs st -> isSetting c -> textCall junk d st c = Ok st' -> usedText junk d cs st'.
