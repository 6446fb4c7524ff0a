(** What the logging functions should do, in terms of the calls only. *)
From Verif Require Import Base Log_Model.

Section Spec.
Context {msg stream : Type}.

(** the level and the stream that are in effect after some calls: those that have been set last *)
Definition setsLevel (o : logOp msg stream) : option logLevel :=
  match o with OpDisabled => Some DISABLED | OpError => Some ERROR | OpInfo => Some INFO | OpDebug => Some DEBUG
             | OpLevel l => Some l | _ => None end.
Definition setsStream (o : logOp msg stream) : option stream :=
  match o with OpStream s => Some s | _ => None end.
Fixpoint lastOf {A B} (f : A -> option B) (l : list A) (d : B) : B :=
  match l with [] => d | x :: l' => lastOf f l' (match f x with Some b => b | None => d end) end.

(** [emitted compiled cout before calls out]: the lines that [calls] should write, where [before] are the calls made
    earlier: a message of level [l] is written to the current stream iff l is not above the current level and not above
    the level compiled in. *)
Fixpoint emitted (compiled : logLevel) (cout : stream) (before calls : list (logOp msg stream)) : list (stream * (logLevel * msg)) :=
  match calls with
  | [] => []
  | o :: calls' =>
      match o with
      | OpMessage l m =>
          if (Nat.leb (levelNumber l) (levelNumber (lastOf setsLevel before DEBUG)) && Nat.leb (levelNumber l) (levelNumber compiled))%bool
          then [(lastOf setsStream before cout, (l, m))] else []
      | _ => []
      end ++ emitted compiled cout (before ++ [o]) calls'
  end.

(** the macros for messages: OPENANN_ERROR, OPENANN_INFO, OPENANN_DEBUG *)
Definition usesMacros (o : logOp msg stream) : Prop :=
  match o with OpMessage DISABLED _ => False | _ => True end.
End Spec.
