(** Vocabulary for the theorems about the step-wise use of IPOPCMAES. *)
From Coq Require Import Lia.
From Verif Require Import Base BaseFacts Evaluation_Model Ask_Model.

(** How the step-wise interface is meant to be used (examples/polebalancing/NeuroEvolutionAgent.cpp 69-107): first restart; an error is set
    for a point that was asked for; restart again only after terminated() said so.  The phase after a call and its answer; [None]: the call
    is not permitted. *)
Inductive phase := Begin | Ready | Asked | Over.
Definition permitted (ph : phase) (c : call) : bool :=
  match ph, c with
  | Begin, Restart => true
  | Ready, (GetNext | Terminated | Result) => true
  | Asked, (GetNext | SetError _ | Terminated | Result) => true
  | Over, (GetNext | Restart | Terminated | Result) => true
  | _, _ => false
  end.
Definition after (ph : phase) (c : call) (a : answer) : phase :=
  match c, a with
  | Restart, _ => Ready
  | GetNext, _ => Asked
  | SetError _, _ => Ready
  | Terminated, Bool true => Over
  | Terminated, Bool false => match ph with Over => Ready | _ => ph end
  | _, _ => ph
  end.
Fixpoint phaseAfter (ph : phase) (h : list (call * answer)) : option phase :=
  match h with
  | [] => Some ph
  | (c, a) :: h' => if permitted ph c then phaseAfter (after ph c a) h' else None
  end.

(** What the user has told since the last successful restart: each error with the point that was handed out last. *)
Definition hear (st : vec * list (vec * R)) (ca : call * answer) : vec * list (vec * R) :=
  match ca with
  | (Restart, Bool true) => (fst st, [])
  | (GetNext, Point x) => (x, snd st)
  | (SetError f, _) => (fst st, snd st ++ [(fst st, f)])
  | _ => st
  end.
Definition told (h : list (call * answer)) : list (vec * R) := snd (fold_left hear h ([], [])).
(** the number of successful restarts *)
Definition runsStarted (h : list (call * answer)) : nat :=
  length (filter (fun ca => match ca with (Restart, Bool true) => true | _ => false end) h).

(** What is assumed about the library: a population has as many points as requested, of the requested dimension. *)
Definition sampleOk (sample : nat -> nat -> nat -> list generation -> list vec) : Prop :=
  forall k l n g, length (sample k l n g) = l /\ forall x, In x (sample k l n g) -> length x = n.

(** each block is deleted exactly once, after it was created *)
Definition memory_eq_dec : forall a b : memory, {a = b} + {a <> b}.
Proof. repeat decide equality. Defined.
Definition times (e : memory) (h : list memory) : nat := count_occ memory_eq_dec h e.
Definition freedOnce (h : list memory) : Prop :=
  (forall p, times (Delete p) h = times (New p) h /\ times (New p) h <= 1)%nat /\
  forall h1 p h2, h = h1 ++ Delete p :: h2 -> In (New p) h1.
