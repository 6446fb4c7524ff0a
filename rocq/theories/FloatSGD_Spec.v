(** What the theorems about gradient descent in double precision (C109) refer to. *)
From Flocq Require Import Core BinarySingleNaN.
From Verif Require Import Base Activation_Model Float_Model Float_Spec FloatSGD_Model.
Local Open Scope R_scope.

(** [x] is a number of the interval [a, b], (a, b] or [a, b) *)
Definition within (a b : R) (x : double) : Prop := finite x /\ a <= val x <= b.
Definition withinL (a b : R) (x : double) : Prop := finite x /\ a < val x <= b.
Definition withinR (a b : R) (x : double) : Prop := finite x /\ a <= val x < b.

(** The documented hyper-parameters, MBSGD.h and the messages of the exceptions: learning rate, momentum, size of the batches, decay,
    minimal learning rate, gain of the momentum, maximal momentum *)
Definition documentedArguments (lr mo : double) (batchSize : Z) (decay minLR momGain maxMom : double) : Prop :=
  withinL 0 1 lr /\ withinR 0 1 mo /\ (1 <= batchSize)%Z /\ withinL 0 1 decay /\ within 0 1 minLR /\ withinR 0 1 momGain /\ within 0 1 maxMom.

(** the documented learning rate and momentum after [k] batches, MBSGD.h 99-110 *)
Definition documentedRate (lr decay minLR : R) (k : nat) : R :=
  match k with 0%nat => lr | _ => Rmax (lr * decay ^ k) minLR end.
Definition documentedMomentum (mo gain maxMom : R) (k : nat) : R :=
  match k with 0%nat => mo | _ => Rmin (mo + INR k * gain) maxMom end.

(** all coefficients are numbers with absolute values of at most [b] *)
Definition bounded (b : R) (l : list double) : Prop := forall x, In x l -> finite x /\ Rabs (val x) <= b.

(** [descent c lr mo k s]: the optimizer [c] with learning rate [lr] and momentum [mo] can be in the state [s] after [k] batches.  A run
    can start again from any parameters [p]; the problem may return any gradients. *)
Inductive descent (c : dsgd) (lr mo : double) : nat -> dstate -> Prop :=
| descent_new p : descent c lr mo 0 (d_start lr mo p)
| descent_round k s answer s' : descent c lr mo k s -> d_round c answer s = Ok s' -> descent c lr mo (S k) s'
| descent_restart k s p : descent c lr mo k s -> descent c lr mo k (d_start (sAlpha s) (sEta s) p).
