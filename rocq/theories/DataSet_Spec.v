(** Specification vocabulary for data set views: only what a user can observe
    through [samples], [getInstance] and [getTarget]. *)
From Verif Require Import Base DataSet_Model.
From Coq Require Import Permutation.

Section Spec.
Context {V : Type}.

(** [h] consists of data sets that store their samples only *)
Definition only_direct (h : heap V) : Prop :=
  forall o, In o h -> exists rows, o = Direct rows.

(** the data set at address [a] can be read completely and lists exactly these
    (input, target) pairs *)
Definition lists (h : heap V) (a : nat) (rows : list (V * V)) : Prop :=
  samples h a = Ok (length rows) /\
  forall i r, nth_error rows i = Some r ->
    getInstance h a i = Ok (fst r) /\ getTarget h a i = Ok (snd r).

(** a legal result of a shuffle *)
Definition shuffles (f : list nat -> list nat) : Prop := forall l, Permutation l (f l).

(** all random permutations used by an operation are permutations *)
Definition legal (o : vop) : Prop :=
  match o with
  | OSplitGroups _ _ _ s | OSplitRatio _ _ _ s | OSample _ _ _ _ s | OShuffle _ s => shuffles s
  | _ => True
  end.

(** memory that some program of view operations can produce *)
Definition reachable (h : heap V) : Prop :=
  exists h0 ops, only_direct h0 /\ Forall legal ops /\ vrun ops h0 = Ok h.

(** the documented preconditions of the operations *)
Definition permitted (h : heap V) (o : vop) : Prop :=
  match o with
  | OSplitGroups ds n _ _ => ds < length h /\ 1 < n
  | OSplitRatio ds r _ _ => ds < length h /\ (0 <= r <= 1)%R
  | OEmptyView ds => ds < length h
  | OCopyView v => exists b i, nth_error h v = Some (View b i)
  | OMerge m gs => exists b, (exists i, nth_error h m = Some (View b i)) /\ gs <> [] /\ ~ In m gs /\
      forall g, In g gs -> exists i, nth_error h g = Some (View b i)
  | OSample ds f r _ _ => ds < length h /\ r = false /\ (0 <= f <= 1)%R
  | OShuffle v _ => exists b i, nth_error h v = Some (View b i)
  end.
End Spec.
