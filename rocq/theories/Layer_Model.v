(** Model of the interface of layers, /repo/OpenANN/layers/Layer.h. *)
From Verif Require Import Base BaseFacts Matrix.

(** class Layer, Layer.h 34-84, as a table of its virtual functions.
    - [St] is the state of an object, [Loc] the addresses of its coefficients;
    - [initialize] gives the pointers that the function initialize pushes on
      parameterPointers and on parameterDerivativePointers, in order;
    - [load] and [store] access memory through such a pointer;
    - [forwardPropagate s x dropout] returns the new state, the output and what is added
      to [*error].
    Simplifications: matrices are passed by value.  Nothing writes to the input of a layer
    between forwardPropagate and backpropagate, so the pointer [x] that layers keep is a
    copy here.  The error is always computed; callers that pass a null pointer ignore
    it. *)
Record LayerClass := mkClass {
  St : Type;
  Loc : Type;
  initialize : St -> list Loc * list Loc;
  load : St -> Loc -> res R;
  store : St -> Loc -> R -> res St;
  updatedParameters : St -> res St;
  forwardPropagate : St -> mat -> bool -> res (St * mat * R);
  backpropagate : St -> mat -> bool -> res (St * mat) }.

Section Access.
Variable c : LayerClass.

(** the value behind the k-th parameter pointer, and an assignment through it *)
Definition readParam (s : St c) (k : nat) : res R :=
  l <- vget (fst (initialize c s)) k ;; load c s l.
Definition writeParam (s : St c) (k : nat) (v : R) : res (St c) :=
  l <- vget (fst (initialize c s)) k ;; store c s l v.
(** the value behind the k-th derivative pointer *)
Definition readDeriv (s : St c) (k : nat) : res R :=
  l <- vget (snd (initialize c s)) k ;; load c s l.

(** number of parameters *)
Definition paramCount (s : St c) : nat := length (fst (initialize c s)).

(** What setParameters of a network does to one layer (Net.cpp 495-499): all assignments,
    then updatedParameters. *)
Definition writeAll (s : St c) (p : list R) : res (St c) :=
  for_ (length p) (fun k s => v <- vget p k ;; writeParam s k v) s.
Definition install (s : St c) (p : list R) : res (St c) :=
  s <- writeAll s p ;; updatedParameters c s.
End Access.
