(** What the theorems about networks of arbitrary layers (C101) refer to. *)
From Verif Require Import Base BaseFacts Matrix RSum MatOps Layer_Model LayerFun_Spec SimpleLayers_Model Net_Model NetUse_Spec
  OwnLayer_Model.
Local Open Scope R_scope.

(** Each object is in a state its class allows, takes as many inputs as the previous layer has outputs, and announces its
    outputs correctly. *)
Fixpoint chained (n : nat) (os : list object) : Prop :=
  match os with
  | [] => True
  | o :: os => ins (otype o) = n /\ inv (otype o) (ostate o) /\ outputs (oinfo o) = outs (otype o) /\
      chained (outs (otype o)) os
  end.
(** number of outputs of the last object, and number of parameters of all objects *)
Fixpoint lastOuts (n : nat) (os : list object) : nat :=
  match os with [] => n | o :: os => lastOuts (outs (otype o)) os end.
Fixpoint allPars (os : list object) : nat :=
  match os with [] => 0 | o :: os => pars (otype o) + allPars os end%nat.

(** Calls of member functions, with arguments of the right size, that return normally *)
Inductive anyCall (junk : nat -> nat -> R) : net anyClass -> net anyClass -> Prop :=
| any_setParameters s p s' : length p = dimension _ s -> setParameters _ s p = Ok s' -> anyCall junk s s'
| any_apply s x s' y : (0 < rows x)%nat -> cols x = netInputs s -> net_apply _ s x = Ok (s', y) -> anyCall junk s s'
| any_error_at s n s' v : error_at _ s n = Ok (s', v) -> anyCall junk s s'
| any_error s s' v : error _ s = Ok (s', v) -> anyCall junk s s'
| any_errorGradient s idx grad s' v g : idx <> [] -> length grad = dimension _ s ->
    errorGradient _ junk s idx grad = Ok (s', v, g) -> anyCall junk s s'
| any_gradient_at s n s' g : gradient_at _ junk s n = Ok (s', g) -> anyCall junk s s'
| any_gradient s s' g : (0 < examples _ s)%nat -> gradient _ junk s = Ok (s', g) -> anyCall junk s s'
| any_useDropout s b : anyCall junk s (useDropout _ s b)
| any_setErrorFunction s ef : anyCall junk s (setErrorFunction _ s ef)
| any_trainingSet s d : fits s d -> anyCall junk s (trainingSet _ s d).

(** A network that has been built of the objects [os] and has been used afterwards in any way *)
Inductive owns (junk : nat -> nat -> R) (d1 d2 d3 : nat) (os : list object) : net anyClass -> Prop :=
| owns_built s : buildOwn junk d1 d2 d3 (map Some os) = Ok s -> owns junk d1 d2 d3 os s
| owns_called s s' : owns junk d1 d2 d3 os s -> anyCall junk s s' -> owns junk d1 d2 d3 os s'.

(** Layer number [i] is an object of type [t] in state [o]. *)
Definition layerIs (s : net anyClass) (i : nat) (t : layerType) (o : St (cls t)) : Prop :=
  nth_error (layers anyClass s) i = Some (mkLayer anyClass (Own t) o).

(** The layers of a network one after the other: what a row becomes, and the sum of the error terms *)
Definition rowThrough (l : layer anyClass) (dropout : bool) (n : nat) (x : nat -> R) : nat -> R :=
  match lkind anyClass l as k return St (anyClass k) -> nat -> R with
  | TheInput _ => fun _ => x
  | Own t => fun o => computes t o dropout n x
  end (lobj anyClass l).
Fixpoint through (ls : list (layer anyClass)) (dropout : bool) (n : nat) (x : nat -> R) : nat -> R :=
  match ls with [] => x | l :: ls => through ls dropout n (rowThrough l dropout n x) end.

(** All layers are differentiable, each for the input it gets in a forward pass. *)
Definition layerDifferentiable (l : layer anyClass) (X : mat) : Prop :=
  match lkind anyClass l as k return St (anyClass k) -> Prop with
  | TheInput _ => fun _ => True
  | Own t => fun o => differentiable t o X
  end (lobj anyClass l).
Fixpoint differentiableAt (ls : list (layer anyClass)) (X : mat) (dropout : bool) : Prop :=
  match ls with
  | [] => True
  | l :: ls => layerDifferentiable l X /\
      forall o Y r, forwardPropagate (anyClass (lkind _ l)) (lobj _ l) X dropout = Ok (o, Y, r) -> differentiableAt ls Y dropout
  end.
