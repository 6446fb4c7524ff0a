(** Model of Net::addLayer and Net::addOutputLayer, /repo/src/Net.cpp 144-160, with objects of arbitrary classes that are
    derived from Layer (/repo/OpenANN/layers/Layer.h 34-84), e.g. classes of the user. *)
From Verif Require Import Base BaseFacts Matrix RSum MatOps Layer_Model LayerFun_Spec SimpleLayers_Model Net_Model.
Local Open Scope R_scope.

(** A class of layers together with what its objects promise: see [contract] in Layer_Spec.v and [layer_ok] in
    LayerFun_Spec.v.  Objects of a class that differ in their sizes have different types here. *)
Record layerType := mkType {
  cls : LayerClass;
  ins : nat; outs : nat; pars : nat;
  inv : St cls -> Prop;
  differentiable : St cls -> mat -> Prop;
  computes : St cls -> bool -> nat -> (nat -> R) -> nat -> R;
  errorTerm : St cls -> R;
  keeps : layer_ok cls ins outs pars inv differentiable computes errorTerm }.

(** the layers of a network: the input layer and objects *)
Inductive anyKind := TheInput (J : nat) | Own (t : layerType).
Definition anyClass (k : anyKind) : LayerClass := match k with TheInput _ => input_class | Own t => cls t end.

(** a new object and the OutputInfo that its function initialize returns *)
Record object := mkObject { otype : layerType; ostate : St (cls otype); oinfo : list nat }.

(** inputLayer, lines 41-45 *)
Definition anyInput (d1 d2 d3 : nat) : net anyClass :=
  addLayer anyClass (net_new anyClass) (mkLayer anyClass (TheInput (d1 * d2 * d3)) (input_new d1 d2 d3)) [d1; d2; d3].
(** addLayer, lines 144-153; [None] is the null pointer *)
Definition addObject (s : net anyClass) (o : option object) : res (net anyClass) :=
  match o with
  | None => Abort
  | Some o => Ok (addLayer anyClass s (mkLayer anyClass (Own (otype o)) (ostate o)) (oinfo o))
  end.
(** Net(), inputLayer(d1, d2, d3), addLayer for all but the last object and addOutputLayer, lines 155-160, for the last one *)
Definition buildOwn (junk : nat -> nat -> R) (d1 d2 d3 : nat) (os : list (option object)) : res (net anyClass) :=
  s <- for_each os (fun o s => addObject s o) (anyInput d1 d2 d3) ;;
  initializeNetwork anyClass junk s.
