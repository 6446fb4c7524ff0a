(** Model of who deletes what: networks (/repo/src/Net.cpp), the data sets of learners (/repo/src/Learner.cpp), data streams
    (/repo/src/DataStream.cpp) and [train] (/repo/src/Convenience.cpp).  Only the objects on the heap and the pointers to them are modelled,
    with the heap of Ask_Model; what the objects compute is modelled elsewhere.  A user catches the exceptions, so that a program goes on
    after an exception. *)
From Verif Require Import Base Evaluation_Model Ask_Model.
Local Open Scope nat_scope.

(** class Net with its base class Learner, Net.h 42-44 and Learner.h 21-24: the layers, the training set, whether the destructor deletes the
    training set.  Not modelled: the validation set, which is managed in the same way (C09). *)
Record netObject := mkNet { layers : list nat; trainSet : option nat; deleteTrainSet : bool }.
(** class DataStream, DataStream.h 24-31.  [learner] is a network of the program, [optimizable] the network that the optimizer of the stream
    works on.  Simplification: setOptimizer has been called, each stream has its own optimizer. *)
Record streamObject := mkStream { cacheSize : nat; collected : nat; cache : option nat; learner : option nat; optimizable : option nat }.

(** A program with networks and data streams.  [None]: the object has been destroyed.  [pointers] are the pointers to the layers that the
    user has created; the user keeps a pointer when the layer is deleted or added to a network. *)
Record program := mkProgram {
  nets : list (option netObject); streams : list (option streamObject); pointers : list nat; heap : list memory }.
Definition start : program := mkProgram [] [] [] [].

(** What a user does.  [i] is the i-th network, [s] the s-th stream, [k] the k-th layer that was created by the user. *)
Inductive action :=
| CreateNet
| DestroyNet (i : nat)
| NewLayer                                      (* new MyLayer(...) *)
| DeleteLayer (k : nat)                         (* delete layer *)
| AddLayer (i k : nat)                          (* addLayer(layer), addOutputLayer(layer) *)
| MakeLayer (i : nat) (initialized : bool)      (* fullyConnectedLayer, maxPoolingLayer, ...; [false]: Layer::initialize throws *)
| TrainingSet (i : nat)                         (* trainingSet(X, T) *)
| RemoveTrainingSet (i : nat)
| UseNet (i : nat)                              (* error(), gradient(), an optimization, ... *)
| Train (i : nat) (known optimized : bool)      (* train(net, algorithm, ...); [optimized = false]: optimize() throws *)
| CreateStream (cacheSize : nat)
| DestroyStream (s : nat)
| SetLearner (s i : nat)
| AddSample (s : nat).

(** access to an object through a pointer *)
Definition access (p : nat) (h : list memory) : res unit := if alive p h then Ok tt else UB.
Definition access_opt (p : option nat) (h : list memory) : res unit := match p with Some q => access q h | None => Ok tt end.
(** an object that has been destroyed (or was never created) must not be used *)
Definition object {A} (l : list (option A)) (i : nat) : res A :=
  match nth_error l i with Some (Some a) => Ok a | _ => UB end.

(** Learner.cpp 15-16, 24-25, 35-36, 44-45: [if(deleteTrainSet && trainSet) delete trainSet;] *)
Definition deleteOwnSet (n : netObject) (h : list memory) : res (list memory) :=
  if deleteTrainSet n then free_opt (trainSet n) h else Ok h.
(** ~Net, Net.cpp 32-40, followed by ~Learner, Learner.cpp 13-19 *)
Definition destroyNet (n : netObject) (h : list memory) : res (list memory) :=
  h <- for_each (layers n) free h ;; deleteOwnSet n h.
(** The network passes instances of the training set through all layers.  Simplification: each use accesses every layer and the training
    set, if there is one. *)
Definition useNet (n : netObject) (h : list memory) : res unit :=
  _ <- for_each (layers n) (fun p _ => access p h) tt ;; access_opt (trainSet n) h.

Definition step (a : action) (g : program) : res program :=
  let setNet i n h := mkProgram (upd (nets g) i n) (streams g) (pointers g) h in
  match a with
  | CreateNet =>                          (* Net.cpp 23-28, Learner.cpp 7-11 *)
      Ok (mkProgram (nets g ++ [Some (mkNet [] None false)]) (streams g) (pointers g) (heap g))
  | DestroyNet i =>
      n <- object (nets g) i ;; h <- destroyNet n (heap g) ;; Ok (setNet i None h)
  | NewLayer =>
      let (p, h) := alloc (heap g) in Ok (mkProgram (nets g) (streams g) (pointers g ++ [p]) h)
  | DeleteLayer k =>
      p <- vget (pointers g) k ;; h <- free p (heap g) ;; Ok (mkProgram (nets g) (streams g) (pointers g) h)
  | AddLayer i k =>                       (* Net.cpp 144-161; a layer whose initialize does not throw *)
      n <- object (nets g) i ;; p <- vget (pointers g) k ;;
      _ <- access p (heap g) ;;
      Ok (setNet i (Some (mkNet (layers n ++ [p]) (trainSet n) (deleteTrainSet n))) (heap g))
  | MakeLayer i initialized =>            (* Net.cpp 41-142 and 163-185: addLayer(new X(...)); line 148 may throw, 149 is not reached then *)
      n <- object (nets g) i ;;
      let (p, h) := alloc (heap g) in
      if initialized
      then Ok (setNet i (Some (mkNet (layers n ++ [p]) (trainSet n) (deleteTrainSet n))) h)
      else Ok (setNet i (Some n) h)
  | TrainingSet i =>                      (* Learner.cpp 21-30 *)
      n <- object (nets g) i ;; h <- deleteOwnSet n (heap g) ;;
      let (p, h) := alloc h in
      Ok (setNet i (Some (mkNet (layers n) (Some p) true)) h)
  | RemoveTrainingSet i =>                (* Learner.cpp 42-50 *)
      n <- object (nets g) i ;; h <- deleteOwnSet n (heap g) ;;
      Ok (setNet i (Some (mkNet (layers n) None false)) h)
  | UseNet i =>
      n <- object (nets g) i ;; _ <- useNet n (heap g) ;; Ok g
  | Train i known optimized =>            (* Convenience.cpp 16-44 *)
      n <- object (nets g) i ;;
      if known then                       (* lines 24-33: new *)
        let (p, h) := alloc (heap g) in
        _ <- useNet n h ;;                (* lines 37-40 *)
        if optimized
        then h <- free p h ;; Ok (setNet i (Some n) h)  (* line 42 *)
        else Ok (setNet i (Some n) h)     (* an exception leaves the function *)
      else Ok g                           (* line 35: exception before anything was created *)
  | CreateStream size =>                  (* DataStream.cpp 12-15 *)
      Ok (mkProgram (nets g) (streams g ++ [Some (mkStream size 0 None None None)]) (pointers g) (heap g))
  | DestroyStream s =>                    (* DataStream.cpp 17-21 *)
      d <- object (streams g) s ;; h <- free_opt (cache d) (heap g) ;;
      Ok (mkProgram (nets g) (upd (streams g) s None) (pointers g) h)
  | SetLearner s i =>                     (* DataStream.cpp 23-27 *)
      d <- object (streams g) s ;;
      Ok (mkProgram (nets g) (upd (streams g) s (Some (mkStream (cacheSize d) (collected d) (cache d) (Some i) (optimizable d))))
            (pointers g) (heap g))
  | AddSample s =>                        (* DataStream.cpp 37-51 *)
      d <- object (streams g) s ;;
      match learner d with
      | None => Abort                     (* line 39 *)
      | Some i =>
          '(d, ns, h) <-
            match cache d with
            | Some _ => Ok (d, nets g, heap g)
            | None =>                     (* initialize, lines 53-71; line 68: Learner.cpp 32-40 *)
                let (p, h) := alloc (heap g) in
                n <- object (nets g) i ;; h <- deleteOwnSet n h ;;
                Ok (mkStream (cacheSize d) (collected d) (Some p) (learner d) (Some i),
                    upd (nets g) i (Some (mkNet (layers n) (Some p) false)), h)
            end ;;
          let finish c := Ok (mkProgram ns (upd (streams g) s (Some (mkStream (cacheSize d) c (cache d) (learner d) (optimizable d))))
                                (pointers g) h) in
          if Nat.leb (cacheSize d) (S (collected d))
          then match optimizable d with   (* line 48: opt->step() *)
               | None => UB
               | Some j => n <- object ns j ;; _ <- useNet n h ;; finish 0
               end
          else finish (S (collected d))
      end
  end.

Definition run (l : list action) (g : program) : res program := for_each l step g.
