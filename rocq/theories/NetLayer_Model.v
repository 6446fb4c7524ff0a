(** Model of the functions of class Net that give access to single layers, /repo/src/Net.cpp 185-220. *)
From Verif Require Import Base BaseFacts Matrix MatOps Layer_Model Net_Model.
Local Open Scope R_scope.

Section Access.
Context {kind : Type} (kclass : kind -> LayerClass).
Notation net := (net kclass).
Notation layer := (layer kclass).
Notation mkLayer := (mkLayer kclass).
Notation layers := (layers kclass).
Notation infos := (infos kclass).
Notation lkind := (lkind kclass).
Notation lobj := (lobj kclass).

(** numberOflayers, lines 185-188.  [L] is the length of [layers] (Net_Model.v). *)
Definition numberOfLayers (s : net) : nat := length (layers s).

(** getLayer, lines 190-194.  The argument is unsigned.  The result is a reference: what is done with it is done to the
    network, see [withLayer]. *)
Definition getLayer (s : net) (l : nat) : res layer :=
  _ <- check (Nat.ltb l (numberOfLayers s)) ;; vget (layers s) l.
(** the network after the object of layer [l] has been replaced by [x] *)
Definition withLayer (s : net) (l : nat) (x : layer) : net := with_layers kclass s (upd (layers s) l x).

(** getOutputInfo, lines 196-200 *)
Definition getOutputInfo (s : net) (l : nat) : res (list nat) :=
  _ <- check (Nat.ltb l (numberOfLayers s)) ;; vget (infos s) l.

(** [getLayer(l).forwardPropagate(x, y, dropout)] *)
Definition layerForward (s : net) (l : nat) (x : mat) (dropout : bool) : res (net * mat) :=
  a <- getLayer s l ;;
  ' (o, y, _) <- forwardPropagate (kclass (lkind a)) (lobj a) x dropout ;;
  Ok (withLayer s l (mkLayer (lkind a) o), y).

(** A DirectStorageDataSet with the pointers it has been constructed from, DirectStorageDataSet.h 25-34.  [None] is a
    pointer to an object that does not exist any more. *)
Record storedSet := mkStored { sN : nat; sD : nat; sF : nat; sIn : option mat; sOut : option mat }.
(** samples, inputs and outputs, DirectStorageDataSet.h; they return members *)
Definition st_samples (d : storedSet) : nat := sN d.
Definition st_inputs (d : storedSet) : nat := sD d.
Definition st_outputs (d : storedSet) : nat := sF d.
(** getInstance and getTarget, DirectStorageDataSet.cpp 20-33 *)
Definition st_getInstance (d : storedSet) (i : nat) : res mat := match sIn d with Some m => rowOf m i | None => UB end.
Definition st_getTarget (d : storedSet) (i : nat) : res mat := match sOut d with Some m => rowOf m i | None => UB end.
(** the constructor, DirectStorageDataSet.cpp 9-18 *)
Definition st_new (X T : mat) : res storedSet :=
  _ <- check (Nat.ltb 0 (cols X)) ;; _ <- check (Nat.eqb (rows X) (rows T)) ;;
  Ok (mkStored (rows X) (cols X) (cols T) (Some X) (Some T)).

(** the inner loop of propagateDataSet, lines 210-212.  [i] is not incremented. *)
Fixpoint propagateLayers (ls : list layer) (i l : Z) (y : mat) (dropout : bool) : res (list layer * mat) :=
  match ls with
  | [] => Ok ([], y)
  | a :: ls' =>
      if Z.ltb i l
      then ' (o, y, _) <- forwardPropagate (kclass (lkind a)) (lobj a) y dropout ;;
           ' (ls', y) <- propagateLayers ls' i l y dropout ;;
           Ok (mkLayer (lkind a) o :: ls', y)
      else Ok (ls, y)
  end.

(** propagateDataSet, lines 202-220.  The data set is a DirectStorageDataSet.  [junk] are the entries of new matrices.
    [X] and [T] are local variables, which do not exist any more when the caller gets the result. *)
Definition propagateDataSet (junk : nat -> nat -> R) (s : net) (d : trainData) (l : Z) : res (net * storedSet) :=
  let N := rows (dataIn d) in
  ' (s, X, T) <- for_ N (fun n st =>
      let '(s, X, T) := st in
      x <- rowOf (dataIn d) n ;;
      let s := with_input kclass s x in
      ' (ls, y) <- propagateLayers (layers s) 0 l x (dropout kclass s) ;;
      let s := with_output kclass (with_layers kclass s ls) y in
      X <- msetRow X n y ;;
      t <- rowOf (dataOut d) n ;;
      T <- msetRow T n t ;;
      Ok (s, X, T)) (s, mkMat N (cols (dataIn d)) junk, mkMat N (cols (dataOut d)) junk) ;;
  r <- st_new X T ;;
  Ok (s, mkStored (sN r) (sD r) (sF r) None None).
End Access.
