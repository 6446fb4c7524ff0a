(** The rules that a program has to follow, in terms of what it has done before.  Histories are lists of actions, the last action first. *)
From Verif Require Import Base Evaluation_Model Ask_Model Ask_Spec Owner_Model.
Local Open Scope nat_scope.

Definition countNets (h : list action) : nat := length (filter (fun a => match a with CreateNet => true | _ => false end) h).
Definition countStreams (h : list action) : nat := length (filter (fun a => match a with CreateStream _ => true | _ => false end) h).
Definition countLayers (h : list action) : nat := length (filter (fun a => match a with NewLayer => true | _ => false end) h).

(** the i-th network (stream) has been created and not been destroyed *)
Definition netExists (h : list action) (i : nat) : Prop := i < countNets h /\ ~ In (DestroyNet i) h.
Definition streamExists (h : list action) (s : nat) : Prop := s < countStreams h /\ ~ In (DestroyStream s) h.
(** the user is responsible for the k-th layer: it was neither deleted nor added to a network *)
Definition mine (h : list action) (k : nat) : Prop :=
  k < countLayers h /\ ~ In (DeleteLayer k) h /\ forall i, ~ In (AddLayer i k) h.

(** the learner that the stream was told to use *)
Fixpoint learnerOf (h : list action) (s : nat) : option nat :=
  match h with
  | [] => None
  | SetLearner s' i :: h' => if Nat.eqb s s' then Some i else learnerOf h' s
  | _ :: h' => learnerOf h' s
  end.
(** the network that the stream feeds: the one that it was told to use when the first sample came *)
Fixpoint feeds (h : list action) (s : nat) : option nat :=
  match h with
  | [] => None
  | AddSample s' :: h' =>
      match feeds h' s with Some i => Some i | None => if Nat.eqb s s' then learnerOf h' s else None end
  | _ :: h' => feeds h' s
  end.
(** the stream whose samples are the training set of the i-th network *)
Fixpoint source (h : list action) (i : nat) : option nat :=
  match h with
  | [] => None
  | (TrainingSet j | RemoveTrainingSet j) :: h' => if Nat.eqb i j then None else source h' i
  | AddSample s :: h' =>
      match feeds h' s, learnerOf h' s with
      | None, Some j => if Nat.eqb i j then Some s else source h' i
      | _, _ => source h' i
      end
  | _ :: h' => source h' i
  end.

(** a network can be used if it exists and the stream that its training set comes from (if any) exists *)
Definition usable (h : list action) (i : nat) : Prop :=
  netExists h i /\ forall s, source h i = Some s -> streamExists h s.

(** The rules: only objects that exist are used, only layers for which the user is responsible are deleted or added, a network is not used
    when its training set belongs to a stream that was destroyed. *)
Definition allowed (h : list action) (a : action) : Prop :=
  match a with
  | CreateNet | NewLayer | CreateStream _ => True
  | DestroyNet i | MakeLayer i _ | TrainingSet i | RemoveTrainingSet i => netExists h i
  | DeleteLayer k => mine h k
  | AddLayer i k => netExists h i /\ mine h k
  | UseNet i | Train i _ _ => usable h i
  | DestroyStream s => streamExists h s
  | SetLearner s _ => streamExists h s
  | AddSample s => streamExists h s /\
      match feeds h s with
      | Some i => usable h i
      | None => exists i, learnerOf h s = Some i /\ netExists h i
      end
  end.
Fixpoint permitted (h : list action) : Prop :=
  match h with [] => True | a :: h' => permitted h' /\ allowed h' a end.

(** at the end all networks and streams are destroyed and the user has no layer left *)
Definition finished (h : list action) : Prop :=
  (forall i, ~ netExists h i) /\ (forall s, ~ streamExists h s) /\ forall k, ~ mine h k.

(** the actions that end with an exception after they have created an object *)
Definition throwing (a : action) : bool :=
  match a with MakeLayer _ false => true | Train _ true false => true | _ => false end.
Definition exceptions (h : list action) : nat := length (filter throwing h).

(** the blocks that were created and never deleted; [freedOnce] (Ask_Spec): each block is deleted exactly once, after it was created *)
Definition lost (h : list memory) : list nat :=
  flat_map (fun e => match e with New p => if alive p h then [p] else [] | Delete _ => [] end) h.
