(** Specification vocabulary for mini-batch stochastic gradient descent. *)
From Verif Require Import Base BaseFacts Vec MBSGD_Model.
Local Open Scope R_scope.

(** the gradient computations in a history, in order *)
Definition gradients (h : list event) : list event :=
  filter (fun e => match e with ErrorGradient _ _ _ _ => true | _ => false end) h.
(** the index batches for which gradients were computed *)
Fixpoint batchesOf (h : list event) : list (list nat) :=
  match h with
  | [] => []
  | ErrorGradient _ b _ _ :: h' => b :: batchesOf h'
  | _ :: h' => batchesOf h'
  end.
(** number of completed epochs *)
Fixpoint epochs (h : list event) : nat :=
  match h with
  | [] => 0
  | FinishedIteration :: h' => S (epochs h')
  | _ :: h' => epochs h'
  end.

(** documented schedules: values after [k] batches *)
Definition learningRate (c : config) (a0 : R) (k : nat) : R :=
  match k with 0%nat => a0 | _ => Rmax (a0 * alphaDecay c ^ k) (minAlpha c) end.
Definition momentumRate (c : config) (e0 : R) (k : nat) : R :=
  match k with 0%nat => e0 | _ => Rmin (e0 + INR k * etaGain c) (maxEta c) end.

(** adaptive gain of one parameter, from the last change [m] of the parameter, the
    new gradient [g] and the old gain *)
Definition newGain (c : config) (m g gain : R) : R :=
  if useGain c
  then Rmin (maxGain c) (Rmax (minGain c)
         (if Rle_dec 0 (m * g) then gain + 5 / 100 else gain * (95 / 100)))
  else gain.

(** The documented recursion.  [documented n c a0 e0 p0 evs p m g]: starting at [p0] with
    learning rate [a0] and momentum rate [e0], after the gradient computations [evs]
    the parameters are [p], their last change is [m] and the gains are [g]. *)
Inductive documented (n : nat) (c : config) (a0 e0 : R) (p0 : list R) :
  list event -> list R -> list R -> list R -> Prop :=
| documented_start : length p0 = n ->
    documented n c a0 e0 p0 [] p0 (repeat 0 n) (repeat 1 n)
| documented_batch evs p m g point batch err grad p' m' g' :
    documented n c a0 e0 p0 evs p m g ->
    let k := length evs in
    length point = n -> length p' = n -> length m' = n -> length g' = n ->
    (forall j, (j < n)%nat ->
       point.[j] = (if nesterov c then p.[j] + momentumRate c e0 k * m.[j] else p.[j]) /\
       g'.[j] = newGain c m.[j] grad.[j] g.[j] /\
       m'.[j] = momentumRate c e0 k * m.[j] - learningRate c a0 k * (g'.[j] * grad.[j]) /\
       p'.[j] = p.[j] + m'.[j]) ->
    documented n c a0 e0 p0 (evs ++ [ErrorGradient point batch err grad]) p' m' g'.

(** a problem with at least one parameter and one example that returns gradients of
    the right size; shuffles permute *)
Definition proper (pb : problem) : Prop :=
  (0 < dimension pb)%nat /\ (0 < examples pb)%nat /\
  (forall h p b, length (snd (answer pb h p b)) = dimension pb) /\
  (forall h l, Permutation l (shuffle pb h l)).

(** optimiser states that a program can produce: construction, steps, results and
    changes of the parameters of the problem by the program, in any order *)
Inductive reachable (pb : problem) (c : config) (a0 e0 : R) : sgd -> Prop :=
| r_new lr mo bs ne de ml mg mm ming maxg mi ms p0 s :
    newMBSGD lr mo bs ne de ml mg mm ming maxg mi ms p0 = Ok (c, s) ->
    length p0 = dimension pb -> a0 = lr -> e0 = mo -> reachable pb c a0 e0 s
| r_step s run s' : reachable pb c a0 e0 s -> step pb c s = Ok (run, s') -> reachable pb c a0 e0 s'
| r_result s : reachable pb c a0 e0 s -> (0 < epochs (history s))%nat ->
    reachable pb c a0 e0 (snd (result s))
| r_set s p : reachable pb c a0 e0 s -> length p = dimension pb ->
    reachable pb c a0 e0 (setParameters p s).

(** [ran pb c s n s']: [n] steps, each of which asks to go on, lead from [s] to [s'] *)
Inductive ran (pb : problem) (c : config) (s : sgd) : nat -> sgd -> Prop :=
| ran_0 : ran pb c s 0 s
| ran_S n s1 s2 : ran pb c s n s1 -> step pb c s1 = Ok (true, s2) -> ran pb c s (S n) s2.

(** a run starts here: no step since construction, or the last step said to stop *)
Definition fresh (s : sgd) : Prop := (iteration s < 0)%Z.

(** documented stopping rule after [n] epochs when the last change of the parameters
    was [m] *)
Definition wants_more (c : config) (n : nat) (m : list R) : Prop :=
  (maximalIterations c = -1 \/ Z.of_nat n < maximalIterations c)%Z /\
  (minimalSearchSpaceStep c = 0 \/ minimalSearchSpaceStep c <= norm m).

(** documented intervals of the constructor arguments *)
Definition admissible (learningRate momentum0 : R) (batchSize0 : Z)
    (decay minLR momGain maxMom : R) : Prop :=
  (0 < learningRate <= 1) /\ (0 <= momentum0 < 1) /\ (1 <= batchSize0)%Z /\
  (0 < decay <= 1) /\ (0 <= minLR <= 1) /\ (0 <= momGain < 1) /\ (0 <= maxMom <= 1).

(** all vectors of the optimiser have [P] entries *)
Definition sizes (P : nat) (s : sgd) : Prop :=
  dimP s = Z.of_nat P /\ length (parameters s) = P /\ length (momentum s) = P /\
  length (gains s) = P /\ length (optParameters s) = P.
