(** What it means that a layer computes exact gradients. *)
From Verif Require Import Base BaseFacts Matrix RSum MatOps Vec Deriv Layer_Model.
Local Open Scope R_scope.

(** sum over all entries of a product of two N x M matrices *)
Definition inner (N M : nat) (a b : nat -> nat -> R) : R :=
  rsum N (fun n => rsum M (fun j => a n j * b n j)).

(** The contract of a layer with [I] inputs, [O] outputs and [K] parameters, for all
    states that satisfy [Inv].  [smooth] describes where the layer is differentiable (it
    excludes e.g. the kinks of activation functions). *)
Record contract (c : LayerClass) (I O K : nat) (Inv : St c -> Prop)
    (smooth : St c -> mat -> Prop) : Prop := mkContract {
  (** the numbers of parameter and derivative pointers agree *)
  ct_count : forall s, Inv s ->
    length (fst (initialize c s)) = K /\ length (snd (initialize c s)) = K;
  (** parameters can be read, and written independently of each other *)
  ct_read : forall s k, Inv s -> (k < K)%nat -> exists v, readParam c s k = Ok v;
  ct_write : forall s k v, Inv s -> (k < K)%nat ->
    exists s', writeParam c s k v = Ok s' /\ Inv s' /\
    forall k', (k' < K)%nat -> readParam c s' k' = if Nat.eqb k' k then Ok v else readParam c s k';
  (** updatedParameters does not change them *)
  ct_updated : forall s, Inv s ->
    exists s', updatedParameters c s = Ok s' /\ Inv s' /\
    forall k, (k < K)%nat -> readParam c s' k = readParam c s k;
  (** Gradient.  Let the parameters [p t] and the input [X t] depend on a real number [t],
      with derivatives [p'] and [X'] at [t0].  Then the output [Y t] and the error term
      [reg t] are differentiable, with derivatives [Y'] and [reg'], and for every error
      signal [ein], backpropagate yields derivatives [g] and [eout] with
        <ein, Y'> + reg' = <g, p'> + <eout, X'>,
      which is the chain rule.  If the error is not propagated to the previous layer this
      holds when the input does not depend on [t]. *)
  ct_gradient : forall s dropout N t0 (p : R -> list R) (p' : nat -> R)
      (X : R -> mat) (X' : nat -> nat -> R),
    Inv s -> (forall t, length (p t) = K) -> (forall t, size_is (X t) N I) ->
    (forall k, (k < K)%nat -> D (fun t => (p t).[k]) t0 (p' k)) ->
    (forall n i, (n < N)%nat -> (i < I)%nat -> D (fun t => at_ (X t) n i) t0 (X' n i)) ->
    (forall q, install c s (p t0) = Ok q -> smooth q (X t0)) ->
    exists (q1 : R -> St c) (Y : R -> mat) (reg : R -> R) (Y' : nat -> nat -> R) (reg' : R),
      (forall t, exists q, install c s (p t) = Ok q /\
         forwardPropagate c q (X t) dropout = Ok (q1 t, Y t, reg t)) /\
      (forall t, size_is (Y t) N O) /\ (forall t, Inv (q1 t)) /\
      (forall n j, (n < N)%nat -> (j < O)%nat -> D (fun t => at_ (Y t) n j) t0 (Y' n j)) /\
      D reg t0 reg' /\
      forall ein bp, size_is ein N O ->
        exists q2 eout g, backpropagate c (q1 t0) ein bp = Ok (q2, eout) /\ Inv q2 /\
          (forall k, (k < K)%nat -> readDeriv c q2 k = Ok (g k)) /\
          (bp = true -> size_is eout N I /\
             inner N O (at_ ein) Y' + reg' = rsum K (fun k => g k * p' k) + inner N I (at_ eout) X') /\
          (bp = false -> (forall n i, (n < N)%nat -> (i < I)%nat -> X' n i = 0) ->
             inner N O (at_ ein) Y' + reg' = rsum K (fun k => g k * p' k)) }.

(** The same in terms of partial derivatives.  [objective c s p X dropout e f]: after
    setting the parameters [p], the forward pass on [X] gives an output [Y] and an error
    term [reg], and [f] is the sum of all [e n j * Y n j] plus [reg]. *)
Definition objective (c : LayerClass) (s : St c) (p : list R) (X : mat) (dropout : bool)
    (e : mat) (f : R) : Prop :=
  exists q q1 Y reg, install c s p = Ok q /\ forwardPropagate c q X dropout = Ok (q1, Y, reg) /\
    rows Y = rows e /\ cols Y = cols e /\
    f = inner (rows e) (cols e) (at_ e) (at_ Y) + reg.

(** [partials_exact]: set the parameters [p], run the forward pass on [X] and then
    backpropagate the error signal [e].  All three succeed, and
    - the k-th derivative pointer then holds the partial derivative of [objective] with
      respect to the k-th parameter, and
    - [eout] contains the partial derivatives with respect to the entries of the input (if
      they are asked for). *)
Definition partials_exact (c : LayerClass) (s : St c) (p : list R) (X : mat)
    (dropout : bool) (e : mat) (bp : bool) : Prop :=
  exists q q1 Y reg q2 eout,
    install c s p = Ok q /\ forwardPropagate c q X dropout = Ok (q1, Y, reg) /\
    backpropagate c q1 e bp = Ok (q2, eout) /\
    (forall k, (k < length p)%nat -> exists f g,
       (forall v, objective c s (upd p k v) X dropout e (f v)) /\
       readDeriv c q2 k = Ok g /\ derivable_pt_lim f p.[k] g) /\
    (bp = true -> rows eout = rows X /\ cols eout = cols X /\
       forall n i, (n < rows X)%nat -> (i < cols X)%nat -> exists f,
       (forall v, objective c s p (mupd X n i v) dropout e (f v)) /\
       derivable_pt_lim f (at_ X n i) (at_ eout n i)).

(** The states of an object that starts in [s0] and is used with inputs of [I] and error
    signals of [O] columns: parameters are set, forward passes are made, and each may be
    followed by backpropagation, in any order and any number of times. *)
Inductive history (c : LayerClass) (I O : nat) (s0 : St c) : St c -> Prop :=
| h_new : history c I O s0 s0
| h_set s p q : history c I O s0 s -> length p = paramCount c s -> install c s p = Ok q ->
    history c I O s0 q
| h_forward s X dropout q Y r : history c I O s0 s -> cols X = I ->
    forwardPropagate c s X dropout = Ok (q, Y, r) -> history c I O s0 q
| h_backward s X dropout q Y r ein bp q2 eout : history c I O s0 s -> cols X = I ->
    forwardPropagate c s X dropout = Ok (q, Y, r) ->
    rows ein = rows X -> cols ein = O -> backpropagate c q ein bp = Ok (q2, eout) ->
    history c I O s0 q2.
