(** The ways in which a restricted Boltzmann machine can be used as a learner. *)
From Verif Require Import Base BaseFacts Matrix RSum Vec RBM_Model.
Local Open Scope R_scope.

(** [rbm_use s0 M p data s]: after its construction in state [s0] the functions of the learner
    have been called, in any order and any number of times, and the object is now in state
    [s].  [p] is the vector of the last call of setParameters (or the initial parameters),
    [data] are the instances of the last training set (none at the beginning), which have [M]
    entries.  The k-th random number that is drawn is [u k]. *)
Inductive rbm_use (junk : nat -> nat -> R) (u : nat -> R) (s0 : rbm) (M : nat) : list R -> list (list R) -> rbm -> Prop :=
| ru_new : rbm_use junk u s0 M (rbm_currentParameters s0) [] s0
| ru_set p data s p' q : rbm_use junk u s0 M p data s -> length p' = rbm_dimension s ->
    rbm_setParameters s p' = Ok q -> rbm_use junk u s0 M p' data q
| ru_train p data s data' : rbm_use junk u s0 M p data s -> (forall v, In v data' -> length v = M) ->
    rbm_use junk u s0 M p data' (rbm_trainingSet s M data')
| ru_encode p data s X q Z : rbm_use junk u s0 M p data s ->
    rbm_encode junk u s X = Ok (q, Z) -> rbm_use junk u s0 M p data q
| ru_apply p data s x q y : rbm_use junk u s0 M p data s ->
    rbm_apply junk u s x = Ok (q, y) -> rbm_use junk u s0 M p data q
| ru_reconstruct p data s n steps q y : rbm_use junk u s0 M p data s ->
    rbm_reconstructProb junk u s n steps = Ok (q, y) -> rbm_use junk u s0 M p data q
| ru_errorN p data s n q e : rbm_use junk u s0 M p data s ->
    rbm_errorN junk u s n = Ok (q, e) -> rbm_use junk u s0 M p data q
| ru_error p data s q e : rbm_use junk u s0 M p data s ->
    rbm_error junk u s = Ok (q, e) -> rbm_use junk u s0 M p data q
| ru_gradientN p data s n q g : rbm_use junk u s0 M p data s ->
    rbm_gradientN junk u s n = Ok (q, g) -> rbm_use junk u s0 M p data q
| ru_gradient p data s q g : rbm_use junk u s0 M p data s ->
    rbm_gradient junk u s = Ok (q, g) -> rbm_use junk u s0 M p data q
| ru_errorGradient p data s ns q e g : rbm_use junk u s0 M p data s ->
    rbm_errorGradient junk u s ns = Ok (q, e, g) -> rbm_use junk u s0 M p data q.

(** the number of random numbers drawn so far *)
Definition draws (s : rbm) : nat := mk (rsmp s).
