(** The ways in which a sparse auto-encoder can be used as a learner. *)
From Verif Require Import Base BaseFacts Matrix RSum Vec Activation_Model SAE_Model.
Local Open Scope R_scope.

(** [sae_use s0 M p data s]: after its construction in state [s0] the functions of the learner
    have been called, in any order and any number of times, and the object is now in state
    [s].  [p] is the vector of the last call of setParameters (or the initial parameters),
    [data] are the instances of the last training set (none at the beginning), which have [M]
    entries. *)
Inductive sae_use (junk : nat -> nat -> R) (s0 : sae) (M : nat) : list R -> list (list R) -> sae -> Prop :=
| su_new : sae_use junk s0 M (sae_currentParameters s0) [] s0
| su_set p data s p' q : sae_use junk s0 M p data s -> length p' = sae_dimension s ->
    sae_setParameters s p' = Ok q -> sae_use junk s0 M p' data q
| su_train p data s data' q : sae_use junk s0 M p data s -> (forall v, In v data' -> length v = M) ->
    sae_trainingSet junk s M data' = Ok q -> sae_use junk s0 M p data' q
| su_encode p data s X q Z : sae_use junk s0 M p data s ->
    sae_encode junk s X = Ok (q, Z) -> sae_use junk s0 M p data q
| su_apply p data s x q y : sae_use junk s0 M p data s ->
    sae_apply junk s x = Ok (q, y) -> sae_use junk s0 M p data q
| su_reconstruct p data s x q y : sae_use junk s0 M p data s ->
    sae_reconstruct junk s x = Ok (q, y) -> sae_use junk s0 M p data q
| su_error p data s q e : sae_use junk s0 M p data s ->
    sae_error junk s = Ok (q, e) -> sae_use junk s0 M p data q
| su_gradient p data s q g : sae_use junk s0 M p data s ->
    sae_gradient junk s = Ok (q, g) -> sae_use junk s0 M p data q
| su_errorGradient p data s g q e g' : sae_use junk s0 M p data s -> length g = sae_dimension s ->
    sae_errorGradient junk s g = Ok (q, e, g') -> sae_use junk s0 M p data q.

(** the instances as the rows of a matrix *)
Definition dataMat (M : nat) (data : list (list R)) : mat :=
  mkMat (length data) M (fun n d => (nth n data []).[d]).
