(** What boosting is: specification for the ensembles. *)
From Verif Require Import Base Matrix RSum Vec DataSet_Model Evaluation_Model Evaluation_Spec.
Local Open Scope R_scope.

(** positive weights that sum up to one *)
Definition distribution (w : list R) : Prop :=
  (forall n, (n < length w)%nat -> 0 < w.[n]) /\ rsum (length w) (fun n => w.[n]) = 1.

(** [rows'] consists of as many instances as [rows]; instance i occurs as often as its weight demands, up to
    rounding *)
Definition resampled (rows : list (vec * vec)) (w : list R) (rows' : list (vec * vec)) : Prop :=
  exists inds, length inds = length rows /\
    Forall2 (fun i r => nth_error rows i = Some r) inds rows' /\
    forall i, (i < length rows)%nat ->
      Rabs (INR (count_occ Nat.eq_dec inds i) - INR (length rows) * w.[i]) < 1.

(** [hit n] tells whether the learner assigns instance n to the class of its target *)
Definition classifies (learner : vec -> vec) (rows : list (vec * vec)) (hit : nat -> bool) : Prop :=
  forall n r, nth_error rows n = Some r ->
    exists c k, class_of (learner (fst r)) c /\ class_of (snd r) k /\ hit n = Nat.eqb c k.

(** weight of the instances that are classified wrongly *)
Definition weightedError (w : list R) (hit : nat -> bool) : R :=
  rsum (length w) (fun n => if hit n then 0 else w.[n]).

(** half the logarithm of the odds of being right *)
Definition quality (e : R) : R := / 2 * ln ((1 - e) / (e + / 10000000000)).

(** the weight of an instance grows by the factor exp(quality) if it is classified wrongly, shrinks by the
    same factor otherwise, and the weights are normalised *)
Definition factor (hit : nat -> bool) (e : R) (n : nat) : R := exp (if hit n then - quality e else quality e).
Definition reweighted (w : list R) (hit : nat -> bool) (w' : list R) : Prop :=
  let e := weightedError w hit in
  length w' = length w /\
  forall n, (n < length w)%nat ->
    w'.[n] = w.[n] * factor hit e n / rsum (length w) (fun i => w.[i] * factor hit e i).

Section Boosting.
Context {L O : Type} (predict : L -> vec -> vec) (optimize : source -> O -> L -> O * L).

(** one round of boosting: instance weights, and which instances the learner of this round then classifies
    correctly *)
Record round := mkRound { roundWeights : list R; roundHit : nat -> bool }.
Definition roundError (r : round) : R := weightedError (roundWeights r) (roundHit r).

(** [boosting F rows w mem o ms rs w' mem' o']: beginning with instance weights [w], learners [mem] and
    optimizer [o], the learners [ms] are trained one after the other in rounds [rs] *)
Inductive boosting (F : nat) (rows : list (vec * vec)) :
  list R -> list L -> O -> list nat -> list round -> list R -> list L -> O -> Prop :=
| b_end w mem o : boosting F rows w mem o [] [] w mem o
| b_round w mem o m ms l rows' src o1 l1 hit w1 rs w' mem' o' :
    nth_error mem m = Some l ->
    resampled rows w rows' -> shows src rows' -> srcOutputs src = F ->
    optimize src o l = (o1, l1) ->
    classifies (predict l1) rows hit ->
    (if Rlt_dec 0 (weightedError w hit)
     then if Rlt_dec (weightedError w hit) (/ 2) then reweighted w hit w1 else w1 = w
     else w1 = w) ->
    boosting F rows w1 (upd mem m l1) o1 ms rs w' mem' o' ->
    boosting F rows w mem o (m :: ms) (mkRound w hit :: rs) w' mem' o'.
End Boosting.

(** weighted vote of the rounds on instance n: positive iff the correct votes have more weight *)
Fixpoint margin (rs : list round) (n : nat) : R :=
  match rs with
  | [] => 0
  | r :: rs => (if roundHit r n then quality (roundError r) else - quality (roundError r)) + margin rs n
  end.
(** the classical bound for the training error of boosting: a product of factors, each 2 * sqrt(e * (1 - e)) for a
    round with error e (up to the small constant that avoids a division by 0) *)
Fixpoint boostingBound (rs : list round) : R :=
  match rs with
  | [] => 1
  | r :: rs => let e := roundError r in
      (2 * e + / 10000000000) * sqrt ((1 - e) / (e + / 10000000000)) * boostingBound rs
  end.
