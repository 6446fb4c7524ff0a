(** Property C06: deterministic resampling of a weighted data set. *)
From Verif Require Import BaseFacts Weighted_Model Weighted_Proofs.
Local Open Scope R_scope.

(** C06.  Non-negative weights that sum to one: every position refers to an instance
    with positive weight, and instance [i] is drawn a number of times that differs
    from N*w_i by less than one. *)
Theorem C06_resample_follows_weights :
  forall w : list R,
  let N := length w in
  Forall (fun x => 0 <= x) w -> fold_right Rplus 0 w = 1 ->
  forall rnd, exists inds, resample w N true rnd = Ok inds /\ length inds = N /\
    (forall n, (n < N)%nat ->
       exists i x, instanceOf inds N n = Ok i /\ nth_error w i = Some x /\ 0 < x) /\
    (forall i x, nth_error w i = Some x ->
       Rabs (INR (count_occ Z.eq_dec inds (Z.of_nat i)) - INR N * x) < 1).
Proof. exact resample_frequency. Qed.

(** C06.  Whatever the weights (also if they do not sum to one), deterministic
    resampling, and random resampling with positive draws, gives valid indices. *)
Theorem C06_resample_indices_valid :
  forall w N (deterministic : bool) rnd,
  length w = N -> (deterministic = true \/ forall n, (n < N)%nat -> 0 < rnd n) ->
  exists inds, resample w N deterministic rnd = Ok inds /\ length inds = N /\
    forall n, (n < N)%nat -> exists i, instanceOf inds N n = Ok i.
Proof. exact resample_safe. Qed.

(** Random resampling breaks on a draw of exactly 0, which
    [rng.generate<double>(0.0, 1.0)] can return: the index is -1. *)
Theorem C06_random_resample_zero_draw_refuted :
  forall w, (0 < length w)%nat ->
  exists inds, resample w (length w) false (fun _ => 0) = Ok inds /\
    instanceOf inds (length w) 0 = UB.
Proof. exact resample_zero. Qed.

Print Assumptions C06_resample_follows_weights.
Print Assumptions C06_resample_indices_valid.
Print Assumptions C06_random_resample_zero_draw_refuted.

Example ex_weights : Forall (fun x => 0 <= x) [/2; 0; /4; /4] /\
  fold_right Rplus 0 [/2; 0; /4; /4] = 1.
Proof. split; [repeat constructor; lra|simpl; lra]. Qed.
