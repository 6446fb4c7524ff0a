(** C110: scaling data to an interval in double precision. *)
From Coq Require Import Lra Lia ZArith List.
From Flocq Require Import Core BinarySingleNaN.
From Verif Require Import Base BaseFacts Activation_Model Float_Model Float_Spec Float_Proofs FloatSoft_Proofs FloatSplit_Model FloatSplit_Proofs FloatSGD_Spec FloatSGD_Proofs FloatScale_Model FloatScale_Proofs.
Import ListNotations.
Local Open Scope R_scope.

(** [v] is in row [i] and column [j] of the matrix. *)
Definition entry (data : list (list double)) (i j : nat) (v : double) : Prop := exists row, nth_error data i = Some row /\ nth_error row j = Some v.
(** The matrices have the same shape. *)
Definition sameShape (a b : list (list double)) : Prop := map (@length double) a = map (@length double) b.
(** [lo] and [hi] are the smallest and the largest number of the data, and all numbers are finite. *)
Definition extremes (data : list (list double)) (lo hi : double) : Prop :=
  (exists i j, entry data i j lo) /\ (exists i j, entry data i j hi) /\ forall i j v, entry data i j v -> finite v /\ val lo <= val v <= val hi.
(** neither huge nor, if it is a difference, tiny *)
Definition moderate (r : R) : Prop := Rabs r <= 2 ^ 300.
Definition apart (a b : R) : Prop := a + / 2 ^ 300 <= b.

Lemma extremes_model data lo hi : extremes data lo hi ->
  exists x l, concat data = x :: l /\ finite (d_min x l) /\ finite (d_max x l) /\ val (d_min x l) = val lo /\ val (d_max x l) = val hi.
Proof.
  intros ((i & j & rl & L1 & L2) & (i' & j' & rh & H1 & H2) & B). assert (Il : In lo (concat data)) by (apply concat_entry; eauto). assert (Ih : In hi (concat data)) by (apply concat_entry; eauto).
  assert (BB : forall v, In v (concat data) -> finite v /\ val lo <= val v <= val hi). { intros v I. apply concat_entry in I. destruct I as (a & b & r & A1 & A2). apply (B a b v). exists r. auto. }
  destruct (concat data) as [|x l] eqn:E; [destruct Il|]. exists x, l. split; auto. assert (Fl : forall y, In y l -> finite y) by (intros y I; apply BB; now right). assert (Fx : finite x) by (apply BB; now left).
  destruct (min_ok l x Fx Fl) as (A1 & A2 & A3). destruct (max_ok l x Fx Fl) as (B1 & B2 & B3). split; auto. split; auto. pose proof (A3 lo Il). pose proof (B3 hi Ih). pose proof (BB _ A2). pose proof (BB _ B2). split; lra.
Qed.
Lemma entry_map data f i j v : entry data i j v -> entry (map (map f) data) i j (f v).
Proof. intros (row & A & B). exists (map f row). split; [now apply map_nth_error|now apply map_nth_error]. Qed.
Lemma entry_unique data i j v w : entry data i j v -> entry data i j w -> v = w.
Proof. intros (r & A & B) (r' & C & D). congruence. Qed.
Lemma shape_map f data : sameShape (map (map f) data) data.
Proof. unfold sameShape. rewrite map_map. apply map_ext. intros. apply map_length. Qed.

(** C110.  For data of moderate size that is not (almost) constant every result is finite and close to the exact one: the error is at most 16 units in
    the last place of the intermediate results, that is, of the largest number of the data times the scaling factor, the lower limit and the width of the interval. *)
Theorem C110_accurate data lo hi min max : extremes data lo hi -> finite min -> finite max ->
  moderate (val lo) -> moderate (val hi) -> moderate (val min) -> moderate (val max) -> apart (val lo) (val hi) -> apart (val min) (val max) ->
  exists out, d_scaleData data min max = Ok out /\ sameShape out data /\ forall i j v, entry data i j v ->
    let factor := (val max - val min) / (val hi - val lo) in
    exists w, entry out i j w /\ finite w /\
      Rabs (val w - (val min + (val v - val lo) * factor)) <= 16 * / 2 ^ 52 * (Rmax (Rabs (val lo)) (Rabs (val hi)) * factor + Rabs (val min) + (val max - val min)).
Proof.
  intros X Fmin Fmax Ml Mh Mmin Mmax Ad Ai. destruct (extremes_model _ _ _ X) as (x & l & E & F1 & F2 & V1 & V2). unfold d_scaleData. unfold apart, moderate in *. pose proof P300 as P.
  destruct (dleb max min) eqn:D. { apply leb_le in D; auto. lra. } rewrite E. eexists. split; [reflexivity|]. split; [apply shape_map|]. intros i j v H. eexists. split; [apply (entry_map _ _ _ _ _ H)|].
  destruct X as (_ & _ & B). destruct (B _ _ _ H) as (Fv & Rv). rewrite <- V1, <- V2 in *. apply scaled_ok; auto; lra.
Qed.

(** The order of the numbers is kept: a larger number never becomes a smaller one. *)
Theorem C110_order data lo hi min max : extremes data lo hi -> finite min -> finite max ->
  moderate (val lo) -> moderate (val hi) -> moderate (val min) -> moderate (val max) -> apart (val lo) (val hi) -> apart (val min) (val max) ->
  exists out, d_scaleData data min max = Ok out /\ forall i j i' j' v v' w w', entry data i j v -> entry data i' j' v' -> entry out i j w -> entry out i' j' w' -> val v <= val v' -> val w <= val w'.
Proof.
  intros X Fmin Fmax Ml Mh Mmin Mmax Ad Ai. destruct (extremes_model _ _ _ X) as (x & l & E & F1 & F2 & V1 & V2). unfold d_scaleData. unfold apart, moderate in *. pose proof P300 as P.
  destruct (dleb max min) eqn:D. { apply leb_le in D; auto. lra. } rewrite E. eexists. split; [reflexivity|]. intros i j i' j' v v' w w' H H' W W' L.
  apply (entry_unique _ _ _ _ _ (entry_map _ _ _ _ _ H)) in W. apply (entry_unique _ _ _ _ _ (entry_map _ _ _ _ _ H')) in W'. rewrite <- W, <- W'.
  destruct X as (_ & _ & B). destruct (B _ _ _ H) as (Fv & Rv). destruct (B _ _ _ H') as (Fv' & Rv'). rewrite <- V1, <- V2 in *. apply scaled_mono; auto.
  - left. apply (scaling_ok (d_min x l) (d_max x l) min max); auto; lra.
  - apply scaled_ok; auto; lra.
  - apply scaled_ok; auto; lra.
Qed.

(** An interval that is empty or a point is rejected. *)
Theorem C110_bad_interval data min max : finite min -> finite max -> val max <= val min -> d_scaleData data min max = Throw.
Proof. intros F G L. unfold d_scaleData. now rewrite (proj2 (leb_le max min G F) L). Qed.

(** FINDING: the results need not lie in the interval.  -3 and 2 scaled to [-1, 1]: the larger becomes more than 1. *)
Theorem C110_interval_refuted : exists w0 w1, d_scaleData [[dint (-3); dint 2]] (dint (-1)) (dint 1) = Ok [[w0; w1]] /\ 1 < val w1.
Proof.
  assert (T : match d_scaleData [[dint (-3); dint 2]] (dint (-1)) (dint 1) with Ok [[w0; w1]] => andb (is_finite w1) (dltb (dint 1) w1) | _ => false end = true) by (vm_compute; reflexivity).
  destruct (d_scaleData _ _ _) as [[|[|w0 [|w1 [|]]] [|]]| | | |]; try discriminate T. exists w0, w1. split; [reflexivity|]. apply andb_prop in T. destruct T as (F & T). apply ltb_true in T; auto; [|apply int_ok; lia]. destruct (int_ok 1) as (_ & V); [lia|]. rewrite V in T. exact T.
Qed.
(** FINDING: and for large numbers that differ little they can be off by half the interval.  2^53 and 2^53 + 2 scaled to [-1, 1] become 0 and 2. *)
Theorem C110_cancellation_refuted : exists w0 w1, d_scaleData [[dint 9007199254740992; dint 9007199254740994]] (dint (-1)) (dint 1) = Ok [[w0; w1]] /\ val w0 = 0 /\ val w1 = 2.
Proof.
  assert (T : match d_scaleData [[dint 9007199254740992; dint 9007199254740994]] (dint (-1)) (dint 1) with Ok [[w0; w1]] => andb (andb (is_finite w0) (is_finite w1)) (andb (andb (dleb w0 (dint 0)) (dleb (dint 0) w0)) (andb (dleb w1 (dint 2)) (dleb (dint 2) w1))) | _ => false end = true) by (vm_compute; reflexivity).
  destruct (d_scaleData _ _ _) as [[|[|w0 [|w1 [|]]] [|]]| | | |]; try discriminate T. exists w0, w1. split; [reflexivity|]. apply andb_prop in T. destruct T as (F & T). apply andb_prop in F. destruct F as (F0 & F1). apply andb_prop in T. destruct T as (T0 & T1). apply andb_prop in T0, T1. destruct T0 as (A & B), T1 as (C & D).
  destruct (int_ok 0) as (G0 & V0); [lia|]. destruct (int_ok 2) as (G2 & V2); [lia|]. apply leb_le in A, B, C, D; auto. rewrite V0 in *. rewrite V2 in *. cbn in A, B, C, D. lra.
Qed.

(** FINDING: constant data becomes NaN, whatever the number and the interval. *)
Theorem C110_constant_refuted data c min max : finite c -> finite min -> finite max -> val min < val max -> (exists i j v, entry data i j v) -> (forall i j v, entry data i j v -> v = c) ->
  exists out, d_scaleData data min max = Ok out /\ sameShape out data /\ forall i j w, entry out i j w -> w = B754_nan.
Proof.
  intros Fc F G L (i0 & j0 & v0 & r0 & N1 & N2) H. unfold d_scaleData. destruct (dleb max min) eqn:D. { apply leb_le in D; auto. lra. }
  assert (HH : forall v, In v (concat data) -> v = c). { intros v I. apply concat_entry in I. destruct I as (a & b & r & A1 & A2). apply (H a b v). exists r. auto. }
  assert (I0 : In v0 (concat data)) by (apply concat_entry; eauto). destruct (concat data) as [|x l] eqn:E; [destruct I0|]. rewrite (HH x (or_introl eq_refl)). destruct (min_const c l Fc) as (E1 & E2); [intros; apply HH; now right|]. rewrite E1, E2.
  destruct (self_minus c Fc) as (s & Es). rewrite Es. assert (Q : exists t, ddiv (dminus max min) (B754_zero s) = B754_infinity t).
  { destruct (diff_nonzero max min G F) as [(t & ->)|(t & m & e & B & ->)]; [lra| |]; eexists; reflexivity. }
  destruct Q as (t & ->). eexists. split; [reflexivity|]. split; [apply shape_map|]. intros i j w (row & W1 & W2). destruct (nth_error data i) as [r|] eqn:Ei; [|rewrite nth_error_None in Ei; assert (K : (i < length (map (map (fun v => dplus (dmult v (B754_infinity t)) (dminus min (dmult c (B754_infinity t))))) data))%nat) by (apply nth_error_Some; congruence); rewrite map_length in K; lia].
  rewrite (map_nth_error _ _ _ Ei) in W1. injection W1 as <-. destruct (nth_error r j) as [v|] eqn:Ej; [|rewrite nth_error_None in Ej; assert (K : (j < length (map (fun v => dplus (dmult v (B754_infinity t)) (dminus min (dmult c (B754_infinity t)))) r))%nat) by (apply nth_error_Some; congruence); rewrite map_length in K; lia].
  rewrite (map_nth_error _ _ _ Ej) in W2. injection W2 as <-. rewrite (H i j v) by (exists r; auto). now apply nan_result.
Qed.

(** FINDING: NaN as a limit of the interval is not rejected; all results are NaN. *)
Theorem C110_nan_limit_refuted data max : (exists i j v, entry data i j v) -> exists out, d_scaleData data B754_nan max = Ok out /\ sameShape out data /\ forall i j w, entry out i j w -> w = B754_nan.
Proof.
  intros (i0 & j0 & v0 & r0 & N1 & N2). assert (I0 : In v0 (concat data)) by (apply concat_entry; eauto). unfold d_scaleData. replace (dleb max B754_nan) with false by (destruct max as [s|s| |s m e B]; destruct s || idtac; reflexivity).
  destruct (concat data) as [|x l]; [destruct I0|]. eexists. split; [reflexivity|]. split; [apply shape_map|]. intros i j w (row & W1 & W2). apply nth_error_In in W1, W2. apply in_map_iff in W1. destruct W1 as (r & <- & _). apply in_map_iff in W2. destruct W2 as (v & <- & _).
  destruct (dmult v _) as [s|s| |s m e B]; reflexivity.
Qed.

(** A case that meets the hypotheses: -3, 0 and 2 scaled to [-1, 1] are within 10^-13 of -1, 0.2 and 1. *)
Example C110_case : exists out, d_scaleData [[dint (-3); dint 0]; [dint 2; dint 2]] (dint (-1)) (dint 1) = Ok out /\ forall i j v, entry [[dint (-3); dint 0]; [dint 2; dint 2]] i j v ->
  exists w, entry out i j w /\ finite w /\ Rabs (val w - (-1 + (val v + 3) * (2 / 5))) <= / 10 ^ 13.
Proof.
  destruct (int_ok (-3)) as (Fa & Va); [lia|]. destruct (int_ok 0) as (Fb & Vb); [lia|]. destruct (int_ok 2) as (Fc & Vc); [lia|]. destruct (int_ok (-1)) as (Fd & Vd); [lia|]. destruct (int_ok 1) as (Fe & Ve); [lia|].
  assert (P : 3 <= 2 ^ 300) by (apply Rle_trans with (2 ^ 2); [lra|apply Rle_pow; [lra|lia]]). assert (P' : / 2 ^ 300 <= 1) by (rewrite <- Rinv_1; apply Rinv_le_contravar; lra).
  destruct (C110_accurate [[dint (-3); dint 0]; [dint 2; dint 2]] (dint (-3)) (dint 2) (dint (-1)) (dint 1)) as (out & E & _ & A); auto; unfold moderate, apart; rewrite ?Va, ?Vb, ?Vc, ?Vd, ?Ve; try lra; try (apply Rabs_le; lra).
  - split; [exists 0%nat, 0%nat, [dint (-3); dint 0]; split; reflexivity|]. split; [exists 1%nat, 0%nat, [dint 2; dint 2]; split; reflexivity|].
    intros i j v (row & H1 & H2). assert (I : In v (concat [[dint (-3); dint 0]; [dint 2; dint 2]])) by (apply concat_entry; eauto). change (In v [dint (-3); dint 0; dint 2; dint 2]) in I.
    rewrite Va, Vc. destruct I as [<-|[<-|[<-|[<-|[]]]]]; (split; [assumption|]); rewrite ?Va, ?Vb, ?Vc; lra.
  - exists out. split; [exact E|]. intros i j v H. destruct (A i j v H) as (w & W & F & B). exists w. split; [exact W|]. split; [exact F|]. rewrite Va, Vc, Vd, Ve in B.
    replace (Rmax (Rabs (-3)) (Rabs 2)) with 3 in B by (rewrite (Rabs_left (-3)), (Rabs_pos_eq 2) by lra; rewrite Rmax_left; lra). rewrite (Rabs_left (-1)) in B by lra.
    replace (val w - (-1 + (val v + 3) * (2 / 5))) with (val w - (-1 + (val v - -3) * ((1 - -1) / (2 - -3)))) by field. apply Rle_trans with (1 := B). lra.
Qed.

Print Assumptions C110_accurate.
Print Assumptions C110_order.
Print Assumptions C110_bad_interval.
Print Assumptions C110_interval_refuted.
Print Assumptions C110_cancellation_refuted.
Print Assumptions C110_constant_refuted.
Print Assumptions C110_nan_limit_refuted.
