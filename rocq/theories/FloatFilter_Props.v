(** C112: filtering signals in double precision. *)
From Coq Require Import Lra Lia ZArith List.
From Flocq Require Import Core BinarySingleNaN.
From Verif Require Import Base BaseFacts Activation_Model Float_Model Float_Spec Float_Proofs FloatSoft_Proofs FloatSGD_Spec FloatSGD_Proofs FloatNet_Spec FloatNet_Proofs FloatPool_Model FloatScale_Proofs FloatNorm_Proofs FloatFilter_Model FloatFilter_Proofs.
Import ListNotations.
Local Open Scope R_scope.

(** the distance of two points in time: the signal is mirrored at its start *)
Definition distance (t p : nat) : nat := ((t - p) + (p - t))%nat.
(** sum over the taps first, ..., last - 1 of a filter *)
Definition tapSum (f : R -> R) (v : list double) (first last : nat) (x : dmat) (c t : nat) : R :=
  total (map (fun p => f (val (nth p v B754_nan) * val (dat x c (distance t p)))) (seq first (last - first))).
(** what the filter should compute before the division by a(0), and the same with absolute values *)
Definition weighted (f : R -> R) (b a : list double) (x : dmat) (c t : nat) : R := tapSum f b 0 (length b) x c t + tapSum f a 1 (length a) x c t.
Definition ordinary (v : double) : Prop := finite v /\ Rabs (val v) <= 2 ^ 30.

Lemma mirror_distance t p : mirror t p = distance t p.
Proof. unfold mirror, distance. destruct (Nat.leb_spec p t); lia. Qed.
Lemma taps_weighted (f : R -> R) x b a c t : (1 <= length a)%nat -> total (map (fun p => f (exactProd p)) (pairs x b a c t (Nat.max (length b) (length a)))) = weighted f b a x c t.
Proof.
  intros A. rewrite (taps x b a c t (fun p => f (exactProd p)) A). unfold weighted, tapSum, exactProd. cbn [fst snd]. rewrite Nat.sub_0_r. f_equal; apply tot_ext; intros p _; now rewrite mirror_distance.
Qed.

(** C112.  For signals that are at least as long as the filter, every output is finite and the weighted sum of the inputs divided by a(0), up to rounding: the
    error is at most 6 k + 3 units in the last place of the sum of the absolute values for k = length b + length a taps (and what underflows). *)
Theorem C112_filter x b a a0 c t : (c < drows x)%nat -> (t < dcols x)%nat -> (length b <= dcols x)%nat -> (length a <= dcols x)%nat -> (Z.of_nat (length b + length a) < 2 ^ 30)%Z ->
  nth_error a 0 = Some a0 -> finite a0 -> / 2 ^ 30 <= Rabs (val a0) -> (forall v, In v b -> ordinary v) -> (forall v, In v (tl a) -> ordinary v) -> (forall i, (i < dcols x)%nat -> ordinary (dat x c i)) ->
  let k := INR (length b + length a) in
  exists y, d_filterAt x b a c t = Ok y /\ finite y /\
    Rabs (val y - weighted (fun r => r) b a x c t / val a0) <= (6 * k + 3) * / 2 ^ 52 * (weighted Rabs b a x c t / Rabs (val a0)) + 6 * k * / 2 ^ 1074 / Rabs (val a0) + / 2 ^ 1074.
Proof.
  intros C T B A N E0 F0 A0 Hb Ha Hx k. assert (A1 : (1 <= length a)%nat) by (destruct a; [discriminate E0|cbn; lia]). destruct (filter_sum x b a c t C T B (conj A1 A)) as (y & a0' & E & EQ & S). rewrite E in E0. injection E0 as ->. exists (ddiv y a0). split; [exact EQ|].
  set (n := Nat.max (length b) (length a)) in *. set (l := pairs x b a c t n) in *. pose proof (pairs_length x b a c t n) as L. fold l in L. assert (LK : INR (length l) <= 2 * k). { unfold k. rewrite <- (mult_INR 2). apply le_INR. lia. }
  destruct (filter_err l y a0 S) as (F & R); auto.
  - intros p I. destruct (pairs_in _ _ _ _ _ _ _ I) as (I1 & i & Hi & I2). rewrite I2. assert (O1 : ordinary (fst p)) by (apply in_app_or in I1 as [I1|I1]; auto). assert (O2 : ordinary (dat x c (mirror t i))) by (apply Hx; unfold mirror; destruct (Nat.leb_spec i t); lia). destruct O1, O2. auto.
  - lia.
  - split; [exact F|]. rewrite <- tiny_pow. change (/ 2 ^ 52) with eps. assert (W1 : total (map exactProd l) = weighted (fun r => r) b a x c t) by exact (taps_weighted (fun r => r) x b a c t A1). assert (W2 : total (map absProd l) = weighted Rabs b a x c t) by exact (taps_weighted Rabs x b a c t A1). rewrite W1, W2 in R.
    apply Rle_trans with (1 := R). pose proof eps_pos as EP. assert (T0 : 0 < tiny) by apply bpow_gt_0. assert (P30 : 0 < / 2 ^ 30) by (apply Rinv_0_lt_compat, pow_lt; lra). assert (I0 : 0 < / Rabs (val a0)) by (apply Rinv_0_lt_compat; lra).
    assert (W : 0 <= weighted Rabs b a x c t / Rabs (val a0)). { unfold Rdiv. apply Rmult_le_pos; [|lra]. unfold weighted, tapSum. apply Rplus_le_le_0_compat; apply total_pos; intros r J; apply in_map_iff in J as (p & <- & _); apply Rabs_pos. }
    set (w := weighted Rabs b a x c t / Rabs (val a0)) in *. assert ((3 * INR (length l) + 3) * eps * w <= (6 * k + 3) * eps * w) by (apply Rmult_le_compat_r; [exact W|]; apply Rmult_le_compat_r; lra).
    assert (3 * INR (length l) * tiny / Rabs (val a0) <= 6 * k * tiny / Rabs (val a0)). { unfold Rdiv. apply Rmult_le_compat_r; [lra|]. apply Rmult_le_compat_r; lra. } lra.
Qed.

(** FINDING: a(0) = 0 is not rejected; then no output is a finite number. *)
Theorem C112_zero_refuted x b a a0 c t : (c < drows x)%nat -> (t < dcols x)%nat -> (length b <= dcols x)%nat -> (length a <= dcols x)%nat -> nth_error a 0 = Some a0 -> finite a0 -> val a0 = 0 ->
  exists y, d_filterAt x b a c t = Ok y /\ ~ finite y.
Proof.
  intros C T B A E0 F0 V0. assert (A1 : (1 <= length a)%nat) by (destruct a; [discriminate E0|cbn; lia]). destruct (filter_sum x b a c t C T B (conj A1 A)) as (y & a0' & E & EQ & _). rewrite E in E0. injection E0 as ->. exists (ddiv y a0). split; [exact EQ|].
  destruct (zero_shape a0 F0 V0) as (s & ->). intros F. destruct y; discriminate F.
Qed.

(** FINDING: if the filter is longer than the signal, the signal is read out of bounds, whatever the numbers are. *)
Theorem C112_short_refuted x b a c t : (c < drows x)%nat -> (t + dcols x < length b)%nat -> length a = 1%nat -> d_filterAt x b a c t = UB.
Proof.
  intros C T A. unfold d_filterAt. set (n := Nat.max (length b) (length a)). set (body := fun (pq : nat) (y : double) => _).
  assert (X : forall m k y, (k <= t + dcols x)%nat -> (t + dcols x < k + m)%nat -> (k + m <= length b)%nat -> for_from k m body y = UB).
  { induction m as [|m IH]; intros k y L1 L2 L3; [lia|]. cbn [for_from]. unfold body at 1. assert (Lk : (k < length b)%nat) by lia. destruct (get_ok b k Lk) as (v & _ & G). apply Nat.ltb_lt in Lk as ->. rewrite G. cbn [bind]. destruct (Nat.eq_dec k (t + dcols x)) as [->|Nk].
    - assert (U : d_source x c t (t + dcols x) = UB). { unfold d_source, dmget. rewrite (proj2 (Nat.ltb_lt _ _) C). destruct (Nat.leb_spec (t + dcols x) t) as [Z|Z]; [replace (t - (t + dcols x) <? dcols x)%nat with false by (symmetry; apply Nat.ltb_ge; lia)|replace (t + dcols x - t <? dcols x)%nat with false by (symmetry; apply Nat.ltb_ge; lia)]; reflexivity. }
      rewrite U. reflexivity.
    - assert (Q : (exists xv, d_source x c t k = Ok xv) \/ d_source x c t k = UB). { unfold d_source, dmget. destruct (Nat.leb k t); destruct (_ && _)%bool; eauto. } destruct Q as [(xv & ->)| ->]; [|reflexivity]. cbn [bind]. replace (Nat.ltb 0 k && Nat.ltb k (length a))%bool with false by (rewrite A; destruct k as [|[|k]]; reflexivity). cbn [bind]. apply IH; lia. }
  unfold for_. rewrite X; [reflexivity|lia|unfold n; lia|unfold n; lia].
Qed.

(** A case that meets the hypotheses: the moving average of 1, 2, 3, 4. *)
Example C112_case : let x := mkDmat 1 4 (fun _ i => dint (Z.of_nat i + 1)) in exists y, d_filterAt x [dint 1; dint 1] [dint 2] 0 3 = Ok y /\ finite y /\ Rabs (val y - 7 / 2) <= / 10 ^ 13.
Proof.
  intros x. destruct (int_ok 1) as (F1 & V1); [lia|]. destruct (int_ok 2) as (F2 & V2); [lia|]. assert (P30 : 4 <= 2 ^ 30) by (apply Rle_trans with (2 ^ 2); [lra|apply Rle_pow; [lra|lia]]).
  assert (V : forall i, (i < 4)%nat -> finite (dint (Z.of_nat i + 1)) /\ val (dint (Z.of_nat i + 1)) = INR i + 1). { intros i H. destruct (int_ok (Z.of_nat i + 1)) as (F & V); [lia|]. split; auto. rewrite V, plus_IZR, <- INR_IZR_INZ. reflexivity. }
  assert (WS : weighted (fun r => r) [dint 1; dint 1] [dint 2] x 0 3 = 7). { unfold weighted, tapSum, total, distance. cbn [length Nat.sub Nat.add seq map fold_right nth x dat]. rewrite V1. rewrite (proj2 (V 3%nat ltac:(lia))), (proj2 (V 2%nat ltac:(lia))). cbn [INR]. ring. }
  assert (WA : weighted Rabs [dint 1; dint 1] [dint 2] x 0 3 = 7). { unfold weighted, tapSum, total, distance. cbn [length Nat.sub Nat.add seq map fold_right nth x dat]. rewrite V1. rewrite (proj2 (V 3%nat ltac:(lia))), (proj2 (V 2%nat ltac:(lia))). cbn [INR]. rewrite !Rabs_pos_eq by lra. ring. }
  destruct (C112_filter x [dint 1; dint 1] [dint 2] (dint 2) 0 3) as (y & E & F & R); [cbn [x drows]; lia|cbn [x dcols]; lia|cbn [x dcols length]; lia|cbn [x dcols length]; lia|cbn [length]; lia|reflexivity|exact F2| | | | |].
  - rewrite V2, Rabs_pos_eq by lra. apply Rle_trans with (/ 1); [apply Rinv_le_contravar; lra|lra].
  - intros v [<-|[<-|[]]]; (split; [exact F1|rewrite V1, Rabs_R1; lra]).
  - intros v [].
  - intros i Hi. cbn [x dcols] in Hi. destruct (V i Hi) as (Fi & Vi). split; [exact Fi|]. cbn [x dat]. rewrite Vi. assert (0 <= INR i <= 3) by (split; [apply pos_INR|]; replace 3 with (INR 3) by (cbn; ring); apply le_INR; lia). rewrite Rabs_pos_eq; lra.
  - exists y. split; [exact E|]. split; [exact F|]. rewrite WS, WA, V2, (Rabs_pos_eq 2) in R by lra. apply Rle_trans with (1 := R). replace (INR (length [dint 1; dint 1] + length [dint 2])) with 3 by (cbn [length Nat.add INR]; ring).
    assert (TY : / 2 ^ 1074 <= / 2 ^ 60) by (apply Rinv_le_contravar; [apply pow_lt; lra|apply Rle_pow; [lra|lia]]). set (ty := / 2 ^ 1074) in *. clearbody ty. lra.
Qed.

Print Assumptions C112_filter.
Print Assumptions C112_zero_refuted.
Print Assumptions C112_short_refuted.
