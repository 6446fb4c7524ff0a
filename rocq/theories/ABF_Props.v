(** Properties of the alpha-beta filter (C75, C76).  Vocabulary: ABF_Spec.v, Layer_Spec.v. *)
From Verif Require Import Base BaseFacts Matrix RSum MatOps Vec Acc Deriv Layer_Model Layer_Spec Layer_Proofs ABF_Model ABF_Spec ABF_Proofs.
Local Open Scope R_scope.

(** * C75: a filter *)
(** Whatever the layer was used for before: after the parameters p were set, the outputs in columns 2i and 2i + 1
    are the estimates for the sequence of values of column i that was observed since. *)
Theorem C75_estimates junk I dt s p q X t q' Y :
  dt <> 0 -> history abf_class I (2 * I) (abf_new junk I dt) s -> length p = I -> install abf_class s p = Ok q ->
  (forall t, cols (X t) = I) ->
  observed abf_class q X t q' Y ->
  rows Y = 1%nat /\ cols Y = (2 * I)%nat /\
  forall i, (i < I)%nat ->
    (at_ Y 0 (2 * i), at_ Y 0 (2 * i + 1)) = estimate p.[i] dt (fun t => at_ (X t) 0 i) t.
Proof.
  intros Hdt Hh Lp E HX O. pose proof (history_inv I dt _ _ Hdt (new_inv junk I dt) Hh) as Hs.
  destruct (install_ok I dt s p Hs Lp) as (q0 & E' & Hq & Gq & Fq & Yq). change (install abf_class s p = Ok q0) in E'. rewrite E in E'. injection E' as ->.
  enough (G : finv I dt q' /\ gains I p q' /\ ffirst q' = false /\ fy q' = Y /\ forall i, (i < I)%nat ->
    (at_ Y 0 (2 * i), at_ Y 0 (2 * i + 1)) = estimate p.[i] dt (fun t => at_ (X t) 0 i) t).
  { destruct G as ((_ & _ & _ & _ & _ & _ & G1 & G2) & _ & _ & Ey & G3). rewrite Ey in G1, G2. auto. }
  induction O as [d s1 Y r E1|t s1 Y1 d s2 Y2 r O IH E1]; change (St abf_class) with abf in *;
    [change (abf_forward q0 (X 0%nat) d = Ok (s1, Y, r)) in E1|change (abf_forward s1 (X (S t)) d = Ok (s2, Y2, r)) in E1].
  - destruct (forward_ok I dt q0 (X 0%nat) d Hdt Hq (forward_rows _ _ _ _ _ _ _ _ Hq E1) (HX 0%nat)) as (q1 & Y' & E' & Hq1 & S1 & Ey & Ef & Eg & Ea & Eb & Ed & V).
    rewrite E1 in E'. injection E' as -> -> _. split; auto. split; [intros i Hi; rewrite Eg, Ea, Eb; auto|]. split; auto. split; auto.
    intros i Hi. specialize (V i Hi). cbv zeta in V. rewrite Fq, !Yq in V. destruct (Gq i Hi) as (G1 & G2 & G3). rewrite G2, G3 in V. destruct V as (-> & ->).
    cbn [estimate]. unfold correct. cbn [fst snd]. f_equal; ring.
  - destruct (IH) as (H1 & G1 & F1 & Y1' & V1); clear IH.
    destruct (forward_ok I dt s1 (X (S t)) d Hdt H1 (forward_rows _ _ _ _ _ _ _ _ H1 E1) (HX (S t))) as (q1 & Y' & E' & Hq1 & S1 & Ey & Ef & Eg & Ea & Eb & Ed & V).
    rewrite E1 in E'. injection E' as -> -> _. split; auto. split; [intros i Hi; rewrite Eg, Ea, Eb; auto|]. split; auto. split; auto.
    intros i Hi. specialize (V i Hi). cbv zeta in V. rewrite F1, Y1' in V. destruct (G1 i Hi) as (K1 & K2 & K3). rewrite K2, K3 in V. destruct V as (-> & ->).
    specialize (V1 i Hi). cbn [estimate]. rewrite <- V1. unfold correct. cbn [fst snd]. f_equal. ring.
Qed.
Print Assumptions C75_estimates.

(** The sequence can have any length. *)
Theorem C75_runs junk I dt s p X t :
  dt <> 0 -> history abf_class I (2 * I) (abf_new junk I dt) s -> length p = I ->
  (forall t, cols (X t) = I /\ (0 < rows (X t))%nat) ->
  exists q q' Y, install abf_class s p = Ok q /\ observed abf_class q X t q' Y.
Proof.
  intros Hdt Hh Lp HX. pose proof (history_inv I dt _ _ Hdt (new_inv junk I dt) Hh) as Hs.
  destruct (install_ok I dt s p Hs Lp) as (q & E & Hq & _). exists q.
  enough (G : exists q' Y, observed abf_class q X t q' Y /\ finv I dt q') by (destruct G as (q' & Y & O & _); eauto).
  induction t as [|t (q1 & Y1 & O1 & H1)].
  - destruct (HX 0%nat) as (C1 & R1). destruct (forward_ok I dt q (X 0%nat) true Hdt Hq (fun _ => R1) C1) as (q1 & Y1 & E1 & H1 & _).
    exists q1, Y1. split; auto. exact (o_first abf_class q X true q1 Y1 0 E1).
  - destruct (HX (S t)) as (C1 & R1). destruct (forward_ok I dt q1 (X (S t)) true Hdt H1 (fun _ => R1) C1) as (q2 & Y2 & E2 & H2 & _).
    exists q2, Y2. split; auto. exact (o_next abf_class q X t q1 Y1 true q2 Y2 0 O1 E2).
Qed.
Print Assumptions C75_runs.

(** The gains are those of the steady state of a Kalman filter: damping between 0 and 1 and Kalata's relation. *)
Theorem C75_gains gamma :
  0 < damping gamma <= 1 /\ 0 <= gainPosition gamma < 1 /\ 0 <= gainVelocity gamma < 2 /\
  gainVelocity gamma = 2 * (2 - gainPosition gamma) - 4 * sqrt (1 - gainPosition gamma) /\
  gamma * gamma * (1 - gainPosition gamma) = gainVelocity gamma * gainVelocity gamma /\
  (gamma <> 0 -> 0 < gainPosition gamma /\ 0 < gainVelocity gamma).
Proof.
  destruct (damping_range gamma) as (Hd & Hn). unfold gainPosition, gainVelocity.
  assert (Hk : gamma * gamma * (damping gamma * damping gamma) = 4 * ((1 - damping gamma) * (1 - damping gamma)) * ((1 - damping gamma) * (1 - damping gamma))).
  { unfold damping. replace (gamma * gamma) with (Rabs gamma * Rabs gamma) by (unfold Rabs; destruct (Rcase_abs gamma); ring).
    pose proof (Rabs_pos gamma) as Hg. set (a := Rabs gamma) in *. clearbody a.
    assert (S1 : sqrt (8 * a + a * a) * sqrt (8 * a + a * a) = 8 * a + a * a) by (apply sqrt_sqrt; nra). set (s := sqrt (8 * a + a * a)) in *. clearbody s.
    (* 4 (1 - r) = s - a and (s - a)^2 = 8 a + 2 a^2 - 2 a s = 2 a * 4 r *)
    assert (Q : (s - a) * (s - a) = 2 * a * (4 + a - s)) by lra.
    replace (1 - (4 + a - s) / 4) with ((s - a) / 4) by field.
    replace (4 * ((s - a) / 4 * ((s - a) / 4)) * ((s - a) / 4 * ((s - a) / 4))) with (((s - a) * (s - a)) * ((s - a) * (s - a)) / 64) by field.
    rewrite Q. field. }
  set (r := damping gamma) in *. clearbody r. split; auto. split; [nra|]. split; [nra|]. split; [|split].
  - replace (1 - (1 - r * r)) with (r * r) by ring. rewrite sqrt_square by lra. ring.
  - replace (1 - (1 - r * r)) with (r * r) by ring. rewrite Hk. ring.
  - intros H. specialize (Hn H). split; nra.
Qed.
Print Assumptions C75_gains.

(** A constant signal is reproduced, with velocity 0. *)
Theorem C75_constant gamma dt z t : estimate gamma dt (fun _ => z) t = (z, 0).
Proof.
  induction t as [|t IH]; cbn [estimate]; [|rewrite IH]; unfold correct; cbn [fst snd]; f_equal; ring.
Qed.
Print Assumptions C75_constant.

(** The estimates depend linearly on the signal. *)
Theorem C75_linear gamma dt a b z1 z2 t :
  estimate gamma dt (fun t => a * z1 t + b * z2 t) t =
  (a * fst (estimate gamma dt z1 t) + b * fst (estimate gamma dt z2 t), a * snd (estimate gamma dt z1 t) + b * snd (estimate gamma dt z2 t)).
Proof.
  induction t as [|t IH]; cbn [estimate]; [|rewrite IH]; unfold correct; cbn [fst snd]; f_equal; ring.
Qed.
Print Assumptions C75_linear.

(** A signal that moves with constant velocity is followed: from any start the velocity converges to the true one
    and the position to the position of the next time step. *)
Theorem C75_follows gamma dt a v :
  dt <> 0 -> gamma <> 0 ->
  let z := fun t => a + v * (INR t * dt) in
  Un_cv (fun t => snd (estimate gamma dt z t)) v /\
  Un_cv (fun t => fst (estimate gamma dt z t) - z (S t)) 0.
Proof.
  intros Hdt Hg z. destruct (damping_range gamma) as (Hd & Hn). specialize (Hn Hg).
  set (al := gainPosition gamma). set (be := gainVelocity gamma).
  set (Dv := fun t => z (S t) - fst (estimate gamma dt z t)). set (U := fun t => dt * (snd (estimate gamma dt z t) - v)).
  assert (HU : forall t, U (S t) = U t + be * Dv t).
  { intros t. unfold U, Dv. cbn [estimate]. unfold correct. cbn [snd]. fold be. field. auto. }
  assert (HD : forall t, Dv (S t) = (1 - al) * Dv t - U (S t)).
  { intros t. unfold U, Dv. cbn [estimate]. unfold correct at 1. cbn [fst]. fold al be.
    change (correct gamma dt (z (S t)) (estimate gamma dt z t)) with (estimate gamma dt z (S t)).
    change (snd (estimate gamma dt z (S t))) with (snd (estimate gamma dt z t) + be / dt * (z (S t) - fst (estimate gamma dt z t))).
    assert (Z : z (S (S t)) = z (S t) + v * dt) by (unfold z; rewrite (S_INR (S t)); ring). rewrite Z. field. auto. }
  assert (G : geometric Dv).
  { apply (second_order (2 - al - be) (1 - al)).
    - unfold al, gainPosition. nra.
    - unfold al, be, gainPosition, gainVelocity. nra.
    - unfold al, be, gainPosition, gainVelocity. nra.
    - intros t. rewrite HD, HU. assert (U (S t) = (1 - al) * Dv t - Dv (S t)) by (rewrite HD; ring). rewrite H. ring. }
  split.
  - assert (GU : geometric U).
    { assert (GS : geometric (fun t => U (S t))).
      { apply (geometric_ext (fun t => (1 - al) * Dv t + (-1) * Dv (S t))); [intros t; rewrite HD; ring|].
        apply geometric_plus; [now apply geometric_scale|]. apply geometric_scale. now apply geometric_shift. }
      apply (geometric_ext (fun t => U (S t) + (- be) * Dv t)); [intros t; rewrite HU; ring|]. apply geometric_plus; auto. now apply geometric_scale. }
    apply (geometric_scale (/ dt)), geometric_cv in GU. intros eps He. destruct (GU eps He) as (N & HN). exists N. intros t Ht. specialize (HN t Ht).
    unfold R_dist in *. rewrite Rminus_0_r in HN. replace (snd (estimate gamma dt z t) - v) with (/ dt * U t) by (unfold U; field; auto). auto.
  - apply (geometric_scale (-1)), geometric_cv in G. intros eps He. destruct (G eps He) as (N & HN). exists N. intros t Ht. specialize (HN t Ht).
    unfold R_dist in *. rewrite Rminus_0_r in *. replace (fst (estimate gamma dt z t) - z (S t)) with (-1 * Dv t) by (unfold Dv; ring). auto.
Qed.
Print Assumptions C75_follows.

Example C75_case : history abf_class 1 (2 * 1) (abf_new (fun _ _ => 0) 1 (1/10)) (abf_new (fun _ _ => 0) 1 (1/10)) /\ damping 1 = 1/2.
Proof. split; [constructor|]. unfold damping. rewrite Rabs_R1. replace (8 * 1 + 1 * 1) with (3 * 3) by ring. rewrite sqrt_square by lra. lra. Qed.

(** * C76: as a layer of a network *)
(** Parameters that are not negative can be read back. *)
Theorem C76_parameters_partial junk I dt s p q :
  dt <> 0 -> history abf_class I (2 * I) (abf_new junk I dt) s -> length p = I -> install abf_class s p = Ok q ->
  forall i, (i < I)%nat -> readParam abf_class q i = Ok (Rabs p.[i]) /\ (0 <= p.[i] -> readParam abf_class q i = Ok p.[i]).
Proof.
  intros Hdt Hh Lp E i Hi. pose proof (history_inv I dt _ _ Hdt (new_inv junk I dt) Hh) as Hs.
  destruct (install_ok I dt s p Hs Lp) as (q0 & E' & Hq & Gq & _). change (install abf_class s p = Ok q0) in E'. rewrite E in E'. injection E' as ->.
  assert (R : readParam abf_class q0 i = Ok (Rabs p.[i])).
  { unfold readParam. cbn [abf_class initialize abf_initialize fst load]. destruct Hq as (I1 & _ & I3 & _). rewrite I1.
    rewrite (vget_nth _ _ (Gamma 0)) by (rewrite map_length, seq_length; auto). cbn [bind]. rewrite nth_map_seq by auto. cbn [abf_load].
    rewrite (vget_nth _ _ 0) by lia. f_equal. now apply Gq. }
  split; auto. intros H. rewrite R. now rewrite Rabs_right by lra.
Qed.
Print Assumptions C76_parameters_partial.
Theorem C76_parameters_refuted junk dt : dt <> 0 ->
  exists q, install abf_class (abf_new junk 1 dt) [-1] = Ok q /\ readParam abf_class q 0 = Ok 1.
Proof.
  intros Hdt. destruct (install_ok 1 dt (abf_new junk 1 dt) [-1] (new_inv junk 1 dt) eq_refl) as (q & E & _). exists q. split; auto.
  destruct (C76_parameters_partial junk 1 dt (abf_new junk 1 dt) [-1] q Hdt ltac:(constructor) eq_refl E 0%nat ltac:(lia)) as (R & _).
  rewrite R. cbn [nth]. f_equal. rewrite Rabs_left by lra. ring.
Qed.
Print Assumptions C76_parameters_refuted.

(** The output for a batch of any size has one row, which depends only on the first instance. *)
Theorem C76_batch_refuted junk I dt s X X' d :
  dt <> 0 -> history abf_class I (2 * I) (abf_new junk I dt) s -> cols X = I -> cols X' = I ->
  (0 < rows X)%nat -> (0 < rows X')%nat -> (forall i, at_ X 0 i = at_ X' 0 i) ->
  exists q q' Y Y', forwardPropagate abf_class s X d = Ok (q, Y, 0) /\ forwardPropagate abf_class s X' d = Ok (q', Y', 0) /\
    rows Y = 1%nat /\ meq Y Y'.
Proof.
  intros Hdt Hh C1 C2 R1 R2 EX. pose proof (history_inv I dt _ _ Hdt (new_inv junk I dt) Hh) as Hs.
  destruct (forward_ok I dt s X d Hdt Hs (fun _ => R1) C1) as (q & Y & E & _ & (S1 & S2) & _ & _ & _ & _ & _ & _ & V).
  destruct (forward_ok I dt s X' d Hdt Hs (fun _ => R2) C2) as (q' & Y' & E' & _ & (S1' & S2') & _ & _ & _ & _ & _ & _ & V').
  exists q, q', Y, Y'. split; [exact E|]. split; [exact E'|]. split; auto. split; [congruence|]. split; [congruence|]. intros b j Hb Hj.
  assert (b = 0%nat) by lia. subst b. assert (Hi : (j / 2 < I)%nat) by (apply Nat.div_lt_upper_bound; lia).
  specialize (V (j / 2)%nat Hi). specialize (V' (j / 2)%nat Hi). cbv zeta in V, V'. rewrite <- EX in V'. destruct V as (V1 & V2), V' as (V1' & V2').
  pose proof (Nat.div_mod j 2 ltac:(lia)) as Q. assert (M : (j mod 2 < 2)%nat) by (apply Nat.mod_upper_bound; lia).
  destruct (j mod 2) as [|[|]] eqn:Em; [| |lia].
  - rewrite Nat.add_0_r in Q. rewrite Q. congruence.
  - rewrite Q. congruence.
Qed.
Print Assumptions C76_batch_refuted.

(** Setting parameters resets the filter, and the first output after that does not depend on them: their
    derivatives are 0, which is what is reported. *)
Theorem C76_parameter_gradient_partial junk I dt s p X d e :
  dt <> 0 -> history abf_class I (2 * I) (abf_new junk I dt) s -> length p = I -> rows X = 1%nat -> cols X = I ->
  rows e = 1%nat -> cols e = (2 * I)%nat -> partials_exact abf_class s p X d e false.
Proof.
  intros Hdt Hh Lp R1 C1 R2 C2. pose proof (history_inv I dt _ _ Hdt (new_inv junk I dt) Hh) as Hs.
  assert (G : forall p', length p' = I -> exists q q1 Y, install abf_class s p' = Ok q /\ abf_forward q X d = Ok (q1, Y, 0) /\ finv I dt q1 /\
    size_is Y 1 (2 * I) /\ forall i, (i < I)%nat -> at_ Y 0 (2 * i) = at_ X 0 i /\ at_ Y 0 (2 * i + 1) = 0).
  { intros p' Lp'. destruct (install_ok I dt s p' Hs Lp') as (q & E & Hq & Gq & Fq & Yq).
    destruct (forward_ok I dt q X d Hdt Hq ltac:(lia) C1) as (q1 & Y & E1 & H1 & S1 & _ & _ & _ & _ & _ & _ & V).
    exists q, q1, Y. split; [exact E|]. split; [exact E1|]. split; auto. split; auto. intros i Hi. specialize (V i Hi). cbv zeta in V. rewrite Fq, Yq in V.
    destruct V as (V1 & V2). rewrite V2, V1. split; ring. }
  destruct (G p Lp) as (q & q1 & Y & E & E1 & H1 & (S1 & S2) & V).
  exists q, q1, Y, 0, q1, e. split; [exact E|]. split; [exact E1|]. split; [reflexivity|]. split; [|discriminate].
  intros k Hk. exists (fun _ => inner (rows e) (cols e) (at_ e) (at_ Y) + 0), 0. split; [|split; [|apply D_const]].
  - intros v. destruct (G (upd p k v)) as (q' & q1' & Y' & E' & E1' & _ & (S1' & S2') & V'); [now rewrite upd_length|].
    exists q', q1', Y', 0. split; [exact E'|]. split; [exact E1'|]. split; [congruence|]. split; [congruence|]. f_equal. unfold inner.
    apply rsum_ext. intros b Hb. apply rsum_ext. intros j Hj. f_equal. assert (b = 0%nat) by lia. subst b.
    assert (Hi : (j / 2 < I)%nat) by (apply Nat.div_lt_upper_bound; lia). destruct (V (j / 2)%nat Hi) as (V1 & V2). destruct (V' (j / 2)%nat Hi) as (V1' & V2').
    pose proof (Nat.div_mod j 2 ltac:(lia)) as Q. assert (M : (j mod 2 < 2)%nat) by (apply Nat.mod_upper_bound; lia).
    destruct (j mod 2) as [|[|]] eqn:Em; [| |lia]; [rewrite Nat.add_0_r in Q|]; rewrite Q; congruence.
  - unfold readDeriv. cbn [abf_class initialize abf_initialize snd load]. destruct H1 as (I1 & _ & _ & I4 & _). rewrite I1.
    rewrite (vget_nth _ _ (Gamma 0)) by (rewrite map_length, seq_length; lia). cbn [bind]. rewrite nth_map_seq by lia. cbn [abf_load]. rewrite I4.
    rewrite (vget_nth _ _ 0) by (rewrite repeat_length; lia). now rewrite nth_repeat_lt by lia.
Qed.
Print Assumptions C76_parameter_gradient_partial.

(** No derivatives with respect to the input are computed. *)
Theorem C76_gradient_refuted junk dt d :
  dt <> 0 -> ~ partials_exact abf_class (abf_new junk 1 dt) [1] (mkMat 1 1 (fun _ _ => 1)) d (mkMat 1 2 (fun _ _ => 1)) true.
Proof.
  intros Hdt (q & q1 & Y & reg & q2 & eout & E1 & E2 & E3 & _ & H). injection E3 as _ <-. destruct (H eq_refl) as (_ & Hc & _). cbn in Hc. discriminate.
Qed.
Print Assumptions C76_gradient_refuted.
