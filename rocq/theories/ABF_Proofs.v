(** Proofs about the alpha-beta filter. *)
From Verif Require Import Base BaseFacts Matrix RSum MatOps Vec Acc Deriv Layer_Model Layer_Spec Layer_Proofs ABF_Model ABF_Spec.
Local Open Scope R_scope.

Definition finv (I : nat) (dt : R) (s : abf) : Prop :=
  fI s = I /\ fdeltaT s = dt /\ length (fgamma s) = I /\ fgammad s = repeat 0 I /\ length (falpha s) = I /\ length (fbeta s) = I /\
  size_is (fy s) 1 (2 * I).

Lemma new_inv junk I dt : finv I dt (abf_new junk I dt).
Proof. unfold finv, abf_new. cbn [fI fdeltaT fgamma fgammad falpha fbeta fy]. rewrite !map_length, !seq_length. repeat split. Qed.

Definition gains (I : nat) (p : list R) (s : abf) : Prop :=
  forall i, (i < I)%nat -> (fgamma s).[i] = Rabs p.[i] /\ (falpha s).[i] = gainPosition p.[i] /\ (fbeta s).[i] = gainVelocity p.[i].

Lemma updated_ok I dt s : finv I dt s ->
  exists s', abf_updated s = Ok s' /\ finv I dt s' /\ gains I (fgamma s) s' /\ ffirst s' = true /\ fgammad s' = fgammad s /\
    forall j, at_ (fy s') 0 j = 0.
Proof.
  intros (I1 & I2 & I3 & I4 & I5 & I6 & I7). unfold abf_updated. rewrite I1.
  match goal with |- context [for_ I ?b ?s0] =>
    destruct (for_inv (fun t (s' : abf) => finv I dt s' /\ fgammad s' = fgammad s /\
      (forall i, (i < t)%nat -> (fgamma s').[i] = Rabs (fgamma s).[i] /\ (falpha s').[i] = gainPosition (fgamma s).[i] /\ (fbeta s').[i] = gainVelocity (fgamma s).[i]) /\
      (forall i, (t <= i)%nat -> (fgamma s').[i] = (fgamma s).[i])) b I s0) as (s' & E & Hi & Hg & Hv & _) end.
  - split; [unfold finv; auto 12|]. split; auto. split; auto. intros; lia.
  - intros t s' Ht ((J1 & J2 & J3 & J4 & J5 & J6 & J7) & Hg & Hv & Hr).
    rewrite (vget_nth _ _ 0) by lia. cbn [bind]. rewrite vset_Ok by lia. cbn [bind]. rewrite (vget_nth _ _ 0) by (rewrite upd_length; lia). cbn [bind].
    rewrite nth_upd by lia. rewrite Nat.eqb_refl. rewrite !vset_Ok by lia. cbn [bind]. eexists. split; [reflexivity|].
    split; [unfold finv, abf_with, size_is; cbn [fI fdeltaT fgamma fgammad falpha fbeta fy rows cols]; rewrite !upd_length; auto 12|]. split; [auto|]. cbn [fgamma falpha fbeta abf_with]. split.
    + intros i Hit. rewrite !nth_upd by lia. destruct (Nat.eqb_spec t i) as [<-|]; [|apply Hv; lia]. rewrite Hr by lia. split; auto.
      unfold gainPosition, gainVelocity, damping. rewrite <- Rabs_mult, (Rabs_right (_ * _)) by nra. auto.
    + intros i Hit. rewrite nth_upd by lia. destruct (Nat.eqb_spec t i); [lia|]. apply Hr. lia.
  - rewrite E. cbn [bind]. destruct Hi as (J1 & J2 & J3 & J4 & J5 & J6 & (J7 & J8)). eexists. split; [reflexivity|]. split; [unfold finv, abf_reset, abf_with, size_is; cbn [fI fdeltaT fgamma fgammad falpha fbeta fy msetZero mzero rows cols]; auto 12|].
    split; [exact Hv|]. split; [reflexivity|]. split; [exact Hg|reflexivity].
Qed.

(** ** Forward pass *)
Lemma forward_ok I dt s X d : dt <> 0 -> finv I dt s -> ((0 < I)%nat -> (0 < rows X)%nat) -> cols X = I ->
  exists q Y, abf_forward s X d = Ok (q, Y, 0) /\ finv I dt q /\ size_is Y 1 (2 * I) /\ fy q = Y /\ ffirst q = false /\
    fgamma q = fgamma s /\ falpha q = falpha s /\ fbeta q = fbeta s /\ fgammad q = fgammad s /\
    forall i, (i < I)%nat ->
      let z := at_ X 0 i in
      let p := if ffirst s then z else at_ (fy s) 0 (2 * i) in
      let v := at_ (fy s) 0 (2 * i + 1) + (fbeta s).[i] / dt * (z - p) in
      at_ Y 0 (2 * i + 1) = v /\ at_ Y 0 (2 * i) = p + ((falpha s).[i] * (z - p) + dt * v).
Proof.
  intros Hdt Hi HX HC. pose proof Hi as (I1 & I2 & I3 & I4 & I5 & I6 & I7). unfold abf_forward. rewrite I1, I2.
  assert (E1 : exists y1, (if ffirst s then for_ I (fun i y => z <- mget X 0 i ;; mset y 0 (2 * i) z) (fy s) else Ok (fy s)) = Ok y1 /\ size_is y1 1 (2 * I) /\
    (forall i, (i < I)%nat -> at_ y1 0 (2 * i) = if ffirst s then at_ X 0 i else at_ (fy s) 0 (2 * i)) /\
    forall i, at_ y1 0 (2 * i + 1) = at_ (fy s) 0 (2 * i + 1)).
  { destruct (ffirst s); [|eauto 10].
    match goal with |- context [for_ I ?b ?s0] =>
      destruct (for_inv (fun t (y : mat) => size_is y 1 (2 * I) /\ (forall i, (i < t)%nat -> at_ y 0 (2 * i) = at_ X 0 i) /\
        forall i, at_ y 0 (2 * i + 1) = at_ (fy s) 0 (2 * i + 1)) b I s0) as (y & E & A & B & C) end.
    - split; auto. split; auto. intros; lia.
    - intros t y Ht ((S1 & S2) & B & C). rewrite mget_Ok by lia. cbn [bind]. rewrite mset_Ok by lia. eexists. split; [reflexivity|].
      split; [split; auto|]. split.
      + intros i Hit. rewrite at_mupd, Nat.eqb_refl. cbn [andb]. destruct (Nat.eqb_spec (2 * i) (2 * t)); [|apply B; lia]. do 2 f_equal. lia.
      + intros i. rewrite at_mupd_other by (right; lia). apply C.
    - eauto 10. }
  destruct E1 as (y1 & E1 & S1 & P1 & V1). rewrite E1. cbn [bind].
  set (val := fun i => let z := at_ X 0 i in let p := at_ y1 0 (2 * i) in let v := at_ y1 0 (2 * i + 1) + (fbeta s).[i] / dt * (z - p) in
     (p + ((falpha s).[i] * (z - p) + dt * v), v)).
  match goal with |- context [for_ I ?b ?s0] =>
    destruct (for_inv (fun t (y : mat) => size_is y 1 (2 * I) /\
       (forall i, (i < t)%nat -> at_ y 0 (2 * i) = fst (val i) /\ at_ y 0 (2 * i + 1) = snd (val i)) /\
       forall i, (t <= i)%nat -> at_ y 0 (2 * i) = at_ y1 0 (2 * i) /\ at_ y 0 (2 * i + 1) = at_ y1 0 (2 * i + 1)) b I s0) as (y & E & A & B & _) end.
  - split; auto. split; auto. intros; lia.
  - intros t y Ht ((T1 & T2) & B & C). destruct (C t ltac:(lia)) as (C1 & C2).
    rewrite mget_Ok by lia. cbn [bind]. rewrite mget_Ok by lia. cbn [bind]. rewrite (vget_nth _ _ 0) by lia. cbn [bind].
    rewrite (proj2 (Reqb_false _ _) Hdt). rewrite madd_Ok by lia. cbn [bind]. rewrite (vget_nth _ _ 0) by lia. cbn [bind].
    match goal with |- context [mget (mupd ?m ?i ?j ?v)] => assert (R1 : rows (mupd m i j v) = 1%nat) by exact T1; assert (R2 : cols (mupd m i j v) = (2 * I)%nat) by exact T2 end.
    rewrite mget_Ok by lia. cbn [bind]. rewrite madd_Ok by lia. eexists. split; [reflexivity|].
    split; [split; [exact T1|exact T2]|]. split.
    + intros i Hit. rewrite !at_mupd, !Nat.eqb_refl. cbn [andb].
      destruct (Nat.eqb_spec (2 * i + 1) (2 * t)); [lia|]. destruct (Nat.eqb_spec (2 * i) (2 * t + 1)); [lia|].
      destruct (Nat.eqb_spec (2 * t) (2 * t + 1)); [lia|].
      destruct (Nat.eqb_spec (2 * i) (2 * t)).
      * assert (i = t) by lia. subst i. rewrite Nat.eqb_refl. rewrite C1, C2. unfold val. cbn [fst snd]. auto.
      * destruct (Nat.eqb_spec (2 * i + 1) (2 * t + 1)); [lia|]. apply B. lia.
    + intros i Hit. rewrite !at_mupd_other by (right; lia). apply C. lia.
  - rewrite E. cbn [bind]. eexists _, _. split; [reflexivity|]. destruct A as (A1 & A2). split; [unfold finv, abf_with, size_is; cbn [fI fdeltaT fgamma fgammad falpha fbeta fy rows cols]; auto 12|].
    cbn [fy ffirst fgamma falpha fbeta fgammad abf_with]. split; [split; auto|]. do 6 (split; [reflexivity|]).
    intros i Hit. cbv zeta. destruct (B i Hit) as (B1 & B2). unfold val in B1, B2. cbn [fst snd] in B1, B2. rewrite P1, V1 in * by auto. split; auto.
Qed.

Lemma forward_rows I dt s X d q Y r : finv I dt s -> abf_forward s X d = Ok (q, Y, r) -> (0 < I)%nat -> (0 < rows X)%nat.
Proof.
  intros (I1 & _) E HI. destruct (Nat.eq_dec (rows X) 0) as [Hz|Hz]; [|lia]. exfalso. unfold abf_forward in E. rewrite I1 in E.
  assert (Hg : forall i, mget X 0 i = UB) by (intros i; unfold mget, inside; now rewrite Hz).
  destruct I as [|I]; [lia|]. unfold for_ in E. cbn [for_from] in E. rewrite Hg in E. cbn [bind] in E. destruct (ffirst s); discriminate.
Qed.

Lemma write_ok I dt s k v : finv I dt s -> (k < I)%nat ->
  exists s', writeParam abf_class s k v = Ok s' /\ finv I dt s' /\ fgamma s' = upd (fgamma s) k v.
Proof.
  intros Hi Hk. pose proof Hi as (I1 & I2 & I3 & I4 & I5 & I6 & I7). unfold writeParam. cbn [abf_class initialize abf_initialize fst store].
  rewrite I1. rewrite (vget_nth _ _ (Gamma 0)) by (rewrite map_length, seq_length; auto). cbn [bind].
  rewrite nth_map_seq by auto. cbn [abf_store]. rewrite vset_Ok by lia. cbn [bind]. eexists. split; [reflexivity|]. split; [|reflexivity].
  unfold finv, abf_with. cbn [fI fdeltaT fgamma fgammad falpha fbeta fy rows cols]. rewrite upd_length. auto 12.
Qed.

Lemma install_ok I dt s p : finv I dt s -> length p = I ->
  exists q, install abf_class s p = Ok q /\ finv I dt q /\ gains I p q /\ ffirst q = true /\ forall j, at_ (fy q) 0 j = 0.
Proof.
  intros Hi Lp. unfold install, writeAll. rewrite Lp.
  match goal with |- context [for_ I ?b ?s0] =>
    destruct (for_inv (fun t (s' : abf) => finv I dt s' /\ forall i, (i < t)%nat -> (fgamma s').[i] = p.[i]) b I s0) as (s1 & E & H1 & G1) end.
  - split; auto. intros; lia.
  - intros t s' Ht (Hs & G). rewrite (vget_nth _ _ 0) by lia. cbn [bind]. destruct (write_ok I dt s' t p.[t] Hs Ht) as (s2 & E2 & H2 & F2).
    exists s2. split; [exact E2|]. split; auto. intros i Hit. rewrite F2. pose proof Hs as (_ & _ & L & _). rewrite nth_upd by lia.
    destruct (Nat.eqb_spec t i) as [<-|]; auto. apply G. lia.
  - match goal with |- context [bind ?m _] => replace m with (@Ok (St abf_class) s1) by (symmetry; exact E) end. cbn [bind]. change (exists q, abf_updated s1 = Ok q /\ finv I dt q /\ gains I p q /\ ffirst q = true /\ forall j, at_ (fy q) 0 j = 0).
    destruct (updated_ok I dt s1 H1) as (q & Eq & Hq & Gq & Fq & _ & Yq). exists q. split; auto. split; auto. split; auto.
    intros i Hit. specialize (Gq i Hit). now rewrite G1 in Gq.
Qed.

Lemma history_inv I dt s0 s : dt <> 0 -> finv I dt s0 -> history abf_class I (2 * I) s0 s -> finv I dt s.
Proof.
  intros Hdt H0. induction 1 as [|s p q Hh IH Hp E|s X dropout q Y rg Hh IH HX E|s X dropout q Y rg ein bp q2 eout Hh IH HX E He1 He2 Eb]; auto.
  - assert (Lp : length p = I). { rewrite Hp. unfold paramCount. cbn [abf_class initialize abf_initialize fst]. rewrite map_length, seq_length. apply IH. }
    destruct (install_ok I dt s p IH Lp) as (q' & E' & Hq & _). rewrite E in E'. injection E' as ->. auto.
  - change (abf_forward s X dropout = Ok (q, Y, rg)) in E.
    destruct (forward_ok I dt s X dropout Hdt IH (forward_rows _ _ _ _ _ _ _ _ IH E) HX) as (q' & Y' & E' & Hq & _). rewrite E in E'. injection E' as -> _ _. auto.
  - change (abf_forward s X dropout = Ok (q, Y, rg)) in E. injection Eb as <- _.
    destruct (forward_ok I dt s X dropout Hdt IH (forward_rows _ _ _ _ _ _ _ _ IH E) HX) as (q' & Y' & E' & Hq & _). rewrite E in E'. injection E' as -> _ _. auto.
Qed.

(** ** Stability *)
(** the sequence is bounded by a geometric sequence *)
Definition geometric (x : nat -> R) : Prop := exists C rho, 0 <= C /\ 0 <= rho < 1 /\ forall t, Rabs (x t) <= C * rho ^ t.

Lemma geometric_cv x : geometric x -> Un_cv x 0.
Proof.
  intros (C & rho & HC & Hr & Hx) eps He.
  destruct (pow_lt_1_zero rho ltac:(rewrite Rabs_right; lra) (eps / (C + 1)) ltac:(apply Rdiv_lt_0_compat; lra)) as (N & HN).
  exists N. intros t Ht. unfold R_dist. rewrite Rminus_0_r. eapply Rle_lt_trans; [apply Hx|]. specialize (HN t Ht).
  assert (Hp : 0 <= rho ^ t) by (apply pow_le; lra). rewrite Rabs_right in HN by lra.
  apply Rle_lt_trans with ((C + 1) * rho ^ t); [nra|]. apply Rmult_lt_reg_l with (/ (C + 1)); [apply Rinv_0_lt_compat; lra|].
  rewrite <- Rmult_assoc, Rinv_l by lra. unfold Rdiv in HN. lra.
Qed.

(** a disturbed geometric sequence *)
Lemma geometric_step lambda a x : Rabs lambda < 1 -> geometric a -> (forall t, x (S t) = lambda * x t + a t) -> geometric x.
Proof.
  intros Hl (A & rho & HA & Hr & Ha) Hx.
  set (m := Rmax (Rabs lambda) rho). assert (Hm : 0 <= m < 1) by (unfold m, Rmax; destruct (Rle_dec _ _); pose proof (Rabs_pos lambda); lra).
  assert (M1 : Rabs lambda <= m) by apply Rmax_l. assert (M2 : rho <= m) by apply Rmax_r. clearbody m.
  set (q := (m + 1) / 2). assert (Hq : m < q < 1) by (unfold q; lra). clearbody q.
  set (C := Rabs (x 0%nat) + A / (q - m)). pose proof (Rabs_pos (x 0%nat)) as P0.
  assert (HAq : 0 <= A / (q - m)) by (apply Rmult_le_pos; [auto|left; apply Rinv_0_lt_compat; lra]).
  exists C, q. split; [unfold C; lra|]. split; [lra|]. induction t as [|t IH].
  - cbn. unfold C. lra.
  - rewrite Hx. eapply Rle_trans; [apply Rabs_triang|]. rewrite Rabs_mult.
    assert (Hp : 0 <= q ^ t) by (apply pow_le; lra).
    assert (B1 : Rabs lambda * Rabs (x t) <= m * (C * q ^ t)) by (apply Rmult_le_compat; auto; apply Rabs_pos).
    assert (B2 : Rabs (a t) <= A * q ^ t).
    { eapply Rle_trans; [apply Ha|]. apply Rmult_le_compat_l; auto. apply pow_incr. lra. }
    assert (B3 : m * C + A <= q * C).
    { assert (A / (q - m) * (q - m) = A) by (field; lra). assert (A / (q - m) * (q - m) <= C * (q - m)); [|lra].
      apply Rmult_le_compat_r; [lra|unfold C; lra]. }
    cbn [pow]. nra.
Qed.

Lemma geometric_scale c x : geometric x -> geometric (fun t => c * x t).
Proof.
  intros (C & rho & HC & Hr & Hx). exists (Rabs c * C), rho. split; [apply Rmult_le_pos; auto; apply Rabs_pos|]. split; auto.
  intros t. rewrite Rabs_mult, Rmult_assoc. apply Rmult_le_compat_l; auto. apply Rabs_pos.
Qed.
Lemma geometric_plus x y : geometric x -> geometric y -> geometric (fun t => x t + y t).
Proof.
  intros (C & rho & HC & Hr & Hx) (C' & rho' & HC' & Hr' & Hy). exists (C + C'), (Rmax rho rho'). split; [lra|].
  split; [unfold Rmax; destruct (Rle_dec _ _); lra|]. intros t. eapply Rle_trans; [apply Rabs_triang|]. rewrite Rmult_plus_distr_r.
  apply Rplus_le_compat; (eapply Rle_trans; [apply Hx || apply Hy|]); apply Rmult_le_compat_l; auto; apply pow_incr; split; try lra; [apply Rmax_l|apply Rmax_r].
Qed.
Lemma geometric_shift x : geometric x -> geometric (fun t => x (S t)).
Proof.
  intros (C & rho & HC & Hr & Hx). exists (C * rho), rho. split; [apply Rmult_le_pos; lra|]. split; auto. intros t. rewrite Rmult_assoc. apply (Hx (S t)).
Qed.
Lemma geometric_ext x y : (forall t, x t = y t) -> geometric x -> geometric y.
Proof. intros E (C & rho & HC & Hr & Hx). exists C, rho. split; auto. split; auto. intros t. rewrite <- E. auto. Qed.

(** the criterion of Jury for linear recurrences of order two *)
Lemma second_order T d (x : nat -> R) :
  0 <= d < 1 -> 0 < 1 - T + d -> 0 < 1 + T + d -> (forall t, x (S (S t)) = T * x (S t) - d * x t) -> geometric x.
Proof.
  intros Hd J1 J2 Hx. destruct (Rlt_dec (T * T) (4 * d)) as [Hc|Hc].
  - (* complex roots: a quadratic form shrinks by the factor d *)
    set (V := fun t => x (S t) * x (S t) - T * x t * x (S t) + d * (x t * x t)).
    assert (HV : forall t, V t = d ^ t * V 0%nat).
    { induction t as [|t IH]; [cbn; lra|]. cbn [pow]. rewrite Rmult_assoc, <- IH. unfold V. rewrite Hx. ring. }
    set (c := d - T * T / 4). assert (Hc' : 0 < c) by (unfold c; lra).
    assert (Hq : forall t, c * (x t * x t) <= V t).
    { intros t. unfold V, c. pose proof (Rle_0_sqr (x (S t) - T * x t / 2)) as Q. unfold Rsqr in Q. lra. }
    assert (V0 : 0 <= V 0%nat) by (eapply Rle_trans; [|apply (Hq 0%nat)]; nra).
    exists (sqrt (V 0%nat / c)), (sqrt d). split; [apply sqrt_pos|]. split.
    { split; [apply sqrt_pos|]. rewrite <- sqrt_1. apply sqrt_lt_1; lra. }
    intros t. apply Rsqr_incr_0_var; [|apply Rmult_le_pos; [apply sqrt_pos|apply pow_le; apply sqrt_pos]].
    rewrite <- Rsqr_abs. unfold Rsqr.
    replace (sqrt (V 0%nat / c) * sqrt d ^ t * (sqrt (V 0%nat / c) * sqrt d ^ t)) with
      ((sqrt (V 0%nat / c) * sqrt (V 0%nat / c)) * (sqrt d * sqrt d) ^ t) by (rewrite Rpow_mult_distr; ring).
    rewrite (sqrt_sqrt d) by lra. rewrite sqrt_sqrt by (apply Rmult_le_pos; [auto|left; now apply Rinv_0_lt_compat]).
    apply Rmult_le_reg_l with c; auto. eapply Rle_trans; [apply Hq|]. rewrite HV. right. generalize (V 0%nat). intros v0. clearbody c. field. lra.
  - (* real roots *)
    set (s := sqrt (T * T - 4 * d)). assert (Hs : s * s = T * T - 4 * d) by (apply sqrt_sqrt; lra). assert (Hs0 : 0 <= s) by apply sqrt_pos.
    assert (B : Rabs T + s < 2).
    { assert (Rabs T < 2) by (unfold Rabs; destruct (Rcase_abs T); lra). assert (Rabs T * Rabs T = T * T) by (unfold Rabs; destruct (Rcase_abs T); ring).
      assert (Rabs T < 1 + d) by (unfold Rabs; destruct (Rcase_abs T); lra).
      destruct (Rlt_dec s (2 - Rabs T)); [lra|]. exfalso. assert ((2 - Rabs T) * (2 - Rabs T) <= s * s) by nra. nra. }
    set (l1 := (T + s) / 2). set (l2 := (T - s) / 2).
    pose proof (Rle_abs T) as B1. pose proof (Rle_abs (- T)) as B2. rewrite Rabs_Ropp in B2.
    assert (R1 : Rabs l1 < 1) by (apply Rabs_def1; unfold l1; lra). assert (R2 : Rabs l2 < 1) by (apply Rabs_def1; unfold l2; lra).
    assert (S1 : l1 + l2 = T) by (unfold l1, l2; lra). assert (S2 : l1 * l2 = d) by (unfold l1, l2; nra).
    apply (geometric_step l1 (fun t => x (S t) - l1 * x t)); auto; [|intros t; ring].
    apply (geometric_step l2 (fun _ => 0)); auto.
    + exists 0, 0. split; [lra|]. split; [lra|]. intros t. rewrite Rabs_R0. lra.
    + intros t. rewrite Hx, <- S1, <- S2. ring.
Qed.

Lemma damping_range g : 0 < damping g <= 1 /\ (g <> 0 -> damping g < 1).
Proof.
  unfold damping. replace (g * g) with (Rabs g * Rabs g) by (unfold Rabs; destruct (Rcase_abs g); ring).
  assert (Hn : g <> 0 -> 0 < Rabs g) by apply Rabs_pos_lt. pose proof (Rabs_pos g) as Hg. set (a := Rabs g) in *. clearbody a.
  pose proof (sqrt_pos (8 * a + a * a)) as S0. assert (S1 : sqrt (8 * a + a * a) * sqrt (8 * a + a * a) = 8 * a + a * a) by (apply sqrt_sqrt; nra).
  set (s := sqrt (8 * a + a * a)) in *. clearbody s. split; [split|].
  - assert (s < 4 + a); [|lra]. destruct (Rlt_dec s (4 + a)); auto. nra.
  - assert (a <= s); [|lra]. destruct (Rle_dec a s); auto. nra.
  - intros H. specialize (Hn H). assert (a < s); [|lra]. destruct (Rlt_dec a s); auto. nra.
Qed.
