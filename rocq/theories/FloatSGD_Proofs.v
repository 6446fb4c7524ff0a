(** Proofs about FloatSGD_Model. *)
From Coq Require Import Lra Lia Psatz.
From Flocq Require Import Core BinarySingleNaN.
From Verif Require Import Base BaseFacts Activation_Model Float_Model Float_Spec Float_Proofs FloatSplit_Model FloatSplit_Proofs FloatSGD_Model FloatSGD_Spec.
Local Open Scope R_scope.

(** ** Rounding *)
Notation rnd := (round radix2 fexp64 (round_mode mode_NE)).
Lemma rnd_err r : Rabs (rnd r - r) <= eps * Rabs r + tiny.
Proof.
  apply Rle_trans with (ulp radix2 fexp64 r). { apply error_le_ulp; exact _. }
  destruct (Rle_lt_dec (bpow radix2 (-1074 + 53 - 1)) (Rabs r)) as [L|L].
  - apply Rle_trans with (Rabs r * bpow radix2 (1 - 53)). { apply (ulp_FLT_le radix2 (-1074) 53 r). exact L. }
    change (1 - 53)%Z with (- Z.of_nat 52)%Z. rewrite bpow_opp, bpow_pow. fold eps. pose proof tiny_pos. lra.
  - change fexp64 with (FLT_exp (-1074) 53). rewrite (ulp_FLT_small radix2 (-1074) 53 r) by (apply Rlt_trans with (1 := L), bpow_lt; lia). fold tiny. pose proof eps_pos. pose proof (Rabs_pos r). nra.
Qed.
Lemma overflow_inf s : is_finite_SF (binary_overflow 53 1024 mode_NE s) = false.
Proof. reflexivity. Qed.
Lemma mult_fin x y : finite (dmult x y) -> finite x /\ finite y /\ val (dmult x y) = rnd (val x * val y).
Proof.
  unfold finite, val, dmult. intros F. pose proof (Bmult_correct 53 1024 _ _ mode_NE x y) as C. destruct (Rlt_bool _ _).
  - destruct C as (C1 & C2 & _). rewrite F in C2. symmetry in C2. apply andb_prop in C2. tauto.
  - rewrite <- is_finite_SF_B2SF, C, overflow_inf in F. discriminate.
Qed.
Lemma args_plus x y : finite (dplus x y) -> finite x /\ finite y.
Proof. unfold finite, dplus. destruct x as [[]|[]| |], y as [[]|[]| |]; cbn; auto; discriminate. Qed.
Lemma args_minus x y : finite (dminus x y) -> finite x /\ finite y.
Proof. unfold finite, dminus. destruct x as [[]|[]| |], y as [[]|[]| |]; cbn; auto; discriminate. Qed.
Lemma plus_fin x y : finite (dplus x y) -> finite x /\ finite y /\ val (dplus x y) = rnd (val x + val y).
Proof.
  intros F. destruct (args_plus _ _ F) as (Fx & Fy). split; [auto|]. split; [auto|]. unfold finite, val, dplus in *. pose proof (Bplus_correct 53 1024 _ _ mode_NE x y Fx Fy) as C.
  destruct (Rlt_bool _ _); [tauto|]. destruct C as (C & _). rewrite <- is_finite_SF_B2SF, C, overflow_inf in F. discriminate.
Qed.
Lemma minus_fin x y : finite (dminus x y) -> finite x /\ finite y /\ val (dminus x y) = rnd (val x - val y).
Proof.
  intros F. destruct (args_minus _ _ F) as (Fx & Fy). split; [auto|]. split; [auto|]. unfold finite, val, dminus in *. pose proof (Bminus_correct 53 1024 _ _ mode_NE x y Fx Fy) as C.
  destruct (Rlt_bool _ _); [tauto|]. destruct C as (C & _). rewrite <- is_finite_SF_B2SF, C, overflow_inf in F. discriminate.
Qed.

(** ** Maximum and minimum *)
Lemma dmax_ok a b : finite a -> finite b -> finite (dmax a b) /\ val (dmax a b) = Rmax (val a) (val b).
Proof.
  intros Fa Fb. unfold dmax. destruct (dltb a b) eqn:E.
  - apply ltb_true in E; auto. split; auto. rewrite Rmax_right; lra.
  - apply ltb_false in E; auto. split; auto. rewrite Rmax_left; lra.
Qed.
Lemma dmin_ok a b : finite a -> finite b -> finite (dmin a b) /\ val (dmin a b) = Rmin (val a) (val b).
Proof.
  intros Fa Fb. unfold dmin. destruct (dltb b a) eqn:E.
  - apply ltb_true in E; auto. split; auto. rewrite Rmin_right; lra.
  - apply ltb_false in E; auto. split; auto. rewrite Rmin_left; lra.
Qed.
(** whatever the third number is *)
Lemma clamp_ok lo hi x : finite lo -> finite hi -> val lo <= val hi -> within (val lo) (val hi) (dmin hi (dmax lo x)).
Proof.
  intros Fl Fh L. unfold dmax. destruct (dltb lo x) eqn:E.
  - unfold dmin. destruct (dltb x hi) eqn:E2; [|split; [auto|lra]].
    destruct (is_finite x) eqn:Fx.
    + apply ltb_true in E, E2; auto. split; [exact Fx|lra].
    + exfalso. destruct x as [|[]| |]; try discriminate; destruct lo, hi; try discriminate; destruct s, s0; discriminate.
  - unfold dmin. destruct (dltb lo hi) eqn:E2; split; auto; lra.
Qed.

(** ** The constructor *)
Definition numeric (x : double) : Prop := is_nan x = false.
Lemma numeric_cases x : numeric x -> finite x \/ exists s, x = B754_infinity s.
Proof. unfold numeric, finite. destruct x; cbn; eauto; discriminate. Qed.
Lemma finite_numeric x : finite x -> numeric x.
Proof. unfold numeric, finite. destruct x; cbn; auto; discriminate. Qed.
Lemma zero_ok : finite (dint 0) /\ val (dint 0) = 0.
Proof. apply (int_ok 0). lia. Qed.
Lemma one_ok : finite (dint 1) /\ val (dint 1) = 1.
Proof. apply (int_ok 1). lia. Qed.
Lemma leb_false x y : finite x -> finite y -> dleb x y = false <-> val y < val x.
Proof.
  intros Fx Fy. pose proof (leb_ok x y Fx Fy) as L. destruct (dleb x y).
  - split; [discriminate|]. intros. assert (val x <= val y) by tauto. lra.
  - split; auto. intros _. apply Rnot_le_lt. intros C. apply L in C. discriminate.
Qed.
Lemma checkL x : numeric x -> (dleb x (dint 0) || dltb (dint 1) x)%bool = false <-> withinL 0 1 x.
Proof.
  intros Nx. destruct zero_ok as (F0 & V0), one_ok as (F1 & V1). destruct (numeric_cases x Nx) as [F|(s & ->)].
  - rewrite orb_false_iff, leb_false, ltb_false, V0, V1 by auto. unfold withinL. tauto.
  - split; [intros C|intros (C & _); discriminate C]. destruct s; vm_compute in C; discriminate.
Qed.
Lemma checkB x : numeric x -> (dltb x (dint 0) || dltb (dint 1) x)%bool = false <-> within 0 1 x.
Proof.
  intros Nx. destruct zero_ok as (F0 & V0), one_ok as (F1 & V1). destruct (numeric_cases x Nx) as [F|(s & ->)].
  - rewrite orb_false_iff, !ltb_false, V0, V1 by auto. unfold within. tauto.
  - split; [intros C|intros (C & _); discriminate C]. destruct s; vm_compute in C; discriminate.
Qed.
Lemma checkR x : numeric x -> (dltb x (dint 0) || dleb (dint 1) x)%bool = false <-> withinR 0 1 x.
Proof.
  intros Nx. destruct zero_ok as (F0 & V0), one_ok as (F1 & V1). destruct (numeric_cases x Nx) as [F|(s & ->)].
  - rewrite orb_false_iff, leb_false, ltb_false, V0, V1 by auto. unfold withinR. tauto.
  - split; [intros C|intros (C & _); discriminate C]. destruct s; vm_compute in C; discriminate.
Qed.
Lemma constructor_ok lr mo bs ne de ml mg mm ming maxg :
  numeric lr -> numeric mo -> numeric de -> numeric ml -> numeric mg -> numeric mm ->
  (documentedArguments lr mo bs de ml mg mm /\ d_newMBSGD lr mo bs ne de ml mg mm ming maxg = Ok (mkDsgd ne de ml mg mm ming maxg, lr, mo)) \/
  (~ documentedArguments lr mo bs de ml mg mm /\ d_newMBSGD lr mo bs ne de ml mg mm ming maxg = Throw).
Proof.
  intros N1 N2 N3 N4 N5 N6. unfold d_newMBSGD, documentedArguments.
  pose proof (checkL lr N1) as C1. destruct (dleb lr _ || _)%bool; [right; split; [intros A; assert (true = false) by tauto; discriminate|reflexivity]|].
  pose proof (checkR mo N2) as C2. destruct (dltb mo _ || _)%bool; [right; split; [intros A; assert (true = false) by tauto; discriminate|reflexivity]|].
  destruct (Z.ltb_spec bs 1) as [B|B]; [right; split; [lia|reflexivity]|].
  pose proof (checkL de N3) as C3. destruct (dleb de _ || _)%bool; [right; split; [intros A; assert (true = false) by tauto; discriminate|reflexivity]|].
  pose proof (checkB ml N4) as C4. destruct (dltb ml _ || _)%bool; [right; split; [intros A; assert (true = false) by tauto; discriminate|reflexivity]|].
  pose proof (checkR mg N5) as C5. destruct (dltb mg _ || _)%bool; [right; split; [intros A; assert (true = false) by tauto; discriminate|reflexivity]|].
  pose proof (checkB mm N6) as C6. destruct (dltb mm _ || _)%bool; [right; split; [intros A; assert (true = false) by tauto; discriminate|reflexivity]|].
  left. split; [|reflexivity]. repeat (split; [tauto || exact B|]). tauto.
Qed.

(** ** A round *)
Lemma zip_ok f a b l : zip f a b = Ok l <-> length a = length b /\ l = map (fun p => f (fst p) (snd p)) (combine a b).
Proof.
  unfold zip. destruct (Nat.eqb_spec (length a) (length b)) as [E|E]; cbn [check bind].
  - split; [intros H; inversion H; auto|intros (_ & ->); reflexivity].
  - split; [discriminate|intros (C & _); contradiction].
Qed.
Lemma zip_len f a b l : zip f a b = Ok l -> length a = length b /\ length l = length a.
Proof. intros H. apply zip_ok in H. destruct H as (E & ->). rewrite map_length, combine_length. lia. Qed.
Lemma nth_combine {A B} (a : list A) (b : list B) j x y : nth_error a j = Some x -> nth_error b j = Some y -> nth_error (combine a b) j = Some (x, y).
Proof. revert b j. induction a as [|u a IH]; intros [|v b] [|j]; cbn; try discriminate; auto. intros E1 E2. now inversion E1; inversion E2. Qed.
Lemma zip_nth f a b l j x y : zip f a b = Ok l -> nth_error a j = Some x -> nth_error b j = Some y -> nth_error l j = Some (f x y).
Proof.
  intros H Ex Ey. apply zip_ok in H. destruct H as (_ & ->). rewrite nth_error_map, (nth_combine _ _ _ _ _ Ex Ey). reflexivity.
Qed.
Lemma zip_in f a b l z : zip f a b = Ok l -> In z l -> exists x y, In x a /\ In y b /\ z = f x y.
Proof.
  intros H I. apply zip_ok in H. destruct H as (_ & ->). apply in_map_iff in I. destruct I as ((x & y) & <- & I). exists x, y.
  split; [apply (in_combine_l _ _ _ _ I)|]. split; [apply (in_combine_r _ _ _ _ I)|reflexivity].
Qed.
Lemma check_true b r : check b = Ok r -> b = true.
Proof. destruct b; [auto|discriminate]. Qed.
Lemma unbroken_fin l x : d_unbroken l = true -> In x l -> finite x.
Proof. intros H I. unfold d_unbroken in H. rewrite forallb_forall in H. now apply H. Qed.
Lemma unbroken_of l : (forall x, In x l -> finite x) -> d_unbroken l = true.
Proof. intros H. apply forallb_forall. exact H. Qed.

Record roundOf (c : dsgd) (answer : list double -> list double) (s s' : dstate) (at_ g' : list double) : Prop := mkRoundOf {
  r_at : if sNesterov c then zip (fun p m => dplus p (dmult (sEta s) m)) (sParameters s) (sMomentum s) = Ok at_ else at_ = sParameters s;
  r_fin : d_unbroken (answer at_) = true;
  r_gains : if d_useGain c then exists mg, zip dmult (sMomentum s) (answer at_) = Ok mg /\ zip (d_gain c) mg (sGains s) = Ok (sGains s') else sGains s' = sGains s;
  r_g : if d_useGain c then zip dmult (answer at_) (sGains s') = Ok g' else g' = answer at_;
  r_m : zip (fun m g => dminus (dmult (sEta s) m) (dmult (sAlpha s) g)) (sMomentum s) g' = Ok (sMomentum s');
  r_mf : d_unbroken (sMomentum s') = true;
  r_p : zip dplus (sParameters s) (sMomentum s') = Ok (sParameters s');
  r_pf : d_unbroken (sParameters s') = true;
  r_a : sAlpha s' = dmax (dmult (sAlpha s) (sDecay c)) (sMinAlpha c);
  r_af : finite (sAlpha s');
  r_e : sEta s' = dmin (dplus (sEta s) (sEtaGain c)) (sMaxEta c);
  r_ef : finite (sEta s') }.
Lemma bind_ok {A B} (r : res A) (f : A -> res B) b : bind r f = Ok b -> exists a, r = Ok a /\ f a = Ok b.
Proof. destruct r; try discriminate. intros H. eauto. Qed.
Lemma round_inv c answer s s' : d_round c answer s = Ok s' -> exists at_ g', roundOf c answer s s' at_ g'.
Proof.
  unfold d_round. cbv zeta. intros H.
  apply bind_ok in H. destruct H as (at_ & E1 & H). apply bind_ok in H. destruct H as (u1 & E2 & H). apply bind_ok in H. destruct H as (gns & E3 & H).
  apply bind_ok in H. destruct H as (g' & E4 & H). apply bind_ok in H. destruct H as (m & E5 & H). apply bind_ok in H. destruct H as (u2 & E6 & H).
  apply bind_ok in H. destruct H as (p & E7 & H). apply bind_ok in H. destruct H as (u3 & E8 & H). apply bind_ok in H. destruct H as (u4 & E9 & H).
  apply bind_ok in H. destruct H as (u5 & E10 & H). inversion H; subst s'; clear H. exists at_, g'. apply check_true in E2, E6, E8, E9, E10.
  constructor; cbn [sGains sMomentum sParameters sAlpha sEta]; auto.
  - destruct (sNesterov c); auto. now inversion E1.
  - destruct (d_useGain c); [apply bind_ok in E3; exact E3|now inversion E3].
  - destruct (d_useGain c); auto. now inversion E4.
Qed.
Lemma round_of c answer s s' at_ g' : roundOf c answer s s' at_ g' -> d_round c answer s = Ok s'.
Proof.
  intros [A1 A2 A3 A4 A5 A6 A7 A8 A9 A10 A11 A12]. unfold d_round. cbv zeta.
  assert (E1 : (if sNesterov c then zip (fun p m => dplus p (dmult (sEta s) m)) (sParameters s) (sMomentum s) else Ok (sParameters s)) = Ok at_) by (destruct (sNesterov c); auto; now subst).
  rewrite E1. cbn [bind]. rewrite A2. cbn [check bind].
  assert (E3 : (if d_useGain c then mg <- zip dmult (sMomentum s) (answer at_) ;; zip (d_gain c) mg (sGains s) else Ok (sGains s)) = Ok (sGains s')).
  { destruct (d_useGain c); [|now rewrite A3]. destruct A3 as (mg & -> & E). exact E. }
  rewrite E3. cbn [bind].
  assert (E4 : (if d_useGain c then zip dmult (answer at_) (sGains s') else Ok (answer at_)) = Ok g') by (destruct (d_useGain c); auto; now subst).
  rewrite E4. cbn [bind]. rewrite A5. cbn [bind]. rewrite A6. cbn [check bind]. rewrite A7. cbn [bind]. rewrite A8. cbn [check bind]. rewrite <- A9.
  red in A10, A12. rewrite A10. cbn [check bind]. rewrite <- A11, A12. cbn [check bind]. destruct s'; reflexivity.
Qed.

(** ** Learning rate and momentum *)
Lemma rate_S lr d m k : 0 < d <= 1 -> 0 <= m -> documentedRate lr d m (S k) = Rmax (documentedRate lr d m k * d) m.
Proof.
  intros Hd Hm. destruct k as [|k]; [cbn; now rewrite Rmult_1_r|]. unfold documentedRate. cbn [pow]. set (x := d ^ k).
  destruct (Rle_dec (lr * (d * x)) m) as [L|L].
  - rewrite (Rmax_right (lr * (d * x))) by auto. rewrite !Rmax_right; auto; nra.
  - rewrite (Rmax_left (lr * (d * x))) by lra. f_equal. ring.
Qed.
Lemma momentum_S mo g m k : 0 <= g -> documentedMomentum mo g m (S k) = Rmin (documentedMomentum mo g m k + g) m.
Proof.
  intros Hg. destruct k as [|k]; [cbn; now rewrite Rmult_1_l|]. unfold documentedMomentum. rewrite (S_INR (S k)). set (x := INR (S k)).
  destruct (Rle_dec (mo + x * g) m) as [L|L].
  - rewrite (Rmin_left (mo + x * g)) by auto. f_equal. ring.
  - rewrite (Rmin_right (mo + x * g)) by lra. rewrite !Rmin_right; auto; lra.
Qed.
Lemma rate_range lr d m k : 0 <= lr <= 1 -> 0 < d <= 1 -> 0 <= m <= 1 -> 0 <= documentedRate lr d m k <= 1.
Proof.
  intros Hl Hd Hm. induction k as [|k IH]; [exact Hl|]. rewrite rate_S by lra. split; [apply Rle_trans with m; [lra|apply Rmax_r]|]. apply Rmax_lub; nra.
Qed.
Lemma momentum_range mo g m k : 0 <= mo <= 1 -> 0 <= g <= 1 -> 0 <= m <= 1 -> 0 <= documentedMomentum mo g m k <= 1.
Proof.
  intros Hl Hg Hm. induction k as [|k IH]; [exact Hl|]. rewrite momentum_S by lra. split; [|apply Rle_trans with m; [apply Rmin_r|lra]]. apply Rmin_glb; lra.
Qed.
Lemma Rmax_dist a b m : Rabs (Rmax a m - Rmax b m) <= Rabs (a - b).
Proof. unfold Rmax. destruct (Rle_dec a m), (Rle_dec b m); unfold Rabs; repeat destruct (Rcase_abs _); lra. Qed.
Lemma Rmin_dist a b m : Rabs (Rmin a m - Rmin b m) <= Rabs (a - b).
Proof. unfold Rmin. destruct (Rle_dec a m), (Rle_dec b m); unfold Rabs; repeat destruct (Rcase_abs _); lra. Qed.

Section Schedules.
Variables (lr mo : double) (bs : Z) (ne : bool) (de ml mg mm ming maxg : double).
Hypothesis args : documentedArguments lr mo bs de ml mg mm.
Let c := mkDsgd ne de ml mg mm ming maxg.

(** the next learning rate and momentum *)
Lemma alpha_next a : within 0 1 a ->
  let a' := dmax (dmult a de) ml in
  finite a' /\ val ml <= val a' <= 1 /\ val a' <= Rmax (val a) (val ml) /\ faithful (dmult a de) (val a * val de) /\ val a' = Rmax (val (dmult a de)) (val ml).
Proof.
  intros (Fa & Ba). destruct args as (_ & _ & _ & (Fd & Bd) & (Fm & Bm) & _). cbv zeta.
  assert (P : faithful (dmult a de) (val a * val de)). { apply mult_ok; auto. apply small_max. rewrite Rabs_pos_eq by nra. apply Rle_trans with (2 ^ 0); [cbn; nra|]. apply Rle_pow; [lra|lia]. }
  assert (B : IZR 0 <= val (dmult a de) <= IZR 1). { apply (faithful_ints _ _ 0 1 P); try lia. nra. }
  assert (L : val (dmult a de) <= val a). { destruct P as (_ & P). apply (P a Fa). nra. }
  destruct (dmax_ok (dmult a de) ml (proj1 P) Fm) as (F & V). split; [exact F|]. rewrite V. split; [|split; [|split; [exact P|reflexivity]]].
  - split; [apply Rmax_r|]. apply Rmax_lub; lra.
  - apply Rmax_lub; [apply Rle_trans with (1 := L), Rmax_l|apply Rmax_r].
Qed.
Lemma eta_next e : within 0 1 e ->
  let e' := dmin (dplus e mg) mm in
  finite e' /\ 0 <= val e' <= val mm /\ Rmin (val e) (val mm) <= val e' /\ faithful (dplus e mg) (val e + val mg) /\ val e' = Rmin (val (dplus e mg)) (val mm).
Proof.
  intros (Fa & Ba). destruct args as (_ & _ & _ & _ & _ & (Fg & Bg) & (Fm & Bm)). cbv zeta.
  assert (P : faithful (dplus e mg) (val e + val mg)). { apply plus_ok; auto. apply small_max. rewrite Rabs_pos_eq by lra. apply Rle_trans with (2 ^ 1); [cbn; lra|]. apply Rle_pow; [lra|lia]. }
  assert (B : IZR 0 <= val (dplus e mg) <= IZR 2). { apply (faithful_ints _ _ 0 2 P); try lia. lra. }
  assert (L : val e <= val (dplus e mg)). { destruct P as (_ & P). apply (P e Fa). lra. }
  destruct (dmin_ok (dplus e mg) mm (proj1 P) Fm) as (F & V). split; [exact F|]. rewrite V. split; [|split; [|split; [exact P|reflexivity]]].
  - split; [|apply Rmin_r]. apply Rmin_glb; lra.
  - apply Rmin_glb; [|apply Rmin_r]. apply Rle_trans with (2 := L), Rmin_l.
Qed.

Lemma step_err y r : faithful y r -> 0 <= r <= 2 -> Rabs (val y - r) <= / 2 ^ 51 + / 2 ^ 200.
Proof.
  intros F B. assert (M : Rabs r <= maxDouble). { apply small_max. rewrite Rabs_pos_eq by lra. apply Rle_trans with (2 ^ 1); [cbn; lra|]. apply Rle_pow; [lra|lia]. }
  apply Rle_trans with (1 := faithful_err _ _ F M). rewrite Rabs_pos_eq by lra. pose proof tiny_small.
  assert (E : / 2 ^ 51 = 2 * eps). { unfold eps. change (2 ^ 52) with (2 * 2 ^ 51). field. }
  pose proof eps_pos. nra.
Qed.
Lemma small_sum : / 2 ^ 51 + / 2 ^ 200 <= / 2 ^ 50.
Proof.
  assert (H : / 2 ^ 200 <= / 2 ^ 51). { apply Rinv_le_contravar; [apply pow_lt; lra|]. apply Rle_pow; [lra|lia]. }
  assert (E : / 2 ^ 50 = 2 * / 2 ^ 51). { change (2 ^ 51) with (2 * 2 ^ 50). field. }
  lra.
Qed.

Record schedInv (k : nat) (s : dstate) : Prop := mkSchedInv {
  i_alpha : within 0 1 (sAlpha s);
  i_eta : within 0 1 (sEta s);
  i_rate : Rabs (val (sAlpha s) - documentedRate (val lr) (val de) (val ml) k) <= INR k * / 2 ^ 50;
  i_mom : Rabs (val (sEta s) - documentedMomentum (val mo) (val mg) (val mm) k) <= INR k * / 2 ^ 50;
  i_min : (0 < k)%nat -> val ml <= val (sAlpha s);
  i_max : (0 < k)%nat -> val (sEta s) <= val mm }.
Lemma schedInv_start k s p : schedInv k s -> schedInv k (d_start (sAlpha s) (sEta s) p).
Proof. intros []. constructor; auto. Qed.
Lemma schedInv_new p : schedInv 0 (d_start lr mo p).
Proof.
  destruct args as ((F1 & B1) & (F2 & B2) & _). constructor; cbn [sAlpha sEta d_start].
  - split; auto; lra.
  - split; auto; lra.
  - cbn. rewrite Rminus_diag_eq, Rabs_R0 by reflexivity. lra.
  - cbn. rewrite Rminus_diag_eq, Rabs_R0 by reflexivity. lra.
  - lia.
  - lia.
Qed.
Lemma schedInv_round k s answer s' : schedInv k s -> d_round c answer s = Ok s' -> schedInv (S k) s'.
Proof.
  intros [Ia Ie Ir Im _ _] H. apply round_inv in H. destruct H as (at_ & g' & H). destruct (alpha_next _ Ia) as (Fa & Ba & La & Pa & Va). destruct (eta_next _ Ie) as (Fe & Be & Le & Pe & Ve).
  destruct H as [_ _ _ _ _ _ _ _ Ea _ Ee _]. cbn [sDecay sMinAlpha sEtaGain sMaxEta c] in Ea, Ee. rewrite <- Ea in *. rewrite <- Ee in *.
  destruct args as ((F1 & B1) & (F2 & B2) & _ & (Fd & Bd) & (Fm & Bm) & (Fg & Bg) & (Fx & Bx)).
  pose proof small_sum as SS. pose proof (rate_range (val lr) (val de) (val ml) k) as Rr. pose proof (momentum_range (val mo) (val mg) (val mm) k) as Rm.
  constructor; auto.
  - split; auto; lra.
  - split; auto; lra.
  - rewrite rate_S by lra. rewrite Va. apply Rle_trans with (1 := Rmax_dist _ _ _). rewrite S_INR. destruct Ia as (_ & Ba0). pose proof (step_err _ _ Pa) as E1.
    set (r := documentedRate (val lr) (val de) (val ml) k) in *. set (a := val (sAlpha s)) in *.
    replace (val (dmult (sAlpha s) de) - r * val de) with ((val (dmult (sAlpha s) de) - a * val de) + (a - r) * val de) by ring.
    apply Rle_trans with (1 := Rabs_triang _ _). rewrite Rabs_mult, (Rabs_pos_eq (val de)) by lra.
    assert (E2 : Rabs (a - r) * val de <= Rabs (a - r)) by (pose proof (Rabs_pos (a - r)); nra). assert (E3 : 0 <= a * val de <= 2) by nra. specialize (E1 E3). lra.
  - rewrite momentum_S by lra. rewrite Ve. apply Rle_trans with (1 := Rmin_dist _ _ _). rewrite S_INR. destruct Ie as (_ & Be0). pose proof (step_err _ _ Pe) as E1.
    set (r := documentedMomentum (val mo) (val mg) (val mm) k) in *. set (e := val (sEta s)) in *.
    replace (val (dplus (sEta s) mg) - (r + val mg)) with ((val (dplus (sEta s) mg) - (e + val mg)) + (e - r)) by ring.
    apply Rle_trans with (1 := Rabs_triang _ _). assert (E3 : 0 <= e + val mg <= 2) by lra. specialize (E1 E3). lra.
  - intros _. lra.
  - intros _. lra.
Qed.
Lemma descent_sched k s : descent c lr mo k s -> schedInv k s.
Proof. induction 1; [apply schedInv_new|now apply schedInv_round with (1 := IHdescent) in H0|now apply schedInv_start]. Qed.
End Schedules.

(** the sizes of the vectors; gains that are not used *)
Definition sizes (s : dstate) : Prop := length (sMomentum s) = length (sParameters s) /\ length (sGains s) = length (sParameters s).
Lemma sizes_start a e p : sizes (d_start a e p).
Proof. unfold sizes, d_start. cbn [sMomentum sParameters sGains]. rewrite !repeat_length. auto. Qed.
Lemma sizes_round c answer s s' : sizes s -> d_round c answer s = Ok s' -> sizes s' /\ length (sParameters s') = length (sParameters s).
Proof.
  intros (S1 & S2) H. apply round_inv in H. destruct H as (at_ & g' & [A1 A2 A3 A4 A5 A6 A7 A8 A9 A10 A11 A12]).
  apply zip_len in A7. apply zip_len in A5. unfold sizes. destruct (d_useGain c).
  - destruct A3 as (mg & E1 & E2). apply zip_len in E1. apply zip_len in E2. lia.
  - rewrite A3. lia.
Qed.
Lemma descent_sizes c lr mo k s : descent c lr mo k s -> sizes s.
Proof. induction 1; try apply sizes_start. eapply sizes_round; eauto. Qed.
Lemma descent_gains c lr mo k s : descent c lr mo k s -> d_useGain c = false -> forall x, In x (sGains s) -> x = dint 1.
Proof.
  induction 1; intros U x I; try (unfold d_start in I; cbn [sGains] in I; now apply repeat_spec in I).
  apply round_inv in H0. destruct H0 as (at_ & g' & [_ _ A3 _ _ _ _ _ _ _ _ _]). rewrite U in A3. rewrite A3 in I. auto.
Qed.

(** ** The accuracy of a round *)
Lemma pos_prod a b : 0 <= a -> 0 <= b -> 0 <= a * b.
Proof. apply Rmult_le_pos. Qed.
Lemma eps_small : eps <= / 8.
Proof. unfold eps. apply Rinv_le_contravar; [lra|]. apply Rle_trans with (2 ^ 3); [lra|]. apply Rle_pow; [lra|lia]. Qed.
(** rounded products and their difference *)
Lemma momentum_err u v x1 x2 x3 x4 al gk :
  Rabs (x1 - u) <= eps * Rabs u + tiny -> Rabs (x2 - gk) <= eps * Rabs gk + tiny -> 0 <= al <= 1 ->
  Rabs (x3 - al * x2) <= eps * Rabs (al * x2) + tiny -> v = al * gk -> Rabs (x4 - (x1 - x3)) <= eps * Rabs (x1 - x3) + tiny ->
  Rabs (x4 - (u - v)) <= 4 * eps * (Rabs u + Rabs v) + 8 * tiny.
Proof.
  intros E1 E2 Ha E3 -> E4. pose proof eps_pos as P1. pose proof eps_small as P2. pose proof tiny_pos as P3.
  assert (A2 : Rabs (al * x2 - al * gk) <= eps * Rabs (al * gk) + tiny). { rewrite <- Rmult_minus_distr_l, !Rabs_mult, (Rabs_pos_eq al) by lra. pose proof (Rabs_pos (x2 - gk)). pose proof (Rabs_pos gk). nra. }
  set (w := al * gk) in *. set (y := al * x2) in *.
  assert (B2 : Rabs y <= Rabs w + (eps * Rabs w + tiny)). { replace y with (w + (y - w)) by ring. apply Rle_trans with (1 := Rabs_triang _ _). lra. }
  assert (A3 : Rabs (x3 - w) <= eps * (Rabs w + (eps * Rabs w + tiny)) + tiny + (eps * Rabs w + tiny)).
  { replace (x3 - w) with ((x3 - y) + (y - w)) by ring. apply Rle_trans with (1 := Rabs_triang _ _). assert (eps * Rabs y <= eps * (Rabs w + (eps * Rabs w + tiny))) by (apply Rmult_le_compat_l; lra). lra. }
  pose proof (Rabs_pos u) as Pu. pose proof (Rabs_pos w) as Pw. set (U := Rabs u) in *. set (W := Rabs w) in *.
  assert (Q1 : eps * W <= W * / 8) by nra. assert (Q2 : eps * tiny <= tiny * / 8) by nra. assert (Q3 : eps * (eps * W) <= eps * W * / 8) by (assert (0 <= eps * W) by nra; nra). assert (Q4 : eps * U <= U * / 8) by nra.
  assert (A3' : Rabs (x3 - w) <= 17 / 8 * (eps * W) + 17 / 8 * tiny) by lra.
  assert (B4 : Rabs (x1 - x3) <= U + W + (eps * U + tiny) + (17 / 8 * (eps * W) + 17 / 8 * tiny)).
  { replace (x1 - x3) with (u + (x1 - u) - (w + (x3 - w))) by ring. apply Rle_trans with (1 := Rabs_triang _ _). rewrite Rabs_Ropp.
    pose proof (Rabs_triang u (x1 - u)) as H1. pose proof (Rabs_triang w (x3 - w)) as H2. fold U in H1. fold W in H2. lra. }
  replace (x4 - (u - w)) with ((x4 - (x1 - x3)) + ((x1 - u) - (x3 - w))) by ring. apply Rle_trans with (1 := Rabs_triang _ _).
  assert (T : Rabs ((x1 - u) - (x3 - w)) <= (eps * U + tiny) + (17 / 8 * (eps * W) + 17 / 8 * tiny)).
  { apply Rle_trans with (1 := Rabs_triang _ _). rewrite Rabs_Ropp. lra. }
  assert (Q : eps * Rabs (x1 - x3) <= eps * (U + W + (eps * U + tiny) + (17 / 8 * (eps * W) + 17 / 8 * tiny))) by (apply Rmult_le_compat_l; lra).
  assert (Q5 : eps * (eps * U) <= eps * U * / 8) by (assert (0 <= eps * U) by nra; nra).
  replace (4 * eps * (U + W)) with (4 * (eps * U) + 4 * (eps * W)) by ring.
  replace (eps * (U + W + (eps * U + tiny) + (17 / 8 * (eps * W) + 17 / 8 * tiny))) with (eps * U + eps * W + eps * (eps * U) + 25 / 8 * (eps * tiny) + 17 / 8 * (eps * (eps * W))) in Q by field.
  assert (0 <= eps * U) by (apply pos_prod; lra). assert (0 <= eps * W) by (apply pos_prod; lra). lra.
Qed.
Lemma four_eps : 4 * eps = / 2 ^ 50.
Proof. unfold eps. replace (2 ^ 52) with (4 * 2 ^ 50) by ring. field. Qed.
Lemma tiny_pow : tiny = / 2 ^ 1074.
Proof. unfold tiny. change (-1074)%Z with (- Z.of_nat 1074)%Z. now rewrite bpow_opp, bpow_pow. Qed.
Lemma eight_tiny : 8 * tiny = / 2 ^ 1071.
Proof. rewrite tiny_pow. replace (2 ^ 1074) with (2 ^ 3 * 2 ^ 1071) by (rewrite <- pow_add; reflexivity). assert (2 ^ 1071 <> 0) by (apply pow_nonzero; lra). generalize dependent (2 ^ 1071). intros x H. field. exact H. Qed.
Lemma nth_ex {A} (l : list A) j n : length l = n -> (j < n)%nat -> exists x, nth_error l j = Some x.
Proof. intros E L. destruct (nth_error l j) eqn:X; eauto. apply nth_error_None in X. lia. Qed.

Lemma round_accurate c answer s s' j p m :
  sizes s -> within 0 1 (sAlpha s) -> within 0 1 (sEta s) -> (d_useGain c = false -> forall x, In x (sGains s) -> x = dint 1) ->
  d_round c answer s = Ok s' -> nth_error (sParameters s) j = Some p -> nth_error (sMomentum s) j = Some m ->
  exists at_, (if sNesterov c then exists q, nth_error at_ j = Some q /\ (finite q -> Rabs (val q - (val p + val (sEta s) * val m)) <= / 2 ^ 50 * (Rabs (val p) + Rabs (val (sEta s) * val m)) + / 2 ^ 1071)
               else at_ = sParameters s) /\
  exists g k m' p', nth_error (answer at_) j = Some g /\ nth_error (sGains s') j = Some k /\ nth_error (sMomentum s') j = Some m' /\ nth_error (sParameters s') j = Some p' /\
    finite g /\ finite k /\ finite m' /\ finite p' /\
    Rabs (val m' - (val (sEta s) * val m - val (sAlpha s) * (val g * val k))) <= / 2 ^ 50 * (Rabs (val (sEta s) * val m) + Rabs (val (sAlpha s) * (val g * val k))) + / 2 ^ 1071 /\
    Rabs (val p' - (val p + val m')) <= / 2 ^ 52 * Rabs (val p + val m') + / 2 ^ 1074.
Proof.
  intros (S1 & S2) (Fa & Ba) (Fe & Be) HG H Ep Em. apply round_inv in H. destruct H as (at_ & g' & [A1 A2 A3 A4 A5 A6 A7 A8 _ _ _ _]).
  pose proof (zip_len _ _ _ _ A5) as (L1 & L2). pose proof (zip_len _ _ _ _ A7) as (L3 & L4).
  assert (J : (j < length (sParameters s))%nat) by (apply nth_error_Some; congruence).
  exists at_. split.
  - destruct (sNesterov c); [|exact A1]. eexists. split; [apply (zip_nth _ _ _ _ _ _ _ A1 Ep Em)|]. intros F. destruct (plus_fin _ _ F) as (F1 & F2 & V). destruct (mult_fin _ _ F2) as (_ & F3 & V2).
    pose proof (rnd_err (val p + val (dmult (sEta s) m))) as E1. rewrite <- V in E1. pose proof (rnd_err (val (sEta s) * val m)) as E2. rewrite <- V2 in E2.
    set (q := val (dplus _ _)) in *. set (y := val (dmult _ _)) in *. set (w := val (sEta s) * val m) in *. set (x := val p) in *.
    rewrite <- four_eps, <- eight_tiny. pose proof eps_pos as P1. pose proof eps_small as P2. pose proof tiny_pos as P3.
    pose proof (Rabs_pos x) as Px. pose proof (Rabs_pos w) as Pw. assert (B1 : Rabs (x + y) <= Rabs x + Rabs w + (eps * Rabs w + tiny)).
    { replace (x + y) with (x + w + (y - w)) by ring. pose proof (Rabs_triang (x + w) (y - w)). pose proof (Rabs_triang x w). lra. }
    replace (q - (x + w)) with ((q - (x + y)) + (y - w)) by ring. apply Rle_trans with (1 := Rabs_triang _ _). set (X := Rabs x) in *. set (W := Rabs w) in *.
    assert (Q1 : eps * Rabs (x + y) <= eps * (X + W + (eps * W + tiny))) by (apply Rmult_le_compat_l; lra).
    replace (eps * (X + W + (eps * W + tiny))) with (eps * X + eps * W + eps * (eps * W) + eps * tiny) in Q1 by ring.
    assert (Q2 : 0 <= eps * X) by (apply pos_prod; lra). assert (Q3 : 0 <= eps * W) by (apply pos_prod; lra).
    assert (Q4 : eps * (eps * W) <= / 8 * (eps * W)) by (apply Rmult_le_compat_r; lra). assert (Q5 : eps * tiny <= / 8 * tiny) by (apply Rmult_le_compat_r; lra).
    replace (4 * eps * (X + W)) with (4 * (eps * X) + 4 * (eps * W)) by ring. lra.
  - destruct (nth_ex g' j _ eq_refl) as (h & Eh); [lia|]. pose proof (zip_nth _ _ _ _ _ _ _ A5 Em Eh) as Em'. cbv beta in Em'. set (m' := dminus _ _) in Em'.
    assert (Fm' : finite m') by (apply unbroken_fin with (1 := A6); now apply nth_error_In in Em').
    pose proof (zip_nth _ _ _ _ _ _ _ A7 Ep Em') as Ep'. assert (Fp' : finite (dplus p m')) by (apply unbroken_fin with (1 := A8); now apply nth_error_In in Ep').
    destruct (minus_fin _ _ Fm') as (F1 & F2 & V). destruct (mult_fin _ _ F1) as (_ & Fm & V1). destruct (mult_fin _ _ F2) as (_ & Fh & V2). destruct (plus_fin _ _ Fp') as (Fp & _ & V3).
    assert (GK : exists g k, nth_error (answer at_) j = Some g /\ nth_error (sGains s') j = Some k /\ finite g /\ finite k /\ Rabs (val h - val g * val k) <= eps * Rabs (val g * val k) + tiny).
    { destruct (d_useGain c).
      - pose proof (zip_len _ _ _ _ A4) as (L5 & L6). destruct (nth_ex (answer at_) j _ eq_refl) as (g & Eg); [lia|]. destruct (nth_ex (sGains s') j _ eq_refl) as (k & Ek); [lia|].
        pose proof (zip_nth _ _ _ _ _ _ _ A4 Eg Ek) as Eh'. rewrite Eh' in Eh. inversion Eh; subst h. destruct (mult_fin _ _ Fh) as (Fg & Fk & V4). exists g, k. do 4 (split; [assumption|]). rewrite V4. apply rnd_err.
      - subst g'. destruct (nth_ex (sGains s) j _ eq_refl) as (k & Ek); [lia|]. exists h, k. rewrite A3. do 2 (split; [assumption|]). rewrite (HG eq_refl k) by now apply nth_error_In in Ek.
        destruct one_ok as (Fo & Vo). do 2 (split; [assumption|]). rewrite Vo, Rmult_1_r, Rminus_diag_eq, Rabs_R0 by reflexivity. pose proof eps_pos. pose proof tiny_pos. pose proof (Rabs_pos (val h)). nra. }
    destruct GK as (g & k & Eg & Ek & Fg & Fk & E2). exists g, k, m', (dplus p m'). do 8 (split; [assumption|]). split.
    + rewrite <- four_eps, <- eight_tiny. apply momentum_err with (x1 := val (dmult (sEta s) m)) (x2 := val h) (x3 := val (dmult (sAlpha s) h)) (al := val (sAlpha s)) (gk := val g * val k); auto.
      * rewrite V1. apply rnd_err.
      * rewrite V2. apply rnd_err.
      * fold m' in V. rewrite V. apply rnd_err.
    + rewrite V3, <- tiny_pow. apply rnd_err.
Qed.

(** ** No overflow *)
Lemma scaled a n : (0 <= a < 2 ^ 53)%Z -> (n <= 960)%nat -> exists d, finite d /\ val d = IZR a * 2 ^ n.
Proof.
  intros Ha Hn. exists (double_of (IZR a * 2 ^ n)). apply double_of_fmt.
  - assert (Pa : 0 <= IZR a) by (apply IZR_le; lia). assert (Pn : 0 < 2 ^ n) by (apply pow_lt; lra). rewrite Rabs_pos_eq by nra. unfold maxDouble.
    apply Rle_trans with (2 ^ 53 * 2 ^ 960).
    + apply Rmult_le_compat; try lra; [|apply Rle_pow; [lra|lia]]. rewrite pow_IZR. apply IZR_le. change (2 ^ Z.of_nat 53)%Z with (2 ^ 53)%Z. lia.
    + rewrite <- pow_add. change (53 + 960)%nat with 1013%nat. replace (2 ^ 1024) with (2 * 2 ^ 1023) by (change (2 ^ 1024) with (2 * 2 ^ 1023); reflexivity).
      assert (2 ^ 1013 <= 2 ^ 1023) by (apply Rle_pow; [lra|lia]). assert (2 ^ 971 <= 2 ^ 1023) by (apply Rle_pow; [lra|lia]). lra.
  - apply (generic_format_FLT radix2 (-1074) 53). apply (FLT_spec radix2 (-1074) 53 _ (Float radix2 a (Z.of_nat n))); cbn [Fnum Fexp]; [|rewrite Z.abs_eq by lia; exact (proj2 Ha)|lia].
    unfold F2R. cbn [Fnum Fexp]. now rewrite bpow_pow.
Qed.
Lemma faithful_abs y r d : faithful y r -> finite d -> Rabs r <= val d -> Rabs (val y) <= val d.
Proof.
  intros F Fd H. apply Rabs_le_inv in H. destruct (opp_ok d Fd) as (Fo & Vo). apply Rabs_le. rewrite <- Vo. apply (faithful_range y r _ _ F Fo Fd). rewrite Vo. exact H.
Qed.
Lemma val_max d : finite d -> val d <= maxDouble.
Proof.
  intros _.
  unfold val. apply Rle_trans with (1 := Rle_abs _). pose proof (abs_B2R_le_emax_minus_prec 53 1024 _ d) as H. unfold maxDouble. change 1024%Z with (Z.of_nat 1024) in H. change (Z.of_nat 1024 - 53)%Z with (Z.of_nat 971) in H. rewrite !bpow_pow in H. exact H.
Qed.
(** a double stays a bound *)
Lemma plus_bnd x y d : finite x -> finite y -> finite d -> Rabs (val x) + Rabs (val y) <= val d -> finite (dplus x y) /\ Rabs (val (dplus x y)) <= val d.
Proof.
  intros Fx Fy Fd H. assert (B : Rabs (val x + val y) <= val d) by (apply Rle_trans with (1 := Rabs_triang _ _); lra). pose proof (val_max d Fd).
  assert (F : faithful (dplus x y) (val x + val y)) by (apply plus_ok; auto; lra). split; [apply F|]. apply faithful_abs with (1 := F); auto.
Qed.
Lemma minus_bnd x y d : finite x -> finite y -> finite d -> Rabs (val x) + Rabs (val y) <= val d -> finite (dminus x y) /\ Rabs (val (dminus x y)) <= val d.
Proof.
  intros Fx Fy Fd H. assert (B : Rabs (val x - val y) <= val d) by (unfold Rminus; apply Rle_trans with (1 := Rabs_triang _ _); rewrite Rabs_Ropp; lra). pose proof (val_max d Fd).
  assert (F : faithful (dminus x y) (val x - val y)) by (apply minus_ok; auto; lra). split; [apply F|]. apply faithful_abs with (1 := F); auto.
Qed.
Lemma mult_bnd x y d : finite x -> finite y -> finite d -> Rabs (val x * val y) <= val d -> finite (dmult x y) /\ Rabs (val (dmult x y)) <= val d.
Proof.
  intros Fx Fy Fd H. pose proof (val_max d Fd). assert (F : faithful (dmult x y) (val x * val y)) by (apply mult_ok; auto; lra). split; [apply F|]. apply faithful_abs with (1 := F); auto.
Qed.
Lemma mult_unit x y d : within 0 1 x -> finite y -> finite d -> Rabs (val y) <= val d -> finite (dmult x y) /\ Rabs (val (dmult x y)) <= val d.
Proof.
  intros (Fx & Bx) Fy Fd H. apply mult_bnd; auto. rewrite Rabs_mult, (Rabs_pos_eq (val x)) by lra. pose proof (Rabs_pos (val y)). nra.
Qed.
Lemma zip_total f a b : length a = length b -> exists l, zip f a b = Ok l.
Proof. intros E. eexists. apply zip_ok. split; [exact E|reflexivity]. Qed.

Section Overflow.
Variables (c : dsgd) (G : R) (P : nat).
Hypothesis decay : withinL 0 1 (sDecay c).
Hypothesis minRate : within 0 1 (sMinAlpha c).
Hypothesis momGain : withinR 0 1 (sEtaGain c).
Hypothesis maxMom : within 0 1 (sMaxEta c).
Hypothesis gainBounds : finite (sMinGain c) /\ finite (sMaxGain c) /\ 0 <= val (sMinGain c) <= val (sMaxGain c).
Hypothesis G_pos : 0 <= G.
Hypothesis G_small : G * Rmax 1 (val (sMaxGain c)) <= 2 ^ 900.
Let wellBehaved (answer : list double -> list double) : Prop :=
  forall at_, length at_ = P -> (forall x, In x at_ -> finite x) -> length (answer at_) = P /\ bounded G (answer at_).

Record boundInv (k : nat) (s : dstate) : Prop := mkBoundInv {
  b_alpha : within 0 1 (sAlpha s);
  b_eta : within 0 1 (sEta s);
  b_sizes : sizes s;
  b_P : length (sParameters s) = P;
  b_par : bounded (INR (k * k + 1) * 2 ^ 900) (sParameters s);
  b_mom : bounded (INR k * 2 ^ 900) (sMomentum s) }.

Lemma bound_step k s answer : boundInv k s -> (Z.of_nat k < 2 ^ 26)%Z -> wellBehaved answer -> exists s', d_round c answer s = Ok s' /\ boundInv (S k) s'.
Proof.
  intros [Ia Ie (S1 & S2) HP Bp Bm] Hk2 W.
  assert (D : forall n, (Z.of_nat n < 2 ^ 53)%Z -> exists d, finite d /\ val d = INR n * 2 ^ 900).
  { intros n Hn. rewrite INR_IZR_INZ. apply scaled; lia. }
  destruct (D k) as (dk & Fk & Vk); [lia|]. destruct (D (S k)) as (dk1 & Fk1 & Vk1); [lia|]. destruct (D 1%nat) as (d1 & F1 & V1); [lia|].
  destruct (D (S k * S k + 1)%nat) as (dp & Fp & Vp); [nia|]. cbn [INR] in V1. rewrite Rmult_1_l in V1.
  set (N := 2 ^ 900) in *. assert (PN : 0 < N) by (apply pow_lt; lra).
  assert (Ipp : INR (k * k + 1) * N + INR (S k) * N <= INR (S k * S k + 1) * N).
  { rewrite <- Rmult_plus_distr_r, <- plus_INR. apply Rmult_le_compat_r; [lra|]. apply le_INR. nia. }
  assert (Ipm : INR (S k) * N = INR k * N + N) by (rewrite S_INR; ring).
  (* where the gradient is computed *)
  assert (At : exists at_, (if sNesterov c then zip (fun p m => dplus p (dmult (sEta s) m)) (sParameters s) (sMomentum s) = Ok at_ else at_ = sParameters s) /\ length at_ = P /\ forall x, In x at_ -> finite x).
  { destruct (sNesterov c).
    - destruct (zip_total (fun p m => dplus p (dmult (sEta s) m)) (sParameters s) (sMomentum s)) as (l & El); [lia|]. exists l. split; [exact El|]. split; [apply zip_len in El; lia|].
      intros x I. destruct (zip_in _ _ _ _ _ El I) as (p & m & Ip & Im & ->). destruct (Bp p Ip) as (Fpp & Bpp). destruct (Bm m Im) as (Fmm & Bmm).
      destruct (mult_unit (sEta s) m dk Ie Fmm Fk) as (F3 & B3); [lra|]. apply (plus_bnd _ _ dp); auto. lra.
    - eexists. split; [reflexivity|]. split; [exact HP|]. intros x I. apply (Bp x I). }
  destruct At as (at_ & A1 & LA & FA). destruct (W at_ LA FA) as (LG & BG).
  assert (A2 : d_unbroken (answer at_) = true) by (apply unbroken_of; intros x I; apply (BG x I)).
  destruct gainBounds as (Fg1 & Fg2 & Bg). pose proof (Rmax_l 1 (val (sMaxGain c))) as M1. pose proof (Rmax_r 1 (val (sMaxGain c))) as M2.
  (* the gains and the scaled gradient *)
  assert (Gn : exists gns g', (if d_useGain c then exists mg, zip dmult (sMomentum s) (answer at_) = Ok mg /\ zip (d_gain c) mg (sGains s) = Ok gns else gns = sGains s) /\
     (if d_useGain c then zip dmult (answer at_) gns = Ok g' else g' = answer at_) /\ length gns = P /\ length g' = P /\ bounded N g').
  { destruct (d_useGain c).
    - destruct (zip_total dmult (sMomentum s) (answer at_)) as (mg & Em); [lia|]. pose proof (zip_len _ _ _ _ Em) as (_ & L1). destruct (zip_total (d_gain c) mg (sGains s)) as (gns & Eg); [lia|]. pose proof (zip_len _ _ _ _ Eg) as (_ & L2).
      destruct (zip_total dmult (answer at_) gns) as (g' & Eg'); [lia|]. pose proof (zip_len _ _ _ _ Eg') as (_ & L3). exists gns, g'. split; [exists mg; auto|]. split; [exact Eg'|]. split; [lia|]. split; [lia|].
      intros x I. destruct (zip_in _ _ _ _ _ Eg' I) as (g & q & Ig & Iq & ->). destruct (zip_in _ _ _ _ _ Eg Iq) as (u & v & _ & _ & ->). destruct (BG g Ig) as (Fg & Bgg).
      destruct (clamp_ok (sMinGain c) (sMaxGain c) (if dleb (dint 0) u then dplus v (literal 5 2) else dmult v (literal 95 2)) Fg1 Fg2) as (Fq & Bq); [lra|]. fold (d_gain c u v) in Fq, Bq. rewrite <- V1. apply mult_bnd; auto.
      rewrite V1, Rabs_mult, (Rabs_pos_eq (val (d_gain c u v))) by lra. apply Rle_trans with (2 := G_small). apply Rmult_le_compat; [apply Rabs_pos|lra|lra|lra].
    - eexists _, _. split; [reflexivity|]. split; [reflexivity|]. split; [lia|]. split; [exact LG|]. intros x I. destruct (BG x I) as (Fx & Bx). split; auto. apply Rle_trans with (1 := Bx). apply Rle_trans with (2 := G_small). nra. }
  destruct Gn as (gns & g' & A3 & A4 & LN & LG' & BG').
  destruct (zip_total (fun m g => dminus (dmult (sEta s) m) (dmult (sAlpha s) g)) (sMomentum s) g') as (m' & A5); [lia|]. pose proof (zip_len _ _ _ _ A5) as (_ & L5).
  assert (Bm' : bounded (INR (S k) * N) m').
  { intros x I. destruct (zip_in _ _ _ _ _ A5 I) as (m & g & Im & Ig & ->). destruct (Bm m Im) as (Fm & Bmm). destruct (BG' g Ig) as (Fg & Bgg).
    destruct (mult_unit (sEta s) m dk Ie Fm Fk) as (F3 & B3); [lra|]. destruct (mult_unit (sAlpha s) g d1 Ia Fg F1) as (F4 & B4); [lra|]. rewrite <- Vk1. apply minus_bnd; auto. lra. }
  destruct (zip_total dplus (sParameters s) m') as (p' & A7); [lia|]. pose proof (zip_len _ _ _ _ A7) as (_ & L7).
  assert (Bp' : bounded (INR (S k * S k + 1) * N) p').
  { intros x I. destruct (zip_in _ _ _ _ _ A7 I) as (p & m & Ip & Im & ->). destruct (Bp p Ip) as (F3 & B3). destruct (Bm' m Im) as (F4 & B4). rewrite <- Vp. apply plus_bnd; auto. lra. }
  assert (args : documentedArguments (dint 1) (dint 0) 1 (sDecay c) (sMinAlpha c) (sEtaGain c) (sMaxEta c)).
  { destruct zero_ok as (Fz & Vz), one_ok as (Fo & Vo). repeat split; auto; try lra; try lia; try apply decay; try apply minRate; try apply momGain; try apply maxMom. }
  destruct (alpha_next _ _ _ _ _ _ _ args _ Ia) as (Fa & Ba & _). destruct (eta_next _ _ _ _ _ _ _ args _ Ie) as (Fe & Be & _).
  set (s' := mkDstate (dmax (dmult (sAlpha s) (sDecay c)) (sMinAlpha c)) (dmin (dplus (sEta s) (sEtaGain c)) (sMaxEta c)) p' m' gns).
  exists s'. split.
  - assert (U1 : d_unbroken m' = true) by (apply unbroken_of; intros x I; apply (Bm' x I)). assert (U2 : d_unbroken p' = true) by (apply unbroken_of; intros x I; apply (Bp' x I)).
    apply round_of with at_ g'. constructor; try assumption; reflexivity.
  - destruct minRate as (_ & R1), maxMom as (_ & R2). constructor; cbn [s' sAlpha sEta sParameters sMomentum sGains]; auto.
    + split; [exact Fa|lra].
    + split; [exact Fe|lra].
    + unfold sizes. cbn [s' sParameters sMomentum sGains]. lia.
    + lia.
Qed.
Lemma bound_rounds answers : forall k s, boundInv k s -> (Z.of_nat (k + length answers) <= 2 ^ 26)%Z -> (forall a, In a answers -> wellBehaved a) ->
  exists s', d_rounds c answers s = Ok s' /\ boundInv (k + length answers) s'.
Proof.
  induction answers as [|a l IH]; intros k s I L W.
  - exists s. split; [reflexivity|]. cbn [length]. now rewrite Nat.add_0_r.
  - cbn [length] in *. destruct (bound_step k s a) as (s1 & E & I1); [auto|lia|apply W; now left|]. destruct (IH (S k) s1) as (s2 & E2 & I2); [auto|lia|intros; apply W; now right|].
    exists s2. split; [cbn [d_rounds]; rewrite E; exact E2|]. now rewrite <- plus_n_Sm.
Qed.
Lemma bound_start a e p : within 0 1 a -> within 0 1 e -> length p = P -> bounded (2 ^ 900) p -> boundInv 0 (d_start a e p).
Proof.
  intros Ha He HP Hp. constructor; cbn [d_start sAlpha sEta sParameters sMomentum]; auto.
  - apply sizes_start.
  - cbn [Nat.mul Nat.add INR]. rewrite Rmult_1_l. exact Hp.
  - intros x I. apply repeat_spec in I. subst x. destruct zero_ok as (Fz & Vz). split; [exact Fz|]. rewrite Vz, Rabs_R0. cbn [INR]. lra.
Qed.
End Overflow.

(** ** The learning rate and zero *)
Lemma mult_nearest x y : finite (dmult x y) -> nearest (dmult x y) (val x * val y).
Proof.
  intros F. split; [exact F|]. intros d Fd. destruct (mult_fin _ _ F) as (_ & _ & V). rewrite V. pose proof (round_N_pt radix2 fexp64 (fun x => negb (Z.even x)) (val x * val y)) as (_ & N). apply N, val_fmt.
Qed.
Definition least : double := @B754_finite 53 1024 false 1 (-1074) eq_refl.
Lemma least_val : val least = tiny.
Proof. unfold val, least, B2R, F2R. cbn [Fnum Fexp cond_Zopp]. unfold tiny. ring. Qed.
Lemma least_le x : 0 < val x -> tiny <= val x.
Proof. intros H. apply (generic_format_ge_bpow radix2 fexp64); [intros e; unfold fexp64, SpecFloat.fexp, SpecFloat.emin; lia|exact H|apply val_fmt]. Qed.
Lemma alpha_stays a de : within 0 1 a -> 0 < val a -> withinL 0 1 de -> / 2 < val de -> 0 < val (dmult a de).
Proof.
  intros (Fa & Ba) Pa (Fd & Bd) Hd.
  assert (P : faithful (dmult a de) (val a * val de)). { apply mult_ok; auto. apply small_max. rewrite Rabs_pos_eq by nra. apply Rle_trans with (2 ^ 0); [cbn; nra|]. apply Rle_pow; [lra|lia]. }
  pose proof (least_le a Pa) as La. pose proof tiny_pos as PT. destruct (Rle_lt_dec tiny (val a * val de)) as [L|L].
  - apply Rlt_le_trans with (1 := PT). rewrite <- least_val. destruct P as (_ & P). apply (P least eq_refl). rewrite least_val. exact L.
  - destruct (mult_nearest a de (proj1 P)) as (_ & N). specialize (N least eq_refl). rewrite least_val, (Rabs_pos_eq (tiny - _)) in N by lra. apply Rabs_le_inv in N.
    assert (tiny * / 2 < val a * val de) by nra. lra.
Qed.
Definition half : double := @B754_finite 53 1024 false 4503599627370496 (-53) eq_refl.
Lemma half_val : val half = / 2.
Proof.
  unfold val, half, B2R, F2R. cbn [Fnum Fexp cond_Zopp]. change (bpow radix2 (-53)) with (/ IZR (2 ^ 53)). assert (IZR (2 ^ 53) <> 0) by (apply not_0_IZR; discriminate).
  apply Rmult_eq_reg_r with (IZR (2 ^ 53)); auto. rewrite Rmult_assoc, Rinv_l by auto. change (2 ^ 53)%Z with (2 * 4503599627370496)%Z. rewrite mult_IZR. field.
Qed.
Lemma half_least : rnd (tiny * / 2) = 0.
Proof.
  assert (F : finite (dmult least half)) by reflexivity. destruct (mult_fin _ _ F) as (_ & _ & V). rewrite least_val, half_val in V. rewrite <- V. unfold val. rewrite <- SF2R_B2SF. set (s := B2SF _). vm_compute in s. subst s. reflexivity.
Qed.
Lemma inv_pow_double k : (k <= 1074)%nat -> exists d, finite d /\ val d = / 2 ^ k.
Proof.
  intros H. exists (double_of (/ 2 ^ k)). assert (B : 0 < / 2 ^ k <= 1). { split; [apply Rinv_0_lt_compat, pow_lt; lra|]. rewrite <- Rinv_1. apply Rinv_le_contravar; [lra|]. apply pow_R1_Rle. lra. }
  apply double_of_fmt.
  - apply small_max. rewrite Rabs_pos_eq by lra. apply Rle_trans with (2 ^ 0); [cbn; lra|]. apply Rle_pow; [lra|lia].
  - rewrite <- bpow_pow, <- bpow_opp. apply (generic_format_bpow radix2 (FLT_exp (-1074) 53)). unfold FLT_exp. lia.
Qed.
Lemma alpha_halves a de k : within 0 1 a -> withinL 0 1 de -> val de <= / 2 -> val a <= / 2 ^ k ->
  ((k < 1074)%nat -> val (dmult a de) <= / 2 ^ S k) /\ ((1074 <= k)%nat -> val (dmult a de) <= 0).
Proof.
  intros (Fa & Ba) (Fd & Bd) Hd Hk.
  assert (P : faithful (dmult a de) (val a * val de)). { apply mult_ok; auto. apply small_max. rewrite Rabs_pos_eq by nra. apply Rle_trans with (2 ^ 0); [cbn; nra|]. apply Rle_pow; [lra|lia]. }
  split; intros L.
  - destruct (inv_pow_double (S k) L) as (d & F & V). rewrite <- V. destruct P as (_ & P). apply (P d F). rewrite V. cbn [pow]. rewrite Rinv_mult. nra.
  - destruct (mult_fin _ _ (proj1 P)) as (_ & _ & V). rewrite V, <- half_least. apply round_le; try exact _. rewrite tiny_pow.
    assert (Q : / 2 ^ k <= / 2 ^ 1074). { apply Rinv_le_contravar; [apply pow_lt; lra|]. apply Rle_pow; [lra|exact L]. } nra.
Qed.

(** ** The rule for the gains *)
Lemma literal_ok a k : (0 <= a <= 2 ^ 53)%Z -> (10 ^ Zpos k <= 2 ^ 53)%Z -> (a <= 10 ^ Zpos k)%Z ->
  finite (literal a k) /\ 0 <= val (literal a k) <= 1 /\ Rabs (val (literal a k) - IZR a / IZR (10 ^ Zpos k)) <= eps + tiny.
Proof.
  intros Ha Hk Hl. assert (K : (0 < 10 ^ Zpos k)%Z) by (apply Z.pow_pos_nonneg; lia).
  assert (Q : nearest (literal a k) (IZR a / IZR (10 ^ Zpos k))) by (apply quotient_nearest; lia). split; [apply Q|]. split; [apply (nearest_unit _ _ _ (conj (proj1 Ha) Hl) K Q)|].
  assert (B : 0 <= IZR a / IZR (10 ^ Zpos k) <= 1).
  { apply IZR_lt in K. assert (0 <= IZR a) by (apply IZR_le; lia). apply IZR_le in Hl. split; [unfold Rdiv; apply Rmult_le_pos; [lra|]; left; now apply Rinv_0_lt_compat|].
    apply Rmult_le_reg_r with (IZR (10 ^ Zpos k)); auto. unfold Rdiv. rewrite Rmult_assoc, Rinv_l by lra. lra. }
  set (x := IZR a / IZR (10 ^ Zpos k)) in *. clearbody x.
  assert (M : Rabs x <= maxDouble). { apply small_max. rewrite Rabs_pos_eq by lra. apply Rle_trans with (2 ^ 0); [cbn; lra|]. apply Rle_pow; [lra|lia]. }
  apply Rle_trans with (1 := nearest_err _ _ Q M). rewrite Rabs_pos_eq by lra. pose proof eps_pos. assert (eps * x <= eps * 1) by (apply Rmult_le_compat_l; lra). lra.
Qed.
Lemma clamp_val lo hi x : finite lo -> finite hi -> finite x -> val (dmin hi (dmax lo x)) = Rmin (val hi) (Rmax (val lo) (val x)).
Proof. intros Fl Fh Fx. destruct (dmax_ok lo x Fl Fx) as (F & V). destruct (dmin_ok hi (dmax lo x) Fh F) as (_ & ->). now rewrite V. Qed.
Lemma clamp_dist lo hi x y : Rabs (Rmin hi (Rmax lo x) - Rmin hi (Rmax lo y)) <= Rabs (x - y).
Proof. rewrite (Rmin_comm hi (Rmax lo x)), (Rmin_comm hi (Rmax lo y)), (Rmax_comm lo x), (Rmax_comm lo y). apply Rle_trans with (1 := Rmin_dist _ _ _), Rmax_dist. Qed.
Lemma small_pow r : Rabs r <= 2 ^ 90 -> Rabs r <= maxDouble.
Proof. intros H. apply small_max. apply Rle_trans with (1 := H). apply Rle_pow; [lra|lia]. Qed.
Lemma eps_tiny_51 : 4 * eps + 4 * tiny <= / 2 ^ 49.
Proof.
  pose proof eps_tiny as E. assert (X : / 2 ^ 49 = 4 * / 2 ^ 51) by (replace (2 ^ 51) with (4 * 2 ^ 49) by ring; field). assert (0 < / 2 ^ 51) by (apply Rinv_0_lt_compat, pow_lt; lra). lra.
Qed.
Lemma gain_up k : finite k -> Rabs (val k) <= 2 ^ 80 ->
  finite (dplus k (literal 5 2)) /\ Rabs (val (dplus k (literal 5 2)) - (val k + 5 / 100)) <= / 2 ^ 49 * (1 + Rabs (val k)).
Proof.
  intros Fk Bk. destruct (literal_ok 5 2) as (Fl & Bl & El); try lia. change (10 ^ 2)%Z with 100%Z in El. set (l := literal 5 2) in *. set (K := Rabs (val k)) in *.
  assert (B2 : Rabs (val k + val l) <= 1 + K). { apply Rle_trans with (1 := Rabs_triang _ _). fold K. rewrite (Rabs_pos_eq (val l)) by lra. lra. }
  assert (M : Rabs (val k + val l) <= maxDouble). { apply small_pow. apply Rle_trans with (1 := B2). assert (1 <= 2 ^ 80) by (apply pow_R1_Rle; lra). assert (2 ^ 90 = 1024 * 2 ^ 80) by ring. lra. }
  pose proof (plus_ok k l Fk Fl M) as P. split; [apply P|]. pose proof (faithful_err _ _ P M) as E. pose proof eps_pos as P1. pose proof tiny_pos as P2. pose proof eps_tiny_51 as P3. assert (PK : 0 <= K) by apply Rabs_pos.
  replace (val (dplus k l) - (val k + 5 / 100)) with ((val (dplus k l) - (val k + val l)) + (val l - 5 / 100)) by ring. apply Rle_trans with (1 := Rabs_triang _ _).
  assert (E2 : eps * Rabs (val k + val l) <= eps * (1 + K)) by (apply Rmult_le_compat_l; lra).
  apply Rle_trans with ((4 * eps + 4 * tiny) * (1 + K)); [|apply Rmult_le_compat_r; lra].
  assert (0 <= eps * K) by (apply pos_prod; lra). assert (0 <= tiny * K) by (apply pos_prod; lra). lra.
Qed.
Lemma gain_down k : finite k -> Rabs (val k) <= 2 ^ 80 ->
  finite (dmult k (literal 95 2)) /\ Rabs (val (dmult k (literal 95 2)) - val k * (95 / 100)) <= / 2 ^ 49 * (1 + Rabs (val k)).
Proof.
  intros Fk Bk. destruct (literal_ok 95 2) as (Fl & Bl & El); try lia. change (10 ^ 2)%Z with 100%Z in El. set (l := literal 95 2) in *. set (K := Rabs (val k)) in *. assert (PK : 0 <= K) by apply Rabs_pos.
  assert (B2 : Rabs (val k * val l) <= K). { rewrite Rabs_mult. fold K. rewrite (Rabs_pos_eq (val l)) by lra. nra. }
  assert (M : Rabs (val k * val l) <= maxDouble). { apply small_pow. apply Rle_trans with (1 := B2). assert (1 <= 2 ^ 80) by (apply pow_R1_Rle; lra). assert (2 ^ 90 = 1024 * 2 ^ 80) by ring. lra. }
  pose proof (mult_ok k l Fk Fl M) as P. split; [apply P|]. pose proof (faithful_err _ _ P M) as E. pose proof eps_pos as P1. pose proof tiny_pos as P2. pose proof eps_tiny_51 as P3.
  replace (val (dmult k l) - val k * (95 / 100)) with ((val (dmult k l) - val k * val l) + val k * (val l - 95 / 100)) by ring. apply Rle_trans with (1 := Rabs_triang _ _). rewrite (Rabs_mult (val k)). fold K.
  assert (E2 : eps * Rabs (val k * val l) <= eps * K) by (apply Rmult_le_compat_l; lra). assert (E3 : K * Rabs (val l - 95 / 100) <= K * (eps + tiny)) by (apply Rmult_le_compat_l; lra).
  apply Rle_trans with ((4 * eps + 4 * tiny) * (1 + K)); [|apply Rmult_le_compat_r; lra].
  assert (0 <= eps * K) by (apply pos_prod; lra). assert (0 <= tiny * K) by (apply pos_prod; lra). lra.
Qed.
(** the sign of the product, also if it overflows *)
Lemma product_sign m g : finite m -> finite g ->
  (0 <= val m * val g -> dleb (dint 0) (dmult m g) = true) /\ (val m * val g < - / 2 ^ 1074 -> dleb (dint 0) (dmult m g) = false).
Proof.
  intros Fm Fg. destruct zero_ok as (F0 & V0). destruct (is_finite (dmult m g)) eqn:F.
  - destruct (mult_fin m g F) as (_ & _ & V). assert (R0 : rnd 0 = 0) by (apply round_0; exact _). split; intros H.
    + apply leb_ok; auto. rewrite V0, V, <- R0. apply round_le; try exact _. exact H.
    + apply leb_false; auto. rewrite V0, V. rewrite <- tiny_pow in H. pose proof tiny_pos.
      assert (G : generic_format radix2 fexp64 (- tiny)). { apply generic_format_opp. unfold tiny. apply (generic_format_bpow radix2 (FLT_exp (-1074) 53)). unfold FLT_exp. lia. }
      apply Rle_lt_trans with (- tiny); [|lra]. apply round_le_generic; try exact _; auto. lra.
  - pose proof (Bmult_correct 53 1024 _ _ mode_NE m g) as C. fold (dmult m g) in C. destruct (Rlt_bool _ _).
    + destruct C as (_ & C & _). red in Fm, Fg. rewrite F, Fm, Fg in C. discriminate.
    + assert (E : dmult m g = B754_infinity (xorb (Bsign m) (Bsign g))). { apply B2SF_inj. rewrite C. reflexivity. }
      rewrite E. assert (S : forall x, finite x -> (Bsign x = true -> val x <= 0) /\ (Bsign x = false -> 0 <= val x)).
      { intros [s|s| |s mm e b] Fx; try discriminate Fx; unfold val; cbn; split; try lra; intros ->; cbn; [apply F2R_le_0|apply F2R_ge_0]; cbn; lia. }
      destruct (S m Fm) as (M1 & M2), (S g Fg) as (G1 & G2). destruct (Bsign m), (Bsign g); cbn [xorb]; split; intros H; try (vm_compute; reflexivity); exfalso;
      try specialize (M1 eq_refl); try specialize (M2 eq_refl); try specialize (G1 eq_refl); try specialize (G2 eq_refl).
      all: try (assert (0 <= val m * val g) by nra; assert (0 < / 2 ^ 1074) by (apply Rinv_0_lt_compat, pow_lt; lra); lra).
      all: assert (Z : val m * val g = 0) by nra; unfold dmult in F; apply Rmult_integral in Z; fold (dmult m g) in F;
           assert (Z2 : val m * val g = 0) by (destruct Z as [Z|Z]; rewrite Z; ring);
           assert (FF : faithful (dmult m g) (val m * val g)) by (apply mult_ok; auto; rewrite Z2, Rabs_R0; apply Rle_trans with (2 := max_big); apply pow_le; lra); destruct FF as (FF & _); red in FF; rewrite FF in F; discriminate.
Qed.
