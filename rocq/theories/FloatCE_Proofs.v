(** The gradient of the cross entropy in double precision. *)
From Coq Require Import Lra Lia Psatz.
From Flocq Require Import Core BinarySingleNaN.
From Verif Require Import Base BaseFacts Deriv Activation_Model Float_Model Float_Spec Float_Proofs FloatAct_Proofs FloatSoft_Proofs FloatNet_Model FloatNet_Spec FloatNet_Proofs FloatGrad_Model FloatGrad_Spec FloatGradReal_Proofs FloatGrad_Proofs.
Local Open Scope R_scope.
Opaque eps tiny maxDouble literal dint.

(** * The exact derivatives *)
Definition ceError (y t : list R) : list R := map (fun p => total t * fst p - snd p) (combine (softmaxOf y) t).
Lemma total_cons a l : total (a :: l) = a + total l. Proof. reflexivity. Qed.
Lemma total_exp_pos l : l <> [] -> 0 < total (map exp l).
Proof.
  intros H. destruct l as [|a l]; [easy|]. cbn [map]. rewrite total_cons. pose proof (exp_pos a). assert (0 <= total (map exp l)); [|lra]. apply total_pos. intros x I. apply in_map_iff in I as (y & <- & _). left. apply exp_pos.
Qed.
Lemma ce_closed y t : length y = length t -> crossEntropyOf y t = ln (total (map exp y)) * total t - dotR t y.
Proof.
  intros L. destruct (list_eq_dec Req_EM_T y []) as [->|NE]. { destruct t; [|discriminate]. unfold crossEntropyOf, dotR, softmaxOf. cbn. ring. }
  pose proof (total_exp_pos y NE) as P. unfold crossEntropyOf, softmaxOf. set (S := total (map exp y)) in *. clearbody S. clear NE. revert t L. induction y as [|a y IH]; intros [|b t] L; try discriminate.
  - unfold dotR. cbn. ring.
  - cbn [map combine]. rewrite dotR_cons, !total_cons. cbn [fst snd]. unfold Rdiv at 1. rewrite ln_mult, ln_Rinv, ln_exp by (auto; try apply exp_pos; now apply Rinv_0_lt_compat). specialize (IH t ltac:(now injection L)). lra.
Qed.
Lemma D_total_exp cs v ds : moves cs v ds -> D (fun u => total (map exp (along cs u))) v (dotR (map exp (along cs v)) ds).
Proof.
  induction 1 as [|f d cs ds Hf H IH]; [exact (D_const 0 v)|]. cbn [along map]. rewrite dotR_cons. apply (D_plus (fun u => exp (f u))); [now apply D_exp|exact IH].
Qed.
Lemma ce_dot y t ds : length y = length t -> dotR (ceError y t) ds = total t * dotR (softmaxOf y) ds - dotR t ds.
Proof.
  unfold ceError. generalize (total t) as c. intros c L. assert (L' : length (softmaxOf y) = length t) by (unfold softmaxOf; now rewrite map_length). revert L'. generalize (softmaxOf y) as p. clear. intros p. revert t ds. induction p as [|a p IH]; intros [|b t] [|d ds] L; try discriminate; cbn [combine map]; rewrite ?dotR_nil_r; try (unfold dotR; cbn; ring).
  rewrite !dotR_cons. cbn [fst snd]. rewrite IH by (now injection L). ring.
Qed.
Lemma D_cross cs v ds t : length cs = length t -> moves cs v ds -> D (fun u => crossEntropyOf (along cs u) t) v (dotR (ceError (along cs v) t) ds).
Proof.
  intros L H. assert (LA : forall u, length (along cs u) = length t) by (intros u; unfold along; now rewrite map_length).
  apply (D_ext (fun u => ln (total (map exp (along cs u))) * total t - dotR t (along cs u))); [intros u; symmetry; now apply ce_closed|].
  rewrite ce_dot by auto. destruct cs as [|f cs].
  { destruct t; [|discriminate]. cbn [along map]. eapply D_eq; [|apply D_const]. unfold softmaxOf, dotR. cbn. ring. }
  set (cs' := f :: cs) in *. assert (NE : along cs' v <> []) by discriminate. pose proof (total_exp_pos _ NE) as P.
  eapply D_eq; [|apply (D_minus (fun u => ln (total (map exp (along cs' u))) * total t) (fun u => dotR t (along cs' u)) v (/ total (map exp (along cs' v)) * dotR (map exp (along cs' v)) ds * total t) (dotR t ds))].
  - unfold softmaxOf. set (q := along cs' v) in *. set (S := total (map exp q)) in *. clearbody S.
    assert (E : dotR (map (fun x => exp x / S) q) ds = / S * dotR (map exp q) ds). { rewrite <- dotR_scal. f_equal. apply map_ext. intros x. unfold Rdiv. ring. } rewrite E. ring.
  - apply (D_scal_r (total t) (fun u => ln (total (map exp (along cs' u))))). apply (D_ln (fun u => total (map exp (along cs' u)))); [now apply D_total_exp|exact P].
  - now apply D_dot.
Qed.

(** * The softmax of inaccurate numbers *)
Lemma exp_pair a b e : Rabs (a - b) <= e -> exp (- e) * exp b <= exp a <= exp e * exp b.
Proof. intros H. apply Rabs_le_inv in H. rewrite <- !exp_plus. split; apply exp_le; lra. Qed.
Lemma totals_pair e y r : Forall2 (fun a b => Rabs (a - b) <= e) y r -> exp (- e) * total (map exp r) <= total (map exp y) <= exp e * total (map exp r).
Proof.
  induction 1 as [|a b y r H F IH]; [unfold total; cbn; lra|]. cbn [map]. rewrite !total_cons. pose proof (exp_pair a b e H). lra.
Qed.
Lemma softmax_near e y r : 0 <= e <= 1 / 4 -> Forall2 (fun a b => Rabs (a - b) <= e) y r -> Forall2 (fun p q => Rabs (p - q) <= 4 * e /\ 0 <= q <= 1) (softmaxOf y) (softmaxOf r).
Proof.
  intros He F. pose proof (totals_pair e y r F) as T. unfold softmaxOf. destruct (list_eq_dec Req_EM_T r []) as [->|NE]; [inversion F; constructor|]. assert (NY : y <> []) by (destruct F; easy). pose proof (total_exp_pos r NE) as PR. pose proof (total_exp_pos y NY) as PY.
  assert (GE : forall b, In b r -> exp b <= total (map exp r)). { intros b J. apply total_ge; [|now apply in_map]. intros x K. apply in_map_iff in K as (z & <- & _). left. apply exp_pos. }
  set (SY := total (map exp y)) in *. set (SR := total (map exp r)) in *. clearbody SY SR. clear NE NY. apply Forall2_map_both. revert GE. induction F as [|a b y r H F IH]; intros GE; constructor; [|apply IH; intros c J; apply GE; now right].
  pose proof (exp_pair a b e H) as P. pose proof (GE b (or_introl eq_refl)) as GB. pose proof (exp_pos b) as EB. pose proof (exp_pos a) as EA. pose proof (exp_pos e) as EE. pose proof (exp_pos (- e)) as EM.
  assert (MM : exp e * exp (- e) = 1) by (rewrite <- exp_plus, Rplus_opp_r; apply exp_0). assert (Q : 0 <= exp b / SR <= 1). { split; [apply Rmult_le_pos; [lra|left; now apply Rinv_0_lt_compat]|]. apply Rmult_le_reg_r with SR; auto. unfold Rdiv. rewrite Rmult_assoc, Rinv_l by lra. lra. } split; [|exact Q].
  set (q := exp b / SR) in *. assert (UP : exp a / SY <= exp (2 * e) * q).
  { apply Rmult_le_reg_r with SY; auto. unfold Rdiv at 1. rewrite Rmult_assoc, Rinv_l, Rmult_1_r by lra. apply Rle_trans with (exp (2 * e) * q * (exp (- e) * SR)); [|apply Rmult_le_compat_l; [apply Rmult_le_pos; [left; apply exp_pos|lra]|lra]].
    replace (exp (2 * e)) with (exp e * exp e) by (rewrite <- exp_plus; f_equal; ring). unfold q. replace (exp e * exp e * (exp b / SR) * (exp (- e) * SR)) with ((exp e * exp (- e)) * (exp e * exp b)) by (field; lra). rewrite MM. lra. }
  assert (LO : exp (- (2 * e)) * q <= exp a / SY).
  { apply Rmult_le_reg_r with SY; auto. unfold Rdiv at 1. rewrite (Rmult_assoc (exp a)), Rinv_l, Rmult_1_r by lra. apply Rle_trans with (exp (- (2 * e)) * q * (exp e * SR)); [apply Rmult_le_compat_l; [apply Rmult_le_pos; [left; apply exp_pos|lra]|lra]|].
    replace (exp (- (2 * e))) with (exp (- e) * exp (- e)) by (rewrite <- exp_plus; f_equal; ring). unfold q. replace (exp (- e) * exp (- e) * (exp b / SR) * (exp e * SR)) with ((exp e * exp (- e)) * (exp (- e) * exp b)) by (field; lra). rewrite MM. lra. }
  pose proof (exp_1 (2 * e) (2 * e) ltac:(rewrite Rabs_pos_eq; lra) ltac:(lra)) as E1. pose proof (exp_1 (- (2 * e)) (2 * e) ltac:(rewrite Rabs_Ropp, Rabs_pos_eq; lra) ltac:(lra)) as E2. apply Rabs_le_inv in E1, E2. assert (U1 : (exp (2 * e) - 1) * q <= 4 * e * 1) by (apply Rmult_le_compat; try lra; pose proof (exp_ineq1_le (2 * e)); lra).
  assert (U2 : (1 - exp (- (2 * e))) * q <= 4 * e * 1). { apply Rmult_le_compat; try lra. assert (exp (- (2 * e)) <= exp 0) by (apply exp_le; lra). rewrite exp_0 in *. lra. } apply Rabs_le. lra.
Qed.
Lemma Forall2_by_nth {T U} (P : T -> U -> Prop) l k : length l = length k -> (forall j a b, nth_error l j = Some a -> nth_error k j = Some b -> P a b) -> Forall2 P l k.
Proof. revert k. induction l as [|a l IH]; intros [|b k] L H; try discriminate; constructor; [now apply (H 0%nat)|]. apply IH; [now injection L|]. intros j. apply (H (S j)). Qed.
Lemma Forall2_at {T U} (P : T -> U -> Prop) l k j a b : Forall2 P l k -> nth_error l j = Some a -> nth_error k j = Some b -> P a b.
Proof. intros H. revert j. induction H as [|x y l k Q H IH]; intros [|j] E1 E2; try discriminate; [injection E1 as ->; now injection E2 as ->|eauto]. Qed.
(** the computed differences *)
Lemma ce_near M e tau delta r out yr t : let g := 1.01 * (1 + delta + tau) in let h := 4 * e + INR (length r) / 2 ^ 36 + delta + (1 + tau) / 2 ^ 52 in
  0 <= e <= 1 / 4 -> 0 <= tau -> 0 <= delta -> g <= 2 ^ 30 -> distribution r out -> Forall2 (near M e) r yr -> length t = length r -> (forall v, In v t -> finite v /\ Rabs (val v) <= tau) -> Rabs (total (map val t) - 1) <= delta ->
  Forall2 (near g h) (d_difference out t) (ceError yr (map val t)) /\ length (d_difference out t) = length r.
Proof.
  intros g h He Ht Hd Gb (LO & RO & _ & AO) F LT WT ST. pose proof (Forall2_length _ _ F) as LR. split; [|unfold d_difference; rewrite map_length, combine_length; lia].
  assert (SN : Forall2 (fun p q => Rabs (p - q) <= 4 * e /\ 0 <= q <= 1) (softmaxOf (map val r)) (softmaxOf yr)). { apply softmax_near; auto. replace yr with (map (fun x => x) yr) by apply map_id. apply Forall2_map_both. revert F. apply Forall2_imp. now intros a b (_ & _ & _ & Q). }
  unfold d_difference, ceError. set (s := total (map val t)) in *. pose proof eps_small as EP. apply Forall2_by_nth.
  { rewrite !map_length, !combine_length, map_length. unfold softmaxOf. rewrite map_length. lia. }
  intros j a b Ea Eb. rewrite nth_error_map in Ea, Eb. destruct (nth_error (combine out t) j) as [(o, v)|] eqn:Co; [|discriminate]. destruct (nth_error (combine (softmaxOf yr) (map val t)) j) as [(p, v')|] eqn:Cp; [|discriminate]. injection Ea as <-. injection Eb as <-. cbn [fst snd].
  assert (CC : forall A B (l : list A) (k : list B) j a b, nth_error (combine l k) j = Some (a, b) -> nth_error l j = Some a /\ nth_error k j = Some b). { clear. intros A B l. induction l as [|x l IH]; intros [|y k] [|j] a b H; try discriminate; [injection H as -> ->; auto|]. now apply IH in H. }
  apply CC in Co as (O1 & O2). apply CC in Cp as (P1 & P2). rewrite nth_error_map, O2 in P2. injection P2 as <-.
  destruct (RO o (nth_error_In _ _ O1)) as (Fo & Bo). destruct (WT v (nth_error_In _ _ O2)) as (Fv & Bv). assert (J : (j < length r)%nat) by (rewrite <- LO; apply nth_error_Some; congruence). destruct (nth_error r j) as [y|] eqn:Ey; [|apply nth_error_None in Ey; lia].
  pose proof (AO j y o Ey O1) as AC. assert (ES : nth_error (softmaxOf (map val r)) j = Some (exp (val y) / total (map (fun z => exp (val z)) r))) by (unfold softmaxOf; rewrite !nth_error_map, Ey, map_map; reflexivity).
  destruct (Forall2_at _ _ _ _ _ _ SN ES P1) as (Q1 & Q2). set (q := exp (val y) / _) in *. clearbody q.
  assert (B1 : Rabs (val o - val v) <= 1 + tau) by (apply Rabs_le_inv in Bv; apply Rabs_le; lra).
  assert (SP : Rabs ((s - 1) * p) <= delta) by (rewrite Rabs_mult, (Rabs_pos_eq p) by lra; apply Rle_trans with (delta * 1); [apply Rmult_le_compat; auto using Rabs_pos; lra|lra]).
  assert (SM : Rabs (val o - val v) <= maxDouble) by (apply small_max; unfold g in Gb; lra). pose proof (minus_rel o v Fo Fv SM) as E. assert (E2 : eps * Rabs (val o - val v) <= eps * (1 + tau)) by (apply Rmult_le_compat_l; lra). assert (E3 : eps * (1 + tau) <= 1 / 1000 * (1 + tau)) by (apply Rmult_le_compat_r; lra).
  replace (s * p - val v) with ((s - 1) * p + p - val v) by ring. set (sp := (s - 1) * p) in *. split; [apply (minus_ok o v Fo Fv SM)|]. split; [|split].
  - replace (val (dminus o v)) with ((val (dminus o v) - (val o - val v)) + (val o - val v)) by ring. apply Rle_trans with (1 := Rabs_triang _ _). unfold g. lra.
  - apply Rabs_le_inv in SP, Bv. unfold g. apply Rabs_le. lra.
  - unfold h. replace ((1 + tau) / 2 ^ 52) with (eps * (1 + tau)) by (rewrite eps_eq; field). apply Rabs_le_inv in E, AC, Q1, SP. apply Rabs_le. lra.
Qed.

(** * Batches *)
Lemma in_indexed {T} (l : list T) q p : In (q, p) (indexed l) -> nth_error l q = Some p.
Proof.
  unfold indexed. intros J. assert (G : forall s, In (q, p) (combine (seq s (length l)) l) -> (s <= q)%nat /\ nth_error l (q - s) = Some p); [|destruct (G 0%nat J) as (_ & E); now rewrite Nat.sub_0_r in E].
  clear J. induction l as [|a l IH]; intros s J; [destruct J|]. cbn [length seq combine] in J. destruct J as [[= -> ->]|J]; [rewrite Nat.sub_diag; auto|]. destruct (IH (S s) J) as (L & E). split; [lia|]. replace (q - s)%nat with (S (q - S s)) by lia. exact E.
Qed.
Lemma combine_at {T U} (l : list T) (k : list U) j a b : nth_error (combine l k) j = Some (a, b) -> nth_error l j = Some a /\ nth_error k j = Some b.
Proof. revert k j. induction l as [|x l IH]; intros [|y k] [|j] H; try discriminate; [injection H as -> ->; auto|]. now apply IH in H. Qed.
Section Batch.
Variable m : libm.
Hypothesis A : accurate m.
Variables (n : nat) (w Mg Dg tau delta x0 : R) (layers : list dlayer) (X T : list (list double)) (I : nat).
Variables (sf sb : nat -> nat -> nat -> list double -> double) (sw : nat -> nat -> nat -> list double -> double) (sd : nat -> nat -> list double -> double) (sum : list double -> double).
Hypothesis Sf : forall q k j, summation (sf q k j).
Hypothesis SS : summation sum.
Hypothesis Hn : (Z.of_nat n <= 2 ^ 30)%Z.
Hypothesis HN : (1 <= length X)%nat.
Hypothesis HO : (1 <= outputs I layers)%nat /\ (Z.of_nat (outputs I layers) <= 2 ^ 31)%Z.
Hypothesis Hw : 0 <= w.
Hypothesis Hx : 0 <= x0.
Hypothesis HM : Mg <= 350.
Hypothesis HD : Dg <= 1 / 4.
Hypothesis Ht : 0 <= tau.
Hypothesis Hd : 0 <= delta.
Hypothesis SH : wellShaped I layers.
Hypothesis WL : forall l, In l layers -> weightsBelow w l /\ forall r, In r (weightRows l) -> (length r <= n)%nat.
Hypothesis HX : forall x, In x X -> length x = I /\ forall v, In v x -> finite v /\ Rabs (val v) <= x0.
Hypothesis HY : forall t, In t T -> length t = outputs I layers /\ Rabs (total (map val t) - 1) <= delta /\ forall v, In v t -> finite v /\ Rabs (val v) <= tau.
Hypothesis MB : forall k, (k <= length layers)%nat -> magnitude (INR n) w x0 k <= Mg /\ deviation (INR n) w x0 0 k <= Dg.
Let g := 1.01 * (1 + delta + tau).
Let h := 4 * Dg + INR (outputs I layers) / 2 ^ 36 + delta + (1 + tau) / 2 ^ 52.
Hypothesis Gb : g <= 2 ^ 30.
Lemma exact_length ls : forall k xr, length xr = k -> wellShaped k ls -> length (exactNet ls xr) = outputs k ls.
Proof.
  induction ls as [|l ls IH]; intros k xr L S0; [exact L|]. change (length (exactNet ls (exactLayer l xr)) = outputs (length (weightRows l)) ls). destruct S0 as ((_ & T2) & S0). apply IH; auto. unfold exactLayer, biases. rewrite map_length, combine_length. destruct (biasVector l); rewrite map_length; lia.
Qed.
Lemma ce_rows : exists Y Z, d_net m (fun k q => sf q k) layers X = Ok Y /\ d_softmax m sum Y = Ok Z /\
  forall q x t, In (q, (x, t)) (indexed (combine X T)) -> exists z, nth_error Z q = Some z /\ Forall2 (near g h) (d_difference z t) (ceError (exactNet layers (map val x)) (map val t)) /\ length (d_difference z t) = outputs I layers.
Proof.
  destruct (MB 0%nat ltac:(lia)) as (M0 & D0). cbn [magnitude deviation] in M0, D0.
  destruct (net_near m A n w Hn Hw layers (fun k q => sf q k) X I x0 0 (fun k q => Sf q k) Hx (Rle_refl 0) SH WL) as (Y & EY & LY & NY). { intros k K. destruct (MB k K). lra. } { intros x J. now apply HX. }
  assert (NX : forall x, In x X -> Forall2 (near x0 0) x (map val x)). { intros x J. destruct (HX x J) as (_ & VX). clear - VX. induction x as [|v x IH]; constructor; [|apply IH; intros; apply VX; now right]. destruct (VX v (or_introl eq_refl)) as (Fv & Bv). split; auto. split; auto. split; auto. rewrite Rminus_eq_0, Rabs_R0. lra. }
  destruct (MB (length layers) ltac:(lia)) as (ML & DL). assert (NR : forall q x y, nth_error X q = Some x -> nth_error Y q = Some y -> Forall2 (near Mg Dg) y (exactNet layers (map val x))). { intros q x y Ex Ey. pose proof (NY q x y _ Ex Ey (NX x (nth_error_In _ _ Ex))) as Q. revert Q. apply Forall2_imp. intros a b Q. now apply (near_mono _ _ _ _ _ _ Q). }
  assert (OF : forall y v, In y Y -> In v y -> finite v /\ Rabs (val v) <= Mg). { intros y v J Jv. apply In_nth_error in J as (q & Eq). assert (K : (q < length X)%nat) by (rewrite <- LY; apply nth_error_Some; congruence). destruct (nth_error X q) as [x|] eqn:Ex; [|apply nth_error_None in Ex; lia]. specialize (NR q x y Ex Eq). apply In_nth_error in Jv as (j & Ej). destruct (Forall2_nth _ _ _ j 0 NR) as (a & Ea & (N1 & N2 & _)); [apply nth_error_Some; congruence|]. rewrite Ej in Ea. injection Ea as ->. auto. }
  assert (CF : forall v, In v (concat Y) -> finite v /\ Rabs (val v) <= Mg). { intros v J. apply in_concat in J as (y & J1 & J2). eauto. }
  assert (LR : forall q x y, nth_error X q = Some x -> nth_error Y q = Some y -> length y = outputs I layers). { intros q x y Ex Ey. rewrite (Forall2_length _ _ (NR q x y Ex Ey)). apply exact_length; auto. rewrite map_length. apply (HX x). eapply nth_error_In; eauto. }
  assert (SB : forall q y, nth_error Y q = Some y -> exists Z out, d_softmax m sum Y = Ok Z /\ nth_error Z q = Some out /\ distribution y out).
  { intros q y Ey. assert (K : (q < length X)%nat) by (rewrite <- LY; apply nth_error_Some; congruence). destruct (nth_error X q) as [x|] eqn:Ex; [|apply nth_error_None in Ex; lia]. pose proof (LR q x y Ex Ey) as L.
    destruct (softmax_batch m sum A SS Y q y) as (Z & out & S1 & _ & S3 & S4); auto; [intros v J; now apply CF|destruct y; [cbn in L; lia|easy]|rewrite L; apply HO| |exists Z, out; auto].
    intros v J. destruct (CF v J) as (_ & Bv). destruct y as [|a y]; [cbn in L; lia|]. exists a. split; [now left|]. destruct (OF (a :: y) a (nth_error_In _ _ Ey) (or_introl eq_refl)) as (_ & Ba). apply Rabs_le_inv in Bv, Ba. lra. }
  destruct Y as [|y0 Y']; [cbn in LY; lia|]. destruct (SB 0%nat y0 eq_refl) as (Z & _ & EZ & _). exists (y0 :: Y'), Z. split; auto. split; auto. intros q x t J. apply in_indexed, combine_at in J as (Ex & Et).
  assert (K : (q < length (y0 :: Y'))%nat) by (rewrite LY; apply nth_error_Some; congruence). destruct (nth_error (y0 :: Y') q) as [y|] eqn:Ey; [|apply nth_error_None in Ey; lia].
  destruct (SB q y Ey) as (Z' & out & EZ' & Eo & DO). rewrite EZ in EZ'. injection EZ' as <-. exists out. split; auto. destruct (HY t (nth_error_In _ _ Et)) as (LT & ST & VT). pose proof (LR q x y Ex Ey) as L.
  unfold h. rewrite <- L. refine (ce_near Mg Dg tau delta y out _ t (conj _ HD) Ht Hd Gb DO (NR q x y Ex Ey) _ VT ST); [lra|congruence].
Qed.
Lemma ce_gradient : exists Gr err, d_gradientCE m sf sb sw sd sum layers X T = Ok (d_gradientWith m sf sb sw sd err layers X T) /\ Gr = d_gradientWith m sf sb sw sd err layers X T /\
  forall q x t, In (q, (x, t)) (indexed (combine X T)) -> forall y, length y = outputs I layers -> Forall2 (near Mg Dg) y (exactNet layers (map val x)) ->
  Forall2 (near g h) (err q y t) (ceError (exactNet layers (map val x)) (map val t)) /\ length (err q y t) = length y.
Proof.
  destruct ce_rows as (Y & Z & EY & EZ & H). exists (d_gradientWith m sf sb sw sd (fun q _ t => match nth_error Z q with Some z => d_difference z t | None => [] end) layers X T). eexists. split; [unfold d_gradientCE; rewrite EY; cbn [bind]; rewrite EZ; reflexivity|]. split; [reflexivity|].
  intros q x t J y L _. cbv beta. destruct (H q x t J) as (z & E & N & LN). rewrite E. split; auto. congruence.
Qed.
End Batch.
