(** Properties C44, C45 and C54-C56: preprocessing of data. *)
From Verif Require Import Base BaseFacts Matrix RSum MatOps Storage_Model Preproc_Model Preproc_Spec Preproc_Proofs.
From Coq Require Import Lia Lra.
Local Open Scope R_scope.

(** C44.  scaleData with min < max maps non-constant data affinely (with a positive factor, that is, order-preservingly)
    into [min, max]; the smallest entry becomes min and the largest one max. *)
Theorem C44_scaleData data min max : min < max ->
  (exists i0 j0 i1 j1, (i0 < rows data /\ j0 < cols data /\ i1 < rows data /\ j1 < cols data)%nat /\ at_ data i0 j0 <> at_ data i1 j1) ->
  exists Y, scaleData data min max = Ok Y /\ rows Y = rows data /\ cols Y = cols data /\
    (exists s t, 0 < s /\ forall i j, (i < rows data)%nat -> (j < cols data)%nat -> at_ Y i j = s * at_ data i j + t) /\
    (forall i j, (i < rows data)%nat -> (j < cols data)%nat ->
       min <= at_ Y i j <= max /\
       ((forall a b, (a < rows data)%nat -> (b < cols data)%nat -> at_ data i j <= at_ data a b) -> at_ Y i j = min) /\
       ((forall a b, (a < rows data)%nat -> (b < cols data)%nat -> at_ data a b <= at_ data i j) -> at_ Y i j = max)).
Proof.
  intros Hm (i0 & j0 & i1 & j1 & (H1 & H2 & H3 & H4) & Hd).
  destruct (scaleData_ok data min max i0 j0 i1 j1 Hm H1 H2 H3 H4 Hd) as
    (Y & s & t & E & (S1 & S2) & Hs & F & (a & b & A1 & A2 & A3) & (a' & b' & B1 & B2 & B3)).
  exists Y. split; auto. split; auto. split; auto. split.
  - exists s, t. split; auto. intros. now apply F.
  - intros i j Hi Hj. destruct (F i j Hi Hj) as (F1 & F2). split; auto. split.
    + intros Hmin. specialize (Hmin a b A1 A2). destruct (F a b A1 A2) as (G1 & _).
      assert (s * at_ data i j <= s * at_ data a b) by (apply Rmult_le_compat_l; lra). lra.
    + intros Hmax. specialize (Hmax a' b' B1 B2). destruct (F a' b' B1 B2) as (G1 & _).
      assert (s * at_ data a' b' <= s * at_ data i j) by (apply Rmult_le_compat_l; lra). lra.
Qed.

(** C44.  An empty interval is refused with an exception. *)
Theorem C44_scaleData_interval data min max : max <= min -> scaleData data min max = Throw.
Proof. intros H. unfold scaleData. now rewrite (proj2 (Rleb_true max min) H). Qed.

(** C45.  After fit(X), transform(X) has mean 0 in each column and variance 1 in each column that was not constant;
    constant columns become 0. *)
Theorem C45_normalization X junk : (0 < rows X)%nat -> (0 < cols X)%nat ->
  exists s Y, norm_fit X = Ok s /\ norm_transform junk s X = Ok Y /\ rows Y = rows X /\ cols Y = cols X /\
    forall d, (d < cols X)%nat ->
      colMean Y d = 0 /\
      (~ constantCol X d -> colVariance Y d = 1) /\
      (constantCol X d -> forall n, (n < rows X)%nat -> at_ Y n d = 0).
Proof.
  intros HR HC. destruct (norm_fit_ok X) as (s & E & S1 & S2 & F).
  destruct (norm_transform_ok junk s X (cols X) S1 S2 eq_refl HC) as (Y & EY & (R1 & C1) & FY).
  exists s, Y. split; auto. split; auto. split; auto. split; auto. intros d Hd. destruct (F d Hd) as (Fm & Fs).
  assert (HN : 0 < INR (rows X)) by now apply lt_0_INR.
  assert (FY' : forall n, (n < rows X)%nat -> at_ Y n d = (at_ X n d - cmean X d) * / cstd X d).
  { intros n Hn. now rewrite FY, Fm, Fs. }
  assert (M : colMean Y d = 0).
  { unfold colMean. rewrite R1, (rsum_ext _ _ _ FY'), rsum_scal_r, rsum_minus, cmean_sum, rsum_const by auto. unfold Rdiv. ring. }
  pose proof (cvar_nonneg X d HR) as V0.
  split; auto. split.
  - intros NC. assert (V : 0 < cvar X d).
    { destruct V0 as [|Z]; auto. exfalso. apply NC. exists (at_ X 0 d). intros n Hn. now apply (proj1 (cvar_0 X d HR) (eq_sym Z)). }
    assert (Q : 0 < sqrt (cvar X d)) by now apply sqrt_lt_R0.
    assert (ES : cstd X d = sqrt (cvar X d)).
    { unfold cstd. rewrite (proj2 (Reqb_false _ 0)); auto. lra. }
    unfold colVariance. rewrite R1, M.
    rewrite (rsum_ext _ _ (fun n => / cvar X d * ((at_ X n d - cmean X d) * (at_ X n d - cmean X d)))).
    + rewrite rsum_scal. replace (rsum (rows X) (fun i => (at_ X i d - cmean X d) * (at_ X i d - cmean X d))) with (INR (rows X) * cvar X d).
      * field. lra.
      * unfold cvar. field. lra.
    + intros n Hn. rewrite FY', ES by auto. rewrite <- (sqrt_sqrt (cvar X d)) at 2 by auto. field. lra.
  - intros (v & Hv) n Hn. rewrite FY' by auto.
    assert (cmean X d = v).
    { unfold cmean. rewrite (rsum_ext _ _ (fun _ => v)) by auto. rewrite rsum_const. field. lra. }
    rewrite H, Hv by auto. ring.
Qed.

(** C45.  Other data with the same number of columns are transformed by the same affine functions; before fit, transform fails. *)
Theorem C45_transform_other X X' junk : (0 < rows X)%nat -> (0 < cols X)%nat -> cols X' = cols X ->
  exists s Y, norm_fit X = Ok s /\ norm_transform junk s X' = Ok Y /\ rows Y = rows X' /\ cols Y = cols X /\
    forall n d, (n < rows X')%nat -> (d < cols X)%nat ->
      (constantCol X d -> at_ Y n d = at_ X' n d - colMean X d) /\
      (~ constantCol X d -> at_ Y n d = (at_ X' n d - colMean X d) / sqrt (colVariance X d)).
Proof.
  intros HR HC HX. destruct (norm_fit_ok X) as (s & E & S1 & S2 & F).
  destruct (norm_transform_ok junk s X' (cols X) S1 S2 HX HC) as (Y & EY & (R1 & C1) & FY).
  exists s, Y. split; auto. split; auto. split; auto. split; auto. intros n d Hn Hd. destruct (F d Hd) as (Fm & Fs).
  assert (V : colVariance X d = cvar X d).
  { unfold colVariance, cvar. f_equal. apply rsum_ext. intros. unfold colMean, cmean. ring. }
  rewrite FY, Fm, Fs, V by auto. unfold cstd. split; intros HCn.
  - assert (Z : cvar X d = 0).
    { apply cvar_0; auto. destruct HCn as (v & Hv). intros. now rewrite !Hv. }
    rewrite Z, sqrt_0, (proj2 (Reqb_true 0 0) eq_refl). unfold cmean, colMean. lra.
  - rewrite (proj2 (Reqb_false _ 0)); [reflexivity|]. intros Z. apply HCn. exists (at_ X 0 d).
    apply cvar_0; auto. apply sqrt_eq_0; auto. now apply cvar_nonneg.
Qed.
Theorem C45_transform_before_fit X junk : norm_transform junk norm_new X = Abort.
Proof. reflexivity. Qed.

(** C54, partial.  What filter computes: with signals at least as long as the filter, output t is
    (sum_k b_k x_{|t-k|} + sum_{k>0} a_k x_{|t-k|}) / a_0; the feedback coefficients are applied to the input. *)
Theorem C54_filter_computes_partial x y b a :
  (rows x <= rows y)%nat -> (cols x <= cols y)%nat -> cols b = 1%nat -> cols a = 1%nat -> (0 < rows a)%nat ->
  (rows b <= cols x)%nat -> (rows a <= cols x)%nat -> at_ a 0 0 <> 0 ->
  exists Y, filter x y b a = Ok Y /\ rows Y = rows y /\ cols Y = cols y /\
    forall c t, (c < rows x)%nat -> (t < cols x)%nat ->
      at_ a 0 0 * at_ Y c t =
        rsum (rows b) (fun k => at_ b k 0 * at_ x c (if Nat.leb k t then t - k else k - t)%nat) +
        rsum (rows a - 1) (fun k => at_ a (S k) 0 * at_ x c (if Nat.leb (S k) t then t - S k else S k - t)%nat).
Proof.
  intros H1 H2 H3 H4 H5 H6 H7 H8.
  destruct (filter_ok x y b a) as (Y & E & (S1 & S2) & F); auto; try lia.
  exists Y. split; auto. split; auto. split; auto. intros c t Hc Ht. rewrite F by auto.
  transitivity (filterSum x b a c t (Nat.max (rows b) (rows a))); [now field|].
  assert (A : forall k, absdiff t k = if Nat.leb k t then (t - k)%nat else (k - t)%nat).
  { intros k. unfold absdiff. destruct (Nat.leb_spec k t); lia. }
  unfold filterSum. rewrite rsum_plus. f_equal.
  - replace (Nat.max (rows b) (rows a)) with (rows b + (Nat.max (rows b) (rows a) - rows b))%nat by lia.
    rewrite rsum_app. rewrite (rsum_0 (Nat.max (rows b) (rows a) - rows b)), Rplus_0_r.
    + apply rsum_ext. intros k Hk. rewrite (proj2 (Nat.ltb_lt k (rows b))) by auto. now rewrite A.
    + intros k Hk. rewrite (proj2 (Nat.ltb_ge (rows b + k) (rows b))) by lia. reflexivity.
  - replace (Nat.max (rows b) (rows a)) with (1 + ((rows a - 1) + (Nat.max (rows b) (rows a) - rows a)))%nat by lia.
    rewrite rsum_app. cbn [rsum]. rewrite Rplus_0_l.
    assert (Z : (if Nat.ltb 0 0 && Nat.ltb 0 (rows a) then at_ a 0 0 * at_ x c (absdiff t 0) else 0)%bool = 0) by reflexivity.
    rewrite Z, Rplus_0_l, rsum_app. rewrite (rsum_0 (Nat.max (rows b) (rows a) - rows a)), Rplus_0_r.
    + apply rsum_ext. intros k Hk. cbn [Nat.add]. rewrite (proj2 (Nat.ltb_lt (S k) (rows a))) by lia. cbn [Nat.ltb Nat.leb andb]. now rewrite A.
    + intros k Hk. rewrite (proj2 (Nat.ltb_ge (1 + (rows a - 1 + k)) (rows a))) by lia. now rewrite andb_false_r.
Qed.

(** C54, partial.  Without feedback (FIR filter) the output is the filtered signal wherever the past exists. *)
Theorem C54_fir_partial x y b a :
  (rows x <= rows y)%nat -> (cols x <= cols y)%nat -> cols b = 1%nat -> cols a = 1%nat -> rows a = 1%nat ->
  (0 < rows b <= cols x)%nat -> at_ a 0 0 <> 0 ->
  exists Y, filter x y b a = Ok Y /\
    forall c, (c < rows x)%nat -> isFiltered (fun k => at_ b k 0) (fun k => at_ a k 0) (rows b) (rows a) (at_ x c) (at_ Y c) (cols x).
Proof.
  intros H1 H2 H3 H4 H5 H6 H7.
  destruct (C54_filter_computes_partial x y b a) as (Y & E & _ & _ & F); auto; try lia.
  exists Y. split; auto. intros c Hc t Ht HP HQ. rewrite F by auto. rewrite H5. cbn [Nat.sub rsum].
  rewrite Rplus_0_r, Rminus_0_r. apply rsum_ext. intros k Hk. rewrite (proj2 (Nat.leb_le k t)) by lia. reflexivity.
Qed.

(** C54, refuted.  With feedback (IIR filter) the output is not the filtered signal: y_t = x_t - y_{t-1} for x = 1, 0, 0
    should be 1, -1, 1. *)
Theorem C54_iir_refuted :
  let x := mkMat 1 3 (fun _ j => if Nat.eqb j 0 then 1 else 0) in
  let b := mkMat 1 1 (fun _ _ => 1) in
  let a := mkMat 2 1 (fun _ _ => 1) in
  exists Y, filter x (mzero 1 3) b a = Ok Y /\
    ~ isFiltered (fun k => at_ b k 0) (fun k => at_ a k 0) (rows b) (rows a) (at_ x 0%nat) (at_ Y 0%nat) (cols x).
Proof.
  intros x b a. destruct (C54_filter_computes_partial x (mzero 1 3) b a) as (Y & E & _ & _ & F); try (cbn; lia); try reflexivity.
  { cbn. lra. }
  exists Y. split; auto. intros H.
  pose proof (F 0%nat 1%nat ltac:(cbn; lia) ltac:(cbn; lia)) as F1. pose proof (F 0%nat 2%nat ltac:(cbn; lia) ltac:(cbn; lia)) as F2.
  specialize (H 2%nat ltac:(cbn; lia) ltac:(cbn; lia) ltac:(cbn; lia)). cbn in F1, F2, H. lra.
Qed.

(** C54, refuted.  A signal that is shorter than the filter is read out of bounds. *)
Theorem C54_short_signal_refuted :
  filter (mkMat 1 1 (fun _ _ => 1)) (mzero 1 1) (mkMat 2 1 (fun _ _ => 1)) (mkMat 1 1 (fun _ _ => 1)) = UB.
Proof. reflexivity. Qed.

(** C55.  downsample copies every downSamplingFactor-th sample of each channel; more target columns than source samples are
    out of bounds. *)
Theorem C55_downsample y d f : (rows y <= rows d)%nat -> (cols d = 0 \/ (cols d - 1) * f < cols y)%nat ->
  exists Y, downsample y d f = Ok Y /\ rows Y = rows d /\ cols Y = cols d /\
    (forall c t, (c < rows y)%nat -> (t < cols d)%nat -> at_ Y c t = at_ y c (t * f)%nat) /\
    (forall c t, (rows y <= c)%nat -> at_ Y c t = at_ d c t).
Proof. intros H1 H2. destruct (downsample_ok y d f H1 H2) as (Y & E & (R & C) & F). exists Y. auto. Qed.

(** C56.  Row m * samples + n of the result of sampleRandomPatches is a patch of image m, completely inside the image and at
    the same position in all channels, whatever numbers rand() returns. *)
Theorem C56_patches images channels nrows ncols samples pr pc rnd junk :
  cols images = (channels * nrows * ncols)%nat -> (pr <= nrows)%nat -> (pc <= ncols)%nat -> (forall k, 0 <= rnd k)%Z ->
  exists Y, sampleRandomPatches rnd junk images channels nrows ncols samples pr pc = Ok Y /\
    rows Y = (rows images * samples)%nat /\ cols Y = (channels * pr * pc)%nat /\
    forall m n, (m < rows images)%nat -> (n < samples)%nat ->
      isPatch (at_ images m) channels nrows ncols (at_ Y (m * samples + n)%nat) pr pc.
Proof.
  intros H1 H2 H3 H4. destruct (patches_ok images channels nrows ncols samples pr pc H1 rnd junk H4 H2 H3) as (Y & E & (S1 & S2) & F).
  exists Y. split; auto. split; auto. split; auto. intros m n Hm Hn. destruct (F m n Hm Hn) as (r0 & c0 & (B1 & B2) & G).
  exists r0, c0. split; auto. split; auto. intros ch r c Hch Hr Hc'.
  replace (px (at_ Y (m * samples + n)%nat) pr pc ch r c) with (at_ Y (m * samples + n)%nat ((ch * pr + r) * pc + c)%nat).
  - rewrite G by auto. unfold pixel, px. f_equal. lia.
  - unfold px. f_equal. lia.
Qed.

(** C56.  Every position inside the image can be drawn: a patch is not confined to a part of the image. *)
Theorem C56_any_position images channels nrows ncols pr pc junk r0 c0 :
  rows images = 1%nat -> cols images = (channels * nrows * ncols)%nat -> (r0 + pr <= nrows)%nat -> (c0 + pc <= ncols)%nat ->
  exists rnd Y, (forall k, 0 <= rnd k)%Z /\ sampleRandomPatches rnd junk images channels nrows ncols 1 pr pc = Ok Y /\
    forall ch r c, (ch < channels)%nat -> (r < pr)%nat -> (c < pc)%nat ->
      px (at_ Y 0%nat) pr pc ch r c = px (at_ images 0%nat) nrows ncols ch (r0 + r) (c0 + c).
Proof.
  intros HI H1 H2 H3. exists (fun k => if Nat.eqb k 0 then Z.of_nat r0 else Z.of_nat c0).
  unfold sampleRandomPatches. rewrite HI.
  assert (G : forall v N : nat, (v < N)%nat -> generateInt (Z.of_nat v) 0 (Z.of_nat N) = Ok (Z.of_nat v)).
  { intros v N Hv. unfold generateInt. rewrite check_true by (apply Z.leb_le; lia). cbn [bind].
    destruct (Z.eqb_spec (Z.of_nat N) 0); [lia|]. rewrite Z.rem_small by lia. f_equal. lia. }
  unfold for_ at 1. cbn [for_from Nat.mul Nat.add Nat.eqb].
  replace (Z.of_nat nrows - Z.of_nat pr + 1)%Z with (Z.of_nat (nrows - pr + 1)) by lia.
  replace (Z.of_nat ncols - Z.of_nat pc + 1)%Z with (Z.of_nat (ncols - pc + 1)) by lia.
  rewrite !G by lia. cbn [bind]. rewrite !zidx_Ok by lia. rewrite !Nat2Z.id. cbn [bind app].
  unfold for_ at 1. cbn [for_from]. unfold for_ at 1. cbn [for_from Nat.mul Nat.add vget nth_error bind fst snd].
  destruct (patch_ok images channels nrows ncols pr pc H1 0 0 r0 c0 (mkMat 1 (channels * pr * pc) junk) 1) as (P' & E & S1 & _ & F); auto; try (cbn; lia).
  { split; reflexivity. }
  exists P'. split; [intros [|]; cbn; lia|]. split.
  { match type of E with ?t = _ => match goal with |- context [bind ?u (fun s' => Ok s')] => idtac end end || idtac.
    cbn [Nat.mul Nat.add] in *. rewrite E. reflexivity. }
  intros ch r c Hch Hr Hc'.
  assert (HB : ((ch * pr + r) * pc + c < channels * pr * pc)%nat).
  { assert ((ch * pr + r + 1) * pc <= channels * pr * pc)%nat by (apply Nat.mul_le_mono_r; nia). nia. }
  specialize (F ch r c Hr Hc' HB). unfold px. replace (ch * (pr * pc) + r * pc + c)%nat with ((ch * pr + r) * pc + c)%nat by lia.
  rewrite F. unfold pixel. f_equal. lia.
Qed.

(** * The hypotheses can be met *)
Example ex_scale : let X := mkMat 2 2 (fun i j => INR (2 * i + j)) in
  exists Y, scaleData X (-1) 1 = Ok Y /\ at_ Y 0 0 = -1 /\ at_ Y 1 1 = 1.
Proof.
  intros X. destruct (C44_scaleData X (-1) 1) as (Y & E & _ & _ & _ & F); [lra| |].
  - exists 0%nat, 0%nat, 1%nat, 1%nat. cbn [rows cols X at_ Nat.mul Nat.add]. split; [lia|]. simpl. lra.
  - exists Y. split; auto. split; apply F; cbn [rows cols X at_]; try lia; intros a b Ha Hb; apply le_INR; lia.
Qed.
Example ex_norm : exists s Y, let X := mkMat 2 2 (fun i j => INR (i * j)) in
  norm_fit X = Ok s /\ norm_transform (fun _ _ => 5) s X = Ok Y /\ colMean Y 1 = 0 /\ colVariance Y 1 = 1 /\ at_ Y 1 0 = 0.
Proof.
  destruct (C45_normalization (mkMat 2 2 (fun i j => INR (i * j))) (fun _ _ => 5)) as (s & Y & E1 & E2 & _ & _ & F); cbn; try lia.
  exists s, Y. split; auto. split; auto. destruct (F 1%nat ltac:(cbn; lia)) as (F1 & F2 & _). split; auto. split.
  - apply F2. intros (v & Hv). pose proof (Hv 0%nat ltac:(cbn; lia)) as V0. pose proof (Hv 1%nat ltac:(cbn; lia)) as V1. cbn in V0, V1. lra.
  - apply (F 0%nat ltac:(cbn; lia)); [|cbn; lia]. exists 0. intros n _. cbn. rewrite Nat.mul_0_r. reflexivity.
Qed.
Example ex_fir : exists Y, filter (mkMat 1 4 (fun _ j => INR j)) (mzero 1 4) (mkMat 2 1 (fun _ _ => 1)) (mkMat 1 1 (fun _ _ => 2)) = Ok Y /\ at_ Y 0 3 = 5 / 2.
Proof.
  destruct (C54_fir_partial (mkMat 1 4 (fun _ j => INR j)) (mzero 1 4) (mkMat 2 1 (fun _ _ => 1)) (mkMat 1 1 (fun _ _ => 2))) as (Y & E & F);
    cbn [rows cols at_ mzero]; try lia; try lra.
  exists Y. split; auto. specialize (F 0%nat ltac:(cbn; lia) 3%nat). cbn in F. specialize (F ltac:(lia) ltac:(lia) ltac:(lia)). lra.
Qed.
Example ex_patches : exists Y, sampleRandomPatches (fun k => Z.of_nat (7 * k)) (fun _ _ => 0) (mkMat 2 24 (fun m i => INR (100 * m + i))) 2 3 4 3 2 2 = Ok Y /\
  isPatch (fun i => INR (100 + i)) 2 3 4 (at_ Y 4%nat) 2 2.
Proof.
  destruct (C56_patches (mkMat 2 24 (fun m i => INR (100 * m + i))) 2 3 4 3 2 2 (fun k => Z.of_nat (7 * k)) (fun _ _ => 0)) as (Y & E & _ & _ & F);
    try (cbn; lia); try (intros; lia).
  exists Y. split; auto. apply (F 1%nat 1%nat); cbn; lia.
Qed.

Print Assumptions C44_scaleData.
Print Assumptions C44_scaleData_interval.
Print Assumptions C45_normalization.
Print Assumptions C45_transform_other.
Print Assumptions C45_transform_before_fit.
Print Assumptions C54_filter_computes_partial.
Print Assumptions C54_fir_partial.
Print Assumptions C54_iir_refuted.
Print Assumptions C54_short_signal_refuted.
Print Assumptions C55_downsample.
Print Assumptions C56_patches.
Print Assumptions C56_any_position.
