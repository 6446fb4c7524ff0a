(** Properties of PCA and ZCA whitening (C77-C80).  Vocabulary: PCA_Spec.v. *)
From Verif Require Import Base BaseFacts Matrix RSum MatOps PCA_Model PCA_Spec PCA_Proofs.
Local Open Scope R_scope.

(** * C77: explained variance *)
(** For all data that are not constant, every valid decomposition and every number of components that does not exceed
    the number of rows or columns: there are principal directions of the data such that ratio [k] is the share of the
    variance in direction [k].  The ratios lie in [0, 1], are sorted, and sum up to 1 if all components are kept. *)
Theorem C77_ratios svd junk comps wh X :
  (0 < rows X)%nat -> 0 < totalVariance X -> (comps <= Nat.min (rows X) (cols X))%nat ->
  decomposes svd (centred X) -> (wh = true -> varies X) ->
  exists s v, pca_fit svd junk (pca_new comps wh) X = Ok s /\ principalDirections X v /\
    rows (explainedVarianceRatio s) = comps /\
    (forall k, (k < comps)%nat -> at_ (explainedVarianceRatio s) k 0%nat
       = varianceAlong (INR (rows X)) X (fun j => v j k) / totalVariance X) /\
    (forall k, (k < comps)%nat -> 0 <= at_ (explainedVarianceRatio s) k 0%nat <= 1) /\
    (forall k l, (k <= l < comps)%nat -> at_ (explainedVarianceRatio s) l 0%nat <= at_ (explainedVarianceRatio s) k 0%nat) /\
    rsum comps (fun k => at_ (explainedVarianceRatio s) k 0%nat) <= 1 /\
    (comps = Nat.min (rows X) (cols X) -> rsum comps (fun k => at_ (explainedVarianceRatio s) k 0%nat) = 1).
Proof.
  intros HN HT Hc Hsvd Hw.
  destruct (pca_fit_ok svd junk (pca_new comps wh) X HN HT Hsvd Hw) as (s & Sg & V & E & H & _ & _ & _ & _ & _ & _ & (R1 & _) & Hr & _).
  cbn [components pca_new] in *. exists s, (at_ V). split; auto. split; [apply (svd_principal X Sg); auto|]. split; auto.
  pose proof (lt_0_INR _ HN) as HN'. pose proof (sv_nonneg _ _ _ H) as Hn.
  assert (Hr' : forall k, (k < comps)%nat -> at_ (explainedVarianceRatio s) k 0%nat = sv Sg k ^ 2 / INR (rows X) / totalVariance X).
  { intros k Hk. unfold explainedVarianceRatio. rewrite Hr by auto. now replace (k <? Nat.min (rows X) (cols X)) with true by (symmetry; apply Nat.ltb_lt; lia). }
  assert (Hp : forall k, 0 <= sv Sg k ^ 2 / INR (rows X) / totalVariance X).
  { intros k. unfold Rdiv. repeat apply Rmult_le_pos; try (apply Rlt_le, Rinv_0_lt_compat; auto); try lra; apply Hn. }
  assert (Hall : rsum (Nat.min (rows X) (cols X)) (fun k => sv Sg k ^ 2 / INR (rows X) / totalVariance X) = 1).
  { pose proof H as (HS & _). change (rows (centred X)) with (rows X) in HS. change (cols (centred X)) with (cols X) in HS.
    unfold Rdiv. rewrite !rsum_scal_r. rewrite <- (rsum_extend (cols X) (Nat.min (rows X) (cols X)) (fun k => sv Sg k ^ 2)).
    - change (rsum (cols X) (fun k => sv Sg k ^ 2) / INR (rows X) * / totalVariance X = 1). rewrite <- (total_svd X Sg V H). field. lra.
    - lia.
    - intros i Hi. unfold sv. replace (i <? rows Sg) with false by (symmetry; apply Nat.ltb_ge; lia). ring. }
  assert (Hle : forall n, (n <= Nat.min (rows X) (cols X))%nat -> rsum n (fun k => sv Sg k ^ 2 / INR (rows X) / totalVariance X) <= 1).
  { intros n Hle. rewrite <- Hall. replace (Nat.min (rows X) (cols X)) with (n + (Nat.min (rows X) (cols X) - n))%nat by lia. rewrite rsum_app.
    pose proof (rsum_nonneg (Nat.min (rows X) (cols X) - n) (fun i => sv Sg (n + i) ^ 2 / INR (rows X) / totalVariance X) ltac:(intros; apply Hp)). cbv beta in *. lra. }
  assert (Hsum : rsum comps (fun k => at_ (explainedVarianceRatio s) k 0%nat) = rsum comps (fun k => sv Sg k ^ 2 / INR (rows X) / totalVariance X))
    by (apply rsum_ext; auto).
  repeat split.
  - intros k Hk. rewrite Hr' by auto. now rewrite (variance_direction _ _ _ _ _ H) by lia.
  - rewrite Hr' by auto. apply Hp.
  - rewrite Hr' by auto. pose proof (Hle (S k) ltac:(lia)) as L. cbn [rsum] in L.
    pose proof (rsum_nonneg k (fun k => sv Sg k ^ 2 / INR (rows X) / totalVariance X) ltac:(intros; apply Hp)). cbv beta in *. lra.
  - intros k l Hkl. rewrite !Hr' by lia. pose proof (sv_sorted _ _ _ H k l ltac:(lia)). pose proof (Hn l).
    unfold Rdiv. repeat apply Rmult_le_compat_r; try (apply Rlt_le, Rinv_0_lt_compat; auto). simpl. nra.
  - rewrite Hsum. auto.
  - intros ->. now rewrite Hsum.
Qed.
Print Assumptions C77_ratios.

(** Ratios beyond the number of rows are whatever the memory contained. *)
Theorem C77_more_components_refuted svd comps X x : (0 < rows X)%nat -> 0 < totalVariance X -> decomposes svd (centred X) ->
  (rows X < comps <= cols X)%nat ->
  exists junk s, pca_fit svd junk (pca_new comps false) X = Ok s /\ at_ (explainedVarianceRatio s) (rows X) 0%nat = x.
Proof.
  intros HN HT Hsvd Hc. exists (fun _ _ => x).
  destruct (pca_fit_ok svd (fun _ _ => x) (pca_new comps false) X HN HT Hsvd ltac:(discriminate)) as (s & Sg & V & E & H & _ & _ & _ & _ & _ & _ & _ & Hr & _).
  exists s. split; auto. unfold explainedVarianceRatio. cbn [components pca_new] in *. rewrite Hr by lia. destruct (Nat.ltb_spec (rows X) (Nat.min (rows X) (cols X))); [lia|auto].
Qed.
Print Assumptions C77_more_components_refuted.

(** * C78: the transformed data *)
Lemma transform_mapped svd junk comps wh X :
  (0 < rows X)%nat -> (0 < cols X)%nat -> 0 < totalVariance X -> (comps <= cols X)%nat -> decomposes svd (centred X) -> (wh = true -> varies X) ->
  exists s Y Sg V, pca_fit svd junk (pca_new comps wh) X = Ok s /\ pca_transform s X = Ok Y /\ size_is Y (rows X) comps /\ is_svd (centred X) Sg V /\
    mapped X Y (fun k j => if wh then at_ V k j / (sv Sg k / sqrt (INR (rows X))) else at_ V k j) /\
    (exists B, meq (centred X) B /\ Sg = fst (svd B) /\ V = snd (svd B)).
Proof.
  intros HN HD HT Hc Hsvd Hw.
  destruct (pca_fit_ok svd junk (pca_new comps wh) X HN HT Hsvd Hw) as (s & Sg & V & E & H & C1 & C2 & SM & FM & SW & FW & _ & _ & HB).
  cbn [components whiten pca_new] in *.
  destruct (pca_transform_ok s X (cols X) SM SW HD eq_refl ltac:(lia)) as (Y & EY & (Y1 & Y2) & F).
  exists s, Y, Sg, V. split; auto. split; auto. rewrite C1 in Y2. split; [split; auto|]. split; auto. split; auto.
  split; auto. intros n k Hn Hk. rewrite F by lia. unfold coordinate. apply dot_ext; intros j Hj.
  - now rewrite FM.
  - rewrite FW by lia. auto.
Qed.

(** The transformed training data have mean 0, with and without whitening. *)
Theorem C78_centred svd junk comps wh X :
  (0 < rows X)%nat -> (0 < cols X)%nat -> 0 < totalVariance X -> (comps <= cols X)%nat -> decomposes svd (centred X) -> (wh = true -> varies X) ->
  exists s Y, pca_fit svd junk (pca_new comps wh) X = Ok s /\ pca_transform s X = Ok Y /\ rows Y = rows X /\ cols Y = comps /\
    forall k, (k < comps)%nat -> meanOf Y k = 0.
Proof.
  intros HN HD HT Hc Hsvd Hw. destruct (transform_mapped svd junk comps wh X HN HD HT Hc Hsvd Hw) as (s & Y & Sg & V & E & EY & (Y1 & Y2) & _ & HM & _).
  exists s, Y. repeat split; auto. intros k Hk. apply (mapped_mean X Y _ k HN HM). lia.
Qed.
Print Assumptions C78_centred.

(** Without whitening and with all components, distances are kept: for all rows of all data that are transformed later. *)
Theorem C78_distances svd junk X X' :
  (0 < rows X)%nat -> (0 < cols X)%nat -> 0 < totalVariance X -> decomposes svd (centred X) -> cols X' = cols X ->
  exists s Y, pca_fit svd junk (pca_new (cols X) false) X = Ok s /\ pca_transform s X' = Ok Y /\ rows Y = rows X' /\ cols Y = cols X /\
    forall n m, (n < rows X')%nat -> (m < rows X')%nat ->
      rsum (cols X) (fun k => (at_ Y n k - at_ Y m k) ^ 2) = rsum (cols X) (fun j => (at_ X' n j - at_ X' m j) ^ 2).
Proof.
  intros HN HD HT Hsvd HX'.
  destruct (pca_fit_ok svd junk (pca_new (cols X) false) X HN HT Hsvd ltac:(discriminate)) as (s & Sg & V & E & H & C1 & C2 & SM & FM & SW & FW & _).
  cbn [components whiten pca_new] in *.
  destruct (pca_transform_ok s X' (cols X) SM SW HD HX' ltac:(lia)) as (Y & EY & (Y1 & Y2) & F). rewrite C1 in *.
  exists s, Y. repeat split; auto. intros n m Hn Hm.
  pose proof (svd_principal _ _ _ HN H) as ((Ho1 & Ho2) & _).
  assert (Ho : orthogonal (cols X) (fun i j => at_ V j i)) by (split; auto).
  pose proof (parseval _ _ (fun j => at_ X' n j - at_ X' m j) (fun j => at_ X' n j - at_ X' m j) Ho) as P.
  transitivity (dot (cols X) (fun j => at_ X' n j - at_ X' m j) (fun j => at_ X' n j - at_ X' m j)).
  - rewrite <- P. apply rsum_ext. intros k Hk. rewrite !F by auto.
    assert (Ek : forall n, dot (cols X) (fun j => at_ X' n j - at_ (pmean s) j 0%nat) (fun j => at_ (pW s) k j) = dot (cols X) (fun j => at_ X' n j - at_ (pmean s) j 0%nat) (fun j => at_ V k j)).
    { intros n'. apply dot_ext; auto. }
    rewrite !Ek. assert (Ec : comp (cols X) (fun i j => at_ V j i) k (fun j => at_ X' n j - at_ X' m j) = dot (cols X) (fun j => at_ X' n j - at_ X' m j) (fun j => at_ V k j)) by apply dot_comm.
    rewrite Ec, !dot_minus. ring.
  - apply rsum_ext. intros. ring.
Qed.
Print Assumptions C78_distances.

(** If V happens to be a symmetric matrix, then the outputs are the principal components: coordinate [k] in the [k]-th principal
    direction, uncorrelated; with whitening they have variance 1.
    Missing: V is not symmetric in general.  The code projects on the rows of V, the principal directions are its columns. *)
Theorem C78_components_partial svd junk comps wh X :
  (0 < rows X)%nat -> (0 < cols X)%nat -> 0 < totalVariance X -> (comps <= cols X)%nat -> decomposes svd (centred X) -> (wh = true -> varies X) ->
  (forall B i j, meq (centred X) B -> (i < cols X)%nat -> (j < cols X)%nat -> at_ (snd (svd B)) i j = at_ (snd (svd B)) j i) ->
  exists s Y v, pca_fit svd junk (pca_new comps wh) X = Ok s /\ pca_transform s X = Ok Y /\ principalDirections X v /\ rows Y = rows X /\ cols Y = comps /\
    (wh = false -> forall n k, (n < rows X)%nat -> (k < comps)%nat -> at_ Y n k = coordinate X (fun j => v j k) n) /\
    (forall j k, (j < comps)%nat -> (k < comps)%nat -> covariance (INR (rows X)) Y j k =
       if wh then delta j k else if Nat.eqb j k then varianceAlong (INR (rows X)) X (fun i => v i k) else 0).
Proof.
  intros HN HD HT Hc Hsvd Hw Hsym. destruct (transform_mapped svd junk comps wh X HN HD HT Hc Hsvd Hw) as (s & Y & Sg & V & E & EY & (Y1 & Y2) & H & HM & B & HB & HS & HV).
  pose proof (lt_0_INR _ HN) as HN'. pose proof (sqrt_lt_R0 _ HN') as Hq.
  assert (HVs : forall i j, (i < cols X)%nat -> (j < cols X)%nat -> at_ V i j = at_ V j i) by (intros; rewrite HV; apply Hsym; auto).
  exists s, Y, (at_ V). split; auto. split; auto. split; [apply (svd_principal X Sg); auto|]. split; auto. split; auto.
  set (sc := fun k => if wh then / (sv Sg k / sqrt (INR (rows X))) else 1).
  assert (HM' : mapped X Y (fun k j => sc k * at_ V j k)).
  { destruct HM as (HR & HM). split; auto. intros n k Hn Hk. rewrite HM by auto. unfold coordinate. apply dot_ext; auto. intros j Hj.
    rewrite (HVs j k) by lia. unfold sc. destruct wh; [unfold Rdiv; ring|ring]. }
  assert (Hsc : forall k n, coordinate X (fun j => sc k * at_ V j k) n = sc k * coordinate X (fun j => at_ V j k) n).
  { intros. unfold coordinate. rewrite (dot_comm _ _ (fun j => sc k * at_ V j k)), (dot_scal (cols X) (sc k) (fun j => at_ V j k)), dot_comm. auto. }
  split.
  - intros Ew n k Hn Hk. destruct HM' as (_ & HM'). rewrite HM', Hsc by lia. unfold sc. rewrite Ew. ring.
  - intros j k Hj Hk. rewrite (mapped_covariance X Y _ _ j k HN HM') by lia.
    rewrite (rsum_ext _ _ (fun n => sc j * sc k * (dot (cols X) (at_ (centred X) n) (fun i => at_ V i j) * dot (cols X) (at_ (centred X) n) (fun i => at_ V i k)))).
    2:{ intros n Hn. rewrite !Hsc, !coordinate_centred. change (cols (centred X)) with (cols X). ring. }
    rewrite rsum_scal. pose proof (svd_gram _ _ _ (fun i => at_ V i j) (fun i => at_ V i k) H) as G.
    change (rows (centred X)) with (rows X) in G. change (cols (centred X)) with (cols X) in G. rewrite G.
    pose proof (svd_principal _ _ _ HN H) as (Ho & _).
    rewrite (rsum_ext _ _ (fun l => delta j l * (sv Sg l ^ 2 * delta l k))) by (intros l Hl; rewrite !comp_self by (auto; lia); rewrite (delta_sym l j); ring).
    rewrite rsum_delta_l by lia. destruct (Nat.eqb_spec j k) as [->|Hjk].
    + rewrite delta_same, (variance_direction _ _ _ _ _ H) by lia. unfold sc. destruct wh; [|field; lra].
      pose proof (varies_sv _ _ _ HN (Hw eq_refl) H k ltac:(lia)) as Hpos.
      replace (INR (rows X)) with (sqrt (INR (rows X)) * sqrt (INR (rows X))) at 3 by (apply sqrt_sqrt; lra). field. lra.
    + rewrite delta_other by auto. unfold Rdiv. destruct wh; ring.
Qed.
Print Assumptions C78_components_partial.

(** Four points in three dimensions whose principal directions are oblique *)
Definition obliqueData : mat := mkMat 4 3 (fun n j =>
  nth j (nth n [[23; 6; 11]; [-5; 6; 25]; [1; -18; -19]; [-19; 6; -17]] []) 0).
Definition obliqueS : mat := mkMat 3 1 (fun k _ => nth k [42; 28; 14] 0).
Definition obliqueV : mat := mkMat 3 3 (fun i k => nth k (nth i [[3; 6; 2]; [2; -3; 6]; [6; -2; -3]] []) 0 / 7).
Definition obliqueU (n k : nat) : R := nth k (nth n [[1; 1; 1; 1]; [1; -1; -1; 1]; [-1; 1; -1; 1]; [-1; -1; 1; 1]] []) 0 / 2.

Ltac small i := let H := fresh in destruct i as [|[|[|[|i]]]]; try lia.

Lemma oblique_mean j : (j < 3)%nat -> meanOf obliqueData j = 0.
Proof. intros Hj. small j; unfold meanOf; simpl; field. Qed.

Lemma oblique_svd : is_svd (centred obliqueData) obliqueS obliqueV.
Proof.
  split; [reflexivity|]. split; [reflexivity|]. split; [reflexivity|]. split; [reflexivity|].
  split; [intros k Hk; cbn [rows obliqueS] in Hk; small k; simpl; lra|].
  split; [intros k Hk; cbn [rows obliqueS] in Hk; small k; simpl; lra|]. change (rows (centred obliqueData)) with 4%nat. change (cols (centred obliqueData)) with 3%nat.
  split.
  - split; intros j k Hj Hk; small j; small k; unfold delta; simpl; field.
  - exists obliqueU. split.
    + split; intros j k Hj Hk; small j; small k; unfold delta, obliqueU; simpl; field.
    + intros n j Hn Hj. change (at_ (centred obliqueData) n j) with (at_ obliqueData n j - meanOf obliqueData j). rewrite oblique_mean by auto.
      small n; small j; unfold obliqueU; simpl; field.
Qed.

Lemma oblique_sv : sv obliqueS 0 = 42 /\ sv obliqueS 1 = 28 /\ sv obliqueS 2 = 14.
Proof. repeat split. Qed.
Lemma oblique_strict k l : (k < l < 3)%nat -> sv obliqueS l < sv obliqueS k.
Proof. intros H. destruct oblique_sv as (E0 & E1 & E2). small l; small k; rewrite ?E0, ?E1, ?E2; lra. Qed.

Lemma oblique_varies : varies obliqueData.
Proof.
  intros u Hu. rewrite (varianceAlong_svd _ _ _ _ u oblique_svd). apply Rdiv_lt_0_compat; [|simpl; lra].
  apply Rlt_le_trans with (rsum 3 (fun k => comp 3 (at_ obliqueV) k u * comp 3 (at_ obliqueV) k u)).
  - pose proof oblique_svd as (_ & _ & _ & _ & _ & _ & Ho & _). change (cols (centred obliqueData)) with 3%nat in Ho.
    rewrite (parseval 3 _ u u Ho). change (cols obliqueData) with 3%nat in Hu. lra.
  - apply rsum_le. intros k Hk. change (k < 3)%nat in Hk. pose proof (Rle_0_sqr (comp 3 (at_ obliqueV) k u)) as Q. unfold Rsqr in Q.
    assert (1 <= sv obliqueS k ^ 2) by (destruct oblique_sv as (E0 & E1 & E2); small k; rewrite ?E0, ?E1, ?E2; lra). cbn [pow] in *. change (cols obliqueData) with 3%nat. nra.
Qed.

Lemma oblique_total : 0 < totalVariance obliqueData.
Proof.
  rewrite (total_svd _ _ _ oblique_svd). apply Rdiv_lt_0_compat; [|simpl; lra]. destruct oblique_sv as (E0 & E1 & E2). change (cols obliqueData) with 3%nat. cbn [rsum]. rewrite E0, E1, E2. lra.
Qed.

Lemma coordinate_oblique u n : (n < 4)%nat ->
  coordinate obliqueData u n = at_ obliqueData n 0%nat * u 0%nat + at_ obliqueData n 1%nat * u 1%nat + at_ obliqueData n 2%nat * u 2%nat.
Proof.
  intros Hn. unfold coordinate, dot. change (cols obliqueData) with 3%nat. cbn [rsum].
  rewrite !oblique_mean by lia. ring.
Qed.

(** Oblique data, any valid decomposition: without whitening the outputs are correlated and the first output has less variance than
    the data have in some direction; with whitening the variance of the first output is not 1 and the outputs are correlated. *)
Theorem C78_components_refuted : exists X,
  rows X = 4%nat /\ cols X = 3%nat /\ varies X /\ (exists svd, decomposes svd (centred X)) /\
  forall svd junk, decomposes svd (centred X) ->
    (exists s Y, pca_fit svd junk (pca_new 3 false) X = Ok s /\ pca_transform s X = Ok Y /\
       covariance 4 Y 0 1 <> 0 /\ exists u, dot 3 u u = 1 /\ covariance 4 Y 0 0 < varianceAlong 4 X u) /\
    (exists s Y, pca_fit svd junk (pca_new 3 true) X = Ok s /\ pca_transform s X = Ok Y /\
       covariance 4 Y 0 1 <> 0 /\ covariance 4 Y 0 0 <> 1).
Proof.
  exists obliqueData. split; [reflexivity|]. split; [reflexivity|]. split; [exact oblique_varies|].
  split.
  { exists (fun _ => (obliqueS, obliqueV)). intros B _. exact oblique_svd. }
  intros svd junk Hsvd.
  assert (Hsq : sqrt (INR 4) = 2) by (replace (INR 4) with (2 * 2) by (simpl; ring); apply sqrt_square; lra).
  assert (H4 : INR 4 = 4) by (simpl; ring).
  assert (Hcase : forall wh, exists s Y, pca_fit svd junk (pca_new 3 wh) obliqueData = Ok s /\ pca_transform s obliqueData = Ok Y /\
     exists e0 e1 e2, e0 * e0 = 1 /\ e1 * e1 = 1 /\ e2 * e2 = 1 /\
     forall i j, (i < 2)%nat -> (j < 2)%nat -> covariance 4 Y i j =
       rsum 4 (fun n => (at_ obliqueData n 0%nat * (e0 * at_ obliqueV i 0%nat) + at_ obliqueData n 1%nat * (e1 * at_ obliqueV i 1%nat) + at_ obliqueData n 2%nat * (e2 * at_ obliqueV i 2%nat))
                      * (at_ obliqueData n 0%nat * (e0 * at_ obliqueV j 0%nat) + at_ obliqueData n 1%nat * (e1 * at_ obliqueV j 1%nat) + at_ obliqueData n 2%nat * (e2 * at_ obliqueV j 2%nat)))
       / 4 / (if wh then (at_ obliqueS i 0%nat / 2) * (at_ obliqueS j 0%nat / 2) else 1)).
  { intros wh. destruct (transform_mapped svd junk 3 wh obliqueData) as (s & Y & Sg & V & E & EY & (Y1 & Y2) & H & HM & _);
      [simpl; lia|simpl; lia|exact oblique_total|simpl; lia|auto|intros _; exact oblique_varies|].
    exists s, Y. split; auto. split; auto.
    assert (HU : forall k, (k < 3)%nat -> sv Sg k = sv obliqueS k /\ exists e, e * e = 1 /\ forall j, (j < 3)%nat -> at_ V j k = e * at_ obliqueV j k).
    { apply (svd_unique obliqueData); auto; [simpl; lia|exact oblique_svd|exact oblique_strict]. }
    destruct (HU 0%nat) as (S0 & e0 & He0 & F0); [lia|]. destruct (HU 1%nat) as (S1 & e1 & He1 & F1); [lia|]. destruct (HU 2%nat) as (S2 & e2 & He2 & F2); [lia|].
    exists e0, e1, e2. split; auto. split; auto. split; auto. intros i j Hi Hj.
    rewrite (mapped_covariance obliqueData Y _ 4 i j ltac:(simpl; lia) HM) by lia. change (rows obliqueData) with 4%nat. rewrite Hsq.
    set (q := fun k => if wh then / (at_ obliqueS k 0%nat / 2) else 1).
    assert (Hq : forall k, (k < 2)%nat -> (if wh then sv Sg k / 2 else 1) = / q k /\ q k <> 0).
    { intros k Hk. unfold q. destruct wh; [|split; [now rewrite Rinv_1|lra]]. destruct oblique_sv as (E0 & E1 & _). small k; [rewrite S0, E0|rewrite S1, E1]; simpl; split; try field; try lra. }
    assert (Hco : forall k n, (k < 2)%nat -> (n < 4)%nat -> coordinate obliqueData (fun j0 => if wh then at_ V k j0 / (sv Sg k / 2) else at_ V k j0) n
       = q k * (at_ obliqueData n 0%nat * (e0 * at_ obliqueV k 0%nat) + at_ obliqueData n 1%nat * (e1 * at_ obliqueV k 1%nat) + at_ obliqueData n 2%nat * (e2 * at_ obliqueV k 2%nat))).
    { intros k n Hk Hn. rewrite coordinate_oblique by auto. rewrite !F0, !F1, !F2 by lia. destruct (Hq k Hk) as (Q1 & Q2).
      unfold q in *. destruct wh; [|ring]. rewrite Q1. unfold Rdiv. rewrite Rinv_inv. ring. }
    rewrite (rsum_ext _ _ (fun n => q i * q j * ((at_ obliqueData n 0%nat * (e0 * at_ obliqueV i 0%nat) + at_ obliqueData n 1%nat * (e1 * at_ obliqueV i 1%nat) + at_ obliqueData n 2%nat * (e2 * at_ obliqueV i 2%nat))
       * (at_ obliqueData n 0%nat * (e0 * at_ obliqueV j 0%nat) + at_ obliqueData n 1%nat * (e1 * at_ obliqueV j 1%nat) + at_ obliqueData n 2%nat * (e2 * at_ obliqueV j 2%nat))))).
    2:{ intros n Hn. rewrite !Hco by auto. ring. }
    rewrite rsum_scal. unfold q. destruct wh; [|field].
    set (T := rsum 4 _). clearbody T. small i; small j; simpl; field. }
  assert (Hsign : forall e, e * e = 1 -> e = 1 \/ e = -1).
  { intros e He. assert (E : (e - 1) * (e + 1) = 0) by lra. apply Rmult_integral in E. lra. }
  split.
  - destruct (Hcase false) as (s & Y & E & EY & e0 & e1 & e2 & H0 & H1 & H2 & F). exists s, Y. split; auto. split; auto.
    rewrite !F by lia. split.
    + destruct (Hsign e0 H0) as [-> | ->], (Hsign e1 H1) as [-> | ->], (Hsign e2 H2) as [-> | ->]; simpl; lra.
    + exists (fun j => at_ obliqueV j 0%nat). split; [unfold dot; simpl; field|].
      rewrite (variance_direction 4 _ _ _ 0%nat oblique_svd) by (simpl; lia). destruct oblique_sv as (-> & _).
      destruct (Hsign e0 H0) as [-> | ->], (Hsign e1 H1) as [-> | ->], (Hsign e2 H2) as [-> | ->]; simpl; lra.
  - destruct (Hcase true) as (s & Y & E & EY & e0 & e1 & e2 & H0 & H1 & H2 & F). exists s, Y. split; auto. split; auto.
    rewrite !F by lia. split;
      destruct (Hsign e0 H0) as [-> | ->], (Hsign e1 H1) as [-> | ->], (Hsign e2 H2) as [-> | ->]; simpl; lra.
Qed.
Print Assumptions C78_components_refuted.

(** The hypotheses of the theorems above are met by the oblique data ... *)
Example oblique_meets svd : svd = (fun _ => (obliqueS, obliqueV)) ->
  (0 < rows obliqueData)%nat /\ (0 < cols obliqueData)%nat /\ 0 < totalVariance obliqueData /\ decomposes svd (centred obliqueData) /\ varies obliqueData.
Proof.
  intros ->. split; [simpl; lia|]. split; [simpl; lia|]. split; [exact oblique_total|]. split; [|exact oblique_varies]. intros B _. exact oblique_svd.
Qed.
(** ... and those of the partial theorem by data whose principal directions are the axes, in this order. *)
Definition axesData : mat := mkMat 4 2 (fun n j => nth j (nth n [[2; 1]; [2; -1]; [-2; 1]; [-2; -1]] []) 0).
Definition axesS : mat := mkMat 2 1 (fun k _ => nth k [4; 2] 0).
Definition axesV : mat := mkMat 2 2 (fun i k => delta i k).
Definition axesU (n k : nat) : R := nth k (nth n [[1; 1; 1; 1]; [1; -1; -1; 1]; [-1; 1; -1; 1]; [-1; -1; 1; 1]] []) 0 / 2.
Example axes_meet svd : svd = (fun _ => (axesS, axesV)) ->
  decomposes svd (centred axesData) /\ 0 < totalVariance axesData /\
  forall B i j, meq (centred axesData) B -> (i < 2)%nat -> (j < 2)%nat -> at_ (snd (svd B)) i j = at_ (snd (svd B)) j i.
Proof.
  intros ->. assert (M : forall j, (j < 2)%nat -> meanOf axesData j = 0) by (intros j Hj; small j; unfold meanOf; simpl; field).
  split; [|split].
  - intros B _. cbn [fst snd].
    split; [reflexivity|]. split; [reflexivity|]. split; [reflexivity|]. split; [reflexivity|].
    split; [intros k Hk; cbn [rows axesS] in Hk; small k; simpl; lra|].
    split; [intros k Hk; cbn [rows axesS] in Hk; small k; simpl; lra|]. change (rows (centred axesData)) with 4%nat. change (cols (centred axesData)) with 2%nat.
    split.
    + split; intros j k Hj Hk; small j; small k; simpl; unfold delta; simpl; ring.
    + exists axesU. split.
      * split; intros j k Hj Hk; small j; small k; unfold delta, axesU; simpl; field.
      * intros n j Hn Hj. change (at_ (centred axesData) n j) with (at_ axesData n j - meanOf axesData j). rewrite M by auto.
        small n; small j; simpl; unfold axesU, delta; simpl; field.
  - unfold totalVariance, covariance. simpl. change (meanOf axesData 0) with (meanOf axesData 0). rewrite !M by lia. lra.
  - intros B i j _ Hi Hj. simpl. apply delta_sym.
Qed.

(** * C79: ZCA whitening *)
Lemma zca_mapped svd z0 X : (1 < rows X)%nat -> (0 < cols X)%nat -> decomposes svd (covarianceMatrix (INR (rows X) - 1) X) ->
  exists z Y Sg V, zca_fit svd z0 X = Ok z /\ zca_transform z X = Ok Y /\ size_is Y (rows X) (cols X) /\
    is_svd (covarianceMatrix (INR (rows X) - 1) X) Sg V /\
    mapped X Y (fun k j => rsum (cols X) (fun l => at_ V k l / sqrt (sv Sg l + eps) * at_ V j l)) /\
    (forall j k, (j < cols X)%nat -> (k < cols X)%nat -> covariance (INR (rows X) - 1) Y j k
       = rsum (cols X) (fun l => sv Sg l / (sv Sg l + eps) * (at_ V j l * at_ V k l))).
Proof.
  intros HN HD Hsvd. destruct (zca_fit_ok svd z0 X HN Hsvd) as (z & Sg & V & E & H & SM & FM & SW & FW).
  destruct (zca_transform_ok z X (cols X) SM SW HD eq_refl) as (Y & EY & (Y1 & Y2) & F).
  exists z, Y, Sg, V. split; auto. split; auto. split; [split; auto|]. split; auto.
  assert (HM : mapped X Y (fun k j => rsum (cols X) (fun l => at_ V k l / sqrt (sv Sg l + eps) * at_ V j l))).
  { split; auto. intros n k Hn Hk. rewrite F by lia. apply dot_ext; intros j Hj; [now rewrite FM|now rewrite FW by lia]. }
  split; auto. intros j k Hj Hk. rewrite (mapped_covariance X Y _ _ j k ltac:(lia) HM) by lia.
  assert (Hc : 0 < INR (rows X) - 1) by (apply lt_INR in HN; simpl in HN; lra).
  rewrite (cov_eigen _ X Sg V _ _ Hc H).
  pose proof H as (_ & _ & _ & _ & _ & _ & Ho & _). change (cols (covarianceMatrix (INR (rows X) - 1) X)) with (cols X) in Ho.
  assert (Hcomp : forall k l, (k < cols X)%nat -> (l < cols X)%nat ->
    comp (cols X) (at_ V) l (fun j => rsum (cols X) (fun l => at_ V k l / sqrt (sv Sg l + eps) * at_ V j l)) = at_ V k l / sqrt (sv Sg l + eps)).
  { intros k' l Hk' Hl. unfold comp. rewrite dot_comm, (dot_sum (cols X) (cols X) (fun l j => at_ V k' l / sqrt (sv Sg l + eps) * at_ V j l)).
    rewrite (rsum_ext _ _ (fun i => delta l i * (at_ V k' i / sqrt (sv Sg i + eps)))).
    - now rewrite (rsum_delta_l (cols X) l (fun i => at_ V k' i / sqrt (sv Sg i + eps))).
    - intros i Hi. rewrite (dot_scal (cols X) (at_ V k' i / sqrt (sv Sg i + eps)) (fun j => at_ V j i)).
      change (dot (cols X) (fun a => at_ V a i) (fun b => at_ V b l)) with (comp (cols X) (at_ V) i (fun a => at_ V a l)).
      rewrite comp_self by auto. rewrite delta_sym. ring. }
  apply rsum_ext. intros l Hl. rewrite !Hcomp by auto.
  pose proof (sv_nonneg _ _ _ H l) as Hn. assert (He : 0 < sv Sg l + eps) by (unfold eps; lra). pose proof (sqrt_lt_R0 _ He).
  replace (sv Sg l / (sv Sg l + eps)) with (sv Sg l / (sqrt (sv Sg l + eps) * sqrt (sv Sg l + eps))) by (rewrite sqrt_sqrt by lra; auto).
  field. lra.
Qed.

(** For all data with at least two rows and every valid decomposition: if the variance of the data is at least [m] in every direction, then
    the covariance matrix of the transformed data differs from the identity by at most 1e-5 / (m + 1e-5) in each entry.
    The mean is 0, and no direction is amplified beyond variance 1, also if the data do not vary in some directions ([m] = 0). *)
Theorem C79_whitening svd z0 X m :
  (1 < rows X)%nat -> (0 < cols X)%nat -> 0 <= m ->
  (forall u, m * dot (cols X) u u <= varianceAlong (INR (rows X) - 1) X u) ->
  decomposes svd (covarianceMatrix (INR (rows X) - 1) X) ->
  exists z Y, zca_fit svd z0 X = Ok z /\ zca_transform z X = Ok Y /\ rows Y = rows X /\ cols Y = cols X /\
    (forall j, (j < cols X)%nat -> meanOf Y j = 0) /\
    (forall j k, (j < cols X)%nat -> (k < cols X)%nat ->
       Rabs (covariance (INR (rows X) - 1) Y j k - delta j k) <= / 100000 / (m + / 100000)) /\
    (forall u, varianceAlong (INR (rows X) - 1) Y u <= dot (cols X) u u).
Proof.
  intros HN HD Hm Hvar Hsvd. destruct (zca_mapped svd z0 X HN HD Hsvd) as (z & Y & Sg & V & E & EY & (Y1 & Y2) & H & HM & HC).
  assert (Hc : 0 < INR (rows X) - 1) by (apply lt_INR in HN; simpl in HN; lra).
  exists z, Y. repeat split; auto.
  - intros j Hj. apply (mapped_mean X Y _ j ltac:(lia) HM). lia.
  - intros j k Hj Hk. rewrite HC by auto.
    pose proof H as (_ & _ & _ & _ & _ & _ & Ho & _). change (cols (covarianceMatrix (INR (rows X) - 1) X)) with (cols X) in Ho.
    assert (Hs : forall l, (l < cols X)%nat -> m <= sv Sg l).
    { intros l Hl. pose proof (Hvar (fun j => at_ V j l)) as L. rewrite (unit_direction _ _ l Ho Hl) in L. unfold varianceAlong in L.
      rewrite (rsum_ext _ _ (fun n => coordinate X (fun j => at_ V j l) n * coordinate X (fun j => at_ V j l) n)) in L by (intros; ring).
      rewrite (cov_eigen _ X Sg V _ _ Hc H) in L.
      rewrite (rsum_ext _ _ (fun i => delta l i * (sv Sg i * delta l i))) in L by (intros; rewrite !comp_self by auto; rewrite (delta_sym _ l); ring).
      rewrite rsum_delta_l, delta_same in L by auto. lra. }
    assert (Hd : delta j k = rsum (cols X) (fun l => at_ V j l * at_ V k l)) by (destruct Ho as (_ & Ho); now rewrite Ho).
    rewrite Hd. rewrite <- rsum_minus.
    rewrite (rsum_ext _ _ (fun l => - (eps / (sv Sg l + eps)) * (at_ V j l * at_ V k l))).
    2:{ intros l Hl. pose proof (Hs l Hl). unfold eps. field. lra. }
    fold eps. assert (He : 0 < eps) by (unfold eps; lra).
    assert (Habs : forall n f g, (forall i, (i < n)%nat -> Rabs (f i) <= g i) -> Rabs (rsum n f) <= rsum n g).
    { clear. induction n as [|n IH]; intros f g Hf; simpl; [rewrite Rabs_R0; lra|].
      eapply Rle_trans; [apply Rabs_triang|]. apply Rplus_le_compat; [apply IH; auto|auto]. }
    eapply Rle_trans.
    { apply (Habs (cols X) _ (fun l => eps / (m + eps) * ((at_ V j l * at_ V j l) * / 2 + (at_ V k l * at_ V k l) * / 2))).
      intros l Hl. pose proof (Hs l Hl) as Hsl. rewrite Rabs_mult. apply Rmult_le_compat; try apply Rabs_pos.
      - rewrite Rabs_Ropp, Rabs_pos_eq.
        + apply Rmult_le_compat_l; [lra|]. apply Rinv_le_contravar; lra.
        + apply Rlt_le, Rdiv_lt_0_compat; lra.
      - pose proof (Rle_0_sqr (at_ V j l - at_ V k l)) as Q1. pose proof (Rle_0_sqr (at_ V j l + at_ V k l)) as Q2. unfold Rsqr in Q1, Q2.
        apply Rabs_le. split; lra. }
    rewrite rsum_scal, rsum_plus, !rsum_scal_r. destruct Ho as (_ & Ho). rewrite !Ho, !delta_same by auto.
    right. field. lra.
  - intros u. unfold varianceAlong. rewrite Y1.
    set (y := fun j : nat => rsum (cols X) (fun k => u k * rsum (cols X) (fun l => at_ V k l / sqrt (sv Sg l + eps) * at_ V j l))).
    rewrite (rsum_ext _ _ (fun n => coordinate X y n * coordinate X y n)).
    2:{ intros n Hn. rewrite (mapped_coordinate X Y _ u n ltac:(lia) HM Hn). rewrite Y2. fold y. ring. }
    rewrite (cov_eigen _ X Sg V _ _ Hc H).
    pose proof H as (_ & _ & _ & _ & _ & _ & Ho & _). change (cols (covarianceMatrix (INR (rows X) - 1) X)) with (cols X) in Ho.
    rewrite <- (parseval _ _ u u Ho). apply rsum_le. intros l Hl.
    pose proof (sv_nonneg _ _ _ H l) as Hn. assert (He : 0 < sv Sg l + eps) by (unfold eps; lra). pose proof (sqrt_lt_R0 _ He) as Hq.
    assert (Hy : comp (cols X) (at_ V) l y = comp (cols X) (at_ V) l u / sqrt (sv Sg l + eps)).
    { unfold comp at 1. rewrite dot_comm. unfold y.
      rewrite (dot_sum (cols X) (cols X) (fun k j => u k * rsum (cols X) (fun l => at_ V k l / sqrt (sv Sg l + eps) * at_ V j l))).
      unfold comp, Rdiv, dot at 2. rewrite <- rsum_scal_r. apply rsum_ext. intros k Hk.
      rewrite (dot_scal (cols X) (u k) (fun j => rsum (cols X) (fun l => at_ V k l / sqrt (sv Sg l + eps) * at_ V j l))).
      rewrite (dot_sum (cols X) (cols X) (fun l j => at_ V k l / sqrt (sv Sg l + eps) * at_ V j l)).
      rewrite (rsum_ext _ _ (fun i => delta l i * (at_ V k i / sqrt (sv Sg i + eps)))).
      - rewrite (rsum_delta_l (cols X) l (fun i => at_ V k i / sqrt (sv Sg i + eps))) by auto. unfold Rdiv. ring.
      - intros i Hi. rewrite (dot_scal (cols X) (at_ V k i / sqrt (sv Sg i + eps)) (fun j => at_ V j i)).
        change (dot (cols X) (fun a => at_ V a i) (fun b => at_ V b l)) with (comp (cols X) (at_ V) i (fun a => at_ V a l)).
        rewrite comp_self by auto. rewrite delta_sym. ring. }
    rewrite Hy. set (a := comp (cols X) (at_ V) l u).
    replace (sv Sg l * (a / sqrt (sv Sg l + eps) * (a / sqrt (sv Sg l + eps)))) with (sv Sg l / (sqrt (sv Sg l + eps) * sqrt (sv Sg l + eps)) * (a * a)) by (field; lra).
    rewrite sqrt_sqrt by lra. rewrite <- (Rmult_1_l (a * a)) at 2. apply Rmult_le_compat_r; [nra|].
    apply Rmult_le_reg_r with (sv Sg l + eps); auto. unfold Rdiv. rewrite Rmult_assoc, Rinv_l by lra. unfold eps. lra.
Qed.
Print Assumptions C79_whitening.

(** The documentation says that the covariance matrix will be I.  It never is. *)
Theorem C79_exact_refuted svd z0 X : (1 < rows X)%nat -> (0 < cols X)%nat -> decomposes svd (covarianceMatrix (INR (rows X) - 1) X) ->
  exists z Y, zca_fit svd z0 X = Ok z /\ zca_transform z X = Ok Y /\
    exists j, (j < cols X)%nat /\ covariance (INR (rows X) - 1) Y j j < 1.
Proof.
  intros HN HD Hsvd. destruct (zca_mapped svd z0 X HN HD Hsvd) as (z & Y & Sg & V & E & EY & (Y1 & Y2) & H & HM & HC).
  exists z, Y. split; auto. split; auto. exists 0%nat. split; auto. rewrite HC by auto.
  pose proof H as (_ & _ & _ & _ & _ & _ & (_ & Ho) & _). change (cols (covarianceMatrix (INR (rows X) - 1) X)) with (cols X) in Ho.
  pose proof (Ho 0%nat 0%nat HD HD) as E1. rewrite delta_same in E1. rewrite <- E1.
  apply Rminus_gt_0_lt. rewrite <- rsum_minus.
  assert (Hnn : forall l, (l < cols X)%nat -> 0 <= at_ V 0 l * at_ V 0 l - sv Sg l / (sv Sg l + eps) * (at_ V 0 l * at_ V 0 l)
     /\ (at_ V 0 l * at_ V 0 l - sv Sg l / (sv Sg l + eps) * (at_ V 0 l * at_ V 0 l) = 0 -> at_ V 0 l * at_ V 0 l = 0)).
  { intros l Hl. pose proof (sv_nonneg _ _ _ H l) as Hn. assert (He : 0 < eps) by (unfold eps; lra).
    replace (at_ V 0 l * at_ V 0 l - sv Sg l / (sv Sg l + eps) * (at_ V 0 l * at_ V 0 l)) with (eps / (sv Sg l + eps) * (at_ V 0 l * at_ V 0 l)) by (field; lra).
    assert (0 < eps / (sv Sg l + eps)) by (apply Rdiv_lt_0_compat; lra). split; [apply Rmult_le_pos; nra|]. intros E0. apply Rmult_integral in E0. lra. }
  destruct (Rle_lt_or_eq_dec 0 (rsum (cols X) (fun i => at_ V 0 i * at_ V 0 i - sv Sg i / (sv Sg i + eps) * (at_ V 0 i * at_ V 0 i)))) as [|E0]; auto.
  - apply rsum_nonneg. intros. now apply Hnn.
  - exfalso. symmetry in E0. pose proof (rsum_nonneg_0 _ _ (fun l Hl => proj1 (Hnn l Hl)) E0) as Hz. cbv beta in Hz.
    rewrite rsum_0 in E1; [lra|]. intros i Hi. apply Hnn; auto.
Qed.
Print Assumptions C79_exact_refuted.

(** Zero phase: the transformation of any data is the multiplication of the centred data with a symmetric, positive definite matrix. *)
Theorem C79_zero_phase svd z0 X X' : (1 < rows X)%nat -> (0 < cols X)%nat -> decomposes svd (covarianceMatrix (INR (rows X) - 1) X) -> cols X' = cols X ->
  exists z Y W, zca_fit svd z0 X = Ok z /\ zca_transform z X' = Ok Y /\ rows Y = rows X' /\ cols Y = cols X /\
    (forall n k, (n < rows X')%nat -> (k < cols X)%nat -> at_ Y n k = rsum (cols X) (fun j => (at_ X' n j - meanOf X j) * W j k)) /\
    (forall j k, (j < cols X)%nat -> (k < cols X)%nat -> W j k = W k j) /\
    (forall u, 0 < dot (cols X) u u -> 0 < rsum (cols X) (fun j => rsum (cols X) (fun k => u j * W j k * u k))).
Proof.
  intros HN HD Hsvd HX'. destruct (zca_fit_ok svd z0 X HN Hsvd) as (z & Sg & V & E & H & SM & FM & SW & FW).
  destruct (zca_transform_ok z X' (cols X) SM SW HD HX') as (Y & EY & (Y1 & Y2) & F).
  assert (Hsym : forall j k, (j < cols X)%nat -> (k < cols X)%nat -> at_ (zW z) j k = at_ (zW z) k j).
  { intros j k Hj Hk. rewrite !FW by auto. apply rsum_ext. intros. unfold Rdiv. ring. }
  exists z, Y, (at_ (zW z)). repeat split; auto.
  - intros n k Hn Hk. rewrite F by auto. unfold dot. apply rsum_ext. intros j Hj. now rewrite FM, (Hsym j k).
  - intros u Hu. pose proof H as (_ & _ & _ & _ & _ & _ & Ho & _). change (cols (covarianceMatrix (INR (rows X) - 1) X)) with (cols X) in Ho.
    assert (Hq : rsum (cols X) (fun j => rsum (cols X) (fun k => u j * at_ (zW z) j k * u k))
       = rsum (cols X) (fun l => / sqrt (sv Sg l + eps) * (comp (cols X) (at_ V) l u * comp (cols X) (at_ V) l u))).
    { transitivity (rsum (cols X) (fun j => rsum (cols X) (fun k => rsum (cols X) (fun l => / sqrt (sv Sg l + eps) * ((at_ V j l * u j) * (at_ V k l * u k)))))).
      - apply rsum_ext. intros j Hj. apply rsum_ext. intros k Hk. rewrite FW by auto. rewrite <- rsum_scal, <- rsum_scal_r. apply rsum_ext. intros. unfold Rdiv. ring.
      - transitivity (rsum (cols X) (fun j => rsum (cols X) (fun l => / sqrt (sv Sg l + eps) * ((at_ V j l * u j) * comp (cols X) (at_ V) l u)))).
        + apply rsum_ext. intros j Hj. rewrite rsum_swap. apply rsum_ext. intros l Hl. unfold comp, dot. rewrite <- !rsum_scal. auto.
        + rewrite rsum_swap. apply rsum_ext. intros l Hl. rewrite rsum_scal, rsum_scal_r. auto. }
    rewrite Hq. rewrite <- (parseval _ _ u u Ho) in Hu.
    assert (Hw : forall l, 0 < / sqrt (sv Sg l + eps)).
    { intros l. apply Rinv_0_lt_compat, sqrt_lt_R0. pose proof (sv_nonneg _ _ _ H l). unfold eps. lra. }
    assert (Hnn : forall l, (l < cols X)%nat -> 0 <= / sqrt (sv Sg l + eps) * (comp (cols X) (at_ V) l u * comp (cols X) (at_ V) l u)).
    { intros l Hl. apply Rmult_le_pos; [apply Rlt_le, Hw|nra]. }
    destruct (Rle_lt_or_eq_dec _ _ (rsum_nonneg _ _ Hnn)) as [|E0]; auto.
    exfalso. symmetry in E0. pose proof (rsum_nonneg_0 _ _ Hnn E0) as Hz. cbv beta in Hz. rewrite rsum_0 in Hu; [lra|].
    intros l Hl. specialize (Hz l Hl). specialize (Hw l). apply Rmult_integral in Hz. lra.
Qed.
Print Assumptions C79_zero_phase.

(** The axes data meet the hypotheses with variance at least 4/3 in every direction. *)
Definition axesCov : mat := mkMat 2 1 (fun k _ => nth k [16 / 3; 4 / 3] 0).
Example axes_meet_zca svd : svd = (fun _ => (axesCov, axesV)) ->
  decomposes svd (covarianceMatrix (INR (rows axesData) - 1) axesData) /\
  forall u, 4 / 3 * dot 2 u u <= varianceAlong (INR (rows axesData) - 1) axesData u.
Proof.
  intros ->. assert (M : forall j, (j < 2)%nat -> meanOf axesData j = 0) by (intros j Hj; small j; unfold meanOf; simpl; field).
  split.
  - intros B _. cbn [fst snd].
    split; [reflexivity|]. split; [reflexivity|]. split; [reflexivity|]. split; [reflexivity|].
    split; [intros k Hk; cbn [rows axesCov] in Hk; small k; simpl; lra|].
    split; [intros k Hk; cbn [rows axesCov] in Hk; small k; simpl; lra|].
    change (rows (covarianceMatrix (INR (rows axesData) - 1) axesData)) with 2%nat. change (cols (covarianceMatrix (INR (rows axesData) - 1) axesData)) with 2%nat.
    split; [split; intros j k Hj Hk; small j; small k; simpl; unfold delta; simpl; ring|].
    exists delta. split; [split; intros j k Hj Hk; small j; small k; simpl; unfold delta; simpl; ring|].
    intros n j Hn Hj. cbn [at_ covarianceMatrix]. unfold covariance. rewrite !M by auto. small n; small j; simpl; unfold delta; simpl; field.
  - intros u. unfold varianceAlong, coordinate, dot. change (cols axesData) with 2%nat. change (rows axesData) with 4%nat. cbn [rsum]. rewrite !M by lia. simpl. nra.
Qed.

(** * C80: rows are treated separately, misuse is detected *)
Theorem C80_rows_separately p z X X' Y Y' n n' :
  (n < rows X)%nat -> (n' < rows X')%nat -> (forall j, (j < cols X)%nat -> at_ X n j = at_ X' n' j) ->
  (pca_transform p X = Ok Y -> pca_transform p X' = Ok Y' -> forall k, (k < components p)%nat -> at_ Y n k = at_ Y' n' k) /\
  (zca_transform z X = Ok Y -> zca_transform z X' = Ok Y' -> forall k, (k < rows (zW z))%nat -> at_ Y n k = at_ Y' n' k).
Proof.
  intros Hn Hn' HX. split.
  - intros E E' k Hk. unfold pca_transform in E, E'. destruct (0 <? rows (pmean p)); [|discriminate]. cbn [check bind] in E, E'.
    destruct (Nat.eqb_spec (cols X) (rows (pmean p))) as [C|]; [|discriminate]. destruct (Nat.eqb_spec (cols X') (rows (pmean p))) as [C'|]; [|discriminate].
    cbn [check bind] in E, E'. rewrite subtractMean_ok in E by auto. rewrite subtractMean_ok in E' by auto. cbn [bind] in E, E'.
    unfold mblock in E, E'. destruct (_ && _)%bool; [|discriminate]. cbn [bind] in E, E'. unfold mmul in E, E'. cbn [rows cols mtrans] in E, E'.
    destruct (Nat.eqb_spec (cols X) (cols (pW p))); [|discriminate]. destruct (Nat.eqb_spec (cols X') (cols (pW p))); [|discriminate].
    injection E as <-. injection E' as <-. cbn [at_ mtrans]. replace (cols X') with (cols X) by congruence. apply rsum_ext. intros j Hj. now rewrite HX.
  - intros E E' k Hk. unfold zca_transform in E, E'. destruct (0 <? rows (zmean z)); [|discriminate]. cbn [check bind] in E, E'.
    destruct (Nat.eqb_spec (cols X) (rows (zmean z))) as [C|]; [|discriminate]. destruct (Nat.eqb_spec (cols X') (rows (zmean z))) as [C'|]; [|discriminate].
    cbn [check bind] in E, E'. rewrite subtractMean_ok in E by auto. rewrite subtractMean_ok in E' by auto. cbn [bind] in E, E'.
    unfold mmul in E, E'. cbn [rows cols mtrans] in E, E'.
    destruct (Nat.eqb_spec (cols X) (cols (zW z))); [|discriminate]. destruct (Nat.eqb_spec (cols X') (cols (zW z))); [|discriminate].
    injection E as <-. injection E' as <-. cbn [at_ mtrans]. replace (cols X') with (cols X) by congruence. apply rsum_ext. intros j Hj. now rewrite HX.
Qed.
Print Assumptions C80_rows_separately.

(** Before fit, and with a number of columns that differs from the training data, transform aborts. *)
Theorem C80_misuse svd junk comps wh X X' s z :
  pca_transform (pca_new comps wh) X' = Abort /\ zca_transform zca_new X' = Abort /\
  (cols X' <> cols X -> pca_fit svd junk (pca_new comps wh) X = Ok s -> pca_transform s X' = Abort) /\
  (cols X' <> cols X -> zca_fit svd zca_new X = Ok z -> zca_transform z X' = Abort).
Proof.
  split; [apply pca_transform_aborts; left; reflexivity|]. split; [apply zca_transform_aborts; left; reflexivity|]. split.
  - intros Hne E. apply pca_transform_aborts. right. unfold pca_fit, meanVector in E. destruct (rows X =? 0); [discriminate|]. cbn [bind] in E.
    rewrite subtractMean_ok in E by reflexivity. cbn [bind] in E. destruct (svd _) as [Sg V] in E.
    destruct (if whiten (pca_new comps wh) then _ else _) in E; try discriminate. cbn [bind] in E. cbv zeta in E. destruct (Reqb _ 0) in E; [discriminate|].
    injection E as <-. exact Hne.
  - intros Hne E. apply zca_transform_aborts. right. unfold zca_fit, meanVector in E. destruct (rows X =? 0); [discriminate|]. cbn [bind] in E.
    rewrite subtractMean_ok in E by reflexivity. cbn [bind] in E. destruct (mmul _ _) in E; try discriminate. cbn [bind] in E.
    destruct (rows X =? 1) in E; [discriminate|]. cbv zeta in E. destruct (svd _) as [Sg V] in E.
    destruct (for_ _ _ _) in E; try discriminate. cbn [bind] in E. destruct (mmul _ _) in E; try discriminate. cbn [bind] in E.
    injection E as <-. exact Hne.
Qed.
Print Assumptions C80_misuse.
