(** Proofs about PCA and ZCA whitening. *)
From Verif Require Import Base BaseFacts Matrix RSum MatOps PCA_Model PCA_Spec.
Local Open Scope R_scope.

(** * Linear algebra *)
Lemma delta_same i : delta i i = 1.
Proof. unfold delta. now rewrite Nat.eqb_refl. Qed.
Lemma delta_other i j : i <> j -> delta i j = 0.
Proof. intros H. unfold delta. apply Nat.eqb_neq in H. now rewrite H. Qed.
Lemma delta_sym i j : delta i j = delta j i.
Proof. unfold delta. now rewrite Nat.eqb_sym. Qed.

Lemma rsum_delta_l n k f : (k < n)%nat -> rsum n (fun i => delta k i * f i) = f k.
Proof.
  intros H. rewrite (rsum_single n k) by (auto; intros i Hi Hik; rewrite delta_other by auto; ring). rewrite delta_same. ring.
Qed.
Lemma rsum_delta_r n k f : (k < n)%nat -> rsum n (fun i => f i * delta i k) = f k.
Proof. intros H. rewrite <- (rsum_delta_l n k f H) at 1. apply rsum_ext. intros. rewrite delta_sym. ring. Qed.

Lemma rsum_extend n m f : (m <= n)%nat -> (forall i, (m <= i < n)%nat -> f i = 0) -> rsum n f = rsum m f.
Proof.
  intros H H0. replace n with (m + (n - m))%nat by lia. rewrite rsum_app, (rsum_0 (n - m)); [ring|]. intros i Hi. apply H0. lia.
Qed.

Lemma dot_ext n u v u' v' : (forall i, (i < n)%nat -> u i = u' i) -> (forall i, (i < n)%nat -> v i = v' i) -> dot n u v = dot n u' v'.
Proof. intros H H'. apply rsum_ext. intros i Hi. now rewrite H, H'. Qed.
Lemma dot_comm n u v : dot n u v = dot n v u.
Proof. apply rsum_ext. intros. ring. Qed.
Lemma dot_nonneg n u : 0 <= dot n u u.
Proof. apply rsum_nonneg. intros. nra. Qed.
Lemma dot_0 n u : dot n u u = 0 -> forall i, (i < n)%nat -> u i = 0.
Proof.
  intros H i Hi. pose proof (rsum_nonneg_0 n (fun i => u i * u i) ltac:(intros; cbv beta; nra) H i Hi) as E. cbv beta in E. nra.
Qed.
Lemma dot_minus n u v w : dot n (fun i => u i - v i) w = dot n u w - dot n v w.
Proof. unfold dot. rewrite <- rsum_minus. apply rsum_ext. intros. ring. Qed.
Lemma dot_plus n u v w : dot n (fun i => u i + v i) w = dot n u w + dot n v w.
Proof. unfold dot. rewrite <- rsum_plus. apply rsum_ext. intros. ring. Qed.
Lemma dot_scal n c u w : dot n (fun i => c * u i) w = c * dot n u w.
Proof. unfold dot. rewrite <- rsum_scal. apply rsum_ext. intros. ring. Qed.
Lemma dot_sum n m (f : nat -> nat -> R) w : dot n (fun i => rsum m (fun k => f k i)) w = rsum m (fun k => dot n (f k) w).
Proof.
  unfold dot. rewrite rsum_swap. apply rsum_ext. intros i Hi. rewrite <- rsum_scal_r. apply rsum_ext. auto.
Qed.

(** component [k] in the basis of the columns of [v] *)
Definition comp (n : nat) (v : nat -> nat -> R) (k : nat) (u : nat -> R) : R := dot n (fun i => v i k) u.

Lemma parseval n v u w : orthogonal n v -> rsum n (fun k => comp n v k u * comp n v k w) = dot n u w.
Proof.
  intros (_ & H). unfold comp, dot.
  transitivity (rsum n (fun i => rsum n (fun j => rsum n (fun k => v i k * v j k) * (u i * w j)))).
  - transitivity (rsum n (fun k => rsum n (fun i => rsum n (fun j => v i k * u i * (v j k * w j))))).
    { apply rsum_ext. intros k Hk. rewrite <- rsum_scal_r. apply rsum_ext. intros i Hi. rewrite <- rsum_scal. auto. }
    rewrite rsum_swap. apply rsum_ext. intros i Hi. rewrite rsum_swap. apply rsum_ext. intros j Hj.
    rewrite <- rsum_scal_r. apply rsum_ext. intros. ring.
  - apply rsum_ext. intros i Hi. transitivity (rsum n (fun j => delta i j * (u i * w j))).
    { apply rsum_ext. intros j Hj. now rewrite H. }
    now rewrite (rsum_delta_l n i (fun j => u i * w j)).
Qed.

Lemma expand n v u j : orthogonal n v -> (j < n)%nat -> u j = rsum n (fun k => v j k * comp n v k u).
Proof.
  intros Ho Hj. pose proof (parseval n v (fun i => delta j i) u Ho) as E.
  unfold dot in E. rewrite (rsum_delta_l n j u Hj) in E. rewrite <- E. apply rsum_ext. intros k Hk. f_equal.
  unfold comp, dot. rewrite (rsum_ext _ _ (fun i => delta j i * v i k)) by (intros; ring). now rewrite (rsum_delta_l n j (fun i => v i k)).
Qed.

Lemma comp_self n v k l : orthogonal n v -> (k < n)%nat -> (l < n)%nat -> comp n v k (fun i => v i l) = delta k l.
Proof. intros (H & _) Hk Hl. apply (H k l Hk Hl). Qed.

Lemma vectors_equal n u w : (forall x, dot n u x = dot n w x) -> forall i, (i < n)%nat -> u i = w i.
Proof.
  intros H i Hi. pose proof (H (fun j => delta i j)) as E. unfold dot in E.
  rewrite (rsum_ext _ (fun j => u j * delta i j) (fun j => delta i j * u j)), (rsum_ext _ (fun j => w j * delta i j) (fun j => delta i j * w j)) in E by (intros; ring).
  now rewrite !(rsum_delta_l n i) in E.
Qed.

(** * Singular value decompositions *)
(** singular value, continued with zeros *)
Definition sv (Sg : mat) (k : nat) : R := if Nat.ltb k (rows Sg) then at_ Sg k 0%nat else 0.

Lemma sv_nonneg A Sg V : is_svd A Sg V -> forall k, 0 <= sv Sg k.
Proof. intros (_ & _ & _ & _ & H & _) k. unfold sv. destruct (Nat.ltb_spec k (rows Sg)); auto. lra. Qed.

Lemma sv_sorted A Sg V : is_svd A Sg V -> forall k l, (k <= l)%nat -> sv Sg l <= sv Sg k.
Proof.
  intros Hs k l Hkl. pose proof (sv_nonneg _ _ _ Hs) as Hn. destruct Hs as (_ & _ & _ & _ & _ & H & _).
  induction Hkl as [|l Hkl IH]; [lra|]. eapply Rle_trans; [|exact IH]. unfold sv at 1.
  destruct (Nat.ltb_spec (S l) (rows Sg)); [|apply Hn]. unfold sv. destruct (Nat.ltb_spec l (rows Sg)); [auto|lia].
Qed.

Lemma svd_gram A Sg V u w : is_svd A Sg V ->
  rsum (rows A) (fun n => dot (cols A) (at_ A n) u * dot (cols A) (at_ A n) w)
  = rsum (cols A) (fun k => sv Sg k ^ 2 * (comp (cols A) (at_ V) k u * comp (cols A) (at_ V) k w)).
Proof.
  intros (HS & _ & HV & _ & _ & _ & _ & U & (HU & _) & HA).
  assert (Hd : forall n x, (n < rows A)%nat -> dot (cols A) (at_ A n) x = rsum (rows Sg) (fun k => U n k * (at_ Sg k 0%nat * comp (cols A) (at_ V) k x))).
  { intros n x Hn. rewrite (dot_ext _ _ x (fun j => rsum (rows Sg) (fun k => U n k * at_ Sg k 0%nat * at_ V j k)) x) by auto.
    rewrite (dot_sum (cols A) (rows Sg) (fun k j => U n k * at_ Sg k 0%nat * at_ V j k)). apply rsum_ext. intros k Hk.
    unfold comp. rewrite (dot_scal (cols A) (U n k * at_ Sg k 0%nat) (fun j => at_ V j k)). ring. }
  transitivity (rsum (rows A) (fun n => rsum (rows Sg) (fun k => rsum (rows Sg) (fun l =>
     U n k * U n l * (at_ Sg k 0%nat * comp (cols A) (at_ V) k u * (at_ Sg l 0%nat * comp (cols A) (at_ V) l w)))))).
  { apply rsum_ext. intros n Hn. rewrite !Hd by auto. rewrite <- rsum_scal_r. apply rsum_ext. intros k Hk. rewrite <- rsum_scal. apply rsum_ext. intros. ring. }
  rewrite rsum_swap.
  transitivity (rsum (rows Sg) (fun k => sv Sg k ^ 2 * (comp (cols A) (at_ V) k u * comp (cols A) (at_ V) k w))).
  - apply rsum_ext. intros k Hk. rewrite rsum_swap.
    transitivity (rsum (rows Sg) (fun l => delta k l * (at_ Sg k 0%nat * comp (cols A) (at_ V) k u * (at_ Sg l 0%nat * comp (cols A) (at_ V) l w)))).
    { apply rsum_ext. intros l Hl. rewrite rsum_scal_r. rewrite HU by lia. auto. }
    rewrite (rsum_delta_l (rows Sg) k (fun l => at_ Sg k 0%nat * comp (cols A) (at_ V) k u * (at_ Sg l 0%nat * comp (cols A) (at_ V) l w)) Hk).
    unfold sv. replace (k <? rows Sg) with true by (symmetry; now apply Nat.ltb_lt). ring.
  - symmetry. apply rsum_extend; [lia|]. intros i Hi. unfold sv. replace (i <? rows Sg) with false by (symmetry; apply Nat.ltb_ge; lia). ring.
Qed.

(** * Data *)
Lemma coordinate_centred X u n : coordinate X u n = dot (cols (centred X)) (at_ (centred X) n) u.
Proof. reflexivity. Qed.

Lemma varianceAlong_svd c X Sg V u : is_svd (centred X) Sg V ->
  varianceAlong c X u = rsum (cols X) (fun k => sv Sg k ^ 2 * (comp (cols X) (at_ V) k u) ^ 2) / c.
Proof.
  intros H. unfold varianceAlong. f_equal. transitivity (rsum (rows X) (fun n => dot (cols X) (at_ (centred X) n) u * dot (cols X) (at_ (centred X) n) u)).
  { apply rsum_ext. intros n Hn. rewrite coordinate_centred. simpl. ring. }
  etransitivity; [exact (svd_gram _ _ _ u u H)|]. apply rsum_ext. intros. cbv beta. simpl. ring.
Qed.

Lemma variance_direction c X Sg V k : is_svd (centred X) Sg V -> (k < cols X)%nat ->
  varianceAlong c X (fun j => at_ V j k) = sv Sg k ^ 2 / c.
Proof.
  intros H Hk. rewrite (varianceAlong_svd _ _ _ _ _ H). f_equal.
  destruct H as (_ & _ & _ & _ & _ & _ & Ho & _). change (cols (centred X)) with (cols X) in Ho.
  rewrite (rsum_ext _ _ (fun l => delta k l * (delta k l * sv Sg l ^ 2))).
  - rewrite rsum_delta_l by auto. rewrite delta_same. ring.
  - intros l Hl. rewrite comp_self by auto. rewrite (delta_sym l k). ring.
Qed.

Lemma svd_principal X Sg V : (0 < rows X)%nat -> is_svd (centred X) Sg V -> principalDirections X (at_ V).
Proof.
  intros HN H. pose proof H as (_ & _ & _ & _ & _ & _ & Ho & _). change (cols (centred X)) with (cols X) in Ho. split; auto.
  intros k u Hk Hu Hort. rewrite (variance_direction _ _ _ _ _ H Hk), (varianceAlong_svd _ _ _ _ _ H).
  apply lt_0_INR in HN. apply Rmult_le_compat_r; [apply Rlt_le, Rinv_0_lt_compat; auto|].
  rewrite <- (Rmult_1_r (sv Sg k ^ 2)), <- Hu, <- (parseval _ _ u u Ho), <- rsum_scal.
  apply rsum_le. intros l Hl. destruct (Nat.le_gt_cases k l) as [Hkl|Hkl].
  - pose proof (sv_sorted _ _ _ H k l Hkl). pose proof (sv_nonneg _ _ _ H l).
    assert (sv Sg l ^ 2 <= sv Sg k ^ 2) by (simpl; nra). pose proof (Rle_0_sqr (comp (cols X) (at_ V) l u)) as Hq. unfold Rsqr in Hq.
    simpl in *. nra.
  - unfold comp. rewrite dot_comm, (Hort l Hkl). simpl. lra.
Qed.

Lemma total_svd X Sg V : is_svd (centred X) Sg V -> totalVariance X = rsum (cols X) (fun k => sv Sg k ^ 2) / INR (rows X).
Proof.
  intros H. unfold totalVariance, covariance, Rdiv. rewrite rsum_scal_r. f_equal.
  pose proof H as (_ & _ & _ & _ & _ & _ & Ho & _). change (cols (centred X)) with (cols X) in Ho.
  transitivity (rsum (cols X) (fun j => rsum (cols X) (fun k => sv Sg k ^ 2 * (at_ V j k * at_ V j k)))).
  - apply rsum_ext. intros j Hj. pose proof (svd_gram _ _ _ (fun i => delta j i) (fun i => delta j i) H) as E.
    change (rows (centred X)) with (rows X) in E. change (cols (centred X)) with (cols X) in E.
    transitivity (rsum (rows X) (fun n => dot (cols X) (at_ (centred X) n) (fun i => delta j i) * dot (cols X) (at_ (centred X) n) (fun i => delta j i))).
    { apply rsum_ext. intros n Hn. rewrite dot_comm. unfold dot. now rewrite (rsum_delta_l (cols X) j (at_ (centred X) n)). }
    rewrite E. apply rsum_ext. intros k Hk. unfold comp. rewrite dot_comm. unfold dot. now rewrite (rsum_delta_l (cols X) j (fun i => at_ V i k)).
  - rewrite rsum_swap. apply rsum_ext. intros k Hk. rewrite rsum_scal. destruct Ho as (Ho & _). rewrite (Ho k k Hk Hk), delta_same. ring.
Qed.

(** Singular vectors of different singular values are unique up to the sign. *)
Lemma svd_unique X Sg V Sg0 V0 : (0 < rows X)%nat -> is_svd (centred X) Sg V -> is_svd (centred X) Sg0 V0 ->
  (forall k l, (k < l < cols X)%nat -> sv Sg0 l < sv Sg0 k) ->
  forall k, (k < cols X)%nat -> sv Sg k = sv Sg0 k /\
    exists e, e * e = 1 /\ forall j, (j < cols X)%nat -> at_ V j k = e * at_ V0 j k.
Proof.
  intros HN H H0 Hd. set (D := cols X). induction k as [k IH] using lt_wf_ind. intros Hk.
  pose proof (svd_principal _ _ _ HN H) as (Ho & Hmax). pose proof (svd_principal _ _ _ HN H0) as (Ho0 & Hmax0).
  fold D in Ho, Ho0, Hmax, Hmax0, Hd.
  pose proof (lt_0_INR _ HN) as HN'.
  set (cc := fun l => comp D (at_ V0) l (fun j => at_ V j k)).
  assert (Hsum : rsum D (fun l => cc l * cc l) = 1).
  { unfold cc. rewrite (parseval D (at_ V0) _ _ Ho0). destruct Ho as (Ho & _). unfold dot. rewrite (Ho k k Hk Hk). apply delta_same. }
  assert (Hlow : forall l, (l < k)%nat -> cc l = 0).
  { intros l Hl. destruct (IH l Hl ltac:(lia)) as (_ & e & He & Ev). unfold cc, comp, dot. destruct Ho as (Ho & _).
    assert (E : e * rsum D (fun i => at_ V0 i l * at_ V i k) = 0).
    { rewrite <- rsum_scal. rewrite (rsum_ext _ _ (fun i => at_ V i l * at_ V i k)).
      - rewrite (Ho l k ltac:(lia) Hk). apply delta_other. lia.
      - intros i Hi. rewrite Ev by auto. ring. }
    assert (e <> 0) by nra. apply (Rmult_integral e) in E. tauto. }
  assert (E1 : sv Sg k ^ 2 = rsum D (fun l => sv Sg0 l ^ 2 * cc l ^ 2)).
  { pose proof (variance_direction 1 _ _ _ _ H Hk) as E. rewrite (varianceAlong_svd _ _ _ _ _ H0) in E.
    unfold Rdiv in E. rewrite Rinv_1, !Rmult_1_r in E. symmetry. exact E. }
  assert (E2 : sv Sg0 k ^ 2 <= sv Sg k ^ 2).
  { assert (varianceAlong (INR (rows X)) X (fun j => at_ V0 j k) <= varianceAlong (INR (rows X)) X (fun j => at_ V j k)) as L.
    { apply Hmax; auto.
      - destruct Ho0 as (Ho0 & _). unfold dot. rewrite (Ho0 k k Hk Hk). apply delta_same.
      - intros i Hi. destruct (IH i Hi ltac:(lia)) as (_ & e & He & Ev). unfold dot.
        rewrite (rsum_ext _ _ (fun j => e * (at_ V0 j k * at_ V0 j i))) by (intros; rewrite Ev by auto; ring).
        rewrite rsum_scal. destruct Ho0 as (Ho0 & _). rewrite (Ho0 k i) by lia. rewrite delta_other by lia. ring. }
    rewrite (variance_direction _ _ _ _ _ H Hk), (variance_direction _ _ _ _ _ H0 Hk) in L.
    unfold Rdiv in L. apply Rmult_le_reg_r in L; auto. now apply Rinv_0_lt_compat. }
  assert (Hterm : forall l, (l < D)%nat -> 0 <= (sv Sg0 k ^ 2 - sv Sg0 l ^ 2) * cc l ^ 2).
  { intros l Hl. destruct (Nat.le_gt_cases k l) as [Hkl|Hkl].
    - pose proof (sv_sorted _ _ _ H0 k l Hkl). pose proof (sv_nonneg _ _ _ H0 l).
      apply Rmult_le_pos; [simpl; nra|]. apply pow2_ge_0.
    - rewrite Hlow by auto. simpl. lra. }
  assert (Hz : rsum D (fun l => (sv Sg0 k ^ 2 - sv Sg0 l ^ 2) * cc l ^ 2) = 0).
  { apply Rle_antisym; [|now apply rsum_nonneg].
    rewrite (rsum_ext _ _ (fun l => sv Sg0 k ^ 2 * (cc l * cc l) - sv Sg0 l ^ 2 * cc l ^ 2)) by (intros; ring).
    rewrite rsum_minus, rsum_scal, Hsum, <- E1. lra. }
  assert (Hother : forall l, (l < D)%nat -> l <> k -> cc l = 0).
  { intros l Hl Hlk. destruct (Nat.lt_ge_cases l k) as [|Hge]; [auto|].
    pose proof (rsum_nonneg_0 _ _ Hterm Hz l Hl) as E. cbv beta in E. pose proof (Hd k l ltac:(lia)) as L. pose proof (sv_nonneg _ _ _ H0 l).
    apply Rmult_integral in E. destruct E as [E|E]; [simpl in E; nra|]. simpl in E. nra. }
  rewrite (rsum_single D k) in E1 by (auto; intros i Hi Hik; rewrite Hother by auto; simpl; ring).
  rewrite (rsum_single D k) in Hsum by (auto; intros i Hi Hik; rewrite Hother by auto; simpl; ring).
  split.
  - assert (sv Sg k ^ 2 = sv Sg0 k ^ 2) by (rewrite E1; replace (cc k ^ 2) with (cc k * cc k) by ring; rewrite Hsum; ring).
    pose proof (sv_nonneg _ _ _ H k). pose proof (sv_nonneg _ _ _ H0 k). simpl in *. nra.
  - exists (cc k). split; auto. intros j Hj. rewrite (expand D (at_ V0) (fun j => at_ V j k) j Ho0 Hj).
    change (rsum D (fun l => at_ V0 j l * cc l) = cc k * at_ V0 j k).
    rewrite (rsum_single D k) by (auto; intros i Hi Hik; rewrite Hother by auto; ring). ring.
Qed.

(** * The methods *)
Lemma meanVector_ok X : (0 < rows X)%nat -> meanVector X = Ok (mkMat (cols X) 1 (fun d _ => meanOf X d)).
Proof. intros H. unfold meanVector. destruct (Nat.eqb_spec (rows X) 0); [lia|]. reflexivity. Qed.

Lemma subtractMean_ok a mean : cols a = rows mean ->
  subtractMean a mean = Ok (mkMat (rows a) (cols a) (fun n j => at_ a n j + - at_ mean j 0%nat)).
Proof. intros H. unfold subtractMean. now rewrite <- H, (maddrow_Ok a _ (rows a) (cols a)) by (split; auto). Qed.

Lemma divideCol_ok W d Sg n c : size_is W n c -> size_is Sg n 1 -> (d < c)%nat ->
  (forall i, (i < n)%nat -> at_ Sg i 0%nat <> 0) ->
  exists W', divideCol W d Sg = Ok W' /\ size_is W' n c /\
    forall i j, (i < n)%nat -> at_ W' i j = if Nat.eqb j d then at_ W i j / at_ Sg i 0%nat else at_ W i j.
Proof.
  intros (R1 & C1) (R2 & C2) Hd Hne. unfold divideCol. rewrite R1, R2, Nat.eqb_refl. cbn [check bind].
  destruct (for_inv (fun k (W' : mat) => size_is W' n c /\ forall i j, at_ W' i j = if (Nat.ltb i k && Nat.eqb j d)%bool then at_ W i j / at_ Sg i 0%nat else at_ W i j)
    (fun i W => x <- mget W i d ;; s <- mget Sg i 0 ;; v <- fdiv x s ;; mset W i d v) n W)
    as (W' & E & Hs & F).
  - split; [split; auto|]. intros i j. reflexivity.
  - intros i a Hi ((R3 & C3) & F). rewrite mget_Ok by lia. cbn [bind]. rewrite mget_Ok by lia. cbn [bind].
    unfold fdiv. destruct (Reqb (at_ Sg i 0) 0) eqn:Eb; [apply Reqb_true in Eb; exfalso; apply (Hne i); auto|]. cbn [bind].
    rewrite mset_Ok by lia. eexists; split; [reflexivity|]. split; [split; auto|]. intros i' j. rewrite at_mupd, !F.
    destruct (Nat.eqb_spec i' i) as [->|Hii].
    + replace (i <? S i) with true by (symmetry; apply Nat.ltb_lt; lia). replace (i <? i) with false by (symmetry; apply Nat.ltb_irrefl).
      cbn [andb]. destruct (Nat.eqb_spec j d) as [->|]; auto.
    + cbn [andb]. destruct (Nat.ltb_spec i' i), (Nat.ltb_spec i' (S i)); try lia; auto.
  - exists W'. split; auto. split; auto. intros i j Hi. rewrite F. apply Nat.ltb_lt in Hi. now rewrite Hi.
Qed.

Lemma divideCols_ok W Sg n : size_is W n n -> size_is Sg n 1 -> (forall i, (i < n)%nat -> at_ Sg i 0%nat <> 0) ->
  exists W', for_ n (fun d W => divideCol W d Sg) W = Ok W' /\ size_is W' n n /\
    forall i j, (i < n)%nat -> (j < n)%nat -> at_ W' i j = at_ W i j / at_ Sg i 0%nat.
Proof.
  intros SW SS Hne.
  destruct (for_inv (fun k (W' : mat) => size_is W' n n /\ forall i j, (i < n)%nat -> at_ W' i j = if Nat.ltb j k then at_ W i j / at_ Sg i 0%nat else at_ W i j)
    (fun d W => divideCol W d Sg) n W)
    as (W' & E & Hs & F).
  - split; auto.
  - intros d a Hd (Sa & F). destruct (divideCol_ok a d Sg n n Sa SS Hd Hne) as (W' & E & SW' & F'). exists W'. split; auto. split; auto.
    intros i j Hi. rewrite F', F by auto. destruct (Nat.eqb_spec j d) as [->|].
    + replace (d <? S d) with true by (symmetry; apply Nat.ltb_lt; lia). now rewrite Nat.ltb_irrefl.
    + destruct (Nat.ltb_spec j d), (Nat.ltb_spec j (S d)); try lia; auto.
  - exists W'. split; auto. split; auto. intros i j Hi Hj. rewrite F by auto. apply Nat.ltb_lt in Hj. now rewrite Hj.
Qed.

Lemma divideRow_ok W d Sg r n : size_is W r n -> size_is Sg n 1 -> (d < r)%nat ->
  (forall j, (j < n)%nat -> 0 <= at_ Sg j 0%nat) ->
  exists W', divideRow W d Sg = Ok W' /\ size_is W' r n /\
    forall i j, (j < n)%nat -> at_ W' i j = if Nat.eqb i d then at_ W i j / sqrt (at_ Sg j 0%nat + / 100000) else at_ W i j.
Proof.
  intros (R1 & C1) (R2 & C2) Hd Hne. unfold divideRow. rewrite C1, R2, Nat.eqb_refl. cbn [check bind].
  destruct (for_inv (fun k (W' : mat) => size_is W' r n /\ forall i j, at_ W' i j = if (Nat.ltb j k && Nat.eqb i d)%bool then at_ W i j / sqrt (at_ Sg j 0%nat + / 100000) else at_ W i j)
    (fun j W => x <- mget W d j ;; s <- mget Sg j 0 ;; v <- fdiv x (sqrt (s + / 100000)) ;; mset W d j v) n W)
    as (W' & E & Hs & F).
  - split; [split; auto|]. intros i j. reflexivity.
  - intros i a Hi ((R3 & C3) & F). rewrite mget_Ok by lia. cbn [bind]. rewrite mget_Ok by lia. cbn [bind].
    unfold fdiv. destruct (Reqb (sqrt (at_ Sg i 0 + / 100000)) 0) eqn:Eb.
    { apply Reqb_true in Eb. exfalso. pose proof (Hne i Hi). assert (0 < sqrt (at_ Sg i 0%nat + / 100000)) by (apply sqrt_lt_R0; lra). lra. }
    cbn [bind].
    rewrite mset_Ok by lia. eexists; split; [reflexivity|]. split; [split; auto|]. intros i' j. rewrite at_mupd, !F.
    destruct (Nat.eqb_spec j i) as [->|Hii].
    + replace (i <? S i) with true by (symmetry; apply Nat.ltb_lt; lia). replace (i <? i) with false by (symmetry; apply Nat.ltb_irrefl).
      rewrite andb_true_r. cbn [andb]. destruct (Nat.eqb_spec i' d) as [->|]; auto.
    + rewrite andb_false_r. destruct (Nat.ltb_spec j i), (Nat.ltb_spec j (S i)); try lia; auto.
  - exists W'. split; auto. split; auto. intros i j Hj. rewrite F. apply Nat.ltb_lt in Hj. now rewrite Hj.
Qed.

Lemma divideRows_ok W Sg n : size_is W n n -> size_is Sg n 1 -> (forall j, (j < n)%nat -> 0 <= at_ Sg j 0%nat) ->
  exists W', for_ n (fun d W => divideRow W d Sg) W = Ok W' /\ size_is W' n n /\
    forall i j, (i < n)%nat -> (j < n)%nat -> at_ W' i j = at_ W i j / sqrt (at_ Sg j 0%nat + / 100000).
Proof.
  intros SW SS Hne.
  destruct (for_inv (fun k (W' : mat) => size_is W' n n /\ forall i j, (j < n)%nat -> at_ W' i j = if Nat.ltb i k then at_ W i j / sqrt (at_ Sg j 0%nat + / 100000) else at_ W i j)
    (fun d W => divideRow W d Sg) n W)
    as (W' & E & Hs & F).
  - split; auto.
  - intros d a Hd (Sa & F). destruct (divideRow_ok a d Sg n n Sa SS Hd Hne) as (W' & E & SW' & F'). exists W'. split; auto. split; auto.
    intros i j Hj. rewrite F', F by auto. destruct (Nat.eqb_spec i d) as [->|].
    + replace (d <? S d) with true by (symmetry; apply Nat.ltb_lt; lia). now rewrite Nat.ltb_irrefl.
    + destruct (Nat.ltb_spec i d), (Nat.ltb_spec i (S d)); try lia; auto.
  - exists W'. split; auto. split; auto. intros i j Hi Hj. rewrite F by auto. apply Nat.ltb_lt in Hi. now rewrite Hi.
Qed.

Lemma unit_direction n v k : orthogonal n v -> (k < n)%nat -> dot n (fun j => v j k) (fun j => v j k) = 1.
Proof. intros (H & _) Hk. unfold dot. rewrite (H k k Hk Hk). apply delta_same. Qed.

Lemma varies_sv X Sg V : (0 < rows X)%nat -> varies X -> is_svd (centred X) Sg V -> forall k, (k < cols X)%nat -> 0 < sv Sg k.
Proof.
  intros HN Hv H k Hk. pose proof (svd_principal _ _ _ HN H) as (Ho & _).
  pose proof (Hv _ (unit_direction _ _ k Ho Hk)) as L. rewrite (variance_direction _ _ _ _ _ H Hk) in L.
  pose proof (sv_nonneg _ _ _ H k) as [|E]; auto. rewrite <- E in L. simpl in L. unfold Rdiv in L. lra.
Qed.

Lemma div_sqrt x c : 0 < c -> x / sqrt c * (x / sqrt c) = x ^ 2 / c.
Proof. intros H. pose proof (sqrt_lt_R0 c H). rewrite <- (sqrt_sqrt c) at 3 by lra. field. lra. Qed.

Lemma pca_fit_ok svd junk p X : (0 < rows X)%nat -> 0 < totalVariance X -> decomposes svd (centred X) ->
  (whiten p = true -> varies X) ->
  exists s Sg V, pca_fit svd junk p X = Ok s /\ is_svd (centred X) Sg V /\
    components s = components p /\ whiten s = whiten p /\ size_is (pmean s) (cols X) 1 /\
    (forall j, (j < cols X)%nat -> at_ (pmean s) j 0%nat = meanOf X j) /\ size_is (pW s) (cols X) (cols X) /\
    (forall i j, (i < cols X)%nat -> (j < cols X)%nat ->
       at_ (pW s) i j = if whiten p then at_ V i j / (sv Sg i / sqrt (INR (rows X))) else at_ V i j) /\
    size_is (pevr s) (components p) 1 /\
    (forall k, (k < components p)%nat -> at_ (pevr s) k 0%nat =
       if Nat.ltb k (Nat.min (rows X) (cols X)) then sv Sg k ^ 2 / INR (rows X) / totalVariance X else junk k 0%nat) /\
    (* the decomposition is the one that svd returns for some representation of the centred data *)
    (exists B, meq (centred X) B /\ Sg = fst (svd B) /\ V = snd (svd B)).
Proof.
  intros HN HT Hsvd Hw. set (Dm := cols X) in *. pose proof (lt_0_INR _ HN) as HN'.
  unfold pca_fit. rewrite meanVector_ok by auto. cbn [bind]. rewrite subtractMean_ok by reflexivity. cbn [bind at_].
  match goal with |- context [svd ?B] => set (B0 := B) end.
  assert (HB : meq (centred X) B0).
  { split; [reflexivity|]. split; [reflexivity|]. intros i j _ _. reflexivity. }
  pose proof (Hsvd _ HB) as H. destruct (svd B0) as [Sg V] eqn:Esvd. cbn [fst snd] in H.
  pose proof H as (HS & HS1 & HV1 & HV2 & Hnn & _). change (cols (centred X)) with Dm in *. change (rows (centred X)) with (rows X) in *.
  set (Sq := mmap (fun s => s / sqrt (INR (rows X))) Sg).
  assert (Hsq : 0 < sqrt (INR (rows X))) by now apply sqrt_lt_R0.
  assert (HW : exists W, (if whiten p then for_ Dm (fun d W => divideCol W d Sq) V else Ok V) = Ok W /\ size_is W Dm Dm /\
     forall i j, (i < Dm)%nat -> (j < Dm)%nat -> at_ W i j = if whiten p then at_ V i j / (sv Sg i / sqrt (INR (rows X))) else at_ V i j).
  { destruct (whiten p); [|exists V; repeat split; auto].
    pose proof (varies_sv _ _ _ HN (Hw eq_refl) H) as Hpos. fold Dm in Hpos.
    assert (HDN : (Dm <= rows Sg)%nat).
    { destruct (Nat.le_gt_cases Dm (rows Sg)) as [|L]; auto. pose proof (Hpos (rows Sg) L) as P. unfold sv in P. rewrite Nat.ltb_irrefl in P. lra. }
    destruct (divideCols_ok V Sq Dm) as (W & E & SW & F).
    - split; auto.
    - split; [|exact HS1]. change (rows Sq) with (rows Sg). lia.
    - intros i Hi. pose proof (Hpos i Hi) as P. unfold sv in P. replace (i <? rows Sg) with true in P by (symmetry; apply Nat.ltb_lt; lia).
      unfold Sq. cbn [at_ mmap]. assert (0 < at_ Sg i 0%nat / sqrt (INR (rows X))) by now apply Rdiv_lt_0_compat. lra.
    - exists W. split; auto. split; auto. intros i j Hi Hj. rewrite F by auto. unfold Sq, sv. cbn [at_ mmap].
      now replace (i <? rows Sg) with true by (symmetry; apply Nat.ltb_lt; lia). }
  destruct HW as (W & EW & SW & FW). cbv beta iota zeta. fold Sq Dm. rewrite EW. cbn [bind].
  assert (HTot : rsum (rows (mmap (fun s => s * s) Sq)) (fun i => at_ (mmap (fun s => s * s) Sq) i 0%nat) = totalVariance X).
  { rewrite (total_svd X Sg V H). change (rows (mmap (fun s => s * s) Sq)) with (rows Sg). fold Dm.
    rewrite (rsum_extend Dm (rows Sg) (fun k => sv Sg k ^ 2)) by
      (try lia; intros i Hi; unfold sv; replace (i <? rows Sg) with false by (symmetry; apply Nat.ltb_ge; lia); ring).
    unfold Rdiv. rewrite <- rsum_scal_r. apply rsum_ext. intros i Hi. unfold Sq, sv. cbn [at_ mmap].
    replace (i <? rows Sg) with true by (symmetry; now apply Nat.ltb_lt).
    now apply div_sqrt. }
  rewrite HTot. replace (Reqb (totalVariance X) 0) with false by (symmetry; apply Reqb_false; lra).
  eexists _, Sg, V. split; [reflexivity|]. split; [exact H|]. cbn [components whiten pmean pW pevr].
  split; auto. split; auto. split; [split; reflexivity|]. split; [reflexivity|]. split; [exact SW|]. split; [exact FW|].
  split; [split; reflexivity|]. split.
  - intros k Hk. unfold mconsresize, inside. cbn [at_ rows cols mmap]. change (rows Sq) with (rows Sg). change (cols Sq) with (cols Sg). rewrite HS, HS1.
    change (0 <? 1)%nat with true. rewrite andb_true_r. destruct (Nat.ltb_spec k (Nat.min (rows X) Dm)) as [L|L]; auto.
    unfold sv. rewrite HS. replace (k <? Nat.min (rows X) Dm) with true by (symmetry; now apply Nat.ltb_lt).
    f_equal. now apply div_sqrt.
  - exists B0. rewrite Esvd. auto.
Qed.

Lemma pca_transform_ok s X Dm : size_is (pmean s) Dm 1 -> size_is (pW s) Dm Dm -> (0 < Dm)%nat -> cols X = Dm -> (components s <= Dm)%nat ->
  exists Y, pca_transform s X = Ok Y /\ size_is Y (rows X) (components s) /\
    forall n k, (n < rows X)%nat -> (k < components s)%nat ->
      at_ Y n k = dot Dm (fun j => at_ X n j - at_ (pmean s) j 0%nat) (fun j => at_ (pW s) k j).
Proof.
  intros (M1 & M2) (W1 & W2) HD HX Hc. unfold pca_transform. rewrite M1. replace (0 <? Dm) with true by (symmetry; now apply Nat.ltb_lt).
  cbn [check bind]. rewrite HX, Nat.eqb_refl. cbn [check bind]. rewrite subtractMean_ok by congruence. cbn [bind].
  rewrite (mblock_Ok _ _ _ Dm Dm) by (split || lia; auto). cbn [bind].
  rewrite (mmul_Ok _ _ (rows X) Dm (components s)) by (split; auto).
  eexists; split; [reflexivity|]. split; [split; reflexivity|]. intros n k Hn Hk. cbn [at_ mtrans].
  unfold dot. apply rsum_ext. intros. ring.
Qed.

Lemma pca_transform_aborts s X : (rows (pmean s) = 0 \/ cols X <> rows (pmean s))%nat -> pca_transform s X = Abort.
Proof.
  intros H. unfold pca_transform. destruct (Nat.ltb_spec 0 (rows (pmean s))); [|reflexivity]. cbn [check bind].
  destruct (Nat.eqb_spec (cols X) (rows (pmean s))); [lia|]. reflexivity.
Qed.

(** * ZCA *)
(** For a symmetric positive semidefinite matrix the decomposition is an eigendecomposition. *)
Lemma svd_eigen C Sg V n : rows C = n -> cols C = n -> is_svd C Sg V ->
  (forall i j, (i < n)%nat -> (j < n)%nat -> at_ C i j = at_ C j i) ->
  (forall u, 0 <= dot n (fun i => dot n (at_ C i) u) u) ->
  forall k j, (k < n)%nat -> (j < n)%nat -> dot n (at_ C j) (fun i => at_ V i k) = sv Sg k * at_ V j k.
Proof.
  intros HR HC H Hsym Hpos k j Hk Hj. pose proof H as (_ & _ & _ & _ & _ & _ & Ho & _). rewrite HC in Ho.
  pose proof (sv_nonneg _ _ _ H k) as Hs.
  set (Mul := fun (u : nat -> R) (i : nat) => dot n (at_ C i) u).
  set (v := fun i => at_ V i k).
  assert (Hself : forall u w, dot n (Mul u) w = dot n u (Mul w)).
  { intros u w. unfold dot at 1 2, Mul. unfold dot.
    transitivity (rsum n (fun i => rsum n (fun l => at_ C i l * u l * w i))).
    { apply rsum_ext. intros. rewrite <- rsum_scal_r. auto. }
    rewrite rsum_swap. apply rsum_ext. intros l Hl. rewrite <- rsum_scal. apply rsum_ext. intros i Hi. rewrite (Hsym i l Hi Hl). ring. }
  assert (Hsq : forall w, dot n (Mul v) (Mul w) = sv Sg k ^ 2 * dot n v w).
  { intros w. pose proof (svd_gram _ _ _ v w H) as E. rewrite HR, HC in E. change (dot n (Mul v) (Mul w) = sv Sg k ^ 2 * dot n v w).
    unfold dot at 1. unfold Mul. rewrite E. rewrite (rsum_ext _ _ (fun l => delta k l * (sv Sg l ^ 2 * comp n (at_ V) l w))).
    - rewrite rsum_delta_l by auto. reflexivity.
    - intros l Hl. unfold v. rewrite comp_self by auto. rewrite delta_sym. ring. }
  set (y := fun i => Mul v i - sv Sg k * v i).
  assert (Hv : dot n v v = 1) by (apply unit_direction; auto).
  (* C y = - s y *)
  assert (Hy : forall w, dot n (Mul y) w = - sv Sg k * dot n y w).
  { intros w. rewrite Hself. unfold y. rewrite !dot_minus, !dot_scal. rewrite Hsq. rewrite <- (Hself v w). ring. }
  assert (Hy0 : dot n y y = 0).
  { destruct Hs as [Hs|Hs].
    - pose proof (Hy y) as E. pose proof (Hpos y) as P. change (0 <= dot n (Mul y) y) in P. rewrite E in P. pose proof (dot_nonneg n y). nra.
    - transitivity (dot n (Mul v) (Mul v)).
      + apply dot_ext; intros i Hi; unfold y; rewrite <- Hs; ring.
      + rewrite Hsq, <- Hs. simpl. ring. }
  pose proof (dot_0 n y Hy0 j Hj) as E. unfold y in E. change (Mul v j = sv Sg k * v j). lra.
Qed.

Lemma quadratic_eigen C Sg V n : rows C = n -> cols C = n -> is_svd C Sg V ->
  (forall i j, (i < n)%nat -> (j < n)%nat -> at_ C i j = at_ C j i) ->
  (forall u, 0 <= dot n (fun i => dot n (at_ C i) u) u) ->
  forall u w, dot n (fun i => dot n (at_ C i) u) w = rsum n (fun k => sv Sg k * (comp n (at_ V) k u * comp n (at_ V) k w)).
Proof.
  intros HR HC H Hsym Hpos u w. pose proof H as (_ & _ & _ & _ & _ & _ & Ho & _). rewrite HC in Ho.
  rewrite <- (parseval n (at_ V) (fun i => dot n (at_ C i) u) w Ho). apply rsum_ext. intros k Hk.
  rewrite <- Rmult_assoc. f_equal. unfold comp at 1. unfold dot at 1 2.
  transitivity (rsum n (fun l => dot n (at_ C l) (fun i => at_ V i k) * u l)).
  - transitivity (rsum n (fun i => rsum n (fun l => at_ V i k * (at_ C i l * u l)))).
    { apply rsum_ext. intros. rewrite <- rsum_scal. auto. }
    rewrite rsum_swap. apply rsum_ext. intros l Hl. unfold dot. rewrite <- rsum_scal_r. apply rsum_ext. intros i Hi. rewrite (Hsym i l) by auto. ring.
  - unfold comp, dot at 2. rewrite <- rsum_scal. apply rsum_ext. intros l Hl. rewrite (svd_eigen C Sg V n) by auto. ring.
Qed.

Definition eps : R := / 100000.

Lemma gram_cov c X u w : dot (cols X) (fun i => dot (cols X) (at_ (covarianceMatrix c X) i) u) w
  = rsum (rows X) (fun n => coordinate X u n * coordinate X w n) / c.
Proof.
  set (a := fun n j => at_ X n j - meanOf X j).
  transitivity (rsum (cols X) (fun i => rsum (rows X) (fun n => a n i * w i * dot (cols X) (a n) u * / c))).
  - unfold dot at 1. apply rsum_ext. intros i Hi.
    transitivity (rsum (cols X) (fun j => rsum (rows X) (fun n => a n i * w i * (a n j * u j) * / c))).
    + unfold dot. rewrite <- rsum_scal_r. apply rsum_ext. intros j Hj. cbn [at_ covarianceMatrix]. unfold covariance, Rdiv.
      rewrite (rsum_ext _ (fun n => a n i * w i * (a n j * u j) * / c) (fun n => (a n i * a n j) * (w i * u j * / c))) by (intros; ring).
      rewrite rsum_scal_r. unfold a. ring.
    + rewrite rsum_swap. apply rsum_ext. intros n Hn. unfold dot. rewrite <- rsum_scal, <- rsum_scal_r. apply rsum_ext. intros. ring.
  - rewrite rsum_swap. unfold Rdiv. rewrite <- rsum_scal_r. apply rsum_ext. intros n Hn.
    rewrite (rsum_ext _ _ (fun i => a n i * w i * (dot (cols X) (a n) u * / c))) by (intros; ring).
    rewrite rsum_scal_r. unfold coordinate. fold (a n). change (rsum (cols X) (fun i => a n i * w i)) with (dot (cols X) (a n) w). ring.
Qed.

Lemma cov_eigen c X Sg V u w : 0 < c -> is_svd (covarianceMatrix c X) Sg V ->
  rsum (rows X) (fun n => coordinate X u n * coordinate X w n) / c
  = rsum (cols X) (fun k => sv Sg k * (comp (cols X) (at_ V) k u * comp (cols X) (at_ V) k w)).
Proof.
  intros Hc H. rewrite <- gram_cov. apply quadratic_eigen; auto.
  - intros i j Hi Hj. cbn [at_ covarianceMatrix]. unfold covariance. f_equal. apply rsum_ext. intros. ring.
  - intros x. rewrite gram_cov. apply Rmult_le_pos; [|apply Rlt_le, Rinv_0_lt_compat; auto]. apply rsum_nonneg. intros. nra.
Qed.

Lemma zca_fit_ok svd z0 X : (1 < rows X)%nat -> decomposes svd (covarianceMatrix (INR (rows X) - 1) X) ->
  exists z Sg V, zca_fit svd z0 X = Ok z /\ is_svd (covarianceMatrix (INR (rows X) - 1) X) Sg V /\
    size_is (zmean z) (cols X) 1 /\ (forall j, (j < cols X)%nat -> at_ (zmean z) j 0%nat = meanOf X j) /\
    size_is (zW z) (cols X) (cols X) /\
    (forall i j, (i < cols X)%nat -> (j < cols X)%nat ->
       at_ (zW z) i j = rsum (cols X) (fun k => at_ V i k / sqrt (sv Sg k + eps) * at_ V j k)).
Proof.
  intros HN Hsvd. set (Dm := cols X) in *.
  unfold zca_fit. rewrite meanVector_ok by lia. cbn [bind]. rewrite subtractMean_ok by reflexivity. cbn [bind at_].
  rewrite (mmul_Ok _ _ Dm (rows X) Dm) by (split; reflexivity). cbn [bind at_ mtrans].
  replace (rows X =? 1) with false by (symmetry; apply Nat.eqb_neq; lia).
  match goal with |- context [svd ?B] => set (B0 := B) end.
  assert (HB : meq (covarianceMatrix (INR (rows X) - 1) X) B0).
  { split; [reflexivity|]. split; [reflexivity|]. intros i j _ _. reflexivity. }
  pose proof (Hsvd _ HB) as H. destruct (svd B0) as [Sg V] eqn:Esvd. cbn [fst snd] in H.
  pose proof H as (HS & HS1 & HV1 & HV2 & Hnn & _). change (cols (covarianceMatrix (INR (rows X) - 1) X)) with Dm in *.
  change (rows (covarianceMatrix (INR (rows X) - 1) X)) with Dm in *. rewrite Nat.min_id in HS.
  destruct (divideRows_ok V Sg Dm) as (W & E & SW & F); [split; auto|split; auto|intros j Hj; apply Hnn; lia|].
  cbv beta iota zeta. fold Dm. rewrite E. cbn [bind]. rewrite (mmul_Ok _ _ Dm Dm Dm) by (auto; split; auto). cbn [bind].
  eexists _, Sg, V. split; [reflexivity|]. split; [exact H|]. cbn [zmean zW]. split; [split; reflexivity|]. split; [reflexivity|].
  split; [split; reflexivity|]. intros i j Hi Hj. cbn [at_ mtrans]. apply rsum_ext. intros k Hk. rewrite F by auto.
  unfold sv, eps. now replace (k <? rows Sg) with true by (symmetry; apply Nat.ltb_lt; lia).
Qed.

Lemma zca_transform_ok z X Dm : size_is (zmean z) Dm 1 -> size_is (zW z) Dm Dm -> (0 < Dm)%nat -> cols X = Dm ->
  exists Y, zca_transform z X = Ok Y /\ size_is Y (rows X) Dm /\
    forall n k, (n < rows X)%nat -> (k < Dm)%nat ->
      at_ Y n k = dot Dm (fun j => at_ X n j - at_ (zmean z) j 0%nat) (fun j => at_ (zW z) k j).
Proof.
  intros (M1 & M2) (W1 & W2) HD HX. unfold zca_transform. rewrite M1. replace (0 <? Dm) with true by (symmetry; now apply Nat.ltb_lt).
  cbn [check bind]. rewrite HX, Nat.eqb_refl. cbn [check bind]. rewrite subtractMean_ok by congruence. cbn [bind].
  rewrite (mmul_Ok _ _ (rows X) Dm Dm) by (split; auto).
  eexists; split; [reflexivity|]. split; [split; reflexivity|]. intros n k Hn Hk. cbn [at_ mtrans].
  unfold dot. apply rsum_ext. intros. ring.
Qed.

Lemma zca_transform_aborts z X : (rows (zmean z) = 0 \/ cols X <> rows (zmean z))%nat -> zca_transform z X = Abort.
Proof.
  intros H. unfold zca_transform. destruct (Nat.ltb_spec 0 (rows (zmean z))); [|reflexivity]. cbn [check bind].
  destruct (Nat.eqb_spec (cols X) (rows (zmean z))); [lia|]. reflexivity.
Qed.

(** * Linear maps of the centred data *)
Definition mapped (X Y : mat) (w : nat -> nat -> R) : Prop :=
  rows Y = rows X /\ forall n k, (n < rows X)%nat -> (k < cols Y)%nat -> at_ Y n k = coordinate X (w k) n.

Lemma coordinate_mean X u : (0 < rows X)%nat -> rsum (rows X) (fun n => coordinate X u n) = 0.
Proof.
  intros HN. unfold coordinate, dot. rewrite rsum_swap. apply rsum_0. intros j Hj. rewrite rsum_scal_r, rsum_minus, rsum_const.
  unfold meanOf. apply lt_0_INR in HN. field. lra.
Qed.

Lemma mapped_mean X Y w k : (0 < rows X)%nat -> mapped X Y w -> (k < cols Y)%nat -> meanOf Y k = 0.
Proof.
  intros HN (HR & H) Hk. unfold meanOf. rewrite HR, (rsum_ext _ _ (fun n => coordinate X (w k) n)) by auto.
  rewrite coordinate_mean by auto. unfold Rdiv. ring.
Qed.

Lemma mapped_covariance X Y w c j k : (0 < rows X)%nat -> mapped X Y w -> (j < cols Y)%nat -> (k < cols Y)%nat ->
  covariance c Y j k = rsum (rows X) (fun n => coordinate X (w j) n * coordinate X (w k) n) / c.
Proof.
  intros HN H Hj Hk. unfold covariance. rewrite !(mapped_mean X Y w) by auto. destruct H as (HR & H). rewrite HR. f_equal.
  apply rsum_ext. intros n Hn. rewrite !H by auto. ring.
Qed.

Lemma mapped_coordinate X Y w u n : (0 < rows X)%nat -> mapped X Y w -> (n < rows X)%nat ->
  coordinate Y u n = coordinate X (fun j => rsum (cols Y) (fun k => u k * w k j)) n.
Proof.
  intros HN H Hn. unfold coordinate at 1. unfold dot. rewrite (rsum_ext _ _ (fun k => coordinate X (w k) n * u k)).
  - unfold coordinate. rewrite (dot_comm _ _ (fun j => rsum _ _)), (dot_sum (cols X) (cols Y) (fun k j => u k * w k j)).
    apply rsum_ext. intros k Hk. rewrite (dot_scal (cols X) (u k) (w k)), dot_comm. ring.
  - intros k Hk. rewrite (mapped_mean X Y w) by auto. destruct H as (_ & H). rewrite H by auto. ring.
Qed.
