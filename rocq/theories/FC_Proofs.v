(** Proofs about the fully connected layer. *)
From Verif Require Import Base BaseFacts Matrix RSum MatOps Vec Deriv Activation_Model
  Activation_Proofs Layer_Model Layer_Spec Layer_Proofs Layer_Layout FC_Model Reg_Proofs.
Local Open Scope R_scope.

(** number of parameters of one unit *)
Definition unitParams (I : nat) (bias : bool) : nat := (I + if bias then 1 else 0)%nat.

(** dimensions and settings of a layer *)
Definition fc_inv (I J : nat) (bias : bool) (act : ActivationFunction) (reg : Regularization) (s : fc) : Prop :=
  fI s = I /\ fJ s = J /\ fbias s = bias /\ fact s = act /\ freg s = reg /\
  size_is (fW s) J I /\ size_is (fWd s) J I /\ size_is (fb s) J 1 /\ size_is (fbd s) J 1 /\
  cols (fy s) = J /\ cols (fyd s) = J.

(** the activation of unit j for row n *)
Definition preact (I : nat) (bias : bool) (W b : mat) (X : mat) (n j : nat) : R :=
  rsum I (fun i => at_ X n i * at_ W j i) + if bias then at_ b j 0 else 0.

Definition fc_smooth (I J : nat) (bias : bool) (act : ActivationFunction) (reg : Regularization)
    (q : fc) (X : mat) : Prop :=
  (forall n j, (n < rows X)%nat -> (j < J)%nat -> act_smooth act (preact I bias (fW q) (fb q) X n j)) /\
  (0 < l1Penalty reg -> forall j i, (j < J)%nat -> (i < I)%nat -> at_ (fW q) j i <> 0).

Section FCP.
Context (junk : nat -> nat -> R) (I J : nat) (bias : bool) (act : ActivationFunction) (reg : Regularization).
Notation B := (unitParams I bias).
Notation inv := (fc_inv I J bias act reg).

Definition fc_locs : list fcloc :=
  flat_map (fun j => map (LW j) (seq 0 I) ++ (if bias then [Lb j] else [])) (seq 0 J).
Definition fc_dlocs : list fcloc :=
  flat_map (fun j => map (LWd j) (seq 0 I) ++ (if bias then [Lbd j] else [])) (seq 0 J).
Definition fc_idx (l : fcloc) : nat :=
  match l with LW j i => j * B + i | Lb j => j * B + I | LWd j i => j * B + i | Lbd j => j * B + I end.

Lemma block_length {A} (f : nat -> A) (x : A) : length (map f (seq 0 I) ++ (if bias then [x] else [])) = B.
Proof. unfold unitParams. rewrite app_length, map_length, seq_length. destruct bias; simpl; lia. Qed.

Lemma block_nth {A} (f : nat -> A) (x : A) i : (i < B)%nat ->
  nth_error (map f (seq 0 I) ++ (if bias then [x] else [])) i = Some (if Nat.ltb i I then f i else x).
Proof.
  intros H. unfold unitParams in H. destruct (Nat.ltb_spec i I).
  - rewrite nth_error_app1 by (rewrite map_length, seq_length; auto).
    apply map_nth_error. rewrite nth_error_nth' with (d := 0%nat) by (rewrite seq_length; auto).
    rewrite seq_nth by auto. auto.
  - rewrite nth_error_app2 by (rewrite map_length, seq_length; auto).
    rewrite map_length, seq_length. destruct bias; [|lia]. replace (i - I)%nat with 0%nat by lia. auto.
Qed.

Lemma fc_locs_length : length fc_locs = (J * B)%nat.
Proof. apply flat_map_length_const. intros. apply block_length. Qed.
Lemma fc_dlocs_length : length fc_dlocs = (J * B)%nat.
Proof. apply flat_map_length_const. intros. apply block_length. Qed.

Lemma fc_locs_nth j i : (j < J)%nat -> (i < B)%nat ->
  nth_error fc_locs (j * B + i) = Some (if Nat.ltb i I then LW j i else Lb j).
Proof.
  intros Hj Hi. unfold fc_locs. rewrite (nth_error_blocks _ B J 0); auto.
  - apply block_nth. auto.
  - intros. apply block_length.
Qed.
Lemma fc_dlocs_nth j i : (j < J)%nat -> (i < B)%nat ->
  nth_error fc_dlocs (j * B + i) = Some (if Nat.ltb i I then LWd j i else Lbd j).
Proof.
  intros Hj Hi. unfold fc_dlocs. rewrite (nth_error_blocks _ B J 0); auto.
  - apply block_nth. auto.
  - intros. apply block_length.
Qed.

Lemma fc_init s : inv s -> fc_initialize s = (fc_locs, fc_dlocs).
Proof.
  intros (A1 & A2 & A3 & _). unfold fc_initialize, fc_locs, fc_dlocs. rewrite A1, A2, A3. auto.
Qed.

Lemma fc_locs_In l : In l fc_locs ->
  (exists j i, (j < J)%nat /\ (i < I)%nat /\ l = LW j i) \/
  (exists j, (j < J)%nat /\ bias = true /\ l = Lb j).
Proof.
  intros H. apply In_nth_error in H. destruct H as (k & Hk).
  assert (K : (k < J * B)%nat) by (rewrite <- fc_locs_length; apply nth_error_Some; congruence).
  destruct (split_index _ _ _ K) as (j & i & Hj & Hi & ->). rewrite fc_locs_nth in Hk by auto.
  injection Hk as <-. destruct (Nat.ltb_spec i I).
  - left. exists j, i. auto.
  - right. exists j. unfold unitParams in Hi. destruct bias; [auto|lia].
Qed.

Lemma fc_idx_ok k l : nth_error fc_locs k = Some l -> fc_idx l = k.
Proof.
  intros Hk. assert (K : (k < J * B)%nat) by (rewrite <- fc_locs_length; apply nth_error_Some; congruence).
  destruct (split_index _ _ _ K) as (j & i & Hj & Hi & ->). rewrite fc_locs_nth in Hk by auto.
  injection Hk as <-. destruct (Nat.ltb_spec i I); simpl; auto.
  unfold unitParams in *. destruct bias; lia.
Qed.

Lemma fc_load_ok s l : inv s -> In l fc_locs -> exists v, fc_load s l = Ok v.
Proof.
  intros (_ & _ & _ & _ & _ & W & _ & b & _) H. destruct W as (W1 & W2), b as (b1 & b2).
  destruct (fc_locs_In l H) as [(j & i & Hj & Hi & ->)|(j & Hj & _ & ->)]; simpl;
    rewrite mget_Ok by lia; eauto.
Qed.

Lemma fc_store_ok s l v : inv s -> In l fc_locs ->
  exists s', fc_store s l v = Ok s' /\ inv s' /\ fc_load s' l = Ok v /\
  forall l', In l' fc_locs -> l' <> l -> fc_load s' l' = fc_load s l'.
Proof.
  intros Hinv H. pose proof Hinv as (A1 & A2 & A3 & A4 & A5 & W & Wd & b & bd & Y & Yd).
  destruct W as (W1 & W2), b as (b1 & b2).
  destruct (fc_locs_In l H) as [(j & i & Hj & Hi & ->)|(j & Hj & _ & ->)]; simpl;
    rewrite mset_Ok by lia; cbn [bind]; eexists; (split; [reflexivity|]).
  - split; [unfold fc_inv; simpl; unfold size_is; simpl; auto 12|]. split.
    + simpl. rewrite mget_Ok by (simpl; lia). now rewrite at_mupd_same.
    + intros l' Hl' Hn. destruct (fc_locs_In l' Hl') as [(j' & i' & Hj' & Hi' & ->)|(j' & Hj' & _ & ->)]; simpl; auto.
      rewrite !mget_Ok by (simpl; lia). rewrite at_mupd_other; auto.
      destruct (Nat.eq_dec j' j) as [->|]; [right; intros ->; congruence|auto].
  - split; [unfold fc_inv; simpl; unfold size_is; simpl; auto 12|]. split.
    + simpl. rewrite mget_Ok by (simpl; lia). now rewrite at_mupd_same.
    + intros l' Hl' Hn. destruct (fc_locs_In l' Hl') as [(j' & i' & Hj' & Hi' & ->)|(j' & Hj' & _ & ->)]; simpl; auto.
      rewrite !mget_Ok by (simpl; lia). rewrite at_mupd_other; auto.
Qed.

Notation c := (fc_class junk).

Lemma fc_count s : inv s ->
  length (fst (initialize c s)) = (J * B)%nat /\ length (snd (initialize c s)) = (J * B)%nat.
Proof. intros H. cbn [initialize fc_class]. rewrite fc_init by auto. simpl. now rewrite fc_locs_length, fc_dlocs_length. Qed.

Lemma fc_layout_init s : inv s ->
  fst (initialize c s) = fc_locs /\ length (snd (initialize c s)) = length fc_locs.
Proof. intros H. cbn [initialize fc_class]. rewrite fc_init by auto. simpl. now rewrite fc_locs_length, fc_dlocs_length. Qed.

Lemma fc_write s k v : inv s -> (k < J * B)%nat ->
  exists s', writeParam c s k v = Ok s' /\ inv s' /\
  forall k', (k' < J * B)%nat -> readParam c s' k' = if Nat.eqb k' k then Ok v else readParam c s k'.
Proof.
  rewrite <- fc_locs_length. apply (layout_write c inv fc_locs fc_idx).
  - apply fc_layout_init.
  - apply fc_idx_ok.
  - apply fc_store_ok.
Qed.

(** what the parameter pointers refer to *)
Lemma fc_read s j i : inv s -> (j < J)%nat -> (i < B)%nat ->
  readParam c s (j * B + i) = Ok (if Nat.ltb i I then at_ (fW s) j i else at_ (fb s) j 0).
Proof.
  intros H Hj Hi. unfold readParam. destruct (fc_layout_init s H) as (E & _). rewrite E.
  unfold vget. rewrite fc_locs_nth by auto. cbn [bind].
  pose proof H as (_ & _ & _ & _ & _ & (W1 & W2) & _ & (b1 & b2) & _).
  destruct (Nat.ltb_spec i I); simpl; apply mget_Ok; lia.
Qed.

Lemma fc_readDeriv s j i : inv s -> (j < J)%nat -> (i < B)%nat ->
  readDeriv c s (j * B + i) = Ok (if Nat.ltb i I then at_ (fWd s) j i else at_ (fbd s) j 0).
Proof.
  intros H Hj Hi. unfold readDeriv. cbn [initialize fc_class]. rewrite fc_init by auto.
  cbn [snd]. unfold vget. rewrite fc_dlocs_nth by auto. cbn [bind].
  pose proof H as (_ & _ & _ & _ & _ & _ & (W1 & W2) & _ & (b1 & b2) & _).
  destruct (Nat.ltb_spec i I); simpl; apply mget_Ok; lia.
Qed.

(** assignment of all parameters, before updatedParameters *)
Lemma fc_writeAll s p : inv s -> length p = (J * B)%nat ->
  exists q, writeAll c s p = Ok q /\ inv q /\
    (forall j i, (j < J)%nat -> (i < I)%nat -> at_ (fW q) j i = p.[j * B + i]) /\
    (bias = true -> forall j, (j < J)%nat -> at_ (fb q) j 0 = p.[j * B + I]).
Proof.
  intros H Hp. destruct (writeAll_Ok c (J * B) inv s p fc_write H Hp) as (q & E & Hq & R).
  exists q. split; auto. split; auto. split.
  - intros j i Hj Hi. assert (HB : (i < B)%nat) by (unfold unitParams; lia).
    pose proof (R _ (join_index B j i J Hj HB)) as R1. rewrite fc_read in R1 by auto.
    destruct (Nat.ltb_spec i I); [|lia]. now injection R1.
  - intros Hb j Hj. assert (HB : (I < B)%nat) by (unfold unitParams; rewrite Hb; lia).
    pose proof (R _ (join_index B j I J Hj HB)) as R1. rewrite fc_read in R1 by auto.
    destruct (Nat.ltb_spec I I); [lia|]. now injection R1.
Qed.

(** updatedParameters with any setting: each row is scaled on its own *)
Lemma fc_updated_general s : inv s ->
  exists q, fc_updatedParameters s = Ok q /\ inv q /\ fb q = fb s /\ (0 < maxSquaredWeightNorm reg -> forall j, (j < J)%nat ->
       let n2 := rsum I (fun i => at_ (fW s) j i * at_ (fW s) j i) in
       forall i, (i < I)%nat -> at_ (fW q) j i =
         if Rltb (maxSquaredWeightNorm reg) n2
         then at_ (fW s) j i * sqrt (maxSquaredWeightNorm reg / n2) else at_ (fW s) j i).
Proof.
  intros H. pose proof H as (A1 & A2 & A3 & A4 & A5 & W & Wd & b & bd & Y & Yd).
  unfold fc_updatedParameters. rewrite A5, A2.
  destruct (Rltb 0 (maxSquaredWeightNorm reg)) eqn:Em.
  2:{ exists s. split; auto. split; auto. split; auto. apply Rltb_false in Em. intros; lra. }
  match goal with |- context [for_ J ?bd (fW s)] => set (body := bd) end.
  destruct (for_inv (fun k (V : mat) => size_is V J I /\ forall j i, (j < J)%nat -> (i < I)%nat ->
      let n2 := rsum I (fun i => at_ (fW s) j i * at_ (fW s) j i) in
      at_ V j i = if (Nat.ltb j k && Rltb (maxSquaredWeightNorm reg) n2)%bool
        then at_ (fW s) j i * sqrt (maxSquaredWeightNorm reg / n2) else at_ (fW s) j i) body J (fW s))
    as (V & E & SV & HV).
  - split; auto.
  - intros k V Hk (SV & HV). destruct SV as (S1 & S2). unfold body. rewrite S1, S2.
    apply Nat.ltb_lt in Hk. rewrite Hk. apply Nat.ltb_lt in Hk.
    assert (EN : rsum I (fun i => at_ V k i * at_ V k i) = rsum I (fun i => at_ (fW s) k i * at_ (fW s) k i)).
    { apply rsum_ext. intros i Hi. rewrite HV by auto. rewrite (Nat.ltb_irrefl k). auto. }
    rewrite EN.
    assert (Hlt : forall j, Nat.ltb j (S k) = (Nat.eqb j k || Nat.ltb j k)%bool).
    { intros j. destruct (Nat.ltb_spec j (S k)), (Nat.eqb_spec j k), (Nat.ltb_spec j k); auto; lia. }
    destruct (Rltb (maxSquaredWeightNorm reg) (rsum I (fun i => at_ (fW s) k i * at_ (fW s) k i))) eqn:En.
    + eexists. split; [reflexivity|]. split; [split; simpl; auto|]. intros j i Hj Hi. cbv zeta.
      unfold mrow_map. cbn [at_]. rewrite Hlt, S2, (proj2 (Nat.ltb_lt i I)), Bool.andb_true_r by auto. destruct (Nat.eqb_spec j k) as [->|Hn].
      * rewrite En. cbn [orb andb]. rewrite HV by auto. rewrite (Nat.ltb_irrefl k). auto.
      * cbn [orb]. apply HV; auto.
    + exists V. split; auto. split; [split; auto|]. intros j i Hj Hi. cbv zeta. rewrite Hlt.
      destruct (Nat.eqb_spec j k) as [->|Hn].
      * rewrite En. cbn [orb andb]. rewrite HV by auto. rewrite (Nat.ltb_irrefl k). auto.
      * cbn [orb]. apply HV; auto.
  - rewrite E. cbn [bind]. eexists. split; [reflexivity|]. split; [|split; auto].
    + unfold fc_inv. simpl. auto 15.
    + intros _ j Hj. cbv zeta. intros i Hi. simpl. rewrite HV by auto.
      replace (Nat.ltb j J) with true by (symmetry; now apply Nat.ltb_lt). auto.
Qed.

Hypothesis no_maxnorm : maxSquaredWeightNorm reg <= 0.

Lemma fc_updated s : inv s -> fc_updatedParameters s = Ok s.
Proof.
  intros (_ & _ & _ & _ & E & _). unfold fc_updatedParameters. rewrite E.
  apply Rltb_false in no_maxnorm. now rewrite no_maxnorm.
Qed.

Lemma fc_install s p : inv s -> length p = (J * B)%nat ->
  exists q, install c s p = Ok q /\ inv q /\
    (forall j i, (j < J)%nat -> (i < I)%nat -> at_ (fW q) j i = p.[j * B + i]) /\
    (bias = true -> forall j, (j < J)%nat -> at_ (fb q) j 0 = p.[j * B + I]).
Proof.
  intros H Hp. destruct (fc_writeAll s p H Hp) as (q & E & Hq & R).
  exists q. split; [|auto]. unfold install. rewrite E. cbn [bind updatedParameters fc_class].
  now apply fc_updated.
Qed.
End FCP.

Section FCP2.
Context (junk : nat -> nat -> R) (I J : nat) (bias : bool) (act : ActivationFunction) (reg : Regularization).
Notation B := (unitParams I bias).
Notation inv := (fc_inv I J bias act reg).
Notation c := (fc_class junk).

Lemma fc_forward_ok q x dropout N : inv q -> size_is x N I ->
  exists q1 y, fc_forward junk q x dropout = Ok (q1, y, regError reg (fW q)) /\
    size_is y N J /\ inv q1 /\
    (forall n j, at_ y n j = act_fun act (preact I bias (fW q) (fb q) x n j)) /\
    fW q1 = fW q /\ fx q1 = x /\ size_is (fa q1) N J /\ fy q1 = y.
Proof.
  intros H Hx. pose proof H as (A1 & A2 & A3 & A4 & A5 & W & Wd & b & bd & Y & Yd).
  unfold fc_forward. rewrite (mmul_Ok _ _ N I J); [|auto|destruct W; split; auto].
  cbn [bind]. rewrite A3.
  assert (Ha : exists a, (if bias then maddrow (mkMat N J (fun i j => rsum I (fun l => at_ x i l * at_ (mtrans (fW q)) l j)))
       (rows (fb q)) (fun j => at_ (fb q) j 0) else Ok (mkMat N J (fun i j => rsum I (fun l => at_ x i l * at_ (mtrans (fW q)) l j)))) = Ok a /\
     size_is a N J /\ forall n j, at_ a n j = preact I bias (fW q) (fb q) x n j).
  { destruct bias.
    - destruct b as (b1 & b2). rewrite b1, (maddrow_Ok _ _ N J) by (split; auto).
      eexists. split; [reflexivity|]. split; [split; auto|]. intros. reflexivity.
    - eexists. split; [reflexivity|]. split; [split; auto|]. intros. unfold preact. simpl. ring. }
  destruct Ha as (a & Ea & Sa & Fa). rewrite Ea. cbn [bind]. rewrite A4.
  destruct (activationFunction_Ok act a (mconsresize junk (fy q) (rows x) (cols (fy q))) N J) as (y & Ey & Sy & Fy); auto.
  { destruct Hx. split; simpl; auto. }
  rewrite Ey. cbn [bind]. rewrite A5. eexists. exists y. split; [reflexivity|]. split; auto.
  simpl. split; [|split; [|auto]].
  - unfold fc_inv. simpl. destruct Sy as (S1 & S2). repeat (split; auto).
  - intros. rewrite Fy, Fa. auto.
Qed.

Lemma fc_backward_ok q1 N W y x ein bp : inv q1 -> fW q1 = W -> fx q1 = x -> size_is (fa q1) N J ->
  fy q1 = y -> size_is y N J -> size_is x N I -> size_is W J I -> size_is ein N J ->
  exists q2 eout, fc_backward junk q1 ein bp = Ok (q2, eout) /\ inv q2 /\
    (forall j i, at_ (fWd q2) j i =
       rsum N (fun n => act_der act (at_ y n j) * at_ ein n j * at_ x n i) + regD reg (at_ W j i)) /\
    (bias = true -> forall j, at_ (fbd q2) j 0 = rsum N (fun n => act_der act (at_ y n j) * at_ ein n j)) /\
    (bp = true -> size_is eout N I /\
       forall n i, at_ eout n i = rsum J (fun j => act_der act (at_ y n j) * at_ ein n j * at_ W j i)).
Proof.
  intros H EW Ex Ha Ey Sy Sx SW Se. pose proof H as (A1 & A2 & A3 & A4 & A5 & _ & Wd & b & bd & Y & Yd).
  unfold fc_backward. rewrite A4, Ey, EW, Ex.
  destruct (activationFunctionDerivative_Ok act y (mconsresize junk (fyd q1) (rows (fa q1)) (cols (fyd q1))) N J)
    as (yd & Eyd & Syd & Fyd); auto.
  { destruct Ha. split; simpl; auto. }
  rewrite Eyd. cbn [bind]. rewrite (mmap2_Ok _ _ _ N J) by auto. cbn [bind].
  rewrite (mmul_Ok _ _ J N I) by (auto; split; auto). cbn [bind]. rewrite A5.
  destruct (regDeriv_Ok reg W (mkMat J I (fun i j => rsum N (fun l =>
     at_ (mtrans (mkMat N J (fun i0 j0 => at_ yd i0 j0 * at_ ein i0 j0))) i l * at_ x l j))) J I)
    as (Wd' & EWd & SWd & FWd); auto; [split; auto|].
  rewrite EWd. cbn [bind].
  assert (He : exists e, (if bp then mmul (mkMat N J (fun i j => at_ yd i j * at_ ein i j)) W else Ok (fe q1)) = Ok e /\
    (bp = true -> size_is e N I /\
       forall n i, at_ e n i = rsum J (fun j => act_der act (at_ y n j) * at_ ein n j * at_ W j i))).
  { destruct bp; [|eexists; split; [reflexivity|discriminate]].
    rewrite (mmul_Ok _ _ N J I) by (auto; split; auto). eexists. split; [reflexivity|]. intros _.
    split; [split; auto|]. intros. simpl. apply rsum_ext. intros. rewrite Fyd. auto. }
  destruct He as (e & Ee & Fe). rewrite Ee. cbn [bind]. eexists. exists e. split; [reflexivity|].
  simpl. split; [|split; [|split; auto]].
  - unfold fc_inv. simpl. rewrite A3. destruct SW, Sy, Syd. destruct bd.
    split; auto. split; auto. split; auto. split; auto. split; auto. split; [split; auto|].
    split; [auto|]. split; [auto|]. split; [destruct bias; split; auto|]. try rewrite Ey; auto.
  - intros. rewrite FWd. f_equal. simpl. apply rsum_ext. intros. rewrite Fyd. auto.
  - intros Hb j. rewrite A3, Hb. simpl. unfold colsum. simpl. apply rsum_ext. intros. now rewrite Fyd.
Qed.

Lemma fc_contract : maxSquaredWeightNorm reg <= 0 ->
  contract c I J (J * B) inv (fc_smooth I J bias act reg).
Proof.
  intros Hm. constructor.
  - apply fc_count.
  - intros s k Hs Hk. rewrite <- (fc_locs_length I J bias) in Hk.
    apply (layout_read c inv (fc_locs I J bias)); auto.
    + apply fc_layout_init.
    + apply fc_load_ok.
  - apply fc_write.
  - intros s Hs. exists s. split; [eapply fc_updated; eauto|]. auto.
  - apply (gradient_intro c I J (J * B) inv (fc_smooth I J bias act reg)
      (fun s dropout N p X q q1 Y r =>
         inv q /\
         (forall j i, (j < J)%nat -> (i < I)%nat -> at_ (fW q) j i = p.[j * B + i]) /\
         (bias = true -> forall j, (j < J)%nat -> at_ (fb q) j 0 = p.[j * B + I]) /\
         (forall n j, at_ Y n j = act_fun act (preact I bias (fW q) (fb q) X n j)) /\
         fW q1 = fW q /\ fx q1 = X /\ size_is (fa q1) N J /\ fy q1 = Y /\ r = regError reg (fW q))).
    + intros s dropout N p X Hs Hp HX.
      destruct (fc_install junk I J bias act reg Hm s p Hs Hp) as (q & E & Hq & R1 & R2).
      destruct (fc_forward_ok q X dropout N Hq HX) as (q1 & y & Ef & Sy & Hq1 & F1 & F2 & F3 & F4 & F5).
      exists q, q1, y, (regError reg (fW q)). auto 15.
    + intros s dropout N t0 p p' X X' q q1 Y r Hs Hp HX Dp DX (Sm1 & Sm2) SY Hq1 HP.
      set (W' := fun j i => p' (j * B + i)%nat).
      set (b' := fun j => if bias then p' (j * B + I)%nat else 0).
      set (A' := fun n j => rsum I (fun i => X' n i * at_ (fW (q t0)) j i + at_ (X t0) n i * W' j i) + b' j).
      assert (DW : forall j i, (j < J)%nat -> (i < I)%nat -> D (fun t => at_ (fW (q t)) j i) t0 (W' j i)).
      { intros j i Hj Hi. apply (D_ext (fun t => (p t).[j * B + i])).
        - intros t. destruct (HP t) as (_ & R1 & _). symmetry. now apply R1.
        - apply Dp. apply join_index; auto. unfold unitParams. lia. }
      assert (Db : forall j, (j < J)%nat -> D (fun t => if bias then at_ (fb (q t)) j 0 else 0) t0 (b' j)).
      { intros j Hj. unfold b'. destruct bias; [|apply D_const].
        apply (D_ext (fun t => (p t).[j * unitParams I true + I])).
        - intros t. destruct (HP t) as (_ & _ & R2 & _). symmetry. now apply R2.
        - apply Dp. apply join_index; auto. unfold unitParams. lia. }
      exists (fun n j => act_der act (at_ (Y t0) n j) * A' n j),
        (rsum J (fun j => rsum I (fun i => regD reg (at_ (fW (q t0)) j i) * W' j i))).
      split; [|split].
      * intros n j Hn Hj. destruct (HP t0) as (_ & _ & _ & F & _). rewrite F.
        apply (D_ext (fun t => act_fun act (preact I bias (fW (q t)) (fb (q t)) (X t) n j))).
        { intros t. destruct (HP t) as (_ & _ & _ & F' & _). rewrite F'. auto. }
        apply (D_comp (fun t => preact I bias (fW (q t)) (fb (q t)) (X t) n j) (act_fun act)).
        { unfold preact. apply (D_affine I (fun t i => at_ (X t) n i) (fun t i => at_ (fW (q t)) j i)
            (fun t => if bias then at_ (fb (q t)) j 0 else 0)); auto. }
        apply act_derivative. apply Sm1; auto. destruct (HX t0). lia.
      * apply (D_ext (fun t => regError reg (fW (q t)))).
        { intros t. destruct (HP t) as (_ & _ & _ & _ & _ & _ & _ & _ & ->). auto. }
        apply D_regError; auto. intros t. destruct (HP t) as (Hq & _). apply Hq.
      * intros ein bp Hein. destruct (HP t0) as (Hq & _ & _ & F & E1 & E2 & E3 & E4 & _).
        assert (SW : size_is (fW (q t0)) J I) by apply Hq.
        destruct (fc_backward_ok (q1 t0) N (fW (q t0)) (Y t0) (X t0) ein bp) as (q2 & eout & Eb & Hq2 & G1 & G2 & G3); auto.
        set (d := fun n j => act_der act (at_ (Y t0) n j) * at_ ein n j).
        set (g := fun k => let j := (k / B)%nat in let i := (k mod B)%nat in
                    if Nat.ltb i I then at_ (fWd q2) j i else at_ (fbd q2) j 0).
        assert (Hg : forall j i, (i < B)%nat -> g (j * B + i)%nat = if Nat.ltb i I then at_ (fWd q2) j i else at_ (fbd q2) j 0).
        { intros j i Hi. unfold g. rewrite Nat.div_add_l by lia. rewrite Nat.div_small by auto.
          rewrite (Nat.add_comm (j * B)), Nat.mod_add by lia. rewrite Nat.mod_small by auto. now rewrite Nat.add_0_r. }
        exists q2, eout, g. split; auto. split; auto. split.
        { intros k Hk. destruct (split_index _ _ _ Hk) as (j & i & Hj & Hi & ->).
          rewrite Hg by auto. eapply fc_readDeriv; eauto. }
        assert (Key : inner N J (at_ ein) (fun n j => act_der act (at_ (Y t0) n j) * A' n j) +
            rsum J (fun j => rsum I (fun i => regD reg (at_ (fW (q t0)) j i) * W' j i)) =
            rsum (J * B) (fun k => g k * p' k) +
            rsum N (fun n => rsum I (fun i => rsum J (fun j => d n j * at_ (fW (q t0)) j i) * X' n i))).
        { unfold inner. rewrite (rsum_ext N _ (fun n => rsum J (fun j => d n j * A' n j)))
            by (intros; apply rsum_ext; intros; unfold d; ring).
          unfold A'. rewrite affine_chain. rewrite rsum_block.
          rewrite (rsum_ext J (fun i : nat => rsum B (fun j : nat => g (i * B + j)%nat * p' (i * B + j)%nat))
            (fun j => rsum I (fun i => rsum N (fun n => d n j * at_ (X t0) n i) * W' j i) + rsum N (fun n => d n j) * b' j +
               rsum I (fun i => regD reg (at_ (fW (q t0)) j i) * W' j i))).
          - rewrite !rsum_plus. ring.
          - intros j Hj. unfold unitParams at 1. rewrite rsum_app.
            rewrite (rsum_ext I (fun i => g (j * B + i)%nat * p' (j * B + i)%nat)
              (fun i => rsum N (fun n => d n j * at_ (X t0) n i) * W' j i + regD reg (at_ (fW (q t0)) j i) * W' j i)).
            + rewrite rsum_plus. rewrite (rsum_ext (if bias then 1 else 0)%nat
                (fun i => g (j * B + (I + i))%nat * p' (j * B + (I + i))%nat)
                (fun i => rsum N (fun n => d n j) * b' j)).
              * unfold b'. destruct (bias); simpl; ring.
              * intros i Hi. assert (Ebias : bias = true) by (destruct bias; [auto|lia]).
                assert (i = 0)%nat as -> by (rewrite Ebias in Hi; lia). rewrite Nat.add_0_r.
                rewrite Hg by (unfold unitParams; rewrite Ebias; lia).
                destruct (Nat.ltb_spec I I); [lia|]. rewrite G2 by auto. unfold b'. rewrite Ebias. reflexivity.
            + intros i Hi. rewrite Hg by (unfold unitParams; lia). destruct (Nat.ltb_spec i I); [|lia].
              rewrite G1. unfold W', d. ring. }
        split.
        { intros Hb. destruct (G3 Hb) as (Se & Fe). split; auto. rewrite Key. f_equal.
          unfold inner. apply rsum_ext. intros. apply rsum_ext. intros. rewrite Fe. auto. }
        { intros Hb HX'. rewrite Key. rewrite (rsum_0 N); [ring|]. intros n Hn. apply rsum_0.
          intros i Hi. rewrite HX' by auto. ring. }
Qed.
End FCP2.
