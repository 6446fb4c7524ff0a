(** Proofs about the compressed layer. *)
From Verif Require Import Base BaseFacts Matrix RSum MatOps Vec Deriv Activation_Model
  Activation_Proofs Layer_Model Layer_Spec Layer_Proofs Layer_Layout FC_Model Reg_Proofs SimpleLayers_Model.
Local Open Scope R_scope.

Definition k_inv (I J M : nat) (bias : bool) (act : ActivationFunction) (phi : nat -> nat -> R)
    (reg : Regularization) (s : compressed) : Prop :=
  kI s = I /\ kJ s = J /\ kM s = M /\ kbias s = bias /\ kact s = act /\ kreg s = reg /\
  kphi s = mkMat M (I + 1) phi /\
  size_is (kW s) J (I + nbias bias) /\ size_is (kWd s) J (I + nbias bias) /\
  size_is (kalpha s) J M /\ size_is (kalphad s) J M /\ cols (ky s) = J /\ cols (kyd s) = J.

(** alpha * phi *)
Definition k_weight (M : nat) (phi : nat -> nat -> R) (alpha : nat -> nat -> R) (j i : nat) : R :=
  rsum M (fun m => alpha j m * phi m i).

(** the activation of unit j for row n *)
Definition k_preact (I : nat) (bias : bool) (w : nat -> nat -> R) (X : mat) (n j : nat) : R :=
  rsum I (fun i => at_ X n i * w j i) + if bias then w j I else 0.

Section K.
Context (junk : nat -> nat -> R) (I J M : nat) (bias : bool) (act : ActivationFunction)
  (phi : nat -> nat -> R) (reg : Regularization).
Notation inv := (k_inv I J M bias act phi reg).
Notation c := (k_class junk).

Definition k_locs : list kloc := flat_map (fun j => map (LA j) (seq 0 M)) (seq 0 J).
Definition k_dlocs : list kloc := flat_map (fun j => map (LAd j) (seq 0 M)) (seq 0 J).
Definition k_idx (l : kloc) : nat := match l with LA j m => j * M + m | LAd j m => j * M + m end.

Lemma map_seq_nth {A} (f : nat -> A) n i : (i < n)%nat -> nth_error (map f (seq 0 n)) i = Some (f i).
Proof.
  intros H. apply map_nth_error. rewrite nth_error_nth' with (d := 0%nat) by (rewrite seq_length; auto).
  now rewrite seq_nth by auto.
Qed.

Lemma k_locs_length : length k_locs = (J * M)%nat.
Proof. apply flat_map_length_const. intros. now rewrite map_length, seq_length. Qed.
Lemma k_dlocs_length : length k_dlocs = (J * M)%nat.
Proof. apply flat_map_length_const. intros. now rewrite map_length, seq_length. Qed.
Lemma k_locs_nth j m : (j < J)%nat -> (m < M)%nat -> nth_error k_locs (j * M + m) = Some (LA j m).
Proof.
  intros Hj Hm. unfold k_locs. rewrite (nth_error_blocks _ M J 0); auto.
  - now apply map_seq_nth.
  - intros. now rewrite map_length, seq_length.
Qed.
Lemma k_dlocs_nth j m : (j < J)%nat -> (m < M)%nat -> nth_error k_dlocs (j * M + m) = Some (LAd j m).
Proof.
  intros Hj Hm. unfold k_dlocs. rewrite (nth_error_blocks _ M J 0); auto.
  - now apply map_seq_nth.
  - intros. now rewrite map_length, seq_length.
Qed.

Lemma k_init s : inv s -> k_initialize s = (k_locs, k_dlocs).
Proof. intros (_ & A2 & A3 & _). unfold k_initialize. now rewrite A2, A3. Qed.

Lemma k_locs_In l : In l k_locs -> exists j m, (j < J)%nat /\ (m < M)%nat /\ l = LA j m.
Proof.
  intros H. apply In_nth_error in H. destruct H as (k & Hk).
  assert (K : (k < J * M)%nat) by (rewrite <- k_locs_length; apply nth_error_Some; congruence).
  destruct (split_index _ _ _ K) as (j & i & Hj & Hi & ->). rewrite k_locs_nth in Hk by auto.
  injection Hk as <-. eauto.
Qed.

Lemma k_idx_ok k l : nth_error k_locs k = Some l -> k_idx l = k.
Proof.
  intros Hk. assert (K : (k < J * M)%nat) by (rewrite <- k_locs_length; apply nth_error_Some; congruence).
  destruct (split_index _ _ _ K) as (j & i & Hj & Hi & ->). rewrite k_locs_nth in Hk by auto.
  injection Hk as <-. auto.
Qed.

Lemma k_load_ok s l : inv s -> In l k_locs -> exists v, k_load s l = Ok v.
Proof.
  intros (_ & _ & _ & _ & _ & _ & _ & _ & _ & (W1 & W2) & _) H.
  destruct (k_locs_In l H) as (j & i & Hj & Hi & ->); simpl; rewrite mget_Ok by lia; eauto.
Qed.

Lemma k_store_ok s l v : inv s -> In l k_locs ->
  exists s', k_store s l v = Ok s' /\ inv s' /\ k_load s' l = Ok v /\
  forall l', In l' k_locs -> l' <> l -> k_load s' l' = k_load s l'.
Proof.
  intros Hinv H. pose proof Hinv as (A1 & A2 & A3 & A4 & A5 & A6 & A7 & A8 & A9 & (B1 & B2) & C1 & C2 & C3).
  destruct (k_locs_In l H) as (j & i & Hj & Hi & ->); simpl;
    rewrite mset_Ok by lia; cbn [bind]; eexists; (split; [reflexivity|]).
  split; [unfold k_inv; simpl; unfold size_is; simpl; auto 15|]. split.
  + simpl. rewrite mget_Ok by (simpl; lia). now rewrite at_mupd_same.
  + intros l' Hl' Hn. destruct (k_locs_In l' Hl') as (j' & i' & Hj' & Hi' & ->); simpl.
    rewrite !mget_Ok by (simpl; lia). rewrite at_mupd_other; auto.
    destruct (Nat.eq_dec j' j) as [->|]; [right; intros ->; congruence|auto].
Qed.

Lemma k_layout_init s : inv s ->
  fst (initialize c s) = k_locs /\ length (snd (initialize c s)) = length k_locs.
Proof. intros H. cbn [initialize k_class]. rewrite k_init by auto. simpl. now rewrite k_locs_length, k_dlocs_length. Qed.

Lemma k_write s k v : inv s -> (k < J * M)%nat ->
  exists s', writeParam c s k v = Ok s' /\ inv s' /\
  forall k', (k' < J * M)%nat -> readParam c s' k' = if Nat.eqb k' k then Ok v else readParam c s k'.
Proof.
  rewrite <- k_locs_length. apply (layout_write c inv k_locs k_idx).
  - apply k_layout_init.
  - apply k_idx_ok.
  - apply k_store_ok.
Qed.

Lemma k_read s j m : inv s -> (j < J)%nat -> (m < M)%nat ->
  readParam c s (j * M + m) = Ok (at_ (kalpha s) j m).
Proof.
  intros H Hj Hi. unfold readParam. destruct (k_layout_init s H) as (E & _). rewrite E.
  unfold vget. rewrite k_locs_nth by auto. cbn [bind].
  pose proof H as (_ & _ & _ & _ & _ & _ & _ & _ & _ & (W1 & W2) & _).
  simpl; apply mget_Ok; lia.
Qed.

Lemma k_readDeriv s j m : inv s -> (j < J)%nat -> (m < M)%nat ->
  readDeriv c s (j * M + m) = Ok (at_ (kalphad s) j m).
Proof.
  intros H Hj Hi. unfold readDeriv. cbn [initialize k_class]. rewrite k_init by auto.
  cbn [snd]. unfold vget. rewrite k_dlocs_nth by auto. cbn [bind].
  pose proof H as (_ & _ & _ & _ & _ & _ & _ & _ & _ & _ & (W1 & W2) & _).
  simpl; apply mget_Ok; lia.
Qed.

Lemma k_updated s : inv s ->
  exists q, k_updatedParameters s = Ok q /\ inv q /\ kalpha q = kalpha s /\
    forall j i, at_ (kW q) j i = k_weight M phi (at_ (kalpha s)) j i.
Proof.
  intros (A1 & A2 & A3 & A4 & A5 & A6 & A7 & A8 & A9 & B & C1 & C2 & C3).
  unfold k_updatedParameters. rewrite A7, A3, A1, A4.
  rewrite (mblock_Ok _ M (I + nbias bias) M (I + 1)); [|split; auto|auto|destruct bias; simpl; lia].
  cbn [bind]. rewrite (mmul_Ok _ _ J M (I + nbias bias)); [|auto|split; auto]. cbn [bind].
  eexists. split; [reflexivity|]. split; [unfold k_inv; simpl; unfold size_is; simpl; auto 15|].
  split; auto.
Qed.

Lemma k_install s p : inv s -> length p = (J * M)%nat ->
  exists q, install c s p = Ok q /\ inv q /\
    (forall j m, (j < J)%nat -> (m < M)%nat -> at_ (kalpha q) j m = p.[j * M + m]) /\
    forall j i, at_ (kW q) j i = k_weight M phi (at_ (kalpha q)) j i.
Proof.
  intros H Hp. destruct (writeAll_Ok c (J * M) inv s p k_write H Hp) as (q0 & E & Hq & R).
  destruct (k_updated q0 Hq) as (q & E' & Hq' & Ea & EW).
  exists q. split; [unfold install; rewrite E; auto|]. split; auto. rewrite Ea. split; auto.
  intros j m Hj Hm. pose proof (R _ (join_index M j m J Hj Hm)) as R1. rewrite k_read in R1 by auto.
  now injection R1.
Qed.

Lemma k_forward_ok q x dropout N : inv q -> size_is x N I ->
  exists q1 y, k_forward junk q x dropout = Ok (q1, y, regError reg (kalpha q)) /\ size_is y N J /\ inv q1 /\
    (forall n j, at_ y n j = act_fun act (k_preact I bias (at_ (kW q)) x n j)) /\
    kW q1 = kW q /\ kalpha q1 = kalpha q /\ kx q1 = x /\ size_is (ka q1) N J /\ ky q1 = y.
Proof.
  intros (A1 & A2 & A3 & A4 & A5 & A6 & A7 & A8 & A9 & B & C1 & C2 & C3) Hx. unfold k_forward. rewrite A1.
  rewrite (mleftCols_Ok _ I J (I + nbias bias)); [|auto|destruct bias; simpl; lia]. cbn [bind].
  rewrite (mmul_Ok _ _ N I J); [|auto|split; auto]. cbn [bind]. rewrite A4.
  match goal with |- context [if bias then ?m else Ok ?a0] => assert (Ha : exists a, (if bias then m else Ok a0) = Ok a /\
     size_is a N J /\ forall n j, at_ a n j = k_preact I bias (at_ (kW q)) x n j) end.
  { destruct bias.
    - rewrite (mcol_Ok _ I J (I + 1)) by (auto; lia). cbn [bind rows].
      rewrite (maddrow_Ok _ _ N J) by (split; auto). eexists. split; [reflexivity|]. split; [split; auto|]. intros. reflexivity.
    - eexists. split; [reflexivity|]. split; [split; auto|]. intros. unfold k_preact. simpl. ring. }
  destruct Ha as (a & Ea & Sa & Fa). rewrite Ea. cbn [bind]. rewrite A5.
  destruct (activationFunction_Ok act a (mconsresize junk (ky q) (rows x) (cols (ky q))) N J) as (y & Ey & Sy & Fy); auto.
  { destruct Hx. split; simpl; auto. }
  rewrite Ey. cbn [bind]. rewrite A6. eexists. exists y. split; [reflexivity|]. split; auto.
  simpl. split; [|split; [|auto 10]].
  - unfold k_inv. simpl. destruct Sy. auto 20.
  - intros. rewrite Fy, Fa. auto.
Qed.

Lemma k_backward_ok q1 N y x ein bp : inv q1 -> kx q1 = x -> size_is x N I ->
  size_is (ka q1) N J -> ky q1 = y -> size_is y N J -> size_is ein N J ->
  let d := fun n j => act_der act (at_ y n j) * at_ ein n j in
  exists q2 eout, k_backward junk q1 ein bp = Ok (q2, eout) /\ inv q2 /\
    (forall j m, at_ (kalphad q2) j m =
       rsum I (fun i => rsum N (fun n => d n j * at_ x n i) * phi m i) +
       (if bias then rsum N (fun n => d n j) * phi m I else 0) + regD reg (at_ (kalpha q1) j m)) /\
    (bp = true -> size_is eout N I /\
       forall n i, at_ eout n i = rsum J (fun j => d n j * at_ (kW q1) j i)).
Proof.
  intros (A1 & A2 & A3 & A4 & A5 & A6 & A7 & A8 & A9 & B & C1 & C2 & C3) Ex Sx Sa Ey Sy Se d.
  unfold k_backward. rewrite A5, Ey, A1, Ex, A7, A3.
  destruct (activationFunctionDerivative_Ok act y (mconsresize junk (kyd q1) (rows (ka q1)) (cols (kyd q1))) N J)
    as (yd & Eyd & Syd & Fyd); auto.
  { destruct Sa. split; simpl; auto. }
  rewrite Eyd. cbn [bind]. rewrite (mmap2_Ok _ _ _ N J) by auto. cbn [bind].
  rewrite (mmul_Ok _ _ J N I) by (auto; split; auto). cbn [bind].
  rewrite (msetLeftCols_Ok _ I _ J (I + nbias bias)); [|auto|split; auto|destruct bias; simpl; lia]. cbn [bind].
  rewrite (mleftCols_Ok _ I J (I + nbias bias)); [|split; auto|destruct bias; simpl; lia]. cbn [bind].
  rewrite (mblock_Ok _ M I M (I + 1)); [|split; auto|auto|lia]. cbn [bind].
  rewrite (mmul_Ok _ _ J I M) by (split; auto). cbn [bind]. rewrite A4.
  match goal with |- context [if bias then ?mm else Ok ?a0] => assert (Ha : exists Wd ad, (if bias then mm else Ok a0) = Ok (Wd, ad) /\
     size_is Wd J (I + nbias bias) /\ size_is ad J M /\ forall j m, at_ ad j m =
       rsum I (fun i => rsum N (fun n => d n j * at_ x n i) * phi m i) +
       (if bias then rsum N (fun n => d n j) * phi m I else 0)) end.
  { assert (Ed : forall j m, rsum I (fun l => (if Nat.ltb l I then rsum N (fun l0 => at_ yd l0 j * at_ ein l0 j * at_ x l0 l)
       else at_ (kWd q1) j l) * phi m l) = rsum I (fun i => rsum N (fun n => d n j * at_ x n i) * phi m i)).
    { intros. apply rsum_ext. intros i Hi. apply Nat.ltb_lt in Hi. rewrite Hi. f_equal.
      apply rsum_ext. intros. rewrite Fyd. auto. }
    destruct bias; simpl nbias in *.
    - rewrite (msetCol_Ok _ I _ J (I + 1)); [|split; auto|split; auto|lia]. cbn [bind].
      rewrite (mcol_Ok _ I J (I + 1)); [|split; auto|lia]. cbn [bind].
      rewrite (mcol_Ok _ I M (I + 1)); [|split; auto|lia]. cbn [bind].
      rewrite (mmul_Ok _ _ J 1 M) by (split; auto). cbn [bind].
      rewrite (mmap2_Ok _ _ _ J M) by (split; auto). cbn [bind].
      eexists. eexists. split; [reflexivity|]. split; [split; auto|]. split; [split; auto|].
      intros j m. simpl. rewrite Ed. rewrite Nat.eqb_refl. f_equal. unfold colsum. simpl.
      rewrite Rplus_0_l. f_equal. apply rsum_ext. intros. rewrite Fyd. auto.
    - eexists. eexists. split; [reflexivity|]. split; [split; auto|]. split; [split; auto|].
      intros j m. simpl. rewrite Ed. ring. }
  destruct Ha as (Wd & ad & Ea & SWd & Sad & Fad). rewrite Ea. cbn [bind]. rewrite A6.
  destruct (regDeriv_Ok reg (kalpha q1) ad J M) as (ad' & Er & Sr & Fr); auto.
  rewrite Er. cbn [bind].
  destruct bp.
  - rewrite (mleftCols_Ok _ I J (I + nbias bias)); [|auto|destruct bias; simpl; lia]. cbn [bind].
    rewrite (mmul_Ok _ _ N J I) by (split; auto). cbn [bind]. eexists. eexists. split; [reflexivity|].
    split; [unfold k_inv; simpl; destruct Syd, Sy; rewrite <- Ey in *; auto 20|]. split.
    + intros. simpl. rewrite Fr, Fad. auto.
    + intros _. split; [split; auto|]. intros. simpl. apply rsum_ext. intros. rewrite Fyd. auto.
  - eexists. eexists. split; [reflexivity|].
    split; [unfold k_inv; simpl; destruct Syd, Sy; rewrite <- Ey in *; auto 20|]. split; [|discriminate].
    intros. simpl. rewrite Fr, Fad. auto.
Qed.

Definition k_smooth (q : compressed) (X : mat) : Prop :=
  (forall n j, (n < rows X)%nat -> (j < J)%nat ->
     act_smooth act (k_preact I bias (k_weight M phi (at_ (kalpha q))) X n j)) /\
  (0 < l1Penalty reg -> forall j m, (j < J)%nat -> (m < M)%nat -> at_ (kalpha q) j m <> 0).

Lemma k_contract : contract c I J (J * M) inv k_smooth.
Proof.
  constructor.
  - intros s Hs. rewrite <- k_locs_length. now apply (layout_count c inv k_locs k_layout_init).
  - intros s k Hs Hk. rewrite <- k_locs_length in Hk.
    apply (layout_read c inv k_locs k_layout_init); auto. apply k_load_ok.
  - apply k_write.
  - intros s Hs. destruct (k_updated s Hs) as (q & E & Hq & Ea & _). exists q. split; auto. split; auto.
    intros k Hk. destruct (split_index _ _ _ Hk) as (j & m & Hj & Hm & ->). rewrite !k_read by auto. now rewrite Ea.
  - apply (gradient_intro c I J (J * M) inv k_smooth
      (fun s dropout N p X q q1 Y r =>
         inv q /\
         (forall j m, (j < J)%nat -> (m < M)%nat -> at_ (kalpha q) j m = p.[j * M + m]) /\
         (forall j i, at_ (kW q) j i = k_weight M phi (at_ (kalpha q)) j i) /\
         (forall n j, at_ Y n j = act_fun act (k_preact I bias (at_ (kW q)) X n j)) /\
         kW q1 = kW q /\ kalpha q1 = kalpha q /\ kx q1 = X /\ size_is (ka q1) N J /\ ky q1 = Y /\
         r = regError reg (kalpha q))).
    + intros s dropout N p X Hs Hp HX.
      destruct (k_install s p Hs Hp) as (q & E & Hq & R1 & R2).
      destruct (k_forward_ok q X dropout N Hq HX) as (q1 & y & Ef & Sy & Hq1 & F1 & F2 & F3 & F4 & F5 & F6).
      exists q, q1, y, (regError reg (kalpha q)). auto 20.
    + intros s dropout N t0 p p' X X' q q1 Y r Hs Hp HX Dp DX (Sm1 & Sm2) SY Hq1 HP.
      set (al' := fun j m => p' (j * M + m)%nat).
      set (W' := k_weight M phi al').
      set (b' := fun j => if bias then W' j I else 0).
      set (A' := fun n j => rsum I (fun i => X' n i * at_ (kW (q t0)) j i + at_ (X t0) n i * W' j i) + b' j).
      assert (Da : forall j m, (j < J)%nat -> (m < M)%nat -> D (fun t => at_ (kalpha (q t)) j m) t0 (al' j m)).
      { intros j m Hj Hm. apply (D_ext (fun t => (p t).[j * M + m])).
        - intros t. destruct (HP t) as (_ & R1 & _). symmetry. now apply R1.
        - apply Dp. apply join_index; auto. }
      assert (DW : forall j i, (j < J)%nat -> D (fun t => at_ (kW (q t)) j i) t0 (W' j i)).
      { intros j i Hj. apply (D_ext (fun t => k_weight M phi (at_ (kalpha (q t))) j i)).
        - intros t. destruct (HP t) as (_ & _ & R2 & _). now rewrite R2.
        - unfold k_weight, W'. apply (D_sum M (fun m t => at_ (kalpha (q t)) j m * phi m i)). intros m Hm.
          apply (D_scal_r _ (fun t => at_ (kalpha (q t)) j m)). auto. }
      exists (fun n j => act_der act (at_ (Y t0) n j) * A' n j),
        (rsum J (fun j => rsum M (fun m => regD reg (at_ (kalpha (q t0)) j m) * al' j m))).
      split; [|split].
      * intros n j Hn Hj. destruct (HP t0) as (_ & _ & R2 & F & _). rewrite F.
        apply (D_ext (fun t => act_fun act (k_preact I bias (at_ (kW (q t))) (X t) n j))).
        { intros t. destruct (HP t) as (_ & _ & _ & F' & _). rewrite F'. auto. }
        apply (D_comp (fun t => k_preact I bias (at_ (kW (q t))) (X t) n j) (act_fun act)).
        { unfold k_preact. apply (D_affine I (fun t i => at_ (X t) n i) (fun t i => at_ (kW (q t)) j i)
            (fun t => if bias then at_ (kW (q t)) j I else 0)); auto.
          unfold b'. destruct bias; [auto|apply D_const]. }
        apply act_derivative.
        replace (k_preact I bias (at_ (kW (q t0))) (X t0) n j)
          with (k_preact I bias (k_weight M phi (at_ (kalpha (q t0)))) (X t0) n j).
        { apply Sm1; auto. destruct (HX t0). lia. }
        unfold k_preact. f_equal; [apply rsum_ext; intros; now rewrite R2|]. destruct bias; auto.
      * apply (D_ext (fun t => regError reg (kalpha (q t)))).
        { intros t. destruct (HP t) as (_ & _ & _ & _ & _ & _ & _ & _ & _ & ->). auto. }
        apply D_regError; auto. intros t. destruct (HP t) as (Hq & _). apply Hq.
      * intros ein bp Hein. destruct (HP t0) as (Hq & _ & _ & F & E1 & E2 & E3 & E4 & E5 & _).
        destruct (k_backward_ok (q1 t0) N (Y t0) (X t0) ein bp) as (q2 & eout & Eb & Hq2 & G1 & G3); auto.
        set (d := fun n j => act_der act (at_ (Y t0) n j) * at_ ein n j) in *.
        set (g := fun k => at_ (kalphad q2) (k / M)%nat (k mod M)%nat).
        assert (Hg : forall j m, (m < M)%nat -> g (j * M + m)%nat = at_ (kalphad q2) j m).
        { intros j i Hi. unfold g. rewrite Nat.div_add_l by lia. rewrite Nat.div_small by auto.
          rewrite (Nat.add_comm (j * M)), Nat.mod_add by lia. rewrite Nat.mod_small by auto. now rewrite Nat.add_0_r. }
        exists q2, eout, g. split; auto. split; auto. split.
        { intros k Hk. destruct (split_index _ _ _ Hk) as (j & i & Hj & Hi & ->).
          rewrite Hg by auto. now apply k_readDeriv. }
        assert (Key : inner N J (at_ ein) (fun n j => act_der act (at_ (Y t0) n j) * A' n j) +
            rsum J (fun j => rsum M (fun m => regD reg (at_ (kalpha (q t0)) j m) * al' j m)) =
            rsum (J * M) (fun k => g k * p' k) +
            rsum N (fun n => rsum I (fun i => rsum J (fun j => d n j * at_ (kW (q t0)) j i) * X' n i))).
        { unfold inner. rewrite (rsum_ext N _ (fun n => rsum J (fun j => d n j * A' n j)))
            by (intros; apply rsum_ext; intros; unfold d; ring).
          unfold A'. rewrite affine_chain. rewrite rsum_block.
          rewrite (rsum_ext J (fun i : nat => rsum M (fun j : nat => g (i * M + j)%nat * p' (i * M + j)%nat))
            (fun j => (rsum I (fun i => rsum N (fun n => d n j * at_ (X t0) n i) * W' j i) + rsum N (fun n => d n j) * b' j) +
               rsum M (fun m => regD reg (at_ (kalpha (q t0)) j m) * al' j m))).
          - rewrite (rsum_plus J _ (fun j => rsum M (fun m => regD reg (at_ (kalpha (q t0)) j m) * al' j m))). ring.
          - intros j Hj.
            rewrite (rsum_ext M _ (fun m => rsum I (fun i => rsum N (fun n => d n j * at_ (X t0) n i) * (al' j m * phi m i)) +
               (if bias then rsum N (fun n => d n j) * (al' j m * phi m I) else 0) +
               regD reg (at_ (kalpha (q t0)) j m) * al' j m)).
            + rewrite !rsum_plus. f_equal. f_equal.
              * rewrite rsum_swap. apply rsum_ext. intros i Hi. unfold W', k_weight. now rewrite rsum_scal.
              * unfold b'. destruct bias; [unfold W', k_weight; now rewrite rsum_scal|].
                rewrite rsum_0; [ring|]. auto.
            + intros m Hm. rewrite Hg, G1, E2 by auto. unfold al', d.
              rewrite !Rmult_plus_distr_r. f_equal. f_equal.
              * rewrite <- (rsum_scal_r I). apply rsum_ext. intros. ring.
              * destruct bias; ring. }
        split.
        { intros Hb. destruct (G3 Hb) as (Se & Fe). split; auto. rewrite Key. f_equal.
          unfold inner. apply rsum_ext. intros. apply rsum_ext. intros. rewrite Fe, E1. auto. }
        { intros Hb HX'. rewrite Key. rewrite (rsum_0 N); [ring|]. intros n Hn. apply rsum_0.
          intros i Hi. rewrite HX' by auto. ring. }
Qed.
End K.
