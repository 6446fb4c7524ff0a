(** Restricted Boltzmann machines as layers. *)
From Verif Require Import Base BaseFacts Matrix RSum MatOps Vec Deriv Activation_Model
  Activation_Proofs Layer_Model Layer_Spec Layer_Proofs Layer_Layout FC_Model FC_Proofs
  SAELayer_Proofs RBM_Model RBM_Spec RBM_Proofs.
Local Open Scope R_scope.

Section Layer.
Context (junk : nat -> nat -> R) (u : nat -> R) (M H cdN : nat) (backprop : bool) (reg : Regularization).
Notation inv := (rbm_inv M H cdN backprop reg).
Notation c := (rbm_class junk u).
Notation K1 := (H * M + H)%nat.

Definition rbm_K : nat := if backprop then K1 else 0.
Definition rbm_locs : list rloc :=
  if backprop then flat_map (fun h => map (RW h) (seq 0 M)) (seq 0 H) ++ map Rb (seq 0 H) else [].
Definition rbm_dlocs : list rloc :=
  if backprop then flat_map (fun h => map (RWd h) (seq 0 M)) (seq 0 H) ++ map Rbd (seq 0 H) else [].
Definition rbm_idx (l : rloc) : nat :=
  match l with RW h d => h * M + d | RWd h d => h * M + d | Rb h => H * M + h | Rbd h => H * M + h end.

Lemma rlocs_length : length rbm_locs = rbm_K.
Proof. unfold rbm_locs, rbm_K. destruct backprop; [apply two_length|reflexivity]. Qed.
Lemma rdlocs_length : length rbm_dlocs = rbm_K.
Proof. unfold rbm_dlocs, rbm_K. destruct backprop; [apply two_length|reflexivity]. Qed.

Lemma rbm_init s : inv s -> rbm_initializeLayer s = (rbm_locs, rbm_dlocs).
Proof. intros (C & _). unfold rbm_initializeLayer. rewrite C. unfold rbm_locs, rbm_dlocs. cbn [rD rH rbackprop]. now destruct backprop. Qed.

Lemma rlocs_nth k l : nth_error rbm_locs k = Some l ->
  (exists h d, (h < H)%nat /\ (d < M)%nat /\ l = RW h d /\ k = (h * M + d)%nat) \/
  (exists h, (h < H)%nat /\ l = Rb h /\ k = (H * M + h)%nat).
Proof.
  intros Hk. assert (B : (k < rbm_K)%nat) by (rewrite <- rlocs_length; apply nth_error_Some; congruence).
  unfold rbm_locs, rbm_K in *. destruct backprop; [|lia].
  destruct (K_split M H k B) as [(h & d & Hh & Hd & ->)|(h & Hh & ->)].
  - rewrite two_nth1 in Hk by auto. injection Hk as <-. left. eauto 7.
  - rewrite two_nth2 in Hk by auto. injection Hk as <-. eauto.
Qed.

Lemma rlocs_In l : In l rbm_locs ->
  (exists h d, (h < H)%nat /\ (d < M)%nat /\ l = RW h d) \/ (exists h, (h < H)%nat /\ l = Rb h).
Proof.
  intros HI. apply In_nth_error in HI. destruct HI as (k & Hk).
  destruct (rlocs_nth k l Hk) as [(h & d & A & B & E & _)|(h & A & E & _)]; eauto 7.
Qed.

Lemma rbm_idx_ok k l : nth_error rbm_locs k = Some l -> rbm_idx l = k.
Proof. intros Hk. destruct (rlocs_nth k l Hk) as [(h & d & _ & _ & -> & ->)|(h & _ & -> & ->)]; reflexivity. Qed.

Lemma rbm_layout_init s : inv s ->
  fst (initialize c s) = rbm_locs /\ length (snd (initialize c s)) = length rbm_locs.
Proof.
  intros I. cbn [initialize rbm_class]. rewrite rbm_init by auto. split; auto. cbn [snd].
  refine (eq_trans rdlocs_length _). symmetry. apply rlocs_length.
Qed.

Lemma rbm_load_ok s l : inv s -> In l rbm_locs -> exists v, rbm_load s l = Ok v.
Proof.
  intros (_ & ((W1 & W2) & _ & (b1 & b2)) & _) HI.
  destruct (rlocs_In l HI) as [(h & d & Hh & Hd & ->)|(h & Hh & ->)]; cbn [rbm_load]; rewrite mget_Ok by lia; eauto.
Qed.

Lemma rbm_store_ok s l v : inv s -> In l rbm_locs ->
  exists s', rbm_store s l v = Ok s' /\ inv s' /\ rbm_load s' l = Ok v /\
  forall l', In l' rbm_locs -> l' <> l -> rbm_load s' l' = rbm_load s l'.
Proof.
  intros I HI. pose proof I as (C & ((W1 & W2) & Sbv & (b1 & b2)) & R).
  destruct (rlocs_In l HI) as [(h & d & Hh & Hd & ->)|(h & Hh & ->)]; cbn [rbm_store];
    rewrite mset_Ok by lia; cbn [bind]; eexists; (split; [reflexivity|]).
  - split; [|split].
    + split; auto. split; [|exact R]. split; [split; auto|]. split; auto. split; auto.
    + cbn. rewrite mget_Ok by (unfold mupd; cbn; lia). now rewrite at_mupd_same.
    + intros l' Hl' Hn. destruct (rlocs_In l' Hl') as [(h' & d' & Hh' & Hd' & ->)|(h' & Hh' & ->)]; cbn; auto.
      rewrite !mget_Ok by (unfold mupd; cbn; lia). rewrite at_mupd_other; auto.
      destruct (Nat.eq_dec h' h); [|auto]. destruct (Nat.eq_dec d' d); [|auto]. subst. contradiction.
  - split; [|split].
    + split; auto. split; [|exact R]. split; [split; auto|]. split; auto. split; auto.
    + cbn. rewrite mget_Ok by (unfold mupd; cbn; lia). now rewrite at_mupd_same.
    + intros l' Hl' Hn. destruct (rlocs_In l' Hl') as [(h' & d' & Hh' & Hd' & ->)|(h' & Hh' & ->)]; cbn; auto.
      rewrite !mget_Ok by (unfold mupd; cbn; lia). rewrite at_mupd_other; auto.
Qed.

Lemma rbm_write s k v : inv s -> (k < rbm_K)%nat ->
  exists s', writeParam c s k v = Ok s' /\ inv s' /\
  forall k', (k' < rbm_K)%nat -> readParam c s' k' = if Nat.eqb k' k then Ok v else readParam c s k'.
Proof.
  rewrite <- rlocs_length. apply (layout_write c inv rbm_locs rbm_idx).
  - apply rbm_layout_init.
  - apply rbm_idx_ok.
  - apply rbm_store_ok.
Qed.

Lemma rbm_read s : inv s -> backprop = true ->
  (forall h d, (h < H)%nat -> (d < M)%nat -> readParam c s (h * M + d) = Ok (at_ (qW (rpar s)) h d)) /\
  (forall h, (h < H)%nat -> readParam c s (H * M + h) = Ok (at_ (qbh (rpar s)) h 0)).
Proof.
  intros I Hb. pose proof I as (C & ((W1 & W2) & Sbv & (b1 & b2)) & _).
  destruct (rbm_layout_init s I) as (E & _). split; intros; unfold readParam; rewrite E; unfold vget, rbm_locs; rewrite Hb.
  - rewrite two_nth1 by auto. cbn. apply mget_Ok; lia.
  - rewrite two_nth2 by auto. cbn. apply mget_Ok; lia.
Qed.

Lemma rbm_readDeriv s : inv s -> backprop = true ->
  (forall h d, (h < H)%nat -> (d < M)%nat -> readDeriv c s (h * M + d) = Ok (at_ (lWd (rlay s)) h d)) /\
  (forall h, (h < H)%nat -> readDeriv c s (H * M + h) = Ok (at_ (lbhd (rlay s)) h 0)).
Proof.
  intros I Hb. pose proof I as (C & _ & _ & (W1 & W2) & (b1 & b2) & _).
  split; intros; unfold readDeriv; cbn [initialize rbm_class]; rewrite rbm_init by auto; cbn [snd]; unfold vget, rbm_dlocs; rewrite Hb.
  - rewrite two_nth1 by auto. cbn. apply mget_Ok; lia.
  - rewrite two_nth2 by auto. cbn. apply mget_Ok; lia.
Qed.

(** writing layer parameters changes nothing but the weights and hidden biases *)
Definition rlayOnly (s q : rbm) : Prop :=
  qbv (rpar q) = qbv (rpar s) /\ rparams q = rparams s /\ rdata q = rdata s /\ rsmp q = rsmp s.

Lemma store_only s l v q : In l rbm_locs -> rbm_store s l v = Ok q -> rlayOnly s q.
Proof.
  intros HI E. destruct (rlocs_In l HI) as [(h & d & _ & _ & ->)|(h & _ & ->)]; cbn [rbm_store] in E;
    (match type of E with bind ?m _ = _ => destruct m; try discriminate E end); cbn [bind] in E; injection E as <-;
    unfold rlayOnly; cbn; auto.
Qed.

Lemma rlayOnly_trans a b d : rlayOnly a b -> rlayOnly b d -> rlayOnly a d.
Proof. intros (A1 & A2 & A3 & A4) (B1 & B2 & B3 & B4). unfold rlayOnly. rewrite B1, B2, B3, B4. auto. Qed.

Lemma writeAll_only p s q : inv s -> length p = rbm_K -> install c s p = Ok q -> rlayOnly s q.
Proof.
  intros Is Hp E. unfold install in E. destruct (writeAll c s p) as [q'| | | |] eqn:W; try discriminate E.
  cbn [bind updatedParameters rbm_class] in E. injection E as ->. unfold writeAll in W.
  destruct (for_inv (fun k (st : rbm) => inv st /\ rlayOnly s st) (fun k s => v <- vget p k ;; writeParam c s k v) (length p) s) as (q' & E' & Q).
  - split; auto. unfold rlayOnly. auto.
  - intros k st Hk (I & R). rewrite (vget_nth p k 0) by auto. cbn [bind].
    destruct (rbm_write st k p.[k] I ltac:(lia)) as (st' & Ew & I' & _). exists st'. split; [exact Ew|]. split; [exact I'|].
    eapply rlayOnly_trans; eauto. unfold writeParam in Ew.
    destruct (rbm_layout_init st I) as (E1 & _). rewrite E1 in Ew.
    assert (Ew' : (l <- vget rbm_locs k ;; rbm_store st l p.[k]) = Ok st') by exact Ew. clear Ew.
    destruct (vget rbm_locs k) as [l| | | |] eqn:G; try discriminate Ew'. cbn [bind] in Ew'.
    apply (store_only st l p.[k]); auto. unfold vget in G. destruct (nth_error rbm_locs k) eqn:G'; try discriminate G.
    injection G as ->. eapply nth_error_In; eauto.
  - assert (q = q'). { assert (Ok q = Ok q') by (rewrite <- W; exact E'). congruence. } subst. apply Q.
Qed.

Lemma rbm_install s p : inv s -> length p = rbm_K ->
  exists q, install c s p = Ok q /\ inv q /\ rlayOnly s q /\
    (backprop = false -> rpar q = rpar s) /\
    (backprop = true ->
      (forall h d, (h < H)%nat -> (d < M)%nat -> at_ (qW (rpar q)) h d = p.[h * M + d]) /\
      (forall h, (h < H)%nat -> at_ (qbh (rpar q)) h 0 = p.[H * M + h])).
Proof.
  intros I Hp. destruct (writeAll_Ok c rbm_K inv s p rbm_write I Hp) as (q & E & Hq & R).
  exists q. assert (Ei : install c s p = Ok q) by (unfold install; rewrite E; reflexivity).
  split; [exact Ei|]. split; auto. split; [eapply writeAll_only; eauto|]. split.
  - intros Hb. unfold rbm_K in *. rewrite Hb in Hp. destruct p; [|discriminate]. cbn in Ei. now injection Ei as <-.
  - intros Hb. destruct (rbm_read q Hq Hb) as (R1 & R2). unfold rbm_K in *. rewrite Hb in *. split.
    + intros h d Hh Hd. assert (L : (h * M + d < K1)%nat) by nia. pose proof (R _ L) as Q. rewrite R1 in Q by auto. now injection Q.
    + intros h Hh. assert (L : (H * M + h < K1)%nat) by lia. pose proof (R _ L) as Q. rewrite R2 in Q by auto. now injection Q.
Qed.

Lemma probH_preact P (X : mat) n j : rsize M H P -> (j < H)%nat ->
  probH M H (rflat P) (at_ X n) j = act_fun LOGISTIC (preact M true (qW P) (qbh P) X n j).
Proof.
  intros SP Hj. unfold probH, sigma, inputH, preact. rewrite (rflat_bh M H P SP) by auto. do 2 f_equal.
  apply rsum_ext. intros. now rewrite (rflat_w M H P SP).
Qed.

Lemma rbm_forward_ok q x dropout N : inv q -> size_is x N M ->
  exists q1 y, rbm_forward junk u q x dropout = Ok (q1, y, 0) /\
    size_is y N H /\ inv q1 /\ rsame H q q1 /\
    (forall n j, (j < H)%nat -> at_ y n j = probH M H (rflat (rpar q)) (at_ x n) j) /\
    mv (rsmp q1) = x /\ mph (rsmp q1) = y.
Proof.
  intros I Sx. unfold rbm_forward. pose proof (setV_same M H cdN backprop reg q x I) as K0.
  pose proof (rsame_inv _ _ _ _ _ _ _ K0 I) as I0.
  destruct (withH_ok junk u M H cdN backprop reg N (setV q x) I0) as (s' & E & Ks & E1 & E2 & E3 & S1 & S2 & F1 & _); [exact Sx|].
  rewrite E. cbn [bind]. exists s', (mph (rsmp s')). split; [reflexivity|]. split; auto.
  split; [eapply rsame_inv; eauto|]. split; [exact (rsame_trans _ _ _ _ K0 Ks)|]. split; [exact F1|]. auto.
Qed.

Lemma rbm_backward_ok q1 N ein bp : inv q1 -> size_is (mph (rsmp q1)) N H -> size_is (mv (rsmp q1)) N M -> size_is ein N H ->
  exists q2 eout, rbm_backward junk q1 ein bp = Ok (q2, eout) /\ inv q2 /\
    rpar q2 = rpar q1 /\ rparams q2 = rparams q1 /\ rdata q2 = rdata q1 /\ rsmp q2 = rsmp q1 /\
    (backprop = true ->
      (forall h d, at_ (lWd (rlay q2)) h d =
         rsum N (fun n => at_ ein n h * act_der LOGISTIC (at_ (mph (rsmp q1)) n h) * at_ (mv (rsmp q1)) n d)) /\
      (forall h, at_ (lbhd (rlay q2)) h 0 = rsum N (fun n => at_ ein n h * act_der LOGISTIC (at_ (mph (rsmp q1)) n h)))) /\
    (bp = true -> size_is eout N M /\
       forall n d, at_ eout n d = rsum H (fun h => at_ ein n h * act_der LOGISTIC (at_ (mph (rsmp q1)) n h) * at_ (qW (rpar q1)) h d)).
Proof.
  intros I SZ SX Se. pose proof I as (C & (SW & Sbv & Sbh) & Ch & SD1 & SD2 & SD3 & G). pose proof SZ as (R1 & C1).
  unfold rbm_backward. rewrite C, R1, SD3. cbn [rbackprop].
  destruct (activationFunctionDerivative_Ok LOGISTIC (mph (rsmp q1)) (mconsresize junk (lphd (rlay q1)) N H) N H)
    as (G1 & EG1 & SG1 & FG1); [auto|split; auto|]. rewrite EG1. cbn [bind].
  rewrite (mmap2_Ok _ _ _ N H) by auto. cbn [bind].
  assert (Hw : exists Wd bhd, (if backprop
      then Wd <- mmul (mtrans (mkMat N H (fun i j => at_ G1 i j * at_ ein i j))) (mv (rsmp q1)) ;;
           Ok (Wd, mcolsum (mkMat N H (fun i j => at_ G1 i j * at_ ein i j)))
      else Ok (lWd (rlay q1), lbhd (rlay q1))) = Ok (Wd, bhd) /\ size_is Wd H M /\ size_is bhd H 1 /\
    (backprop = true ->
      (forall h d, at_ Wd h d =
         rsum N (fun n => at_ ein n h * act_der LOGISTIC (at_ (mph (rsmp q1)) n h) * at_ (mv (rsmp q1)) n d)) /\
      (forall h, at_ bhd h 0 = rsum N (fun n => at_ ein n h * act_der LOGISTIC (at_ (mph (rsmp q1)) n h))))).
  { destruct backprop; [|eexists _, _; split; [reflexivity|]; split; [auto|split; [auto|discriminate]]].
    rewrite (mmul_Ok _ _ H N M) by (auto; split; auto). cbn [bind]. eexists _, _. split; [reflexivity|].
    split; [split; auto|]. split; [split; auto|]. intros _. cbn [at_ mtrans mcolsum]. split; intros.
    - apply rsum_ext. intros. rewrite FG1. ring.
    - unfold colsum. cbn [rows at_]. apply rsum_ext. intros. rewrite FG1. ring. }
  destruct Hw as (Wd & bhd & Ew & SWd & Sbd & Fw). rewrite Ew. cbn [bind].
  assert (He : exists e, (if bp then mmul (mkMat N H (fun i j => at_ G1 i j * at_ ein i j)) (qW (rpar q1)) else Ok (le (rlay q1))) = Ok e /\
    (bp = true -> size_is e N M /\
       forall n d, at_ e n d = rsum H (fun h => at_ ein n h * act_der LOGISTIC (at_ (mph (rsmp q1)) n h) * at_ (qW (rpar q1)) h d))).
  { destruct bp; [|eexists; split; [reflexivity|discriminate]].
    rewrite (mmul_Ok _ _ N H M) by (auto; split; auto). eexists. split; [reflexivity|]. intros _.
    split; [split; auto|]. intros. cbn [at_]. apply rsum_ext. intros. rewrite FG1. ring. }
  destruct He as (e & Ee & Fe). rewrite Ee. cbn [bind]. eexists _, e. split; [reflexivity|]. cbn [rpar rparams rdata rsmp rlay setLay lWd lbhd].
  split; [|repeat (split; [reflexivity|])].
  - unfold rbm_inv. cbn. destruct SG1. split; [exact C|]. split; [split; auto|]. auto 12.
  - auto.
Qed.

Definition rbm_smooth (q : rbm) (X : mat) : Prop :=
  forall n h, (n < rows X)%nat -> (h < H)%nat -> act_smooth LOGISTIC (preact M true (qW (rpar q)) (qbh (rpar q)) X n h).

Lemma rbm_contract : contract c M H rbm_K inv rbm_smooth.
Proof.
  constructor.
  - intros s I. destruct (rbm_layout_init s I) as (E & L). pose proof rlocs_length as Q.
    split; [|congruence]. refine (eq_trans _ Q). f_equal. exact E.
  - intros s k I Hk. rewrite <- rlocs_length in Hk. apply (layout_read c inv rbm_locs); auto.
    + apply rbm_layout_init.
    + apply rbm_load_ok.
  - apply rbm_write.
  - intros s I. exists s. auto.
  - apply (gradient_intro c M H rbm_K inv rbm_smooth
      (fun s dropout N p X q q1 Y r =>
         inv q /\ (backprop = false -> rpar q = rpar s) /\
         (backprop = true ->
           (forall h d, (h < H)%nat -> (d < M)%nat -> at_ (qW (rpar q)) h d = p.[h * M + d]) /\
           (forall h, (h < H)%nat -> at_ (qbh (rpar q)) h 0 = p.[H * M + h])) /\
         (forall n j, (j < H)%nat -> at_ Y n j = act_fun LOGISTIC (preact M true (qW (rpar q)) (qbh (rpar q)) X n j)) /\
         rpar q1 = rpar q /\ mv (rsmp q1) = X /\ mph (rsmp q1) = Y /\ r = 0)).
    + intros s dropout N p X Hs Hp HX.
      destruct (rbm_install s p Hs Hp) as (q & E & Hq & _ & R1 & R2).
      destruct (rbm_forward_ok q X dropout N Hq HX) as (q1 & y & Ef & Sy & Hq1 & F1 & F2 & F3 & F4).
      exists q, q1, y, 0. destruct F1 as (_ & F1 & _). repeat (split; [assumption|]).
      split; [|auto 8]. intros n j Hj. rewrite F2 by auto. apply probH_preact; auto. apply Hq.
    + intros s dropout N t0 p p' X X' q q1 Y r Hs Hp HX Dp DX Sm SY Hq1 HP.
      set (W := fun t => qW (rpar (q t))). set (b := fun t j => at_ (qbh (rpar (q t))) j 0%nat).
      set (W' := fun h d => if backprop then p' (h * M + d)%nat else 0). set (b' := fun h => if backprop then p' (H * M + h)%nat else 0).
      set (A' := fun n j => rsum M (fun i => X' n i * at_ (W t0) j i + at_ (X t0) n i * W' j i) + b' j).
      assert (DW : forall j i, (j < H)%nat -> (i < M)%nat -> D (fun t => at_ (W t) j i) t0 (W' j i)).
      { intros j i Hj Hi. unfold W', rbm_K in *. destruct backprop.
        - apply (D_ext (fun t => (p t).[j * M + i])).
          + intros t. destruct (HP t) as (_ & _ & R & _). destruct (R eq_refl) as (R1 & _). symmetry. now apply R1.
          + apply Dp. nia.
        - apply (D_ext (fun t => at_ (qW (rpar s)) j i)); [|apply D_const].
          intros t. destruct (HP t) as (_ & R & _). unfold W. now rewrite R. }
      assert (Db : forall j, (j < H)%nat -> D (fun t => b t j) t0 (b' j)).
      { intros j Hj. unfold b', rbm_K in *. destruct backprop.
        - apply (D_ext (fun t => (p t).[H * M + j])).
          + intros t. destruct (HP t) as (_ & _ & R & _). destruct (R eq_refl) as (_ & R2). symmetry. now apply R2.
          + apply Dp. lia.
        - apply (D_ext (fun t => at_ (qbh (rpar s)) j 0)); [|apply D_const].
          intros t. destruct (HP t) as (_ & R & _). unfold b. now rewrite R. }
      exists (fun n j => act_der LOGISTIC (at_ (Y t0) n j) * A' n j), 0.
      split; [|split].
      * intros n j Hn Hj. destruct (HP t0) as (_ & _ & _ & F & _). rewrite F by auto.
        apply (D_ext (fun t => act_fun LOGISTIC (preact M true (W t) (qbh (rpar (q t))) (X t) n j))).
        { intros t. destruct (HP t) as (_ & _ & _ & F' & _). rewrite F' by auto. auto. }
        apply (D_comp (fun t => preact M true (W t) (qbh (rpar (q t))) (X t) n j) (act_fun LOGISTIC)).
        { unfold preact. apply (D_affine M (fun t i => at_ (X t) n i) (fun t i => at_ (W t) j i) (fun t => b t j)); auto. }
        apply act_derivative. apply Sm; auto. destruct (HX t0). lia.
      * apply (D_ext (fun t => 0)); [|apply D_const]. intros t. destruct (HP t) as (_ & _ & _ & _ & _ & _ & _ & ->). auto.
      * intros ein bp Hein. destruct (HP t0) as (Hq & _ & _ & F & E1 & E2 & E3 & _).
        destruct (rbm_backward_ok (q1 t0) N ein bp) as (q2 & eout & Eb & Hq2 & _ & _ & _ & _ & G12 & G3); auto.
        { rewrite E3. auto. }
        { rewrite E2. auto. }
        rewrite E2, E3 in G12. rewrite E1, E3 in G3.
        set (d := fun n j => at_ ein n j * act_der LOGISTIC (at_ (Y t0) n j)).
        set (g := fun k => if Nat.ltb k (H * M) then at_ (lWd (rlay q2)) (k / M) (k mod M) else at_ (lbhd (rlay q2)) (k - H * M) 0).
        assert (Hg1 : forall h i, (h < H)%nat -> (i < M)%nat -> g (h * M + i)%nat = at_ (lWd (rlay q2)) h i).
        { intros h i Hh Hi. unfold g. rewrite (proj2 (Nat.ltb_lt _ _)) by nia. rewrite Nat.div_add_l by lia.
          rewrite Nat.div_small by auto. rewrite (Nat.add_comm (h * M)), Nat.mod_add by lia.
          rewrite Nat.mod_small by auto. now rewrite Nat.add_0_r. }
        assert (Hg2 : forall h, g (H * M + h)%nat = at_ (lbhd (rlay q2)) h 0).
        { intros h. unfold g. rewrite (proj2 (Nat.ltb_ge _ _)) by lia. f_equal. lia. }
        exists q2, eout, g. split; auto. split; auto. split.
        { intros k Hk. unfold rbm_K in Hk. destruct (Bool.bool_dec backprop true) as [Hb|Hb].
          - destruct (rbm_readDeriv q2 Hq2 Hb) as (Q1 & Q2). rewrite Hb in Hk.
            destruct (K_split M H k Hk) as [(h & i & Hh & Hi & ->)|(h & Hh & ->)].
            + rewrite Hg1 by auto. now apply Q1.
            + rewrite Hg2. now apply Q2.
          - exfalso. destruct backprop; [now apply Hb|lia]. }
        assert (Key : inner N H (at_ ein) (fun n j => act_der LOGISTIC (at_ (Y t0) n j) * A' n j) + 0 =
            rsum rbm_K (fun k => g k * p' k) +
            rsum N (fun n => rsum M (fun i => rsum H (fun j => d n j * at_ (W t0) j i) * X' n i))).
        { unfold inner. rewrite (rsum_ext N _ (fun n => rsum H (fun j => d n j * A' n j)))
            by (intros; apply rsum_ext; intros; unfold d; ring).
          unfold A'. rewrite affine_chain. unfold rbm_K, W', b'. destruct backprop.
          - destruct (G12 eq_refl) as (G1 & G2). rewrite rsum_app, rsum_block.
            rewrite (rsum_ext H (fun i : nat => rsum M (fun j : nat => g (i * M + j)%nat * p' (i * M + j)%nat))
              (fun j => rsum M (fun i => rsum N (fun n => d n j * at_ (X t0) n i) * p' (j * M + i)%nat))).
            2:{ intros j Hj. apply rsum_ext. intros i Hi. rewrite Hg1, G1 by auto. unfold d. ring. }
            rewrite (rsum_ext H (fun i => g (H * M + i)%nat * p' (H * M + i)%nat) (fun j => rsum N (fun n => d n j) * p' (H * M + j)%nat)).
            2:{ intros j Hj. rewrite Hg2, G2. unfold d. reflexivity. }
            rewrite rsum_plus. ring.
          - rewrite rsum_plus. rewrite (rsum_0 H (fun j => rsum M _)) by (intros; apply rsum_0; intros; ring).
            rewrite (rsum_0 H (fun j => rsum N _ * 0)) by (intros; ring). cbn [rsum]. ring. }
        split.
        { intros Hb. destruct (G3 Hb) as (Se & Fe). split; auto. rewrite Key. f_equal.
          unfold inner. apply rsum_ext. intros. apply rsum_ext. intros. rewrite Fe. auto. }
        { intros Hb HX'. rewrite Key. rewrite (rsum_0 N); [ring|]. intros n Hn. apply rsum_0.
          intros i Hi. rewrite HX' by auto. ring. }
Qed.
End Layer.
