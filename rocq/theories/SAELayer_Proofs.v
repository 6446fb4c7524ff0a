(** Sparse auto-encoders as layers. *)
From Verif Require Import Base BaseFacts Matrix RSum MatOps Vec Deriv Activation_Model
  Activation_Proofs Layer_Model Layer_Spec Layer_Proofs Layer_Layout FC_Model Reg_Proofs FC_Proofs
  SAE_Model SAE_Spec SAE_Proofs.
Local Open Scope R_scope.

Section Layer.
Context (junk : nat -> nat -> R) (M H : nat) (beta rho lambda : R) (act : ActivationFunction).
Notation inv := (sae_inv M H beta rho lambda act).
Notation c := (sae_class junk).
Notation K := (H * M + H)%nat.
Notation reg := (mkReg 0 lambda 0).

Definition sae_locs : list saeloc := flat_map (fun h => map (SW h) (seq 0 M)) (seq 0 H) ++ map Sb (seq 0 H).
Definition sae_dlocs : list saeloc := flat_map (fun h => map (SWd h) (seq 0 M)) (seq 0 H) ++ map Sbd (seq 0 H).
Definition sae_idx (l : saeloc) : nat :=
  match l with SW h d => h * M + d | SWd h d => h * M + d | Sb h => H * M + h | Sbd h => H * M + h end.

Lemma two_length {A} (f : nat -> nat -> A) (g : nat -> A) :
  length (flat_map (fun h => map (f h) (seq 0 M)) (seq 0 H) ++ map g (seq 0 H)) = K.
Proof.
  rewrite app_length, map_length, seq_length, (flat_map_length_const _ M); auto.
  intros. now rewrite map_length, seq_length.
Qed.
Lemma two_nth1 {A} (f : nat -> nat -> A) (g : nat -> A) h d : (h < H)%nat -> (d < M)%nat ->
  nth_error (flat_map (fun h => map (f h) (seq 0 M)) (seq 0 H) ++ map g (seq 0 H)) (h * M + d) = Some (f h d).
Proof.
  intros Hh Hd.
  assert (L : forall j, (0 <= j < 0 + H)%nat -> length (map (f j) (seq 0 M)) = M) by (intros; now rewrite map_length, seq_length).
  rewrite nth_error_app1 by (rewrite (flat_map_length_const _ M) by auto; nia).
  rewrite (nth_error_blocks _ M H 0) by auto. rewrite Nat.add_0_l. apply map_nth_error.
  rewrite (nth_error_nth' _ 0%nat) by (rewrite seq_length; auto). now rewrite seq_nth.
Qed.
Lemma two_nth2 {A} (f : nat -> nat -> A) (g : nat -> A) h : (h < H)%nat ->
  nth_error (flat_map (fun h => map (f h) (seq 0 M)) (seq 0 H) ++ map g (seq 0 H)) (H * M + h) = Some (g h).
Proof.
  intros Hh.
  assert (L : forall j, (0 <= j < 0 + H)%nat -> length (map (f j) (seq 0 M)) = M) by (intros; now rewrite map_length, seq_length).
  rewrite nth_error_app2 by (rewrite (flat_map_length_const _ M) by auto; lia).
  rewrite (flat_map_length_const _ M) by auto. replace (H * M + h - H * M)%nat with h by lia. apply map_nth_error.
  rewrite (nth_error_nth' _ 0%nat) by (rewrite seq_length; auto). now rewrite seq_nth.
Qed.

Lemma K_split k : (k < K)%nat ->
  (exists h d, (h < H)%nat /\ (d < M)%nat /\ k = (h * M + d)%nat) \/ (exists h, (h < H)%nat /\ k = (H * M + h)%nat).
Proof.
  intros Hk. destruct (Nat.lt_ge_cases k (H * M)) as [L|L].
  - left. apply split_index. auto.
  - right. exists (k - H * M)%nat. lia.
Qed.

Lemma sae_init s : inv s -> sae_initializeLayer s = (sae_locs, sae_dlocs).
Proof. intros (C & _). unfold sae_initializeLayer. rewrite C. reflexivity. Qed.

Lemma sae_locs_In l : In l sae_locs ->
  (exists h d, (h < H)%nat /\ (d < M)%nat /\ l = SW h d) \/ (exists h, (h < H)%nat /\ l = Sb h).
Proof.
  intros HI. apply In_nth_error in HI. destruct HI as (k & Hk).
  assert (B : (k < K)%nat) by (rewrite <- (two_length SW Sb); apply nth_error_Some; unfold sae_locs in Hk; congruence).
  unfold sae_locs in Hk. destruct (K_split k B) as [(h & d & Hh & Hd & ->)|(h & Hh & ->)].
  - rewrite two_nth1 in Hk by auto. injection Hk as <-. eauto 7.
  - rewrite two_nth2 in Hk by auto. injection Hk as <-. eauto.
Qed.

Lemma sae_idx_ok k l : nth_error sae_locs k = Some l -> sae_idx l = k.
Proof.
  intros Hk. assert (B : (k < K)%nat) by (rewrite <- (two_length SW Sb); apply nth_error_Some; unfold sae_locs in Hk; congruence).
  unfold sae_locs in Hk. destruct (K_split k B) as [(h & d & Hh & Hd & ->)|(h & Hh & ->)].
  - rewrite two_nth1 in Hk by auto. injection Hk as <-. reflexivity.
  - rewrite two_nth2 in Hk by auto. injection Hk as <-. reflexivity.
Qed.

Lemma sae_layout_init s : inv s ->
  fst (initialize c s) = sae_locs /\ length (snd (initialize c s)) = length sae_locs.
Proof.
  intros I. cbn [initialize sae_class]. rewrite sae_init by auto. split; auto. cbn [snd].
  unfold sae_locs, sae_dlocs. now rewrite !two_length.
Qed.

Lemma sae_load_ok s l : inv s -> In l sae_locs -> exists v, sae_load s l = Ok v.
Proof.
  intros (_ & ((W1 & W2) & _ & (b1 & b2) & _) & _) HI.
  destruct (sae_locs_In l HI) as [(h & d & Hh & Hd & ->)|(h & Hh & ->)]; cbn [sae_load]; rewrite mget_Ok by lia; eauto.
Qed.

Lemma sae_store_ok s l v : inv s -> In l sae_locs ->
  exists s', sae_store s l v = Ok s' /\ inv s' /\ sae_load s' l = Ok v /\
  forall l', In l' sae_locs -> l' <> l -> sae_load s' l' = sae_load s l'.
Proof.
  intros I HI. pose proof I as (C & ((W1 & W2) & SW2 & (b1 & b2) & Sb2) & SD & G).
  destruct (sae_locs_In l HI) as [(h & d & Hh & Hd & ->)|(h & Hh & ->)]; cbn [sae_store];
    rewrite mset_Ok by lia; cbn [bind]; eexists; (split; [reflexivity|]).
  - split; [|split].
    + split; auto. split; [|auto]. split; [split; auto|]. split; auto. split; [split; auto|]. auto.
    + cbn. rewrite mget_Ok by (unfold mupd; cbn; lia). now rewrite at_mupd_same.
    + intros l' Hl' Hn. destruct (sae_locs_In l' Hl') as [(h' & d' & Hh' & Hd' & ->)|(h' & Hh' & ->)]; cbn; auto.
      rewrite !mget_Ok by (unfold mupd; cbn; lia). rewrite at_mupd_other; auto.
      destruct (Nat.eq_dec h' h) as [->|]; [right; intros ->; congruence|auto].
  - split; [|split].
    + split; auto. split; [|auto]. split; [split; auto|]. split; auto. split; [split; auto|]. auto.
    + cbn. rewrite mget_Ok by (unfold mupd; cbn; lia). now rewrite at_mupd_same.
    + intros l' Hl' Hn. destruct (sae_locs_In l' Hl') as [(h' & d' & Hh' & Hd' & ->)|(h' & Hh' & ->)]; cbn; auto.
      rewrite !mget_Ok by (unfold mupd; cbn; lia). rewrite at_mupd_other; auto.
Qed.

Lemma sae_write s k v : inv s -> (k < K)%nat ->
  exists s', writeParam c s k v = Ok s' /\ inv s' /\
  forall k', (k' < K)%nat -> readParam c s' k' = if Nat.eqb k' k then Ok v else readParam c s k'.
Proof.
  rewrite <- (two_length SW Sb). apply (layout_write c inv sae_locs sae_idx).
  - apply sae_layout_init.
  - apply sae_idx_ok.
  - apply sae_store_ok.
Qed.

Lemma sae_read s : inv s ->
  (forall h d, (h < H)%nat -> (d < M)%nat -> readParam c s (h * M + d) = Ok (at_ (pW1 (spar s)) h d)) /\
  (forall h, (h < H)%nat -> readParam c s (H * M + h) = Ok (at_ (pb1 (spar s)) h 0)).
Proof.
  intros I. pose proof I as (C & ((W1 & W2) & SW2 & (b1 & b2) & Sb2) & _).
  destruct (sae_layout_init s I) as (E & _). split; intros; unfold readParam; rewrite E; unfold vget, sae_locs.
  - rewrite two_nth1 by auto. cbn. apply mget_Ok; lia.
  - rewrite two_nth2 by auto. cbn. apply mget_Ok; lia.
Qed.

Lemma sae_readDeriv s : inv s ->
  (forall h d, (h < H)%nat -> (d < M)%nat -> readDeriv c s (h * M + d) = Ok (at_ (pW1 (sder s)) h d)) /\
  (forall h, (h < H)%nat -> readDeriv c s (H * M + h) = Ok (at_ (pb1 (sder s)) h 0)).
Proof.
  intros I. pose proof I as (C & _ & ((W1 & W2) & SW2 & (b1 & b2) & Sb2) & _).
  split; intros; unfold readDeriv; cbn [initialize sae_class]; rewrite sae_init by auto; cbn [snd]; unfold vget, sae_dlocs.
  - rewrite two_nth1 by auto. cbn. apply mget_Ok; lia.
  - rewrite two_nth2 by auto. cbn. apply mget_Ok; lia.
Qed.

Lemma sae_install s p : inv s -> length p = K ->
  exists q, install c s p = Ok q /\ inv q /\
    (forall h d, (h < H)%nat -> (d < M)%nat -> at_ (pW1 (spar q)) h d = p.[h * M + d]) /\
    (forall h, (h < H)%nat -> at_ (pb1 (spar q)) h 0 = p.[H * M + h]).
Proof.
  intros I Hp. destruct (writeAll_Ok c K inv s p sae_write I Hp) as (q & E & Hq & R).
  exists q. split; [unfold install; rewrite E; reflexivity|]. split; auto.
  destruct (sae_read q Hq) as (R1 & R2). split.
  - intros h d Hh Hd. assert (L : (h * M + d < K)%nat) by nia. pose proof (R _ L) as Q. rewrite R1 in Q by auto. now injection Q.
  - intros h Hh. assert (L : (H * M + h < K)%nat) by lia. pose proof (R _ L) as Q. rewrite R2 in Q by auto. now injection Q.
Qed.

Lemma sae_forward_ok q x dropout N : inv q -> size_is x N M ->
  exists q1 y, sae_forward junk q x dropout = Ok (q1, y, regError reg (pW1 (spar q))) /\
    size_is y N H /\ inv q1 /\
    (forall n j, at_ y n j = act_fun act (preact M true (pW1 (spar q)) (pb1 (spar q)) x n j)) /\
    spar q1 = spar q /\ sX q1 = x /\ tZ1 (stmp q1) = y /\ sparameters q1 = sparameters q.
Proof.
  intros I Sx. unfold sae_forward. set (q' := mkSAE (scfg q) x (spar q) (sder q) (stmp q) (sparameters q) (sgrad q)).
  assert (I' : inv q') by exact I.
  destruct (encode_ok junk M H beta rho lambda act q' x N I' Sx) as (s1 & Z & E & Kp & T & S & F). rewrite E. cbn [bind].
  pose proof Kp as (K1 & K2 & K3 & K4 & K5 & K6). exists s1, Z. rewrite K1, K3. split.
  - destruct I as (C & _). unfold q'. cbn [scfg spar]. rewrite C. cbn [clambda]. unfold regError. cbn [l1Penalty l2Penalty].
    rewrite (proj2 (Rltb_false 0 0)) by lra. now rewrite Rplus_0_l.
  - split; auto. split; [eapply kept_inv; eauto|]. split; [intros; apply F|]. auto.
Qed.

Lemma sae_backward_ok q1 N ein bp : inv q1 -> size_is (tZ1 (stmp q1)) N H -> size_is (sX q1) N M -> size_is ein N H ->
  exists q2 eout, sae_backward junk q1 ein bp = Ok (q2, eout) /\ inv q2 /\ spar q2 = spar q1 /\ sX q2 = sX q1 /\
    (forall h d, at_ (pW1 (sder q2)) h d =
       rsum N (fun n => at_ ein n h * act_der act (at_ (tZ1 (stmp q1)) n h) * at_ (sX q1) n d) + lambda * at_ (pW1 (spar q1)) h d) /\
    (forall h, at_ (pb1 (sder q2)) h 0 = rsum N (fun n => at_ ein n h * act_der act (at_ (tZ1 (stmp q1)) n h))) /\
    (bp = true -> size_is eout N M /\
       forall n d, at_ eout n d = rsum H (fun h => at_ ein n h * act_der act (at_ (tZ1 (stmp q1)) n h) * at_ (pW1 (spar q1)) h d)).
Proof.
  intros I SZ SX Se. pose proof I as (C & (SW1 & SW2 & Sb1 & Sb2) & (SD1 & SD2 & SD3 & SD4) & G). pose proof SZ as (R1 & C1).
  unfold sae_backward. rewrite C, R1, C1. cbn [cact clambda].
  destruct (activationFunctionDerivative_Ok act (tZ1 (stmp q1)) (mconsresize junk (tG1D (stmp q1)) N H) N H)
    as (G1 & EG1 & SG1 & FG1); [auto|split; auto|]. rewrite EG1. cbn [bind].
  rewrite (mmap2_Ok _ _ _ N H) by auto. cbn [bind].
  rewrite (mmul_Ok _ _ H N M); [|split; auto|auto]. cbn [bind].
  rewrite (mmap2_Ok _ _ _ H M); [|split; auto|auto]. cbn [bind].
  assert (He : exists e, (if bp then mmul (mkMat N H (fun i j => at_ ein i j * at_ G1 i j)) (pW1 (spar q1)) else Ok (tdEdZ1 (stmp q1))) = Ok e /\
    (bp = true -> size_is e N M /\
       forall n d, at_ e n d = rsum H (fun h => at_ ein n h * act_der act (at_ (tZ1 (stmp q1)) n h) * at_ (pW1 (spar q1)) h d))).
  { destruct bp; [|eexists; split; [reflexivity|discriminate]].
    rewrite (mmul_Ok _ _ N H M) by (auto; split; auto). eexists. split; [reflexivity|]. intros _.
    split; [split; auto|]. intros. cbn. apply rsum_ext. intros. rewrite FG1. auto. }
  destruct He as (e & Ee & Fe). rewrite Ee. cbn [bind]. eexists _, e. split; [reflexivity|]. cbn [spar sX sder pW1 pb1 at_ mtrans mcolsum].
  split; [|split; [|split; [|split; [|split]]]]; auto.
  - split; [reflexivity|]. split; [repeat (split; auto)|]. split; [|auto]. split; [split; auto|]. split; auto. split; [split; auto|]. auto.
  - intros. f_equal. apply rsum_ext. intros. now rewrite FG1.
  - intros. unfold colsum. cbn. apply rsum_ext. intros. now rewrite FG1.
Qed.

Definition sae_smooth (q : sae) (X : mat) : Prop :=
  forall n h, (n < rows X)%nat -> (h < H)%nat -> act_smooth act (preact M true (pW1 (spar q)) (pb1 (spar q)) X n h).

Lemma sae_contract : 0 <= lambda -> contract c M H K inv sae_smooth.
Proof.
  intros Hl. assert (RD : forall w, regD reg w = lambda * w).
  { intros w. unfold regD. cbn [l1Penalty l2Penalty]. rewrite (proj2 (Rltb_false 0 0)) by lra.
    destruct (Rltb 0 lambda) eqn:E; [ring|]. apply Rltb_false in E. replace lambda with 0 by lra. ring. }
  constructor.
  - intros s I. destruct (sae_layout_init s I) as (E & L). assert (Q : length sae_locs = K) by apply two_length.
    split; [|congruence]. refine (eq_trans _ Q). f_equal. exact E.
  - intros s k I Hk. rewrite <- (two_length SW Sb) in Hk. apply (layout_read c inv sae_locs); auto.
    + apply sae_layout_init.
    + apply sae_load_ok.
  - apply sae_write.
  - intros s I. exists s. auto.
  - apply (gradient_intro c M H K inv sae_smooth
      (fun s dropout N p X q q1 Y r =>
         inv q /\
         (forall h d, (h < H)%nat -> (d < M)%nat -> at_ (pW1 (spar q)) h d = p.[h * M + d]) /\
         (forall h, (h < H)%nat -> at_ (pb1 (spar q)) h 0 = p.[H * M + h]) /\
         (forall n j, at_ Y n j = act_fun act (preact M true (pW1 (spar q)) (pb1 (spar q)) X n j)) /\
         spar q1 = spar q /\ sX q1 = X /\ tZ1 (stmp q1) = Y /\ r = regError reg (pW1 (spar q)))).
    + intros s dropout N p X Hs Hp HX.
      destruct (sae_install s p Hs Hp) as (q & E & Hq & R1 & R2).
      destruct (sae_forward_ok q X dropout N Hq HX) as (q1 & y & Ef & Sy & Hq1 & F1 & F2 & F3 & F4 & F5).
      exists q, q1, y, (regError reg (pW1 (spar q))). auto 15.
    + intros s dropout N t0 p p' X X' q q1 Y r Hs Hp HX Dp DX Sm SY Hq1 HP.
      set (W := fun t => pW1 (spar (q t))). set (b := fun t j => at_ (pb1 (spar (q t))) j 0%nat).
      set (W' := fun h d => p' (h * M + d)%nat). set (b' := fun h => p' (H * M + h)%nat).
      set (A' := fun n j => rsum M (fun i => X' n i * at_ (W t0) j i + at_ (X t0) n i * W' j i) + b' j).
      assert (DW : forall j i, (j < H)%nat -> (i < M)%nat -> D (fun t => at_ (W t) j i) t0 (W' j i)).
      { intros j i Hj Hi. apply (D_ext (fun t => (p t).[j * M + i])).
        - intros t. destruct (HP t) as (_ & R1 & _). symmetry. now apply R1.
        - apply Dp. nia. }
      assert (Db : forall j, (j < H)%nat -> D (fun t => b t j) t0 (b' j)).
      { intros j Hj. apply (D_ext (fun t => (p t).[H * M + j])).
        - intros t. destruct (HP t) as (_ & _ & R2 & _). symmetry. now apply R2.
        - apply Dp. lia. }
      exists (fun n j => act_der act (at_ (Y t0) n j) * A' n j),
        (rsum H (fun j => rsum M (fun i => lambda * at_ (W t0) j i * W' j i))).
      split; [|split].
      * intros n j Hn Hj. destruct (HP t0) as (_ & _ & _ & F & _). rewrite F.
        apply (D_ext (fun t => act_fun act (preact M true (W t) (pb1 (spar (q t))) (X t) n j))).
        { intros t. destruct (HP t) as (_ & _ & _ & F' & _). rewrite F'. auto. }
        apply (D_comp (fun t => preact M true (W t) (pb1 (spar (q t))) (X t) n j) (act_fun act)).
        { unfold preact. apply (D_affine M (fun t i => at_ (X t) n i) (fun t i => at_ (W t) j i) (fun t => b t j)); auto. }
        apply act_derivative. apply Sm; auto. destruct (HX t0). lia.
      * apply (D_ext (fun t => regError reg (W t))).
        { intros t. destruct (HP t) as (_ & _ & _ & _ & _ & _ & _ & ->). auto. }
        eapply D_eq; [|apply (D_regError reg W H M W' t0)]; auto.
        -- apply rsum_ext. intros. apply rsum_ext. intros. now rewrite RD.
        -- intros t. destruct (HP t) as (Hq & _). apply Hq.
        -- cbn. lra.
      * intros ein bp Hein. destruct (HP t0) as (Hq & _ & _ & F & E1 & E2 & E3 & _).
        destruct (sae_backward_ok (q1 t0) N ein bp) as (q2 & eout & Eb & Hq2 & _ & _ & G1 & G2 & G3); auto.
        { rewrite E3. auto. }
        { rewrite E2. auto. }
        rewrite E1, E2, E3 in G1. rewrite E1, E3 in G3. rewrite E3 in G2.
        set (d := fun n j => at_ ein n j * act_der act (at_ (Y t0) n j)).
        set (g := fun k => if Nat.ltb k (H * M) then at_ (pW1 (sder q2)) (k / M) (k mod M) else at_ (pb1 (sder q2)) (k - H * M) 0).
        assert (Hg1 : forall h i, (h < H)%nat -> (i < M)%nat -> g (h * M + i)%nat = at_ (pW1 (sder q2)) h i).
        { intros h i Hh Hi. unfold g. rewrite (proj2 (Nat.ltb_lt _ _)) by nia. rewrite Nat.div_add_l by lia.
          rewrite Nat.div_small by auto. rewrite (Nat.add_comm (h * M)), Nat.mod_add by lia.
          rewrite Nat.mod_small by auto. now rewrite Nat.add_0_r. }
        assert (Hg2 : forall h, g (H * M + h)%nat = at_ (pb1 (sder q2)) h 0).
        { intros h. unfold g. rewrite (proj2 (Nat.ltb_ge _ _)) by lia. f_equal. lia. }
        destruct (sae_readDeriv q2 Hq2) as (Q1 & Q2).
        exists q2, eout, g. split; auto. split; auto. split.
        { intros k Hk. destruct (K_split k Hk) as [(h & i & Hh & Hi & ->)|(h & Hh & ->)].
          - rewrite Hg1 by auto. now apply Q1.
          - rewrite Hg2. now apply Q2. }
        assert (Key : inner N H (at_ ein) (fun n j => act_der act (at_ (Y t0) n j) * A' n j) +
            rsum H (fun j => rsum M (fun i => lambda * at_ (W t0) j i * W' j i)) =
            rsum K (fun k => g k * p' k) +
            rsum N (fun n => rsum M (fun i => rsum H (fun j => d n j * at_ (W t0) j i) * X' n i))).
        { unfold inner. rewrite (rsum_ext N _ (fun n => rsum H (fun j => d n j * A' n j)))
            by (intros; apply rsum_ext; intros; unfold d; ring).
          unfold A'. rewrite affine_chain. rewrite rsum_app, rsum_block.
          rewrite (rsum_ext H (fun i : nat => rsum M (fun j : nat => g (i * M + j)%nat * p' (i * M + j)%nat))
            (fun j => rsum M (fun i => rsum N (fun n => d n j * at_ (X t0) n i) * W' j i) +
               rsum M (fun i => lambda * at_ (W t0) j i * W' j i))).
          2:{ intros j Hj. rewrite <- rsum_plus. apply rsum_ext. intros i Hi. rewrite Hg1, G1 by auto. unfold W', d, W. ring. }
          rewrite (rsum_ext H (fun i => g (H * M + i)%nat * p' (H * M + i)%nat) (fun j => rsum N (fun n => d n j) * b' j)).
          2:{ intros j Hj. rewrite Hg2, G2. unfold b', d. reflexivity. }
          rewrite !rsum_plus. ring. }
        split.
        { intros Hb. destruct (G3 Hb) as (Se & Fe). split; auto. rewrite Key. f_equal.
          unfold inner. apply rsum_ext. intros. apply rsum_ext. intros. rewrite Fe. auto. }
        { intros Hb HX'. rewrite Key. rewrite (rsum_0 N); [ring|]. intros n Hn. apply rsum_0.
          intros i Hi. rewrite HX' by auto. ring. }
Qed.
End Layer.
