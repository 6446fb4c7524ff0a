(** Reusable steps of the proofs that a layer satisfies its contract. *)
From Verif Require Import Base BaseFacts Matrix RSum MatOps Vec Deriv Layer_Model Layer_Spec Layer_Proofs.
Local Open Scope R_scope.

(** * Lists of blocks of equal length *)
Lemma flat_map_length_const {A} (f : nat -> list A) B J a : (forall j, (a <= j < a + J)%nat -> length (f j) = B) ->
  length (flat_map f (seq a J)) = (J * B)%nat.
Proof.
  revert a. induction J as [|J IH]; intros a H; simpl; auto.
  rewrite app_length, H, IH by (intros; try apply H; lia). auto.
Qed.

Lemma nth_error_blocks {A} (f : nat -> list A) B J : forall a, (forall j, (a <= j < a + J)%nat -> length (f j) = B) ->
  forall j i, (j < J)%nat -> (i < B)%nat ->
  nth_error (flat_map f (seq a J)) (j * B + i) = nth_error (f (a + j)%nat) i.
Proof.
  induction J as [|J IH]; intros a H j i Hj Hi; [lia|]. simpl.
  destruct j as [|j].
  - simpl. rewrite nth_error_app1 by (rewrite H; lia). f_equal. f_equal. lia.
  - rewrite nth_error_app2 by (rewrite H by lia; simpl; lia). rewrite H by lia.
    replace (S j * B + i - B)%nat with (j * B + i)%nat by (simpl; lia).
    rewrite (IH (S a)) by (try (intros; apply H); lia). f_equal. f_equal. lia.
Qed.

Lemma split_index B k J : (k < J * B)%nat -> exists j i, (j < J)%nat /\ (i < B)%nat /\ k = (j * B + i)%nat.
Proof.
  intros H. destruct (Nat.eq_dec B 0) as [->|HB]; [lia|].
  exists (k / B)%nat, (k mod B)%nat. split; [|split].
  - apply Nat.div_lt_upper_bound; auto. lia.
  - apply Nat.mod_upper_bound; auto.
  - rewrite Nat.mul_comm. apply Nat.div_mod; auto.
Qed.

Lemma split_index_inj B j i j' i' : (i < B)%nat -> (i' < B)%nat ->
  (j * B + i = j' * B + i')%nat -> j = j' /\ i = i'.
Proof. intros H H' E. assert (j = j') by nia. subst. lia. Qed.

Lemma join_index B j i J : (j < J)%nat -> (i < B)%nat -> (j * B + i < J * B)%nat.
Proof. intros. nia. Qed.

(** * Pointer access *)
Section Layout.
Context (c : LayerClass) (Inv : St c -> Prop) (locs : list (Loc c)) (idx : Loc c -> nat).
Hypothesis Hinit : forall s, Inv s ->
  fst (initialize c s) = locs /\ length (snd (initialize c s)) = length locs.
Hypothesis Hidx : forall k l, nth_error locs k = Some l -> idx l = k.
Hypothesis Hload : forall s l, Inv s -> In l locs -> exists v, load c s l = Ok v.
Hypothesis Hstore : forall s l v, Inv s -> In l locs ->
  exists s', store c s l v = Ok s' /\ Inv s' /\ load c s' l = Ok v /\
  forall l', In l' locs -> l' <> l -> load c s' l' = load c s l'.

Lemma layout_count s : Inv s ->
  length (fst (initialize c s)) = length locs /\ length (snd (initialize c s)) = length locs.
Proof. intros H. destruct (Hinit s H) as (A & B). rewrite A. auto. Qed.

Lemma layout_read s k : Inv s -> (k < length locs)%nat -> exists v, readParam c s k = Ok v.
Proof.
  intros H Hk. unfold readParam. destruct (Hinit s H) as (A & _). rewrite A.
  destruct (vget_Ok locs k Hk) as (l & E & E'). rewrite E. simpl.
  apply Hload; auto. eapply nth_error_In; eauto.
Qed.

Lemma layout_write s k v : Inv s -> (k < length locs)%nat ->
  exists s', writeParam c s k v = Ok s' /\ Inv s' /\
  forall k', (k' < length locs)%nat -> readParam c s' k' = if Nat.eqb k' k then Ok v else readParam c s k'.
Proof.
  intros H Hk. unfold writeParam, readParam. destruct (Hinit s H) as (A & _). rewrite A.
  destruct (vget_Ok locs k Hk) as (l & E & E'). rewrite E. simpl.
  destruct (Hstore s l v H (nth_error_In _ _ E')) as (s' & S1 & I1 & L1 & L2).
  exists s'. split; auto. split; auto. intros k' Hk'.
  destruct (Hinit s' I1) as (A' & _). rewrite A'.
  destruct (vget_Ok locs k' Hk') as (l' & F & F'). rewrite F. simpl.
  destruct (Nat.eqb_spec k' k) as [->|Hn].
  - rewrite E' in F'. injection F' as <-. auto.
  - apply L2; [eapply nth_error_In; eauto|]. intros ->.
    apply Hn. rewrite <- (Hidx k l E'). symmetry. now apply Hidx.
Qed.
End Layout.

(** * Assignment of all parameters *)
Lemma writeAll_Ok (c : LayerClass) K (Inv : St c -> Prop) s p :
  (forall s k v, Inv s -> (k < K)%nat ->
    exists s', writeParam c s k v = Ok s' /\ Inv s' /\
    forall k', (k' < K)%nat -> readParam c s' k' = if Nat.eqb k' k then Ok v else readParam c s k') ->
  Inv s -> length p = K ->
  exists s', writeAll c s p = Ok s' /\ Inv s' /\ forall k, (k < K)%nat -> readParam c s' k = Ok p.[k].
Proof.
  intros W H Hp. unfold writeAll. rewrite Hp.
  destruct (for_inv (fun i (s : St c) => Inv s /\ forall k, (k < i)%nat -> readParam c s k = Ok p.[k])
              (fun k s => v <- vget p k ;; writeParam c s k v) K s) as (s' & E & I' & R').
  - split; auto. intros; lia.
  - intros i s1 Hi (I1 & R1). rewrite (vget_nth p i 0) by lia. simpl.
    destruct (W s1 i p.[i] I1 Hi) as (s2 & E2 & I2 & R2). exists s2. split; auto. split; auto.
    intros k Hk. rewrite R2 by lia. destruct (Nat.eqb_spec k i) as [->|]; auto. apply R1. lia.
  - exists s'. auto.
Qed.

(** * From existence for each t to functions of t *)
Definition outOf {A} (m : res A) (d : A) : A := match m with Ok a => a | _ => d end.

Lemma gradient_intro (c : LayerClass) (I O K : nat) (Inv : St c -> Prop) (smooth : St c -> mat -> Prop)
  (Post : St c -> bool -> nat -> list R -> mat -> St c -> St c -> mat -> R -> Prop) :
  (forall s dropout N p X, Inv s -> length p = K -> size_is X N I ->
     exists q q1 Y reg, install c s p = Ok q /\ forwardPropagate c q X dropout = Ok (q1, Y, reg) /\
       size_is Y N O /\ Inv q1 /\ Post s dropout N p X q q1 Y reg) ->
  (forall s dropout N t0 (p : R -> list R) (p' : nat -> R) (X : R -> mat) (X' : nat -> nat -> R)
     (q q1 : R -> St c) Y reg,
     Inv s -> (forall t, length (p t) = K) -> (forall t, size_is (X t) N I) ->
     (forall k, (k < K)%nat -> D (fun t => (p t).[k]) t0 (p' k)) ->
     (forall n i, (n < N)%nat -> (i < I)%nat -> D (fun t => at_ (X t) n i) t0 (X' n i)) ->
     smooth (q t0) (X t0) ->
     (forall t, size_is (Y t) N O) -> (forall t, Inv (q1 t)) ->
     (forall t, Post s dropout N (p t) (X t) (q t) (q1 t) (Y t) (reg t)) ->
     exists Y' reg',
      (forall n j, (n < N)%nat -> (j < O)%nat -> D (fun t => at_ (Y t) n j) t0 (Y' n j)) /\
      D reg t0 reg' /\
      forall ein bp, size_is ein N O ->
        exists q2 eout g, backpropagate c (q1 t0) ein bp = Ok (q2, eout) /\ Inv q2 /\
          (forall k, (k < K)%nat -> readDeriv c q2 k = Ok (g k)) /\
          (bp = true -> size_is eout N I /\
             inner N O (at_ ein) Y' + reg' = rsum K (fun k => g k * p' k) + inner N I (at_ eout) X') /\
          (bp = false -> (forall n i, (n < N)%nat -> (i < I)%nat -> X' n i = 0) ->
             inner N O (at_ ein) Y' + reg' = rsum K (fun k => g k * p' k))) ->
  forall s dropout N t0 (p : R -> list R) (p' : nat -> R) (X : R -> mat) (X' : nat -> nat -> R),
    Inv s -> (forall t, length (p t) = K) -> (forall t, size_is (X t) N I) ->
    (forall k, (k < K)%nat -> D (fun t => (p t).[k]) t0 (p' k)) ->
    (forall n i, (n < N)%nat -> (i < I)%nat -> D (fun t => at_ (X t) n i) t0 (X' n i)) ->
    (forall q, install c s (p t0) = Ok q -> smooth q (X t0)) ->
    exists (q1 : R -> St c) (Y : R -> mat) (reg : R -> R) (Y' : nat -> nat -> R) (reg' : R),
      (forall t, exists q, install c s (p t) = Ok q /\
         forwardPropagate c q (X t) dropout = Ok (q1 t, Y t, reg t)) /\
      (forall t, size_is (Y t) N O) /\ (forall t, Inv (q1 t)) /\
      (forall n j, (n < N)%nat -> (j < O)%nat -> D (fun t => at_ (Y t) n j) t0 (Y' n j)) /\
      D reg t0 reg' /\
      forall ein bp, size_is ein N O ->
        exists q2 eout g, backpropagate c (q1 t0) ein bp = Ok (q2, eout) /\ Inv q2 /\
          (forall k, (k < K)%nat -> readDeriv c q2 k = Ok (g k)) /\
          (bp = true -> size_is eout N I /\
             inner N O (at_ ein) Y' + reg' = rsum K (fun k => g k * p' k) + inner N I (at_ eout) X') /\
          (bp = false -> (forall n i, (n < N)%nat -> (i < I)%nat -> X' n i = 0) ->
             inner N O (at_ ein) Y' + reg' = rsum K (fun k => g k * p' k)).
Proof.
  intros HF HG s dropout N t0 p p' X X' Hs Hp HX Dp DX Hsm.
  set (q := fun t => outOf (install c s (p t)) s).
  set (r := fun t => outOf (forwardPropagate c (q t) (X t) dropout) (s, X t, 0)).
  assert (Hall : forall t, install c s (p t) = Ok (q t) /\
    forwardPropagate c (q t) (X t) dropout = Ok (fst (fst (r t)), snd (fst (r t)), snd (r t)) /\
    size_is (snd (fst (r t))) N O /\ Inv (fst (fst (r t))) /\
    Post s dropout N (p t) (X t) (q t) (fst (fst (r t))) (snd (fst (r t))) (snd (r t))).
  { intros t. destruct (HF s dropout N (p t) (X t) Hs (Hp t) (HX t)) as (q0 & q1 & Y & reg & E1 & E2 & E3 & E4 & E5).
    assert (Eq : q t = q0) by (unfold q; rewrite E1; reflexivity).
    assert (Er : r t = (q1, Y, reg)) by (unfold r; rewrite Eq, E2; reflexivity).
    rewrite Er, Eq. simpl. auto. }
  destruct (HG s dropout N t0 p p' X X' q (fun t => fst (fst (r t))) (fun t => snd (fst (r t)))
              (fun t => snd (r t)))
    as (Y' & reg' & C1 & C2 & C3); auto; try (intros t; apply (Hall t)).
  { apply Hsm. apply (Hall t0). }
  exists (fun t => fst (fst (r t))), (fun t => snd (fst (r t))), (fun t => snd (r t)), Y', reg'.
  split; [|split; [|split; [|split; [|split]]]]; auto.
  - intros t. exists (q t). split; apply (Hall t).
  - intros t. apply (Hall t).
  - intros t. apply (Hall t).
Qed.

(** * Affine maps *)
Lemma D_affine I (X W : R -> nat -> R) (b : R -> R) X' W' b' t0 :
  (forall i, (i < I)%nat -> D (fun t => X t i) t0 (X' i)) ->
  (forall i, (i < I)%nat -> D (fun t => W t i) t0 (W' i)) ->
  D b t0 b' ->
  D (fun t => rsum I (fun i => X t i * W t i) + b t) t0
    (rsum I (fun i => X' i * W t0 i + X t0 i * W' i) + b').
Proof.
  intros HX HW Hb. apply (D_plus (fun t => rsum I (fun i => X t i * W t i)) b); auto.
  apply (D_sum I (fun i t => X t i * W t i)). intros i Hi.
  apply (D_mult (fun t => X t i) (fun t => W t i)); auto.
Qed.

Lemma affine_chain N I J (d : nat -> nat -> R) (X X' : nat -> nat -> R) (W W' : nat -> nat -> R) (b' : nat -> R) :
  rsum N (fun n => rsum J (fun j => d n j *
     (rsum I (fun i => X' n i * W j i + X n i * W' j i) + b' j))) =
  rsum J (fun j => rsum I (fun i => rsum N (fun n => d n j * X n i) * W' j i) +
                   rsum N (fun n => d n j) * b' j) +
  rsum N (fun n => rsum I (fun i => rsum J (fun j => d n j * W j i) * X' n i)).
Proof.
  rewrite (rsum_ext N _ (fun n =>
    rsum J (fun j => rsum I (fun i => d n j * X n i * W' j i)) + rsum J (fun j => d n j * b' j) +
    rsum I (fun i => rsum J (fun j => d n j * W j i) * X' n i))).
  2:{ intros n Hn.
      rewrite (rsum_ext J _ (fun j => rsum I (fun i => d n j * X n i * W' j i) + d n j * b' j +
        rsum I (fun i => d n j * W j i * X' n i))).
      - rewrite !rsum_plus. f_equal.
        rewrite rsum_swap. apply rsum_ext. intros i Hi.
        rewrite <- rsum_scal_r. auto.
      - intros j Hj. rewrite (rsum_plus I), Rmult_plus_distr_l, Rmult_plus_distr_l.
        rewrite <- !rsum_scal.
        rewrite (rsum_ext I (fun i => d n j * (X' n i * W j i)) (fun i => d n j * W j i * X' n i)) by (intros; ring).
        rewrite (rsum_ext I (fun i => d n j * (X n i * W' j i)) (fun i => d n j * X n i * W' j i)) by (intros; ring).
        ring. }
  rewrite !rsum_plus. f_equal. f_equal.
  - rewrite rsum_swap. apply rsum_ext. intros j Hj. rewrite rsum_swap. apply rsum_ext. intros i Hi.
    rewrite rsum_scal_r. auto.
  - rewrite rsum_swap. apply rsum_ext. intros j Hj. rewrite rsum_scal_r. auto.
Qed.
