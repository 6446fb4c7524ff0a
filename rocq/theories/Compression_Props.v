(** C47: compression matrices. *)
From Verif Require Import Base BaseFacts Matrix RSum MatOps Compression_Model Compression_Spec Compression_Proofs.
From Coq Require Import Lia Lra.
Local Open Scope R_scope.

Section C47.
Variables (normal unif : nat -> nat -> R) (junk : nat -> nat -> R).
(** the matrix that the caller passes is empty, too small or has the requested size *)
Notation passed cm P I := ((rows cm < P \/ cols cm < I \/ (rows cm = P /\ cols cm = I))%nat).
Notation create I P t cm := (f <- factory_new I P t ;; createCompressionMatrix normal unif junk f cm).

(** The cosine matrix consists of P cosines of increasing frequency, sampled at I points of [0, 1]. *)
Theorem C47_dct I P cm : (0 < I)%nat -> (0 < P)%nat -> passed cm P I ->
  exists c, create I P DCT cm = Ok c /\ rows c = P /\ cols c = I /\
    forall m i, (m < P)%nat -> (i < I)%nat -> exists t, t * (INR I - 1) = INR i /\ at_ c m i = cos (INR m * (PI * t)).
Proof.
  intros HI HP Hs. destruct (create_ok normal unif junk I P DCT cm HI HP Hs) as (f & c & E1 & E2 & R & C & F).
  { intros [H|H]; discriminate. }
  exists c. rewrite E1. cbn [bind]. split; auto. split; auto. split; auto. intros m i Hm Hi. rewrite F by auto.
  unfold factory_new in E1. rewrite (proj2 (Nat.ltb_ge I 1)), (proj2 (Nat.ltb_ge P 1)) in E1 by lia. injection E1 as <-.
  unfold entryOf. cbn [transform_ inputDim]. destruct (Nat.ltb_spec I 2).
  - exists 0. split; [|f_equal; ring]. replace i with 0%nat by lia. cbn. ring.
  - exists (INR i / INR (I - 1)). rewrite minus_INR by lia. change (INR 1) with 1.
    assert (1 < INR I) by (apply lt_1_INR; lia). split; [field; lra|]. f_equal. ring.
Qed.

(** The entries of the random matrices are normally distributed numbers divided by P, or 1, 0, -1 over the square root
    of P. *)
Theorem C47_gaussian I P cm : (0 < I)%nat -> (0 < P)%nat -> passed cm P I ->
  exists c, create I P GAUSSIAN cm = Ok c /\ rows c = P /\ cols c = I /\
    forall m i, (m < P)%nat -> (i < I)%nat -> at_ c m i = normal i m / INR P.
Proof.
  intros HI HP Hs. destruct (create_ok normal unif junk I P GAUSSIAN cm HI HP Hs) as (f & c & E1 & E2 & R & C & F).
  { intros [H|H]; discriminate. }
  exists c. rewrite E1. cbn [bind]. split; auto. split; auto. split; auto. intros m i Hm Hi. rewrite F by auto.
  unfold factory_new in E1. rewrite (proj2 (Nat.ltb_ge I 1)), (proj2 (Nat.ltb_ge P 1)) in E1 by lia. now injection E1 as <-.
Qed.
Theorem C47_sparse_random I P cm : (0 < I)%nat -> (0 < P)%nat -> passed cm P I ->
  exists c, create I P SPARSE_RANDOM cm = Ok c /\ rows c = P /\ cols c = I /\
    forall m i, (m < P)%nat -> (i < I)%nat ->
      (unif i m < 1 / 6 -> at_ c m i = / sqrt (INR P)) /\
      (1 / 6 <= unif i m < 5 / 6 -> at_ c m i = 0) /\
      (5 / 6 <= unif i m -> at_ c m i = - / sqrt (INR P)).
Proof.
  intros HI HP Hs. destruct (create_ok normal unif junk I P SPARSE_RANDOM cm HI HP Hs) as (f & c & E1 & E2 & R & C & F).
  { intros [H|H]; discriminate. }
  exists c. rewrite E1. cbn [bind]. split; auto. split; auto. split; auto. intros m i Hm Hi. rewrite F by auto.
  unfold factory_new in E1. rewrite (proj2 (Nat.ltb_ge I 1)), (proj2 (Nat.ltb_ge P 1)) in E1 by lia. injection E1 as <-.
  unfold entryOf. cbn [transform_ paramDim].
  destruct (Rltb (unif i m) (1 / 6)) eqn:L1; [apply Rltb_true in L1|apply Rltb_false in L1].
  - split; [intros; unfold Rdiv; ring|]. split; intros; lra.
  - split; [lra|]. destruct (Rltb (unif i m) (5 / 6)) eqn:L2; [apply Rltb_true in L2|apply Rltb_false in L2].
    + split; auto. lra.
    + split; [lra|]. intros. unfold Rdiv. ring.
Qed.

(** Each row of the averaging matrix computes the mean of a block of I / P consecutive inputs, and different rows use
    different blocks.  In particular constant vectors become constant vectors. *)
Theorem C47_average I P cm : (0 < P <= I)%nat -> passed cm P I ->
  exists c, create I P AVERAGE cm = Ok c /\ rows c = P /\ cols c = I /\
    (forall m x, (m < P)%nat -> rowTimes c m x = blockMean x (m * (I / P)) (I / P)) /\
    (forall m x a, (m < P)%nat -> (forall i, (i < I)%nat -> x i = a) -> rowTimes c m x = a).
Proof.
  intros [HP HI] Hs. destruct (create_ok normal unif junk I P AVERAGE cm ltac:(lia) HP Hs) as (f & c & E1 & E2 & R & C & F).
  { auto. }
  assert (Hr : (0 < I / P)%nat) by (apply Nat.div_str_pos; lia).
  assert (G : forall m x, (m < P)%nat -> rowTimes c m x = blockMean x (m * (I / P)) (I / P)).
  { intros m x Hm. unfold rowTimes. rewrite C.
    rewrite (rsum_ext I _ (fun i => if Nat.eqb (i / (I / P)) m then 1 / INR (I / P) * x i else 0)).
    - rewrite rsum_block_of by (auto using block_inside). rewrite rsum_scal. unfold blockMean. field.
      assert (0 < INR (I / P)) by now apply lt_0_INR. lra.
    - intros i Hi. rewrite F by auto. unfold factory_new in E1.
      rewrite (proj2 (Nat.ltb_ge I 1)), (proj2 (Nat.ltb_ge P 1)) in E1 by lia. injection E1 as <-. unfold entryOf. cbn [transform_].
      destruct (Nat.eqb (i / (I / P)) m); ring. }
  exists c. rewrite E1. cbn [bind]. split; auto. split; auto. split; auto. split; auto.
  intros m x a Hm Hx. rewrite G by auto. unfold blockMean.
  rewrite (rsum_ext _ _ (fun _ => a)).
  - rewrite rsum_const. field. assert (0 < INR (I / P)) by now apply lt_0_INR. lra.
  - intros k Hk. apply Hx. pose proof (block_inside I P m HP Hm). nia.
Qed.

(** Each row of the edge matrix is the difference of the sums over the halves of a block, scaled by 2 / block size; with an
    even block size constant vectors become zero. *)
Theorem C47_edge_partial I P cm : (0 < P <= I)%nat -> passed cm P I ->
  exists c, create I P EDGE cm = Ok c /\ rows c = P /\ cols c = I /\
    (forall m x, (m < P)%nat -> rowTimes c m x =
       2 / INR (I / P) * (rsum (I / P - I / P / 2) (fun k => x (m * (I / P) + I / P / 2 + k)%nat) -
                          rsum (I / P / 2) (fun k => x (m * (I / P) + k)%nat))) /\
    (Nat.even (I / P) = true -> forall m x a, (m < P)%nat -> (forall i, (i < I)%nat -> x i = a) -> rowTimes c m x = 0).
Proof.
  intros [HP HI] Hs. destruct (create_ok normal unif junk I P EDGE cm ltac:(lia) HP Hs) as (f & c & E1 & E2 & R & C & F).
  { auto. }
  assert (Hr : (0 < I / P)%nat) by (apply Nat.div_str_pos; lia).
  assert (Hr' : 0 < INR (I / P)) by now apply lt_0_INR.
  set (r := (I / P)%nat) in *. assert (Hh : (r / 2 <= r)%nat) by (apply Nat.div_le_upper_bound; lia).
  assert (G : forall m x, (m < P)%nat -> rowTimes c m x =
       2 / INR r * (rsum (r - r / 2) (fun k => x (m * r + r / 2 + k)%nat) - rsum (r / 2) (fun k => x (m * r + k)%nat))).
  { intros m x Hm. unfold rowTimes. rewrite C.
    rewrite (rsum_ext I _ (fun i => if Nat.eqb (i / r) m then (if Nat.ltb (i mod r) (r / 2) then -2 / INR r else 2 / INR r) * x i else 0)).
    - rewrite rsum_block_of by (auto; apply block_inside; auto).
      replace r with (r / 2 + (r - r / 2))%nat at 1 by lia. rewrite rsum_app.
      rewrite (rsum_ext (r / 2) _ (fun k => (-2 / INR r) * x (m * r + k)%nat)).
      + rewrite (rsum_ext (r - r / 2) _ (fun k => (2 / INR r) * x (m * r + r / 2 + k)%nat)).
        * rewrite !rsum_scal. field. lra.
        * intros k Hk. replace (m * r + (r / 2 + k))%nat with (r / 2 + k + m * r)%nat by lia.
          rewrite Nat.mod_add, Nat.mod_small by lia. rewrite (proj2 (Nat.ltb_ge (r / 2 + k) (r / 2))) by lia. do 2 f_equal. lia.
      + intros k Hk. replace (m * r + k)%nat with (k + m * r)%nat by lia. rewrite Nat.mod_add, Nat.mod_small by lia.
        now rewrite (proj2 (Nat.ltb_lt k (r / 2))) by lia.
    - intros i Hi. rewrite F by auto. unfold factory_new in E1.
      rewrite (proj2 (Nat.ltb_ge I 1)), (proj2 (Nat.ltb_ge P 1)) in E1 by lia. injection E1 as <-. unfold entryOf. cbn [transform_].
      destruct (Nat.eqb (i / r) m); ring. }
  exists c. rewrite E1. cbn [bind]. split; auto. split; auto. split; auto. split; auto.
  intros Ev m x a Hm Hx. rewrite G by auto. apply Nat.even_spec in Ev as (h & Eh).
  assert (Eh2 : (r / 2 = h)%nat) by (rewrite Eh, Nat.mul_comm; now apply Nat.div_mul).
  pose proof (block_inside I P m HP Hm) as HB. fold r in HB.
  rewrite (rsum_ext (r - r / 2) _ (fun _ => a)) by (intros k Hk; apply Hx; nia).
  rewrite (rsum_ext (r / 2) _ (fun _ => a)) by (intros k Hk; apply Hx; nia).
  rewrite !rsum_const. replace (r - r / 2)%nat with h by lia. rewrite Eh2. ring.
Qed.

(** Without compression the result is the identity. *)
Theorem C47_identity f cm : compress f = false -> (paramDim f <= rows cm)%nat -> (inputDim f <= cols cm)%nat ->
  exists c, createCompressionMatrix normal unif junk f cm = Ok c /\ rows c = rows cm /\ cols c = cols cm /\
    forall m i, (m < rows cm)%nat -> (i < cols cm)%nat -> at_ c m i = if Nat.eqb m i then 1 else 0.
Proof.
  intros H H1 H2. unfold createCompressionMatrix.
  rewrite (proj2 (Nat.ltb_ge (rows cm) (paramDim f))), (proj2 (Nat.ltb_ge (cols cm) (inputDim f))), H by auto. cbn [orb].
  eexists. split; [reflexivity|]. cbn. auto.
Qed.

(** Findings.  With an odd block size the edge matrix does not map constant vectors to zero; inputs behind the last complete
    block are ignored by the averaging matrix; averaging or edge matrices with more outputs than inputs divide by zero. *)
Theorem C47_edge_odd_refuted : exists c, create 3 1 EDGE (mzero 0 0) = Ok c /\ rowTimes c 0 (fun _ => 1) <> 0.
Proof.
  destruct (C47_edge_partial 3 1 (mzero 0 0)) as (c & E & _ & _ & F & _); [lia|cbn; lia|].
  exists c. split; auto. rewrite F by lia. change (3 / 1)%nat with 3%nat. change (3 / 2)%nat with 1%nat. cbn. lra.
Qed.
Theorem C47_average_ignores_inputs_refuted : exists c, create 5 3 AVERAGE (mzero 0 0) = Ok c /\
  forall m x y, (m < 3)%nat -> (forall i, (i < 3)%nat -> x i = y i) -> rowTimes c m x = rowTimes c m y.
Proof.
  destruct (C47_average 5 3 (mzero 0 0)) as (c & E & _ & _ & F & _); [lia|cbn; lia|].
  exists c. split; auto. intros m x y Hm H. rewrite !F by lia. unfold blockMean. change (5 / 3)%nat with 1%nat. cbn [rsum].
  rewrite !Nat.add_0_r, Nat.mul_1_r, H by lia. reflexivity.
Qed.
Theorem C47_more_outputs_than_inputs_refuted I P : (0 < I < P)%nat ->
  create I P AVERAGE (mzero 0 0) = UB /\ create I P EDGE (mzero 0 0) = UB.
Proof.
  intros H. unfold factory_new. rewrite (proj2 (Nat.ltb_ge I 1)), (proj2 (Nat.ltb_ge P 1)) by lia. cbn [bind].
  unfold createCompressionMatrix. cbn [rows cols mzero paramDim inputDim compress].
  rewrite (proj2 (Nat.ltb_lt 0 P)) by lia. cbn [orb].
  unfold fillCompressionMatrix. cbn [inputDim paramDim transform_].
  change (rows (msetZero (mresize junk P I))) with P. change (cols (msetZero (mresize junk P I))) with I.
  rewrite idiv_ok by lia. cbn [bind]. rewrite (Nat.div_small I P) by lia.
  destruct I as [|I]; [lia|]. destruct P as [|P]; [lia|]. split; reflexivity.
Qed.

(** The constructor rejects empty dimensions. *)
Theorem C47_empty_rejected I P t : (I = 0 \/ P = 0)%nat -> factory_new I P t = Throw.
Proof.
  intros H. unfold factory_new. destruct (Nat.ltb_spec I 1); auto. destruct (Nat.ltb_spec P 1); auto. lia.
Qed.

(** A Compressor with an averaging matrix replaces each row by the means of its blocks. *)
Theorem C47_compressor I P X : (0 < P <= I)%nat -> cols X = I ->
  exists c Y, compressor_new normal unif junk I P AVERAGE = Ok c /\ compressor_transform c X = Ok Y /\
    rows Y = rows X /\ cols Y = P /\
    forall n m, (n < rows X)%nat -> (m < P)%nat -> at_ Y n m = blockMean (at_ X n) (m * (I / P)) (I / P).
Proof.
  intros H HX. destruct (C47_average I P (mkMat P I junk) H) as (c & E & R & C & F & _); [cbn; lia|].
  exists c. unfold compressor_new. rewrite E. unfold compressor_transform, mmul. cbn [mtrans rows cols].
  rewrite HX, C, Nat.eqb_refl. cbn [check bind]. eexists. split; [reflexivity|]. split; [reflexivity|]. cbn [rows cols at_].
  split; auto. split; auto. intros n m Hn Hm. rewrite <- F by auto. unfold rowTimes. rewrite C. apply rsum_ext. intros. cbn. ring.
Qed.
End C47.
Print Assumptions C47_dct.
Print Assumptions C47_gaussian.
Print Assumptions C47_sparse_random.
Print Assumptions C47_average.
Print Assumptions C47_edge_partial.
Print Assumptions C47_identity.
Print Assumptions C47_edge_odd_refuted.
Print Assumptions C47_average_ignores_inputs_refuted.
Print Assumptions C47_more_outputs_than_inputs_refuted.
Print Assumptions C47_compressor.

(** Four inputs, two outputs. *)
Example ex_average : exists c, (f <- factory_new 4 2 AVERAGE ;; createCompressionMatrix (fun _ _ => 0) (fun _ _ => 0) (fun _ _ => 0) f (mzero 0 0)) = Ok c /\
  rowTimes c 1 INR = 5 / 2.
Proof.
  destruct (C47_average (fun _ _ => 0) (fun _ _ => 0) (fun _ _ => 0) 4 2 (mzero 0 0)) as (c & E & _ & _ & F & _); [lia|cbn; lia|].
  exists c. split; auto. rewrite F by lia. unfold blockMean. change (4 / 2)%nat with 2%nat. cbn. lra.
Qed.
