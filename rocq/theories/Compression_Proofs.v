From Verif Require Import Base BaseFacts Matrix RSum MatOps Compression_Model Compression_Spec.
From Coq Require Import Lia Lra.
Local Open Scope R_scope.

(** two nested loops that write or keep each entry *)
Lemma fill_ok I P (cm : mat) (b : nat -> nat -> mat -> res mat) (v : nat -> nat -> R) :
  (P <= rows cm)%nat -> (I <= cols cm)%nat ->
  (forall i m c, (i < I)%nat -> (m < P)%nat -> rows c = rows cm -> cols c = cols cm -> at_ c m i = at_ cm m i ->
     exists c', b i m c = Ok c' /\ rows c' = rows cm /\ cols c' = cols cm /\ at_ c' m i = v m i /\
       forall m' i', m' <> m \/ i' <> i -> at_ c' m' i' = at_ c m' i') ->
  exists c, for_ I (fun i cm => for_ P (b i) cm) cm = Ok c /\ rows c = rows cm /\ cols c = cols cm /\
    (forall m i, (m < P)%nat -> (i < I)%nat -> at_ c m i = v m i) /\
    (forall m i, (P <= m)%nat \/ (I <= i)%nat -> at_ c m i = at_ cm m i).
Proof.
  intros HP HI Hb.
  match goal with |- context [for_ I ?bb ?s0] =>
    destruct (for_inv (fun n (c : mat) => rows c = rows cm /\ cols c = cols cm /\
      (forall m i, (m < P)%nat -> (i < n)%nat -> at_ c m i = v m i) /\
      (forall m i, (P <= m)%nat \/ (n <= i)%nat -> at_ c m i = at_ cm m i)) bb I s0) as (c & E & R & C & F1 & F2) end.
  - repeat split; auto. intros; lia.
  - intros i c Hi (R & C & F1 & F2).
    match goal with |- context [for_ P ?bb ?s0] =>
      destruct (for_inv (fun n (c' : mat) => rows c' = rows cm /\ cols c' = cols cm /\
        (forall m, (m < n)%nat -> at_ c' m i = v m i) /\
        (forall m i', (n <= m)%nat \/ i' <> i -> at_ c' m i' = at_ c m i')) bb P s0) as (c' & E & R' & C' & G1 & G2) end.
    + repeat split; auto. intros; lia.
    + intros m c' Hm (R' & C' & G1 & G2).
      destruct (Hb i m c' Hi Hm R' C') as (c'' & E & R'' & C'' & H1 & H2).
      { rewrite G2 by lia. apply F2. lia. }
      exists c''. split; auto. split; auto. split; auto. split.
      * intros m' Hm'. destruct (Nat.eq_dec m' m) as [->|]; auto. rewrite H2 by lia. apply G1. lia.
      * intros m' i' H. rewrite H2 by lia. apply G2. lia.
    + exists c'. split; auto. split; auto. split; auto. split.
      * intros m i' Hm Hi'. destruct (Nat.eq_dec i' i) as [->|]; auto. rewrite G2 by lia. apply F1; lia.
      * intros m i' H. rewrite G2 by lia. apply F2. lia.
  - exists c. auto.
Qed.

Lemma idiv_ok a b : (0 < b)%nat -> idiv a b = Ok (a / b)%nat.
Proof. intros H. unfold idiv. destruct (Nat.eqb_spec b 0); auto; lia. Qed.
Lemma imod_ok a b : (0 < b)%nat -> imod a b = Ok (a mod b)%nat.
Proof. intros H. unfold imod. destruct (Nat.eqb_spec b 0); auto; lia. Qed.

Section Create.
Variables normal unif : nat -> nat -> R.

(** the entry that is written *)
Definition entryOf (f : factory) (r : nat) (m i : nat) : R :=
  match transform_ f with
  | DCT => cos (INR m * PI * (if Nat.ltb (inputDim f) 2 then 0 else INR i / INR (inputDim f - 1)))
  | GAUSSIAN => normal i m / INR (paramDim f)
  | SPARSE_RANDOM => if Rltb (unif i m) (1 / 6) then 1 / sqrt (INR (paramDim f))
      else if Rltb (unif i m) (5 / 6) then 0 else -1 / sqrt (INR (paramDim f))
  | AVERAGE => if Nat.eqb (i / r) m then 1 / INR r else 0
  | EDGE => if Nat.eqb (i / r) m then (if Nat.ltb (i mod r) (r / 2) then -2 / INR r else 2 / INR r) else 0
  end.

Definition blockwise (t : transformation) : Prop := t = AVERAGE \/ t = EDGE.

Lemma fillCM_ok f cm : (paramDim f <= rows cm)%nat -> (inputDim f <= cols cm)%nat -> (0 < paramDim f)%nat ->
  (forall m i, at_ cm m i = 0) -> (blockwise (transform_ f) -> (rows cm <= cols cm)%nat) ->
  exists c, fillCompressionMatrix normal unif f cm = Ok c /\ rows c = rows cm /\ cols c = cols cm /\
    (forall m i, (m < paramDim f)%nat -> (i < inputDim f)%nat -> at_ c m i = entryOf f (cols cm / rows cm) m i) /\
    (forall m i, (paramDim f <= m)%nat \/ (inputDim f <= i)%nat -> at_ c m i = 0).
Proof.
  intros HP HI HP0 HZ HB. unfold fillCompressionMatrix. rewrite idiv_ok by lia. cbn [bind].
  set (r := (cols cm / rows cm)%nat).
  assert (Hr : blockwise (transform_ f) -> (0 < r)%nat).
  { intros H. unfold r. apply Nat.div_str_pos. specialize (HB H). lia. }
  match goal with |- context [for_ (inputDim f) (fun i cm => for_ (paramDim f) (@?b i) cm) cm] =>
    destruct (fill_ok (inputDim f) (paramDim f) cm b (entryOf f r) HP HI) as (c & E & R & C & F1 & F2) end.
  - intros i m c Hi Hm R C F0. unfold entryOf.
    assert (W : forall x, exists c', mset c m i x = Ok c' /\ rows c' = rows cm /\ cols c' = cols cm /\ at_ c' m i = x /\
       forall m' i', m' <> m \/ i' <> i -> at_ c' m' i' = at_ c m' i').
    { intros x. rewrite mset_Ok by lia. eexists. split; [reflexivity|]. split; [exact R|]. split; [exact C|].
      split; [apply at_mupd_same|]. intros. now apply at_mupd_other. }
    assert (U : forall x, x = 0 -> exists c', Ok c = Ok c' /\ rows c' = rows cm /\ cols c' = cols cm /\ at_ c' m i = x /\
       forall m' i', m' <> m \/ i' <> i -> at_ c' m' i' = at_ c m' i').
    { intros x ->. exists c. repeat split; auto. now rewrite F0, HZ. }
    destruct (transform_ f) eqn:Et.
    + apply W.
    + apply W.
    + destruct (Rltb (unif i m) (1 / 6)); [apply W|]. destruct (Rltb (unif i m) (5 / 6)); apply W.
    + rewrite idiv_ok by (apply Hr; now left). cbn [bind]. destruct (Nat.eqb (i / r) m); [apply W|now apply U].
    + rewrite idiv_ok by (apply Hr; now right). cbn [bind]. destruct (Nat.eqb (i / r) m); [|now apply U].
      rewrite imod_ok by (apply Hr; now right). cbn [bind]. destruct (Nat.ltb (i mod r) (r / 2)); apply W.
  - exists c. split; auto. split; auto. split; auto. split; auto. intros m i H. now rewrite F2.
Qed.

(** the matrix that the factory makes when it is given a matrix that is not larger than requested *)
Lemma create_ok junk I P t cm : (0 < I)%nat -> (0 < P)%nat ->
  (rows cm < P \/ cols cm < I \/ (rows cm = P /\ cols cm = I))%nat -> (blockwise t -> (P <= I)%nat) ->
  exists f c, factory_new I P t = Ok f /\ createCompressionMatrix normal unif junk f cm = Ok c /\ rows c = P /\ cols c = I /\
    forall m i, (m < P)%nat -> (i < I)%nat -> at_ c m i = entryOf f (I / P) m i.
Proof.
  intros HI HP Hs HB. unfold factory_new. rewrite (proj2 (Nat.ltb_ge I 1)), (proj2 (Nat.ltb_ge P 1)) by lia.
  set (f := mkFactory true t I P). exists f. unfold createCompressionMatrix. cbn [compress paramDim inputDim f].
  assert (S : exists c0, (if (Nat.ltb (rows cm) P || Nat.ltb (cols cm) I)%bool then mresize junk P I else cm) = c0 /\ rows c0 = P /\ cols c0 = I).
  { eexists. split; [reflexivity|]. destruct (Nat.ltb_spec (rows cm) P), (Nat.ltb_spec (cols cm) I); cbn; auto; lia. }
  destruct S as (c0 & -> & R0 & C0).
  destruct (fillCM_ok f (msetZero c0)) as (c & E & R & C & F & _); cbn; try lia; auto.
  - rewrite R0, C0. auto.
  - exists c. split; auto. split; auto. cbn in R, C, F. rewrite R0, C0 in *. auto.
Qed.
End Create.

(** sum over a block of the inputs *)
Lemma rsum_block_of n r m (g : nat -> R) : (0 < r)%nat -> ((m + 1) * r <= n)%nat ->
  rsum n (fun i => if Nat.eqb (i / r) m then g i else 0) = rsum r (fun k => g (m * r + k)%nat).
Proof.
  intros Hr Hn. replace n with (m * r + (r + (n - (m + 1) * r)))%nat by nia.
  rewrite rsum_app, rsum_app.
  assert (Z1 : rsum (m * r) (fun i => if Nat.eqb (i / r) m then g i else 0) = 0).
  { apply rsum_0. intros i Hi. destruct (Nat.eqb_spec (i / r) m) as [E|]; auto.
    pose proof (Nat.div_lt_upper_bound i r m ltac:(lia) ltac:(nia)). lia. }
  assert (Z2 : rsum (n - (m + 1) * r) (fun i => if Nat.eqb ((m * r + (r + i)) / r) m then g (m * r + (r + i))%nat else 0) = 0).
  { apply rsum_0. intros i Hi. replace (m * r + (r + i))%nat with (i + (m + 1) * r)%nat by nia.
    rewrite Nat.div_add by lia. destruct (Nat.eqb_spec (i / r + (m + 1)) m); auto. lia. }
  rewrite Z1, Z2, Rplus_0_l, Rplus_0_r. apply rsum_ext. intros k Hk.
  replace (m * r + k)%nat with (k + m * r)%nat by lia. rewrite Nat.div_add, Nat.div_small by lia. cbn [Nat.add].
  now rewrite Nat.eqb_refl.
Qed.

Lemma block_inside I P m : (0 < P)%nat -> (m < P)%nat -> ((m + 1) * (I / P) <= I)%nat.
Proof. intros H1 H2. pose proof (Nat.mul_div_le I P ltac:(lia)). nia. Qed.
