From Verif Require Import Base BaseFacts Matrix RSum MatOps Acc Storage_Model Storage_Proofs Preproc_Model.
From Coq Require Import Lia Lra.
Local Open Scope R_scope.

(** * Smallest and largest entry *)
Lemma mfold_inv (f : R -> R -> R) m (le : R -> R -> Prop) :
  (forall s x, (f s x = s \/ f s x = x) /\ le (f s x) s /\ le (f s x) x) ->
  (forall x, le x x) -> (forall x y z, le x y -> le y z -> le x z) ->
  (0 < rows m)%nat -> (0 < cols m)%nat ->
  exists v, mfold f m = Ok v /\ (exists i j, (i < rows m /\ j < cols m)%nat /\ at_ m i j = v) /\
    forall i j, (i < rows m)%nat -> (j < cols m)%nat -> le v (at_ m i j).
Proof.
  intros Hf Hr Ht H1 H2. unfold mfold.
  rewrite check_true by (apply andb_true_intro; split; now apply Nat.ltb_lt). cbn [bind].
  assert (Hs : forall s x, (exists i j, (i < rows m /\ j < cols m)%nat /\ at_ m i j = s) ->
            (exists i j, (i < rows m /\ j < cols m)%nat /\ at_ m i j = x) ->
            exists i j, (i < rows m /\ j < cols m)%nat /\ at_ m i j = f s x).
  { intros s x Es Ex. destruct (Hf s x) as ([->| ->] & _); auto. }
  match goal with |- context [for_ (cols m) ?b ?s0] =>
    destruct (for_inv (fun k (v : R) => (exists i j, (i < rows m /\ j < cols m)%nat /\ at_ m i j = v) /\
      forall i j, (i < rows m)%nat -> (j < k)%nat -> le v (at_ m i j)) b (cols m) s0) as (v & E & V1 & V2) end.
  - split; [exists 0%nat, 0%nat; auto|]. intros; lia.
  - intros j s Hj (S1 & S2).
    match goal with |- context [for_ (rows m) ?b s] =>
      destruct (for_inv (fun k (v : R) => (exists i j, (i < rows m /\ j < cols m)%nat /\ at_ m i j = v) /\ le v s /\
        forall i, (i < k)%nat -> le v (at_ m i j)) b (rows m) s) as (v & E & V1 & V2 & V3) end.
    + split; auto. split; auto. intros; lia.
    + intros i s' Hi (T1 & T2 & T3). rewrite mget_Ok by auto. cbn [bind]. eexists. split; [reflexivity|].
      destruct (Hf s' (at_ m i j)) as (_ & F2 & F3). split; [apply Hs; eauto|]. split; [eauto|].
      intros k Hk. destruct (Nat.eq_dec k i) as [->|]; auto. eapply Ht; [exact F2|]. apply T3. lia.
    + exists v. split; auto. split; auto. intros i j' Hi Hj'.
      destruct (Nat.eq_dec j' j) as [->|]; auto. eapply Ht; [exact V2|]. apply S2; auto. lia.
  - exists v. auto.
Qed.

Lemma minCoeff_ok m : (0 < rows m)%nat -> (0 < cols m)%nat ->
  exists v, minCoeff m = Ok v /\ (exists i j, (i < rows m /\ j < cols m)%nat /\ at_ m i j = v) /\
    forall i j, (i < rows m)%nat -> (j < cols m)%nat -> v <= at_ m i j.
Proof.
  apply (mfold_inv _ m Rle); intros; try lra.
  destruct (Rltb x s) eqn:E; [apply Rltb_true in E|apply Rltb_false in E]; split; auto; lra.
Qed.
Lemma maxCoeff_ok m : (0 < rows m)%nat -> (0 < cols m)%nat ->
  exists v, maxCoeff m = Ok v /\ (exists i j, (i < rows m /\ j < cols m)%nat /\ at_ m i j = v) /\
    forall i j, (i < rows m)%nat -> (j < cols m)%nat -> at_ m i j <= v.
Proof.
  apply (mfold_inv _ m (fun a b => b <= a)); intros; try lra.
  destruct (Rltb s x) eqn:E; [apply Rltb_true in E|apply Rltb_false in E]; split; auto; lra.
Qed.

Lemma scaleData_ok data min max i0 j0 i1 j1 : min < max ->
  (i0 < rows data)%nat -> (j0 < cols data)%nat -> (i1 < rows data)%nat -> (j1 < cols data)%nat ->
  at_ data i0 j0 <> at_ data i1 j1 ->
  exists Y s t, scaleData data min max = Ok Y /\ size_is Y (rows data) (cols data) /\ 0 < s /\
    (forall i j, (i < rows data)%nat -> (j < cols data)%nat -> at_ Y i j = s * at_ data i j + t /\ min <= at_ Y i j <= max) /\
    (exists i j, (i < rows data)%nat /\ (j < cols data)%nat /\ at_ Y i j = min) /\
    (exists i j, (i < rows data)%nat /\ (j < cols data)%nat /\ at_ Y i j = max).
Proof.
  intros Hm H1 H2 H3 H4 Hd. unfold scaleData.
  assert (E : Rleb max min = false) by (apply Rleb_false; auto). rewrite E. clear E.
  destruct (minCoeff_ok data) as (mi & -> & (a & b & (A1 & A2) & A3) & Mi); try lia. cbn [bind].
  destruct (maxCoeff_ok data) as (ma & -> & (a' & b' & (B1 & B2) & B3) & Ma); try lia. cbn [bind].
  assert (HR : mi < ma).
  { pose proof (Mi i0 j0 H1 H2). pose proof (Mi i1 j1 H3 H4). pose proof (Ma i0 j0 H1 H2). pose proof (Ma i1 j1 H3 H4).
    destruct (Rtotal_order (at_ data i0 j0) (at_ data i1 j1)) as [|[|]]; lra. }
  set (s := (max - min) / (ma - mi)).
  assert (Hs : 0 < s) by (apply Rdiv_lt_0_compat; lra).
  assert (Es : s * (ma - mi) = max - min) by (unfold s; field; lra).
  eexists. exists s, (min - mi * s). split; [reflexivity|]. split; [split; reflexivity|]. split; auto.
  split; [|split].
  - intros i j Hi Hj. cbn [mmap at_]. split; [ring|].
    pose proof (Mi i j Hi Hj). pose proof (Ma i j Hi Hj).
    assert (0 <= s * (at_ data i j - mi)) by (apply Rmult_le_pos; lra).
    assert (0 <= s * (ma - at_ data i j)) by (apply Rmult_le_pos; lra). split; nra.
  - exists a, b. split; auto. split; auto. cbn [mmap at_]. rewrite A3. ring.
  - exists a', b'. split; auto. split; auto. cbn [mmap at_]. rewrite B3. lra.
Qed.

(** * filter *)
Definition absdiff (a b : nat) : nat := (Nat.max a b - Nat.min a b)%nat.
Lemma source_ok x c t pq : (c < rows x)%nat -> (t < cols x)%nat -> (pq < cols x)%nat ->
  source x c (Z.of_nat t - Z.of_nat pq) = Ok (at_ x c (absdiff t pq)).
Proof.
  intros H1 H2 H3. unfold source, absdiff.
  destruct (Z.leb_spec 0 (Z.of_nat t - Z.of_nat pq)); rewrite zidx_Ok by lia; cbn [bind]; rewrite mget_Ok by lia; do 2 f_equal; lia.
Qed.

Definition filterSum (x b a : mat) (c t n : nat) : R :=
  rsum n (fun k => (if Nat.ltb k (rows b) then at_ b k 0 * at_ x c (absdiff t k) else 0) +
                   (if (Nat.ltb 0 k && Nat.ltb k (rows a))%bool then at_ a k 0 * at_ x c (absdiff t k) else 0)).

Lemma filter_ok x y b a :
  (rows x <= rows y)%nat -> (cols x <= cols y)%nat -> (0 < cols b)%nat -> (0 < cols a)%nat -> (0 < rows a)%nat ->
  (rows b <= cols x)%nat -> (rows a <= cols x)%nat ->
  exists Y, filter x y b a = Ok Y /\ size_is Y (rows y) (cols y) /\
    forall c t, (c < rows x)%nat -> (t < cols x)%nat -> at_ Y c t = filterSum x b a c t (Nat.max (rows b) (rows a)) / at_ a 0 0.
Proof.
  intros H1 H2 H3 H4 H5 H6 H7. unfold filter.
  match goal with |- context [for_ (rows x) ?bd ?s0] =>
    destruct (for_inv (fun k (Y : mat) => size_is Y (rows y) (cols y) /\
       (forall c t, (c < k)%nat -> (t < cols x)%nat -> at_ Y c t = filterSum x b a c t (Nat.max (rows b) (rows a)) / at_ a 0 0) /\
       (forall c t, (k <= c)%nat -> at_ Y c t = 0)) bd (rows x) s0) as (Y & E & S & F & _) end.
  - split; [split; reflexivity|]. split; [intros; lia|]. reflexivity.
  - intros c Y Hc (S & F & Z).
    match goal with |- context [for_ (cols x) ?bd ?s0] =>
      destruct (for_inv (fun k (Y' : mat) => size_is Y' (rows y) (cols y) /\
       (forall t, (t < k)%nat -> at_ Y' c t = filterSum x b a c t (Nat.max (rows b) (rows a)) / at_ a 0 0) /\
       (forall t, (k <= t)%nat -> at_ Y' c t = 0) /\
       (forall c' t, c' <> c -> at_ Y' c' t = at_ Y c' t)) bd (cols x) s0) as (Y' & E & S' & F' & Z' & U') end.
    + split; auto. split; [intros; lia|]. split; [intros; apply Z; lia|]. reflexivity.
    + intros t Y1 Ht (S1 & F1 & Z1 & U1).
      match goal with |- context [for_ (Nat.max (rows b) (rows a)) ?bd ?s0] =>
        destruct (for_inv (fun k (Y' : mat) => size_is Y' (rows y) (cols y) /\ at_ Y' c t = filterSum x b a c t k /\
           (forall c' t', c' <> c \/ t' <> t -> at_ Y' c' t' = at_ Y1 c' t')) bd (Nat.max (rows b) (rows a)) s0) as (Y2 & E2 & S2 & F2 & U2) end.
      * split; [exact S1|]. split; [rewrite Z1 by lia; reflexivity|]. reflexivity.
      * intros pq Y2 Hpq (S2 & F2 & U2).
        assert (Hd : forall (cond : bool) (m Y3 : mat), (0 < cols m)%nat -> (cond = true -> pq < rows m)%nat -> size_is Y3 (rows y) (cols y) ->
          exists Y4, (if cond then v <- mget m pq 0 ;; xv <- source x c (Z.of_nat t - Z.of_nat pq) ;; madd Y3 c t (v * xv) else Ok Y3) = Ok Y4 /\
            size_is Y4 (rows y) (cols y) /\ at_ Y4 c t = at_ Y3 c t + (if cond then at_ m pq 0 * at_ x c (absdiff t pq) else 0) /\
            (forall c' t', c' <> c \/ t' <> t -> at_ Y4 c' t' = at_ Y3 c' t')).
        { intros cond m Y3 Hm Hc' S3. destruct cond.
          - specialize (Hc' eq_refl). rewrite mget_Ok by lia. cbn [bind]. rewrite source_ok by lia. cbn [bind].
            destruct S3 as (R3 & C3). rewrite madd_Ok by lia. eexists. split; [reflexivity|]. split; [split; auto|].
            split; [now rewrite at_mupd_same|]. intros. now rewrite at_mupd_other.
          - exists Y3. split; auto. split; auto. split; auto. ring. }
        destruct (Hd (Nat.ltb pq (rows b)) b Y2 H3) as (Y3 & -> & S3 & F3 & U3); [intros L; now apply Nat.ltb_lt|exact S2|].
        cbn [bind]. destruct (Hd (Nat.ltb 0 pq && Nat.ltb pq (rows a))%bool a Y3 H4) as (Y4 & E4 & S4 & F4 & U4); [intros L; apply andb_true_iff in L; now apply Nat.ltb_lt|exact S3|].
        exists Y4. split; [exact E4|]. split; auto. split.
        -- rewrite F4, F3, F2. unfold filterSum. cbn [rsum]. ring.
        -- intros. rewrite U4, U3; auto.
      * rewrite E2. cbn [bind]. rewrite mget_Ok by lia. cbn [bind]. destruct S2 as (R2 & C2).
        rewrite mget_Ok by lia. cbn [bind]. rewrite mset_Ok by lia. eexists. split; [reflexivity|].
        split; [split; auto|]. split; [|split].
        -- intros t' Ht'. destruct (Nat.eq_dec t' t) as [->|].
           ++ rewrite at_mupd_same, F2. reflexivity.
           ++ rewrite at_mupd_other by auto. rewrite U2 by auto. apply F1. lia.
        -- intros t' Ht'. rewrite at_mupd_other by lia. rewrite U2 by lia. apply Z1. lia.
        -- intros c' t' Hc'. rewrite at_mupd_other by auto. rewrite U2 by auto. now apply U1.
    + exists Y'. split; auto. split; auto. split.
      * intros c' t Hc' Ht. destruct (Nat.eq_dec c' c) as [->|]; [now apply F'|]. rewrite U' by auto. apply F; auto. lia.
      * intros c' t Hc'. rewrite U' by lia. apply Z. lia.
  - exists Y. auto.
Qed.

(** * downsample *)
Lemma downsample_ok y d f : (rows y <= rows d)%nat -> (cols d = 0 \/ (cols d - 1) * f < cols y)%nat ->
  exists Y, downsample y d f = Ok Y /\ size_is Y (rows d) (cols d) /\
    (forall c t, (c < rows y)%nat -> (t < cols d)%nat -> at_ Y c t = at_ y c (t * f)%nat) /\
    (forall c t, (rows y <= c)%nat -> at_ Y c t = at_ d c t).
Proof.
  intros H1 H2. unfold downsample.
  match goal with |- context [for_ (rows y) ?bd ?s0] =>
    destruct (for_inv (fun k (Y : mat) => size_is Y (rows d) (cols d) /\
      (forall c t, (c < k)%nat -> (t < cols d)%nat -> at_ Y c t = at_ y c (t * f)%nat) /\
      (forall c t, (k <= c)%nat -> at_ Y c t = at_ d c t)) bd (rows y) s0) as (Y & E & S & F & U) end.
  - split; [split; auto|]. split; [intros; lia|]. auto.
  - intros c Y Hc (S & F & U).
    match goal with |- context [for_ (cols Y) ?bd ?s0] =>
      destruct (for_inv (fun k (st : mat * nat) => snd st = (k * f)%nat /\ size_is (fst st) (rows d) (cols d) /\
        (forall t, (t < k)%nat -> at_ (fst st) c t = at_ y c (t * f)%nat) /\
        (forall c' t, c' <> c -> at_ (fst st) c' t = at_ Y c' t)) bd (cols Y) s0) as ([Y' so] & E & I' & S' & F' & U') end.
    + cbn [fst snd]. split; auto. split; auto. split; [intros; lia|]. auto.
    + intros t [Y1 so] Ht (I1 & S1 & F1 & U1). cbn [fst snd] in *. subst so. destruct S as (SR & SC). rewrite SC in Ht.
      assert (t * f < cols y)%nat.
      { destruct H2 as [H2|H2]; [lia|]. assert (t * f <= (cols d - 1) * f)%nat by (apply Nat.mul_le_mono_r; lia). lia. }
      rewrite mget_Ok by auto. cbn [bind]. destruct S1 as (R1 & C1). rewrite mset_Ok by lia. cbn [bind].
      eexists. split; [reflexivity|]. cbn [fst snd]. split; [lia|]. split; [split; auto|]. split.
      * intros t' Ht'. destruct (Nat.eq_dec t' t) as [->|]; [now rewrite at_mupd_same|]. rewrite at_mupd_other by auto. apply F1. lia.
      * intros c' t' Hc'. rewrite at_mupd_other by auto. now apply U1.
    + cbn [fst snd] in *. rewrite E. cbn [bind]. exists Y'. split; auto. split; auto. destruct S as (SR & SC). split.
      * intros c' t Hc' Ht. destruct (Nat.eq_dec c' c) as [->|]; [apply F'; lia|]. rewrite U' by auto. apply F; auto. lia.
      * intros c' t Hc'. rewrite U' by lia. apply U. lia.
  - exists Y. auto.
Qed.

(** * sampleRandomPatches *)
Lemma divmod_inj p a b a' b' : (b < p)%nat -> (b' < p)%nat -> (a * p + b = a' * p + b')%nat -> a = a' /\ b = b'.
Proof.
  intros H1 H2 E. assert (a = a').
  { destruct (Nat.lt_trichotomy a a') as [L|[|L]]; auto; exfalso;
      [assert (S a * p <= a' * p)%nat by (apply Nat.mul_le_mono_r; lia)|assert (S a' * p <= a * p)%nat by (apply Nat.mul_le_mono_r; lia)]; simpl in *; lia. }
  subst. split; auto. lia.
Qed.

Section Patches.
Variables (images : mat) (channels nrows ncols samples pr pc : nat).
Hypothesis Hc : cols images = (channels * nrows * ncols)%nat.

(** pixel of a patch whose upper left corner is at row [r0] and column [c0] *)
Definition pixel (m r0 c0 ch r c : nat) : R := at_ images m (ch * (nrows * ncols) + (r0 + r) * ncols + c0 + c)%nat.

Definition patchFilled (P : mat) (i m r0 c0 p : nat) : Prop := forall ch r c, (r < pr)%nat -> (c < pc)%nat ->
  ((ch * pr + r) * pc + c < p)%nat -> at_ P i ((ch * pr + r) * pc + c)%nat = pixel m r0 c0 ch r c.

Lemma patch_ok m i r0 c0 (P : mat) R : (m < rows images)%nat -> size_is P R (channels * pr * pc) -> (i < R)%nat ->
  (r0 + pr <= nrows)%nat -> (c0 + pc <= ncols)%nat ->
  exists P', (' (patches, _, _) <- for_ channels (fun chan '(patches, channelOffset, pxIdx) =>
          ' (patches, pxIdx) <- for_ pr (fun row st =>
              for_ pc (fun col '(patches, pxIdx) =>
                v <- mget images m (channelOffset + (r0 + row) * ncols + c0 + col)%nat ;;
                patches <- mset patches i pxIdx v ;;
                Ok (patches, S pxIdx)) st) (patches, pxIdx) ;;
          Ok (patches, (channelOffset + nrows * ncols)%nat, pxIdx)) (P, 0%nat, 0%nat) ;;
      Ok patches) = Ok P' /\ size_is P' R (channels * pr * pc) /\
   (forall i' k, i' <> i -> at_ P' i' k = at_ P i' k) /\ patchFilled P' i m r0 c0 (channels * pr * pc).
Proof.
  intros Hm HP Hi Hr Hcc.
  match goal with |- context [for_ channels ?bd ?s0] =>
    destruct (for_inv (fun k (st : mat * nat * nat) => let '(P', off, px) := st in off = (k * (nrows * ncols))%nat /\ px = (k * pr * pc)%nat /\
      size_is P' R (channels * pr * pc) /\ (forall i' k, i' <> i -> at_ P' i' k = at_ P i' k) /\ patchFilled P' i m r0 c0 px) bd channels s0)
      as ([[P' off] px] & E & I1 & I2 & I3 & I4 & I5) end.
  - split; auto. split; auto. split; auto. split; auto. intros ch r c _ _ H. lia.
  - intros ch [[P1 off] px] Hch (J1 & J2 & J3 & J4 & J5). subst off px.
    match goal with |- context [for_ pr ?bd ?s0] =>
      destruct (for_inv (fun k (st : mat * nat) => let '(P', px) := st in px = ((ch * pr + k) * pc)%nat /\
        size_is P' R (channels * pr * pc) /\ (forall i' k, i' <> i -> at_ P' i' k = at_ P i' k) /\ patchFilled P' i m r0 c0 px) bd pr s0)
        as ([P' px] & E & K2 & K3 & K4 & K5) end.
    + split; [lia|]. auto.
    + intros row [P2 px] Hrow (K2 & K3 & K4 & K5). subst px.
      match goal with |- context [for_ pc ?bd ?s0] =>
        destruct (for_inv (fun k (st : mat * nat) => let '(P', px) := st in px = ((ch * pr + row) * pc + k)%nat /\
          size_is P' R (channels * pr * pc) /\ (forall i' k, i' <> i -> at_ P' i' k = at_ P i' k) /\ patchFilled P' i m r0 c0 px) bd pc s0)
          as ([P' px] & E & L2 & L3 & L4 & L5) end.
      * split; [lia|]. auto.
      * intros col [P3 px] Hcol (L2 & L3 & L4 & L5).
        assert (B1 : (ch * (nrows * ncols) + (r0 + row) * ncols + c0 + col < cols images)%nat).
        { rewrite Hc. assert ((r0 + row + 1) * ncols <= nrows * ncols)%nat by (apply Nat.mul_le_mono_r; lia).
          assert ((ch + 1) * (nrows * ncols) <= channels * (nrows * ncols))%nat by (apply Nat.mul_le_mono_r; lia). nia. }
        rewrite mget_Ok by auto. cbn [bind].
        assert (B2 : (px < channels * pr * pc)%nat).
        { assert ((ch * pr + row + 1) * pc <= channels * pr * pc)%nat by (apply Nat.mul_le_mono_r; nia). nia. }
        destruct L3 as (L3r & L3c). rewrite mset_Ok by lia. cbn [bind]. eexists. split; [reflexivity|].
        split; [lia|]. split; [split; auto|]. split.
        -- intros i' k Hi'. rewrite at_mupd_other by auto. auto.
        -- intros ch' r c Hr' Hc' Hlt. destruct (Nat.eq_dec ((ch' * pr + r) * pc + c) px) as [Eq|Ne].
           ++ rewrite L2 in Eq. destruct (divmod_inj pc _ _ _ _ Hc' Hcol Eq) as (Q1 & ->).
              destruct (divmod_inj pr _ _ _ _ Hr' Hrow Q1) as (-> & ->). rewrite <- L2, at_mupd_same. reflexivity.
           ++ rewrite at_mupd_other by auto. apply L5; auto. lia.
      * exists (P', px). split; auto. split; [lia|]. auto.
    + rewrite E. cbn [bind]. eexists. split; [reflexivity|]. split; [lia|]. split; [lia|]. auto.
  - rewrite E. cbn [bind]. exists P'. subst px. auto.
Qed.

Lemma patches_ok rnd junk : (forall k, 0 <= rnd k)%Z -> (pr <= nrows)%nat -> (pc <= ncols)%nat ->
  exists Y, sampleRandomPatches rnd junk images channels nrows ncols samples pr pc = Ok Y /\
    size_is Y (rows images * samples) (channels * pr * pc) /\
    forall m n, (m < rows images)%nat -> (n < samples)%nat -> exists r0 c0, (r0 + pr <= nrows /\ c0 + pc <= ncols)%nat /\
      forall ch r c, (ch < channels)%nat -> (r < pr)%nat -> (c < pc)%nat ->
        at_ Y (m * samples + n)%nat ((ch * pr + r) * pc + c)%nat = pixel m r0 c0 ch r c.
Proof.
  intros Hrnd Hpr Hpc. unfold sampleRandomPatches.
  match goal with |- context [for_ (rows images * samples) ?bd ?s0] =>
    destruct (for_inv (fun k (l : list (nat * nat)) => length l = k /\ Forall (fun rc => (fst rc + pr <= nrows /\ snd rc + pc <= ncols)%nat) l)
      bd (rows images * samples)%nat s0) as (idx & E & Li & Fi) end.
  { split; auto. }
  { intros n l _ (L & F).
    destruct (generateInt_range (rnd (2 * n)%nat) 0 (Z.of_nat nrows - Z.of_nat pr + 1)) as (r & Er & _ & Br); [auto|lia|].
    destruct (generateInt_range (rnd (2 * n + 1)%nat) 0 (Z.of_nat ncols - Z.of_nat pc + 1)) as (c & Ec & _ & Bc); [auto|lia|].
    rewrite Er. cbn [bind]. rewrite Ec. cbn [bind]. rewrite !zidx_Ok by lia. cbn [bind].
    eexists. split; [reflexivity|]. rewrite app_length. cbn [length]. split; [lia|]. apply Forall_app. split; auto.
    constructor; auto. cbn [fst snd]. lia. }
  rewrite E. cbn [bind]. clear E.
  match goal with |- context [for_ (rows images) ?bd ?s0] =>
    destruct (for_inv (fun k (Y : mat) => size_is Y (rows images * samples) (channels * pr * pc) /\
      forall m n, (m < k)%nat -> (n < samples)%nat -> let rc := nth (m * samples + n) idx (0, 0)%nat in
        patchFilled Y (m * samples + n) m (fst rc) (snd rc) (channels * pr * pc)) bd (rows images) s0) as (Y & E & SY & FY) end.
  { split; [split; auto|]. intros; lia. }
  { intros m Y Hm (SY & FY).
    match goal with |- context [for_ samples ?bd ?s0] =>
      destruct (for_inv (fun k (Y' : mat) => size_is Y' (rows images * samples) (channels * pr * pc) /\
        (forall n, (n < k)%nat -> let rc := nth (m * samples + n) idx (0, 0)%nat in
          patchFilled Y' (m * samples + n) m (fst rc) (snd rc) (channels * pr * pc)) /\
        forall i k, (i < m * samples)%nat -> at_ Y' i k = at_ Y i k) bd samples s0) as (Y' & E & SY' & FY' & UY') end.
    { split; auto. split; [intros; lia|auto]. }
    { intros n Y1 Hn (S1 & F1 & U1).
      assert (Hin : (m * samples + n < rows images * samples)%nat).
      { assert ((m + 1) * samples <= rows images * samples)%nat by (apply Nat.mul_le_mono_r; lia). lia. }
      rewrite (vget_nth idx _ (0, 0)%nat) by lia. cbn [bind].
      set (rc := nth (m * samples + n) idx (0, 0)%nat) in *.
      assert (Hrc : (fst rc + pr <= nrows /\ snd rc + pc <= ncols)%nat).
      { rewrite Forall_forall in Fi. apply Fi. apply nth_In. lia. }
      destruct (patch_ok m (m * samples + n) (fst rc) (snd rc) Y1 (rows images * samples) Hm S1 Hin) as (P' & E & SP & UP & FP); try tauto.
      exists P'. split; [exact E|]. split; auto. split.
      - intros n' Hn'. destruct (Nat.eq_dec n' n) as [->|]; [exact FP|].
        intros ch r c H1 H2 H3. rewrite UP by lia. apply F1; auto. lia.
      - intros i k Hi. rewrite UP by lia. auto. }
    exists Y'. split; auto. split; auto. intros m' n Hm' Hn. destruct (Nat.eq_dec m' m) as [->|]; [now apply FY'|].
    intros rc ch r c H1 H2 H3. rewrite UY'.
    - apply FY; auto. lia.
    - assert ((m' + 1) * samples <= m * samples)%nat by (apply Nat.mul_le_mono_r; lia). lia. }
  exists Y. split; auto. split; auto. intros m n Hm Hn.
  exists (fst (nth (m * samples + n) idx (0, 0)%nat)), (snd (nth (m * samples + n) idx (0, 0)%nat)). split.
  - rewrite Forall_forall in Fi. apply Fi. apply nth_In. rewrite Li.
    assert ((m + 1) * samples <= rows images * samples)%nat by (apply Nat.mul_le_mono_r; lia). lia.
  - intros ch r c H1 H2 H3. apply FY; auto.
    assert ((ch * pr + r + 1) * pc <= channels * pr * pc)%nat by (apply Nat.mul_le_mono_r; nia). nia.
Qed.
End Patches.

(** * Normalization *)
Definition cmean (X : mat) (d : nat) : R := rsum (rows X) (fun n => at_ X n d) / INR (rows X).
Definition cvar (X : mat) (d : nat) : R := rsum (rows X) (fun n => (at_ X n d - cmean X d) * (at_ X n d - cmean X d)) / INR (rows X).
Definition cstd (X : mat) (d : nat) : R := if Reqb (sqrt (cvar X d)) 0 then 1 else sqrt (cvar X d).

Lemma norm_fit_ok X : exists s, norm_fit X = Ok s /\ size_is (nmean s) 1 (cols X) /\ size_is (nstd s) 1 (cols X) /\
  forall d, (d < cols X)%nat -> at_ (nmean s) 0 d = cmean X d /\ at_ (nstd s) 0 d = cstd X d.
Proof.
  unfold norm_fit. cbn [rows cols].
  match goal with |- context [for_ (rows X) ?bd ?s0] =>
    destruct (for_inv (fun k (st : mat) => size_is st 1 (cols X) /\
      forall d, (d < cols X)%nat -> at_ st 0 d = rsum k (fun n => (at_ X n d - cmean X d) * (at_ X n d - cmean X d))) bd (rows X) s0) as (st & E & Ss & Fs) end.
  { split; [split; auto|]. auto. }
  { intros n st Hn (Ss & Fs).
    match goal with |- context [for_ (cols X) ?bd ?s0] =>
      destruct (for_inv (fun k (st' : mat) => size_is st' 1 (cols X) /\
        (forall d, (d < k)%nat -> at_ st' 0 d = at_ st 0 d + (at_ X n d - cmean X d) * (at_ X n d - cmean X d)) /\
        (forall d, (k <= d)%nat -> at_ st' 0 d = at_ st 0 d)) bd (cols X) s0) as (st' & E & Ss' & Fs' & Us') end.
    { split; auto. split; [intros; lia|auto]. }
    { intros d st1 Hd (S1 & F1 & U1). rewrite mget_Ok by auto. cbn [bind]. rewrite mget_Ok by (cbn [rows cols]; lia). cbn [bind at_].
      destruct S1 as (R1 & C1). rewrite madd_Ok by lia. eexists. split; [reflexivity|]. split; [split; auto|]. split.
      - intros d' Hd'. destruct (Nat.eq_dec d' d) as [->|].
        + rewrite at_mupd_same, U1 by lia. reflexivity.
        + rewrite at_mupd_other by auto. apply F1. lia.
      - intros d' Hd'. rewrite at_mupd_other by lia. apply U1. lia. }
    exists st'. split; auto. split; auto. intros d Hd. rewrite Fs' by auto. rewrite Fs by auto. reflexivity. }
  rewrite E. cbn [bind]. clear E.
  match goal with |- context [for_ (cols X) ?bd ?s0] =>
    destruct (for_inv (fun k (st' : mat) => size_is st' 1 (cols X) /\
      (forall d, (d < k)%nat -> at_ st' 0 d = cstd X d) /\
      (forall d, (k <= d < cols X)%nat -> at_ st' 0 d = sqrt (cvar X d))) bd (cols X) s0) as (st' & E & Ss' & Fs' & _) end.
  { split; [exact Ss|]. split; [intros; lia|]. intros d Hd. cbn [mmap at_]. rewrite Fs by lia. reflexivity. }
  { intros d st1 Hd (S1 & F1 & U1). destruct S1 as (R1 & C1). rewrite mget_Ok by lia. cbn [bind].
    rewrite U1 by lia. destruct (Reqb (sqrt (cvar X d)) 0) eqn:Eq.
    - rewrite mset_Ok by lia. eexists. split; [reflexivity|]. split; [split; auto|]. split.
      + intros d' Hd'. destruct (Nat.eq_dec d' d) as [->|].
        * rewrite at_mupd_same. unfold cstd. now rewrite Eq.
        * rewrite at_mupd_other by auto. apply F1. lia.
      + intros d' Hd'. rewrite at_mupd_other by lia. apply U1. lia.
    - eexists. split; [reflexivity|]. split; [split; auto|]. split.
      + intros d' Hd'. destruct (Nat.eq_dec d' d) as [->|]; [|apply F1; lia]. rewrite U1 by lia. unfold cstd. now rewrite Eq.
      + intros d' Hd'. apply U1. lia. }
  rewrite E. cbn [bind]. eexists. split; [reflexivity|]. cbn [nmean nstd]. split; [split; auto|]. split; auto.
Qed.

Lemma norm_transform_ok junk s X D : size_is (nmean s) 1 D -> size_is (nstd s) 1 D -> cols X = D -> (0 < D)%nat ->
  exists Y, norm_transform junk s X = Ok Y /\ size_is Y (rows X) D /\
    forall n d, (n < rows X)%nat -> at_ Y n d = (at_ X n d - at_ (nmean s) 0 d) * / at_ (nstd s) 0 d.
Proof.
  intros (H1 & H2) _ H3 H4. unfold norm_transform. rewrite H2, H3.
  rewrite check_true by (apply Nat.ltb_lt; auto). cbn [bind]. rewrite check_true by apply Nat.eqb_refl. cbn [bind].
  match goal with |- context [for_ (rows X) ?bd ?s0] =>
    destruct (for_inv (fun k (Y : mat) => size_is Y (rows X) D /\
      forall n d, (n < k)%nat -> at_ Y n d = (at_ X n d - at_ (nmean s) 0 d) * / at_ (nstd s) 0 d) bd (rows X) s0) as (Y & E & S & F) end.
  { split; [split; auto|]. intros; lia. }
  { intros n Y Hn ((R & C) & F). unfold msetRowFun. rewrite (proj2 (Nat.ltb_lt n (rows Y))) by lia.
    eexists. split; [reflexivity|]. split; [split; auto|]. intros n' d Hn'. cbn [at_].
    destruct (Nat.eqb_spec n' n) as [->|]; auto. apply F. lia. }
  exists Y. auto.
Qed.

Lemma cmean_sum X d : (0 < rows X)%nat -> rsum (rows X) (fun n => at_ X n d) = INR (rows X) * cmean X d.
Proof. intros H. unfold cmean. field. apply not_0_INR. lia. Qed.

Lemma cvar_nonneg X d : (0 < rows X)%nat -> 0 <= cvar X d.
Proof.
  intros H. apply Rmult_le_pos.
  - apply rsum_nonneg. intros. apply Rle_0_sqr.
  - left. apply Rinv_0_lt_compat. now apply lt_0_INR.
Qed.

(** the variance is zero exactly if the column is constant *)
Lemma cvar_0 X d : (0 < rows X)%nat -> (cvar X d = 0 <-> forall n, (n < rows X)%nat -> at_ X n d = at_ X 0 d).
Proof.
  intros H. assert (HN : 0 < INR (rows X)) by now apply lt_0_INR. split.
  - intros E n Hn. unfold cvar in E.
    assert (Z : rsum (rows X) (fun n => (at_ X n d - cmean X d) * (at_ X n d - cmean X d)) = 0).
    { apply (Rmult_eq_reg_r (/ INR (rows X))); [lra|]. apply Rinv_neq_0_compat. lra. }
    pose proof (rsum_nonneg_0 _ _ (fun i _ => Rle_0_sqr (at_ X i d - cmean X d)) Z) as F. cbn beta in F.
    assert (G : forall n, (n < rows X)%nat -> at_ X n d = cmean X d).
    { intros k Hk. specialize (F k Hk). apply Rsqr_0_uniq in F. lra. }
    now rewrite !G by lia.
  - intros E. assert (M : cmean X d = at_ X 0 d).
    { unfold cmean. rewrite (rsum_ext _ _ (fun _ => at_ X 0 d)) by auto. rewrite rsum_const. field. lra. }
    unfold cvar. rewrite (rsum_0 (rows X)).
    + lra.
    + intros i Hi. rewrite M, E by auto. ring.
Qed.
