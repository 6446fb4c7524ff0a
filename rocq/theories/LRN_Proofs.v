(** Proofs about local response normalization. *)
From Verif Require Import Base BaseFacts Matrix RSum MatOps Vec Acc Deriv Layer_Model Layer_Spec Layer_Proofs SimpleLayers_Model LRN_Model LRN_Spec.
Local Open Scope R_scope.

Lemma cells_inv {A} (P : nat -> A -> Prop) fm rows cols body (a : A) :
  P 0%nat a ->
  (forall o r c a, (o < fm)%nat -> (r < rows)%nat -> (c < cols)%nat ->
     P (o * (rows * cols) + r * cols + c)%nat a ->
     exists a', body o r c (o * (rows * cols) + r * cols + c)%nat a = Ok a' /\ P (S (o * (rows * cols) + r * cols + c)) a') ->
  exists a', cells fm rows cols body a = Ok a' /\ P (fm * (rows * cols))%nat a'.
Proof.
  intros H0 Hb. unfold cells.
  match goal with |- context [for_ fm ?b ?s] =>
    destruct (for_inv (fun o (st : A * nat) => P (o * (rows * cols))%nat (fst st) /\ snd st = (o * (rows * cols))%nat) b fm s) as ((a' & i) & E & Ha & Hi) end.
  - split; auto.
  - intros o (a1 & i1) Ho (Ha1 & Hi1). cbn [fst snd] in *.
    match goal with |- context [for_ rows ?b ?s] =>
      destruct (for_inv (fun r (st : A * nat) => P (o * (rows * cols) + r * cols)%nat (fst st) /\ snd st = (o * (rows * cols) + r * cols)%nat) b rows s) as ((a2 & i2) & E2 & Ha2 & Hi2) end.
    + cbn [fst snd]. rewrite Nat.mul_0_l, Nat.add_0_r. auto.
    + intros r (a3 & i3) Hr (Ha3 & Hi3). cbn [fst snd] in *.
      match goal with |- context [for_ cols ?b ?s] =>
        destruct (for_inv (fun c (st : A * nat) => P (o * (rows * cols) + r * cols + c)%nat (fst st) /\ snd st = (o * (rows * cols) + r * cols + c)%nat) b cols s) as ((a4 & i4) & E4 & Ha4 & Hi4) end.
      * cbn [fst snd]. rewrite Nat.add_0_r. auto.
      * intros c (a5 & i5) Hc (Ha5 & Hi5). cbn [fst snd] in *. subst i5.
        destruct (Hb o r c a5 Ho Hr Hc Ha5) as (a6 & E6 & Ha6). rewrite E6. cbn [bind]. eexists. split; [reflexivity|]. cbn [fst snd].
        rewrite Nat.add_succ_r. auto.
      * rewrite E4. exists (a4, i4). split; auto. cbn [fst snd] in *. replace (o * (rows * cols) + S r * cols)%nat with (o * (rows * cols) + r * cols + cols)%nat by lia. auto.
    + rewrite E2. exists (a2, i2). split; auto. cbn [fst snd] in *. replace (S o * (rows * cols))%nat with (o * (rows * cols) + rows * cols)%nat by lia. auto.
  - rewrite E. cbn [bind fst snd] in *. eauto.
Qed.

Lemma window_ok fm i n body (f : nat -> R) : (0 < fm)%nat ->
  (forall j acc, (j < fm)%nat -> body j acc = Ok (acc + f j)) ->
  window fm i n body = Ok (rsum fm (fun j => if (Nat.leb (i - n / 2) j && Nat.ltb j (Nat.min (fm - 1) (i + n / 2)))%bool then f j else 0)).
Proof.
  intros Hf Hb. unfold window. set (lo := (i - n / 2)%nat). set (hi := Nat.min (fm - 1) (i + n / 2)).
  assert (Hhi : (hi <= fm - 1)%nat) by (unfold hi; lia).
  assert (G : forall m lo acc, (lo + m <= fm)%nat ->
    for_from lo m body acc = Ok (acc + rsum fm (fun j => if (Nat.leb lo j && Nat.ltb j (lo + m))%bool then f j else 0))).
  { clear lo hi Hhi. induction m as [|m IH]; intros lo acc Hm; cbn [for_from].
    - rewrite rsum_0; [f_equal; ring|]. intros j _. destruct (Nat.leb_spec lo j), (Nat.ltb_spec j (lo + 0)); auto; lia.
    - rewrite Hb by lia. cbn [bind]. rewrite IH by lia. f_equal. rewrite Rplus_assoc. f_equal.
      rewrite (rsum_change fm lo (fun j => if (Nat.leb lo j && Nat.ltb j (lo + S m))%bool then f j else 0)
                 (fun j => if (Nat.leb (S lo) j && Nat.ltb j (S lo + m))%bool then f j else 0)) by
        (lia || intros j _ Hj; destruct (Nat.leb_spec lo j), (Nat.ltb_spec j (lo + S m)), (Nat.leb_spec (S lo) j), (Nat.ltb_spec j (S lo + m)); auto; lia).
      destruct (Nat.leb_spec lo lo); [|lia]. destruct (Nat.ltb_spec lo (lo + S m)); [|lia]. destruct (Nat.leb_spec (S lo) lo); [lia|]. cbn [andb]. ring. }
  destruct (Nat.le_gt_cases lo hi).
  - rewrite G by lia. rewrite Rplus_0_l. f_equal. apply rsum_ext. intros j _. replace (lo + (hi - lo))%nat with hi by lia. reflexivity.
  - replace (hi - lo)%nat with 0%nat by lia. cbn [for_from]. rewrite rsum_0; auto. intros j _.
    destruct (Nat.leb_spec lo j), (Nat.ltb_spec j hi); auto; lia.
Qed.

Lemma energy_nonneg fm fs X lo hi b p : 0 <= energy fm fs X lo hi b p.
Proof. unfold energy. apply rsum_nonneg. intros j _. destruct (_ && _)%bool; nra. Qed.

Lemma split_index fs i p : (p < fs)%nat -> ((i * fs + p) / fs = i /\ (i * fs + p) mod fs = p)%nat.
Proof.
  intros Hp. split.
  - rewrite Nat.div_add_l by lia. rewrite Nat.div_small by auto. lia.
  - rewrite Nat.add_comm, Nat.mod_add by lia. now apply Nat.mod_small.
Qed.

Section LRN.
Context (junk : nat -> nat -> R) (fm rows_ cols_ : nat) (k : R) (n : nat) (alpha beta : R).
Notation fs := (rows_ * cols_)%nat.
Notation cls := (lrn_class junk).

Definition lrn_inv (s : lrn) : Prop :=
  lfm s = fm /\ lrows s = rows_ /\ lcols s = cols_ /\ lk s = k /\ lalpha s = alpha /\ lbeta s = beta /\
  cols (ly s) = (fm * fs)%nat /\ cols (ldenoms s) = (fm * fs)%nat /\ cols (le s) = (fm * fs)%nat.

(** denominator of column j in row b *)
Definition denomOf (X : mat) (b j : nat) : R :=
  k + alpha * energy fm fs X (j / fs - b / 2) (Nat.min (fm - 1) (j / fs + b / 2)) b (j mod fs).

Hypothesis Hk : 0 < k.
Hypothesis Ha : 0 <= alpha.

Lemma denom_pos X b j : 0 < denomOf X b j.
Proof. unfold denomOf. pose proof (energy_nonneg fm fs X (j / fs - b / 2) (Nat.min (fm - 1) (j / fs + b / 2)) b (j mod fs)). nra. Qed.

Lemma pow_ok d e : 0 < d -> pow_ d e = Ok (Rpower d e).
Proof. intros H. unfold pow_. now rewrite (proj2 (Rltb_true _ _)). Qed.

Lemma forward_ok s X dropout : lrn_inv s -> cols X = (fm * fs)%nat ->
  exists q Y, lrn_forward junk s X dropout = Ok (q, Y, 0) /\ lrn_inv q /\ size_is Y (rows X) (fm * fs) /\
    lx q = X /\ ly q = Y /\ size_is (ldenoms q) (rows X) (fm * fs) /\
    forall b j, (b < rows X)%nat -> (j < fm * fs)%nat ->
      at_ (ldenoms q) b j = denomOf X b j /\ at_ Y b j = at_ X b j * Rpower (denomOf X b j) (- beta).
Proof.
  intros (I1 & I2 & I3 & I4 & I5 & I6 & I7 & I8 & I9) HX. unfold lrn_forward, lfmSize. rewrite I1, I2, I3, I4, I5, I6, I7, I8.
  set (good := fun b j (st : mat * mat) => at_ (fst st) b j = denomOf X b j /\ at_ (snd st) b j = at_ X b j * Rpower (denomOf X b j) (- beta)).
  set (sized := fun st : mat * mat => size_is (fst st) (rows X) (fm * fs) /\ size_is (snd st) (rows X) (fm * fs)).
  match goal with |- context [for_ (rows X) ?bd ?s0] =>
    destruct (for_inv (fun b (st : mat * mat) => sized st /\ forall b' j, (b' < b)%nat -> (j < fm * fs)%nat -> good b' j st) bd (rows X) s0)
      as ((dn & y) & E & Hsz & Hg) end.
  - split; [split; split; reflexivity|]. intros; lia.
  - intros b st Hb (Hsz & Hg).
    match goal with |- context [cells fm rows_ cols_ ?bd ?s0] =>
      destruct (cells_inv (fun m (st : mat * mat) => sized st /\ forall b' j, (b' < b \/ b' = b /\ j < m)%nat -> (j < fm * fs)%nat -> good b' j st)
        fm rows_ cols_ bd s0) as (st' & E & Hsz' & Hg') end.
    + split; auto. intros b' j [H|[_ H]] Hj; [auto|lia].
    + clear st Hsz Hg. intros o r c (dn & y) Ho Hr Hc (((D1 & D2) & (Y1 & Y2)) & Hg). cbn [fst snd] in D1, D2, Y1, Y2.
      set (p := (r * cols_ + c)%nat). assert (Hp : (p < fs)%nat) by (unfold p; nia).
      replace (o * fs + r * cols_ + c)%nat with (o * fs + p)%nat in * by (unfold p; lia).
      assert (Hj : (o * fs + p < fm * fs)%nat) by nia.
      rewrite (window_ok fm o b _ (fun j => at_ X b (j * fs + p)%nat * at_ X b (j * fs + p)%nat)).
      2: lia.
      2:{ intros j acc Hj'. replace (j * fs + r * cols_ + c)%nat with (j * fs + p)%nat by (unfold p; lia). rewrite mget_Ok by (auto; nia). reflexivity. }
      cbn [bind]. fold (energy fm fs X (o - b / 2) (Nat.min (fm - 1) (o + b / 2)) b p).
      destruct (split_index fs o p Hp) as (S1 & S2).
      assert (Ed : k + alpha * energy fm fs X (o - b / 2) (Nat.min (fm - 1) (o + b / 2)) b p = denomOf X b (o * fs + p)) by (unfold denomOf; now rewrite S1, S2).
      rewrite Ed. rewrite mset_Ok by (rewrite ?D1, ?D2; auto). cbn [bind]. rewrite mget_Ok by (auto; lia). cbn [bind].
      rewrite pow_ok by apply denom_pos. cbn [bind]. rewrite mset_Ok by (rewrite ?Y1, ?Y2; auto). cbn [bind].
      eexists. split; [reflexivity|]. split; [split; split; cbn; auto|]. intros b' j H Hj'. unfold good. cbn [fst snd]. rewrite !at_mupd.
      destruct (Nat.eqb_spec b' b) as [->|Nb]; cbn [andb].
      * destruct (Nat.eqb_spec j (o * fs + p)) as [->|Nj]; [auto|]. apply (Hg b j); auto. lia.
      * apply (Hg b' j); auto. lia.
    + exists st'. split; auto. split; auto. intros b' j H Hj. apply Hg'; auto. lia.
  - rewrite E. cbn [bind]. destruct Hsz as (Sd & Sy). cbn [fst snd] in *. eexists _, _. split; [reflexivity|]. split.
    + unfold lrn_inv. cbn. destruct Sd, Sy. auto 12.
    + cbn. split; auto.
Qed.

Lemma lrn_new_inv s : lrn_new junk fm rows_ cols_ k n alpha beta = Ok s -> lrn_inv s.
Proof.
  unfold lrn_new, check. destruct (Nat.ltb 0 fs); [|discriminate]. cbn [bind]. intros [= <-]. unfold lrn_inv. cbn. rewrite Nat.mul_assoc. auto 12.
Qed.

(** ** Backpropagation *)
(** [tmp] are the intermediate results of lines 72-73 *)
Definition tmpOf (X ein : mat) : mat :=
  mkMat (rows X) (fm * fs) (fun b j => at_ ein b j * (at_ X b j * Rpower (denomOf X b j) (- beta)) * / denomOf X b j * (-2 * alpha * beta)).
Definition ahead (X : mat) (q : lrn) : Prop :=
  lx q = X /\ size_is (ly q) (rows X) (fm * fs) /\ size_is (ldenoms q) (rows X) (fm * fs) /\
  forall b j, (b < rows X)%nat -> (j < fm * fs)%nat ->
    at_ (ldenoms q) b j = denomOf X b j /\ at_ (ly q) b j = at_ X b j * Rpower (denomOf X b j) (- beta).
Lemma backward_ok X q ein bp : lrn_inv q -> ahead X q -> cols X = (fm * fs)%nat -> size_is ein (rows X) (fm * fs) ->
  exists q2 eout, lrn_backward junk q ein bp = Ok (q2, eout) /\ lrn_inv q2 /\ size_is eout (rows X) (fm * fs) /\
    forall b j, (b < rows X)%nat -> (j < fm * fs)%nat ->
      at_ eout b j =
        at_ X b j * rsum fm (fun i => if (Nat.leb (j / fs - b / 2) i && Nat.ltb i (Nat.min (fm - 1) (j / fs + b / 2)))%bool
                                      then let m := (i * fs + j mod fs)%nat in at_ (tmpOf X ein) (m mod rows X) (m / rows X) else 0)
        + at_ ein b j * Rpower (denomOf X b j) (- beta).
Proof.
  intros (I1 & I2 & I3 & I4 & I5 & I6 & I7 & I8 & I9) (Ex & Sy & Sd & F) HX He. unfold lrn_backward, lfmSize. rewrite I1, I2, I3, I5, I6.
  pose proof Sy as (Sy1 & _). rewrite Sy1, Ex.
  rewrite (mmap2_Ok _ _ _ (rows X) (fm * fs)) by auto. cbn [bind].
  rewrite (mmap2_Ok _ _ _ (rows X) (fm * fs)) by (try (split; reflexivity); destruct Sd; split; cbn; auto). cbn [bind].
  match goal with |- context [mlinear (mmap ?g ?m)] => set (tmp := mmap g m) end.
  assert (Ht : forall b j, (b < rows X)%nat -> (j < fm * fs)%nat -> at_ tmp b j = at_ (tmpOf X ein) b j).
  { intros b j Hb Hj. unfold tmp, tmpOf. cbn. destruct (F b j Hb Hj) as (F1 & F2). now rewrite F1, F2. }
  set (val := fun b j => at_ X b j * rsum fm (fun i => if (Nat.leb (j / fs - b / 2) i && Nat.ltb i (Nat.min (fm - 1) (j / fs + b / 2)))%bool
                                      then let m := (i * fs + j mod fs)%nat in at_ (tmpOf X ein) (m mod rows X) (m / rows X) else 0)
        + at_ ein b j * Rpower (denomOf X b j) (- beta)).
  match goal with |- context [for_ (rows X) ?bd ?s0] =>
    destruct (for_inv (fun b (e : mat) => size_is e (rows X) (fm * fs) /\ forall b' j, (b' < b)%nat -> (j < fm * fs)%nat -> at_ e b' j = val b' j) bd (rows X) s0)
      as (e & E & Hsz & Hg) end.
  - split; [split; auto|]. intros; lia.
  - intros b st Hb (Hsz & Hg).
    match goal with |- context [cells fm rows_ cols_ ?bd ?s0] =>
      destruct (cells_inv (fun m (e : mat) => size_is e (rows X) (fm * fs) /\ forall b' j, (b' < b \/ b' = b /\ j < m)%nat -> (j < fm * fs)%nat -> at_ e b' j = val b' j)
        fm rows_ cols_ bd s0) as (st' & E & Hsz' & Hg') end.
    + split; auto. intros b' j [H|[_ H]] Hj; [auto|lia].
    + clear st Hsz Hg. intros o r c e Ho Hr Hc ((D1 & D2) & Hg).
      set (p := (r * cols_ + c)%nat). assert (Hp : (p < fs)%nat) by (unfold p; nia).
      replace (o * fs + r * cols_ + c)%nat with (o * fs + p)%nat in * by (unfold p; lia).
      assert (Hj : (o * fs + p < fm * fs)%nat) by nia. destruct (split_index fs o p Hp) as (S1 & S2).
      rewrite (window_ok fm o b _ (fun i => let m := (i * fs + p)%nat in at_ (tmpOf X ein) (m mod rows X) (m / rows X))).
      2: lia.
      2:{ intros i acc Hi. replace (i * fs + r * cols_ + c)%nat with (i * fs + p)%nat by (unfold p; lia). unfold mlinear.
          assert (St : size_is tmp (rows X) (fm * fs)) by (split; reflexivity). destruct St as (St1 & St2). rewrite St1.
          destruct (Nat.eqb_spec (rows X) 0) as [Q|Q]; [lia|].
          assert (M1 : ((i * fs + p) mod rows X < rows X)%nat) by (apply Nat.mod_upper_bound; lia).
          assert (M2 : ((i * fs + p) / rows X < fm * fs)%nat).
          { apply Nat.div_lt_upper_bound; [lia|]. nia. }
          rewrite mget_Ok by lia. cbn [bind]. now rewrite Ht. }
      cbn [bind]. destruct He as (He1 & He2). rewrite mget_Ok by lia. cbn [bind]. rewrite mget_Ok by lia. cbn [bind]. destruct Sd as (Sd1 & Sd2).
      rewrite mget_Ok by lia. cbn [bind]. destruct (F b (o * fs + p)%nat Hb Hj) as (F1 & F2). rewrite F1. rewrite pow_ok by apply denom_pos. cbn [bind].
      rewrite mset_Ok by lia. eexists. split; [reflexivity|]. split; [split; cbn; auto|]. intros b' j H Hj'. rewrite !at_mupd.
      destruct (Nat.eqb_spec b' b) as [->|Nb]; cbn [andb].
      * destruct (Nat.eqb_spec j (o * fs + p)) as [->|Nj]; [unfold val; now rewrite S1, S2|]. apply Hg; auto. lia.
      * apply Hg; auto. lia.
    + exists st'. split; auto. split; auto. intros b' j H Hj. apply Hg'; auto. lia.
  - rewrite E. cbn [bind]. eexists _, _. split; [reflexivity|]. split.
    + unfold lrn_inv. cbn. destruct Hsz. auto 12.
    + split; auto.
Qed.
End LRN.

