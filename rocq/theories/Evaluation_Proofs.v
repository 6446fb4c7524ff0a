(** Proofs about the evaluation functions. *)
From Verif Require Import BaseFacts DataSet_Model DataSet_Spec DataSet_Proofs Evaluation_Model Evaluation_Spec.
Local Open Scope R_scope.

Lemma nth_error_lt {A} (l : list A) i : (i < length l)%nat -> exists a, nth_error l i = Some a.
Proof.
  intros H. destruct (nth_error l i) eqn:E; eauto. apply nth_error_None in E. lia.
Qed.

Lemma maxCoeff_ok v : (0 < length v)%nat -> exists i, maxCoeff v = Ok i /\ first_largest v i.
Proof.
  intros H. unfold maxCoeff.
  destruct (vget_Ok v 0 H) as (x0 & E0 & N0). rewrite E0. simpl.
  destruct (for_from_inv
    (fun k (s : R * nat) => nth_error v (snd s) = Some (fst s) /\
       (forall j y, (j < k)%nat -> nth_error v j = Some y -> y <= fst s) /\
       (forall j y, (j < snd s)%nat -> nth_error v j = Some y -> y < fst s))
    (fun i s => x <- vget v i ;; Ok (if Rltb (fst s) x then (x, i) else s))
    (length v - 1) 1 (x0, 0%nat)) as (s & E & I1 & I2 & I3).
  - simpl. repeat split; auto.
    + intros j y Hj. replace j with 0%nat by lia. intros; assert (y = x0) by congruence. subst; lra.
    + intros; lia.
  - intros i s Hi (I1 & I2 & I3). destruct (vget_Ok v i) as (x & E & Nx); [lia|]. rewrite E. simpl.
    destruct (Rltb (fst s) x) eqn:C; eexists; (split; [reflexivity|]); simpl.
    + apply Rltb_true in C. repeat split; auto.
      * intros j y Hj Ny. destruct (Nat.eq_dec j i) as [->|].
        -- assert (y = x) by congruence. lra.
        -- assert (y <= fst s) by (apply (I2 j); auto; lia). lra.
      * intros j y Hj Ny. assert (y <= fst s) by (apply (I2 j); auto). lra.
    + apply Rltb_false in C. repeat split; auto.
      intros j y Hj Ny. destruct (Nat.eq_dec j i) as [->|].
      * assert (y = x) by congruence. lra.
      * apply (I2 j); auto; lia.
  - rewrite E. destruct s as [x i]. simpl in *. exists i. split; auto. exists x.
    repeat split; auto. intros j y Ny. apply (I2 j); auto.
    assert (j < length v)%nat by (apply nth_error_Some; congruence). lia.
Qed.

Lemma first_largest_fun v i j : first_largest v i -> first_largest v j -> i = j.
Proof.
  intros (x & Nx & Lx & Fx) (y & Ny & Ly & Fy).
  destruct (Nat.lt_trichotomy i j) as [H|[H|H]]; auto.
  - specialize (Fy _ _ H Nx). specialize (Lx _ _ Ny). lra.
  - specialize (Fx _ _ H Ny). specialize (Ly _ _ Nx). lra.
Qed.

Lemma decoding_ok v : (0 < length v)%nat -> exists c, oneOfCDecoding v = Ok c /\ class_of v c.
Proof.
  intros H. unfold oneOfCDecoding. destruct v as [|x [|y v]]; [simpl in H; lia| |].
  - simpl. eexists. split; [reflexivity|]. simpl. destruct (Rleb (/2) x) eqn:C.
    + apply Rleb_true in C. auto.
    + apply Rleb_false in C. auto.
  - simpl Nat.eqb. cbn [length Nat.eqb]. destruct (maxCoeff_ok (x :: y :: v) H) as (i & E & F).
    exists i. split; auto.
Qed.

Lemma class_of_fun v i j : class_of v i -> class_of v j -> i = j.
Proof.
  unfold class_of. destruct v as [|x [|y v]]; try apply first_largest_fun.
  intros [[? ->]|[? ->]] [[? ->]|[? ->]]; auto; lra.
Qed.

Lemma class_of_large v C c : length v = C -> (2 <= C)%nat -> class_of v c -> first_largest v c /\ (c < C)%nat.
Proof.
  intros L H K. destruct v as [|x [|y v]]; simpl in L; try lia.
  split; auto. destruct K as (z & Nz & _). rewrite <- L.
  assert (c < length (x :: y :: v))%nat by (apply nth_error_Some; congruence). auto.
Qed.

(** loops over a data set are loops over its rows *)
Lemma for_rows {St} (body : nat -> St -> res St) (body' : vec * vec -> St -> res St) rows : forall from s,
  (forall i r s, nth_error rows i = Some r -> body (from + i)%nat s = body' r s) ->
  for_from from (length rows) body s = for_each rows body' s.
Proof.
  induction rows as [|r rows IH]; intros from s H; simpl; auto.
  rewrite <- (H 0%nat r s eq_refl), Nat.add_0_r.
  destruct (body from s) as [s1| | | |]; simpl; auto.
  apply IH. intros i r' s' Hr. rewrite <- (H (S i) r' s' Hr). f_equal. lia.
Qed.

Lemma for_source {St} ds rows (body : nat -> St -> res St) (body' : vec * vec -> St -> res St) s :
  shows ds rows ->
  (forall i r s, nth_error rows i = Some r ->
     srcInstance ds i = Ok (fst r) -> srcTarget ds i = Ok (snd r) -> body i s = body' r s) ->
  for_ (srcSamples ds) body s = for_each rows body' s.
Proof.
  intros [HN HR] H. unfold for_. rewrite HN. apply for_rows.
  intros i r s' Hr. destruct (HR i r Hr). apply H; auto.
Qed.

(** classes exist *)
Lemma classes_exist learner rows :
  Forall (fun r => (0 < length (snd r))%nat /\ (0 < length (learner (fst r)))%nat) rows ->
  exists ts ps, target_classes rows ts /\ predicted_classes learner rows ps /\
    Forall2 (fun r c => oneOfCDecoding (snd r) = Ok c) rows ts /\
    Forall2 (fun r c => oneOfCDecoding (learner (fst r)) = Ok c) rows ps.
Proof.
  induction 1 as [|r rows [H1 H2] F (ts & ps & T & P & DT & DP)].
  - exists [], []. repeat split; constructor.
  - destruct (decoding_ok _ H1) as (t & E1 & K1). destruct (decoding_ok _ H2) as (p & E2 & K2).
    exists (t :: ts), (p :: ps). repeat split; constructor; auto.
Qed.

Lemma dimensions_pos learner rows C : (0 < C)%nat -> dimensions learner rows C ->
  Forall (fun r => (0 < length (snd r))%nat /\ (0 < length (learner (fst r)))%nat) rows.
Proof. intros H. apply Forall_impl. intros r [-> ->]. auto. Qed.

Lemma decodings_classes learner rows ts ps :
  target_classes rows ts -> predicted_classes learner rows ps ->
  Forall (fun r => (0 < length (snd r))%nat /\ (0 < length (learner (fst r)))%nat) rows ->
  Forall2 (fun r c => oneOfCDecoding (snd r) = Ok c) rows ts /\
  Forall2 (fun r c => oneOfCDecoding (learner (fst r)) = Ok c) rows ps.
Proof.
  intros T P F. revert ts ps T P. induction F as [|r rows [H1 H2] F IH]; intros ts ps T P;
    inversion T as [|r1 t1 l1 l2 K1 T']; inversion P as [|r2 p2 l3 l4 K2 P']; subst.
  - split; constructor.
  - destruct (IH _ _ T' P') as [A B].
    destruct (decoding_ok _ H1) as (t & E1 & Q1). destruct (decoding_ok _ H2) as (p & E2 & Q2).
    rewrite (class_of_fun _ _ _ K1 Q1), (class_of_fun _ _ _ K2 Q2).
    split; constructor; auto.
Qed.

Lemma number_cons P t ts p ps :
  number P (t :: ts) (p :: ps) = ((if P t p then 1 else 0) + number P ts ps)%nat.
Proof. unfold number. simpl. destruct (P t p); reflexivity. Qed.

(** ** hits *)
Lemma hits_ok learner ds rows C ts ps :
  shows ds rows -> srcOutputs ds = C -> (2 <= C)%nat -> dimensions learner rows C ->
  target_classes rows ts -> predicted_classes learner rows ps ->
  classificationHits learner ds = Ok (number Nat.eqb ts ps).
Proof.
  intros Sh HC H2 D T P. unfold classificationHits. rewrite HC.
  rewrite (proj2 (Nat.leb_le 2 C) H2).
  erewrite for_source with (body' := fun r hits =>
    klass <- maxCoeff (snd r) ;; result <- maxCoeff (learner (fst r)) ;;
    Ok (if Nat.eqb klass result then S hits else hits)); [|exact Sh|].
  2: { intros i r s _ -> ->. simpl. destruct (maxCoeff (snd r)); simpl; auto.
       destruct (maxCoeff (learner (fst r))); simpl; auto. }
  replace (number Nat.eqb ts ps) with (0 + number Nat.eqb ts ps)%nat by lia.
  generalize 0%nat as acc. clear Sh. revert ts ps T P.
  induction D as [|r rows [L1 L2] D IH]; intros ts ps T P acc;
    inversion T as [|r1 t l1 ts' K1 T']; inversion P as [|r2 p l3 ps' K2 P']; subst; simpl.
  - f_equal. unfold number; simpl; lia.
  - destruct (class_of_large _ _ _ L1 H2 K1) as [F1 _].
    destruct (class_of_large _ _ _ L2 H2 K2) as [F2 _].
    destruct (maxCoeff_ok (snd r)) as (i & E1 & G1); [lia|].
    destruct (maxCoeff_ok (learner (fst r))) as (j & E2 & G2); [lia|].
    rewrite E1, E2. simpl. rewrite (first_largest_fun _ _ _ G1 F1), (first_largest_fun _ _ _ G2 F2).
    rewrite (IH ts' ps' T' P'), number_cons. f_equal. destruct (Nat.eqb t p); lia.
Qed.

(** ** accuracy *)
Lemma accuracy_ok learner ds rows ts ps :
  shows ds rows ->
  Forall (fun r => (0 < length (snd r))%nat /\ (0 < length (learner (fst r)))%nat) rows ->
  target_classes rows ts -> predicted_classes learner rows ps ->
  accuracy learner ds = Ok (INR (number Nat.eqb ts ps) / INR (length rows)).
Proof.
  intros Sh F T P. unfold accuracy. destruct (decodings_classes _ _ _ _ T P F) as [DT DP].
  erewrite for_source with (body' := fun r acc =>
    c <- oneOfCDecoding (learner (fst r)) ;; k <- oneOfCDecoding (snd r) ;;
    Ok (acc + (if Nat.eqb c k then 1 else 0))); [|exact Sh|].
  2: { intros i r s _ -> ->. simpl. reflexivity. }
  assert (G : forall rows ts ps acc,
    Forall2 (fun r c => oneOfCDecoding (snd r) = Ok c) rows ts ->
    Forall2 (fun r c => oneOfCDecoding (learner (fst r)) = Ok c) rows ps ->
    for_each rows (fun r acc => c <- oneOfCDecoding (learner (fst r)) ;; k <- oneOfCDecoding (snd r) ;;
      Ok (acc + (if Nat.eqb c k then 1 else 0))) acc = Ok (acc + INR (number Nat.eqb ts ps))).
  { clear. induction rows as [|r rows IH]; intros ts ps acc A B;
      inversion A as [|r1 t l1 ts' K1 T']; inversion B as [|r2 p l3 ps' K2 P']; subst; simpl.
    - f_equal. unfold number; simpl; lra.
    - rewrite K1, K2. simpl. rewrite (IH ts' ps') by auto. f_equal.
      rewrite number_cons, plus_INR, (Nat.eqb_sym p t). destruct (Nat.eqb t p); simpl; lra. }
  rewrite (G rows ts ps 0 DT DP). simpl. f_equal. destruct Sh as [-> _]. f_equal. lra.
Qed.

Lemma number_le P ts ps : (number P ts ps <= length ts)%nat.
Proof.
  unfold number. transitivity (length (combine ts ps)).
  - generalize (combine ts ps) as l. induction l as [|x l IH]; simpl; auto.
    destruct (P (fst x) (snd x)); simpl; lia.
  - rewrite combine_length. lia.
Qed.

Lemma ratio_unit k n : (k <= n)%nat -> (0 < n)%nat -> 0 <= INR k / INR n <= 1.
Proof.
  intros H1 H2. assert (0 < INR n) by now apply lt_0_INR.
  assert (0 <= INR k) by apply pos_INR. apply le_INR in H1. split.
  - apply Rmult_le_pos; auto. left. now apply Rinv_0_lt_compat.
  - apply Rmult_le_reg_r with (INR n); auto. unfold Rdiv. rewrite Rmult_assoc, Rinv_l by lra. lra.
Qed.

(** ** confusion matrix *)
Definition shape (C : nat) (m : list (list nat)) : Prop :=
  length m = C /\ forall row, In row m -> length row = C.

Lemma shape_row C m i : shape C m -> (i < C)%nat -> length (nth i m []) = C.
Proof. intros [L H] Hi. apply H. apply nth_In. lia. Qed.

Lemma In_upd {A} (l : list A) i a x : In x (upd l i a) -> x = a \/ In x l.
Proof.
  revert i; induction l as [|y l IH]; intros [|i]; simpl; auto.
  - intros [<-|H]; auto.
  - intros [<-|H]; auto. destruct (IH _ H); auto.
Qed.

Lemma mincr_ok C m i j : shape C m -> (i < C)%nat -> (j < C)%nat ->
  exists m', mincr m i j = Ok m' /\ shape C m' /\
    forall a b, entry m' a b = (entry m a b + (if Nat.eqb i a && Nat.eqb j b then 1 else 0))%nat.
Proof.
  intros Sm Hi Hj. pose proof (shape_row _ _ _ Sm Hi) as Lr. destruct Sm as [Lm Hm].
  unfold mincr. rewrite (vget_nth m i []) by lia. simpl.
  rewrite (vget_nth (nth i m []) j 0%nat) by lia. simpl. rewrite vset_Ok by lia. simpl.
  rewrite vset_Ok by lia. eexists. split; [reflexivity|]. split.
  - split; [now rewrite upd_length|]. intros row Hr. apply In_upd in Hr. destruct Hr as [->|Hr]; auto.
    now rewrite upd_length.
  - intros a b. unfold entry. rewrite nth_upd by lia.
    destruct (Nat.eqb_spec i a) as [->|Na]; simpl; [|lia].
    rewrite nth_upd by lia. destruct (Nat.eqb_spec j b) as [->|Nb]; lia.
Qed.

Lemma confusion_entries learner ds rows C ts ps :
  shows ds rows -> srcOutputs ds = C -> (2 <= C)%nat -> dimensions learner rows C ->
  target_classes rows ts -> predicted_classes learner rows ps ->
  exists m, confusionMatrix learner ds = Ok m /\ shape C m /\
    forall i j, entry m i j = number (fun t p => Nat.eqb t i && Nat.eqb p j) ts ps.
Proof.
  intros Sh HC H2 D T P. unfold confusionMatrix. rewrite HC.
  destruct (decodings_classes _ _ _ _ T P (dimensions_pos _ _ C ltac:(lia) D)) as [DT DP].
  erewrite for_source with (body' := fun r m =>
    k <- oneOfCDecoding (snd r) ;; c <- oneOfCDecoding (learner (fst r)) ;; mincr m k c); [|exact Sh|].
  2: { intros i r s _ -> ->. simpl. reflexivity. }
  assert (G : forall m0, shape C m0 -> exists m,
     for_each rows (fun r m => k <- oneOfCDecoding (snd r) ;; c <- oneOfCDecoding (learner (fst r)) ;; mincr m k c) m0
       = Ok m /\ shape C m /\
     forall i j, entry m i j = (entry m0 i j + number (fun t p => Nat.eqb t i && Nat.eqb p j) ts ps)%nat).
  { clear Sh. revert ts ps T P DT DP. induction D as [|r rows [L1 L2] D IH]; intros ts ps T P DT DP m0 Sm;
    inversion T as [|r1 t l1 ts' K1 T']; inversion P as [|r2 p l3 ps' K2 P']; subst;
    inversion DT as [|r3 t3 l5 l6 E1 DT']; inversion DP as [|r4 t4 l7 l8 E2 DP']; subst; simpl.
    - exists m0. repeat split; try apply Sm. intros; unfold number; simpl; lia.
    - rewrite E1, E2. simpl.
      destruct (class_of_large _ _ _ L1 H2 K1) as [_ Ht].
      destruct (class_of_large _ _ _ L2 H2 K2) as [_ Hp].
      destruct (mincr_ok _ m0 t p Sm Ht Hp) as (m1 & -> & S1 & I1). simpl.
      destruct (IH ts' ps' T' P' DT' DP' m1 S1) as (m & Em & S2 & I2). exists m. repeat split; auto; try apply S2.
      intros i j. rewrite I2, I1, number_cons. destruct (Nat.eqb t i && Nat.eqb p j); lia. }
  destruct (G (repeat (repeat 0%nat C) C)) as (m & E & Sm & I).
  - split; [apply repeat_length|]. intros row Hr. apply repeat_spec in Hr. subst. apply repeat_length.
  - exists m. repeat split; auto; try apply Sm. intros i j. rewrite I.
    assert (Z : entry (repeat (repeat 0%nat C) C) i j = 0%nat); [|lia].
    unfold entry. destruct (Nat.lt_ge_cases i C) as [L|L].
    + assert (X : nth i (repeat (repeat 0%nat C) C) [] = repeat 0%nat C).
      { apply (repeat_spec C). apply nth_In. now rewrite repeat_length. }
      rewrite X. apply nth_repeat.
    + rewrite nth_overflow with (l := repeat (repeat 0%nat C) C) by now rewrite repeat_length. now destruct j.
Qed.

Lemma sum_below_ext n f g : (forall i, (i < n)%nat -> f i = g i) -> sum_below n f = sum_below n g.
Proof.
  intros H. unfold sum_below. f_equal. apply map_ext_in. intros i Hi. apply H. apply in_seq in Hi. lia.
Qed.

Lemma sum_below_S n f : sum_below (S n) f = (sum_below n f + f n)%nat.
Proof.
  unfold sum_below. rewrite seq_S, map_app, list_sum_app. simpl. lia.
Qed.

Lemma sum_below_plus n f g : sum_below n (fun i => f i + g i)%nat = (sum_below n f + sum_below n g)%nat.
Proof. induction n as [|n IH]; [reflexivity|]. rewrite !sum_below_S, IH. lia. Qed.

Lemma sum_below_zero n f : (forall i, (i < n)%nat -> f i = 0%nat) -> sum_below n f = 0%nat.
Proof.
  induction n as [|n IH]; intros H; [reflexivity|]. rewrite sum_below_S, IH, H; auto.
Qed.

Lemma sum_below_one n f k : (k < n)%nat -> (forall i, (i < n)%nat -> i <> k -> f i = 0%nat) ->
  sum_below n f = f k.
Proof.
  revert k. induction n as [|n IH]; intros k Hk H; [lia|]. rewrite sum_below_S.
  destruct (Nat.eq_dec k n) as [->|N].
  - rewrite sum_below_zero; auto. intros i Hi. apply H; lia.
  - rewrite (IH k) by (auto; lia). rewrite (H n) by lia. lia.
Qed.

Lemma list_sum_below l n : length l = n -> list_sum l = sum_below n (fun i => nth i l 0%nat).
Proof.
  intros <-. induction l as [|x l IH]; [reflexivity|]. simpl. rewrite IH. unfold sum_below. simpl.
  f_equal. rewrite <- seq_shift, map_map. reflexivity.
Qed.

Lemma number_sum C (P : nat -> nat -> nat -> bool) (Q : nat -> nat -> bool) ts ps :
  (forall t p, In t ts -> In p ps -> (if Q t p then 1 else 0)%nat = sum_below C (fun i => if P i t p then 1 else 0)%nat) ->
  sum_below C (fun i => number (P i) ts ps) = number Q ts ps.
Proof.
  revert ps. induction ts as [|t ts IH]; intros [|p ps] H; try (apply sum_below_zero; reflexivity).
  rewrite number_cons, (H t p); try (left; reflexivity).
  rewrite <- (IH ps) by (intros; apply H; right; auto).
  rewrite <- sum_below_plus. apply sum_below_ext. intros. apply number_cons.
Qed.

Lemma classes_bound learner rows C ts ps :
  (2 <= C)%nat -> dimensions learner rows C ->
  target_classes rows ts -> predicted_classes learner rows ps ->
  (forall t, In t ts -> (t < C)%nat) /\ (forall p, In p ps -> (p < C)%nat) /\
  length ts = length rows /\ length ps = length rows.
Proof.
  intros H2 D. revert ts ps. induction D as [|r rows [L1 L2] D IH]; intros ts ps T P;
    inversion T as [|r1 t l1 ts' K1 T']; inversion P as [|r2 p l3 ps' K2 P']; subst ts ps; simpl.
  - repeat split; auto; intros ? [].
  - destruct (class_of_large _ _ _ L1 H2 K1) as [_ Ht].
    destruct (class_of_large _ _ _ L2 H2 K2) as [_ Hp].
    destruct (IH ts' ps' T' P') as (A & B & E1 & E2).
    split; [intros x [<-|Hx]; auto|]. split; [intros x [<-|Hx]; auto|]. lia.
Qed.

Lemma confusion_ok learner ds rows C :
  shows ds rows -> srcOutputs ds = C -> (2 <= C)%nat -> dimensions learner rows C ->
  exists m hits ts ps,
    confusionMatrix learner ds = Ok m /\ classificationHits learner ds = Ok hits /\
    target_classes rows ts /\ predicted_classes learner rows ps /\
    length m = C /\ (forall row, In row m -> length row = C) /\
    (forall i j, (i < C)%nat -> (j < C)%nat ->
       entry m i j = number (fun t p => Nat.eqb t i && Nat.eqb p j) ts ps) /\
    sum_below C (fun i => sum_below C (fun j => entry m i j)) = length rows /\
    sum_below C (fun i => entry m i i) = hits /\
    (forall i, (i < C)%nat -> sum_below C (fun j => entry m i j) = count_occ Nat.eq_dec ts i) /\
    ((0 < length rows)%nat ->
       accuracy learner ds = Ok (INR hits / INR (length rows)) /\
       0 <= INR hits / INR (length rows) <= 1).
Proof.
  intros Sh HC H2 D.
  destruct (classes_exist _ _ (dimensions_pos _ _ C ltac:(lia) D)) as (ts & ps & T & P & _ & _).
  destruct (confusion_entries _ _ _ _ _ _ Sh HC H2 D T P) as (m & Em & [Lm Hm] & I).
  destruct (classes_bound _ _ _ _ _ H2 D T P) as (Bt & Bp & Lt & Lp).
  assert (Row : forall i, (i < C)%nat -> sum_below C (fun j => entry m i j) = count_occ Nat.eq_dec ts i).
  { intros i Hi. rewrite (sum_below_ext _ _ (fun j => number (fun t p => Nat.eqb t i && Nat.eqb p j) ts ps)) by auto.
    rewrite (number_sum C (fun j t p => Nat.eqb t i && Nat.eqb p j)%bool (fun t (p : nat) => Nat.eqb t i)).
    - assert (LL : length ts = length ps) by lia. clear - LL.
      revert ps LL. induction ts as [|t ts IH]; intros [|p ps] L; simpl in L; try lia; auto.
      rewrite number_cons, IH by lia. simpl. destruct (Nat.eqb_spec t i), (Nat.eq_dec t i); simpl; lia.
    - intros t p Ht Hp. rewrite (sum_below_one C _ p); auto.
      + now rewrite Nat.eqb_refl, andb_true_r.
      + intros j Hj Nj. destruct (Nat.eqb_spec p j); [congruence|]. now rewrite andb_false_r. }
  exists m, (number Nat.eqb ts ps), ts, ps.
  split; [auto|]. split; [eapply hits_ok; eauto|]. split; [auto|]. split; [auto|]. split; [auto|]. split; [auto|]. split; [auto|].
  split; [|split; [|split; [auto|]]].
  - rewrite (sum_below_ext _ _ (fun i => number (fun t (p : nat) => Nat.eqb t i) ts ps)).
    + rewrite (number_sum C (fun i t (p : nat) => Nat.eqb t i) (fun _ _ => true)).
      * unfold number.
        assert (F : forall l : list (nat * nat), filter (fun _ => true) l = l).
        { induction l; simpl; congruence. }
        rewrite F, combine_length. lia.
      * intros t p Ht Hp. rewrite (sum_below_one C _ t); auto; [now rewrite Nat.eqb_refl|].
        intros i Hi Ni. destruct (Nat.eqb_spec t i); congruence.
    + intros i Hi. rewrite Row by auto. assert (LL : length ts = length ps) by lia. clear - LL.
      revert ps LL. induction ts as [|t ts IH]; intros [|p ps] L; simpl in L; try lia; auto.
      rewrite number_cons, <- IH by lia. simpl. destruct (Nat.eqb_spec t i), (Nat.eq_dec t i); simpl; lia.
  - rewrite (sum_below_ext _ _ (fun i => number (fun t p => Nat.eqb t i && Nat.eqb p i) ts ps)) by auto.
    rewrite (number_sum C (fun i t p => Nat.eqb t i && Nat.eqb p i)%bool Nat.eqb); auto.
    intros t p Ht Hp. rewrite (sum_below_one C _ t); auto.
    + rewrite Nat.eqb_refl. simpl. now rewrite Nat.eqb_sym.
    + intros i Hi Ni. destruct (Nat.eqb_spec t i); [congruence|reflexivity].
  - intros Hn. split.
    + apply accuracy_ok; auto. eapply dimensions_pos; [|eauto]. lia.
    + apply ratio_unit; auto. rewrite <- Lt. apply number_le.
Qed.

(** ** one output *)
Lemma confusion_single learner ds rows : 
  shows ds rows -> srcOutputs ds = 1%nat -> dimensions learner rows 1 ->
  (exists r y, In r rows /\ ((snd r = [y] \/ learner (fst r) = [y]) /\ / 2 <= y)) ->
  confusionMatrix learner ds = UB.
Proof.
  intros Sh HC D Ex. unfold confusionMatrix. rewrite HC. simpl.
  erewrite for_source with (body' := fun r m =>
    k <- oneOfCDecoding (snd r) ;; c <- oneOfCDecoding (learner (fst r)) ;; mincr m k c); [|exact Sh|].
  2: { intros i r s _ -> ->. simpl. reflexivity. }
  assert (G : forall x, for_each rows (fun r m => k <- oneOfCDecoding (snd r) ;;
     c <- oneOfCDecoding (learner (fst r)) ;; mincr m k c) [[x]] = UB).
  { clear Sh. induction D as [|r rows [L1 L2] D IH]; intros x; [destruct Ex as (r & y & [] & _)|].
    simpl. destruct (snd r) as [|t [|]] eqn:Et; simpl in L1; try lia.
    destruct (learner (fst r)) as [|p [|]] eqn:Ep; simpl in L2; try lia.
    unfold oneOfCDecoding. simpl.
    destruct (Rleb (/2) t) eqn:Ct; simpl; [reflexivity|].
    destruct (Rleb (/2) p) eqn:Cp; simpl; [reflexivity|].
    apply IH. apply Rleb_false in Ct. apply Rleb_false in Cp.
    destruct Ex as (r' & y & [<-|Hin] & Hy & Ly); [|eauto].
    exfalso. rewrite Et, Ep in Hy. destruct Hy as [Hy|Hy]; inversion Hy; lra. }
  apply G.
Qed.

(** ** weighted accuracy *)
Lemma weighted_ok learner ds rows ts ps ws :
  shows ds rows ->
  Forall (fun r => (0 < length (snd r))%nat /\ (0 < length (learner (fst r)))%nat) rows ->
  target_classes rows ts -> predicted_classes learner rows ps -> length ws = length rows ->
  weightedAccuracy learner ds ws = Ok (dot ws (map (fun p => Nat.eqb (fst p) (snd p)) (combine ts ps))).
Proof.
  intros [HN HR] F T P LW. destruct (decodings_classes _ _ _ _ T P F) as [DT DP].
  unfold weightedAccuracy, for_. rewrite HN.
  set (bs := map (fun p => Nat.eqb (fst p) (snd p)) (combine ts ps)).
  assert (Lts : length ts = length rows) by (symmetry; eapply Forall2_length; eauto).
  assert (Lps : length ps = length rows) by (symmetry; eapply Forall2_length; eauto).
  (* generalise over a suffix *)
  assert (G : forall n pre suf preW acc,
    length preW = n -> length pre = n -> rows = pre ++ suf ->
    forall tsuf psuf wsuf,
    Forall2 (fun r c => oneOfCDecoding (snd r) = Ok c) suf tsuf ->
    Forall2 (fun r c => oneOfCDecoding (learner (fst r)) = Ok c) suf psuf ->
    ws = preW ++ wsuf -> length wsuf = length suf ->
    for_from n (length suf) (fun n acc =>
      x <- srcInstance ds n ;; c <- oneOfCDecoding (learner x) ;;
      t <- srcTarget ds n ;; k <- oneOfCDecoding t ;;
      if Nat.eqb c k then (w <- vget ws n ;; Ok (acc + w)) else Ok acc) acc =
    Ok (acc + dot wsuf (map (fun p => Nat.eqb (fst p) (snd p)) (combine tsuf psuf)))).
  { intros n pre suf. revert n pre. induction suf as [|r suf IH]; intros n pre preW acc Lw Lp Er tsuf psuf wsuf A B Ew Ll;
      inversion A as [|r1 t l1 ts' K1 T']; inversion B as [|r2 p l3 ps' K2 P']; subst.
    - destruct wsuf; simpl in *; [|discriminate]. f_equal. lra.
    - destruct wsuf as [|w wsuf]; simpl in Ll; [discriminate|]. simpl length. cbn [for_from].
      destruct (HR (length preW) r) as [-> ->].
      { rewrite <- Lp, nth_error_app2, Nat.sub_diag; auto. }
      simpl. rewrite K2. simpl. rewrite K1. simpl.
      assert (Ew : vget (preW ++ w :: wsuf) (length preW) = Ok w).
      { unfold vget. rewrite nth_error_app2, Nat.sub_diag; auto. }
      assert (Hs : forall acc', for_from (S (length preW)) (length suf) (fun n acc =>
        x <- srcInstance ds n ;; c <- oneOfCDecoding (learner x) ;;
        t <- srcTarget ds n ;; k <- oneOfCDecoding t ;;
        if Nat.eqb c k then (w0 <- vget (preW ++ w :: wsuf) n ;; Ok (acc + w0)) else Ok acc) acc' =
        Ok (acc' + dot wsuf (map (fun p => Nat.eqb (fst p) (snd p)) (combine ts' ps')))).
      { intros acc'. apply IH with (pre := pre ++ [r]) (preW := preW ++ [w]); auto.
        - rewrite app_length. simpl. lia.
        - rewrite app_length. simpl. lia.
        - rewrite <- app_assoc. reflexivity.
        - rewrite <- app_assoc. reflexivity. }
      rewrite (Nat.eqb_sym p t). destruct (Nat.eqb t p); simpl.
      + rewrite Ew. simpl. rewrite Hs. f_equal. lra.
      + rewrite Hs. f_equal. lra. }
  specialize (G 0%nat [] rows [] 0 eq_refl eq_refl eq_refl ts ps ws DT DP eq_refl LW).
  simpl in G. rewrite G. f_equal. unfold bs. lra.
Qed.

Lemma dot_bounds ws bs : Forall (fun w => 0 <= w) ws -> 0 <= dot ws bs <= fold_right Rplus 0 ws.
Proof.
  intros F. revert bs. induction F as [|w ws Hw F IH]; intros bs; [destruct bs; simpl; lra|].
  assert (0 <= fold_right Rplus 0 ws) by (destruct (IH []); destruct ws; simpl in *; lra).
  destruct bs as [|b bs]; simpl; [lra|]. destruct (IH bs). destruct b; lra.
Qed.

Lemma dot_uniform n bs : length bs = n ->
  dot (repeat (/ INR n) n) bs = INR (length (filter (fun b => b) bs)) / INR n.
Proof.
  intros <-.
  assert (G : forall c bs, dot (repeat c (length bs)) bs = INR (length (filter (fun b => b) bs)) * c).
  { intros c bs0. induction bs0 as [|b bs0 IH]; [simpl; lra|]. cbn [length repeat dot filter]. rewrite IH.
    destruct b; cbn [length]; [rewrite S_INR|]; lra. }
  apply G.
Qed.

Lemma filter_map_number P ts ps :
  length (filter (fun b => b) (map (fun p => P (fst p) (snd p)) (combine ts ps))) = number P ts ps.
Proof.
  unfold number. generalize (combine ts ps) as l. induction l as [|x l IH]; simpl; auto.
  destruct (P (fst x) (snd x)); simpl; auto.
Qed.

(** ** sums of squared errors *)
Lemma vsub_sq a b : length a = length b ->
  exists d, vsub a b = Ok d /\ squaredNorm d = sq_dist a b.
Proof.
  intros L. unfold vsub. rewrite L, Nat.eqb_refl. simpl. eexists. split; [reflexivity|].
  unfold squaredNorm. revert b L. induction a as [|x a IH]; intros [|y b] L; simpl in *; try lia; auto.
  rewrite (IH b) by lia. reflexivity.
Qed.

Lemma sq_dist_nonneg a : forall b, 0 <= sq_dist a b.
Proof. induction a as [|x a IH]; intros [|y b]; simpl; try lra. specialize (IH b).
  pose proof (Rle_0_sqr (x - y)) as Q. unfold Rsqr in Q. lra. Qed.

Lemma sq_dist_zero a : forall b, length a = length b -> sq_dist a b = 0 <-> a = b.
Proof.
  induction a as [|x a IH]; intros [|y b] L; simpl in *; try lia; [tauto|].
  pose proof (sq_dist_nonneg a b). specialize (IH b ltac:(lia)).
  pose proof (Rle_0_sqr (x - y)) as Q. unfold Rsqr in Q. split; intros E.
  - assert (Z : (x - y) * (x - y) = 0) by lra. assert (sq_dist a b = 0) by lra.
    apply Rmult_integral in Z. f_equal; [lra|tauto].
  - inversion E; subst. rewrite (proj2 IH eq_refl). lra.
Qed.

Lemma sse_ok learner ds rows :
  shows ds rows -> Forall (fun r => length (learner (fst r)) = length (snd r)) rows ->
  sse learner ds = Ok (sum_rows (fun r => sq_dist (learner (fst r)) (snd r)) rows).
Proof.
  intros Sh F. unfold sse.
  erewrite for_source with (body' := fun r s =>
    d <- vsub (learner (fst r)) (snd r) ;; Ok (s + squaredNorm d)); [|exact Sh|].
  2: { intros i r s _ -> ->. simpl. reflexivity. }
  assert (G : forall acc, for_each rows (fun r s =>
    d <- vsub (learner (fst r)) (snd r) ;; Ok (s + squaredNorm d)) acc =
    Ok (acc + sum_rows (fun r => sq_dist (learner (fst r)) (snd r)) rows)).
  { clear Sh. induction F as [|r rows L F IH]; intros acc; simpl; [f_equal; lra|].
    destruct (vsub_sq _ _ L) as (d & -> & Ed). simpl. rewrite Ed, IH. f_equal. unfold sum_rows. lra. }
  rewrite (G 0). f_equal. lra.
Qed.

Lemma sum_rows_nonneg f rows : (forall r, 0 <= f r) -> 0 <= sum_rows f rows.
Proof. intros H. unfold sum_rows. induction rows as [|r rows IH]; simpl; [lra|]. specialize (H r). lra. Qed.

Lemma sse_zero (learner : vec -> vec) (rows : list (vec * vec)) :
  Forall (fun r => length (learner (fst r)) = length (snd r)) rows ->
  sum_rows (fun r => sq_dist (learner (fst r)) (snd r)) rows = 0 <->
  Forall (fun r => learner (fst r) = snd r) rows.
Proof.
  induction 1 as [|r rows L F IH]; [simpl; split; auto; constructor|]. cbn [sum_rows fold_right].
  pose proof (sum_rows_nonneg (fun r => sq_dist (learner (fst r)) (snd r)) rows
    (fun r => sq_dist_nonneg _ _)) as N.
  pose proof (sq_dist_nonneg (learner (fst r)) (snd r)). unfold sum_rows in *.
  pose proof (sq_dist_zero _ _ L) as Z.
  split; intros E.
  - constructor; [apply Z; lra|apply IH; lra].
  - inversion E as [|r' l' E1 E2]; subst. apply Z in E1. apply IH in E2. lra.
Qed.
