(** Properties of the ensembles (C69 - C72).  Vocabulary: Ensemble_Spec.v. *)
From Verif Require Import Base BaseFacts Matrix RSum MatOps Vec Acc DataSet_Model DataSet_Spec DataSet_Props Evaluation_Model Evaluation_Spec
  Evaluation_Proofs Ensemble_Model Ensemble_Spec Ensemble_Proofs.
Local Open Scope R_scope.

(** * C69: AdaBoost *)

Lemma uniform_distribution N : (0 < N)%nat -> distribution (repeat (1 / INR N) N).
Proof.
  intros HN. assert (HR : 0 < INR N) by now apply lt_0_INR. unfold distribution. rewrite repeat_length. split.
  - intros n Hn. rewrite nth_repeat_lt by auto. apply Rdiv_lt_0_compat; lra.
  - rewrite (rsum_ext _ _ (fun _ => 1 / INR N)) by (intros; now rewrite nth_repeat_lt). rewrite rsum_const. field. lra.
Qed.
Lemma nth_error_ext {A} (l l' : list A) : (forall t, nth_error l t = nth_error l' t) -> l = l'.
Proof.
  revert l'. induction l as [|x l IH]; intros [|y l'] E; auto.
  - specialize (E 0%nat). discriminate.
  - specialize (E 0%nat). discriminate.
  - pose proof (E 0%nat) as E0. injection E0 as <-. f_equal. apply IH. intros t. apply (E (S t)).
Qed.

Lemma train_rounds {L O} (predict : L -> vec -> vec) (optimize : source -> O -> L -> O * L)
    (a : adaBoost) (mem : list L) (o : O) ds rows :
  shows ds rows -> rows <> [] -> sound predict rows -> (forall m, In m (amodels a) -> (m < length mem)%nat) ->
  let N := length rows in
  exists mem' o' rs w',
    ada_train predict optimize a mem o ds =
      Ok (mkAda (amodels a) (map (fun v => odivide v (osumAll (map alphaOf rs))) (map alphaOf rs)) (srcOutputs ds), mem', o') /\
    boosting predict optimize (srcOutputs ds) rows (repeat (1 / INR N) N) mem o (amodels a) rs w' mem' o' /\
    length rs = length (amodels a).
Proof.
  intros Sh Hne Hs Hm N. pose proof Sh as (EN & _).
  assert (HN : (0 < N)%nat) by (unfold N; destruct rows; [contradiction|cbn; lia]).
  pose proof (uniform_distribution N HN) as Hd.
  unfold ada_train. rewrite EN. fold N.
  destruct (weightedSource_ok ds rows (repeat (1 / INR N) N) Sh) as (r & rows' & E1 & R1 & S1 & O1); [apply repeat_length|auto|].
  rewrite E1. cbn [bind].
  destruct (rounds_ok predict optimize ds rows (amodels a) Hs Sh Hne mem o (repeat (Some 0) (length (amodels a))) (repeat (1 / INR N) N) r 0)
    as (rs & mem' & o' & w' & r' & E & B & Lr).
  - split; [auto|]. split; [apply repeat_length|]. eauto.
  - auto.
  - now rewrite repeat_length.
  - rewrite E. cbn [bind firstn app]. exists mem', o', rs, w'. auto.
Qed.

(** Any learners, any optimizer.  [rs] are the rounds of boosting; model t gets the quality of round t,
    divided by the sum of all. *)
Theorem C69_training {L O} (predict : L -> vec -> vec) (optimize : source -> O -> L -> O * L)
    (a : adaBoost) (mem : list L) (o : O) ds rows :
  shows ds rows -> rows <> [] ->
  (forall r l, In r rows -> (0 < length (snd r))%nat /\ (0 < length (predict l (fst r)))%nat) ->
  (forall m, In m (amodels a) -> (m < length mem)%nat) ->
  let N := length rows in
  exists a' mem' o' rs w',
    ada_train predict optimize a mem o ds = Ok (a', mem', o') /\
    boosting predict optimize (srcOutputs ds) rows (repeat (1 / INR N) N) mem o (amodels a) rs w' mem' o' /\
    amodels a' = amodels a /\ aF a' = srcOutputs ds /\ length rs = length (amodels a) /\
    length (ada_getWeights a') = length rs /\
    let s := rsum (length rs) (fun t => quality (roundError (nth t rs (mkRound [] (fun _ => true))))) in
    (Forall (fun r => roundError r < 1) rs -> s <> 0 ->
     forall t r, nth_error rs t = Some r -> nth_error (ada_getWeights a') t = Some (Some (quality (roundError r) / s))).
Proof.
  intros Sh Hne Hs Hm N. destruct (train_rounds predict optimize a mem o ds rows Sh Hne Hs Hm) as (mem' & o' & rs & w' & E & B & Lr).
  eexists _, mem', o', rs, w'. split; [exact E|]. split; [exact B|].
  split; [reflexivity|]. split; [reflexivity|]. split; [auto|]. unfold ada_getWeights. cbn [aweights].
  split; [now rewrite !map_length|].
  set (s := rsum (length rs) _). intros He Hz t r0 Er.
    assert (Ea : map alphaOf rs = map (fun r => Some (quality (roundError r))) rs).
    { apply map_ext_in. intros r1 HI. unfold alphaOf. rewrite Forall_forall in He. destruct (Rlt_dec (roundError r1) 1); auto.
      exfalso. auto. }
    assert (Es : osumAll (map alphaOf rs) = Some s).
    { rewrite Ea. unfold s. clear. induction rs as [|r rs IH]; [reflexivity|]. cbn [map osumAll fold_right]. fold osumAll.
      unfold osumAll in IH. rewrite IH. cbn [length]. rewrite (rsum_app 1). cbn [rsum nth Nat.add]. f_equal. lra. }
    rewrite Es, Ea, map_map, nth_error_map, Er. cbn [option_map odivide]. now rewrite (proj2 (Reqb_false _ _)).
Qed.
Print Assumptions C69_training.

(** In every round the instance weights are positive and sum up to one, and the error is between 0 and 1. *)
Theorem C69_weights_are_distributions {L O} (predict : L -> vec -> vec) (optimize : source -> O -> L -> O * L) F rows w mem o ms rs w' mem' o' :
  rows <> [] -> distribution w -> length w = length rows ->
  boosting predict optimize F rows w mem o ms rs w' mem' o' ->
  Forall (fun r => distribution (roundWeights r) /\ length (roundWeights r) = length rows /\ 0 <= roundError r <= 1) rs /\
  distribution w' /\ length w' = length rows.
Proof.
  intros Hne Hd Lw B. assert (HN : (0 < length rows)%nat) by (destruct rows; [contradiction|cbn; lia]).
  induction B as [w mem o|w mem o m ms l rows' src o1 l1 hit w1 rs w' mem' o' El R Sh Eo E1 Hc Hw B IH].
  - auto.
  - assert (G : distribution w1 /\ length w1 = length rows).
    { destruct (Rlt_dec 0 (weightedError w hit)); [destruct (Rlt_dec (weightedError w hit) (/ 2))|]; try (subst w1; auto).
      split; [eapply reweighted_distribution; eauto; lia|]. destruct Hw. lia. }
    destruct G as (G1 & G2). destruct (IH G1 G2) as (A1 & A2). split; auto. constructor; auto. cbn. split; auto. split; auto.
    now apply error_bounds.
Qed.
Print Assumptions C69_weights_are_distributions.

(** What reweighting achieves.  Instances that were classified wrongly gain weight, the others lose weight, and
    the learner of the round would have an error of almost exactly 1/2 on the new weights. *)
Theorem C69_reweighting w hit w' :
  let e := weightedError w hit in
  distribution w -> 0 < e < / 2 - / 20000000000 -> reweighted w hit w' ->
  weightedError w' hit = e / (2 * e + / 10000000000) /\ weightedError w' hit < / 2 /\
  forall n, (n < length w)%nat -> if hit n then w'.[n] < w.[n] else w.[n] < w'.[n].
Proof.
  intros e Hd He Rw. assert (HN : (0 < length w)%nat).
  { destruct w; [|cbn; lia]. destruct Hd as (_ & Hs). cbn in Hs. lra. }
  pose proof eps_pos. assert (E2 : / 20000000000 = eps / 2) by field.
  assert (Q : weightedError w' hit = e / (2 * e + eps)) by (apply reweighted_error; auto; fold e; lra).
  split; [auto|]. split.
  - rewrite Q. apply Rmult_lt_reg_r with (2 * e + eps); [lra|]. unfold Rdiv. rewrite Rmult_assoc, Rinv_l by lra. lra.
  - pose proof Hd as (Hp & Hs). pose proof Rw as (Lw & Fw). cbv zeta in Fw. fold e in Fw.
    set (Z := rsum (length w) (fun i => w.[i] * factor hit e i)) in *.
    assert (EZ : Z = e * exp (quality e) + (1 - e) * exp (- quality e)).
    { unfold Z. transitivity (rsum (length w) (fun n => exp (quality e) * (if hit n then 0 else w.[n]) + exp (- quality e) * (w.[n] - if hit n then 0 else w.[n]))).
      - apply rsum_ext. intros n Hn. unfold factor. destruct (hit n); ring.
      - rewrite rsum_plus, !rsum_scal. rewrite rsum_minus. rewrite Hs. unfold e, weightedError. ring. }
    assert (Hq : 0 < quality e).
    { unfold quality. apply Rmult_lt_0_compat; [lra|]. rewrite <- ln_1. apply ln_increasing; [lra|].
      apply Rmult_lt_reg_r with (e + eps); [lra|]. unfold Rdiv. rewrite Rmult_assoc, Rinv_l by lra. lra. }
    pose proof (exp_increasing (- quality e) (quality e) ltac:(lra)). pose proof (exp_pos (- quality e)).
    assert (Z1 : exp (- quality e) < Z < exp (quality e)) by (rewrite EZ; nra).
    intros n Hn. specialize (Hp n Hn). rewrite Fw by auto. unfold factor. destruct (hit n).
    + apply Rmult_lt_reg_r with Z; [lra|]. unfold Rdiv. rewrite Rmult_assoc, Rinv_l by lra. rewrite Rmult_1_r. apply Rmult_lt_compat_l; lra.
    + apply Rmult_lt_reg_r with Z; [lra|]. unfold Rdiv. rewrite Rmult_assoc, Rinv_l by lra. rewrite Rmult_1_r. apply Rmult_lt_compat_l; lra.
Qed.
Print Assumptions C69_reweighting.

(** The boosting theorem: the weight of the instances on which the weighted vote of the learners is not right is
    at most the product of the factors of the rounds. *)
Lemma quality_sqrt e : 0 <= e < 1 -> exp (quality e) = sqrt ((1 - e) / (e + eps)).
Proof.
  intros He. rewrite <- quality_exp by auto. replace (2 * quality e) with (quality e + quality e) by ring. rewrite exp_plus.
  rewrite sqrt_square; auto. left. apply exp_pos.
Qed.
Lemma normaliser w hit : let e := weightedError w hit in distribution w -> e < 1 ->
  rsum (length w) (fun i => w.[i] * factor hit e i) = (2 * e + eps) * sqrt ((1 - e) / (e + eps)).
Proof.
  intros e Hd He. pose proof (error_bounds w hit Hd) as Hb. fold e in Hb. pose proof Hd as (Hp & Hs). pose proof eps_pos.
  transitivity (e * exp (quality e) + (1 - e) * exp (- quality e)).
  - transitivity (rsum (length w) (fun n => exp (quality e) * (if hit n then 0 else w.[n]) + exp (- quality e) * (w.[n] - if hit n then 0 else w.[n]))).
    + apply rsum_ext. intros n Hn. unfold factor. destruct (hit n); ring.
    + rewrite rsum_plus, !rsum_scal. rewrite rsum_minus. rewrite Hs. unfold e, weightedError. ring.
  - rewrite <- quality_sqrt by lra. pose proof (quality_exp e ltac:(lra)) as Q. replace (2 * quality e) with (quality e + quality e) in Q by ring.
    rewrite exp_plus in Q. rewrite exp_Ropp. pose proof (exp_pos (quality e)) as Hx. set (x := exp (quality e)) in *.
    assert (E : 1 - e = x * x * (e + eps)) by (rewrite Q; field; lra). rewrite E at 1. field. lra.
Qed.
Theorem C69_training_error {L O} (predict : L -> vec -> vec) (optimize : source -> O -> L -> O * L) F rows w mem o ms rs w' mem' o' :
  rows <> [] -> distribution w -> length w = length rows ->
  boosting predict optimize F rows w mem o ms rs w' mem' o' ->
  Forall (fun r => 0 < roundError r < / 2) rs ->
  rsum (length rows) (fun n => if Rle_dec (margin rs n) 0 then w.[n] else 0) <= boostingBound rs.
Proof.
  intros Hne Hd Lw B Fe. assert (HN : (0 < length rows)%nat) by (destruct rows; [contradiction|cbn; lia]).
  assert (G : rsum (length rows) (fun n => w.[n] * exp (- margin rs n)) = boostingBound rs).
  { induction B as [w mem o|w mem o m ms l rows' src o1 l1 hit w1 rs w' mem' o' El R Sh Eo E1 Hc Hw B IH].
    - cbn [margin boostingBound]. destruct Hd as (_ & Hs). rewrite <- Hs, <- Lw. apply rsum_ext. intros n Hn. rewrite Ropp_0, exp_0. ring.
    - inversion Fe as [|? ? He Fe']; subst. unfold roundError in He. cbn [roundWeights roundHit] in He.
      set (e := weightedError w hit) in *. destruct (Rlt_dec 0 e); [|lra]. destruct (Rlt_dec e (/ 2)); [|lra].
      pose proof (normaliser w hit Hd) as Z. cbv zeta in Z. fold e in Z. specialize (Z ltac:(lra)).
      assert (D1 : distribution w1) by (eapply reweighted_distribution; eauto; lia). destruct Hw as (L1 & W1). cbv zeta in W1. fold e in W1.
      cbn [boostingBound]. unfold roundError at 1 2 3. cbn [roundWeights roundHit]. fold e. rewrite <- Z.
      rewrite <- IH by (auto; lia). rewrite <- rsum_scal. apply rsum_ext. intros n Hn. rewrite W1 by lia.
      assert (HZ : 0 < rsum (length w) (fun i => w.[i] * factor hit e i)).
      { apply rsum_pos; [lia|]. intros i Hi. apply Rmult_lt_0_compat; [now apply Hd|apply exp_pos]. }
      cbn [margin roundHit]. unfold roundError at 1 2. cbn [roundWeights roundHit]. fold e.
      set (Zn := rsum (length w) (fun i => w.[i] * factor hit e i)) in *. clearbody Zn. unfold factor.
      rewrite Ropp_plus_distr, exp_plus. destruct (hit n); rewrite ?Ropp_involutive; field; lra. }
  rewrite <- G. apply rsum_le. intros n Hn. destruct Hd as (Hp & _). specialize (Hp n ltac:(lia)). destruct (Rle_dec (margin rs n) 0) as [Hm|Hm].
  - assert (1 <= exp (- margin rs n)); [|nra]. rewrite <- exp_0. destruct (Req_dec (margin rs n) 0) as [->|]; [rewrite Ropp_0; lra|]. left. apply exp_increasing. lra.
  - pose proof (exp_pos (- margin rs n)). nra.
Qed.
Print Assumptions C69_training_error.

(** If no learner was added twice, each learner of the trained ensemble classifies as it did in its round. *)
Theorem C69_models_kept {L O} (predict : L -> vec -> vec) (optimize : source -> O -> L -> O * L) F rows w mem o ms rs w' mem' o' :
  boosting predict optimize F rows w mem o ms rs w' mem' o' -> NoDup ms ->
  forall t m r, nth_error ms t = Some m -> nth_error rs t = Some r ->
  exists l, nth_error mem' m = Some l /\ classifies (predict l) rows (roundHit r).
Proof.
  assert (Keep : forall w mem o ms rs w' mem' o', boosting predict optimize F rows w mem o ms rs w' mem' o' ->
    forall m, ~ In m ms -> nth_error mem' m = nth_error mem m).
  { clear. intros w mem o ms rs w' mem' o' B. induction B as [|w mem o m ms l rows' src o1 l1 hit w1 rs w' mem' o' El R Sh Eo E1 Hc Hw B IH]; auto.
    intros m' Hm. rewrite IH by (intros HI; apply Hm; now right). rewrite nth_error_upd.
    destruct (Nat.eqb_spec m m') as [->|]; auto. exfalso. apply Hm. now left. }
  intros B. induction B as [|w mem o m ms l rows' src o1 l1 hit w1 rs w' mem' o' El R Sh Eo E1 Hc Hw B IH]; intros Nd t m' r Em Er.
  - destruct t; discriminate.
  - apply NoDup_cons_iff in Nd. destruct Nd as (Nm & Nd). destruct t as [|t].
    + cbn in Em, Er. injection Em as <-. injection Er as <-. exists l1. split; auto. rewrite (Keep _ _ _ _ _ _ _ _ B m Nm), nth_error_upd, Nat.eqb_refl.
      assert (m < length mem)%nat by (apply nth_error_Some; congruence). destruct (Nat.ltb_spec m (length mem)); auto; lia.
    + eapply IH; eauto.
Qed.
Print Assumptions C69_models_kept.

(** * C70: the weights of the models *)
Lemma quality_pos e : 0 <= e < / 2 - / 20000000000 -> 0 < quality e.
Proof.
  intros He. pose proof eps_pos. assert (E2 : / 20000000000 = eps / 2) by field. unfold quality. apply Rmult_lt_0_compat; [lra|]. rewrite <- ln_1. apply ln_increasing; [lra|].
  apply Rmult_lt_reg_r with (e + eps); [lra|]. unfold Rdiv. rewrite Rmult_assoc, Rinv_l by lra. lra.
Qed.
Lemma quality_decreasing e1 e2 : 0 <= e1 -> e1 < e2 -> e2 < 1 -> quality e2 < quality e1.
Proof.
  intros H1 H2 H3. pose proof eps_pos. unfold quality. apply Rmult_lt_compat_l; [lra|]. apply ln_increasing; [apply Rdiv_lt_0_compat; lra|].
  apply Rmult_lt_reg_r with (e1 + eps); [lra|]. unfold Rdiv. rewrite (Rmult_assoc (1 - e1)), Rinv_l by lra.
  apply Rmult_lt_reg_r with (e2 + eps); [lra|]. replace ((1 - e2) * / (e2 + eps) * (e1 + eps) * (e2 + eps)) with ((1 - e2) * (e1 + eps)) by (field; lra). nra.
Qed.

(** Models that are better than chance get positive weights that sum up to one; a smaller error means a larger
    weight. *)
Theorem C70_model_weights {L O} (predict : L -> vec -> vec) (optimize : source -> O -> L -> O * L)
    (a : adaBoost) (mem : list L) (o : O) ds rows a' mem' o' :
  shows ds rows -> rows <> [] -> amodels a <> [] ->
  (forall r l, In r rows -> (0 < length (snd r))%nat /\ (0 < length (predict l (fst r)))%nat) ->
  (forall m, In m (amodels a) -> (m < length mem)%nat) ->
  ada_train predict optimize a mem o ds = Ok (a', mem', o') ->
  exists rs w', boosting predict optimize (srcOutputs ds) rows (repeat (1 / INR (length rows)) (length rows)) mem o (amodels a) rs w' mem' o' /\
    (Forall (fun r => roundError r < / 2 - / 20000000000) rs ->
     exists ws, ada_getWeights a' = map Some ws /\ length ws = length (amodels a) /\
       rsum (length ws) (fun t => ws.[t]) = 1 /\
       (forall t, (t < length ws)%nat -> 0 < ws.[t]) /\
       forall t1 t2 r1 r2, nth_error rs t1 = Some r1 -> nth_error rs t2 = Some r2 -> roundError r1 < roundError r2 -> ws.[t2] < ws.[t1]).
Proof.
  intros Sh Hne Hma Hs Hm E. destruct (C69_training predict optimize a mem o ds rows Sh Hne Hs Hm) as (a1 & mem1 & o1 & rs & w' & E1 & B & _ & _ & Lr & La & W).
  rewrite E1 in E. injection E as <- <- <-. exists rs, w'. split; auto. intros Hr.
  set (q := fun t => quality (roundError (nth t rs (mkRound [] (fun _ => true))))) in *. set (s := rsum (length rs) q) in *.
  assert (Hd : distribution (repeat (1 / INR (length rows)) (length rows))).
  { apply uniform_distribution. destruct rows; [contradiction|cbn; lia]. }
  destruct (C69_weights_are_distributions predict optimize _ _ _ _ _ _ _ _ _ _ Hne Hd (repeat_length _ _) B) as (Fr & _).
  rewrite Forall_forall in Fr, Hr. pose proof eps_pos as He. assert (E2 : / 20000000000 = eps / 2) by field.
  assert (Hq : forall t, (t < length rs)%nat -> 0 < q t).
  { intros t Ht. unfold q. apply quality_pos. pose proof (nth_In rs (mkRound [] (fun _ => true)) Ht) as HI. specialize (Fr _ HI). specialize (Hr _ HI). lra. }
  assert (Hs0 : 0 < s). { unfold s. apply rsum_pos; auto. rewrite Lr. destruct (amodels a); [contradiction|cbn; lia]. }
  assert (W' : forall t r, nth_error rs t = Some r -> nth_error (ada_getWeights a1) t = Some (Some (quality (roundError r) / s))).
  { apply W; [|lra]. apply Forall_forall. intros r HI. specialize (Hr r HI). lra. }
  set (ws := map (fun r => quality (roundError r) / s) rs).
  assert (Fw : forall t, (t < length rs)%nat -> ws.[t] = q t / s).
  { intros t Ht. unfold ws. set (f := fun r => quality (roundError r) / s).
    rewrite (nth_indep _ 0 (f (mkRound [] (fun _ => true)))) by (rewrite map_length; auto). now rewrite map_nth. }
  exists ws. assert (Lws : length ws = length rs) by (unfold ws; now rewrite map_length). split; [|split; [|split; [|split]]].
  - apply nth_error_ext. intros t. unfold ws. rewrite map_map, nth_error_map. destruct (nth_error rs t) as [r|] eqn:Er.
    + now rewrite (W' t r Er).
    + cbn. apply nth_error_None in Er. apply nth_error_None. lia.
  - lia.
  - rewrite Lws. rewrite (rsum_ext _ _ (fun t => / s * q t)) by (intros t Ht; rewrite Fw by auto; field; lra). rewrite rsum_scal. fold s. field. lra.
  - intros t Ht. rewrite Fw by lia. apply Rdiv_lt_0_compat; auto. apply Hq. lia.
  - intros t1 t2 r1 r2 H1 H2 Hlt. assert (T1 : (t1 < length rs)%nat) by (apply nth_error_Some; congruence).
    assert (T2 : (t2 < length rs)%nat) by (apply nth_error_Some; congruence). rewrite !Fw by auto. unfold q.
    rewrite (nth_error_nth rs t1 _ H1), (nth_error_nth rs t2 _ H2). pose proof (nth_error_In _ _ H1) as I1. pose proof (nth_error_In _ _ H2) as I2.
    apply Rmult_lt_compat_r; [now apply Rinv_0_lt_compat|].
    pose proof (Fr _ I1). pose proof (Fr _ I2). pose proof (Hr _ I2). apply quality_decreasing; lra.
Qed.
Print Assumptions C70_model_weights.

(** ** A concrete data set *)
(** five instances of class 1; learner k (which cannot learn anything) recognises the first k of them *)
Definition five : list (vec * vec) := map (fun i => ([INR i], [1])) (seq 0 5).
Definition fiveSource : source := mkSource 5 1
  (fun n => r <- vget five n ;; Ok (fst r)) (fun n => r <- vget five n ;; Ok (snd r)).
Definition recognises (k : nat) (x : vec) : vec := [if Rlt_dec x.[0] (INR k) then 1 else 0].
Definition learnsNothing (s : source) (o : unit) (k : nat) : unit * nat := (o, k).

Lemma five_shows : shows fiveSource five.
Proof. split; [reflexivity|]. intros i r E. cbn [srcInstance srcTarget fiveSource]. unfold vget. rewrite E. auto. Qed.
Lemma five_sound : forall r k, In r five -> (0 < length (snd r))%nat /\ (0 < length (recognises k (fst r)))%nat.
Proof. intros r k HI. unfold five in HI. apply in_map_iff in HI. destruct HI as (i & <- & _). cbn. lia. Qed.

Lemma recognises_hit k hit n : classifies (recognises k) five hit -> (n < 5)%nat -> hit n = Nat.ltb n k.
Proof.
  intros Hc Hn. assert (E : nth_error five n = Some ([INR n], [1])).
  { unfold five. rewrite nth_error_map. rewrite nth_error_nth' with (d := 0%nat) by (rewrite seq_length; auto). rewrite seq_nth by auto. reflexivity. }
  destruct (Hc n _ E) as (c & t & H1 & H2 & ->). cbn [fst snd recognises class_of nth] in *.
  destruct H2 as [(_ & ->)|(H2 & _)]; [|lra].
  destruct (Rlt_dec (INR n) (INR k)) as [Hl|Hl], H1 as [(H1 & ->)|(H1 & ->)]; try lra.
  - apply INR_lt in Hl. symmetry. now apply Nat.ltb_lt.
  - symmetry. apply Nat.ltb_ge. destruct (le_lt_dec k n) as [Q|Q]; auto. apply lt_INR in Q. contradiction.
Qed.

Lemma recognises_accuracy k : (k <= 5)%nat -> accuracy (recognises k) fiveSource = Ok (INR k / 5).
Proof.
  intros Hk. unfold accuracy. change (srcSamples fiveSource) with 5%nat.
  match goal with |- context [for_ _ ?b _] =>
    destruct (for_inv (fun t (acc : R) => acc = INR (Nat.min t k)) b 5 0) as (acc & E & ->) end.
  - reflexivity.
  - intros n acc Hn ->. destruct (nth_error_lt five n Hn) as (r & Er). destruct five_shows as (_ & Hr). destruct (Hr n r Er) as (E1 & E2).
    rewrite E1, E2. cbn [bind].
    destruct (five_sound r k (nth_error_In _ _ Er)) as (A & B). destruct (decoding_ok _ A) as (t & Et & Ct). destruct (decoding_ok _ B) as (c & Ec & Cc).
    rewrite Ec, Et. cbn [bind]. eexists. split; [reflexivity|].
    pose proof (recognises_hit k (hitOf recognises k five) n (hit_ok recognises k five five_sound) Hn) as H.
    unfold hitOf in H. rewrite Er, Ec, Et in H. rewrite H. destruct (Nat.ltb_spec n k).
    + rewrite !Nat.min_l by lia. rewrite S_INR. reflexivity.
    + rewrite !Nat.min_r by lia. lra.
  - rewrite E. cbn [bind]. rewrite Nat.min_r by lia. do 2 f_equal. cbn. lra.
Qed.

(** a round in which the weights are uniform *)
Lemma recognises_error k hit : (k <= 5)%nat -> classifies (recognises k) five hit ->
  weightedError (repeat (1 / INR 5) 5) hit = 1 - INR k / 5.
Proof.
  intros Hk Hc. unfold weightedError. rewrite repeat_length.
  rewrite (rsum_ext _ _ (fun n => (if Nat.ltb n k then 0 else 1/5))).
  - destruct k as [|[|[|[|[|[|]]]]]]; [..|lia]; cbn; lra.
  - intros n Hn. rewrite (recognises_hit k hit n) by auto. rewrite nth_repeat_lt by auto. destruct (Nat.ltb n k); auto. cbn. lra.
Qed.

Lemma five_rounds ks mem o ms rs w' mem' o' :
  mem = ks -> Forall (fun m => exists k, nth_error ks m = Some k /\ (k <= 2 \/ k = 5)%nat) ms ->
  boosting recognises learnsNothing 1 five (repeat (1 / INR 5) 5) mem o ms rs w' mem' o' ->
  Forall2 (fun m r => exists k, nth_error ks m = Some k /\ roundError r = 1 - INR k / 5) ms rs.
Proof.
  intros Em Fm B. remember (repeat (1 / INR 5) 5) as w eqn:Ew.
  induction B as [|w mem o m ms l rows' src o1 l1 hit w1 rs w' mem' o' El R Sh Eo E1 Hc Hw B IH]; [constructor|].
  inversion Fm as [|? ? (k & Ek & Hk) Fm']; subst. assert (l = k) by congruence. subst l.
  unfold learnsNothing in E1. injection E1 as <- <-.
  assert (He : weightedError (repeat (1 / INR 5) 5) hit = 1 - INR k / 5) by (apply recognises_error; auto; lia).
  assert (Ew1 : w1 = repeat (1 / INR 5) 5).
  { rewrite He in Hw. destruct Hk as [Hk| ->].
    - apply le_INR in Hk. change (INR 2) with 2 in Hk. destruct (Rlt_dec 0 (1 - INR k / 5)); [|auto]. destruct (Rlt_dec (1 - INR k / 5) (/ 2)); [|auto]. lra.
    - replace (1 - INR 5 / 5) with 0 in Hw by (cbn; lra). destruct (Rlt_dec 0 0); [lra|auto]. }
  constructor; [exists k; auto|]. apply IH; auto.
  apply nth_error_ext. intros i. rewrite nth_error_upd. destruct (Nat.eqb_spec m i) as [<-|]; auto.
  rewrite Ek. destruct (Nat.ltb_spec m (length ks)); auto. apply nth_error_None in H. congruence.
Qed.

Example C69_case : exists a' mem' o',
  ada_train recognises learnsNothing (ada_addLearner (ada_addLearner ada_new 0) 1) [4%nat; 3%nat] tt fiveSource = Ok (a', mem', o').
Proof.
  destruct (C69_training recognises learnsNothing (ada_addLearner (ada_addLearner ada_new 0) 1) [4%nat; 3%nat] tt fiveSource five five_shows)
    as (a' & mem' & o' & _ & _ & E & _).
  - discriminate.
  - apply five_sound.
  - cbn. lia.
  - eauto.
Qed.
(** in the first round of this training the error is 1/5 and the weights change *)
Example C69_case_round : exists w',
  reweighted (repeat (1 / INR 5) 5) (fun n => Nat.ltb n 4) w' /\ distribution (repeat (1 / INR 5) 5) /\
  0 < weightedError (repeat (1 / INR 5) 5) (fun n => Nat.ltb n 4) < / 2 - / 20000000000.
Proof.
  set (w := repeat (1 / INR 5) 5). set (hit := fun n => Nat.ltb n 4).
  exists (map (fun n => w.[n] * factor hit (weightedError w hit) n / rsum (length w) (fun i => w.[i] * factor hit (weightedError w hit) i)) (seq 0 5)).
  split; [|split; [split|]].
  - split; [reflexivity|]. intros n Hn. cbv zeta. now rewrite nth_map_seq.
  - unfold w. rewrite repeat_length. intros n Hn. rewrite nth_repeat_lt by auto. cbn. lra.
  - cbn. lra.
  - cbn. lra.
Qed.

(** two copies of a learner without errors share the weight *)
Example C70_case : exists a' mem' o' rs w', 
  ada_train recognises learnsNothing (ada_addLearner (ada_addLearner ada_new 0) 1) [5%nat; 5%nat] tt fiveSource = Ok (a', mem', o') /\
  boosting recognises learnsNothing 1 five (repeat (1 / INR 5) 5) [5%nat; 5%nat] tt [0; 1]%nat rs w' mem' o' /\
  length rs = 2%nat /\ Forall (fun r => roundError r < / 2 - / 20000000000) rs.
Proof.
  destruct (train_rounds recognises learnsNothing (ada_addLearner (ada_addLearner ada_new 0) 1) [5%nat; 5%nat] tt fiveSource five five_shows)
    as (mem' & o' & rs & w' & E & B & Lr); [discriminate|exact five_sound|cbn; lia|].
  eexists _, mem', o', rs, w'. split; [exact E|]. split; [exact B|]. split; [exact Lr|].
  assert (F : Forall2 (fun m r => exists k, nth_error [5%nat; 5%nat] m = Some k /\ roundError r = 1 - INR k / 5) [0%nat; 1%nat] rs).
  { eapply five_rounds; [reflexivity| |exact B]. constructor; [exists 5%nat; split; [reflexivity|lia]|constructor; [exists 5%nat; split; [reflexivity|lia]|constructor]]. }
  inversion F as [|? r ? rs' (k & Ek & Er) F']; subst. inversion F' as [|? r' ? rs'' (k' & Ek' & Er') F'']; subst. inversion F''; subst.
  cbn in Ek, Ek'. injection Ek as <-. injection Ek' as <-. constructor; [rewrite Er; cbn; lra|]. constructor; [rewrite Er'; cbn; lra|constructor].
Qed.

(** The weights of the models are not finite if a model is always wrong. *)
Theorem C70_finite_refuted :
  exists a' mem' o', ada_train recognises learnsNothing (ada_addLearner ada_new 0) [0%nat] tt fiveSource = Ok (a', mem', o') /\
    ada_getWeights a' = [None].
Proof.
  destruct (train_rounds recognises learnsNothing (ada_addLearner ada_new 0) [0%nat] tt fiveSource five five_shows)
    as (mem' & o' & rs & w' & E & B & _); [discriminate|exact five_sound|cbn; lia|].
  eexists _, mem', o'. split; [exact E|]. unfold ada_getWeights. cbn [aweights].
  assert (F : Forall2 (fun m r => exists k, nth_error [0%nat] m = Some k /\ roundError r = 1 - INR k / 5) [0%nat] rs).
  { eapply five_rounds; [reflexivity| |exact B]. constructor; [exists 0%nat; split; [reflexivity|lia]|constructor]. }
  inversion F as [|? r ? rs' (k & Ek & Er) F']; subst. inversion F'; subst. cbn in Ek. injection Ek as <-.
  cbn [map]. unfold alphaOf. rewrite Er. cbn [INR]. destruct (Rlt_dec (1 - 0 / 5) 1); [lra|]. reflexivity.
Qed.

(** If the models are worse than chance, the worst model gets the largest weight: learner 0 recognises two of the
    five instances, learner 1 only one. *)
Theorem C70_order_refuted :
  exists a' mem' o' w0 w1,
    ada_train recognises learnsNothing (ada_addLearner (ada_addLearner ada_new 0) 1) [2%nat; 1%nat] tt fiveSource = Ok (a', mem', o') /\
    mem' = [2%nat; 1%nat] /\
    accuracy (recognises 2) fiveSource = Ok (2/5) /\ accuracy (recognises 1) fiveSource = Ok (1/5) /\
    ada_getWeights a' = [Some w0; Some w1] /\ 0 < w0 < w1.
Proof.
  destruct (train_rounds recognises learnsNothing (ada_addLearner (ada_addLearner ada_new 0) 1) [2%nat; 1%nat] tt fiveSource five five_shows)
    as (mem' & o' & rs & w' & E & B & _); [discriminate|exact five_sound|cbn; lia|].
  assert (F : Forall2 (fun m r => exists k, nth_error [2%nat; 1%nat] m = Some k /\ roundError r = 1 - INR k / 5) [0%nat; 1%nat] rs).
  { eapply five_rounds; [reflexivity| |exact B]. constructor; [exists 2%nat; split; [reflexivity|lia]|constructor; [exists 1%nat; split; [reflexivity|lia]|constructor]]. }
  inversion F as [|? r ? rs' (k & Ek & Er) F']; subst. inversion F' as [|? r' ? rs'' (k' & Ek' & Er') F'']; subst. inversion F''; subst.
  cbn in Ek, Ek'. injection Ek as <-. injection Ek' as <-.
  assert (Q1 : roundError r = 3/5) by (rewrite Er; cbn; lra). assert (Q2 : roundError r' = 4/5) by (rewrite Er'; cbn; lra).
  assert (N1 : quality (3/5) < 0).
  { pose proof eps_pos. unfold quality. assert (ln ((1 - 3/5) / (3/5 + eps)) < ln 1); [|rewrite ln_1 in *; lra]. apply ln_increasing; [apply Rdiv_lt_0_compat; lra|].
    apply Rmult_lt_reg_r with (3/5 + eps); [lra|]. unfold Rdiv at 1. rewrite Rmult_assoc, Rinv_l by lra. lra. }
  pose proof (quality_decreasing (3/5) (4/5) ltac:(lra) ltac:(lra) ltac:(lra)) as N2.
  set (q1 := quality (3/5)) in *. set (q2 := quality (4/5)) in *. set (s := q1 + (q2 + 0)).
  eexists _, mem', o', (q1 / s), (q2 / s). split; [exact E|]. split; [|split; [|split; [|split]]].
  - inversion B as [|? ? ? ? ? l ? ? ? l1 ? ? ? ? ? ? El _ _ _ Eo _ _ B2]; subst. inversion B2 as [|? ? ? ? ? l' ? ? ? l1' ? ? ? ? ? ? El' _ _ _ Eo' _ _ B3]; subst.
    inversion B3; subst. unfold learnsNothing in Eo, Eo'. injection Eo as <- <-. injection Eo' as <- <-. cbn in El. injection El as <-. cbn in El'. injection El' as <-. reflexivity.
  - rewrite recognises_accuracy by lia. reflexivity.
  - rewrite recognises_accuracy by lia. reflexivity.
  - unfold ada_getWeights. cbn [aweights map]. unfold alphaOf. rewrite Q1, Q2. destruct (Rlt_dec (3/5) 1); [|lra]. destruct (Rlt_dec (4/5) 1); [|lra].
    fold q1 q2. cbn [osumAll fold_right odivide]. fold s. rewrite (proj2 (Reqb_false s 0)) by (unfold s; lra). reflexivity.
  - assert (Hs : / s < 0) by (apply Rinv_lt_0_compat; unfold s; lra). unfold Rdiv. split; nra.
Qed.
Print Assumptions C70_finite_refuted.
Print Assumptions C70_order_refuted.

(** * C71: predictions *)
Section Predictions.
Context {L : Type} (predictAll : L -> mat -> mat).

Theorem C71_adaboost_output (a : adaBoost) (mem : list L) (X : mat) (ws : list R) :
  ada_getWeights a = map Some ws -> length ws = length (amodels a) ->
  (forall m, In m (amodels a) -> exists l, nth_error mem m = Some l /\ rows (predictAll l X) = rows X /\ cols (predictAll l X) = aF a) ->
  exists Y, ada_predict predictAll a mem X = Ok Y /\ rows Y = rows X /\ cols Y = aF a /\
    forall outputs : nat -> mat,
      (forall t m l, nth_error (amodels a) t = Some m -> nth_error mem m = Some l -> outputs t = predictAll l X) ->
      forall n j, at_ Y n j = rsum (length (amodels a)) (fun t => ws.[t] * at_ (outputs t) n j).
Proof.
  intros Ew Lw Hm. unfold ada_predict.
  match goal with |- context [for_each _ ?b ?s] =>
    destruct (for_each_inv (fun done (st : mat * nat) => size_is (fst st) (rows X) (aF a) /\ snd st = length done /\
      forall outputs : nat -> mat,
      (forall t m l, nth_error (amodels a) t = Some m -> nth_error mem m = Some l -> outputs t = predictAll l X) ->
      forall n j, at_ (fst st) n j = rsum (length done) (fun t => ws.[t] * at_ (outputs t) n j)) b (amodels a) s) as ((Y & t) & E & (S1 & S2) & _ & F) end.
  - cbn. split; [split; reflexivity|]. split; auto.
  - intros done m rest (Y & t) Es ((S1 & S2) & Et & F). cbn [fst snd] in *. subst t.
    assert (Im : In m (amodels a)) by (rewrite Es; apply in_or_app; right; now left).
    destruct (Hm m Im) as (l & El & R1 & R2). unfold vget at 1. rewrite El. cbn [bind].
    assert (Ht : (length done < length ws)%nat) by (rewrite Lw, Es, app_length; cbn; lia).
    unfold vget. unfold ada_getWeights in Ew. rewrite Ew, nth_error_map, (nth_error_nth' ws 0 Ht). cbn [option_map bind maddscaled].
    rewrite (mmap2_Ok _ _ _ (rows X) (aF a)) by (split; auto). cbn [bind]. eexists. split; [reflexivity|]. cbn [fst snd]. split; [split; reflexivity|].
    split; [rewrite app_length; cbn; lia|]. intros outputs Ho n j. rewrite app_length. cbn [length at_]. rewrite Nat.add_comm. cbn [Nat.add rsum].
    rewrite (F outputs Ho). f_equal. f_equal. rewrite (Ho (length done) m l); auto. rewrite Es, nth_error_app2 by lia. now rewrite Nat.sub_diag.
  - rewrite E. cbn [bind]. exists Y. cbn [fst snd] in *. auto.
Qed.

Theorem C71_bagging_output (b : bagging) (mem : list L) (X : mat) :
  bmodels b <> [] ->
  (forall m, In m (bmodels b) -> exists l, nth_error mem m = Some l /\ rows (predictAll l X) = rows X /\ cols (predictAll l X) = bF b) ->
  exists Y, bag_predict predictAll b mem X = Ok Y /\ rows Y = rows X /\ cols Y = bF b /\
    forall outputs : nat -> mat,
      (forall t m l, nth_error (bmodels b) t = Some m -> nth_error mem m = Some l -> outputs t = predictAll l X) ->
      forall n j, at_ Y n j = rsum (length (bmodels b)) (fun t => at_ (outputs t) n j) / INR (length (bmodels b)).
Proof.
  intros Hne Hm. unfold bag_predict.
  match goal with |- context [for_each _ ?f ?s] =>
    destruct (for_each_inv (fun done (Y : mat) => size_is Y (rows X) (bF b) /\
      forall outputs : nat -> mat,
      (forall t m l, nth_error (bmodels b) t = Some m -> nth_error mem m = Some l -> outputs t = predictAll l X) ->
      forall n j, at_ Y n j = rsum (length done) (fun t => at_ (outputs t) n j)) f (bmodels b) s) as (Y & E & (S1 & S2) & F) end.
  - cbn. split; [split; reflexivity|]. auto.
  - intros done m rest Y Es ((S1 & S2) & F).
    assert (Im : In m (bmodels b)) by (rewrite Es; apply in_or_app; right; now left).
    destruct (Hm m Im) as (l & El & R1 & R2). unfold vget at 1. rewrite El. cbn [bind].
    rewrite (mmap2_Ok _ _ _ (rows X) (bF b)) by (split; auto). eexists. split; [reflexivity|]. split; [split; reflexivity|].
    intros outputs Ho n j. rewrite app_length. cbn [length at_]. rewrite Nat.add_comm. cbn [Nat.add rsum].
    rewrite (F outputs Ho). f_equal. rewrite (Ho (length done) m l); auto. rewrite Es, nth_error_app2 by lia. now rewrite Nat.sub_diag.
  - rewrite E. cbn [bind]. destruct (Nat.eqb_spec (length (bmodels b)) 0) as [Q|Q]; [destruct (bmodels b); [contradiction|discriminate]|].
    eexists. split; [reflexivity|]. cbn. split; [auto|]. split; [auto|]. intros outputs Ho n j. now rewrite (F outputs Ho).
Qed.
End Predictions.
Print Assumptions C71_adaboost_output.
Print Assumptions C71_bagging_output.

(** an ensemble of two learners that multiply their input by 1 and 3 *)
Example C71_case : exists Y Z,
  ada_predict (fun k X => mmap (Rmult (INR k)) X) (mkAda [0; 1]%nat [Some (1/4); Some (3/4)] 1) [1; 3]%nat (mkMat 1 1 (fun _ _ => 2)) = Ok Y /\
  at_ Y 0 0 = 5 /\
  bag_predict (fun k X => mmap (Rmult (INR k)) X) (mkBag [0; 1]%nat 1 1) [1; 3]%nat (mkMat 1 1 (fun _ _ => 2)) = Ok Z /\ at_ Z 0 0 = 4.
Proof. eexists _, _. cbn. split; [reflexivity|]. split; [cbn; lra|]. split; [reflexivity|]. cbn. lra. Qed.

(** operator() for a single instance has undefined behaviour in both classes. *)
Theorem C71_vector_refuted {L} (a : adaBoost) (b : bagging) (mem : list L) (x : vec) :
  ada_predictVector a mem x = UB /\ bag_predictVector b mem x = UB.
Proof. split; reflexivity. Qed.

(** * C72: training of a bag *)
(** Training never succeeds (because sampling with replacement does not): for every data set, bag size, learner and
    optimizer. *)
Theorem C72_bagging_train_refuted {L O} (optimize : source -> O -> L -> O * L) (b : bagging) (mem : list L) (o : O)
    (h : heap vec) ds F idx rows :
  lists h ds rows -> rows <> [] -> 0 < bsize b <= 1 -> bmodels b <> [] ->
  bag_train optimize b mem o h ds F idx = UB.
Proof.
  intros Hl Hne Hb Hm. unfold bag_train. destruct (bmodels b) as [|m ms]; [contradiction|]. cbn [for_each].
  rewrite (C05_sample_with_replacement_refuted h ds (bsize b) (idx 0%nat) (fun l => l) rows Hl Hne Hb). reflexivity.
Qed.
Print Assumptions C72_bagging_train_refuted.
Example C72_case : lists [Direct [([1], [2])]] 0 [([1], [2])] /\ 0 < 1/2 <= 1.
Proof. split; [now apply DataSet_Proofs.lists_direct|lra]. Qed.
