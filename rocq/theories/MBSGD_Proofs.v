(** Proofs about mini-batch stochastic gradient descent. *)
From Verif Require Import Base BaseFacts Vec DataSet_Model DataSet_Proofs Storage_Proofs MBSGD_Model MBSGD_Spec.
Local Open Scope R_scope.

Lemma gradients_app h1 h2 : gradients (h1 ++ h2) = gradients h1 ++ gradients h2.
Proof. apply filter_app. Qed.

Lemma batchesOf_app h1 h2 : batchesOf (h1 ++ h2) = batchesOf h1 ++ batchesOf h2.
Proof. induction h1 as [|[]]; simpl; congruence. Qed.

Lemma epochs_app h1 h2 : epochs (h1 ++ h2) = (epochs h1 + epochs h2)%nat.
Proof. induction h1 as [|[]]; simpl; congruence. Qed.

(** ** constructor *)
Ltac breal := repeat match goal with
  | H : (_ || _)%bool = true |- _ => apply orb_true_iff in H
  | H : (_ || _)%bool = false |- _ => apply orb_false_iff in H; destruct H
  | H : Rleb _ _ = true |- _ => apply Rleb_true in H
  | H : Rleb _ _ = false |- _ => apply Rleb_false in H
  | H : Rltb _ _ = true |- _ => apply Rltb_true in H
  | H : Rltb _ _ = false |- _ => apply Rltb_false in H
  | H : Z.ltb _ _ = true |- _ => apply Z.ltb_lt in H
  | H : Z.ltb _ _ = false |- _ => apply Z.ltb_ge in H
  | H : _ \/ _ |- _ => destruct H
  end.

Lemma newMBSGD_spec lr mo bs ne de ml mg mm ming maxg mi ms p0 :
  (admissible lr mo bs de ml mg mm /\
   newMBSGD lr mo bs ne de ml mg mm ming maxg mi ms p0 =
     Ok (mkConfig ne de ml mg mm bs ming maxg mi ms,
         mkSgd (-1) (-1) (-1) (-1) lr mo 0 [] [] [] [] [] p0 [])) \/
  (~ admissible lr mo bs de ml mg mm /\
   newMBSGD lr mo bs ne de ml mg mm ming maxg mi ms p0 = Throw).
Proof.
  unfold newMBSGD, admissible.
  repeat match goal with |- context [if ?b then _ else _] =>
    let E := fresh "E" in destruct b eqn:E end;
  try (right; split; [intros A; decompose [and] A; breal; try lra; lia|reflexivity]).
  left. split; [|reflexivity]. breal. repeat split; auto; lra.
Qed.

(** ** one batch *)
Lemma updateGains_ok c P mom grad gns : length mom = P -> length grad = P -> length gns = P ->
  useGain c = true ->
  exists gns' grad', updateGains c P mom grad gns = Ok (gns', grad') /\
    length gns' = P /\ length grad' = P /\
    forall j, (j < P)%nat -> gns'.[j] = newGain c mom.[j] grad.[j] gns.[j] /\
       grad'.[j] = grad.[j] * gns'.[j].
Proof.
  intros L1 L2 L3 HU. unfold updateGains.
  match goal with |- context [for_ P ?b _] => set (body := b) end.
  destruct (for_inv (fun n (st : list R * list R) => let '(a, b) := st in
     length a = P /\ length b = P /\
     forall j, (j < P)%nat -> if Nat.ltb j n
        then a.[j] = newGain c mom.[j] grad.[j] gns.[j] /\ b.[j] = grad.[j] * a.[j]
        else a.[j] = gns.[j] /\ b.[j] = grad.[j]) body P (gns, grad)) as ([a b] & E & A1 & A2 & A3).
  - repeat split; auto.
  - intros p [a b] Hp (A1 & A2 & A3). unfold body.
    rewrite (vget_nth mom p 0) by lia. cbn [bind].
    rewrite (vget_nth b p 0) by lia. cbn [bind].
    rewrite (vget_nth a p 0) by lia. cbn [bind].
    rewrite vset_Ok by lia. cbn [bind]. rewrite vset_Ok by lia. cbn [bind].
    eexists. split; [reflexivity|]. split; [now rewrite upd_length|]. split; [now rewrite upd_length|].
    intros j Hj.
    pose proof (A3 p Hp) as Hpp. rewrite Nat.ltb_irrefl in Hpp. destruct Hpp as [C1 C2].
    rewrite !nth_upd by lia.
    destruct (Nat.ltb_spec j (S p)) as [Lj|Lj].
    + destruct (Nat.eqb_spec p j) as [<-|Nj].
      * rewrite C1, C2. unfold newGain. rewrite HU. unfold Rleb.
        destruct (Rle_dec 0 (mom.[p] * grad.[p])); split; reflexivity.
      * specialize (A3 j Hj). rewrite (proj2 (Nat.ltb_lt j p)) in A3 by lia. exact A3.
    + destruct (Nat.eqb_spec p j) as [<-|Nj]; [lia|].
      specialize (A3 j Hj). rewrite (proj2 (Nat.ltb_ge j p)) in A3 by lia. exact A3.
  - rewrite E. exists a, b. repeat split; auto; specialize (A3 j H);
      rewrite (proj2 (Nat.ltb_lt j P)) in A3 by lia; apply A3.
Qed.

Definition Tracks (P : nat) (c : config) (a0 e0 : R) (p0 : list R) (evs : list event) (s : sgd) : Prop :=
  documented P c a0 e0 p0 evs (parameters s) (momentum s) (gains s) /\
  alpha s = learningRate c a0 (length evs) /\ eta s = momentumRate c e0 (length evs) /\
  (nesterov c = false -> optParameters s = parameters s).

Definition goodConfig (c : config) : Prop :=
  (1 <= batchSize c)%Z /\ 0 < alphaDecay c <= 1 /\ 0 <= minAlpha c.

Lemma learningRate_S c a0 k : goodConfig c ->
  learningRate c a0 (S k) = Rmax (learningRate c a0 k * alphaDecay c) (minAlpha c).
Proof.
  intros (_ & Hd & Hm). destruct k as [|k].
  - simpl. f_equal. ring.
  - unfold learningRate. set (x := a0 * alphaDecay c ^ S k).
    replace (a0 * alphaDecay c ^ S (S k)) with (x * alphaDecay c) by (unfold x; simpl; ring).
    clearbody x. assert (M : minAlpha c * alphaDecay c <= minAlpha c) by nra.
    assert (X : x <= minAlpha c -> x * alphaDecay c <= minAlpha c * alphaDecay c).
    { intros. apply Rmult_le_compat_r; lra. }
    destruct (Rle_dec x (minAlpha c)) as [L|L].
    + rewrite (Rmax_right x) by lra. rewrite !Rmax_right; auto. specialize (X L). lra.
    + rewrite (Rmax_left x) by lra. reflexivity.
Qed.

Lemma momentumRate_S c e0 k : 0 <= etaGain c ->
  momentumRate c e0 (S k) = Rmin (momentumRate c e0 k + etaGain c) (maxEta c).
Proof.
  intros Hg. destruct k as [|k].
  - simpl. f_equal. ring.
  - unfold momentumRate. rewrite (S_INR (S k)). set (x := INR (S k)).
    replace (e0 + (x + 1) * etaGain c) with (e0 + x * etaGain c + etaGain c) by ring.
    destruct (Rle_dec (e0 + x * etaGain c) (maxEta c)) as [L|L].
    + rewrite (Rmin_left (e0 + x * etaGain c)) by lra. reflexivity.
    + rewrite (Rmin_right (e0 + x * etaGain c)) by lra. rewrite !Rmin_right; lra.
Qed.

Lemma newGain_range c m g k : useGain c = true -> minGain c <= maxGain c ->
  minGain c <= newGain c m g k <= maxGain c.
Proof.
  intros HU HL. unfold newGain. rewrite HU. split; [|apply Rmin_l].
  apply Rmin_glb; auto. apply Rmax_l.
Qed.

Definition clipEnd (len e : Z) : Z := if Z.ltb len e then len else e.

Lemma round_ok pb c P s startN endN :
  sizes P s -> (forall h p b, length (snd (answer pb h p b)) = P) ->
  (0 <= startN <= endN)%Z -> (endN <= Z.of_nat (length (randomIndices s)))%Z ->
  exists s' h at_ err grad,
    let batch := firstn (Z.to_nat endN - Z.to_nat startN) (skipn (Z.to_nat startN) (randomIndices s)) in
    let ev := ErrorGradient at_ batch err grad in
    batchRound pb c (s, startN, endN) =
      Ok (s', (startN + batchSize c)%Z,
          clipEnd (Z.of_nat (length (randomIndices s))) (endN + batchSize c)) /\
    sizes P s' /\ numN s' = numN s /\ batches s' = batches s /\ iteration s' = iteration s /\
    randomIndices s' = randomIndices s /\
    history s' = history s ++ h /\ gradients h = [ev] /\ batchesOf h = [batch] /\ epochs h = 0%nat /\
    accumulatedError s' = accumulatedError s + err /\
    alpha s' = Rmax (alpha s * alphaDecay c) (minAlpha c) /\
    eta s' = Rmin (eta s + etaGain c) (maxEta c) /\
    (nesterov c = false -> optParameters s' = parameters s') /\
    length at_ = P /\
    at_ = (if nesterov c then at_ else optParameters s) /\
    forall j, (j < P)%nat ->
       (nesterov c = true -> at_.[j] = (parameters s).[j] + eta s * (momentum s).[j]) /\
       (gains s').[j] = newGain c (momentum s).[j] grad.[j] (gains s).[j] /\
       (momentum s').[j] = eta s * (momentum s).[j] - alpha s * ((if useGain c then (gains s').[j] else 1) * grad.[j]) /\
       (parameters s').[j] = (parameters s).[j] + (momentum s').[j].
Proof.
  intros (S1 & S2 & S3 & S4 & S5) HA Hse He. unfold batchRound.
  destruct (vmap2_Ok Rplus (parameters s) (vscale (eta s) (momentum s))) as (look & EL & LL & NL).
  { rewrite vscale_length. congruence. }
  set (s1 := if nesterov c then setParameters look s else s).
  replace (if nesterov c then _ else _) with (Ok s1)
    by (unfold s1; destruct (nesterov c); [unfold vadd; rewrite EL|]; reflexivity).
  cbn [bind].
  assert (Q : dimP s1 = dimP s /\ numN s1 = numN s /\ batches s1 = batches s /\ iteration s1 = iteration s /\
     alpha s1 = alpha s /\ eta s1 = eta s /\ parameters s1 = parameters s /\ momentum s1 = momentum s /\
     gains s1 = gains s /\ randomIndices s1 = randomIndices s /\ accumulatedError s1 = accumulatedError s /\
     length (optParameters s1) = P /\
     optParameters s1 = (if nesterov c then look else optParameters s) /\
     history s1 = history s ++ (if nesterov c then [SetParameters look] else [])).
  { unfold s1. destruct (nesterov c); simpl; repeat split; auto; try congruence. now rewrite app_nil_r. }
  destruct Q as (Q1 & Q2 & Q3 & Q4 & Q5 & Q6 & Q7 & Q8 & Q9 & Q10 & Q11 & Q12 & Q13 & Q14).
  unfold errorGradient. rewrite !zidx_Ok by lia. cbn [bind]. rewrite Q10.
  rewrite (proj2 (Nat.leb_le _ _)) by lia. rewrite (proj2 (Nat.leb_le _ _)) by lia. cbn [andb].
  set (batch := firstn _ _).
  specialize (HA (history s1) (optParameters s1) batch).
  destruct (answer pb (history s1) (optParameters s1) batch) as [e g]. simpl in HA.
  cbn [bind dimP momentum gradient gains alpha eta parameters numN batches iteration randomIndices
       accumulatedError optParameters history].
  rewrite Q1, Q5, Q6, Q7, Q8, Q9.
  assert (X : exists gns grad', (if useGain c
      then P0 <- zidx (dimP s) ;; updateGains c P0 (momentum s) g (gains s)
      else Ok (gains s, g)) = Ok (gns, grad') /\ length gns = P /\ length grad' = P /\
      forall j, (j < P)%nat -> gns.[j] = newGain c (momentum s).[j] g.[j] (gains s).[j] /\
        grad'.[j] = (if useGain c then gns.[j] else 1) * g.[j]).
  { destruct (useGain c) eqn:EU.
    - rewrite S1, zidx_Ok, Nat2Z.id by lia. cbn [bind].
      destruct (updateGains_ok c P (momentum s) g (gains s)) as (a & b & E & A1 & A2 & A3); auto.
      exists a, b. rewrite E. repeat split; auto.
      + now apply A3.
      + rewrite (proj2 (A3 j H)). ring.
    - exists (gains s), g. repeat split; auto.
      + unfold newGain. now rewrite EU.
      + ring. }
  destruct X as (gns & grad' & EX & X1 & X2 & X3). rewrite EX. cbn [bind].
  destruct (vmap2_Ok Rminus (vscale (eta s) (momentum s)) (vscale (alpha s) grad')) as (mom & EM & LM & NM).
  { rewrite !vscale_length. congruence. }
  unfold vminus. rewrite EM. cbn [bind]. rewrite vscale_length in LM, NM.
  destruct (vmap2_Ok Rplus (parameters s) mom) as (par & EP & LP & NP); [congruence|].
  unfold vadd. rewrite EP. cbn [bind].
  set (s2 := mkSgd _ _ _ _ _ _ _ par mom grad' gns _ _ _).
  set (s3 := if nesterov c then s2 else setParameters par s2).
  assert (T : dimP s3 = dimP s /\ numN s3 = numN s /\ batches s3 = batches s /\ iteration s3 = iteration s /\
     alpha s3 = alpha s /\ eta s3 = eta s /\ parameters s3 = par /\ momentum s3 = mom /\
     gains s3 = gns /\ randomIndices s3 = randomIndices s /\ accumulatedError s3 = accumulatedError s + e /\
     length (optParameters s3) = P /\ (nesterov c = false -> optParameters s3 = par) /\
     history s3 = history s ++ ((if nesterov c then [SetParameters look] else []) ++
        [ErrorGradient (optParameters s1) batch e g] ++ (if nesterov c then [] else [SetParameters par]))).
  { unfold s3, s2. destruct (nesterov c); simpl; rewrite ?Q1, ?Q2, ?Q3, ?Q4, ?Q10, ?Q11, ?Q14;
      repeat split; auto; try congruence; now rewrite <- !app_assoc. }
  destruct T as (T1 & T2 & T3 & T4 & T5 & T6 & T7 & T8 & T9 & T10 & T11 & T12 & T13 & T14).
  do 2 eexists. exists (optParameters s1), e, g. cbv zeta. split.
  { rewrite T10. reflexivity. }
  cbn [dimP momentum gradient gains alpha eta parameters numN batches iteration randomIndices
       accumulatedError optParameters history].
  rewrite ?T1, ?T2, ?T3, ?T4, ?T5, ?T6, ?T7, ?T8, ?T9, ?T10, ?T11.
  split. { repeat split; simpl; auto; congruence. }
  do 4 (split; [reflexivity|]). split; [exact T14|].
  split. { destruct (nesterov c); reflexivity. }
  split. { destruct (nesterov c); reflexivity. }
  split. { destruct (nesterov c); reflexivity. }
  do 3 (split; [reflexivity|]). split; [exact T13|]. split; [exact Q12|].
  split. { destruct (nesterov c); congruence. }
  intros j Hj. split; [|split; [|split]].
  - intros HN. rewrite Q13, HN. rewrite NL by lia. now rewrite vscale_nth.
  - now apply X3.
  - rewrite NM by lia. rewrite !vscale_nth. now rewrite (proj2 (X3 j Hj)).
  - apply NP. lia.
Qed.

Lemma documented_gains_one n c a0 e0 p0 evs p m g : useGain c = false ->
  documented n c a0 e0 p0 evs p m g -> forall j, (j < n)%nat -> g.[j] = 1.
Proof.
  intros HU D. induction D as [L|evs p m g point batch err grad p' m' g' D IH k L1 L2 L3 L4 H]; intros j Hj.
  - now apply nth_repeat_lt.
  - destruct (H j Hj) as (_ & E & _). rewrite E. unfold newGain. rewrite HU. now apply IH.
Qed.

Lemma documented_sizes n c a0 e0 p0 evs p m g : documented n c a0 e0 p0 evs p m g ->
  length p = n /\ length m = n /\ length g = n.
Proof. intros D. destruct D; rewrite ?repeat_length; auto. Qed.

Lemma Tracks_round pb c P s startN endN a0 e0 p0 evs s' h :
  goodConfig c -> 0 <= etaGain c ->
  sizes P s -> (forall h p b, length (snd (answer pb h p b)) = P) ->
  (0 <= startN <= endN)%Z -> (endN <= Z.of_nat (length (randomIndices s)))%Z ->
  Tracks P c a0 e0 p0 evs s -> 
  forall st en, batchRound pb c (s, startN, endN) = Ok (s', st, en) -> history s' = history s ++ h ->
  Tracks P c a0 e0 p0 (evs ++ gradients h) s'.
Proof.
  intros HC HG HS HA Hse He (D & A & E & O) st en EB EH.
  destruct (round_ok pb c P s startN endN HS HA Hse He) as
    (s2 & h2 & at_ & err & grad & EB2 & S2 & _ & _ & _ & _ & EH2 & EG & _ & _ & _ & EA & EE & EO & LA & EAt & EV).
  rewrite EB2 in EB. inversion EB; subst s2. clear EB.
  assert (h2 = h) by (rewrite EH2 in EH; now apply app_inv_head in EH). subst h2.
  rewrite EG. destruct S2 as (_ & L1 & L2 & L3 & L4).
  split; [|split; [|split]].
  - eapply documented_batch; eauto. intros j Hj.
    destruct (EV j Hj) as (V1 & V2 & V3 & V4). rewrite <- A, <- E. repeat split; auto.
    + destruct (nesterov c) eqn:EN; auto. rewrite EAt, O; auto.
    + rewrite V3. destruct (useGain c) eqn:EU; auto.
      rewrite V2. unfold newGain. rewrite EU.
      rewrite (documented_gains_one _ _ _ _ _ _ _ _ _ EU D) by auto. reflexivity.
  - rewrite app_length. simpl. rewrite Nat.add_1_r, learningRate_S by auto. now rewrite EA, A.
  - rewrite app_length. simpl. rewrite Nat.add_1_r, momentumRate_S by auto. now rewrite EE, E.
  - exact EO.
Qed.

(** ** one epoch *)
Definition batchAt (idx : list nat) (B k : nat) : list nat := firstn B (skipn (k * B) idx).

Definition numBatches (N B : nat) : nat := Nat.max (N / B) 1.

Lemma range_ok N B k : (1 <= B)%nat -> (0 < N)%nat -> (k < numBatches N B)%nat ->
  ((k + 1) * B <= N)%nat \/ (N < B)%nat /\ k = 0%nat.
Proof.
  intros HB HN Hk. unfold numBatches in Hk.
  destruct (Nat.lt_ge_cases N B) as [L|L].
  - right. split; auto. rewrite Nat.div_small in Hk by auto. simpl in Hk. lia.
  - left. assert (1 <= N / B)%nat by (apply Nat.div_le_lower_bound; lia).
    assert (k + 1 <= N / B)%nat by lia.
    pose proof (Nat.mul_div_le N B ltac:(lia)). nia.
Qed.

Lemma epoch_ok pb c P s :
  let idx := randomIndices s in
  let N := length idx in
  let B := Z.to_nat (batchSize c) in
  goodConfig c -> 0 <= etaGain c -> sizes P s -> (forall h p b, length (snd (answer pb h p b)) = P) ->
  (0 < N)%nat ->
  exists s' st en h,
    for_ (numBatches N B) (fun _ st => batchRound pb c st)
      (s, 0%Z, if Z.ltb (Z.of_nat N) (batchSize c) then Z.of_nat N else batchSize c) = Ok (s', st, en) /\
    sizes P s' /\ numN s' = numN s /\ batches s' = batches s /\ iteration s' = iteration s /\
    randomIndices s' = idx /\ history s' = history s ++ h /\
    length (gradients h) = numBatches N B /\ epochs h = 0%nat /\
    batchesOf h = map (batchAt idx B) (seq 0 (numBatches N B)) /\
    (forall a0 e0 k, alpha s = learningRate c a0 k -> eta s = momentumRate c e0 k ->
       alpha s' = learningRate c a0 (k + numBatches N B) /\ eta s' = momentumRate c e0 (k + numBatches N B)) /\
    (nesterov c = false -> optParameters s' = parameters s') /\
    (useGain c = true -> minGain c <= maxGain c -> forall j, (j < P)%nat -> minGain c <= (gains s').[j] <= maxGain c) /\
    (forall a0 e0 p0 evs, Tracks P c a0 e0 p0 evs s -> Tracks P c a0 e0 p0 (evs ++ gradients h) s').
Proof.
  intros idx N B HC HG HS HA HN. destruct HC as (Hb & Hd & Hm).
  assert (HC : goodConfig c) by (repeat split; auto; tauto).
  assert (HB : (1 <= B)%nat) by (unfold B; lia).
  assert (EB : batchSize c = Z.of_nat B) by (unfold B; lia).
  destruct (for_inv (fun n (st : sgd * Z * Z) => let '(s', st, en) := st in exists h,
     st = Z.of_nat (n * B) /\ ((n < numBatches N B)%nat -> en = Z.of_nat (Nat.min ((n + 1) * B) N)) /\
     sizes P s' /\ numN s' = numN s /\ batches s' = batches s /\ iteration s' = iteration s /\
     randomIndices s' = idx /\ history s' = history s ++ h /\
     length (gradients h) = n /\ epochs h = 0%nat /\
     batchesOf h = map (batchAt idx B) (seq 0 n) /\
     (forall a0 e0 k, alpha s = learningRate c a0 k -> eta s = momentumRate c e0 k ->
       alpha s' = learningRate c a0 (k + n) /\ eta s' = momentumRate c e0 (k + n)) /\
     ((0 < n)%nat -> nesterov c = false -> optParameters s' = parameters s') /\
     ((0 < n)%nat -> (useGain c = true -> minGain c <= maxGain c -> forall j, (j < P)%nat -> minGain c <= (gains s').[j] <= maxGain c)) /\
     (forall a0 e0 p0 evs, Tracks P c a0 e0 p0 evs s -> Tracks P c a0 e0 p0 (evs ++ gradients h) s'))
    (fun _ st => batchRound pb c st) (numBatches N B)
    (s, 0%Z, if Z.ltb (Z.of_nat N) (batchSize c) then Z.of_nat N else batchSize c))
    as ([[s' st] en] & E & h & I1 & I2 & I3 & I4 & I5 & I6 & I7 & I8 & I9 & I10 & I11 & I12 & I13 & I15 & I14).
  - exists []. split; [reflexivity|]. split.
    { intros _. destruct (Z.ltb_spec (Z.of_nat N) (batchSize c)); rewrite EB in *; lia. }
    do 4 (split; [auto; fail|]). split; [reflexivity|]. split; [now rewrite app_nil_r|].
    do 3 (split; [reflexivity|]). split; [intros; now rewrite Nat.add_0_r|].
    split; [lia|]. split; [lia|]. intros. now rewrite app_nil_r.
  - intros n [[s1 st] en] Hn (h & I1 & I2 & I3 & I4 & I5 & I6 & I7 & I8 & I9 & I10 & I11 & I12 & I13 & I15 & I14).
    specialize (I2 Hn). pose proof (range_ok N B n HB HN Hn) as Hr.
    assert (Hse : (0 <= st <= en)%Z) by nia.
    assert (Hen : (en <= Z.of_nat (length (randomIndices s1)))%Z) by (rewrite I7; fold N; lia).
    destruct (round_ok pb c P s1 st en I3 HA Hse Hen) as
      (s2 & h2 & at_ & err & grad & EB2 & S2 & R1 & R2 & R3 & R4 & EH2 & EG & EBO & EP & _ & EA & EE & EO & _ & _ & EV).
    exists (s2, (st + batchSize c)%Z, clipEnd (Z.of_nat (length (randomIndices s1))) (en + batchSize c)).
    split; [exact EB2|]. exists (h ++ h2).
    split; [rewrite I1, EB; lia|]. split.
    { intros Hn'. rewrite I7. fold N. pose proof (range_ok N B (S n) HB HN Hn') as Hr'.
      unfold clipEnd. rewrite I2, EB. destruct (Z.ltb_spec (Z.of_nat N) (Z.of_nat (Nat.min ((n + 1) * B) N) + Z.of_nat B)); nia. }
    split; [exact S2|]. do 3 (split; [congruence|]). split; [congruence|].
    split; [rewrite EH2, I8; now rewrite app_assoc|].
    split; [rewrite gradients_app, app_length, EG, I9; simpl; lia|].
    split; [rewrite epochs_app; lia|].
    split.
    { rewrite batchesOf_app, EBO, I11, seq_S, map_app. simpl. f_equal. f_equal.
      rewrite I7. unfold batchAt. rewrite I1, I2, !Nat2Z.id.
      destruct Hr as [Hr|[Hr ->]].
      - rewrite Nat.min_l by auto. f_equal. lia.
      - rewrite Nat.min_r by lia. simpl. rewrite Nat.sub_0_r. fold N.
        change N with (length idx). rewrite firstn_all, firstn_all2; auto. fold N. lia. }
    split.
    { intros a0 e0 k A1 A2. destruct (I12 a0 e0 k A1 A2) as [A3 A4].
      rewrite <- plus_n_Sm. rewrite learningRate_S, momentumRate_S by auto. rewrite EA, EE, A3, A4. auto. }
    split; [auto|]. split.
    { intros _ HU HL j Hj. destruct (EV j Hj) as (_ & V & _). rewrite V. now apply newGain_range. }
    intros a0 e0 p0 evs HT. rewrite gradients_app, app_assoc.
    apply (Tracks_round pb c P s1 st en a0 e0 p0 (evs ++ gradients h) s2 h2 HC HG I3 HA Hse Hen (I14 _ _ _ _ HT) _ _ EB2 EH2).
  - rewrite E. exists s', st, en, h. repeat (split; auto).
    + intros. apply I13; auto. unfold numBatches. lia.
    + intros. apply I15; auto. unfold numBatches. lia.
    + intros. apply I15; auto. unfold numBatches. lia.
Qed.

(** ** one step *)
Definition goodState (pb : problem) (c : config) (s : sgd) : Prop :=
  length (optParameters s) = dimension pb /\
  ((iteration s < 0)%Z \/
   (sizes (dimension pb) s /\ numN s = Z.of_nat (examples pb) /\
    batches s = Z.of_nat (numBatches (examples pb) (Z.to_nat (batchSize c))) /\
    Permutation (randomIndices s) (seq 0 (examples pb)))).

Definition keepsGoing (c : config) (it : Z) (mom : list R) : bool :=
  ((Z.eqb (maximalIterations c) (-1) || Z.ltb it (maximalIterations c)) &&
   (Reqb (minimalSearchSpaceStep c) 0 || Rleb (minimalSearchSpaceStep c) (norm mom)))%bool.

(** state in which the epochs of a run begin *)
Definition begin (pb : problem) (c : config) (s : sgd) : sgd :=
  if Z.ltb (iteration s) 0 then
    mkSgd 0 0 0 0 (alpha s) (eta s) 0 (optParameters s)
      (repeat 0 (dimension pb)) (repeat 0 (dimension pb)) (repeat 1 (dimension pb)) []
      (optParameters s) (history s)
  else s.

Lemma step_ok pb c s : proper pb -> goodConfig c -> 0 <= etaGain c -> goodState pb c s ->
  let B := Z.to_nat (batchSize c) in
  let N := examples pb in
  exists run s' h idx, step pb c s = Ok (run, s') /\
    goodState pb c s' /\ sizes (dimension pb) s' /\
    history s' = history s ++ h /\ epochs h = 1%nat /\
    Permutation idx (seq 0 N) /\
    length (gradients h) = numBatches N B /\
    batchesOf h = map (batchAt idx B) (seq 0 (numBatches N B)) /\
    (forall a0 e0 k, alpha s = learningRate c a0 k -> eta s = momentumRate c e0 k ->
       alpha s' = learningRate c a0 (k + numBatches N B) /\ eta s' = momentumRate c e0 (k + numBatches N B)) /\
    (nesterov c = false -> optParameters s' = parameters s') /\
    (useGain c = true -> minGain c <= maxGain c -> forall j, (j < dimension pb)%nat -> minGain c <= (gains s').[j] <= maxGain c) /\
    (forall a0 e0 p0 evs, Tracks (dimension pb) c a0 e0 p0 evs (begin pb c s) ->
       Tracks (dimension pb) c a0 e0 p0 (evs ++ gradients h) s') /\
    run = keepsGoing c (Z.max (iteration s) 0 + 1) (momentum s') /\
    iteration s' = (if run then Z.max (iteration s) 0 + 1 else -1)%Z.
Proof.
  intros (HP & HN & HA & HSh) HC HG (HO & HGS) B N. unfold step.
  assert (HB : (1 <= batchSize c)%Z) by apply HC.
  assert (X : exists s1, (if Z.ltb (iteration s) 0 then initialize pb c s else Ok s) = Ok s1 /\
     sizes (dimension pb) s1 /\ numN s1 = Z.of_nat N /\ batches s1 = Z.of_nat (numBatches N B) /\
     Permutation (randomIndices s1) (seq 0 N) /\ iteration s1 = Z.max (iteration s) 0 /\
     alpha s1 = alpha s /\ eta s1 = eta s /\ history s1 = history s /\
     (forall a0 e0 p0 evs, Tracks (dimension pb) c a0 e0 p0 evs (begin pb c s) ->
        Tracks (dimension pb) c a0 e0 p0 evs s1)).
  { unfold begin. destruct (Z.ltb_spec (iteration s) 0) as [L|L].
    - unfold initialize.
      destruct (generateIndices_fresh N (shuffle pb (history s))) as (idx & EI & PI); [apply HSh|].
      fold N. rewrite EI. cbn [bind]. eexists. split; [reflexivity|].
      cbn [dimP momentum gradient gains alpha eta parameters numN batches iteration randomIndices
       accumulatedError optParameters history].
      split. { repeat split; simpl; auto using repeat_length. }
      split; [reflexivity|]. split.
      { unfold numBatches, B. rewrite Nat2Z.inj_max, Nat2Z.inj_div. rewrite Z2Nat.id by lia. reflexivity. }
      split; [exact PI|]. split; [lia|]. do 3 (split; [reflexivity|]).
      intros a0 e0 p0 evs HT. exact HT.
    - exists s. destruct HGS as [|(G1 & G2 & G3 & G4)]; [lia|]. repeat (split; auto); try apply G1. lia. }
  destruct X as (s1 & E1 & S1 & N1 & B1 & P1 & It1 & A1 & Et1 & H1 & T1).
  rewrite E1. cbn [bind].
  assert (HNB : (1 <= numBatches N B)%nat) by (unfold numBatches; lia).
  destruct S1 as (D1 & S1). 
  rewrite (check_true (Z.ltb 0 (dimP s1))) by (rewrite D1; apply Z.ltb_lt; lia). cbn [bind].
  rewrite (check_true (Z.ltb 0 (numN s1))) by (rewrite N1; apply Z.ltb_lt; unfold N; lia). cbn [bind].
  rewrite (check_true (Z.ltb 0 (batches s1))) by (rewrite B1; apply Z.ltb_lt; lia). cbn [bind].
  rewrite N1, (zidx_Ok (Z.of_nat N)), Nat2Z.id by lia. cbn [bind].
  destruct (generateIndices_again N (randomIndices s1) (shuffle pb (history s1))) as (idx & EI & PI);
    [apply HSh|exact P1|]. rewrite EI. cbn [bind].
  cbv zeta. cbn [batches]. rewrite B1, (zidx_Ok (Z.of_nat (numBatches N B))), Nat2Z.id by lia. cbn [bind].
  set (s2 := mkSgd _ _ _ _ _ _ _ _ _ _ _ _ _ _).
  assert (LI : length idx = N) by (rewrite (Permutation_length PI); apply seq_length).
  destruct (epoch_ok pb c (dimension pb) s2) as
    (s' & st & en & h & EF & F1 & F2 & F3 & F4 & F5 & F6 & F7 & F8 & F9 & F10 & F11 & F13 & F12); auto.
  { split; auto. }
  { simpl. rewrite LI. exact HN. }
  change (randomIndices s2) with idx in *. rewrite LI in *. fold B in EF, F7, F9, F10.
  cbn [batches] in EF |- *. rewrite EF. cbn [bind].
  assert (EIt : iteration s' = Z.max (iteration s) 0) by (rewrite F4; exact It1). rewrite EIt.
  set (run := (_ && _)%bool).
  exists run. eexists. exists (h ++ [FinishedIteration]), idx. split; [reflexivity|].
  cbn [dimP momentum gradient gains alpha eta parameters numN batches iteration randomIndices
       accumulatedError optParameters history].
  split.
  { split; [apply F1|]. right. split; [exact F1|]. split; [rewrite F2; first [exact N1|reflexivity]|].
    split; [rewrite F3; first [exact B1|reflexivity]|]. rewrite F5. exact PI. }
  split; [exact F1|].
  split; [rewrite F6; simpl; rewrite H1; now rewrite app_assoc|].
  split; [rewrite epochs_app, F8; reflexivity|]. split; [exact PI|].
  split; [rewrite gradients_app, app_nil_r; exact F7|].
  split; [rewrite batchesOf_app, app_nil_r; exact F9|].
  split. { intros a0 e0 k HA1 HA2. apply F10; simpl; congruence. }
  split; [exact F11|]. split; [exact F13|].
  split. { intros a0 e0 p0 evs HT. rewrite gradients_app, app_nil_r. apply (F12 a0 e0 p0 evs). exact (T1 _ _ _ _ HT). }
  split; reflexivity.
Qed.

(** ** reachable states *)
Record inv (pb : problem) (c : config) (a0 e0 : R) (s : sgd) : Prop := {
  inv_config : goodConfig c;
  inv_gain : 0 <= etaGain c;
  inv_good : goodState pb c s;
  inv_alpha : alpha s = learningRate c a0 (length (gradients (history s)));
  inv_eta : eta s = momentumRate c e0 (length (gradients (history s)));
  inv_par : (0 < epochs (history s))%nat -> length (parameters s) = dimension pb;
  inv_start : 0 < a0 <= 1 /\ 0 <= e0 < 1 /\ 0 <= maxEta c <= 1 }.

Lemma sizes_set P p s : sizes P s -> length p = P -> sizes P (setParameters p s).
Proof. intros (A & B & C & D & E) L. repeat split; auto. Qed.

Lemma goodState_set pb c p s : goodState pb c s -> length p = dimension pb -> goodState pb c (setParameters p s).
Proof.
  intros (A & B) L. split; auto. destruct B as [B|(B1 & B2)]; [left|right]; auto.
  split; auto. now apply sizes_set.
Qed.

Lemma inv_set pb c a0 e0 p s : inv pb c a0 e0 s -> length p = dimension pb -> inv pb c a0 e0 (setParameters p s).
Proof.
  intros [] L. constructor; auto.
  - now apply goodState_set.
  - simpl. now rewrite gradients_app, app_nil_r.
  - simpl. now rewrite gradients_app, app_nil_r.
  - simpl. rewrite epochs_app. simpl. rewrite Nat.add_0_r. auto.
Qed.

Lemma reachable_inv pb c a0 e0 s : proper pb -> reachable pb c a0 e0 s -> inv pb c a0 e0 s.
Proof.
  intros HP H. induction H as [lr mo bs ne de ml mg mm ming maxg mi ms p0 s E L -> ->|
                               s run s' H IH E|s H IH He|s p H IH L].
  - destruct (newMBSGD_spec lr mo bs ne de ml mg mm ming maxg mi ms p0) as [[A EN]|[A EN]];
      rewrite EN in E; inversion E; subst; clear E.
    destruct A as (A1 & A2 & A3 & A4 & A5 & A6 & A7).
    constructor; simpl; auto.
    + repeat split; simpl; auto; tauto.
    + tauto.
    + split; simpl; auto. left. lia.
    + lia.
  - destruct IH. destruct (step_ok pb c s) as
      (run' & s2 & h & idx & E2 & G2 & S2 & H2 & Ep & _ & LG & _ & HA & _); auto.
    rewrite E2 in E. inversion E; subst run' s2. clear E.
    destruct (HA a0 e0 _ inv_alpha0 inv_eta0) as [HA1 HA2].
    constructor; auto.
    + rewrite HA1, H2, gradients_app, app_length, LG. reflexivity.
    + rewrite HA2, H2, gradients_app, app_length, LG. reflexivity.
    + intros _. apply S2.
  - simpl. apply inv_set; auto. now apply IH.
  - now apply inv_set.
Qed.

(** ** batches *)
Lemma concat_batches idx B n : concat (map (batchAt idx B) (seq 0 n)) = firstn (n * B) idx.
Proof.
  induction n as [|n IH]; auto.
  rewrite seq_S, map_app, concat_app, IH. simpl. rewrite app_nil_r. unfold batchAt.
  rewrite (Nat.add_comm B (n * B)). symmetry. apply firstn_skipn_add.
Qed.

Lemma epoch_batches pb c a0 e0 s : proper pb -> reachable pb c a0 e0 s ->
  let N := examples pb in let b := Z.to_nat (batchSize c) in
  exists run s' h, step pb c s = Ok (run, s') /\ history s' = history s ++ h /\
    epochs h = 1%nat /\
    length (batchesOf h) = Nat.max (N / b) 1 /\
    (forall x, In x (batchesOf h) -> length x = Nat.min b N) /\
    NoDup (concat (batchesOf h)) /\
    (forall i, In i (concat (batchesOf h)) -> (i < N)%nat) /\
    (N - length (concat (batchesOf h)) = if Nat.ltb N b then 0 else N mod b)%nat.
Proof.
  intros HP HR N b. destruct (reachable_inv _ _ _ _ _ HP HR).
  destruct (step_ok pb c s) as
      (run & s' & h & idx & E & _ & _ & H2 & Ep & PI & _ & EB & _); auto.
  assert (Hb : (1 <= b)%nat) by (unfold b; destruct inv_config0; lia).
  assert (HN : (0 < N)%nat) by apply HP.
  fold N b in EB, PI.
  assert (LI : length idx = N) by (rewrite (Permutation_length PI); apply seq_length).
  exists run, s', h. rewrite EB. split; auto. split; auto. split; auto.
  split; [now rewrite map_length, seq_length|].
  split.
  { intros x Hx. apply in_map_iff in Hx. destruct Hx as (k & <- & Hk). apply in_seq in Hk.
    unfold batchAt. rewrite firstn_length, skipn_length, LI.
    pose proof (range_ok N b k Hb HN ltac:(lia)) as [Hr|[Hr ->]]; [|lia].
    rewrite !Nat.min_l; lia. }
  rewrite concat_batches.
  assert (ND : NoDup idx) by (eapply Permutation_NoDup; [apply Permutation_sym, PI|apply seq_NoDup]).
  split.
  { rewrite <- (firstn_skipn (numBatches N b * b) idx) in ND. now apply NoDup_app_l in ND. }
  split.
  { intros i Hi. assert (Hin : In i idx).
    { rewrite <- (firstn_skipn (numBatches N b * b) idx). apply in_or_app. now left. }
    apply (Permutation_in i PI) in Hin. apply in_seq in Hin. lia. }
  rewrite firstn_length, LI. unfold numBatches.
  destruct (Nat.ltb_spec N b) as [L|L].
  - rewrite Nat.div_small by auto. simpl. lia.
  - assert (1 <= N / b)%nat by (apply Nat.div_le_lower_bound; lia).
    rewrite Nat.max_l by auto. pose proof (Nat.div_mod N b ltac:(lia)).
    rewrite Nat.min_l; nia.
Qed.

(** ** runs *)
Lemma ran_reachable pb c a0 e0 s n s' : reachable pb c a0 e0 s -> ran pb c s n s' -> reachable pb c a0 e0 s'.
Proof. intros H R. induction R; auto. eapply r_step; eauto. Qed.

Lemma Tracks_start pb c s : length (optParameters s) = dimension pb -> (iteration s < 0)%Z ->
  Tracks (dimension pb) c (alpha s) (eta s) (optParameters s) [] (begin pb c s).
Proof.
  intros L F. unfold begin. rewrite (proj2 (Z.ltb_lt _ _)) by auto.
  split; [|split; [|split]]; simpl; auto. now constructor.
Qed.

Lemma ran_tracks pb c a0 e0 s n s' : proper pb -> reachable pb c a0 e0 s -> (iteration s < 0)%Z ->
  ran pb c s n s' -> (0 < n)%nat ->
  exists h, history s' = history s ++ h /\ epochs h = n /\ iteration s' = Z.of_nat n /\
    Tracks (dimension pb) c (alpha s) (eta s) (optParameters s) (gradients h) s'.
Proof.
  intros HP HR HF R. induction R as [|n s1 s2 R IH E]; intros Hn; [lia|].
  assert (HR1 : reachable pb c a0 e0 s1) by (eapply ran_reachable; eauto).
  destruct (reachable_inv _ _ _ _ _ HP HR1).
  destruct (step_ok pb c s1) as
      (run & s' & h & idx & E' & _ & _ & H2 & Ep & PI & _ & EB & _ & _ & _ & HT & ER & EI); auto.
  assert (Hr : run = true) by congruence. assert (Hs : s' = s2) by congruence. subst s'. rewrite Hr in EI. clear E. cbn iota in EI.
  destruct n as [|n].
  - inversion R; subst s1. exists h. split; auto. split; auto. split; [lia|].
    apply (HT _ _ _ []). apply Tracks_start; auto. apply inv_good0.
  - destruct IH as (h1 & EH1 & Ep1 & EI1 & T1); [lia|].
    exists (h1 ++ h). split; [now rewrite H2, EH1, app_assoc|].
    split; [rewrite epochs_app; lia|]. split; [lia|].
    rewrite gradients_app. apply HT. unfold begin. rewrite (proj2 (Z.ltb_ge _ _)) by lia. exact T1.
Qed.

(** n epochs that ask to go on, then one more *)
Lemma run_documented pb c a0 e0 s n s1 b s2 : proper pb -> reachable pb c a0 e0 s -> (iteration s < 0)%Z ->
  ran pb c s n s1 -> step pb c s1 = Ok (b, s2) ->
  exists h, history s2 = history s ++ h /\ epochs h = S n /\
    documented (dimension pb) c (alpha s) (eta s) (optParameters s) (gradients h)
      (parameters s2) (momentum s2) (gains s2) /\
    (nesterov c = false -> optParameters s2 = parameters s2) /\
    b = keepsGoing c (Z.of_nat (S n)) (momentum s2) /\
    iteration s2 = (if b then Z.of_nat (S n) else -1)%Z.
Proof.
  intros HP HR HF R E.
  assert (HR1 : reachable pb c a0 e0 s1) by (eapply ran_reachable; eauto).
  destruct (reachable_inv _ _ _ _ _ HP HR1).
  destruct (step_ok pb c s1) as
      (run & s' & h & idx & E' & _ & _ & H2 & Ep & PI & _ & EB & _ & EO & _ & HT & ER & EI); auto.
  assert (Hr : run = b) by congruence. assert (Hs : s' = s2) by congruence. subst s'. rewrite Hr in ER, EI. clear E.
  destruct n as [|n].
  - inversion R; subst s1. exists h. split; auto. split; auto.
    split. { apply (HT _ _ _ []). apply Tracks_start; auto. apply inv_good0. }
    split; auto. rewrite Z.max_r in ER, EI by lia. split; auto.
  - destruct (ran_tracks _ _ _ _ _ _ _ HP HR HF R) as (h1 & EH1 & Ep1 & EI1 & T1); [lia|].
    exists (h1 ++ h). split; [now rewrite H2, EH1, app_assoc|].
    split; [rewrite epochs_app; lia|]. rewrite gradients_app.
    split. { apply HT. unfold begin. rewrite (proj2 (Z.ltb_ge _ _)) by lia. exact T1. }
    split; auto. rewrite EI1 in *. replace (Z.of_nat (S (S n))) with (Z.max (Z.of_nat (S n)) 0 + 1)%Z by lia. auto.
Qed.

(** ** optimize *)
Lemma optimize_runs pb c fuel : forall s0 n s s', ran pb c s0 n s -> optimize fuel pb c s = Ok s' ->
  exists k s1 b, ran pb c s0 (n + k) s1 /\ step pb c s1 = Ok (b, s') /\
    (b = false \/ signaled pb (history s') = true) /\
    (forall i si, (n < i <= n + k)%nat -> ran pb c s0 i si -> signaled pb (history si) = false).
Proof.
  induction fuel as [|f IH]; intros s0 n s s' R E; simpl in E; [discriminate|].
  destruct (step pb c s) as [[b s1]| | | |] eqn:ES; simpl in E; try discriminate.
  destruct (b && negb (signaled pb (history s1)))%bool eqn:EC.
  - apply andb_true_iff in EC. destruct EC as [-> EC]. apply negb_true_iff in EC.
    assert (R1 : ran pb c s0 (S n) s1) by (eapply ran_S; eauto).
    destruct (IH s0 (S n) s1 s' R1 E) as (k & s2 & b & R2 & E2 & H2 & H3).
    exists (S k), s2, b. rewrite <- plus_n_Sm. split; auto. split; auto. split; auto.
    intros i si Hi Ri. destruct (Nat.eq_dec i (S n)) as [->|].
    + assert (si = s1); [|congruence].
      assert (Det : forall i a b, ran pb c s0 i a -> ran pb c s0 i b -> a = b).
      { clear. intros i a b Ra. revert b. induction Ra as [|m x y Rx IHx Ex]; intros b Rb; inversion Rb; subst; auto.
        assert (x = s1) by (apply IHx; auto). subst. congruence. }
      eapply Det; eauto.
    + apply (H3 i si); auto. lia.
  - inversion E; subst s1. exists 0%nat, s, b. rewrite Nat.add_0_r. split; auto. split; auto. split.
    + apply andb_false_iff in EC. destruct EC as [EC|EC]; auto. right. now apply negb_false_iff in EC.
    + intros. lia.
Qed.

Lemma optimize_terminates pb c a0 e0 s : proper pb -> reachable pb c a0 e0 s -> (iteration s < 0)%Z ->
  (maximalIterations c <> -1)%Z ->
  exists s', optimize (S (Z.to_nat (maximalIterations c))) pb c s = Ok s'.
Proof.
  intros HP HR HF HM.
  assert (G : forall f n s1, ran pb c s n s1 -> (Z.of_nat n + Z.of_nat f = Z.max 0 (maximalIterations c))%Z ->
     exists s', optimize (S f) pb c s1 = Ok s').
  { induction f as [|f IH]; intros n s1 R Hn.
    - assert (HR1 : reachable pb c a0 e0 s1) by (eapply ran_reachable; eauto).
      destruct (reachable_inv _ _ _ _ _ HP HR1).
      destruct (step_ok pb c s1) as (run & s' & h & idx & E' & _); auto.
      pose proof (run_documented _ _ _ _ _ _ _ _ _ HP HR HF R E') as (h1 & _ & _ & _ & _ & Hrun & _).
      cbn [optimize]. rewrite E'. cbn [bind].
      assert (Hf : run = false).
      { rewrite Hrun. unfold keepsGoing. rewrite (proj2 (Z.eqb_neq _ _)) by auto.
        rewrite (proj2 (Z.ltb_ge _ _)) by lia. reflexivity. }
      rewrite Hf. simpl. eauto.
    - assert (HR1 : reachable pb c a0 e0 s1) by (eapply ran_reachable; eauto).
      destruct (reachable_inv _ _ _ _ _ HP HR1).
      destruct (step_ok pb c s1) as (run & s' & h & idx & E' & _); auto.
      remember (S f) as f1. cbn [optimize]. rewrite E'. cbn [bind].
      destruct (run && negb (signaled pb (history s')))%bool eqn:EC; [|eauto]. subst f1.
      apply andb_true_iff in EC. destruct EC as [-> _].
      apply (IH (S n)); [eapply ran_S; eauto|lia]. }
  apply (G (Z.to_nat (maximalIterations c)) 0%nat s); [constructor|lia].
Qed.

(** ** the rule for the gains *)
Lemma gain_rule pb c P s startN endN s' st en :
  sizes P s -> (forall h p b, length (snd (answer pb h p b)) = P) ->
  (0 <= startN <= endN)%Z -> (endN <= Z.of_nat (length (randomIndices s)))%Z ->
  batchRound pb c (s, startN, endN) = Ok (s', st, en) ->
  useGain c = true -> 0 < minGain c -> minGain c <= maxGain c -> eta s = 0 -> 0 < alpha s ->
  forall j, (j < P)%nat -> (momentum s).[j] * (momentum s').[j] > 0 ->
  (gains s').[j] = Rmin (maxGain c) (Rmax (minGain c) ((gains s).[j] * (95 / 100))).
Proof.
  intros HS HA Hse He E HU Hm Hmm Heta Hal j Hj Hpos.
  destruct (round_ok pb c P s startN endN HS HA Hse He) as
    (s2 & h2 & at_ & err & grad & EB2 & _ & _ & _ & _ & _ & _ & _ & _ & _ & _ & _ & _ & _ & _ & _ & EV).
  rewrite EB2 in E. inversion E; subst s2. clear E.
  destruct (EV j Hj) as (_ & V2 & V3 & _). rewrite HU, Heta in V3.
  assert (Hg : 0 < (gains s').[j]).
  { rewrite V2. pose proof (newGain_range c (momentum s).[j] grad.[j] (gains s).[j] HU Hmm). lra. }
  rewrite V2. unfold newGain. rewrite HU. f_equal. f_equal.
  destruct (Rle_dec 0 ((momentum s).[j] * grad.[j])) as [L|L]; auto. exfalso.
  rewrite V3 in Hpos. set (m := (momentum s).[j]) in *. set (g := grad.[j]) in *. set (k := (gains s').[j]) in *.
  assert (m * (0 * m - alpha s * (k * g)) = - (alpha s * k) * (m * g)) by ring.
  assert (0 < alpha s * k) by nra. nra.
Qed.
