(** Theorems about Dropout (C42), Compressed (C43), Extreme (C51) and
    IntrinsicPlasticity as a layer (C52). *)
From Verif Require Import Base BaseFacts Matrix RSum MatOps Vec Deriv Activation_Model
  Activation_Proofs Layer_Model Layer_Spec Layer_Proofs Layer_Layout FC_Model FC_Proofs FC_Props
  SimpleLayers_Model SimpleLayers_Proofs Compressed_Proofs.
Local Open Scope R_scope.

(** * Dropout *)
Lemma dropout_history junk I prob rnd s :
  history (dropout_class junk) I I (dropout_new junk I prob rnd) s ->
  dropout_inv I s /\ dprob s = prob /\ drnd s = rnd.
Proof.
  assert (HF : forall s X dropout q Y r, dropout_inv I s -> cols X = I ->
    dropout_forward junk s X dropout = Ok (q, Y, r) ->
    dropout_inv I q /\ dprob q = dprob s /\ drnd q = drnd s /\ size_is (dmask q) (rows X) I).
  { intros s0 X dropout q Y r Hi HX E.
    destruct (dropout_forward_ok junk I s0 X dropout (rows X) Hi) as (q' & y & E' & _ & Hq & _ & Sm & _); [split; auto|].
    rewrite E' in E. injection E as -> <- <-. split; auto. split; [|split; auto].
    - unfold dropout_forward in E'. apply bind_Ok in E'. destruct E' as (m & _ & E').
      apply bind_Ok in E'. destruct E' as (y' & _ & E'). injection E' as <- _. reflexivity.
    - unfold dropout_forward in E'. apply bind_Ok in E'. destruct E' as (m & _ & E').
      apply bind_Ok in E'. destruct E' as (y' & _ & E'). injection E' as <- _. reflexivity. }
  induction 1 as [|s p q Hh IH Hp E|s X dropout q Y r Hh IH HX E|s X dropout q Y r ein bp q2 eout Hh IH HX E He1 He2 Eb].
  - repeat split; auto.
  - unfold install, writeAll in E. simpl in Hp. unfold paramCount in Hp. simpl in Hp. rewrite Hp in E.
    simpl in E. injection E as <-. auto.
  - cbn [forwardPropagate dropout_class] in E. destruct IH as (IH & P & Q).
    destruct (HF s X dropout q Y r IH HX E) as (H1 & H2 & H3 & _). rewrite H2, H3. auto.
  - cbn [forwardPropagate backpropagate dropout_class] in E, Eb. destruct IH as (IH & P & Q).
    destruct (HF s X dropout q Y r IH HX E) as (H1 & H2 & H3 & H4).
    destruct (dropout_backward_ok I q ein (rows X) bp H1 H4) as (q3 & e3 & E3 & I3 & _); [split; auto|].
    rewrite E3 in Eb. injection Eb as -> ->. split; auto.
    unfold dropout_backward in E3. apply bind_Ok in E3. destruct E3 as (y' & _ & E3). injection E3 as <- _.
    simpl. rewrite H2, H3. auto.
Qed.

(** the neuron of row [n] and column [i] is suppressed in the k-th training pass *)
Definition suppressed (prob : R) (rnd : nat -> nat -> nat -> R) (k n i : nat) : bool :=
  Rltb (rnd k n i) prob.

(** ** C42: training.  Each training pass uses its own numbers [rnd k]; a suppressed neuron
    outputs 0 and passes no error back, the others are unchanged in both directions. *)
Theorem C42_dropout_training junk I prob rnd s X :
  history (dropout_class junk) I I (dropout_new junk I prob rnd) s -> cols X = I ->
  exists k q Y, dropout_forward junk s X true = Ok (q, Y, 0) /\
    k = dpass s /\ dpass q = S k /\
    rows Y = rows X /\ cols Y = I /\
    (forall n i, (n < rows X)%nat -> (i < I)%nat ->
       at_ Y n i = if suppressed prob rnd k n i then 0 else at_ X n i) /\
    forall ein bp, rows ein = rows X -> cols ein = I ->
      exists q2 e, dropout_backward q ein bp = Ok (q2, e) /\ rows e = rows X /\ cols e = I /\
      forall n i, (n < rows X)%nat -> (i < I)%nat ->
        at_ e n i = if suppressed prob rnd k n i then 0 else at_ ein n i.
Proof.
  intros Hh HX. destruct (dropout_history junk I prob rnd s Hh) as (Hi & P & Q).
  destruct (dropout_forward_ok junk I s X true (rows X) Hi) as (q & y & E & (S1 & S2) & Hq & F & Sm & Fm); [split; auto|].
  exists (dpass s), q, y. split; auto. split; auto. split.
  { unfold dropout_forward in E. apply bind_Ok in E. destruct E as (m & _ & E).
    apply bind_Ok in E. destruct E as (y' & _ & E). injection E as <- _. reflexivity. }
  split; auto. split; auto. unfold dropout_factor in *. rewrite P, Q in *. split.
  - intros n i Hn Hi'. rewrite F by auto. unfold suppressed. destruct (Rltb _ _); ring.
  - intros ein bp He1 He2. destruct (dropout_backward_ok I q ein (rows X) bp Hq Sm) as (q2 & e & Eb & _ & (T1 & T2) & Fe); [split; auto|].
    exists q2, e. split; auto. split; auto. split; auto. intros n i Hn Hi'. rewrite Fe, Fm by auto.
    unfold suppressed. destruct (Rltb _ _); ring.
Qed.

(** ** C42: use.  Without dropout every output is (1 - probability) times the input, and so
    is the error that is passed back. *)
Theorem C42_dropout_scaling junk I prob rnd s X :
  history (dropout_class junk) I I (dropout_new junk I prob rnd) s -> cols X = I -> 0 <= prob ->
  exists q Y, dropout_forward junk s X false = Ok (q, Y, 0) /\
    rows Y = rows X /\ cols Y = I /\ dpass q = dpass s /\
    (forall n i, (n < rows X)%nat -> (i < I)%nat -> at_ Y n i = (1 - prob) * at_ X n i) /\
    forall ein bp, rows ein = rows X -> cols ein = I ->
      exists q2 e, dropout_backward q ein bp = Ok (q2, e) /\ rows e = rows X /\ cols e = I /\
      forall n i, (n < rows X)%nat -> (i < I)%nat -> at_ e n i = (1 - prob) * at_ ein n i.
Proof.
  intros Hh HX Hp. destruct (dropout_history junk I prob rnd s Hh) as (Hi & P & Q).
  destruct (dropout_forward_ok junk I s X false (rows X) Hi) as (q & y & E & (S1 & S2) & Hq & F & Sm & Fm); [split; auto|].
  assert (Ef : forall n i, dropout_factor s false n i = 1 - prob).
  { intros. unfold dropout_factor. rewrite P. destruct (Rltb 0 prob) eqn:Er; auto. apply Rltb_false in Er. lra. }
  exists q, y. split; auto. split; auto. split; auto. split.
  { unfold dropout_forward in E. apply bind_Ok in E. destruct E as (m & _ & E).
    apply bind_Ok in E. destruct E as (y' & _ & E). injection E as <- _. reflexivity. }
  split.
  - intros n i Hn Hi'. now rewrite F, Ef by auto.
  - intros ein bp He1 He2. destruct (dropout_backward_ok I q ein (rows X) bp Hq Sm) as (q2 & e & Eb & _ & (T1 & T2) & Fe); [split; auto|].
    exists q2, e. split; auto. split; auto. split; auto. intros n i Hn Hi'. now rewrite Fe, Fm, Ef by auto.
Qed.

(** ** C42: that is the expected training output.  If a number is drawn uniformly from
    0/K, 1/K, ..., (K-1)/K and the probability is a multiple m/K, the mean of the K possible
    training outputs is the output without dropout. *)
Theorem C42_dropout_expectation junk I m K n i X : (0 < K)%nat -> (m <= K)%nat ->
  cols X = I -> (n < rows X)%nat -> (i < I)%nat ->
  let prob := INR m / INR K in
  let layer := fun u => dropout_new junk I prob (fun _ _ _ => INR u / INR K) in
  exists (out : nat -> R) (used : R),
    (forall u, (u < K)%nat -> exists q Y, dropout_forward junk (layer u) X true = Ok (q, Y, 0) /\ at_ Y n i = out u) /\
    (exists q Y, dropout_forward junk (layer 0%nat) X false = Ok (q, Y, 0) /\ at_ Y n i = used) /\
    rsum K out / INR K = used.
Proof.
  intros HK Hm HX Hn Hi prob layer.
  assert (PK : 0 < INR K) by (now apply lt_0_INR).
  exists (fun u => if Nat.ltb u m then 0 else at_ X n i), ((1 - prob) * at_ X n i).
  split; [|split].
  - intros u Hu. destruct (C42_dropout_training junk I prob (fun _ _ _ => INR u / INR K) (layer u) X) as (k & q & Y & E & _ & _ & _ & _ & F & _); auto; [constructor|].
    exists q, Y. split; auto. rewrite F by auto. unfold suppressed, prob.
    destruct (Nat.ltb_spec u m) as [H|H].
    + replace (Rltb (INR u / INR K) (INR m / INR K)) with true; auto. symmetry. apply Rltb_true.
      apply Rmult_lt_compat_r; [now apply Rinv_0_lt_compat|now apply lt_INR].
    + replace (Rltb (INR u / INR K) (INR m / INR K)) with false; auto. symmetry. apply Rltb_false.
      apply Rmult_le_compat_r; [left; now apply Rinv_0_lt_compat|now apply le_INR].
  - destruct (C42_dropout_scaling junk I prob (fun _ _ _ => INR 0 / INR K) (layer 0%nat) X) as (q & Y & E & _ & _ & _ & F & _); auto.
    + constructor.
    + unfold prob. apply Rle_mult_inv_pos; auto. apply pos_INR.
    + exists q, Y. split; auto.
  - replace K with (m + (K - m))%nat at 1 by lia. rewrite rsum_app.
    rewrite rsum_0. 2:{ intros u Hu. apply Nat.ltb_lt in Hu. now rewrite Hu. }
    rewrite (rsum_ext (K - m) _ (fun _ => at_ X n i)).
    2:{ intros u Hu. destruct (Nat.ltb_spec (m + u) m); [lia|auto]. }
    rewrite rsum_const, minus_INR by lia. unfold prob. field. lra.
Qed.

(** * Layers without trainable parameters *)
(** ** C42, C51, C52: exact gradients with respect to the input. *)
Theorem C42_dropout_gradient junk I prob rnd s X dropout e bp :
  history (dropout_class junk) I I (dropout_new junk I prob rnd) s ->
  cols X = I -> rows e = rows X -> cols e = I ->
  partials_exact (dropout_class junk) s [] X dropout e bp.
Proof.
  intros Hh HX He1 He2. destruct (dropout_history junk I prob rnd s Hh) as (Hi & _).
  apply (contract_partials (dropout_class junk) I I 0 (dropout_inv I) (fun _ _ => True)); auto. apply dropout_contract.
Qed.

(** * Extreme *)
Lemma extreme_history junk I J bias act w s :
  history (extreme_class junk) I J (extreme_new junk I J bias act w) s -> extreme_inv I J bias act w s.
Proof.
  induction 1 as [|s p q Hh IH Hp E|s X dropout q Y r Hh IH HX E|s X dropout q Y r ein bp q2 eout Hh IH HX E He1 He2 Eb].
  - repeat split; auto.
  - unfold install, writeAll in E. unfold paramCount in Hp. simpl in Hp. rewrite Hp in E.
    simpl in E. injection E as <-. auto.
  - destruct (extreme_forward_ok junk I J bias act w s X dropout (rows X) IH) as (q1 & y & E1 & _ & I1 & _); [split; auto|].
    cbn [forwardPropagate extreme_class] in E. congruence.
  - destruct (extreme_forward_ok junk I J bias act w s X dropout (rows X) IH) as (q1 & y & E1 & Sy & I1 & _ & F2 & F3); [split; auto|].
    cbn [forwardPropagate backpropagate extreme_class] in E, Eb. assert (q1 = q) by congruence. subst q1.
    destruct (extreme_backward_ok junk I J bias act w q (rows X) y ein bp) as (q3 & e3 & E3 & I3 & _);
      auto; [split; auto|congruence].
Qed.

(** ** C51: the random weights never change; the layer computes act(x W^T + b) with them. *)
Theorem C51_extreme_forward junk I J bias act w s X dropout :
  history (extreme_class junk) I J (extreme_new junk I J bias act w) s -> cols X = I ->
  paramCount (extreme_class junk) s = 0%nat /\
  exists q Y, extreme_forward junk s X dropout = Ok (q, Y, 0) /\ rows Y = rows X /\ cols Y = J /\
    forall n j, (n < rows X)%nat -> (j < J)%nat ->
      at_ Y n j = act_fun act (rsum I (fun i => at_ X n i * w j i) + if bias then w j I else 0).
Proof.
  intros Hh HX. apply extreme_history in Hh. split; [reflexivity|].
  destruct (extreme_forward_ok junk I J bias act w s X dropout (rows X) Hh) as (q & y & E & (S1 & S2) & _ & F & _); [split; auto|].
  exists q, y. split; [auto|]. split; [auto|]. split; [auto|]. intros. apply F.
Qed.

Theorem C51_extreme_gradient junk I J bias act w s X dropout e bp :
  history (extreme_class junk) I J (extreme_new junk I J bias act w) s ->
  cols X = I -> rows e = rows X -> cols e = J ->
  (forall n j, (n < rows X)%nat -> (j < J)%nat ->
     act_smooth act (rsum I (fun i => at_ X n i * w j i) + if bias then w j I else 0)) ->
  partials_exact (extreme_class junk) s [] X dropout e bp.
Proof.
  intros Hh HX He1 He2 Sm. apply extreme_history in Hh.
  apply (contract_partials (extreme_class junk) I J 0 (extreme_inv I J bias act w) (extreme_smooth I J bias act w)); auto.
  apply extreme_contract.
Qed.

(** * IntrinsicPlasticity *)
Lemma ip_history junk I s b l :
  history (ip_class junk) I I (ip_new junk I s b) l -> ip_inv I s b l.
Proof.
  induction 1 as [|l p q Hh IH Hp E|l X dropout q Y r Hh IH HX E|l X dropout q Y r ein bp q2 eout Hh IH HX E He1 He2 Eb].
  - repeat split; auto.
  - unfold install, writeAll in E. unfold paramCount in Hp. simpl in Hp. rewrite Hp in E.
    simpl in E. injection E as <-. auto.
  - destruct (ip_forward_ok junk I s b l X dropout (rows X) IH) as (q1 & y & E1 & _ & I1 & _); [split; auto|].
    cbn [forwardPropagate ip_class] in E. congruence.
  - destruct (ip_forward_ok junk I s b l X dropout (rows X) IH) as (q1 & y & E1 & Sy & I1 & _ & F3); [split; auto|].
    cbn [forwardPropagate backpropagate ip_class] in E, Eb. assert (q1 = q) by congruence. subst q1.
    destruct (ip_backward_ok junk I s b q (rows X) y ein bp) as (q3 & e3 & E3 & I3 & _);
      auto; [split; auto|congruence].
Qed.

(** ** C52: each node computes logistic(s * x + b). *)
Theorem C52_ip_forward junk I s b l X dropout :
  history (ip_class junk) I I (ip_new junk I s b) l -> cols X = I ->
  exists q Y, ip_forward junk l X dropout = Ok (q, Y, 0) /\ rows Y = rows X /\ cols Y = I /\
    forall n i, (n < rows X)%nat -> (i < I)%nat ->
      at_ Y n i = act_fun LOGISTIC (at_ X n i * s i + b i).
Proof.
  intros Hh HX. apply ip_history in Hh.
  destruct (ip_forward_ok junk I s b l X dropout (rows X) Hh) as (q & y & E & (S1 & S2) & _ & F & _); [split; auto|].
  exists q, y. auto.
Qed.

Theorem C52_ip_gradient junk I s b l X dropout e bp :
  history (ip_class junk) I I (ip_new junk I s b) l ->
  cols X = I -> rows e = rows X -> cols e = I ->
  (forall n i, (n < rows X)%nat -> (i < I)%nat -> act_smooth LOGISTIC (at_ X n i * s i + b i)) ->
  partials_exact (ip_class junk) l [] X dropout e bp.
Proof.
  intros Hh HX He1 He2 Sm. apply ip_history in Hh.
  apply (contract_partials (ip_class junk) I I 0 (ip_inv I s b) (ip_smooth I s b)); auto. apply ip_contract.
Qed.

(** * Compressed *)
Lemma k_history junk I J M bias act phi reg s :
  history (k_class junk) I J (k_new junk I J M bias act phi reg) s -> k_inv I J M bias act phi reg s.
Proof.
  induction 1 as [|s p q Hh IH Hp E|s X dropout q Y r Hh IH HX E|s X dropout q Y r ein bp q2 eout Hh IH HX E He1 He2 Eb].
  - unfold k_inv, k_new, size_is. simpl. repeat (split; auto).
  - unfold paramCount in Hp. cbn [initialize k_class] in Hp.
    rewrite (k_init I J M bias act phi reg s IH) in Hp. cbn [fst] in Hp. rewrite k_locs_length in Hp.
    destruct (k_install junk I J M bias act phi reg s p IH Hp) as (q0 & E0 & I0 & _). congruence.
  - destruct (k_forward_ok junk I J M bias act phi reg s X dropout (rows X) IH) as (q1 & y & E1 & _ & I1 & _); [split; auto|].
    cbn [forwardPropagate k_class] in E. congruence.
  - destruct (k_forward_ok junk I J M bias act phi reg s X dropout (rows X) IH) as (q1 & y & E1 & Sy & I1 & _ & _ & _ & F3 & F4 & F5); [split; auto|].
    cbn [forwardPropagate backpropagate k_class] in E, Eb. assert (q1 = q) by congruence. subst q1.
    destruct (k_backward_ok junk I J M bias act phi reg q (rows X) y X ein bp) as (q3 & e3 & E3 & I3 & _);
      auto; try (split; auto; fail). congruence.
Qed.

(** weight (j, i) of a full layer, generated from parameters [p] = alpha (row by row) *)
Definition generated (M : nat) (phi : nat -> nat -> R) (p : list R) (j i : nat) : R :=
  rsum M (fun m => p.[j * M + m] * phi m i).

(** ** C43: the forward pass is that of a fully connected layer with W = alpha * phi (the
    last column of phi generates the biases). *)
Theorem C43_compressed_forward junk I J M bias act phi reg s p X dropout :
  history (k_class junk) I J (k_new junk I J M bias act phi reg) s ->
  length p = (J * M)%nat -> cols X = I ->
  exists q q1 Y r, install (k_class junk) s p = Ok q /\
    k_forward junk q X dropout = Ok (q1, Y, r) /\ rows Y = rows X /\ cols Y = J /\
    (forall n j, (n < rows X)%nat -> (j < J)%nat ->
      at_ Y n j = act_fun act (rsum I (fun i => at_ X n i * generated M phi p j i) +
                               if bias then generated M phi p j I else 0)) /\
    r = (if Rltb 0 (l1Penalty reg)
         then l1Penalty reg * rsum J (fun j => rsum M (fun m => Rabs p.[j * M + m])) else 0) +
        (if Rltb 0 (l2Penalty reg)
         then l2Penalty reg / 2 * rsum J (fun j => rsum M (fun m => p.[j * M + m] ^ 2)) else 0).
Proof.
  intros Hh Hp HX. apply k_history in Hh.
  destruct (k_install junk I J M bias act phi reg s p Hh Hp) as (q & E & Hq & R1 & R2).
  destruct (k_forward_ok junk I J M bias act phi reg q X dropout (rows X) Hq) as (q1 & y & Ef & (S1 & S2) & _ & F & _); [split; auto|].
  exists q, q1, y, (regError reg (kalpha q)). split; auto. split; auto. split; auto. split; auto.
  assert (EW : forall j i, (j < J)%nat -> at_ (kW q) j i = generated M phi p j i).
  { intros j i Hj. rewrite R2. apply rsum_ext. intros m Hm. now rewrite R1. }
  split.
  - intros n j Hn Hj. rewrite F. f_equal. unfold k_preact. f_equal.
    + apply rsum_ext. intros i Hi. now rewrite EW.
    + destruct bias; auto.
  - assert (SA : size_is (kalpha q) J M) by apply Hq. destruct SA as (W1 & W2). unfold regError. f_equal.
    + destruct (Rltb 0 (l1Penalty reg)); auto. f_equal. unfold msum, mmap. simpl. rewrite W1, W2.
      apply rsum_ext. intros. apply rsum_ext. intros. now rewrite R1 by auto.
    + destruct (Rltb 0 (l2Penalty reg)); auto. unfold Rdiv. rewrite Rmult_assoc, (Rmult_comm _ (/ 2)), <- Rmult_assoc. f_equal. unfold msum, mmap. simpl. rewrite W1, W2.
      apply rsum_ext. intros. apply rsum_ext. intros. rewrite R1 by auto. ring.
Qed.

(** The same, side by side with the model of FullyConnected. *)
Theorem C43_same_as_fully_connected junk I J M bias act phi reg s p X dropout s' p' :
  history (k_class junk) I J (k_new junk I J M bias act phi reg) s ->
  length p = (J * M)%nat -> cols X = I ->
  history (fc_class junk) I J (fc_new junk I J bias act (mkReg 0 0 0)) s' ->
  length p' = (J * (I + if bias then 1 else 0))%nat ->
  (forall j i, (j < J)%nat -> (i < I)%nat -> weight I bias p' j i = generated M phi p j i) ->
  (bias = true -> forall j, (j < J)%nat -> biasOf I bias p' j = generated M phi p j I) ->
  exists q q1 Y r q' q1' Y' r',
    install (k_class junk) s p = Ok q /\ k_forward junk q X dropout = Ok (q1, Y, r) /\
    install (fc_class junk) s' p' = Ok q' /\ fc_forward junk q' X dropout = Ok (q1', Y', r') /\
    meq Y Y'.
Proof.
  intros Hh Hp HX Hh' Hp' HW Hb.
  destruct (C43_compressed_forward junk I J M bias act phi reg s p X dropout Hh Hp HX) as (q & q1 & Y & r & E1 & E2 & S1 & S2 & F & _).
  destruct (C32_fc_forward junk I J bias act (mkReg 0 0 0) s' p' X dropout Hh') as (q' & q1' & Y' & r' & E1' & E2' & S1' & S2' & F' & _); auto.
  { simpl. lra. }
  exists q, q1, Y, r, q', q1', Y', r'. split; auto. split; auto. split; auto. split; auto.
  split; [congruence|]. split; [congruence|]. intros n j Hn Hj. rewrite S1 in Hn. rewrite S2 in Hj.
  rewrite F, F' by auto. f_equal. unfold activation. f_equal.
  - apply rsum_ext. intros i Hi. now rewrite HW.
  - destruct bias eqn:Eb; [rewrite Hb by auto; auto|reflexivity].
Qed.

(** ** C43: exact gradients with respect to alpha and the input. *)
Theorem C43_compressed_gradient junk I J M bias act phi reg s p X dropout e bp :
  history (k_class junk) I J (k_new junk I J M bias act phi reg) s ->
  length p = (J * M)%nat -> cols X = I -> rows e = rows X -> cols e = J ->
  (forall n j, (n < rows X)%nat -> (j < J)%nat ->
     act_smooth act (rsum I (fun i => at_ X n i * generated M phi p j i) +
                     if bias then generated M phi p j I else 0)) ->
  (0 < l1Penalty reg -> forall k, (k < J * M)%nat -> p.[k] <> 0) ->
  partials_exact (k_class junk) s p X dropout e bp.
Proof.
  intros Hh Hp HX He1 He2 Sm1 Sm2. apply k_history in Hh.
  eapply contract_partials; eauto; [apply k_contract|].
  intros q E. destruct (k_install junk I J M bias act phi reg s p Hh Hp) as (q0 & E0 & Hq & R1 & R2).
  assert (q0 = q) by congruence. subst q0.
  assert (EW : forall j i, (j < J)%nat -> k_weight M phi (at_ (kalpha q)) j i = generated M phi p j i).
  { intros j i Hj. apply rsum_ext. intros m Hm. now rewrite R1. }
  split.
  - intros n j Hn Hj. unfold k_preact. specialize (Sm1 n j Hn Hj).
    replace (rsum I (fun i => at_ X n i * k_weight M phi (at_ (kalpha q)) j i))
      with (rsum I (fun i => at_ X n i * generated M phi p j i)) by (apply rsum_ext; intros; now rewrite EW).
    destruct bias; auto. rewrite EW by auto. auto.
  - intros Hl j m Hj Hm. rewrite R1 by auto. apply Sm2; auto. now apply join_index.
Qed.

(** ** The hypotheses can be met. *)
Example dropout_example : forall junk,
  let X := mkMat 1 2 (fun _ i => 5 + INR i) in
  exists q Y, dropout_forward junk (dropout_new junk 2 (1/2) (fun _ _ i => INR i)) X true = Ok (q, Y, 0) /\
    at_ Y 0 0 = 0 /\ at_ Y 0 1 = 6.
Proof.
  intros junk X.
  destruct (C42_dropout_training junk 2 (1/2) (fun _ _ i => INR i) (dropout_new junk 2 (1/2) (fun _ _ i => INR i)) X)
    as (k & q & Y & E & _ & _ & _ & _ & F & _); [constructor|reflexivity|].
  exists q, Y. split; auto. rewrite !F by (simpl; lia). unfold suppressed, Rltb. simpl.
  destruct (Rlt_dec 0 (1 / 2)); [|lra]. destruct (Rlt_dec 1 (1 / 2)); [lra|]. split; lra.
Qed.

Example compressed_example : forall junk,
  partials_exact (k_class junk)
    (k_new junk 3 2 2 true LOGISTIC (fun m i => INR (m + i)) (mkReg 0 1 0)) [1; 2; 3; 4]
    (mkMat 1 3 (fun _ _ => 0)) false (mkMat 1 2 (fun _ _ => 1)) true.
Proof.
  intros junk.
  apply (C43_compressed_gradient junk 3 2 2 true LOGISTIC (fun m i => INR (m + i)) (mkReg 0 1 0)); auto.
  - constructor.
  - intros n j Hn Hj. destruct j as [|[|j]]; [| |simpl in Hj; lia]; unfold generated; simpl; lra.
  - simpl. lra.
Qed.

Print Assumptions C42_dropout_training.
Print Assumptions C42_dropout_scaling.
Print Assumptions C42_dropout_expectation.
Print Assumptions C42_dropout_gradient.
Print Assumptions C51_extreme_forward.
Print Assumptions C51_extreme_gradient.
Print Assumptions C52_ip_forward.
Print Assumptions C52_ip_gradient.
Print Assumptions C43_compressed_forward.
Print Assumptions C43_same_as_fully_connected.
Print Assumptions C43_compressed_gradient.
