(** Every modelled layer meets the conditions of LayerFun_Spec.v. *)
From Verif Require Import Base BaseFacts Matrix RSum MatOps Vec Deriv Acc Activation_Model
  Activation_Proofs Layer_Model Layer_Spec Layer_Proofs Layer_Layout LayerFun_Spec FC_Model Reg_Proofs FC_Proofs
  SimpleLayers_Model SimpleLayers_Proofs Compressed_Proofs Conv_Model Conv_Proofs Pool_Model Pool
  Subs_Proofs MaxPool_Proofs.
Local Open Scope R_scope.

Ltac ok_inv H :=
  repeat match type of H with
  | bind ?m _ = Ok _ => let E := fresh "E" in destruct m eqn:E; try discriminate H; cbn [bind] in H
  | (let '(_, _) := ?x in _) = Ok _ => destruct x
  end.

Lemma readParam_same (c : LayerClass) (q s : St c) : fst (initialize c q) = fst (initialize c s) ->
  (forall l, In l (fst (initialize c s)) -> load c q l = load c s l) ->
  forall k, readParam c q k = readParam c s k.
Proof.
  intros E H k. unfold readParam. rewrite E. unfold vget. destruct (nth_error _ k) as [l|] eqn:En; auto. cbn [bind].
  apply H. eapply nth_error_In. eauto.
Qed.

Lemma same_fun_refl c O K fn rg s : same_fun c O K fn rg s s.
Proof. split; auto. Qed.

Lemma install_read c I O K Inv smooth s p q : contract c I O K Inv smooth -> Inv s -> length p = K ->
  install c s p = Ok q -> Inv q /\ forall k, (k < K)%nat -> readParam c q k = Ok p.[k].
Proof.
  intros C Hs Hp E. destruct (writeAll_Ok c K Inv s p (ct_write _ _ _ _ _ _ C) Hs Hp) as (w & E1 & I1 & R1).
  destruct (ct_updated _ _ _ _ _ _ C w I1) as (q' & E2 & I2 & R2).
  unfold install in E. rewrite E1 in E. cbn [bind] in E. assert (q' = q) by congruence. subst q'.
  split; auto. intros k Hk. rewrite R2; auto.
Qed.

Lemma msum_ext A B r c : size_is A r c -> size_is B r c ->
  (forall i j, (i < r)%nat -> (j < c)%nat -> at_ A i j = at_ B i j) -> msum A = msum B.
Proof.
  intros (A1 & A2) (B1 & B2) H. unfold msum. rewrite A1, A2, B1, B2. apply rsum_ext. intros i Hi.
  apply rsum_ext. auto.
Qed.
Lemma regError_ext reg A B r c : size_is A r c -> size_is B r c ->
  (forall i j, (i < r)%nat -> (j < c)%nat -> at_ A i j = at_ B i j) -> regError reg A = regError reg B.
Proof.
  intros SA SB H. unfold regError.
  rewrite (msum_ext (mmap Rabs A) (mmap Rabs B) r c); [|exact SA|exact SB|].
  - rewrite (msum_ext (mmap (fun w => w * w) A) (mmap (fun w => w * w) B) r c); [auto|exact SA|exact SB|].
    intros. unfold mmap. simpl. now rewrite H.
  - intros. unfold mmap. simpl. now rewrite H.
Qed.

(** a contract with an additional invariant *)
Lemma contract_and c I O K Inv smooth (Q : St c -> Prop) : contract c I O K Inv smooth ->
  (forall s k v s', Q s -> writeParam c s k v = Ok s' -> Q s') ->
  (forall s s', Q s -> updatedParameters c s = Ok s' -> Q s') ->
  (forall s X d s' Y r, Q s -> forwardPropagate c s X d = Ok (s', Y, r) -> Q s') ->
  (forall s e bp s' e', Q s -> backpropagate c s e bp = Ok (s', e') -> Q s') ->
  contract c I O K (fun s => Inv s /\ Q s) smooth.
Proof.
  intros C Hw Hu Hf Hb. constructor.
  - intros s (Hs & _). now apply (ct_count _ _ _ _ _ _ C).
  - intros s k (Hs & _). now apply (ct_read _ _ _ _ _ _ C).
  - intros s k v (Hs & HQ) Hk. destruct (ct_write _ _ _ _ _ _ C s k v Hs Hk) as (s' & E & H1 & H2).
    exists s'. split; auto. split; eauto.
  - intros s (Hs & HQ). destruct (ct_updated _ _ _ _ _ _ C s Hs) as (s' & E & H1 & H2).
    exists s'. split; auto. split; eauto.
  - intros s dropout N t0 p p' X X' (Hs & HQ) Hp HX DP DX HS.
    destruct (ct_gradient _ _ _ _ _ _ C s dropout N t0 p p' X X' Hs Hp HX DP DX HS)
      as (q1 & Y & reg & Y' & reg' & HF & HY & HI1 & DY & DR & HB).
    assert (G : forall t, Inv (q1 t) /\ Q (q1 t)).
    { intros t. split; auto. destruct (HF t) as (q & E1 & E2). refine (Hf _ _ _ _ _ _ _ E2).
      unfold install in E1. destruct (writeAll c s (p t)) as [w| | | |] eqn:Ew; try discriminate. cbn [bind] in E1.
      refine (Hu _ _ _ E1). unfold writeAll, for_ in Ew.
      refine (for_pres Q _ _ _ _ _ _ Ew HQ). intros i a a' Ea Ha. destruct (vget (p t) i) as [v| | | |]; try discriminate.
      eauto. }
    exists q1, Y, reg, Y', reg'. split; auto. split; auto. split; auto. split; auto. split; auto.
    intros ein bp He. destruct (HB ein bp He) as (q2 & eout & g & B1 & B2 & B3 & B4 & B5).
    exists q2, eout, g. split; auto. split; auto. split; auto. refine (Hb _ _ _ _ _ _ B1). apply G.
Qed.

(** * Input *)
Lemma input_contract J : contract input_class J J 0 (fun _ => True) (fun _ _ => True).
Proof.
  constructor.
  - intros. split; reflexivity.
  - intros; lia.
  - intros; lia.
  - intros s _. exists s. auto.
  - intros s dropout N t0 p p' X X' _ Hp HX _ DX _.
    assert (Hi : forall t, install input_class s (p t) = Ok s).
    { intros t. apply no_install; auto. }
    exists (fun t => mkInput (inJ s) (X t)), X, (fun _ => 0), X', 0.
    split; [|split; [|split; [|split; [|split]]]]; auto.
    + intros t. exists s. auto.
    + apply D_const.
    + intros ein bp He. exists (mkInput (inJ s) (X t0)), ein, (fun _ => 0). split; auto. split; auto. split; [intros; lia|]. split.
      * intros _. split; auto. simpl. ring.
      * intros _ H0. simpl. unfold inner. rewrite (rsum_0 N); [ring|]. intros n Hn. apply rsum_0. intros i Hi'.
        rewrite H0 by auto. ring.
Qed.

Lemma input_ok J : layer_ok input_class J J 0 (fun _ => True) (fun _ _ => True) (fun _ _ _ x j => if Nat.ltb j J then x j else 0) (fun _ => 0).
Proof.
  constructor.
  - apply input_contract.
  - intros s d m x x' j _ H. destruct (Nat.ltb_spec j J); auto.
  - reflexivity.
  - intros s X dropout _ HX. exists (mkInput (inJ s) X), X. split; auto. split; auto. split; [split; auto|]. split; auto. split; auto.
    intros n j _ Hj. apply Nat.ltb_lt in Hj. now rewrite Hj.
  - intros s X dropout q Y r ein bp q2 eout _ HX _ He1 He2 E. simpl in E. unfold input_backward in E. injection E as <- <-.
    split; auto. split; [apply same_fun_refl|]. intros _. split; congruence.
  - intros. split; [intros; lia|]. split; auto.
Qed.

(** * FullyConnected *)
Section FC.
Context (junk : nat -> nat -> R) (I J : nat) (bias : bool) (act : ActivationFunction) (reg : Regularization).
Definition fc_fn (s : fc) (dropout : bool) (n : nat) (x : nat -> R) (j : nat) : R :=
  act_fun act (rsum I (fun i => x i * at_ (fW s) j i) + if bias then at_ (fb s) j 0 else 0).
Definition fc_rg (s : fc) : R := regError reg (fW s).

Lemma fc_same q s : fI q = fI s -> fJ q = fJ s -> fbias q = fbias s -> fW q = fW s -> fb q = fb s ->
  same_fun (fc_class junk) J (J * unitParams I bias) fc_fn fc_rg q s.
Proof.
  intros E1 E2 E3 E4 E5. split; [|split].
  - intros k _. apply readParam_same.
    + cbn [initialize fc_class fc_initialize fst]. now rewrite E1, E2, E3.
    + intros l Hl. cbn [initialize fc_class fc_initialize fst] in Hl. apply in_flat_map in Hl. destruct Hl as (j & _ & Hl).
      apply in_app_or in Hl. destruct Hl as [Hl|Hl].
      * apply in_map_iff in Hl. destruct Hl as (i & <- & _). cbn [load fc_class fc_load]. now rewrite E4.
      * destruct (fbias s); [|easy]. destruct Hl as [<-|[]]. cbn [load fc_class fc_load]. now rewrite E5.
  - intros n x j _. unfold fc_fn. now rewrite E4, E5.
  - unfold fc_rg. now rewrite E4.
Qed.

Lemma fc_ok : maxSquaredWeightNorm reg <= 0 ->
  layer_ok (fc_class junk) I J (J * unitParams I bias) (fc_inv I J bias act reg) (fc_smooth I J bias act reg) fc_fn fc_rg.
Proof.
  intros Hm. constructor.
  - now apply fc_contract.
  - intros s d m x x' j _ H. unfold fc_fn. f_equal. f_equal. apply rsum_ext. intros i Hi. now rewrite H.
  - reflexivity.
  - intros s X dropout Hs HX.
    destruct (fc_forward_ok junk I J bias act reg s X dropout (rows X) Hs) as (q & y & E & (S1 & S2) & I1 & F1 & _); [split; auto|].
    exists q, y. split; auto. split; auto. split; [|split; [|split]]; auto.
    + apply fc_same; cbn [forwardPropagate fc_class] in E; unfold fc_forward in E; ok_inv E; injection E as <- _ _; reflexivity.
    + intros n j _ _. apply F1.
  - intros s X dropout q Y r ein bp q2 eout Hs HX E He1 He2 Eb.
    destruct (fc_forward_ok junk I J bias act reg s X dropout (rows X) Hs) as (q1 & y & E1 & Sy & I1 & _ & F2 & F3 & F4 & F5); [split; auto|].
    cbn [forwardPropagate backpropagate fc_class] in E, Eb. assert (q1 = q) by congruence. subst q1.
    destruct (fc_backward_ok junk I J bias act reg q (rows X) (fW s) y X ein bp) as (q3 & e3 & E3 & I3 & _ & _ & Se3);
      auto; try (split; auto; fail); [apply Hs|].
    rewrite Eb in E3. injection E3 as <- <-. split; auto. split; [|intros Hbp; now apply Se3].
    clear F5 Sy. apply fc_same; unfold fc_backward in Eb; ok_inv Eb; injection Eb as <- _; reflexivity.
  - intros s s' p q q' Hs Hs' Hp E E'.
    destruct (fc_install junk I J bias act reg Hm s p Hs Hp) as (q1 & E1 & Hq & W1 & B1).
    destruct (fc_install junk I J bias act reg Hm s' p Hs' Hp) as (q2 & E2 & Hq' & W2 & B2).
    assert (q1 = q) by congruence. assert (q2 = q') by congruence. subst q1 q2. split; [|split].
    + pose proof (fc_contract junk I J bias act reg Hm) as C.
      intros k Hk. destruct (install_read _ _ _ _ _ _ s p q C Hs Hp E) as (_ & Rq).
      destruct (install_read _ _ _ _ _ _ s' p q' C Hs' Hp E') as (_ & Rq'). now rewrite Rq, Rq' by auto.
    + intros m x j Hj. unfold fc_fn. f_equal. f_equal.
      * apply rsum_ext. intros i Hi. now rewrite W1, W2.
      * destruct bias; auto. now rewrite B1, B2.
    + unfold fc_rg. apply regError_ext with J I; auto; [apply Hq|apply Hq'|]. intros a b Ha Hb. now rewrite W1, W2.
Qed.
End FC.

(** * Dropout *)
Section Dropout.
Context (junk : nat -> nat -> R) (I : nat) (prob : R).
Definition dropout_fn (s : dropoutLayer) (dropout : bool) (n : nat) (x : nat -> R) (j : nat) : R :=
  if Nat.ltb j I then dropout_factor s dropout n j * x j else 0.

Lemma dropout_same q s : dprob q = dprob s -> same_fun (dropout_class junk) I 0 dropout_fn (fun _ => 0) q s.
Proof. intros E. split; [intros; lia|]. split; auto. intros n x j _. unfold dropout_fn, dropout_factor. now rewrite E. Qed.

Lemma dropout_ok : layer_ok (dropout_class junk) I I 0 (fun s => dropout_inv I s /\ dprob s = prob) (fun _ _ => True)
  dropout_fn (fun _ => 0).
Proof.
  constructor.
  - apply contract_and.
    + apply dropout_contract.
    + intros s k v s' _ E. unfold writeParam in E. cbn in E. destruct k; discriminate.
    + intros s s' H E. cbn in E. now injection E as <-.
    + intros s X d s' Y r H E. cbn [forwardPropagate dropout_class] in E. unfold dropout_forward in E. ok_inv E. injection E as <- _. exact H.
    + intros s e bp s' e' H E. cbn [backpropagate dropout_class] in E. unfold dropout_backward in E. ok_inv E. injection E as <- _. exact H.
  - intros s d m x x' j _ H. unfold dropout_fn. destruct (Nat.ltb_spec j I); auto. now rewrite H.
  - reflexivity.
  - intros s X dropout (Hs & HQ) HX.
    destruct (dropout_forward_ok junk I s X dropout (rows X) Hs) as (q & y & E & (S1 & S2) & I1 & F1 & _); [split; auto|].
    assert (Eq : dprob q = dprob s).
    { unfold dropout_forward in E; ok_inv E; injection E as <- _; reflexivity. }
    exists q, y. split; auto. split; [split; congruence|]. split; [|split; [|split]]; auto.
    + now apply dropout_same.
    + intros n j Hn Hj. rewrite F1 by auto. unfold dropout_fn. apply Nat.ltb_lt in Hj. now rewrite Hj.
  - intros s X dropout q Y r ein bp q2 eout (Hs & HQ) HX E He1 He2 Eb.
    destruct (dropout_forward_ok junk I s X dropout (rows X) Hs) as (q1 & y & E1 & Sy & I1 & _ & F2 & F3); [split; auto|].
    cbn [forwardPropagate backpropagate dropout_class] in E, Eb. assert (q1 = q) by congruence. subst q1.
    assert (Eq : dprob q = dprob s).
    { clear E1. unfold dropout_forward in E; ok_inv E; injection E as <- _; reflexivity. }
    destruct (dropout_backward_ok I q ein (rows X) bp I1 F2) as (q3 & e3 & E3 & I3 & Se3 & _); [split; auto|].
    rewrite Eb in E3. injection E3 as <- <-.
    assert (Eq2 : dprob q2 = dprob q).
    { unfold dropout_backward in Eb; ok_inv Eb; injection Eb as <- _; reflexivity. }
    split; [split; congruence|]. split; [|auto]. now apply dropout_same.
  - intros s s' p q q' (Hs & HQ) (Hs' & HQ') Hp E E'. rewrite no_install in E, E' by auto.
    apply dropout_same. congruence.
Qed.
End Dropout.

(** * Extreme *)
Section Extreme.
Context (junk : nat -> nat -> R) (I J : nat) (bias : bool) (act : ActivationFunction) (w : nat -> nat -> R).
Definition extreme_fn (s : extreme) (dropout : bool) (n : nat) (x : nat -> R) (j : nat) : R :=
  act_fun act (rsum I (fun i => x i * w j i) + if bias then w j I else 0).

Lemma extreme_ok : layer_ok (extreme_class junk) I J 0 (extreme_inv I J bias act w) (extreme_smooth I J bias act w) extreme_fn (fun _ => 0).
Proof.
  assert (SF : forall q s, same_fun (extreme_class junk) J 0 extreme_fn (fun _ => 0) q s).
  { intros q s. split; [intros; lia|]. split; auto. }
  constructor.
  - apply extreme_contract.
  - intros s d m x x' j _ H. unfold extreme_fn. f_equal. f_equal. apply rsum_ext. intros i Hi. now rewrite H.
  - reflexivity.
  - intros s X dropout Hs HX.
    destruct (extreme_forward_ok junk I J bias act w s X dropout (rows X) Hs) as (q & y & E & (S1 & S2) & I1 & F1 & _); [split; auto|].
    exists q, y. split; auto. split; auto. split; [apply SF|split; [|split]]; auto.
    intros n j _ _. apply F1.
  - intros s X dropout q Y r ein bp q2 eout Hs HX E He1 He2 Eb.
    destruct (extreme_forward_ok junk I J bias act w s X dropout (rows X) Hs) as (q1 & y & E1 & Sy & I1 & _ & F2 & F3); [split; auto|].
    cbn [forwardPropagate backpropagate extreme_class] in E, Eb. assert (q1 = q) by congruence. subst q1.
    destruct (extreme_backward_ok junk I J bias act w q (rows X) y ein bp) as (q3 & e3 & E3 & I3 & Se3);
      auto; [split; auto|]. rewrite Eb in E3. injection E3 as <- <-. split; auto. split; [apply SF|]. intros Hbp; now apply Se3.
  - intros. apply SF.
Qed.
End Extreme.

(** * IntrinsicPlasticity *)
Section IP.
Context (junk : nat -> nat -> R) (I : nat) (s b : nat -> R).
Definition ip_fn (l : ipLayer) (dropout : bool) (n : nat) (x : nat -> R) (j : nat) : R :=
  if Nat.ltb j I then act_fun LOGISTIC (x j * s j + b j) else 0.

Lemma ip_ok : layer_ok (ip_class junk) I I 0 (ip_inv I s b) (ip_smooth I s b) ip_fn (fun _ => 0).
Proof.
  assert (SF : forall q l, same_fun (ip_class junk) I 0 ip_fn (fun _ => 0) q l).
  { intros q l. split; [intros; lia|]. split; auto. }
  constructor.
  - apply ip_contract.
  - intros l d m x x' j _ H. unfold ip_fn. destruct (Nat.ltb_spec j I); auto. now rewrite H.
  - reflexivity.
  - intros l X dropout Hs HX.
    destruct (ip_forward_ok junk I s b l X dropout (rows X) Hs) as (q & y & E & (S1 & S2) & I1 & F1 & _); [split; auto|].
    exists q, y. split; auto. split; auto. split; [apply SF|split; [|split]]; auto.
    intros n j Hn Hj. rewrite F1 by auto. unfold ip_fn. apply Nat.ltb_lt in Hj. now rewrite Hj.
  - intros l X dropout q Y r ein bp q2 eout Hs HX E He1 He2 Eb.
    destruct (ip_forward_ok junk I s b l X dropout (rows X) Hs) as (q1 & y & E1 & Sy & I1 & _ & F3); [split; auto|].
    cbn [forwardPropagate backpropagate ip_class] in E, Eb. assert (q1 = q) by congruence. subst q1.
    destruct (ip_backward_ok junk I s b q (rows X) y ein bp) as (q3 & e3 & E3 & I3 & Se3);
      auto; [split; auto|]. rewrite Eb in E3. injection E3 as <- <-. split; auto. split; [apply SF|]. intros Hbp; now apply Se3.
  - intros. apply SF.
Qed.
End IP.

(** * Compressed *)
Section K.
Context (junk : nat -> nat -> R) (I J M : nat) (bias : bool) (act : ActivationFunction)
  (phi : nat -> nat -> R) (reg : Regularization).
Definition k_fn (s : compressed) (dropout : bool) (n : nat) (x : nat -> R) (j : nat) : R :=
  act_fun act (rsum I (fun i => x i * at_ (kW s) j i) + if bias then at_ (kW s) j I else 0).
Definition k_rg (s : compressed) : R := regError reg (kalpha s).

Lemma k_same q s : kM q = kM s -> kJ q = kJ s -> kW q = kW s -> kalpha q = kalpha s ->
  same_fun (k_class junk) J (J * M) k_fn k_rg q s.
Proof.
  intros E1 E2 E3 E4. split; [|split].
  - intros k _. apply readParam_same.
    + cbn [initialize k_class k_initialize fst]. now rewrite E1, E2.
    + intros l Hl. cbn [initialize k_class k_initialize fst] in Hl. apply in_flat_map in Hl. destruct Hl as (j & _ & Hl).
      apply in_map_iff in Hl. destruct Hl as (i & <- & _). cbn [load k_class k_load]. now rewrite E4.
  - intros n x j _. unfold k_fn. now rewrite E3.
  - unfold k_rg. now rewrite E4.
Qed.

Lemma k_ok : layer_ok (k_class junk) I J (J * M) (k_inv I J M bias act phi reg) (k_smooth I J M bias act phi reg) k_fn k_rg.
Proof.
  constructor.
  - apply k_contract.
  - intros s d m x x' j _ H. unfold k_fn. f_equal. f_equal. apply rsum_ext. intros i Hi. now rewrite H.
  - reflexivity.
  - intros s X dropout Hs HX.
    destruct (k_forward_ok junk I J M bias act phi reg s X dropout (rows X) Hs) as (q & y & E & (S1 & S2) & I1 & F1 & _); [split; auto|].
    exists q, y. split; auto. split; auto. split; [|split; [|split]]; auto.
    + apply k_same; cbn [forwardPropagate k_class] in E; unfold k_forward in E; ok_inv E; injection E as <- _ _; reflexivity.
    + intros n j _ _. apply F1.
  - intros s X dropout q Y r ein bp q2 eout Hs HX E He1 He2 Eb.
    destruct (k_forward_ok junk I J M bias act phi reg s X dropout (rows X) Hs) as (q1 & y & E1 & Sy & I1 & _ & _ & _ & F3 & F4 & F5); [split; auto|].
    cbn [forwardPropagate backpropagate k_class] in E, Eb. assert (q1 = q) by congruence. subst q1.
    destruct (k_backward_ok junk I J M bias act phi reg q (rows X) y X ein bp) as (q3 & e3 & E3 & I3 & _ & Se3);
      auto; try (split; auto; fail).
    rewrite Eb in E3. injection E3 as <- <-. split; auto. split; [|intros Hbp; now apply Se3].
    clear F5 Sy. apply k_same; unfold k_backward in Eb; ok_inv Eb; injection Eb as <- _; reflexivity.
  - intros s s' p q q' Hs Hs' Hp E E'.
    destruct (k_install junk I J M bias act phi reg s p Hs Hp) as (q1 & E1 & Hq & W1 & B1).
    destruct (k_install junk I J M bias act phi reg s' p Hs' Hp) as (q2 & E2 & Hq' & W2 & B2).
    assert (q1 = q) by congruence. assert (q2 = q') by congruence. subst q1 q2.
    assert (Ew : forall j i, (j < J)%nat -> at_ (kW q) j i = at_ (kW q') j i).
    { intros j i Hj. rewrite B1, B2. unfold k_weight. apply rsum_ext. intros m Hm. now rewrite W1, W2. }
    split; [|split].
    + pose proof (k_contract junk I J M bias act phi reg) as C.
      intros k Hk. destruct (install_read _ _ _ _ _ _ s p q C Hs Hp E) as (_ & Rq).
      destruct (install_read _ _ _ _ _ _ s' p q' C Hs' Hp E') as (_ & Rq'). now rewrite Rq, Rq' by auto.
    + intros m x j Hj. unfold k_fn. f_equal. f_equal.
      * apply rsum_ext. intros i Hi. now rewrite Ew.
      * destruct bias; auto.
    + unfold k_rg. apply regError_ext with J M; auto; [apply Hq|apply Hq'|]. intros a b Ha Hb. now rewrite W1, W2.
Qed.
End K.

(** * Convolutional *)
Section Conv.
Context (junk : nat -> nat -> R) (g : cgeom) (Hg : geom_ok g).
Definition conv_fn (s : conv) (dropout : bool) (n : nat) (x : nat -> R) (j : nat) : R :=
  if Nat.ltb j (cO g) then
    act_fun (cact g) (cpre g (fun o i kr kc => at_ (tat (cW s) o i) kr kc) (at_ (cWb s)) x
      (j / fmOutSize g) (j mod fmOutSize g / maxCol g) (j mod fmOutSize g mod maxCol g))
  else 0.
Definition conv_rg (s : conv) : R := cregError g (cW s).

Lemma conv_same q s : cg q = cg s -> cW q = cW s -> cWb q = cWb s ->
  same_fun (conv_class junk) (cO g) (fmout g * cF g) conv_fn conv_rg q s.
Proof.
  intros E1 E2 E3. split; [|split].
  - intros k _. apply readParam_same.
    + cbn [initialize conv_class]. unfold conv_initialize. now rewrite E1.
    + intros l Hl. cbn [initialize conv_class] in Hl. unfold conv_initialize in Hl. cbn [fst] in Hl.
      apply in_flat_map in Hl. destruct Hl as (o & _ & Hl).
      apply in_flat_map in Hl. destruct Hl as (i & _ & Hl). apply in_app_or in Hl. destruct Hl as [Hl|Hl].
      * apply in_flat_map in Hl. destruct Hl as (kr & _ & Hl). apply in_map_iff in Hl. destruct Hl as (kc & <- & _).
        cbn [load conv_class conv_load]. now rewrite E2.
      * destruct (cbias (cg s)); [|easy]. destruct Hl as [<-|[]]. cbn [load conv_class conv_load]. now rewrite E3.
  - intros n x j _. unfold conv_fn. now rewrite E2, E3.
  - unfold conv_rg. now rewrite E2.
Qed.

Lemma conv_split j : (j < cO g)%nat -> exists o row col, (o < fmout g)%nat /\ (row < maxRow g)%nat /\ (col < maxCol g)%nat /\
  j = (o * fmOutSize g + row * maxCol g + col)%nat /\
  (j / fmOutSize g = o)%nat /\ (j mod fmOutSize g / maxCol g = row)%nat /\ (j mod fmOutSize g mod maxCol g = col)%nat.
Proof.
  intros Hj. destruct Hg as (_ & _ & _ & G4 & G5 & G6 & _). unfold cO in Hj.
  destruct (split_index (fmOutSize g) j (fmout g) Hj) as (o & k & Ho & Hk & ->). pose proof Hk as Hk'. rewrite G4 in Hk.
  destruct (split_index (maxCol g) k (maxRow g) Hk) as (row & col & Hr & Hc & ->).
  exists o, row, col. split; auto. split; auto. split; auto. split; [lia|].
  assert (D1 : ((o * fmOutSize g + (row * maxCol g + col)) / fmOutSize g = o)%nat).
  { rewrite Nat.add_comm, Nat.div_add by lia. rewrite Nat.div_small by lia. auto. }
  assert (D2 : ((o * fmOutSize g + (row * maxCol g + col)) mod fmOutSize g = row * maxCol g + col)%nat).
  { rewrite Nat.add_comm, Nat.mod_add by lia. now apply Nat.mod_small. }
  rewrite D1, D2. split; auto. split.
  - rewrite Nat.add_comm, Nat.div_add by lia. rewrite Nat.div_small by lia. auto.
  - rewrite Nat.add_comm, Nat.mod_add by lia. now apply Nat.mod_small.
Qed.

Lemma conv_ok : layer_ok (conv_class junk) (cI g) (cO g) (fmout g * cF g) (conv_inv g) (conv_smooth g) conv_fn conv_rg.
Proof.
  constructor.
  - now apply conv_contract.
  - intros s d m x x' j _ H. unfold conv_fn. destruct (Nat.ltb_spec j (cO g)) as [Hj|]; auto.
    destruct (conv_split j Hj) as (o & row & col & Ho & Hr & Hc & _ & D1 & D2 & D3). rewrite D1, D2, D3.
    f_equal. unfold cpre. apply rsum_ext. intros i Hi. f_equal. apply rsum_ext. intros kr Hkr. apply rsum_ext. intros kc Hkc.
    f_equal. apply H. destruct Hg as (G1 & _ & _ & G4 & G5 & G6 & G7 & G8). unfold cI. rewrite G1 in *.
    assert ((i + 1) * (inRows g * inCols g) <= fmin g * (inRows g * inCols g))%nat by (apply Nat.mul_le_mono_r; lia).
    assert ((row + kr + 1) * inCols g <= inRows g * inCols g)%nat by (apply Nat.mul_le_mono_r; lia). lia.
  - reflexivity.
  - intros s X dropout Hs HX.
    destruct (conv_forward_ok junk g Hg s X dropout (rows X) Hs) as (q & y & E & (S1 & S2) & I1 & F1 & E1 & E2 & _); [split; auto|].
    exists q, y. split; auto. split; auto. split; [|split; [|split]]; auto.
    + apply conv_same; auto. destruct I1 as (-> & _). destruct Hs as (-> & _). auto.
    + intros n j Hn Hj. unfold conv_fn. pose proof Hj as Hj'. apply Nat.ltb_lt in Hj'. rewrite Hj'.
      destruct (conv_split j Hj) as (o & row & col & Ho & Hr & Hc & Ej & D1 & D2 & D3). rewrite D1, D2, D3, Ej. now apply F1.
  - intros s X dropout q Y r ein bp q2 eout Hs HX E He1 He2 Eb.
    destruct (conv_forward_ok junk g Hg s X dropout (rows X) Hs) as (q1 & y & E1 & Sy & I1 & _ & _ & _ & F3 & F4 & F5); [split; auto|].
    cbn [forwardPropagate backpropagate conv_class] in E, Eb. assert (q1 = q) by congruence. subst q1.
    destruct (conv_backward_ok junk g Hg q (rows X) y X ein bp) as (q3 & e3 & E3 & I3 & Se3 & _);
      auto; try (split; auto; fail).
    rewrite Eb in E3. injection E3 as <- <-. split; auto. split; [|intros Hbp; now apply Se3].
    clear F5 Sy. apply conv_same; unfold conv_backward in Eb; ok_inv Eb; injection Eb as <- _; reflexivity.
  - intros s s' p q q' Hs Hs' Hp E E'.
    destruct (conv_install junk g s p Hs Hp) as (q1 & E1 & Hq & W1 & B1).
    destruct (conv_install junk g s' p Hs' Hp) as (q2 & E2 & Hq' & W2 & B2).
    assert (q1 = q) by congruence. assert (q2 = q') by congruence. subst q1 q2. split; [|split].
    + pose proof (conv_contract junk g Hg) as C.
      intros k Hk. destruct (install_read _ _ _ _ _ _ s p q C Hs Hp E) as (_ & Rq).
      destruct (install_read _ _ _ _ _ _ s' p q' C Hs' Hp E') as (_ & Rq'). now rewrite Rq, Rq' by auto.
    + intros m x j Hj. unfold conv_fn. pose proof Hj as Hj'. apply Nat.ltb_lt in Hj'. rewrite Hj'.
      destruct (conv_split j Hj) as (o & row & col & Ho & Hr & Hc & Ej & D1 & D2 & D3). rewrite D1, D2, D3.
      f_equal. unfold cpre. apply rsum_ext. intros i Hi. f_equal.
      * apply rsum_ext. intros kr Hkr. apply rsum_ext. intros kc Hkc. now rewrite W1, W2.
      * destruct (cbias g) eqn:Eb; auto. now rewrite B1, B2.
    + unfold conv_rg, cregError. apply rsum_ext. intros o Ho. apply rsum_ext. intros i Hi.
      apply regError_ext with (kernelRows g) (kernelCols g); [apply Hq|apply Hq'|]; auto.
      intros a b Ha Hb. now rewrite W1, W2.
Qed.
End Conv.

(** * Subsampling *)
Section Subs.
Context (junk : nat -> nat -> R) (g : pgeom) (Hg : pgeom_ok g) (bias : bool) (act : ActivationFunction)
  (reg : Regularization).
Definition subs_fn (s : subs) (dropout : bool) (n : nat) (x : nat -> R) (j : nat) : R :=
  if Nat.ltb j (pO g) then
    act_fun act (spre g bias (fun o => at_ (vat (sW s) o)) (fun o => at_ (vat (sWb s) o)) x (po g j) (pro g j) (pco g j))
  else 0.
Definition subs_rg (s : subs) : R := sregError g reg (sW s).

Lemma subs_same q s : sg q = sg s -> sbias q = sbias s -> sW q = sW s -> sWb q = sWb s ->
  same_fun (subs_class junk) (pO g) (pO g * sB bias) subs_fn subs_rg q s.
Proof.
  intros E1 E0 E2 E3. split; [|split].
  - intros k _. apply readParam_same.
    + cbn [initialize subs_class]. unfold subs_initialize. now rewrite E1, E0.
    + intros l Hl. cbn [initialize subs_class] in Hl. unfold subs_initialize in Hl. cbn [fst] in Hl.
      apply in_flat_map in Hl. destruct Hl as (o & _ & Hl).
      apply in_flat_map in Hl. destruct Hl as (r & _ & Hl). apply in_flat_map in Hl. destruct Hl as (k' & _ & Hl).
      destruct Hl as [<-|Hl]; [cbn [load subs_class subs_load]; now rewrite E2|].
      destruct (sbias s); [|easy]. destruct Hl as [<-|[]]. cbn [load subs_class subs_load]. now rewrite E3.
  - intros n x j _. unfold subs_fn. now rewrite E2, E3.
  - unfold subs_rg. now rewrite E2.
Qed.

Lemma subs_ok : layer_ok (subs_class junk) (pI g) (pO g) (pO g * sB bias) (subs_inv g bias act reg)
  (subs_smooth g bias act reg) subs_fn subs_rg.
Proof.
  constructor.
  - now apply subs_contract.
  - intros s d m x x' j _ H. unfold subs_fn. destruct (Nat.ltb_spec j (pO g)) as [Hj|]; auto.
    destruct (pout_split g Hg j Hj) as (o & r & k & Ho & Hr & Hk & ->). destruct (decode g Hg o r k Hr Hk) as (-> & -> & ->).
    unfold spre. f_equal. f_equal. f_equal. apply rsum_ext. intros kc Hkc. f_equal. apply H.
    pose proof (pbase_range g Hg o r k Ho Hr Hk). lia.
  - reflexivity.
  - intros s X dropout Hs HX.
    destruct (subs_forward_ok junk g Hg bias act reg s X dropout (rows X) Hs) as (q & y & E & (S1 & S2) & I1 & F1 & E1 & E2 & _); [split; auto|].
    exists q, y. split; auto. split; auto. split; [|split; [|split]]; auto.
    + apply subs_same; auto; destruct I1 as (a1 & a2 & _); destruct Hs as (b1 & b2 & _); congruence.
    + intros n j Hn Hj. unfold subs_fn. pose proof Hj as Hj'. apply Nat.ltb_lt in Hj'. rewrite Hj'.
      destruct (pout_split g Hg j Hj) as (o & r & k & Ho & Hr & Hk & ->). destruct (decode g Hg o r k Hr Hk) as (-> & -> & ->).
      now apply F1.
  - intros s X dropout q Y r ein bp q2 eout Hs HX E He1 He2 Eb.
    destruct (subs_forward_ok junk g Hg bias act reg s X dropout (rows X) Hs) as (q1 & y & E1 & Sy & I1 & _ & _ & _ & F3 & F4 & F5); [split; auto|].
    cbn [forwardPropagate backpropagate subs_class] in E, Eb. assert (q1 = q) by congruence. subst q1.
    destruct (subs_backward_ok junk g Hg bias act reg q (rows X) y X ein bp) as (q3 & e3 & E3 & I3 & Se3 & _);
      auto; try (split; auto; fail).
    rewrite Eb in E3. injection E3 as <- <-. split; auto. split; [|intros Hbp; now apply Se3].
    clear F5 Sy. apply subs_same; unfold subs_backward in Eb; ok_inv Eb; injection Eb as <- _; reflexivity.
  - intros s s' p q q' Hs Hs' Hp E E'.
    destruct (subs_install junk g Hg bias act reg s p Hs Hp) as (q1 & E1 & Hq & W1 & B1).
    destruct (subs_install junk g Hg bias act reg s' p Hs' Hp) as (q2 & E2 & Hq' & W2 & B2).
    assert (q1 = q) by congruence. assert (q2 = q') by congruence. subst q1 q2. split; [|split].
    + pose proof (subs_contract junk g Hg bias act reg) as C.
      intros k Hk. destruct (install_read _ _ _ _ _ _ s p q C Hs Hp E) as (_ & Rq).
      destruct (install_read _ _ _ _ _ _ s' p q' C Hs' Hp E') as (_ & Rq'). now rewrite Rq, Rq' by auto.
    + intros m x j Hj. unfold subs_fn. pose proof Hj as Hj'. apply Nat.ltb_lt in Hj'. rewrite Hj'.
      destruct (pout_split g Hg j Hj) as (o & r & k & Ho & Hr & Hk & ->). destruct (decode g Hg o r k Hr Hk) as (-> & -> & ->).
      f_equal. unfold spre. f_equal; [f_equal; apply rsum_ext; intros kc Hkc; now rewrite W1, W2|]. destruct bias; auto. now rewrite B1, B2.
    + unfold subs_rg, sregError. apply rsum_ext. intros o Ho.
      apply regError_ext with (poutRows g) (poutCols g); [apply Hq|apply Hq'|]; auto.
      intros a b Ha Hb. now rewrite W1, W2.
Qed.
End Subs.

(** * MaxPooling *)
Section MaxP.
Context (junk : nat -> nat -> R) (g : pgeom) (Hg : pgeom_ok g).
Definition maxp_fn (s : maxp) (dropout : bool) (n : nat) (x : nat -> R) (j : nat) : R :=
  if Nat.ltb j (pO g) then rmaxs (pkernelCols g) (entry g (mkMat 1 (pI g) (fun _ => x)) 0 j) (- DBL_MAX) else 0.

Lemma maxp_ok : layer_ok (maxp_class junk) (pI g) (pO g) 0 (maxp_inv g) (maxp_smooth g) maxp_fn (fun _ => 0).
Proof.
  assert (SF : forall q l, same_fun (maxp_class junk) (pO g) 0 maxp_fn (fun _ => 0) q l).
  { intros q l. split; [intros; lia|]. split; auto. }
  constructor.
  - now apply maxp_contract.
  - intros s d m x x' j _ H. unfold maxp_fn. destruct (Nat.ltb_spec j (pO g)) as [Hj|]; auto.
    apply rmaxs_ext. intros k Hk. destruct (pout_split g Hg j Hj) as (o & r & c & Ho & Hr & Hc & ->).
    rewrite !entry_pout by auto. cbn [at_]. apply H. pose proof (pbase_range g Hg o r c Ho Hr Hc). lia.
  - reflexivity.
  - intros s X dropout Hs HX.
    destruct (maxp_forward_ok junk g Hg s X dropout (rows X) Hs) as (q & y & E & (S1 & S2) & I1 & F1 & _); [split; auto|].
    exists q, y. split; auto. split; auto. split; [apply SF|split; [|split]]; auto.
    intros n j Hn Hj. rewrite F1 by auto. unfold maxp_fn. apply Nat.ltb_lt in Hj. rewrite Hj. reflexivity.
  - intros s X dropout q Y r ein bp q2 eout Hs HX E He1 He2 Eb.
    destruct (maxp_forward_ok junk g Hg s X dropout (rows X) Hs) as (q1 & y & E1 & S1 & I1 & _ & F2 & F3); [split; auto|].
    cbn [forwardPropagate backpropagate maxp_class] in E, Eb. assert (q1 = q) by congruence. subst q1.
    destruct (maxp_backward_inv g Hg q ein bp q2 eout I1 Eb) as (I2 & Se). split; auto. split; [apply SF|]. intros _.
    destruct Se, S1. split; congruence.
  - intros. apply SF.
Qed.
End MaxP.
