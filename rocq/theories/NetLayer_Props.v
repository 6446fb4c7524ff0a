(** Theorems about the access to single layers of a network (C91-C93). *)
From Verif Require Import Base BaseFacts Matrix RSum MatOps Vec Activation_Model Activation_Proofs Layer_Model Layer_Proofs FC_Model SimpleLayers_Model Conv_Model Pool_Model
  Net_Model NetChain_Proofs Net_Proofs NetBuild_Model NetUse_Spec NetBuild_Proofs Net_Props NetSettled_Proofs NetSettled_Props NetInit_Proofs
  RBM_Model RBM_Proofs RBMUse_Spec RBMUse_Proofs RBMNet_Proofs SAEUse_Spec SAEUse_Proofs NetLayer_Model NetLayer_Spec.
From Coq Require Import Relations.Relation_Operators.
From Verif Require Storage_Proofs Conv_Proofs Conv_Props Pool.
Local Open Scope R_scope.

Section Access.
Variable junk : nat -> nat -> R.
Notation kc := (kclass junk).

(** * C92: the layers of a network *)
Lemma commands_infos I cs : forall O s info reg s' reg', adding junk I O s -> lastInfo junk s = Ok info ->
  maxSquaredWeightNorm reg <= 0 -> Forall no_max_norm cs ->
  for_each cs (fun c st => runCommand junk st c) (s, reg) = Ok (s', reg') ->
  infos kc s' = infos kc s ++ outputSizes info cs.
Proof.
  induction cs as [|c cs IH]; intros O s info reg s' reg' A HL Hm HF E.
  - cbn in E. injection E as <- <-. cbn. now rewrite app_nil_r.
  - inversion HF as [|? ? F1 F2]; subst. cbn [for_each] in E. destruct c as [l|r]; cbn [runCommand fst snd] in E.
    + destruct (add junk s reg l) as [s1| | | |] eqn:E1; try discriminate E. cbn [bind] in E.
      destruct (adding_add junk I O s info reg l s1 A HL Hm E1) as (o & Es & A1 & Dr).
      assert (L1 : lastInfo junk s1 = Ok (layerOutput info l)).
      { rewrite Es. unfold lastInfo. cbn [addLayer infos]. rewrite vget_last. now rewrite kindOf_output. }
      rewrite (IH _ _ _ _ _ _ A1 L1 Hm F2 E). rewrite Es. cbn [addLayer infos outputSizes]. now rewrite kindOf_output, <- app_assoc.
    + cbn [bind] in E. rewrite (IH _ _ _ _ _ _ A HL F1 F2 E). reflexivity.
Qed.
Lemma outputSizes_redraw w cs : forall i info, outputSizes info (redraw w i cs) = outputSizes info cs.
Proof.
  induction cs as [|[l|r] cs IH]; intros i info; cbn [redraw outputSizes]; auto. rewrite IH. destruct l; reflexivity.
Qed.
Lemma reachable_infos d1 d2 d3 cs s : Forall no_max_norm cs -> reachable junk d1 d2 d3 cs s ->
  infos kc s = [d1; d2; d3] :: outputSizes [d1; d2; d3] cs.
Proof.
  intros HF HR. induction HR as [cs s E HO|cs s s' HR IH C|cs s w s' HR IH E].
  - unfold build in E.
    destruct (for_each cs (fun c st => runCommand junk st c) (inputLayer junk (net_new kc) d1 d2 d3, mkReg 0 0 0)) as [[s1 r1]| | | |] eqn:E1;
      try discriminate E. cbn [bind] in E.
    pose proof (commands_infos _ cs _ _ [d1; d2; d3] (mkReg 0 0 0) _ _ (adding_input junk d1 d2 d3) eq_refl (Rle_refl 0) HF E1) as X.
    unfold initializeNetwork in E. repeat step E. injection E as <-. exact X.
  - apply calls_flag in C. injection C as _ C. rewrite C. auto.
  - rewrite (redraw_max_norm junk) in HF. rewrite outputSizes_redraw, <- (IH HF). unfold net_initialize in E. repeat step E. now injection E as <-.
Qed.
Lemma kindsOf_length cs : forall info reg, length (kindsOf info reg cs) = length (outputSizes info cs).
Proof.
  induction cs as [|[l|r] cs IH]; intros info reg; cbn [kindsOf outputSizes length]; auto. now rewrite IH, kindOf_output.
Qed.

(** The network has an input layer and one layer for each call that adds one; getOutputInfo tells the sizes of its output. *)
Theorem C92_output_info d1 d2 d3 cs s : Forall no_max_norm cs -> reachable junk d1 d2 d3 cs s ->
  numberOfLayers kc s = S (length (outputSizes [d1; d2; d3] cs)) /\
  getOutputInfo kc s 0 = Ok [d1; d2; d3] /\
  (forall i, (i < length (outputSizes [d1; d2; d3] cs))%nat -> getOutputInfo kc s (S i) = Ok (nth i (outputSizes [d1; d2; d3] cs) [])) /\
  (forall i, (numberOfLayers kc s <= i)%nat -> getOutputInfo kc s i = Abort /\ getLayer kc s i = Abort).
Proof.
  intros HM HR. pose proof (reachable_usable junk d1 d2 d3 cs s HM HR) as U. pose proof (reachable_infos d1 d2 d3 cs s HM HR) as EI.
  assert (EN : numberOfLayers kc s = S (length (outputSizes [d1; d2; d3] cs))).
  { unfold numberOfLayers. rewrite <- (map_length (lkind kc)), (u_kinds _ _ _ _ _ _ U). cbn [length]. now rewrite kindsOf_length. }
  split; [exact EN|]. unfold getOutputInfo, getLayer. rewrite EN, EI. split; [reflexivity|]. split.
  - intros i Hi. rewrite (proj2 (Nat.ltb_lt _ _)) by lia. cbn [check bind]. rewrite (vget_nth _ _ []) by (cbn; lia). reflexivity.
  - intros i Hi. rewrite (proj2 (Nat.ltb_ge _ _)) by lia. auto.
Qed.

(** * Passing data through the layers by hand *)
Lemma wired_prefix a : forall I b O, wired kc nI nO I (a ++ b) O -> exists M, wired kc nI nO I a M /\ wired kc nI nO M b O.
Proof.
  induction a as [|x a IH]; intros I b O W; cbn [app wired] in *; [eauto|]. destruct W as (W1 & W2).
  destruct (IH _ _ _ W2) as (M & W3 & W4). eauto.
Qed.
Lemma firstn_S_nth {A} (l : list A) k d : (k < length l)%nat -> firstn (S k) l = firstn k l ++ [nth k l d].
Proof. revert k. induction l as [|x l IH]; intros [|k] H; cbn in *; try lia; auto. f_equal. apply IH. lia. Qed.
Lemma forward_app a : forall b x dropout, forwardLayers kc (a ++ b) x dropout =
  (' (qa, y, r) <- forwardLayers kc a x dropout ;; ' (qb, z, r') <- forwardLayers kc b y dropout ;; Ok (qa ++ qb, z, r + r')).
Proof.
  induction a as [|l a IH]; intros b x dropout; cbn [app forwardLayers bind].
  - destruct (forwardLayers kc b x dropout) as [[[qb z] r']| | | |]; cbn [bind app]; auto. now rewrite Rplus_0_l.
  - destruct (forwardPropagate _ _ x dropout) as [[[o y] r]| | | |]; cbn [bind]; auto. rewrite IH.
    destruct (forwardLayers kc a y dropout) as [[[qa z] r1]| | | |]; cbn [bind]; auto.
    destruct (forwardLayers kc b z dropout) as [[[qb v] r2]| | | |]; cbn [bind app]; auto. now rewrite Rplus_assoc.
Qed.

(** the pass by hand is the same loop *)
Lemma pass_forward k : forall s x, (k <= numberOfLayers kc s)%nat -> (exists qs y r, forwardLayers kc (firstn k (layers kc s)) x false = Ok (qs, y, r)) ->
  exists qs y r, forwardLayers kc (firstn k (layers kc s)) x false = Ok (qs, y, r) /\ length qs = k /\
    passThrough junk k s x = Ok (with_layers kc s (qs ++ skipn k (layers kc s)), y).
Proof.
  induction k as [|k IH]; intros s x Hk (qs0 & y0 & r0 & E0).
  - exists [], x, 0. cbn. split; auto. split; auto. destruct s. reflexivity.
  - unfold numberOfLayers in Hk. destruct (layers kc s) as [|d0 rest] eqn:EL; [cbn in Hk; lia|]. rewrite <- EL in *.
    rewrite (firstn_S_nth _ k d0) in * by lia. rewrite forward_app in E0.
    destruct (forwardLayers kc (firstn k (layers kc s)) x false) as [[[qa y1] r1]| | | |] eqn:E1; try discriminate E0. cbn [bind] in E0.
    destruct (IH s x) as (qs & y & r & F1 & F2 & F3); [unfold numberOfLayers; lia|eauto|]. rewrite E1 in F1. injection F1 as <- <- <-.
    destruct (forwardLayers kc [nth k (layers kc s) d0] y1 false) as [[[qb z] r2]| | | |] eqn:E2; try discriminate E0. cbn [bind] in E0.
    exists (qa ++ qb), z, (r1 + r2). rewrite forward_app, E1. cbn [bind]. rewrite E2. cbn [bind]. split; auto.
    cbn [forwardLayers] in E2. destruct (forwardPropagate _ _ y1 false) as [[[o v] r3]| | | |] eqn:E3; try discriminate E2. cbn [bind] in E2. injection E2 as <- <- _.
    rewrite app_length. cbn [length]. split; [lia|]. cbn [passThrough]. rewrite F3. cbn [bind].
    unfold layerForward, getLayer, numberOfLayers, with_layers. cbn [layers].
    assert (SK : skipn k (layers kc s) = nth k (layers kc s) d0 :: skipn (S k) (layers kc s)).
    { rewrite <- (firstn_skipn (S k) (layers kc s)) at 1. rewrite (firstn_S_nth _ k d0) by lia. rewrite <- app_assoc, skipn_app, firstn_length, Nat.min_l by lia.
      rewrite skipn_all2 by (rewrite firstn_length; lia). rewrite Nat.sub_diag. reflexivity. }
    assert (LL : length (qa ++ skipn k (layers kc s)) = length (layers kc s)) by (rewrite app_length, skipn_length; lia).
    rewrite LL, (proj2 (Nat.ltb_lt _ _)) by lia. cbn [check bind]. rewrite (vget_nth _ _ d0) by lia.
    rewrite app_nth2, F2, Nat.sub_diag, SK by lia. cbn [nth bind]. rewrite E3. cbn [bind]. unfold withLayer, with_layers. cbn [layers]. do 3 f_equal.
    rewrite <- app_assoc. cbn [app]. now apply Storage_Proofs.upd_app.
Qed.

Lemma nO_kindOf info reg l : nO (fst (kindOf info reg l)) = outputs (layerOutput info l).
Proof. destruct l; cbn [kindOf fst nO layerOutput]; rewrite ?outputs1, ?outputs3; try reflexivity; unfold Conv_Proofs.cO, Pool.pO; cbn -[Nat.div Conv_Props.outDim Nat.mul Nat.sub]; rewrite Nat.mul_assoc; reflexivity. Qed.
Lemma nO_kindsOf cs : forall info reg i d, (i < length (outputSizes info cs))%nat ->
  nO (nth i (kindsOf info reg cs) d) = outputs (nth i (outputSizes info cs) []).
Proof.
  induction cs as [|[l|r] cs IH]; intros info reg i d Hi; cbn [outputSizes kindsOf] in *; auto; [cbn in Hi; lia|].
  destruct i as [|i]; cbn [nth length] in *; [apply nO_kindOf|]. rewrite kindOf_output. apply IH. lia.
Qed.
Lemma wired_snoc a : forall I l M, wired kc nI nO I (a ++ [l]) M -> M = nO (lkind kc l).
Proof.
  induction a as [|x a IH]; intros I l M W; cbn [app wired] in W; destruct W as (_ & W); [now cbn in W|]. eapply IH; eauto.
Qed.
Lemma nth_map_kind i : forall ls (d : layer kc), nth i (map (lkind kc) ls) (lkind kc d) = lkind kc (nth i ls d).
Proof. intros ls d. apply map_nth. Qed.

(** The output of layer [k] has the sizes that getOutputInfo(k) tells.  After all layers it is the output of the network, if there is no softmax. *)
Theorem C92_pass_through d1 d2 d3 cs s k x : Forall no_max_norm cs -> reachable junk d1 d2 d3 cs s ->
  (k < numberOfLayers kc s)%nat -> cols x = (d1 * d2 * d3)%nat ->
  exists s' y info, passThrough junk (S k) s x = Ok (s', y) /\ getOutputInfo kc s k = Ok info /\ size_is y (rows x) (outputs info) /\
    (S k = numberOfLayers kc s -> errorFunction kc s = MSE -> dropout kc s = false -> exists r, net_apply kc s x = Ok (r, y)).
Proof.
  intros HM HR Hk HX. pose proof (reachable_usable junk d1 d2 d3 cs s HM HR) as U. pose proof (u_good _ _ _ _ _ _ U) as G.
  destruct (C92_output_info d1 d2 d3 cs s HM HR) as (EN & E0 & ES & _).
  pose proof (g_wired _ _ _ _ _ _ _ _ _ G) as W. pose proof (g_invs _ _ _ _ _ _ _ _ _ G) as V.
  rewrite <- (firstn_skipn (S k) (layers kc s)) in W. destruct (wired_prefix _ _ _ _ W) as (M & W1 & W2).
  assert (V1 : invs kc (nInv junk) (firstn (S k) (layers kc s))).
  { unfold invs in *. rewrite <- (firstn_skipn (S k) (layers kc s)) in V. now apply Forall_app in V. }
  destruct (forward_all kc nI nO nK (nInv junk) (nsmooth junk) (nfn junk) (nrg junk) (nok junk) _ _ M x false W1 V1)
    as (qs & Y & E & _ & _ & R1 & C1 & _). { rewrite (u_inputs _ _ _ _ _ _ U). exact HX. }
  destruct (pass_forward (S k) s x) as (qs' & y & r & F1 & F2 & F3); [lia|eauto|]. rewrite E in F1. injection F1 as <- <- <-.
  assert (EI : exists info, getOutputInfo kc s k = Ok info /\ outputs info = M).
  { unfold numberOfLayers in Hk. destruct (layers kc s) as [|d0 rest] eqn:EL; [cbn in Hk; lia|]. rewrite <- EL in *.
    rewrite (firstn_S_nth _ k d0) in W1 by lia. apply wired_snoc in W1. rewrite <- nth_map_kind, (u_kinds _ _ _ _ _ _ U) in W1.
    destruct k as [|k]; cbn [nth] in W1.
    - exists [d1; d2; d3]. split; auto. rewrite W1. cbn. unfold outputs. cbn. lia.
    - assert (Hk' : (k < length (outputSizes [d1; d2; d3] cs))%nat) by (unfold numberOfLayers in EN; lia).
      rewrite nO_kindsOf in W1 by auto. exists (nth k (outputSizes [d1; d2; d3] cs) []). split; auto. }
  destruct EI as (info & EI & EO). eexists. exists Y, info. split; [exact F3|]. split; auto. split; [split; congruence|].
  intros HK HE HD. destruct (forward_net kc nI nO nK (nInv junk) (nsmooth junk) (nfn junk) (nrg junk) (nok junk) isIn _ _ s x G) as (ls & Y' & Yo & A1 & A2 & _ & _ & A5 & _).
  { rewrite (u_inputs _ _ _ _ _ _ U). exact HX. } { rewrite HE. discriminate. }
  rewrite HE in A2. cbn [outp] in A2. injection A2 as <-. rewrite firstn_all2 in E by (unfold numberOfLayers in HK; lia). rewrite HD, E in A1. injection A1 as _ <-.
  eexists. unfold net_apply. rewrite A5. reflexivity.
Qed.

(** * C91: propagateDataSet *)
Notation forward_all := (forward_all kc nI nO nK (nInv junk) (nsmooth junk) (nfn junk) (nrg junk) (nok junk)).

(** whatever it returns cannot be used: the matrices do not exist any more *)
Theorem C91_result_unusable s d l s' r : propagateDataSet kc junk s d l = Ok (s', r) ->
  st_samples r = rows (dataIn d) /\ st_inputs r = cols (dataIn d) /\ st_outputs r = cols (dataOut d) /\
  forall n, st_getInstance r n = UB /\ st_getTarget r n = UB.
Proof.
  unfold propagateDataSet. intros E. match type of E with context [for_ _ ?b ?g0] => set (body := b) in E; set (init := g0) in E end.
  destruct (for_ (rows (dataIn d)) body init) as [[[s1 X] T]| | | |] eqn:EF; try discriminate E. cbn [bind] in E.
  assert (K : (rows X = rows (dataIn d) /\ cols X = cols (dataIn d)) /\ (rows T = rows (dataIn d) /\ cols T = cols (dataOut d))).
  { apply (for_keep (fun st : net kc * mat * mat => (rows (snd (fst st)) = rows (dataIn d) /\ cols (snd (fst st)) = cols (dataIn d)) /\
      (rows (snd st) = rows (dataIn d) /\ cols (snd st) = cols (dataOut d))) body (rows (dataIn d)) init (s1, X, T)) with (2 := EF).
    - intros i [[a b] c] [[a' b'] c'] Eb H. unfold body in Eb. repeat RBMUse_Proofs.step Eb.
      destruct a1 as [ls y]. repeat RBMUse_Proofs.step Eb. injection Eb as <- <- <-. cbn [fst snd] in *.
      unfold msetRow in *. repeat match goal with F : (if ?c then _ else _) = Ok _ |- _ => destruct c; [injection F as <-|discriminate F] end. cbn. exact H.
    - cbn. auto. }
  destruct K as ((K1 & K2) & K3 & K4). unfold st_new in E. destruct (Nat.ltb 0 (cols X)); [|discriminate E]. cbn [check bind] in E.
  destruct (Nat.eqb (rows X) (rows T)); [|discriminate E]. cbn [check bind] in E. injection E as <- <-. unfold st_samples, st_inputs, st_outputs. cbn. auto 8.
Qed.

Lemma propagate_all ls : forall x dropout l, (0 < l)%Z -> propagateLayers kc ls 0 l x dropout =
  (' (qs, y, _) <- forwardLayers kc ls x dropout ;; Ok (qs, y)).
Proof.
  induction ls as [|a ls IH]; intros x dropout l Hl; cbn [propagateLayers forwardLayers bind]; [reflexivity|].
  rewrite (proj2 (Z.ltb_lt 0 l)) by auto. destruct (forwardPropagate _ _ x dropout) as [[[o y] r]| | | |]; cbn [bind]; auto.
  rewrite IH by auto. destruct (forwardLayers kc ls y dropout) as [[[qs z] r']| | | |]; reflexivity.
Qed.

(** All layers are used, no matter how many have been asked for: unless the output of the network is as large as its input, the
    program is terminated.  (The input layer does not change the size of its input.) *)
Theorem C91_all_layers d1 d2 d3 cs s d l : Forall no_max_norm cs -> reachable junk d1 d2 d3 cs s ->
  (0 < rows (dataIn d))%nat -> cols (dataIn d) = netInputs s -> (0 < l)%Z -> netOutputs s <> netInputs s ->
  propagateDataSet kc junk s d l = Abort.
Proof.
  intros HM HR HN HC Hl HO. pose proof (reachable_usable junk d1 d2 d3 cs s HM HR) as U. pose proof (u_good _ _ _ _ _ _ U) as G.
  unfold propagateDataSet. destruct (rows (dataIn d)) as [|N] eqn:EN; [lia|]. unfold for_. cbn [for_from]. unfold rowOf at 1. rewrite EN. cbn [Nat.ltb Nat.leb check bind].
  rewrite propagate_all by auto. cbn [layers with_input dropout].
  destruct (forward_all (layers kc s) (netInputs s) (netOutputs s) (mkMat 1 (cols (dataIn d)) (fun _ j => at_ (dataIn d) 0 j)) (dropout kc s))
    as (qs & Y & E & _ & _ & R1 & C1 & _); try apply G; [exact HC|].
  rewrite E. cbn [bind]. unfold msetRow at 1. cbn [rows cols]. rewrite C1, HC, (proj2 (Nat.eqb_neq _ _)) by auto. now rewrite Bool.andb_false_r.
Qed.

(** * C93: layers that are trained on their own *)
Lemma rbm_use_inv u M H cdN backprop reg s0 p data s : rbm_inv M H cdN backprop reg s0 -> rbm_use junk u s0 M p data s -> rbm_inv M H cdN backprop reg s.
Proof.
  intros H0. induction 1 as [|p data s p' q U IH L E|p data s data' U IH L|p data s X q Z U IH E|p data s x q y U IH E|
    p data s n steps q y U IH E|p data s n q e U IH E|p data s q e U IH E|p data s n q g U IH E|p data s q g U IH E|p data s ns q e g U IH E];
    [exact H0| |exact IH|..];
    [|assert (Ho : okH H s) by apply IH; apply (rsame_inv _ _ _ _ _ s); [|exact IH]..].
  - assert (L' : length p' = rdim M H) by (unfold rbm_dimension in L; destruct IH as (C & _); rewrite C in L; exact L).
    destruct (rbm_setParameters_ok M H cdN backprop reg s p' IH L') as (q' & E' & I' & _). congruence.
  - eapply encode_keep; eauto.
  - eapply RBMUse_Proofs.apply_keep; eauto.
  - eapply reconstruct_keep; eauto.
  - eapply errorN_keep; eauto.
  - eapply error_keep; eauto.
  - eapply gradientN_keep; eauto.
  - eapply gradient_keep; eauto.
  - eapply errorGradient_keep; eauto.
Qed.
Lemma sae_use_inv M H beta rho lambda act s0 p data s : SAE_Proofs.sae_inv M H beta rho lambda act s0 -> sae_use junk s0 M p data s ->
  SAE_Proofs.sae_inv M H beta rho lambda act s.
Proof.
  intros H0. induction 1 as [|p data s p' q U IH L E|p data s data' q U IH L E|p data s X q Z U IH E|p data s x q y U IH E|
    p data s x q y U IH E|p data s q e U IH E|p data s q g U IH E|p data s g q e g' U IH L E].
  - exact H0.
  - assert (L' : length p' = SAE_Proofs.dim M H) by (unfold SAE_Model.sae_dimension in L; destruct IH as (C & _); rewrite C in L; exact L).
    destruct (SAE_Proofs.setParameters_ok M H beta rho lambda act s p' IH L') as (q' & E' & I' & _). congruence.
  - unfold SAE_Model.sae_trainingSet in E. RBMUse_Proofs.step E. injection E as <-. exact IH.
  - eapply SAE_Proofs.kept_inv; [|exact IH]. eapply encode_kept; eauto.
  - eapply SAE_Proofs.kept_inv; [|exact IH]. eapply apply_kept; eauto.
  - eapply SAE_Proofs.kept_inv; [|exact IH]. eapply reconstruct_kept; eauto.
  - eapply SAE_Proofs.kept_inv; [|exact IH]. eapply error_kept; eauto.
  - assert (EC : exists s1 e1, SAE_Model.sae_error junk s = Ok (s1, e1)).
    { unfold SAE_Model.sae_gradient, SAE_Model.sae_errorGradient in E. destruct (SAE_Model.sae_error junk s) as [(s1 & e1)| | | |]; try discriminate E. eauto. }
    destruct EC as (s1 & e1 & EC). pose proof (error_cols junk M H beta rho lambda act s s1 e1 IH EC) as CM.
    destruct (SAE_Proofs.gradient_ok junk M H beta rho lambda act s (rows (SAE_Model.sX s)) IH) as (q' & g' & E' & I' & _); [split; auto|]. congruence.
  - assert (EC : exists s1 e1, SAE_Model.sae_error junk s = Ok (s1, e1)).
    { unfold SAE_Model.sae_errorGradient in E. destruct (SAE_Model.sae_error junk s) as [(s1 & e1)| | | |]; try discriminate E. eauto. }
    destruct EC as (s1 & e1 & EC). pose proof (error_cols junk M H beta rho lambda act s s1 e1 IH EC) as CM.
    assert (L' : length g = SAE_Proofs.dim M H) by (unfold SAE_Model.sae_dimension in L; pose proof IH as (C & _); rewrite C in L; exact L).
    destruct (SAE_Proofs.errorGradient_ok junk M H beta rho lambda act s (rows (SAE_Model.sX s)) g IH) as (q' & E' & I' & _); [split; auto|auto|]. congruence.
Qed.

Lemma getLayer_nth s i x : getLayer kc s i = Ok x -> nth_error (layers kc s) i = Some x.
Proof.
  unfold getLayer, numberOfLayers. destruct (Nat.ltb i (length (layers kc s))); [|discriminate]. cbn [check bind]. unfold vget.
  destruct (nth_error (layers kc s) i); [intros E; now injection E as <-|discriminate].
Qed.
Lemma upd_kinds ls : forall i x y, nth_error ls i = Some x -> lkind kc y = lkind kc x -> map (lkind kc) (upd ls i y) = map (lkind kc) ls.
Proof.
  induction ls as [|a ls IH]; intros [|i] x y E H; try discriminate; cbn in *.
  - injection E as ->. now rewrite H.
  - f_equal. eapply IH; eauto.
Qed.
Lemma upd_invs ls : forall i y, invs kc (nInv junk) ls -> nInv junk (lkind kc y) (lobj kc y) -> invs kc (nInv junk) (upd ls i y).
Proof.
  induction ls as [|a ls IH]; intros [|i] y V H; cbn; auto; inversion V as [|? ? V1 V2]; subst; constructor; auto. now apply IH.
Qed.
Lemma invs_nth ls i x : invs kc (nInv junk) ls -> nth_error ls i = Some x -> nInv junk (lkind kc x) (lobj kc x).
Proof. intros V E. unfold invs in V. rewrite Forall_forall in V. apply V. eapply nth_error_In; eauto. Qed.

Lemma pretrained_good i I O s s1 : pretrained junk i s s1 -> good kc nI nO nK (nInv junk) isIn I O s ->
  good kc nI nO nK (nInv junk) isIn I O s1 /\ map (lkind kc) (layers kc s1) = map (lkind kc) (layers kc s).
Proof.
  intros [M H cdN reg u w o o' p data E Us|M H beta rho lambda act o o' p data E Us] G; apply getLayer_nth in E;
    pose proof (invs_nth _ _ _ (g_invs _ _ _ _ _ _ _ _ _ G) E) as V; cbn [lkind lobj nInv] in V.
  - assert (V' : rbm_netInv M H cdN true reg w o') by (split; [eapply rbm_use_inv; [apply V|exact Us]|discriminate]).
    assert (K : map (lkind kc) (layers kc (withLayer kc s i (mkLayer kc (KRestrictedBoltzmannMachine M H cdN true reg u w) o'))) = map (lkind kc) (layers kc s)).
    { cbn [layers withLayer with_layers]. eapply upd_kinds; eauto. }
    split; [|exact K]. eapply good_change; [exact G|reflexivity|exact K| |reflexivity..]. cbn [layers withLayer with_layers]. apply upd_invs; [apply G|exact V'].
  - assert (V' : SAE_Proofs.sae_inv M H beta rho lambda act o') by (eapply sae_use_inv; [apply V|exact Us]).
    assert (K : map (lkind kc) (layers kc (withLayer kc s i (mkLayer kc (KSparseAutoEncoder M H beta rho lambda act) o'))) = map (lkind kc) (layers kc s)).
    { cbn [layers withLayer with_layers]. eapply upd_kinds; eauto. }
    split; [|exact K]. eapply good_change; [exact G|reflexivity|exact K| |reflexivity..]. cbn [layers withLayer with_layers]. apply upd_invs; [apply G|exact V'].
Qed.

(** What a layer has learned on its own is unknown to the network: its current parameters are the old ones, and as soon as they are installed, for
    example by the first step of an optimizer, the network computes what it has computed before. *)
Theorem C93_pretraining_lost d1 d2 d3 cs i s s1 x : Forall no_max_norm cs -> reachable junk d1 d2 d3 cs s -> pretrained junk i s s1 ->
  dropout kc s = false -> cols x = netInputs s -> (0 < rows x)%nat ->
  currentParameters kc s1 = currentParameters kc s /\
  exists s2 r r' y y', setParameters kc s1 (currentParameters kc s1) = Ok s2 /\
    net_apply kc s x = Ok (r, y) /\ net_apply kc s2 x = Ok (r', y') /\
    size_is y (rows x) (netOutputs s) /\ size_is y' (rows x) (netOutputs s) /\
    forall n j, (n < rows x)%nat -> (j < netOutputs s)%nat -> at_ y n j = at_ y' n j.
Proof.
  intros HM HR HT HD HX HN. pose proof (reachable_usable junk d1 d2 d3 cs s HM HR) as U. pose proof (u_good _ _ _ _ _ _ U) as G.
  destruct (pretrained_good i _ _ s s1 HT G) as (G1 & K).
  assert (C : parameterVector kc s1 = parameterVector kc s /\ P kc s1 = P kc s /\ errorFunction kc s1 = errorFunction kc s /\ dropout kc s1 = dropout kc s)
    by (destruct HT; auto).
  destruct C as (C1 & C2 & C3 & C4). split; [exact C1|]. unfold currentParameters. rewrite C1.
  destruct (set_current junk d1 d2 d3 cs s U (reachable_settled junk d1 d2 d3 cs s HM HR)) as (s' & E & S & G' & P1 & P2 & P3 & P4).
  pose proof (u_vector _ _ _ _ _ _ U) as LV.
  destruct (set_ok kc nI nO nK (nInv junk) (nsmooth junk) (nfn junk) (nrg junk) (nok junk) isIn _ _ s (parameterVector kc s) G LV) as (la & A1 & A2 & _).
  destruct (set_ok kc nI nO nK (nInv junk) (nsmooth junk) (nfn junk) (nrg junk) (nok junk) isIn _ _ s1 (parameterVector kc s) G1) as (lb & B1 & B2 & _ & _ & _ & B3); [congruence|].
  assert (SL : same_layers kc nO nK (nfn junk) (nrg junk) lb la).
  { apply (Net_Proofs.installAll_same kc nI nO nK (nInv junk) (nsmooth junk) (nfn junk) (nrg junk) (nok junk) (layers kc s1) (layers kc s) (parameterVector kc s)); auto;
      try apply G; try apply G1. rewrite <- (g_P _ _ _ _ _ _ _ _ _ G1). congruence. }
  eexists. assert (E' : Ok s' = Ok (with_layers kc (with_vector kc s (parameterVector kc s)) la)) by (rewrite <- A1; symmetry; exact E). injection E' as E'.
  assert (S' : same_layers kc nO nK (nfn junk) (nrg junk) la (layers kc s)) by (rewrite E' in S; exact S).
  destruct (outputs_same junk _ _ (with_layers kc (with_vector kc s1 (parameterVector kc s)) lb) s x B3 G) as (r' & r & y' & y & Z1 & Z2 & Z3 & Z4 & Z5); auto.
  - eapply same_layers_trans; eauto.
  - cbn. congruence.
  - apply U.
  - exists r, r', y, y'. split; [exact B1|]. repeat (split; auto). intros. symmetry. auto.
Qed.

(** ** Restricted Boltzmann machines whose weights are not parameters of the network *)
Section Fixed.
Context (i M H cdN : nat) (reg : Regularization) (u : nat -> R) (w : nat -> nat -> R).
Notation K := (KRestrictedBoltzmannMachine M H cdN false reg u w).
Definition holds (v : rbmPar) (ls : list (layer kc)) : Prop := exists o, nth_error ls i = Some (mkLayer kc K o) /\ rpar o = v.

Lemma rbm_forward_par o x d o' y r : rbm_forward junk u o x d = Ok (o', y, r) -> rpar o' = rpar o.
Proof. 
  unfold rbm_forward, withSmp. intros E. RBMUse_Proofs.step E. injection E as <- <- <-.
  match goal with F : bind ?m _ = Ok ?a |- _ => destruct m; try discriminate F; cbn [bind] in F; injection F as <- end. reflexivity.
 Qed.
Lemma rbm_backward_par o e b o' e' : rbm_backward junk o e b = Ok (o', e') -> rpar o' = rpar o.
Proof.
  unfold rbm_backward. intros E. destruct (activationFunctionDerivative _ _ _); try discriminate E. cbn [bind] in E.
  destruct (mmap2 _ _ _); try discriminate E. cbn [bind] in E.
  destruct (if rbackprop (rcfg o) then _ else _) as [[? ?]| | | |]; try discriminate E. cbn [bind] in E.
  destruct (if b then _ else _); try discriminate E. cbn [bind] in E. injection E as <- <-. reflexivity.
Qed.
Lemma forward_holds v ls : forall j x d ls' y r, forwardLayers kc ls x d = Ok (ls', y, r) ->
  (exists o, nth_error ls j = Some (mkLayer kc K o) /\ rpar o = v) -> exists o, nth_error ls' j = Some (mkLayer kc K o) /\ rpar o = v.
Proof.
  induction ls as [|l ls IH]; intros j x d ls' y r E (o & Eo & Ho); [destruct j; discriminate|]. cbn [forwardLayers] in E.
  destruct (forwardPropagate (kc (lkind kc l)) (lobj kc l) x d) as [[[o1 y1] r1]| | | |] eqn:E1; try discriminate E. cbn [bind] in E.
  destruct (forwardLayers kc ls y1 d) as [[[ls1 z] r2]| | | |] eqn:E2; try discriminate E. cbn [bind] in E.
  assert (EL : ls' = mkLayer kc (lkind kc l) o1 :: ls1) by congruence. subst ls'. destruct j as [|j].
  - cbn [nth_error] in Eo. injection Eo as ->. cbn [lkind lobj] in *. exists o1. split; [reflexivity|]. rewrite <- Ho. exact (rbm_forward_par o x d o1 y1 r1 E1).
  - exact (IH j y1 d ls1 z r2 E2 (ex_intro _ o (conj Eo Ho))).
Qed.
Lemma backward_holds v ls : forall j n e ls' e', backLayers kc ls n e = Ok (ls', e') ->
  (exists o, nth_error ls j = Some (mkLayer kc K o) /\ rpar o = v) -> exists o, nth_error ls' j = Some (mkLayer kc K o) /\ rpar o = v.
Proof.
  induction ls as [|l ls IH]; intros j n e ls' e' E (o & Eo & Ho); [destruct j; discriminate|]. cbn [backLayers] in E.
  destruct (backLayers kc ls (S n) e) as [[ls1 e1]| | | |] eqn:E2; try discriminate E. cbn [bind] in E.
  destruct (backpropagate (kc (lkind kc l)) (lobj kc l) e1 (Nat.ltb 2 n)) as [[o1 e2]| | | |] eqn:E1; try discriminate E. cbn [bind] in E.
  assert (EL : ls' = mkLayer kc (lkind kc l) o1 :: ls1) by congruence. subst ls'. destruct j as [|j].
  - cbn [nth_error] in Eo. injection Eo as ->. cbn [lkind lobj] in *. exists o1. split; [reflexivity|]. rewrite <- Ho. exact (rbm_backward_par o e1 _ o1 e2 E1).
  - exact (IH j (S n) e ls1 e1 E2 (ex_intro _ o (conj Eo Ho))).
Qed.
Lemma update_holds v ls : forall j ls', updateLayers kc ls = Ok ls' ->
  (exists o, nth_error ls j = Some (mkLayer kc K o) /\ rpar o = v) -> exists o, nth_error ls' j = Some (mkLayer kc K o) /\ rpar o = v.
Proof.
  induction ls as [|l ls IH]; intros j ls' E (o & Eo & Ho); [destruct j; discriminate|]. cbn [updateLayers] in E.
  destruct (updatedParameters (kc (lkind kc l)) (lobj kc l)) as [o1| | | |] eqn:E1; try discriminate E. cbn [bind] in E.
  destruct (updateLayers kc ls) as [ls1| | | |] eqn:E2; try discriminate E. cbn [bind] in E.
  assert (EL : ls' = mkLayer kc (lkind kc l) o1 :: ls1) by congruence. subst ls'. destruct j as [|j].
  - cbn [nth_error] in Eo. injection Eo as ->. cbn [lkind lobj] in *. exists o1. split; [reflexivity|]. rewrite <- Ho. cbn in E1. congruence.
  - exact (IH j ls1 eq_refl (ex_intro _ o (conj Eo Ho))).
Qed.

Definition nopointer (s : net kc) : Prop := forall k, ~ In (i, k) (parameters kc s).
Definition kept (v : rbmPar) (s : net kc) : Prop := nopointer s /\ holds v (layers kc s).

Lemma store_holds v ls ptr a ls' : storePtr kc ls ptr a = Ok ls' -> fst ptr <> i -> holds v ls -> holds v ls'.
Proof.
  unfold storePtr. intros E Hi (o & Eo & Ho). destruct (vget ls (fst ptr)); try discriminate E. cbn [bind] in E.
  destruct (writeParam _ _ _ _); try discriminate E. cbn [bind] in E. injection E as <-. exists o. split; [|exact Ho].
  rewrite nth_error_upd. destruct (Nat.eqb_spec (fst ptr) i); [congruence|]. exact Eo.
Qed.
Lemma set_kept v s p s' : setParameters kc s p = Ok s' -> kept v s -> kept v s'.
Proof.
  unfold setParameters. intros E (HP & HL). cbn [Net_Model.P Net_Model.parameters Net_Model.layers with_vector] in E.
  match type of E with bind ?m _ = _ => destruct m as [ls1| | | |] eqn:E1 end; try discriminate E. cbn [bind] in E.
  destruct (updateLayers kc ls1) as [ls2| | | |] eqn:E2; try discriminate E. cbn [bind] in E. injection E as <-. split; [exact HP|].
  cbn [layers with_layers]. eapply update_holds; [exact E2|].
  change (holds v ls1). refine (for_keep (holds v) _ _ _ _ _ E1 HL). clear E1.
  intros k ls ls' E HQ. destruct (vget (parameters kc s) k) as [ptr| | | |] eqn:Ep; try discriminate E. cbn [bind] in E.
  destruct (vget p k); try discriminate E. cbn [bind] in E. eapply store_holds; [exact E| |exact HQ].
  intros Hi. apply (HP (snd ptr)). rewrite <- Hi. destruct ptr as [pa pb]. cbn. apply vget_Some in Ep. eapply nth_error_In. exact Ep.
Qed.
Lemma net_forward_kept v s s' r : net_forward kc s = Ok (s', r) -> kept v s -> kept v s'.
Proof.
  unfold net_forward. intros E (HP & HL). destruct (forwardLayers kc (layers kc s) (tempInput kc s) (dropout kc s)) as [[[ls y] r1]| | | |] eqn:E1; try discriminate E.
  cbn [bind] in E. destruct (vget (infos kc s) _); try discriminate E. cbn [bind] in E. destruct (check _); try discriminate E. cbn [bind] in E.
  destruct (match errorFunction kc s with MSE => _ | CE => _ end); try discriminate E. cbn [bind] in E. injection E as <- <-. split; [exact HP|].
  cbn [layers with_output with_layers]. eapply forward_holds; [exact E1|exact HL].
Qed.
Lemma net_backward_kept v s s' : net_backward kc s = Ok s' -> kept v s -> kept v s'.
Proof.
  unfold net_backward. intros E (HP & HL). destruct (backLayers kc (layers kc s) 1 (tempError kc s)) as [[ls e]| | | |] eqn:E1; try discriminate E.
  cbn [bind] in E. injection E as <-. split; [exact HP|]. cbn [layers with_layers]. eapply backward_holds; [exact E1|exact HL].
Qed.
Lemma error_at_kept v s n s' e : error_at kc s n = Ok (s', e) -> kept v s -> kept v s'.
Proof.
  unfold error_at. intros E HK. destruct (trainSet kc s); try discriminate E. destruct (rowOf (dataIn _) n); try discriminate E. cbn [bind] in E.
  match type of E with context [net_forward kc ?q] => destruct (net_forward kc q) as [[s1 r1]| | | |] eqn:E1 end; try discriminate E. cbn [bind] in E.
  assert (HK1 : kept v s1) by (eapply net_forward_kept; [exact E1|exact HK]).
  destruct (rowOf (dataOut _) n); try discriminate E. cbn [bind] in E. destruct (errorFunction kc s1).
  - destruct (mmap2 _ _ _); try discriminate E. cbn [bind] in E. congruence.
  - destruct (crossEntropy _ _); try discriminate E. cbn [bind] in E. congruence.
Qed.
Lemma errorGradient_kept v s idx g s' e g' : errorGradient kc junk s idx g = Ok (s', e, g') -> kept v s -> kept v s'.
Proof.
  unfold errorGradient. intros E HK. destruct (trainSet kc s); try discriminate E.
  match type of E with bind ?m _ = _ => destruct m as [[X T]| | | |] end; try discriminate E. cbn [bind] in E.
  match type of E with context [net_forward kc ?q] => destruct (net_forward kc q) as [[s1 r1]| | | |] eqn:E1 end; try discriminate E. cbn [bind] in E.
  assert (HK1 : kept v s1) by (eapply net_forward_kept; [exact E1|exact HK]).
  destruct (mmap2 _ _ _) as [m| | | |]; try discriminate E. cbn [bind] in E.
  match type of E with bind ?m _ = _ => destruct m end; try discriminate E. cbn [bind] in E.
  destruct (net_backward kc (with_error kc s1 m)) as [s2| | | |] eqn:E2; try discriminate E. cbn [bind] in E.
  assert (HK2 : kept v s2) by (eapply net_backward_kept; [exact E2|exact HK1]).
  match type of E with bind ?m _ = _ => destruct m end; try discriminate E. cbn [bind] in E. congruence.
Qed.
Lemma calls_kept v s s' : calls junk s s' -> kept v s -> kept v s'.
Proof.
  intros [q p q' _ E|q x q' y _ _ E|q n q' e E|q q' e E|q idx g q' e g' _ _ E|q n q' g E|q q' g _ E|q b|q ef|q d _] HK; try exact HK.
  - eapply set_kept; eauto.
  - unfold net_apply in E. destruct (net_forward kc (with_input kc q x)) as [[s1 r]| | | |] eqn:E1; try discriminate E. cbn [bind] in E. injection E as <- <-.
    eapply net_forward_kept; [exact E1|exact HK].
  - eapply error_at_kept; eauto.
  - unfold error in E. change (kept v (fst (q', e))). refine (for_keep (fun z => kept v (fst z)) _ _ _ _ _ E HK). clear E.
    intros n [a b] [a' b'] E HQ. destruct (error_at kc a n) as [[a1 b1]| | | |] eqn:E1; try discriminate E. cbn [bind] in E. injection E as <- <-.
    eapply error_at_kept; [exact E1|exact HQ].
  - eapply errorGradient_kept; eauto.
  - unfold gradient_at in E. match type of E with bind ?m _ = _ => destruct m as [[[s1 e1] g1]| | | |] eqn:E1 end; try discriminate E. cbn [bind] in E. injection E as <- <-.
    apply (errorGradient_kept v) in E1; [exact E1|exact HK].
  - unfold gradient in E. match type of E with bind ?m _ = _ => destruct m as [[[s1 e1] g1]| | | |] eqn:E1 end; try discriminate E. cbn [bind] in E. injection E as <- <-.
    apply (errorGradient_kept v) in E1; [exact E1|exact HK].
Qed.
Lemma ptrs_fst ls : forall a k b, In (a, k) (NetChain_Proofs.ptrs kc nK b ls) -> exists l, nth_error ls (a - b) = Some l /\ (b <= a)%nat /\ (k < nK (lkind kc l))%nat.
Proof.
  induction ls as [|l ls IH]; intros a k b HI; [destruct HI|]. cbn [NetChain_Proofs.ptrs] in HI. apply in_app_iff in HI. destruct HI as [HI|HI].
  - apply in_map_iff in HI. destruct HI as (c & E & Hc). injection E as <- <-. apply in_seq in Hc. exists l. rewrite Nat.sub_diag. cbn. repeat split; auto; lia.
  - destruct (IH a k (S b) HI) as (l' & E & L & Hk). exists l'. replace (a - b)%nat with (S (a - S b)) by lia. cbn. repeat split; auto; lia.
Qed.
Lemma good_nopointer I O s o : good kc nI nO nK (nInv junk) isIn I O s -> nth_error (layers kc s) i = Some (mkLayer kc K o) -> nopointer s.
Proof.
  intros G E k HI. rewrite (g_params _ _ _ _ _ _ _ _ _ G) in HI. destruct (ptrs_fst _ _ _ _ HI) as (l & E' & _ & Hk). rewrite Nat.sub_0_r in E'.
  assert (EL : l = mkLayer kc K o) by congruence. rewrite EL in Hk. cbn in Hk. lia.
Qed.

(** the layer does not take part in setParameters *)
Lemma upd_upd_comm {A} (l : list A) : forall a b x y, a <> b -> upd (upd l a x) b y = upd (upd l b y) a x.
Proof. induction l as [|z l IH]; intros [|a] [|b] x y Hn; cbn; auto; try congruence. f_equal. apply IH. congruence. Qed.
Lemma store_upd ls ptr a ls' y : storePtr kc ls ptr a = Ok ls' -> fst ptr <> i -> storePtr kc (upd ls i y) ptr a = Ok (upd ls' i y).
Proof.
  unfold storePtr, vget. intros E Hi. rewrite nth_error_upd. destruct (Nat.eqb_spec i (fst ptr)); [congruence|].
  destruct (nth_error ls (fst ptr)); try discriminate E. cbn [bind] in *.
  destruct (writeParam _ _ _ _); try discriminate E. cbn [bind] in *. injection E as <-. now rewrite upd_upd_comm by congruence.
Qed.
Lemma update_upd ls : forall j ls' o o', updateLayers kc ls = Ok ls' -> nth_error ls j = Some (mkLayer kc K o) ->
  updateLayers kc (upd ls j (mkLayer kc K o')) = Ok (upd ls' j (mkLayer kc K o')).
Proof.
  induction ls as [|l ls IH]; intros j ls' o o' E Eo; [destruct j; discriminate|]. cbn [updateLayers] in E.
  destruct (updatedParameters (kc (lkind kc l)) (lobj kc l)) as [o1| | | |] eqn:E1; try discriminate E. cbn [bind] in E.
  destruct (updateLayers kc ls) as [ls1| | | |] eqn:E2; try discriminate E. cbn [bind] in E.
  assert (EL : ls' = mkLayer kc (lkind kc l) o1 :: ls1) by congruence. subst ls'. destruct j as [|j]; cbn [upd updateLayers].
  - cbn [lkind lobj updatedParameters kclass rbm_class bind]. rewrite E2. reflexivity.
  - rewrite E1. cbn [bind]. rewrite (IH j ls1 o o' eq_refl Eo). reflexivity.
Qed.
Lemma stores_upd ps p y n : (forall k, ~ In (i, k) ps) -> forall b ls ls',
  for_from b n (fun k ls => ptr <- vget ps k ;; v <- vget p k ;; storePtr kc ls ptr v) ls = Ok ls' ->
  for_from b n (fun k ls => ptr <- vget ps k ;; v <- vget p k ;; storePtr kc ls ptr v) (upd ls i y) = Ok (upd ls' i y).
Proof.
  intros HP. induction n as [|n IH]; intros b ls ls' E; cbn [for_from] in *; [congruence|].
  destruct (vget ps b) as [ptr| | | |] eqn:Ep; try discriminate E. cbn [bind] in *.
  destruct (vget p b) as [a| | | |]; try discriminate E. cbn [bind] in *.
  destruct (storePtr kc ls ptr a) as [ls1| | | |] eqn:E1; try discriminate E. cbn [bind] in E.
  rewrite (store_upd _ _ _ _ y E1). 
  - cbn [bind]. now apply IH.
  - intros Hi. apply (HP (snd ptr)). rewrite <- Hi. destruct ptr as [pa pb]. cbn. apply vget_Some in Ep. eapply nth_error_In. exact Ep.
Qed.
Lemma set_upd s p s' o o' : nopointer s -> nth_error (layers kc s) i = Some (mkLayer kc K o) -> setParameters kc s p = Ok s' ->
  setParameters kc (withLayer kc s i (mkLayer kc K o')) p = Ok (withLayer kc s' i (mkLayer kc K o')).
Proof.
  intros HP Eo E. unfold setParameters in *. cbn [Net_Model.P Net_Model.parameters Net_Model.layers with_vector withLayer with_layers] in *.
  match type of E with bind ?m _ = _ => destruct m as [ls1| | | |] eqn:E1 end; try discriminate E. cbn [bind] in E.
  destruct (updateLayers kc ls1) as [ls2| | | |] eqn:E2; try discriminate E. cbn [bind] in E. injection E as <-.
  unfold for_ in *. rewrite (stores_upd _ _ _ _ HP _ _ _ E1). cbn [bind].
  assert (HL : exists o1, nth_error ls1 i = Some (mkLayer kc K o1) /\ rpar o1 = rpar o).
  { change (holds (rpar o) ls1). refine (for_keep (holds (rpar o)) _ _ _ _ _ E1 (ex_intro _ o (conj Eo eq_refl))).
    intros k ls ls' E HQ. destruct (vget (parameters kc s) k) as [ptr| | | |] eqn:Ep; try discriminate E. cbn [bind] in E.
    destruct (vget p k); try discriminate E. cbn [bind] in E. eapply store_holds; [exact E| |exact HQ].
    intros Hi. apply (HP (snd ptr)). rewrite <- Hi. destruct ptr as [pa pb]. cbn. apply vget_Some in Ep. eapply nth_error_In. exact Ep. }
  destruct HL as (o1 & EL & _). rewrite (update_upd _ _ _ _ o' E2 EL). reflexivity.
Qed.
End Fixed.

(** ... is kept: the learner's weights are those after its training in all states after any calls of member functions of the network, ... *)
Theorem C93_fixed_kept d1 d2 d3 cs i s s1 s2 : Forall no_max_norm cs -> reachable junk d1 d2 d3 cs s -> pretrained_fixed junk i s s1 ->
  clos_refl_trans_1n _ (calls junk) s1 s2 ->
  exists M H cdN reg u w o1 o2, getLayer kc s1 i = Ok (mkLayer kc (KRestrictedBoltzmannMachine M H cdN false reg u w) o1) /\
    getLayer kc s2 i = Ok (mkLayer kc (KRestrictedBoltzmannMachine M H cdN false reg u w) o2) /\
    qW (rpar o2) = qW (rpar o1) /\ qbv (rpar o2) = qbv (rpar o1) /\ qbh (rpar o2) = qbh (rpar o1).
Proof.
  intros HM HR [M H cdN reg u w o o' p data E Us] HC. pose proof (reachable_usable junk d1 d2 d3 cs s HM HR) as U. pose proof (u_good _ _ _ _ _ _ U) as G.
  pose proof (getLayer_nth _ _ _ E) as En.
  assert (Hi : (i < length (layers kc s))%nat) by (apply nth_error_Some; congruence).
  set (K := KRestrictedBoltzmannMachine M H cdN false reg u w) in *.
  assert (K1 : kept i M H cdN reg u w (rpar o') (withLayer kc s i (mkLayer kc K o'))).
  { split; [exact (good_nopointer i M H cdN reg u w _ _ s o G En)|]. exists o'. split; [|reflexivity]. cbn [layers withLayer with_layers]. rewrite nth_error_upd.
    rewrite Nat.eqb_refl. destruct (Nat.ltb_spec i (length (layers kc s))); [reflexivity|lia]. }
  assert (K2 : kept i M H cdN reg u w (rpar o') s2).
  { clear - HC K1. induction HC as [|a b c C HC IH]; [exact K1|]. apply IH. eapply calls_kept; eauto. }
  assert (GL : forall q x, nth_error (layers kc q) i = Some x -> getLayer kc q i = Ok x).
  { intros q x Eq. unfold getLayer, numberOfLayers. assert (L : (i < length (layers kc q))%nat) by (apply nth_error_Some; congruence).
    destruct (Nat.ltb_spec i (length (layers kc q))); [|lia]. cbn [check bind]. apply vget_Some. exact Eq. }
  destruct K1 as (_ & o1 & E1 & P1). destruct K2 as (_ & o2 & E2 & P2).
  exists M, H, cdN, reg, u, w, o1, o2. rewrite P1, P2. repeat split; apply GL; auto.
Qed.

(** ... and the other layers can be trained: setParameters has the same effect on them as without the training of the learner. *)
Theorem C93_fixed_training d1 d2 d3 cs i s s1 p : Forall no_max_norm cs -> reachable junk d1 d2 d3 cs s -> pretrained_fixed junk i s s1 ->
  length p = dimension kc s ->
  exists s0 s2, setParameters kc s p = Ok s0 /\ setParameters kc s1 p = Ok s2 /\ currentParameters kc s2 = p /\
    getLayer kc s2 i = getLayer kc s1 i /\ (forall j, j <> i -> getLayer kc s2 j = getLayer kc s0 j).
Proof.
  intros HM HR [M H cdN reg u w o o' p' data E Us] HP. pose proof (reachable_usable junk d1 d2 d3 cs s HM HR) as U. pose proof (u_good _ _ _ _ _ _ U) as G.
  pose proof (getLayer_nth _ _ _ E) as En.
  assert (Hi : (i < length (layers kc s))%nat) by (apply nth_error_Some; congruence).
  destruct (set_ok kc nI nO nK (nInv junk) (nsmooth junk) (nfn junk) (nrg junk) (nok junk) isIn _ _ s p G HP) as (ls & A1 & _ & _ & A2 & _).
  assert (L : length ls = length (layers kc s)) by (rewrite <- (map_length (lkind kc)), A2; apply map_length).
  eexists. eexists. split; [exact A1|]. split. { eapply set_upd; [exact (good_nopointer i M H cdN reg u w _ _ s o G En)|exact En|exact A1]. }
  split; [reflexivity|]. unfold getLayer, numberOfLayers. cbn [layers withLayer with_layers with_vector]. rewrite !upd_length, L. split.
  - unfold vget. rewrite !nth_error_upd, L, Nat.eqb_refl. reflexivity.
  - intros j Hj. unfold vget. rewrite nth_error_upd. destruct (Nat.eqb_spec i j); [congruence|]. reflexivity.
Qed.
End Access.

(** * Counterexamples and examples *)
(** propagateDataSet(dataSet, l) does not return the data set in which each instance has been passed through the first l layers. *)
Theorem C91_propagate_refuted : ~ (forall junk d1 d2 d3 cs s d l, Forall no_max_norm cs -> reachable junk d1 d2 d3 cs s ->
  cols (dataIn d) = netInputs s -> rows (dataOut d) = rows (dataIn d) -> (0 < l <= numberOfLayers (kclass junk) s)%nat ->
  exists s' r, propagateDataSet (kclass junk) junk s d (Z.of_nat l) = Ok (s', r) /\
    forall n, (n < rows (dataIn d))%nat -> exists x s'' y, Net_Model.rowOf (dataIn d) n = Ok x /\ passThrough junk l s x = Ok (s'', y) /\ st_getInstance r n = Ok y).
Proof.
  intros F. set (z := fun _ _ : nat => 0). destruct (ex_net_reachable z z) as (s & HR & Hd & _ & _ & HM & _).
  pose proof (reachable_usable z 1 6 6 (ex_cs z) s HM HR) as U.
  assert (HI : netInputs s = 36%nat) by apply (u_inputs _ _ _ _ _ _ U).
  destruct (C92_output_info z 1 6 6 (ex_cs z) s HM HR) as (EN & _).
  destruct (F z 1%nat 6%nat 6%nat (ex_cs z) s ex_data 1%nat HM HR) as (s' & r & E & G).
  - now rewrite HI.
  - reflexivity.
  - rewrite EN. lia.
  - destruct (C91_result_unusable z _ _ _ _ _ E) as (_ & _ & _ & N). destruct (G 0%nat) as (x & s'' & y & _ & _ & E'); [cbn; lia|].
    destruct (N 0%nat) as (N0 & _). congruence.
Qed.

(** a network with one restricted Boltzmann machine *)
Lemma one_rbm junk u w b : exists s o, reachable junk 1 1 1 [Add (RestrictedBoltzmannMachineLayer 1 1 b u w)] s /\
  netInputs s = 1%nat /\ netOutputs s = 1%nat /\ errorFunction (kclass junk) s = MSE /\ dropout (kclass junk) s = false /\
  (exists x0, layers (kclass junk) s = [mkLayer (kclass junk) (KInput 1) x0; mkLayer (kclass junk) (KRestrictedBoltzmannMachine 1 1 1 b (mkReg 0 0 0) u w) o]) /\
  rbm_inv 1 1 1 b (mkReg 0 0 0) o.
Proof.
  set (cs := [Add (RestrictedBoltzmannMachineLayer 1 1 b u w)]).
  assert (HM : Forall no_max_norm cs) by (repeat constructor).
  destruct (C39_network_can_be_built junk 1 1 1 cs HM) as (s & B & BI & BO & BE & BD). { cbn. lia. }
  assert (HR : reachable junk 1 1 1 cs s) by (apply reach_build; auto; rewrite BO; cbn; lia).
  pose proof (reachable_usable junk 1 1 1 cs s HM HR) as U. pose proof (u_kinds _ _ _ _ _ _ U) as EK. pose proof (g_invs _ _ _ _ _ _ _ _ _ (u_good _ _ _ _ _ _ U)) as V.
  destruct (layers (kclass junk) s) as [|[k0 o0] [|[k1 o1] [|? ?]]] eqn:EL; try discriminate EK.
  cbn [map lkind cs kindsOf kindOf fst] in EK. injection EK as -> ->. exists s, o1. split; auto. split; [rewrite BI; reflexivity|]. split; [rewrite BO; reflexivity|].
  split; auto. split; auto. split.
  - exists o0. exact EL.
  - inversion V as [|? ? _ V2]; subst. inversion V2 as [|? ? V3 _]; subst. apply V3.
Qed.

(** What a layer has learned on its own is not kept: installing the current parameters changes what the network computes. *)
Theorem C93_pretraining_kept_refuted : ~ (forall junk d1 d2 d3 cs i s s1 s2 x r1 r2 y1 y2, Forall no_max_norm cs -> reachable junk d1 d2 d3 cs s ->
  pretrained junk i s s1 -> dropout (kclass junk) s = false -> cols x = netInputs s -> (0 < rows x)%nat ->
  setParameters (kclass junk) s1 (currentParameters (kclass junk) s1) = Ok s2 ->
  net_apply (kclass junk) s1 x = Ok (r1, y1) -> net_apply (kclass junk) s2 x = Ok (r2, y2) ->
  forall n j, (n < rows x)%nat -> (j < netOutputs s)%nat -> at_ y1 n j = at_ y2 n j).
Proof.
  intros F. set (z := fun _ _ : nat => 0). set (u := fun _ : nat => 0). set (x := mkMat 1 1 (fun _ _ => 1)).
  destruct (one_rbm z u z true) as (s & o & HR & HI & HO & HE & HD & (x0 & EL) & Vo).
  set (cs := [Add (RestrictedBoltzmannMachineLayer 1 1 true u z)]) in *.
  assert (HM : Forall no_max_norm cs) by (repeat constructor).
  set (K := KRestrictedBoltzmannMachine 1 1 1 true (mkReg 0 0 0) u z) in *.
  set (a := act_fun LOGISTIC (0 + 1 * at_ (qW (rpar o)) 0 0 + at_ (qbh (rpar o)) 0 0)).
  assert (HW : exists t, act_fun LOGISTIC t <> a).
  { destruct (Req_dec a 1) as [Ha|Ha]; [exists (-46)|exists 46]; unfold act_fun.
    - rewrite (proj2 (Rltb_true _ _)) by lra. lra.
    - rewrite (proj2 (Rltb_false _ _)), (proj2 (Rltb_true _ _)) by lra. lra. }
  destruct HW as (t & Ht).
  assert (HL : length [t; 0; 0] = rdim 1 1) by reflexivity.
  destruct (rbm_setParameters_ok 1 1 1 true (mkReg 0 0 0) o [t; 0; 0] Vo HL) as (o' & Eo & Vo' & Ef & _).
  assert (HT : pretrained z 1 s (withLayer (kclass z) s 1 (mkLayer (kclass z) K o'))).
  { eapply pretrained_rbm; [|eapply ru_set; [apply ru_new| |exact Eo]].
    - unfold getLayer, numberOfLayers. rewrite EL. reflexivity.
    - unfold rbm_dimension. destruct Vo as (C & _). rewrite C. reflexivity. }
  set (s1 := withLayer (kclass z) s 1 (mkLayer (kclass z) K o')) in *.
  pose proof (reachable_usable z 1 1 1 cs s HM HR) as U. pose proof (u_good _ _ _ _ _ _ U) as G.
  destruct (pretrained_good z 1 _ _ s s1 HT G) as (G1 & _).
  destruct (C93_pretraining_lost z 1 1 1 cs 1 s s1 x HM HR HT HD) as (_ & s2 & r & r' & y & y' & E2 & Ey & Ey' & _ & _ & Q); [now rewrite HI|cbn; lia|].
  assert (HX : cols x = netInputs s) by now rewrite HI.
  destruct (forward_net (kclass z) nI nO nK (nInv z) (nsmooth z) (nfn z) (nrg z) (nok z) isIn _ _ s x G HX)
    as (la & Y & Yo & _ & _ & _ & _ & A5 & _ & _ & A8 & A9 & _); [intros; rewrite HO; cbn; lia|].
  destruct (forward_net (kclass z) nI nO nK (nInv z) (nsmooth z) (nfn z) (nrg z) (nok z) isIn _ _ s1 x G1 HX)
    as (lb & Y1 & Yo1 & _ & _ & _ & _ & B5 & _ & _ & B8 & B9 & _); [intros; rewrite HO; cbn; lia|].
  assert (Z : exists r1, net_apply (kclass z) s1 x = Ok (r1, Yo1)) by (unfold net_apply; rewrite B5; cbn [bind tempOutput with_output]; eauto).
  destruct Z as (r1 & Z).
  pose proof (F z 1%nat 1%nat 1%nat cs 1%nat s s1 s2 x r1 r' Yo1 y' HM HR HT HD HX (Nat.lt_0_1) E2 Z Ey' 0%nat 0%nat) as EQ.
  rewrite HO in *. specialize (EQ Nat.lt_0_1 Nat.lt_0_1). rewrite <- (Q 0%nat 0%nat Nat.lt_0_1 Nat.lt_0_1) in EQ.
  assert (ZY : y = Yo).
  { unfold net_apply in Ey. rewrite A5 in Ey. cbn [bind tempOutput with_output] in Ey. congruence. }
  rewrite ZY in EQ. rewrite (A9 0%nat 0%nat Nat.lt_0_1 Nat.lt_0_1), (B9 0%nat 0%nat Nat.lt_0_1 Nat.lt_0_1) in EQ.
  assert (HE1 : errorFunction (kclass z) s1 = MSE) by exact HE. rewrite HE, HE1 in EQ. cbn [outrow] in EQ.
  rewrite (A8 0%nat 0%nat Nat.lt_0_1 Nat.lt_0_1), (B8 0%nat 0%nat Nat.lt_0_1 Nat.lt_0_1) in EQ.
  assert (EL1 : layers (kclass z) s1 = [mkLayer (kclass z) (KInput 1) x0; mkLayer (kclass z) K o']).
  { unfold s1. cbn [layers withLayer with_layers]. rewrite EL. reflexivity. }
  rewrite EL, EL1 in EQ. cbn [fns lkind lobj nfn K RBMNet_Proofs.rbm_fn Nat.ltb Nat.leb] in EQ. unfold RBMNet_Proofs.rbm_fn in EQ.
  assert (EW : at_ (qW (rpar o')) 0 0 = t /\ at_ (qbh (rpar o')) 0 0 = 0).
  { destruct Vo' as (_ & ((R1 & C1) & (R2 & C2) & (R3 & C3)) & _). unfold rflat, rarrays, SAE_Model.mdata in Ef. rewrite R1, C1, R2, C2, R3, C3 in Ef.
    cbn in Ef. injection Ef as -> _ ->. auto. }
  destruct EW as (EW & Eb). apply Ht. cbn [rsum] in EQ. rewrite EW, Eb in EQ. cbn [at_ x] in EQ. change (0 <=? 0)%nat with true in EQ. cbv iota in EQ. fold a in EQ. rewrite <- EQ. f_equal. lra.
Qed.

(** ** The hypotheses are met *)
Example ex_output_info junk w : exists s, reachable junk 1 6 6 (ex_cs w) s /\ numberOfLayers (kclass junk) s = 8%nat /\
  getOutputInfo (kclass junk) s 1 = Ok [2; 4; 4]%nat /\ getOutputInfo (kclass junk) s 7 = Ok [2]%nat.
Proof.
  destruct (ex_net_reachable junk w) as (s & HR & _ & _ & _ & HM & _). exists s. split; auto.
  destruct (C92_output_info junk 1 6 6 (ex_cs w) s HM HR) as (EN & _ & E & _). split; [rewrite EN; reflexivity|].
  split; [exact (E 0%nat ltac:(cbn; lia))|exact (E 6%nat ltac:(cbn; lia))].
Qed.
Example ex_propagate junk w : exists s, reachable junk 1 6 6 (ex_cs w) s /\ propagateDataSet (kclass junk) junk s ex_data 3 = Abort.
Proof.
  destruct (ex_net_reachable junk w) as (s & HR & Hd & _ & _ & HM & _). exists s. split; auto.
  pose proof (reachable_usable junk 1 6 6 (ex_cs w) s HM HR) as U.
  assert (HI : netInputs s = 36%nat) by apply (u_inputs _ _ _ _ _ _ U).
  assert (HO : netOutputs s = 2%nat).
  { unfold netOutputs. rewrite (reachable_infos junk 1 6 6 (ex_cs w) s HM HR). reflexivity. }
  apply (C91_all_layers junk 1 6 6 (ex_cs w) s ex_data 3 HM HR); cbn; try lia; congruence.
Qed.
(** one restricted Boltzmann machine is trained with setParameters *)
Example ex_pretrained junk u w t : exists s s1, reachable junk 1 1 1 [Add (RestrictedBoltzmannMachineLayer 1 1 true u w)] s /\ pretrained junk 1 s s1 /\
  exists o, getLayer (kclass junk) s1 1 = Ok (mkLayer (kclass junk) (KRestrictedBoltzmannMachine 1 1 1 true (mkReg 0 0 0) u w) o) /\ rbm_currentParameters o = [t; 0; 0].
Proof.
  destruct (one_rbm junk u w true) as (s & o & HR & _ & _ & _ & _ & (x0 & EL) & Vo).
  destruct (rbm_setParameters_ok 1 1 1 true (mkReg 0 0 0) o [t; 0; 0] Vo eq_refl) as (o' & Eo & Vo' & _ & Ep & _).
  exists s, (withLayer (kclass junk) s 1 (mkLayer (kclass junk) (KRestrictedBoltzmannMachine 1 1 1 true (mkReg 0 0 0) u w) o')). split; auto. split.
  - eapply pretrained_rbm; [|eapply ru_set; [apply ru_new| |exact Eo]].
    + unfold getLayer, numberOfLayers. rewrite EL. reflexivity.
    + unfold rbm_dimension. destruct Vo as (C & _). rewrite C. reflexivity.
  - exists o'. split; [|exact Ep]. unfold getLayer, numberOfLayers. cbn [layers withLayer with_layers]. rewrite EL. reflexivity.
Qed.
Example ex_pretrained_fixed junk u w t : exists s s1, reachable junk 1 1 1 [Add (RestrictedBoltzmannMachineLayer 1 1 false u w)] s /\ pretrained_fixed junk 1 s s1 /\
  exists o, getLayer (kclass junk) s1 1 = Ok (mkLayer (kclass junk) (KRestrictedBoltzmannMachine 1 1 1 false (mkReg 0 0 0) u w) o) /\ rbm_currentParameters o = [t; 0; 0].
Proof.
  destruct (one_rbm junk u w false) as (s & o & HR & _ & _ & _ & _ & (x0 & EL) & Vo).
  destruct (rbm_setParameters_ok 1 1 1 false (mkReg 0 0 0) o [t; 0; 0] Vo eq_refl) as (o' & Eo & Vo' & _ & Ep & _).
  exists s, (withLayer (kclass junk) s 1 (mkLayer (kclass junk) (KRestrictedBoltzmannMachine 1 1 1 false (mkReg 0 0 0) u w) o')). split; auto. split.
  - eapply pretrained_fixed_rbm; [|eapply ru_set; [apply ru_new| |exact Eo]].
    + unfold getLayer, numberOfLayers. rewrite EL. reflexivity.
    + unfold rbm_dimension. destruct Vo as (C & _). rewrite C. reflexivity.
  - exists o'. split; [|exact Ep]. unfold getLayer, numberOfLayers. cbn [layers withLayer with_layers]. rewrite EL. reflexivity.
Qed.

Print Assumptions C91_result_unusable.
Print Assumptions C91_all_layers.
Print Assumptions C91_propagate_refuted.
Print Assumptions C92_output_info.
Print Assumptions C92_pass_through.
Print Assumptions C93_pretraining_lost.
Print Assumptions C93_pretraining_kept_refuted.
Print Assumptions C93_fixed_kept.
Print Assumptions C93_fixed_training.
