(** Theorems about networks of arbitrary layers (C101). *)
From Coq Require Import Lra Lia.
From Verif Require Import Base BaseFacts Matrix RSum MatOps Vec Deriv Activation_Model Layer_Model Layer_Spec LayerFun_Spec
  FC_Model FC_Proofs SimpleLayers_Model Net_Model NetChain_Proofs Net_Proofs NetBuild_Model NetUse_Spec NetBuild_Proofs
  OwnLayer_Model OwnLayer_Spec OwnLayer_Proofs.
Local Open Scope R_scope.

Section Props.
Variables (junk : nat -> nat -> R) (d1 d2 d3 : nat) (os : list object).
Notation n := (d1 * d2 * d3)%nat.

(** A null pointer is rejected. *)
Theorem C101_null_pointer l : In None l -> buildOwn junk d1 d2 d3 l = Abort.
Proof.
  intros H. unfold buildOwn. generalize (anyInput d1 d2 d3). induction l as [|o l IH]; intros s; [easy|].
  cbn [for_each]. destruct o as [o|]; [|reflexivity]. destruct H as [H|H]; [discriminate H|]. cbn [addObject bind]. now apply IH.
Qed.

(** Objects that fit to each other can be put together. *)
Theorem C101_can_be_built : chained n os ->
  exists s, buildOwn junk d1 d2 d3 (map Some os) = Ok s /\ netInputs s = n /\ netOutputs s = lastOuts n os /\
    errorFunction _ s = MSE /\ dropout _ s = false /\ trainSet _ s = None.
Proof.
  intros C. destruct (build_ok junk d1 d2 d3 os C) as (s & E & U & R). exists s. split; auto. split; [apply (u_inputs _ _ _ U)|].
  split; [apply (u_outputs _ _ _ U)|]. auto.
Qed.

Hypothesis C : chained n os.
Hypothesis HO : (0 < lastOuts n os)%nat.

(** The parameters of the network are those of the objects, one object after the other: parameter k of object i (layer
    i + 1) is parameter allPars (firstn i os) + k of the network. *)
Theorem C101_parameters s : owns junk d1 d2 d3 os s ->
  dimension _ s = allPars os /\ length (currentParameters _ s) = allPars os /\
  length (layers _ s) = S (length os) /\
  forall i o, nth_error os i = Some o -> exists st, layerIs s (S i) (otype o) st /\
    forall k, (k < pars (otype o))%nat ->
      readParam (cls (otype o)) st k = Ok (nth (allPars (firstn i os) + k) (currentParameters _ s) 0).
Proof.
  intros H. pose proof (owns_usable junk d1 d2 d3 os s C HO H) as U. pose proof (usable_dimension _ _ _ U) as HD.
  split; auto. split; [unfold currentParameters; now rewrite (u_vector _ _ _ U)|].
  pose proof (u_kinds _ _ _ U) as HK. split.
  { rewrite <- (map_length (lkind kc)), HK. cbn. now rewrite map_length. }
  intros i o Hi.
  assert (HN : nth_error (map (lkind kc) (layers kc s)) (S i) = Some (Own (otype o))).
  { rewrite HK. cbn [nth_error]. now rewrite nth_error_map, Hi. }
  rewrite nth_error_map in HN. destruct (nth_error (layers kc s) (S i)) as [[k st]|] eqn:EL; [|discriminate HN].
  cbn in HN. injection HN as ->. exists st. split; [exact EL|]. intros j Hj.
  pose proof (readP_nth (layers kc s) (S i) _ j EL Hj) as HR. cbn [lkind lobj] in HR.
  change (readParam (kc (Own (otype o))) st j) with (readParam (cls (otype o)) st j) in HR. rewrite <- HR.
  pose proof (sumK_firstn_lt (layers kc s) (S i) _ j EL Hj) as HL.
  assert (ES : sumK (map (lkind kc) (firstn (S i) (layers kc s))) = allPars (firstn i os)).
  { rewrite <- firstn_map, HK. cbn [firstn sumK aK]. now rewrite firstn_map, sumK_objects. }
  rewrite ES in *. rewrite (u_read _ _ _ U); auto. rewrite (g_P _ _ _ _ _ _ _ _ _ (u_good _ _ _ U)). exact HL.
Qed.

(** All parameters can be set, and are then the current ones. *)
Theorem C101_set_parameters s p : owns junk d1 d2 d3 os s -> length p = dimension _ s ->
  exists s', setParameters _ s p = Ok s' /\ currentParameters _ s' = p.
Proof.
  intros H Hp. pose proof (owns_usable junk d1 d2 d3 os s C HO H) as U.
  destruct (set_ok kc aI aO aK aInv asm afn arg aok aIn _ _ s p (u_good _ _ _ U) Hp) as (ls & E & _). eexists. split; [exact E|]. reflexivity.
Qed.

(** The network computes for each row what its layers compute one after the other; every number of rows is possible. *)
Theorem C101_output s x : owns junk d1 d2 d3 os s -> errorFunction _ s = MSE -> cols x = n ->
  exists s' y, net_apply _ s x = Ok (s', y) /\ size_is y (rows x) (lastOuts n os) /\
    forall i j, (i < rows x)%nat -> (j < lastOuts n os)%nat -> at_ y i j = through (layers _ s) (dropout _ s) i (at_ x i) j.
Proof.
  intros H HE HX. pose proof (owns_usable junk d1 d2 d3 os s C HO H) as U. pose proof (u_good _ _ _ U) as G.
  rewrite <- (u_inputs _ _ _ U) in HX.
  destruct (forward_net kc aI aO aK aInv asm afn arg aok aIn _ _ s x G HX)
      as (ls & Y & Yo & Ef & Eo & SY & SYo & En & V & Sm & Fy & Fo & G'). { congruence. }
  rewrite (u_outputs _ _ _ U) in *. unfold net_apply. rewrite En. cbn [bind].
  eexists _, Yo. split; [reflexivity|]. split; auto. intros i j Hi Hj. rewrite Fo, HE by auto. cbn [outrow]. rewrite Fy by auto.
  symmetry. apply (through_fns _ _ _ (g_wired _ _ _ _ _ _ _ _ _ G) (g_invs _ _ _ _ _ _ _ _ _ G)).
  pose proof (u_outputs _ _ _ U). lia.
Qed.

(** gradient(n) is the gradient of error(n): after setParameters(p), component k is the derivative of v -> error(n) with
    parameter k replaced by v. *)
Theorem C101_gradient_exact s d i p :
  owns junk d1 d2 d3 os s -> trainSet _ s = Some d -> (i < rows (dataIn d))%nat -> errorFunction _ s = MSE ->
  length p = dimension _ s ->
  (forall s1 X, setParameters _ s p = Ok s1 -> batch_of (dataIn d) [i] X -> differentiableAt (layers _ s1) X (dropout _ s)) ->
  exists s1 s2 g, setParameters _ s p = Ok s1 /\ gradient_at _ junk s1 i = Ok (s2, g) /\ length g = dimension _ s /\
    forall k, (k < dimension _ s)%nat ->
      exists f : R -> R,
        (forall v, exists q q', setParameters _ s (upd p k v) = Ok q /\ error_at _ q i = Ok (q', f v)) /\
        derivable_pt_lim f (nth k p 0) (nth k g 0).
Proof.
  intros H Hd Hn HE Hp HS. pose proof (owns_usable junk d1 d2 d3 os s C HO H) as U.
  pose proof (u_good _ _ _ U) as G. pose proof (u_fits _ _ _ U d Hd) as F.
  destruct (set_ok kc aI aO aK aInv asm afn arg aok aIn _ _ s p G Hp) as (ls & Es & _ & _ & _ & _ & G1).
  destruct (batch_gradient kc aI aO aK aInv asm afn arg aok aIn ain junk _ _ s d [i] p (tempGradient kc s) G Hd F)
    as (s1 & s2 & g & E1 & E2 & Lg & _ & _ & HG); auto.
  { apply (g_grad _ _ _ _ _ _ _ _ _ G). }
  { congruence. }
  { intros s1 X E HB. apply differentiable_run. eauto. }
  assert (s1 = with_layers kc (with_vector kc s p) ls) by congruence.
  exists s1, (with_gradient kc s2 g), g. split; auto. split.
  { unfold gradient_at. replace (tempGradient kc s1) with (tempGradient kc s) by (subst s1; reflexivity). now rewrite E2. }
  split; auto. intros k Hk. destruct (HG k Hk) as (q & Eq & HD).
  exists (fun v => batchobj kc afn (q v) d [i] (netOutputs s) + NetChain_Proofs.rgs kc arg (layers kc (q v)) / INR (length [i])). split; [|exact HD].
  intros v. assert (Lu : length (upd p k v) = P kc s) by now rewrite upd_length.
  destruct (set_ok kc aI aO aK aInv asm afn arg aok aIn _ _ s (upd p k v) G Lu) as (lv & Ev & _ & _ & _ & _ & Gv).
  assert (EQ : q v = with_layers kc (with_vector kc s (upd p k v)) lv) by (pose proof (Eq v); congruence).
  rewrite <- EQ in Gv.
  destruct (error_at_ok kc aI aO aK aInv asm afn arg aok aIn _ _ (q v) d i Gv) as (q' & E' & _); auto. { rewrite EQ. exact Hd. }
  { intros _. now rewrite (u_outputs _ _ _ U). }
  exists (q v), q'. split; auto. rewrite E'. do 2 f_equal. unfold batchobj. cbn [length rsum nth INR].
  assert (errorFunction kc (q v) = MSE) as -> by (rewrite EQ; exact HE). unfold rowobj, rowloss. field.
Qed.
End Props.

(** ** The layers of the library are such types of layers, ... *)
Definition libraryType (junk : nat -> nat -> R) (k : kind) : layerType :=
  mkType (kclass junk k) (nI k) (nO k) (nK k) (nInv junk k) (nsmooth junk k) (nfn junk k) (nrg junk k) (nok junk k).

(** ** ... and so is a class of a user: it multiplies all I inputs with one parameter. *)
Record scale := mkScale { factor : R; factord : R; seen : mat }.
Definition scale_class : LayerClass :=
  mkClass scale bool (fun _ => ([true], [false]))
    (fun s l => Ok (if l : bool then factor s else factord s))
    (fun s l v => Ok (if l : bool then mkScale v (factord s) (seen s) else mkScale (factor s) v (seen s)))
    (fun s => Ok s)
    (fun s x _ => Ok (mkScale (factor s) (factord s) x, mmap (Rmult (factor s)) x, 0))
    (fun s e _ => e' <- mmap2 Rmult e (seen s) ;; Ok (mkScale (factor s) (msum e') (seen s), mmap (Rmult (factor s)) e)).

Lemma scale_install s p : length p = 1%nat -> install scale_class s p = Ok (mkScale p.[0] (factord s) (seen s)).
Proof. destruct p as [|a [|]]; intros H; try discriminate H. reflexivity. Qed.

Lemma scale_keeps I : layer_ok scale_class I I 1 (fun _ => True) (fun _ _ => True)
  (fun s _ _ x j => if Nat.ltb j I then factor s * x j else 0) (fun _ => 0).
Proof.
  constructor.
  - constructor.
    + intros. split; reflexivity.
    + intros s [|k] _ H; [|lia]. eexists. reflexivity.
    + intros s [|k] v _ H; [|lia]. eexists. split; [reflexivity|]. split; auto. intros [|k'] H'; [reflexivity|lia].
    + intros s _. exists s. auto.
    + intros s dropout N t0 p p' X X' _ Lp SX Dp DX _.
      exists (fun t => mkScale (p t).[0] (factord s) (X t)), (fun t => mmap (Rmult (p t).[0]) (X t)), (fun _ => 0),
        (fun i j => p' 0%nat * at_ (X t0) i j + (p t0).[0] * X' i j), 0.
      split; [|split; [|split; [|split; [|split]]]]; auto.
      * intros t. eexists. split; [now apply scale_install|]. reflexivity.
      * intros i j Hi Hj. cbn [mmap at_]. apply (D_mult (fun t => (p t).[0]) (fun t => at_ (X t) i j)); auto.
      * apply D_const.
      * intros ein bp SE. pose proof (SX t0) as SX0.
        exists (mkScale (p t0).[0] (inner N I (at_ ein) (at_ (X t0))) (X t0)), (mmap (Rmult (p t0).[0]) ein),
          (fun _ => inner N I (at_ ein) (at_ (X t0))).
        split.
        { cbn [backpropagate scale_class seen factor]. rewrite (mmap2_Ok _ _ _ N I) by auto. cbn [bind]. reflexivity. }
        split; auto. split. { intros [|k] Hk; [reflexivity|lia]. }
        assert (EQ : inner N I (at_ ein) (fun i j => p' 0%nat * at_ (X t0) i j + (p t0).[0] * X' i j) + 0 =
          rsum 1 (fun k => inner N I (at_ ein) (at_ (X t0)) * p' k) + inner N I (at_ (mmap (Rmult (p t0).[0]) ein)) X').
        { cbn [rsum]. rewrite Rplus_0_r, Rplus_0_l. unfold inner. rewrite <- rsum_scal_r, <- rsum_plus. apply rsum_ext. intros i Hi.
          rewrite <- rsum_scal_r, <- rsum_plus. apply rsum_ext. intros j Hj. cbn [mmap at_]. ring. }
        split.
        { intros _. split; [exact SE|exact EQ]. }
        intros _ HX. rewrite EQ. replace (inner N I (at_ (mmap (Rmult (p t0).[0]) ein)) X') with 0; [ring|].
        symmetry. unfold inner. apply rsum_0. intros i Hi. apply rsum_0. intros j Hj. rewrite HX by auto. ring.
  - intros s d m x x' j _ H. destruct (Nat.ltb_spec j I); auto. now rewrite H.
  - reflexivity.
  - intros s X d _ HX. eexists _, _. split; [reflexivity|]. split; auto.
    split; [split; [intros [|k] Hk; [reflexivity|lia]|auto]|].
    split; auto. split; auto. intros m j Hm Hj. cbn [mmap at_]. now rewrite (proj2 (Nat.ltb_lt _ _) Hj).
  - intros s X d q Y r ein bp q2 eout _ HX E R1 C1 EB. injection E as <- <- <-.
    cbn [backpropagate scale_class seen factor] in EB. rewrite (mmap2_Ok _ _ _ (rows X) I) in EB by (split; auto). cbn [bind] in EB.
    injection EB as <- <-. split; auto. split; [|auto]. split; [intros [|k] Hk; [reflexivity|lia]|]. auto.
  - intros s s' p q q' _ _ Lp E E'. rewrite scale_install in E by auto. rewrite scale_install in E' by auto.
    injection E as <-. injection E' as <-. split; [intros [|k] Hk; [reflexivity|lia]|]. auto.
Qed.
Definition scaleType (I : nat) : layerType := mkType scale_class I I 1 _ _ _ _ (scale_keeps I).

(** Example: 2 inputs, a layer of the user, a fully connected layer of the library with 3 units and 9 weights, and another layer of the user *)
Definition exampleObjects : list object :=
  let z := fun _ _ : nat => 0 in
  [ mkObject (scaleType 2) (mkScale 3 0 (mzero 0 0)) [2%nat];
    mkObject (libraryType z (KFullyConnected 2 3 true TANH (mkReg 0 0 0))) (fc_new z 2 3 true TANH (mkReg 0 0 0)) [3%nat];
    mkObject (scaleType 3) (mkScale 5 0 (mzero 0 0)) [3%nat] ].
Example C101_hypotheses_met : chained (1 * 1 * 2) exampleObjects /\ lastOuts (1 * 1 * 2) exampleObjects = 3%nat /\
  allPars exampleObjects = 11%nat.
Proof.
  split; [|split; reflexivity]. cbn [chained exampleObjects otype ostate oinfo scaleType libraryType ins outs inv nI nO nInv].
  assert (fc_inv 2 3 true TANH (mkReg 0 0 0) (fc_new (fun _ _ : nat => 0) 2 3 true TANH (mkReg 0 0 0))) by (unfold fc_inv, fc_new, size_is; cbn; auto 20).
  cbn [maxSquaredWeightNorm]. intuition auto with real.
Qed.
(** ... which is differentiable everywhere, ... *)
Example C101_differentiable junk s X : owns junk 1 1 2 exampleObjects s -> differentiableAt (layers _ s) X false.
Proof.
  intros H. destruct C101_hypotheses_met as (HC & HL & _).
  pose proof (owns_usable junk 1 1 2 exampleObjects s HC ltac:(rewrite HL; lia) H) as U.
  pose proof (u_kinds _ _ _ U) as HK. revert X. revert HK. generalize (layers kc s). intros ls HK X.
  assert (HA : forall ks, Forall (fun k => forall o Y, asm k o Y) ks -> forall ls Y, map (lkind kc) ls = ks -> differentiableAt ls Y false).
  { induction ks as [|k ks IH]; intros Hks [|[k' o] ls'] Y E; try discriminate E; cbn [differentiableAt]; auto.
    cbn in E. injection E as -> E. inversion Hks as [|? ? H1 H2]; subst. split; [|intros; now apply IH].
    specialize (H1 o Y). destruct k; exact H1. }
  refine (HA _ _ ls X HK).
  cbn [map exampleObjects otype]. repeat (apply Forall_cons; [intros o Y; try exact Logic.I|]); auto.
  cbn [asm libraryType differentiable]. apply ksm_smooth. cbn. lra.
Qed.
(** ... can be built and trained with one instance *)
Example C101_example_used : exists s d, owns (fun _ _ => 0) 1 1 2 exampleObjects s /\ trainSet _ s = Some d /\
  rows (dataIn d) = 1%nat /\ errorFunction _ s = MSE /\ dimension _ s = 11%nat.
Proof.
  destruct C101_hypotheses_met as (HC & HL & HP).
  destruct (C101_can_be_built (fun _ _ => 0) 1 1 2 exampleObjects HC) as (s & E & EI & EO & EE & _).
  set (d := mkData (mkMat 1 2 (fun _ j => INR j)) (mkMat 1 3 (fun _ _ => 1))).
  assert (H1 : owns (fun _ _ => 0) 1 1 2 exampleObjects s) by now constructor.
  assert (H2 : owns (fun _ _ => 0) 1 1 2 exampleObjects (trainingSet _ s d)).
  { apply (owns_called _ _ _ _ _ s); auto. constructor. unfold fits. rewrite EI, EO, HL. auto. }
  exists (trainingSet _ s d), d. repeat (split; [auto; fail|]). rewrite <- HP.
  refine (proj1 (C101_parameters (fun _ _ => 0) 1 1 2 exampleObjects HC _ _ H2)). rewrite HL. lia.
Qed.

Print Assumptions C101_null_pointer.
Print Assumptions C101_can_be_built.
Print Assumptions C101_parameters.
Print Assumptions C101_set_parameters.
Print Assumptions C101_output.
Print Assumptions C101_gradient_exact.
