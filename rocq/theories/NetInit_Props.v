(** Theorems about Net::initialize (C86). *)
From Verif Require Import Base BaseFacts Matrix RSum MatOps Vec Activation_Model Layer_Model Layer_Proofs FC_Model SimpleLayers_Model Conv_Model Pool_Model
  Net_Model NetChain_Proofs Net_Proofs NetBuild_Model NetUse_Spec NetBuild_Proofs Net_Props NetSettled_Proofs NetSettled_Props NetInit_Proofs.
Local Open Scope R_scope.

Section Init.
Variable junk : nat -> nat -> R.
Notation kc := (kclass junk).

Lemma drawn_readP cs : forall a b k, map (lkind kc) a = map (lkind kc) b -> NetChain_Proofs.invs kc (nInv junk) a -> NetChain_Proofs.invs kc (nInv junk) b ->
  Forall drawsAgain (map (lkind kc) a) -> drawnLayers junk cs a -> drawnLayers junk cs b -> (k < NetChain_Proofs.count kc nK a)%nat ->
  NetChain_Proofs.readP kc nK a k = NetChain_Proofs.readP kc nK b k.
Proof.
  induction cs as [|[l|r] cs IH]; intros a b k E Va Vb HA Da Db Hk.
  - destruct a; [|easy]. cbn in Hk. lia.
  - destruct a as [|[ka oa] a]; [easy|]. destruct b as [|[kb ob] b]; [easy|]. cbn [map lkind] in E. injection E as Ek E. subst kb.
    inversion Va as [|? ? V1 V2]; subst. inversion Vb as [|? ? V3 V4]; subst.
    cbn [map lkind] in HA. inversion HA as [|? ? HA1 HA2]; subst. destruct Da as (D1 & D2), Db as (D3 & D4).
    cbn [lkind lobj NetChain_Proofs.readP NetChain_Proofs.count] in *. destruct (Nat.ltb_spec k (nK ka)).
    + eapply drawn_reads; eauto.
    + apply IH; auto. lia.
  - now apply IH.
Qed.

Lemma kindsOf_draws w cs : forall i info reg, Forall no_rbm cs -> Forall drawsAgain (kindsOf info reg (redraw w i cs)).
Proof.
  induction cs as [|[l|r] cs IH]; intros i info reg F; cbn [redraw kindsOf]; [constructor| |]; inversion F as [|? ? F1 F2]; subst.
  - constructor; [|now apply IH]. destruct l; cbn in *; auto.
  - now apply IH.
Qed.

(** ** C86: after initialize(), a network has the parameters and computes the outputs of a new network
    with the same layers whose constructors drew the same random numbers [w]: whatever the network
    has been trained to before leaves no trace.  (The error function, the training set and the
    dropout switch are kept.)  The exception are restricted Boltzmann machines whose weights are
    parameters of the network, see C86_initialize_rbm_refuted. *)
Theorem C86_initialize_like_new_partial d1 d2 d3 cs s w :
  Forall no_max_norm cs -> Forall no_rbm cs -> reachable junk d1 d2 d3 cs s ->
  exists fresh s', build junk d1 d2 d3 (redraw w 1 cs) = Ok fresh /\ net_initialize junk w s = Ok s' /\
    reachable junk d1 d2 d3 (redraw w 1 cs) s' /\
    currentParameters kc s' = currentParameters kc fresh /\ dimension kc s' = dimension kc s /\
    errorFunction kc s' = errorFunction kc s /\ trainSet kc s' = trainSet kc s /\ dropout kc s' = dropout kc s /\
    forall x, dropout kc s = false -> cols x = netInputs s -> (0 < rows x)%nat ->
      exists r r' y y', net_apply kc s' x = Ok (r, y) /\
        net_apply kc (setErrorFunction kc fresh (errorFunction kc s)) x = Ok (r', y') /\
        size_is y (rows x) (netOutputs s) /\ size_is y' (rows x) (netOutputs s) /\
        forall n j, (n < rows x)%nat -> (j < netOutputs s)%nat -> at_ y n j = at_ y' n j.
Proof.
  intros HM HB HR. pose proof (reachable_usable junk d1 d2 d3 cs s HM HR) as U.
  destruct (reachable_build junk d1 d2 d3 cs s w HM HR) as (f & Ef & If).
  destruct (usable_initialize junk d1 d2 d3 cs s w U (reachable_flag junk d1 d2 d3 cs s HR)) as (s' & E' & U' & Dr & T1 & T2 & T3 & T4 & T5 & T6).
  assert (HM' : Forall no_max_norm (redraw w 1 cs)) by (now apply (redraw_max_norm junk)).
  assert (HO : netOutputs f = netOutputs s) by (unfold netOutputs; now rewrite If).
  assert (HO' : netOutputs s' = netOutputs s) by (unfold netOutputs; now rewrite T1).
  assert (HI' : netInputs s' = netInputs s) by (unfold netInputs; now rewrite T1).
  assert (HI : netInputs f = netInputs s) by (unfold netInputs; now rewrite If).
  assert (Rf : reachable junk d1 d2 d3 (redraw w 1 cs) f) by (apply reach_build; auto; rewrite HO; apply U).
  pose proof (reachable_usable junk d1 d2 d3 _ f HM' Rf) as Uf. pose proof (build_drawn junk d1 d2 d3 _ f HM' Ef) as Df.
  assert (R' : reachable junk d1 d2 d3 (redraw w 1 cs) s') by (eapply reach_initialize; eauto).
  assert (DIM : dimension kc f = dimension kc s').
  { unfold dimension. now rewrite (usable_dimension _ _ _ _ _ _ Uf), (usable_dimension _ _ _ _ _ _ U'). }
  assert (CP : currentParameters kc s' = currentParameters kc f).
  { pose proof (u_kinds _ _ _ _ _ _ U') as K1. pose proof (u_kinds _ _ _ _ _ _ Uf) as K2.
    pose proof (g_invs _ _ _ _ _ _ _ _ _ (u_good _ _ _ _ _ _ U')) as V1. pose proof (g_invs _ _ _ _ _ _ _ _ _ (u_good _ _ _ _ _ _ Uf)) as V2.
    pose proof (g_P _ _ _ _ _ _ _ _ _ (u_good _ _ _ _ _ _ U')) as P1. pose proof (g_P _ _ _ _ _ _ _ _ _ (u_good _ _ _ _ _ _ Uf)) as P2.
    apply (nth_ext _ _ 0 0).
    - unfold currentParameters. rewrite (u_vector _ _ _ _ _ _ U'), (u_vector _ _ _ _ _ _ Uf). symmetry. exact DIM.
    - unfold currentParameters. intros k Hk. rewrite (u_vector _ _ _ _ _ _ U') in Hk.
      pose proof (u_read _ _ _ _ _ _ U' k Hk) as A1. unfold dimension in DIM. rewrite <- DIM in Hk.
      pose proof (u_read _ _ _ _ _ _ Uf k Hk) as A2.
      assert (X : NetChain_Proofs.readP kc nK (layers kc s') k = NetChain_Proofs.readP kc nK (layers kc f) k).
      { rewrite DIM, P1 in Hk. clear A1 A2 P1 P2. destruct (layers kc s') as [|[k1 o1] l1]; [discriminate K1|].
        destruct (layers kc f) as [|[k2 o2] l2]; [discriminate K2|]. cbn [map lkind tl] in *. injection K1 as -> K1. injection K2 as -> K2.
        inversion V1 as [|? ? ? V1']; subst. inversion V2 as [|? ? ? V2']; subst.
        cbn [NetChain_Proofs.readP NetChain_Proofs.count lkind nK] in *. cbn [Nat.ltb Nat.leb]. apply (drawn_readP (redraw w 1 cs)); auto; [congruence| |].
        - rewrite K1. now apply kindsOf_draws.
        - lia. }
      congruence. }
  exists f, s'. split; auto. split; auto. split; auto. split; auto. split; [exact T6|]. split; auto. split; auto. split; auto.
  intros x HD HX HN.
  set (f1 := setErrorFunction kc f (errorFunction kc s)).
  assert (Rf1 : reachable junk d1 d2 d3 (redraw w 1 cs) f1) by (eapply reach_call; [exact Rf|constructor]).
  assert (Df1 : dropout kc f1 = false).
  { change (dropout kc f = false). clear - Ef. unfold build in Ef.
    destruct (for_each _ _ _) as [[s1 r1]| | | |] eqn:E1; try discriminate Ef. cbn [bind] in Ef.
    assert (G : dropout kc s1 = false).
    { clear Ef. revert E1. generalize (mkReg 0 0 0). assert (D0 : dropout kc (inputLayer junk (net_new kc) d1 d2 d3) = false) by reflexivity.
      revert D0. generalize (inputLayer junk (net_new kc) d1 d2 d3). generalize (redraw w 1 cs). clear f w cs.
      induction l as [|[l|r] cs IH]; intros n D0 rg E1; cbn [for_each runCommand fst snd bind] in E1.
      - now injection E1 as <- _.
      - destruct (add junk n rg l) as [n1| | | |] eqn:E2; try discriminate E1. cbn [bind] in E1. apply IH in E1; auto.
        unfold add in E2. destruct (lastInfo junk n); try discriminate E2. cbn [bind] in E2.
        assert (G : forall l i, Ok (addLayer kc n l i) = Ok n1 -> dropout kc n1 = false) by (intros ? ? E; injection E as <-; exact D0).
        destruct l; try (now apply G in E2);
        repeat match type of E2 with bind ?m _ = _ => destruct m; try discriminate E2; cbn [bind] in E2 end; now apply G in E2.
      - apply IH in E1; auto. }
    unfold initializeNetwork in Ef. repeat match type of Ef with bind ?m _ = _ => destruct m; try discriminate Ef; cbn [bind] in Ef end.
    injection Ef as <-. exact G. }
  destruct (C58_set_current_parameters junk d1 d2 d3 _ s' x HM' R') as (q & Q1 & _ & _ & Q3 & _ & r & r1 & y & y1 & A1 & A2 & A3 & A4 & A5); auto; try congruence.
  destruct (C58_set_current_parameters junk d1 d2 d3 _ f1 x HM' Rf1) as (q' & Q1' & _ & _ & Q3' & _ & r' & r1' & y' & y1' & B1 & B2 & B3 & B4 & B5); auto.
  { change (netInputs f1) with (netInputs f). congruence. }
  assert (HP : currentParameters kc f1 = currentParameters kc s') by (symmetry; exact CP).
  rewrite HP in Q1'.
  destruct (C39_outputs_determined junk d1 d2 d3 (redraw w 1 cs) HM' s' f1 (currentParameters kc s') q q' x) as (a & a' & z & z' & C1 & C2 & C3 & C4 & C5); auto; try congruence.
  { apply (u_vector _ _ _ _ _ _ U'). }
  change (netOutputs f1) with (netOutputs f) in *. rewrite HO in B3, B4, B5. rewrite HO' in A3, A4, A5, C3, C4, C5.
  exists r, r', y, y'. split; auto. split; auto. split; auto. split; auto. intros n j Hn Hj.
  rewrite A5, B5 by auto. rewrite A2 in C1. injection C1 as <- <-. rewrite B2 in C2. injection C2 as <- <-. now apply C5.
Qed.

(** Two networks with the same layers that have been trained differently are equal after both
    have drawn the same numbers. *)
Theorem C86_initialize_forgets_partial d1 d2 d3 cs s1 s2 w x :
  Forall no_max_norm cs -> Forall no_rbm cs -> reachable junk d1 d2 d3 cs s1 -> reachable junk d1 d2 d3 cs s2 ->
  errorFunction kc s1 = errorFunction kc s2 -> dropout kc s1 = false -> dropout kc s2 = false ->
  cols x = netInputs s1 -> (0 < rows x)%nat ->
  exists s1' s2' r1 r2 y1 y2, net_initialize junk w s1 = Ok s1' /\ net_initialize junk w s2 = Ok s2' /\
    currentParameters kc s1' = currentParameters kc s2' /\
    net_apply kc s1' x = Ok (r1, y1) /\ net_apply kc s2' x = Ok (r2, y2) /\
    size_is y1 (rows x) (netOutputs s1) /\ size_is y2 (rows x) (netOutputs s1) /\
    forall n j, (n < rows x)%nat -> (j < netOutputs s1)%nat -> at_ y1 n j = at_ y2 n j.
Proof.
  intros HM HB R1 R2 HE D1 D2 HX HN.
  destruct (C86_initialize_like_new_partial d1 d2 d3 cs s1 w HM HB R1) as (f1 & s1' & F1 & E1 & _ & P1 & _ & _ & _ & _ & O1).
  destruct (C86_initialize_like_new_partial d1 d2 d3 cs s2 w HM HB R2) as (f2 & s2' & F2 & E2 & _ & P2 & _ & _ & _ & _ & O2).
  assert (f2 = f1) by congruence. subst f2.
  assert (I12 : netInputs s2 = netInputs s1).
  { rewrite (u_inputs _ _ _ _ _ _ (reachable_usable junk d1 d2 d3 cs s1 HM R1)). apply (u_inputs _ _ _ _ _ _ (reachable_usable junk d1 d2 d3 cs s2 HM R2)). }
  destruct (O1 x D1 HX HN) as (r1 & r1' & y1 & y1' & A1 & A2 & A3 & A4 & A5).
  destruct (O2 x D2 ltac:(congruence) HN) as (r2 & r2' & y2 & y2' & B1 & B2 & B3 & B4 & B5).
  rewrite <- HE in B2. rewrite A2 in B2. injection B2 as <- <-.
  assert (O12 : netOutputs s2 = netOutputs s1) by (destruct A4 as (_ & A4), B4 as (_ & B4); congruence).
  rewrite O12 in *. exists s1', s2', r1, r2, y1, y2. repeat (split; [auto; congruence|]). intros n j Hn Hj. rewrite A5, B5; auto.
Qed.
(** ** Restricted Boltzmann machines (RBM.h 108: initializeParameters does nothing) *)
Definition rbm_only (c : command) : Prop := match c with Add (RestrictedBoltzmannMachineLayer _ _ _ _ _) => True | _ => False end.

Lemma kindsOf_rbm cs : forall info reg, Forall rbm_only cs ->
  Forall (fun k => match k with KInput _ | KRestrictedBoltzmannMachine _ _ _ _ _ _ _ => True | _ => False end) (kindsOf info reg cs).
Proof.
  induction cs as [|c cs IH]; intros info reg H; [constructor|]. inversion H as [|? ? H1 H2]; subst.
  destruct c as [[]|]; try destruct H1. cbn [kindsOf]. constructor; [exact I|]. now apply IH.
Qed.
Lemma initializeLayers_rbm w ls : forall i,
  Forall (fun k => match k with KInput _ | KRestrictedBoltzmannMachine _ _ _ _ _ _ _ => True | _ => False end) (map (lkind kc) ls) ->
  initializeLayers junk w i ls = Ok ls.
Proof.
  induction ls as [|[k o] ls IH]; intros i H; [reflexivity|]. cbn [map lkind] in H. inversion H as [|? ? H1 H2]; subst.
  cbn [initializeLayers]. rewrite IH by auto. destruct k; try destruct H1; reflexivity.
Qed.

(** initialize does not change the parameters of a network that consists of restricted Boltzmann machines. *)
Theorem C86_initialize_keeps_rbms d1 d2 d3 cs s w : Forall rbm_only cs -> reachable junk d1 d2 d3 cs s ->
  exists s', net_initialize junk w s = Ok s' /\ currentParameters kc s' = currentParameters kc s.
Proof.
  intros HB HR.
  assert (HM : Forall no_max_norm cs) by (revert HB; apply Forall_impl; intros [[]|] X; try exact I; destruct X).
  pose proof (reachable_usable junk d1 d2 d3 cs s HM HR) as U.
  destruct (usable_initialize junk d1 d2 d3 cs s w U (reachable_flag junk d1 d2 d3 cs s HR)) as (s' & E' & U' & _ & _ & _ & _ & _ & _ & T6).
  exists s'. split; [exact E'|].
  assert (L : layers kc s' = layers kc s).
  { unfold net_initialize in E'. rewrite (reachable_flag junk d1 d2 d3 cs s HR) in E'. cbn [check bind] in E'.
    rewrite initializeLayers_rbm in E' by (rewrite (u_kinds _ _ _ _ _ _ U); constructor; [exact I|now apply kindsOf_rbm]). cbn [bind] in E'.
    destruct (for_ _ _ _) in E'; try discriminate E'. cbn [bind] in E'. injection E' as <-. reflexivity. }
  unfold dimension in T6. apply (nth_ext _ _ 0 0); unfold currentParameters.
  - rewrite (u_vector _ _ _ _ _ _ U'), (u_vector _ _ _ _ _ _ U). exact T6.
  - intros k Hk. rewrite (u_vector _ _ _ _ _ _ U') in Hk. pose proof (u_read _ _ _ _ _ _ U' k Hk) as A1. rewrite T6 in Hk.
    pose proof (u_read _ _ _ _ _ _ U k Hk) as A2. congruence.
Qed.
End Init.

(** So networks do not forget what they have learned: the two networks of C86_initialize_forgets_partial can be different. *)
Theorem C86_initialize_rbm_refuted :
  ~ (forall junk d1 d2 d3 cs s1 s2 w s1' s2', Forall no_max_norm cs -> reachable junk d1 d2 d3 cs s1 -> reachable junk d1 d2 d3 cs s2 ->
       net_initialize junk w s1 = Ok s1' -> net_initialize junk w s2 = Ok s2' ->
       currentParameters (kclass junk) s1' = currentParameters (kclass junk) s2').
Proof.
  intros H. set (z := fun _ _ : nat => 0). set (cs := [Add (RestrictedBoltzmannMachineLayer 1 1 true (fun _ => 0) z)]).
  assert (HM : Forall no_max_norm cs) by repeat constructor. assert (HB : Forall rbm_only cs) by repeat constructor.
  destruct (C39_network_can_be_built z 1 1 1 cs HM) as (s & B & BI & BO & _). { cbn. lia. }
  assert (HR : reachable z 1 1 1 cs s) by (apply reach_build; auto; rewrite BO; cbn; lia).
  pose proof (C39_dimension z 1 1 1 cs HM s HR) as DIM. cbn in DIM.
  destruct (C39_current_parameters z 1 1 1 cs HM s [1; 1] HR) as (a & A1 & A2 & A3); [now rewrite DIM|].
  destruct (C39_current_parameters z 1 1 1 cs HM s [2; 2] HR) as (b & B1 & B2 & B3); [now rewrite DIM|].
  assert (Ra : reachable z 1 1 1 cs a) by (eapply reach_call; [exact HR|]; apply (call_setParameters z s [1; 1]); auto; now rewrite DIM).
  assert (Rb : reachable z 1 1 1 cs b) by (eapply reach_call; [exact HR|]; apply (call_setParameters z s [2; 2]); auto; now rewrite DIM).
  destruct (C86_initialize_keeps_rbms z 1 1 1 cs a (fun _ => z) HB Ra) as (a' & I1 & J1).
  destruct (C86_initialize_keeps_rbms z 1 1 1 cs b (fun _ => z) HB Rb) as (b' & I2 & J2).
  pose proof (H z 1%nat 1%nat 1%nat cs a b (fun _ => z) a' b' HM Ra Rb I1 I2) as E. rewrite J1, J2, A2, B2 in E. injection E. lra.
Qed.

(** ** A network with all kinds of layers, trained in any way *)
Example ex_initialize junk w w' p : length p = 65%nat ->
  exists s s1 s2 s' , reachable junk 1 6 6 (ex_cs w) s /\ setParameters (kclass junk) s p = Ok s1 /\ net_initialize junk w' s1 = Ok s2 /\
    net_initialize junk w' s = Ok s' /\ currentParameters _ s2 = currentParameters _ s' /\ length (currentParameters _ s') = 65%nat.
Proof.
  intros Hp. destruct (ex_net_reachable junk w) as (s & HR & Hd & HE & HDr & HM & HS & HP).
  destruct (C39_current_parameters junk 1 6 6 (ex_cs w) HM s p HR) as (s1 & E1 & _); [congruence|].
  assert (R1 : reachable junk 1 6 6 (ex_cs w) s1) by (eapply reach_call; [exact HR|]; apply (call_setParameters junk s p); auto; congruence).
  destruct (C86_initialize_like_new_partial junk 1 6 6 _ s w' HM ltac:(repeat constructor) HR) as (f & s' & F1 & E2 & R2 & P2 & Q2 & _).
  destruct (C86_initialize_like_new_partial junk 1 6 6 _ s1 w' HM ltac:(repeat constructor) R1) as (f' & s2 & F1' & E3 & R3 & P3 & Q3 & _).
  exists s, s1, s2, s'. repeat (split; auto); [congruence|].
  assert (HM' : Forall no_max_norm (redraw w' 1 (ex_cs w))) by (now apply (redraw_max_norm junk)).
  destruct (C39_pointers junk 1 6 6 _ HM' s' 0 R2) as (_ & L & _); [rewrite Q2, HP; lia|]. congruence.
Qed.

Print Assumptions C86_initialize_like_new_partial.
Print Assumptions C86_initialize_forgets_partial.
Print Assumptions C86_initialize_keeps_rbms.
Print Assumptions C86_initialize_rbm_refuted.
