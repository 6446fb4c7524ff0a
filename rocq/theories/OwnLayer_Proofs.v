(** Proofs about networks of arbitrary layers. *)
From Coq Require Import Lra Lia.
From Verif Require Import Base BaseFacts Matrix RSum MatOps Vec Deriv Activation_Model Activation_Proofs
  Layer_Model Layer_Spec LayerFun_Spec FC_Model SimpleLayers_Model SimpleLayers_Proofs
  Net_Model NetChain_Proofs Net_Proofs NetBuild_Model NetUse_Spec NetBuild_Proofs OwnLayer_Model OwnLayer_Spec.
Local Open Scope R_scope.

Notation kc := anyClass.
Definition aI (k : anyKind) : nat := match k with TheInput J => J | Own t => ins t end.
Definition aO (k : anyKind) : nat := match k with TheInput J => J | Own t => outs t end.
Definition aK (k : anyKind) : nat := match k with TheInput J => 0 | Own t => pars t end.
Definition aInv (k : anyKind) : St (kc k) -> Prop :=
  match k as k0 return St (kc k0) -> Prop with TheInput J => fun s => nInv (fun _ _ => 0) (KInput J) s | Own t => inv t end.
Definition asm (k : anyKind) : St (kc k) -> mat -> Prop :=
  match k as k0 return St (kc k0) -> mat -> Prop with TheInput J => fun _ _ => True | Own t => differentiable t end.
Definition afn (k : anyKind) : St (kc k) -> bool -> nat -> (nat -> R) -> nat -> R :=
  match k as k0 return St (kc k0) -> bool -> nat -> (nat -> R) -> nat -> R with
  | TheInput J => nfn (fun _ _ => 0) (KInput J) | Own t => computes t end.
Definition arg (k : anyKind) : St (kc k) -> R :=
  match k as k0 return St (kc k0) -> R with TheInput J => fun _ => 0 | Own t => errorTerm t end.
Lemma aok k : layer_ok (kc k) (aI k) (aO k) (aK k) (aInv k) (asm k) (afn k) (arg k).
Proof. destruct k as [J|t]; [apply (nok (fun _ _ => 0) (KInput J))|apply keeps]. Qed.
Definition aIn (k : anyKind) : Prop := match k with TheInput _ => True | _ => False end.
Lemma ain k : aIn k -> aK k = 0%nat /\ aI k = aO k /\
  (forall s X dropout, exists q, forwardPropagate (kc k) s X dropout = Ok (q, X, 0)) /\
  (forall s e bp, exists q e', backpropagate (kc k) s e bp = Ok (q, e') /\ (aInv k s -> aInv k q) /\
      same_fun (kc k) (aO k) (aK k) (afn k) (arg k) q s).
Proof. destruct k as [J|t]; intros H; [|easy]. apply (nin (fun _ _ => 0) (KInput J)). exact Logic.I. Qed.

Notation wired := (wired kc aI aO).
Notation invs := (invs kc aInv).
Notation count := (count kc aK).
Notation readP := (readP kc aK).
Notation ptrs := (ptrs kc aK).
Notation starts := (starts kc aIn).
Notation rgs := (rgs kc arg).
Notation fns := (fns kc afn).
Notation good := (good kc aI aO aK aInv aIn).
Notation same_net := (same_net kc aO aK afn arg).
Notation same_layers := (same_layers kc aO aK afn arg).
Notation kindsOf os := (map (fun o => Own (otype o)) os).

Lemma wired_snoc ls : forall I O l, wired I ls O -> aI (lkind kc l) = O -> wired I (ls ++ [l]) (aO (lkind kc l)).
Proof. induction ls as [|a ls IH]; intros I O l W E; cbn in *; [subst; auto|]. destruct W. split; eauto. Qed.

Record adding (I O : nat) (os : list object) (s : net kc) : Prop := mkAdding {
  a_starts : starts (layers kc s);
  a_wired : wired I (layers kc s) O;
  a_invs : invs (layers kc s);
  a_params : parameters kc s = ptrs 0 (layers kc s);
  a_derivs : derivatives kc s = ptrs 0 (layers kc s);
  a_info : exists info, vget (infos kc s) (length (infos kc s) - 1) = Ok info /\ outputs info = O;
  a_first : netInputs s = I;
  a_some : infos kc s <> [];
  a_train : trainSet kc s = None;
  a_kinds : map (lkind kc) (layers kc s) = TheInput I :: kindsOf os;
  a_ef : errorFunction kc s = MSE;
  a_drop : dropout kc s = false }.

Lemma adding_input d1 d2 d3 : adding (d1 * d2 * d3) (d1 * d2 * d3) [] (anyInput d1 d2 d3).
Proof.
  constructor; cbn; auto.
  - constructor; [exact Logic.I|constructor].
  - exists [d1; d2; d3]. split; [reflexivity|]. apply outputs3.
  - discriminate.
Qed.

Lemma adding_object I O os s o : adding I O os s -> ins (otype o) = O -> inv (otype o) (ostate o) ->
  outputs (oinfo o) = outs (otype o) ->
  exists s', addObject s (Some o) = Ok s' /\ adding I (outs (otype o)) (os ++ [o]) s'.
Proof.
  intros [H1 H2 H3 H4 H5 H6 H7 H8 H9 H10 H11 H12] E1 V E2. eexists. split; [reflexivity|].
  set (l := mkLayer kc (Own (otype o)) (ostate o)).
  assert (V' : aInv (lkind kc l) (lobj kc l)) by exact V.
  pose proof (ct_count _ _ _ _ _ _ (lo_contract _ _ _ _ _ _ _ _ (aok (lkind kc l))) _ V') as (C1 & C2).
  constructor; unfold addLayer; cbn [Net_Model.layers Net_Model.parameters Net_Model.derivatives Net_Model.infos Net_Model.trainSet
    Net_Model.errorFunction Net_Model.dropout]; auto.
  - destruct (layers kc s); [easy|exact H1].
  - apply (wired_snoc _ I O l); auto.
  - apply Forall_app. split; auto.
  - rewrite H4, (ptrs_app kc aK). f_equal. cbn [NetChain_Proofs.ptrs]. rewrite app_nil_r, C1. reflexivity.
  - rewrite H5, (ptrs_app kc aK). f_equal. cbn [NetChain_Proofs.ptrs]. rewrite app_nil_r, C2. reflexivity.
  - exists (oinfo o). rewrite vget_last. auto.
  - unfold netInputs in *. cbn [Net_Model.infos]. destruct (infos kc s); [easy|exact H7].
  - destruct (infos kc s); easy.
  - rewrite map_app, H10, map_app. reflexivity.
Qed.

Lemma adding_all os : forall I O pre s, adding I O pre s -> chained O os ->
  exists s', for_each (map Some os) (fun o s => addObject s o) s = Ok s' /\ adding I (lastOuts O os) (pre ++ os) s'.
Proof.
  induction os as [|o os IH]; intros I O pre s A C; cbn [map for_each lastOuts].
  - exists s. rewrite app_nil_r. auto.
  - destruct C as (C1 & C2 & C3 & C4). destruct (adding_object I O pre s o A C1 C2 C3) as (s1 & E & A1).
    rewrite E. cbn [bind]. destruct (IH I _ _ s1 A1 C4) as (s' & E' & A'). exists s'. rewrite <- app_assoc in A'. auto.
Qed.

Lemma readP_Ok ls : forall k, invs ls -> (k < count ls)%nat -> exists v, readP ls k = Ok v.
Proof.
  induction ls as [|l ls IH]; intros k V Hk; simpl in Hk; [lia|]. inversion V as [|? ? V1 V2]; subst.
  cbn [NetChain_Proofs.readP]. destruct (Nat.ltb_spec k (aK (lkind kc l))).
  - apply (ct_read _ _ _ _ _ _ (lo_contract _ _ _ _ _ _ _ _ (aok (lkind kc l)))); auto.
  - apply IH; auto. lia.
Qed.

Record usable (n : nat) (os : list object) (s : net kc) : Prop := mkUsable {
  u_good : good (netInputs s) (netOutputs s) s;
  u_inputs : netInputs s = n;
  u_outputs : netOutputs s = lastOuts n os;
  u_vector : length (parameterVector kc s) = P kc s;
  u_read : forall k, (k < P kc s)%nat -> readP (layers kc s) k = Ok (parameterVector kc s).[k];
  u_fits : forall d, trainSet kc s = Some d -> fits s d;
  u_kinds : map (lkind kc) (layers kc s) = TheInput n :: kindsOf os }.

Lemma initialize_ok junk I O os s1 : adding I O os s1 -> O = lastOuts I os -> exists s,
  initializeNetwork kc junk s1 = Ok s /\ usable I os s /\ errorFunction kc s = MSE /\ dropout kc s = false /\ trainSet kc s = None.
Proof.
  intros A EOS. pose proof A as [H1 H2 H3 H4 H5 (info & H6 & H6') H7 H8 H9 H10 H11 H12].
  unfold initializeNetwork.
  destruct (infos kc s1) as [|i0 is] eqn:Ei; [easy|]. rewrite <- Ei in *.
  assert (E0 : vget (infos kc s1) 0 = Ok i0) by (rewrite Ei; reflexivity). rewrite E0. cbn [bind]. rewrite H6. cbn [bind].
  assert (LP : length (parameters kc s1) = count (layers kc s1)) by (rewrite H4; apply ptrs_length).
  match goal with |- context [for_ _ ?b ?g0] =>
    destruct (for_inv (fun k (g : list R) => length g = count (layers kc s1) /\ forall i, (i < k)%nat -> readP (layers kc s1) i = Ok g.[i]) b (length (parameters kc s1)) g0)
      as (vec & Ev & Lv & Fv) end.
  { rewrite map_length, seq_length. split; auto. intros; lia. }
  { intros k g Hk (L & F). rewrite LP in Hk. destruct (readP_Ok (layers kc s1) k H3 Hk) as (v & Rv).
    destruct (load_ptrs kc aK (layers kc s1) [] k Hk) as (ptr & P1 & P2 & _). cbn [app length] in P1, P2.
    rewrite H4. rewrite P1. cbn [bind]. rewrite P2, Rv. cbn [bind]. rewrite vset_Ok by lia. eexists. split; [reflexivity|].
    split; [now rewrite upd_length|]. intros i Hi. rewrite nth_upd by lia. destruct (Nat.eqb_spec k i) as [<-|]; auto. apply F. lia. }
  rewrite Ev. cbn [bind]. eexists. split; [reflexivity|].
  assert (EO : netOutputs (c := kc) s1 = O).
  { unfold netOutputs. rewrite (last_vget _ info) by auto. auto. }
  split; [|auto].
  match goal with |- usable _ _ ?x => set (s := x) in * end.
  assert (EI' : netInputs s = I) by exact H7. assert (EO' : netOutputs s = O) by exact EO.
  constructor; auto.
  - rewrite EI', EO'. constructor; auto.
    + exists info. auto.
    + cbn. now rewrite map_length, seq_length.
  - congruence.
  - cbn. lia.
  - cbn. rewrite H9. discriminate.
Qed.

Lemma build_ok junk d1 d2 d3 os : chained (d1 * d2 * d3) os -> exists s,
  buildOwn junk d1 d2 d3 (map Some os) = Ok s /\ usable (d1 * d2 * d3) os s /\
  errorFunction kc s = MSE /\ dropout kc s = false /\ trainSet kc s = None.
Proof.
  intros C. unfold buildOwn. destruct (adding_all os _ _ _ _ (adding_input d1 d2 d3) C) as (s1 & E & A).
  rewrite E. cbn [bind]. apply (initialize_ok junk _ _ _ _ A). reflexivity.
Qed.

Lemma usable_same n os s s' : usable n os s -> good (netInputs s) (netOutputs s) s' -> same_net s' s -> usable n os s'.
Proof.
  intros [H1 H2 H3 H4 H5 H6 H7] G (S1 & S2 & S3 & S4 & S5 & S6 & S7).
  assert (EI : netInputs s' = netInputs s) by (unfold netInputs; now rewrite S7).
  assert (EO : netOutputs s' = netOutputs s) by (unfold netOutputs; now rewrite S7).
  constructor; rewrite ?EI, ?EO, ?S4, ?S5, ?S6; auto.
  - intros k Hk. rewrite (same_readP kc aO aK afn arg _ _ k S1) by (rewrite <- (g_P _ _ _ _ _ _ _ _ _ H1); auto). auto.
  - intros d Hd. unfold fits. rewrite EI, EO. apply H6. auto.
  - rewrite <- H7. eapply same_kinds; eauto.
Qed.

Lemma usable_set n os s p s' : usable n os s -> length p = P kc s -> setParameters kc s p = Ok s' -> usable n os s'.
Proof.
  intros [H1 H2 H3 H4 H5 H6 H7] Hp E.
  destruct (set_ok kc aI aO aK aInv asm afn arg aok aIn _ _ s p H1 Hp) as (ls & E1 & _ & V & M & R & G).
  rewrite E in E1. injection E1 as ->. constructor; auto. cbn. congruence.
Qed.

Lemma usable_calls junk n os s s' : (0 < lastOuts n os)%nat -> usable n os s -> anyCall junk s s' -> usable n os s'.
Proof.
  intros HO U C. pose proof U as [H1 H2 H3 H4 H5 H6 H7]. rewrite <- H3 in HO.
  destruct C as [s p s' Hp E|s x s' y HR HX E|s m s' v E|s s' v E|s idx grad s' v g Hi Hg E|s m s' g E|s s' g HN E|s b|s ef|s d Hd].
  - apply (usable_set n os s p); auto.
  - destruct (forward_net kc aI aO aK aInv asm afn arg aok aIn _ _ s x H1 HX)
      as (ls & Y & Yo & Ef & Eo & SY & SYo & En & V & Sm & Fy & Fo & G'); auto.
    unfold net_apply in E. rewrite En in E. cbn [bind] in E. injection E as <- _.
    eapply usable_same; eauto. unfold Net_Proofs.same_net. cbn. auto 10.
  - destruct (error_at_pres kc aI aO aK aInv asm afn arg aok aIn _ _ s m s' v H1) as (G & S); auto.
    eapply usable_same; eauto.
  - destruct (error_pres kc aI aO aK aInv asm afn arg aok aIn _ _ s s' v H1) as (G & S); auto.
    eapply usable_same; eauto.
  - destruct (errorGradient_pres kc aI aO aK aInv asm afn arg aok aIn ain junk _ _ s idx grad s' v g H1) as (G & S & _); auto.
    eapply usable_same; eauto.
  - unfold gradient_at in E. destruct (errorGradient kc junk s [m] (tempGradient kc s)) as [[[s1 v] g1]| | | |] eqn:E1; try discriminate E.
    cbn [bind] in E. injection E as <- <-.
    destruct (errorGradient_pres kc aI aO aK aInv asm afn arg aok aIn ain junk _ _ s [m] (tempGradient kc s) s1 v g1 H1) as (G & S & L); auto.
    { discriminate. } { apply (g_grad _ _ _ _ _ _ _ _ _ H1). }
    apply (usable_same n os s); auto. destruct G as [G1 G2 G3 G4 G5 G6 G7 G8]. constructor; auto.
    cbn. destruct S as (_ & _ & _ & _ & -> & _). auto.
  - unfold gradient in E. destruct (errorGradient kc junk s (seq 0 (examples kc s)) (tempGradient kc s)) as [[[s1 v] g1]| | | |] eqn:E1; try discriminate E.
    cbn [bind] in E. injection E as <- <-.
    destruct (errorGradient_pres kc aI aO aK aInv asm afn arg aok aIn ain junk _ _ s (seq 0 (examples kc s)) (tempGradient kc s) s1 v g1 H1) as (G & S & L); auto.
    { destruct (examples kc s); [lia|discriminate]. } { apply (g_grad _ _ _ _ _ _ _ _ _ H1). }
    apply (usable_same n os s); auto. destruct G as [G1 G2 G3 G4 G5 G6 G7 G8]. constructor; auto.
    cbn. destruct S as (_ & _ & _ & _ & -> & _). auto.
  - constructor; auto. destruct H1 as [G1 G2 G3 G4 G5 G6 G7 G8]. constructor; auto.
  - constructor; auto. destruct H1 as [G1 G2 G3 G4 G5 G6 G7 G8]. constructor; auto.
  - constructor; auto. destruct H1 as [G1 G2 G3 G4 G5 G6 G7 G8]. constructor; auto.
    cbn. intros d' E. injection E as <-. exact Hd.
Qed.

Lemma owns_usable junk d1 d2 d3 os s : chained (d1 * d2 * d3) os -> (0 < lastOuts (d1 * d2 * d3) os)%nat ->
  owns junk d1 d2 d3 os s -> usable (d1 * d2 * d3) os s.
Proof.
  intros C HO H. induction H as [s E|s s' H IH HC].
  - destruct (build_ok junk d1 d2 d3 os C) as (s' & E' & U & _). congruence.
  - eapply usable_calls; eauto.
Qed.

Fixpoint sumK (ks : list anyKind) : nat := match ks with [] => 0 | k :: ks => aK k + sumK ks end%nat.
Lemma count_kinds ls : count ls = sumK (map (lkind kc) ls).
Proof. induction ls; simpl; auto. Qed.
Lemma sumK_objects os : sumK (kindsOf os) = allPars os.
Proof. induction os as [|o os IH]; cbn [map sumK allPars aK]; auto. Qed.
Lemma usable_dimension n os s : usable n os s -> P kc s = allPars os.
Proof.
  intros U. rewrite (g_P _ _ _ _ _ _ _ _ _ (u_good _ _ _ U)), count_kinds, (u_kinds _ _ _ U). cbn [sumK aK]. apply sumK_objects.
Qed.

(** the parameters of one of the layers *)
Lemma readP_nth ls : forall i l k, nth_error ls i = Some l -> (k < aK (lkind kc l))%nat ->
  readP ls (sumK (map (lkind kc) (firstn i ls)) + k) = readParam (kc (lkind kc l)) (lobj kc l) k.
Proof.
  induction ls as [|a ls IH]; intros [|i] l k E Hk; cbn in E; try discriminate E.
  - injection E as ->. cbn [firstn map sumK Nat.add NetChain_Proofs.readP]. now rewrite (proj2 (Nat.ltb_lt _ _) Hk).
  - cbn [firstn map sumK NetChain_Proofs.readP].
    rewrite (proj2 (Nat.ltb_ge _ _)) by lia. rewrite <- (IH i l k E Hk). f_equal. lia.
Qed.
Lemma sumK_firstn_lt ls : forall i l k, nth_error ls i = Some l -> (k < aK (lkind kc l))%nat ->
  (sumK (map (lkind kc) (firstn i ls)) + k < count ls)%nat.
Proof.
  induction ls as [|a ls IH]; intros [|i] l k E Hk; cbn in E; try discriminate E.
  - injection E as ->. cbn [firstn map sumK NetChain_Proofs.count]. lia.
  - cbn [firstn map sumK NetChain_Proofs.count]. specialize (IH i l k E Hk). lia.
Qed.

Lemma through_fns ls : forall I O, wired I ls O -> invs ls -> forall dropout n x j, (j < O)%nat ->
  through ls dropout n x j = fns ls dropout n x j.
Proof.
  induction ls as [|[k o] ls IH]; intros I O W V d n x j Hj; cbn [through NetChain_Proofs.fns]; auto.
  destruct W as (W1 & W2). inversion V as [|? ? V1 V2]; subst. rewrite (IH _ _ W2 V2) by auto.
  apply (fns_ext kc aI aO aK aInv asm afn arg aok ls _ _ _ _ W2 V2); auto.
  intros i Hi. destruct k as [J|t]; [|reflexivity]. cbn [lkind aO] in Hi.
  cbn [rowThrough lkind lobj afn nfn]. now rewrite (proj2 (Nat.ltb_lt _ _) Hi).
Qed.
Lemma differentiable_run ls : forall X dropout, differentiableAt ls X dropout <-> smooth_run kc asm ls X dropout.
Proof.
  induction ls as [|[k o] ls IH]; intros X d; cbn [differentiableAt smooth_run]; [tauto|].
  assert (layerDifferentiable (mkLayer kc k o) X <-> asm k o X) by (destruct k; cbn; tauto).
  split; intros (H1 & H2); (split; [now apply H|]); intros; apply IH; eauto.
Qed.
