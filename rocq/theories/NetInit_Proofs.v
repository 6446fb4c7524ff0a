(** Net::initialize makes a network equal to a new one. *)
From Verif Require Import Base BaseFacts Matrix RSum MatOps Acc Vec Deriv Activation_Model Layer_Model Layer_Spec Layer_Proofs
  LayerFun_Spec FC_Model SimpleLayers_Model Conv_Model Pool_Model Pool Conv_Props Subs_Props MaxPool_Props NetLayers_Proofs
  Net_Model NetChain_Proofs Net_Proofs NetBuild_Model NetUse_Spec NetBuild_Proofs NetSettled_Proofs.
From Verif Require RBMNet_Proofs.
Local Open Scope R_scope.

Section Init.
Variable junk : nat -> nat -> R.
Notation kc := (kclass junk).
Notation net := (net kc).
Notation usable := (usable junk).

(** ** Networks stay initialized *)
Ltac step H :=
  match type of H with
  | bind ?m _ = Ok _ => let E := fresh "E" in destruct m eqn:E; try discriminate H; cbn [bind] in H
  | (let '(_, _) := ?p in _) = Ok _ => destruct p
  end.

Definition tag (s : net) : bool * list (list nat) := (initialized kc s, infos kc s).
Lemma forward_flag s s' r : net_forward kc s = Ok (s', r) -> tag s' = tag s.
Proof. unfold net_forward. intros H. repeat step H. injection H as <- _. reflexivity. Qed.
Lemma backward_flag s s' : net_backward kc s = Ok s' -> tag s' = tag s.
Proof. unfold net_backward. intros H. repeat step H. injection H as <-. reflexivity. Qed.
Lemma error_at_flag s n s' v : error_at kc s n = Ok (s', v) -> tag s' = tag s.
Proof.
  unfold error_at. destruct (trainSet kc s); [|discriminate]. destruct (rowOf _ n) as [x| | | |]; try discriminate. cbn [bind].
  destruct (net_forward kc _) as [[s1 r]| | | |] eqn:E; try discriminate. cbn [bind]. apply forward_flag in E.
  destruct (rowOf _ n) as [y| | | |]; try discriminate. cbn [bind].
  destruct (errorFunction kc s1).
  - destruct (mmap2 _ _ _); try discriminate. cbn [bind]. intros H. injection H as <- _. exact E.
  - destruct (crossEntropy _ _); try discriminate. cbn [bind]. intros H. injection H as <- _. exact E.
Qed.
Lemma for_from_flag (N : nat) n : forall i s e s' v,
  for_from i n (fun n '(s, e) => ' (s, v) <- error_at kc s n ;; Ok (s, e + v / INR N)) (s, e) = Ok (s', v) ->
  tag s' = tag s.
Proof.
  induction n as [|n IH]; intros i s e s' v H; cbn in H; [now injection H as <- _|].
  destruct (error_at kc s i) as [[s1 v1]| | | |] eqn:E; try discriminate H. cbn [bind] in H.
  apply IH in H. apply error_at_flag in E. congruence.
Qed.
Lemma errorGradient_flag s idx g s' v g' : errorGradient kc junk s idx g = Ok (s', v, g') -> tag s' = tag s.
Proof.
  unfold errorGradient. destruct (trainSet kc s); [|discriminate]. intros H. repeat step H. injection H as <- _ _.
  apply backward_flag in E3. apply forward_flag in E0. exact (eq_trans E3 E0).
Qed.
Lemma calls_flag s s' : calls junk s s' -> tag s' = tag s.
Proof.
  intros C. destruct C as [s p s' Hp E|s x s' y HR HX E|s n s' v E|s s' v E|s idx grad s' v g Hi Hg E|s n s' g E|s s' g HN E|s b|s ef|s d Hd]; auto.
  - unfold setParameters in E. repeat step E. now injection E as <-.
  - unfold net_apply in E. repeat step E. injection E as <- _. apply forward_flag in E0. exact E0.
  - now apply error_at_flag in E.
  - unfold error, for_ in E. now apply for_from_flag in E.
  - now apply errorGradient_flag in E.
  - unfold gradient_at in E. repeat step E. injection E as <- _. now apply errorGradient_flag in E0.
  - unfold gradient in E. repeat step E. injection E as <- _. now apply errorGradient_flag in E0.
Qed.
Lemma reachable_flag d1 d2 d3 cs s : reachable junk d1 d2 d3 cs s -> initialized kc s = true.
Proof.
  induction 1 as [cs s E HO|cs s s' HR IH C|cs s w s' HR IH E].
  - unfold build, initializeNetwork in E. repeat step E. now injection E as <-.
  - apply calls_flag in C. injection C as C _. congruence.
  - unfold net_initialize in E. repeat step E. now injection E as <-.
Qed.

(** ** Networks with other random numbers can be built as well *)
Lemma add_redraw w s t reg l s' : add junk s reg l = Ok s' -> infos kc t = infos kc s ->
  exists t', add junk t reg (redrawLayer w l) = Ok t' /\ infos kc t' = infos kc s'.
Proof.
  intros E H. unfold add, lastInfo in *. rewrite H. destruct (vget (infos kc s) (length (infos kc s) - 1)) as [info| | | |]; try discriminate E.
  cbn [bind] in *.
  destruct l as [units act bias w'|units params act bias phi w'|units act bias w'|sl b|fm kr kcl act bias w'|kr kcl act bias w'|kr kcl|prob rnd|H1 cdN backprop u w'|H1 beta rho act w'];
    cbn [redrawLayer] in *; try (injection E as <-; eexists; split; [reflexivity|]; cbn [addLayer infos]; now rewrite H).
  - do 3 step E. cbn [bind]. destruct (conv_new w' a a0 a1 fm kr kcl bias act reg) as [o| | | |] eqn:En; try discriminate E. cbn [bind] in E.
    assert (X : exists o', conv_new w a a0 a1 fm kr kcl bias act reg = Ok o' /\ cg o' = cg o).
    { unfold conv_new in *. destruct (Z.leb 0 _); [|discriminate En]. cbn [check bind] in En |- *.
      destruct (Z.ltb _ 1); [discriminate En|].
      repeat (destruct (Z.ltb 0 _); [|discriminate En]; cbn [check bind] in En |- * ).
      assert (E' : forall a b : conv, Ok a = Ok b -> b = a) by congruence. apply E' in En. rewrite En.
      eexists. split; [reflexivity|]. reflexivity. }
    destruct X as (o' & -> & Eg). cbn [bind]. eexists. split; [reflexivity|].
    assert (E' : forall a b : net, Ok a = Ok b -> b = a) by congruence. apply E' in E. rewrite E. cbn [addLayer infos]. now rewrite H, Eg.
  - do 3 step E. cbn [bind]. destruct (subs_new w' a a0 a1 kr kcl bias act reg) as [o| | | |] eqn:En; try discriminate E. cbn [bind] in E.
    assert (X : exists o', subs_new w a a0 a1 kr kcl bias act reg = Ok o' /\ sg o' = sg o).
    { unfold subs_new in *. destruct (pgeom_new a a0 a1 kr kcl) as [g| | | |]; try discriminate En. cbn [bind] in *.
      assert (E' : forall a b : subs, Ok a = Ok b -> b = a) by congruence. apply E' in En. rewrite En.
      eexists. split; [reflexivity|]. reflexivity. }
    destruct X as (o' & -> & Eg). cbn [bind]. eexists. split; [reflexivity|].
    assert (E' : forall a b : net, Ok a = Ok b -> b = a) by congruence. apply E' in E. rewrite E. cbn [addLayer infos]. now rewrite H, Eg.
  - do 3 step E. cbn [bind]. destruct (maxp_new junk a a0 a1 kr kcl) as [o| | | |] eqn:En; try discriminate E. cbn [bind] in *.
    eexists. split; [reflexivity|].
    assert (E' : forall a b : net, Ok a = Ok b -> b = a) by congruence. apply E' in E. rewrite E. cbn [addLayer infos]. now rewrite H.
  - step E. cbn [bind]. eexists. split; [reflexivity|].
    assert (E' : forall a b : net, Ok a = Ok b -> b = a) by congruence. apply E' in E. rewrite E. cbn [addLayer infos]. now rewrite H.
  - step E. destruct (RBMNet_Proofs.sae_new_ok junk (outputs info) H1 beta rho (l2Penalty reg) act (fun k => w k 0%nat)) as (o & -> & _).
    cbn [bind]. eexists. split; [reflexivity|].
    assert (E' : forall a b : net, Ok a = Ok b -> b = a) by congruence. apply E' in E. rewrite E. cbn [addLayer infos]. now rewrite H.
Qed.
Lemma commands_redraw w cs : forall i s t reg s' reg', for_each cs (fun c st => runCommand junk st c) (s, reg) = Ok (s', reg') ->
  infos kc t = infos kc s ->
  exists t', for_each (redraw w i cs) (fun c st => runCommand junk st c) (t, reg) = Ok (t', reg') /\ infos kc t' = infos kc s'.
Proof.
  induction cs as [|[l|r] cs IH]; intros i s t reg s' reg' E H; cbn [redraw for_each runCommand fst snd bind] in *.
  - injection E as <- <-. eauto.
  - destruct (add junk s reg l) as [s1| | | |] eqn:E1; try discriminate E. cbn [bind] in E.
    destruct (add_redraw (w i) s t reg l s1 E1 H) as (t1 & -> & H1). cbn [bind]. eapply IH; eauto.
  - eapply IH; eauto.
Qed.
Lemma build_redraw d1 d2 d3 cs s w i : Forall no_max_norm cs -> build junk d1 d2 d3 cs = Ok s ->
  exists t, build junk d1 d2 d3 (redraw w i cs) = Ok t /\ infos kc t = infos kc s.
Proof.
  intros HF E. unfold build in *.
  destruct (for_each cs (fun c st => runCommand junk st c) (inputLayer junk (net_new kc) d1 d2 d3, mkReg 0 0 0)) as [[s1 r1]| | | |] eqn:E1;
    try discriminate E. cbn [bind] in E.
  destruct (commands_redraw w cs i _ (inputLayer junk (net_new kc) d1 d2 d3) _ _ _ E1 eq_refl) as (t1 & E2 & H1). rewrite E2. cbn [bind].
  apply (redraw_max_norm junk w cs i) in HF.
  destruct (adding_commands junk _ (redraw w i cs) _ _ [d1; d2; d3] (mkReg 0 0 0) _ _ (adding_input junk d1 d2 d3) eq_refl (Rle_refl 0) HF E2) as ((O & A) & _).
  destruct (initialize_ok junk _ _ _ A) as (vec & -> & _). eexists. split; [reflexivity|]. cbn [infos].
  unfold initializeNetwork in E. repeat step E. injection E as <-. exact H1.
Qed.
Lemma redraw_redraw w w' cs : forall i, redraw w' i (redraw w i cs) = redraw w' i cs.
Proof.
  induction cs as [|[l|r] cs IH]; intros i; cbn [redraw]; [reflexivity| |]; rewrite IH; auto. destruct l; reflexivity.
Qed.
Lemma reachable_build d1 d2 d3 cs s w : Forall no_max_norm cs -> reachable junk d1 d2 d3 cs s ->
  exists t, build junk d1 d2 d3 (redraw w 1 cs) = Ok t /\ infos kc t = infos kc s.
Proof.
  intros HF HR. revert w HF. induction HR as [cs s E HO|cs s s' HR IH C|cs s w' s' HR IH E]; intros w HF.
  - eapply build_redraw; eauto.
  - destruct (IH w HF) as (t & E1 & E2). exists t. split; auto. rewrite E2. apply calls_flag in C. injection C as _ C. auto.
  - rewrite redraw_redraw. rewrite (redraw_max_norm junk) in HF. destruct (IH w HF) as (t & E1 & E2). exists t. split; auto. rewrite E2.
    unfold net_initialize in E. repeat step E. now injection E as <-.
Qed.
End Init.
