(** Installing the current parameters of a network does not change the object at all. *)
From Coq Require Import FunctionalExtensionality.
From Verif Require Import Base BaseFacts Matrix RSum MatOps Acc Vec Activation_Model
  Layer_Model Layer_Proofs FC_Model FC_Proofs SimpleLayers_Model SimpleLayers_Proofs Conv_Model
  Pool_Model MaxPool_Proofs Net_Model NetChain_Proofs Net_Proofs NetBuild_Model NetUse_Spec NetBuild_Proofs.
Local Open Scope R_scope.

Ltac ok_inv E := repeat match type of E with
  | bind ?m _ = Ok _ => let F := fresh "F" in destruct m eqn:F; try discriminate E; cbn [bind] in E
  | (let '(_, _) := ?p in _) = Ok _ => destruct p
  | (' (_, _) <- ?m ;; _) = Ok _ => let F := fresh "F" in destruct m as [[? ?]| | | |] eqn:F; try discriminate E; cbn [bind] in E
  end.

(** ** Assigning the value that is there *)
Lemma mset_same m i j v : mget m i j = Ok v -> mset m i j v = Ok m.
Proof.
  unfold mget, mset. destruct (inside m i j); [|discriminate]. intros E. injection E as <-. f_equal. destruct m as [r c f]. unfold mupd. cbn. f_equal.
  apply functional_extensionality. intros a. apply functional_extensionality. intros b.
  destruct (Nat.eqb_spec a i) as [->|]; cbn; auto. destruct (Nat.eqb_spec b j) as [->|]; auto.
Qed.
Lemma vset_same {A} (l : list A) i x : vget l i = Ok x -> vset l i x = Ok l.
Proof.
  unfold vget. destruct (nth_error l i) as [y|] eqn:E; [|discriminate]. intros F. injection F as ->.
  assert (Hi : (i < length l)%nat) by (apply nth_error_Some; congruence).
  rewrite vset_Ok by auto. f_equal. clear Hi. revert i E.
  induction l as [|y l IH]; intros [|i] E; try discriminate E; cbn in *; [now injection E as ->|]. now rewrite IH.
Qed.
Lemma tset_same {A} (t : list (list A)) o i m : tget t o i = Ok m -> tset t o i m = Ok t.
Proof.
  unfold tget, tset. intros E. destruct (vget t o) as [r| | | |] eqn:E1; try discriminate E. cbn [bind] in *.
  rewrite (vset_same _ _ _ E). cbn [bind]. now apply vset_same.
Qed.

Section Fixed.
Variable junk : nat -> nat -> R.
Notation kc := (kclass junk).

Lemma store_load k (s : St (kc k)) l v : load (kc k) s l = Ok v -> store (kc k) s l v = Ok s.
Proof.
  destruct k; cbn [kclass] in *; try (destruct l; fail).
  - destruct s, l; cbn; intros E; rewrite (mset_same _ _ _ _ E); reflexivity.
  - destruct s, l; cbn; intros E; rewrite (mset_same _ _ _ _ E); reflexivity.
  - destruct s, l; cbn; intros E.
    + match type of E with bind ?m _ = _ => destruct m eqn:F; try discriminate E end. cbn [bind] in *.
      rewrite (mset_same _ _ _ _ E). cbn [bind]. now rewrite (tset_same _ _ _ _ F).
    + match type of E with bind ?m _ = _ => destruct m eqn:F; try discriminate E end. cbn [bind] in *.
      rewrite (mset_same _ _ _ _ E). cbn [bind]. now rewrite (tset_same _ _ _ _ F).
    + rewrite (mset_same _ _ _ _ E); reflexivity.
    + rewrite (mset_same _ _ _ _ E); reflexivity.
  - destruct s, l; cbn; unfold wget, wset; intros E;
    match type of E with bind ?m _ = _ => destruct m eqn:F; try discriminate E end; cbn [bind] in *;
    rewrite (mset_same _ _ _ _ E); cbn [bind]; now rewrite (vset_same _ _ _ F).
  - destruct s as [? [] ? ? ? [] ? ?], l; cbn; intros E; rewrite (mset_same _ _ _ _ E); reflexivity.
  - destruct s as [? ? [] [] ? ? ?], l; cbn; intros E; rewrite (mset_same _ _ _ _ E); reflexivity.
Qed.

Lemma write_same k (s : St (kc k)) i v : readParam (kc k) s i = Ok v -> writeParam (kc k) s i v = Ok s.
Proof.
  unfold readParam, writeParam. destruct (vget (fst (initialize (kc k) s)) i); try discriminate. cbn [bind]. apply store_load.
Qed.

Lemma writeAll_same k (s : St (kc k)) p : (forall i, (i < length p)%nat -> readParam (kc k) s i = Ok p.[i]) -> writeAll (kc k) s p = Ok s.
Proof.
  intros H. unfold writeAll. destruct (for_inv (fun _ (q : St (kc k)) => q = s) (fun k0 s0 => v <- vget p k0 ;; writeParam (kc k) s0 k0 v) (length p) s) as (q & E & ->); auto.
  intros i q Hi ->. exists s. split; auto. rewrite (vget_nth p i 0) by auto. cbn [bind]. apply write_same. auto.
Qed.

(** ** The weights of compressed layers are those computed from their parameters *)
Definition tidy (l : layer kc) : Prop :=
  match lkind kc l as k return St (kc k) -> Prop with
  | KCompressed _ _ _ _ _ _ _ => fun o => k_updatedParameters o = Ok o
  | _ => fun _ => True
  end (lobj kc l).

Lemma k_updated_idem s s' : k_updatedParameters s = Ok s' -> k_updatedParameters s' = Ok s'.
Proof.
  unfold k_updatedParameters. destruct (mblock (kphi s) (kM s) (kI s + nbias (kbias s))) as [p| | | |] eqn:E1; try discriminate. cbn [bind].
  destruct (mmul (kalpha s) p) as [W| | | |] eqn:E2; try discriminate. cbn [bind]. intros E. injection E as <-. cbn. rewrite E1. cbn [bind]. rewrite E2. reflexivity.
Qed.
(** what decides it *)
Definition computed (s : compressed) : Prop :=
  exists p, mblock (kphi s) (kM s) (kI s + nbias (kbias s)) = Ok p /\ mmul (kalpha s) p = Ok (kW s).
Lemma tidy_computed s : k_updatedParameters s = Ok s <-> computed s.
Proof.
  unfold k_updatedParameters, computed. split.
  - destruct (mblock _ _ _) as [p| | | |]; try discriminate. cbn [bind]. intros E. exists p. split; auto.
    destruct (mmul _ _) as [W| | | |]; try discriminate E. cbn [bind] in E. f_equal.
    assert (kW (k_with s W (kalpha s) (kalphad s)) = kW s) by congruence. auto.
  - intros (p & -> & E). cbn [bind]. rewrite E. cbn [bind]. destruct s; reflexivity.
Qed.

Lemma tidy_updated l o : updatedParameters (kc (lkind kc l)) (lobj kc l) = Ok o -> tidy (mkLayer kc (lkind kc l) o).
Proof.
  destruct l as [k s]. cbn [lkind lobj]. destruct k; intros E; try exact Logic.I. unfold tidy. cbn [lkind lobj]. exact (k_updated_idem s o E).
Qed.
Lemma tidy_forward l x dr o y r : forwardPropagate (kc (lkind kc l)) (lobj kc l) x dr = Ok (o, y, r) -> tidy l -> tidy (mkLayer kc (lkind kc l) o).
Proof.
  destruct l as [k s]. cbn [lkind lobj]. destruct k; intros E T; try exact Logic.I. unfold tidy in *. cbn [lkind lobj] in *.
  apply tidy_computed in T. apply tidy_computed. change (k_forward junk s x dr = Ok (o, y, r)) in E. clear -E T.
  unfold k_forward in E. ok_inv E. injection E as <- _ _. exact T.
Qed.
Lemma tidy_backward l e b o e' : backpropagate (kc (lkind kc l)) (lobj kc l) e b = Ok (o, e') -> tidy l -> tidy (mkLayer kc (lkind kc l) o).
Proof.
  destruct l as [k s]. cbn [lkind lobj]. destruct k; intros E T; try exact Logic.I. unfold tidy in *. cbn [lkind lobj] in *.
  apply tidy_computed in T. apply tidy_computed. change (k_backward junk s e b = Ok (o, e')) in E. clear -E T.
  unfold k_backward in E. ok_inv E. injection E as <- _. exact T.
Qed.
Lemma tidy_drawn w l l' : initializeParameters junk w l = Ok l' -> tidy l'.
Proof.
  destruct l as [k s]. unfold initializeParameters. cbn [lkind lobj]. destruct k; intros E; ok_inv E;
    try (assert (E' : forall a b : layer kc, Ok a = Ok b -> b = a) by congruence; apply E' in E; rewrite E; exact Logic.I).
  assert (E' : forall a b : layer kc, Ok a = Ok b -> b = a) by congruence. apply E' in E. rewrite E. unfold tidy. cbn [lkind lobj].
  unfold k_draw in F. exact (k_updated_idem _ _ F).
Qed.

Notation tidyAll := (Forall tidy).
Lemma updateLayers_tidy ls : forall ls', updateLayers kc ls = Ok ls' -> tidyAll ls'.
Proof.
  induction ls as [|l ls IH]; intros ls' E; cbn [updateLayers] in E; [injection E as <-; constructor|].
  ok_inv E. injection E as <-. constructor; auto. now apply tidy_updated.
Qed.
Lemma forwardLayers_tidy ls : forall x dr ls' y r, forwardLayers kc ls x dr = Ok (ls', y, r) -> tidyAll ls -> tidyAll ls'.
Proof.
  induction ls as [|l ls IH]; intros x dr ls' y r E T; cbn [forwardLayers] in E; [injection E as <- _ _; constructor|].
  inversion T as [|? ? T1 T2]; subst. ok_inv E. injection E as <- _ _. constructor; eauto. eapply tidy_forward; eauto.
Qed.
Lemma backLayers_tidy ls : forall i e ls' e', backLayers kc ls i e = Ok (ls', e') -> tidyAll ls -> tidyAll ls'.
Proof.
  induction ls as [|l ls IH]; intros i e ls' e' E T; cbn [backLayers] in E; [injection E as <- _; constructor|].
  inversion T as [|? ? T1 T2]; subst. ok_inv E. injection E as <- _. constructor; eauto. eapply tidy_backward; eauto.
Qed.
Lemma initializeLayers_tidy w ls : forall i ls', initializeLayers junk w i ls = Ok ls' -> tidyAll ls'.
Proof.
  induction ls as [|l ls IH]; intros i ls' E; cbn [initializeLayers] in E; [injection E as <-; constructor|].
  ok_inv E. injection E as <-. constructor; eauto. eapply tidy_drawn; eauto.
Qed.

Notation tidyNet s := (tidyAll (layers kc s)).
Lemma net_forward_tidy s s' r : net_forward kc s = Ok (s', r) -> tidyNet s -> tidyNet s'.
Proof. intros E T. unfold net_forward in E. ok_inv E. injection E as <- _. cbn. eapply forwardLayers_tidy; eauto. Qed.
Lemma net_backward_tidy s s' : net_backward kc s = Ok s' -> tidyNet s -> tidyNet s'.
Proof. intros E T. unfold net_backward in E. ok_inv E. injection E as <-. cbn. eapply backLayers_tidy; eauto. Qed.
Lemma setParameters_tidy s p s' : setParameters kc s p = Ok s' -> tidyNet s'.
Proof. intros E. unfold setParameters in E. ok_inv E. injection E as <-. cbn. eapply updateLayers_tidy; eauto. Qed.
Lemma error_at_tidy s n s' v : error_at kc s n = Ok (s', v) -> tidyNet s -> tidyNet s'.
Proof.
  intros E T. unfold error_at in E. destruct (trainSet kc s); [|discriminate E]. ok_inv E.
  assert (tidyNet n0) by (eapply net_forward_tidy; eauto). destruct (errorFunction kc n0); ok_inv E; now injection E as <- _.
Qed.
Lemma error_tidy s s' v : error kc s = Ok (s', v) -> tidyNet s -> tidyNet s'.
Proof.
  intros E T. unfold error, for_ in E.
  refine (for_pres (fun st : net kc * R => tidyNet (fst st)) _ _ _ _ _ _ E _); auto.
  intros i [a e] [b e'] Eb Ta. cbn [fst] in *. ok_inv Eb. injection Eb as <- _. eapply error_at_tidy; eauto.
Qed.
Lemma errorGradient_tidy s idx grad s' v g : errorGradient kc junk s idx grad = Ok (s', v, g) -> tidyNet s -> tidyNet s'.
Proof.
  intros E T. unfold errorGradient in E. destruct (trainSet kc s) as [d|]; [|discriminate E].
  match type of E with bind ?m _ = _ => destruct m as [[X Y]| | | |]; try discriminate E end. cbn [bind] in E.
  destruct (net_forward kc (with_input kc s X)) as [[s1 v1]| | | |] eqn:E1; try discriminate E. cbn [bind] in E.
  assert (T1 : tidyNet s1) by (eapply net_forward_tidy; eauto).
  match type of E with bind ?m _ = _ => destruct m as [e| | | |]; try discriminate E end. cbn [bind] in E.
  match type of E with bind ?m _ = _ => destruct m as [w| | | |]; try discriminate E end. cbn [bind] in E.
  destruct (net_backward kc (with_error kc s1 e)) as [s2| | | |] eqn:E2; try discriminate E. cbn [bind] in E.
  assert (T2 : tidyNet s2) by (eapply net_backward_tidy; eauto).
  match type of E with bind ?m _ = _ => destruct m as [gr| | | |]; try discriminate E end. cbn [bind] in E.
  now injection E as <- _ _.
Qed.

Lemma calls_tidy s s' : calls junk s s' -> tidyNet s -> tidyNet s'.
Proof.
  intros C T. destruct C as [s p s' Hp E|s x s' y HR HX E|s n s' v E|s s' v E|s idx grad s' v g Hi Hg E|s n s' g E|s s' g HN E|s b|s ef|s d Hd]; auto.
  - eapply setParameters_tidy; eauto.
  - unfold net_apply in E. destruct (net_forward kc (with_input kc s x)) as [[s1 r]| | | |] eqn:E1; try discriminate E. cbn [bind] in E. injection E as <- _.
    eapply net_forward_tidy; eauto.
  - eapply error_at_tidy; eauto.
  - eapply error_tidy; eauto.
  - eapply errorGradient_tidy; eauto.
  - unfold gradient_at in E. destruct (errorGradient kc junk s [n] (tempGradient kc s)) as [[[s1 v] g1]| | | |] eqn:E1; try discriminate E.
    cbn [bind] in E. injection E as <- <-. cbn. eapply errorGradient_tidy; eauto.
  - unfold gradient in E. destruct (errorGradient kc junk s (seq 0 (examples kc s)) (tempGradient kc s)) as [[[s1 v] g1]| | | |] eqn:E1; try discriminate E.
    cbn [bind] in E. injection E as <- <-. cbn. eapply errorGradient_tidy; eauto.
Qed.

Lemma k_new_tidy w n j m bias act phi reg : k_updatedParameters (k_new w n j m bias act phi reg) = Ok (k_new w n j m bias act phi reg).
Proof.
  apply tidy_computed. unfold computed, k_new. cbn [kphi kM kI kbias kalpha kW]. unfold mblock. cbn [rows cols at_].
  rewrite (proj2 (Nat.leb_le m m)), (proj2 (Nat.leb_le _ _)) by (destruct bias; cbn; lia). cbn [andb]. eexists. split; [reflexivity|].
  unfold mmul. cbn [rows cols at_]. now rewrite Nat.eqb_refl.
Qed.
Lemma add_tidy s reg l s' : add junk s reg l = Ok s' -> tidyNet s -> tidyNet s'.
Proof.
  intros E T. unfold add in E. destruct (lastInfo junk s) as [info| | | |]; try discriminate E. cbn [bind] in E.
  assert (G : forall l i, tidy l -> Ok (addLayer kc s l i) = Ok s' -> tidyNet s').
  { intros x i Tx F. injection F as <-. cbn. apply Forall_app. split; auto. }
  destruct l; ok_inv E; refine (G _ _ _ E); try exact Logic.I. apply k_new_tidy.
Qed.
Lemma commands_tidy cs : forall s reg s' reg', for_each cs (fun c st => runCommand junk st c) (s, reg) = Ok (s', reg') -> tidyNet s -> tidyNet s'.
Proof.
  induction cs as [|[l|r] cs IH]; intros s reg s' reg' E T; cbn [for_each runCommand fst snd bind] in E.
  - now injection E as <- _.
  - destruct (add junk s reg l) as [s1| | | |] eqn:E1; try discriminate E. cbn [bind] in E. eapply IH; eauto. eapply add_tidy; eauto.
  - eapply IH; eauto.
Qed.

Lemma reachable_tidy d1 d2 d3 cs s : reachable junk d1 d2 d3 cs s -> tidyNet s.
Proof.
  induction 1 as [cs s E HO|cs s s' HR IH C|cs s w s' HR IH E].
  - unfold build in E.
    destruct (for_each cs (fun c st => runCommand junk st c) (inputLayer junk (net_new kc) d1 d2 d3, mkReg 0 0 0)) as [[s1 r1]| | | |] eqn:E1;
      try discriminate E. cbn [bind] in E. rewrite (initialize_layers _ _ _ E). eapply commands_tidy; eauto.
    cbn. constructor; [exact Logic.I|constructor].
  - eapply calls_tidy; eauto.
  - unfold net_initialize in E. ok_inv E. injection E as <-. cbn. eapply initializeLayers_tidy; eauto.
Qed.

(** ** setParameters(currentParameters()) *)
Lemma install_same k (s : St (kc k)) p : nInv junk k s -> tidy (mkLayer kc k s) -> length p = nK k ->
  (forall i, (i < nK k)%nat -> readParam (kc k) s i = Ok p.[i]) -> install (kc k) s p = Ok s.
Proof.
  intros V T Hp R. unfold install. rewrite writeAll_same by (intros; apply R; congruence). cbn [bind]. clear R Hp.
  destruct k; try reflexivity.
  - destruct V as (Hm & V). change (fc_updatedParameters s = Ok s). unfold fc_updatedParameters.
    assert (freg s = reg) as -> by apply V. rewrite (proj2 (Rltb_false _ _)) by lra. reflexivity.
  - exact T.
Qed.

Notation installAll := (installAll kc nK).
Notation count := (NetChain_Proofs.count kc nK).
Notation readP := (NetChain_Proofs.readP kc nK).
Lemma installAll_same ls : forall p, NetChain_Proofs.invs kc (nInv junk) ls -> tidyAll ls -> length p = count ls ->
  (forall k, (k < count ls)%nat -> readP ls k = Ok p.[k]) -> installAll ls p = Ok ls.
Proof.
  induction ls as [|[k x] a IH]; intros p V H Hp R; cbn [NetChain_Proofs.installAll lkind lobj NetChain_Proofs.count NetChain_Proofs.readP] in *; auto.
  inversion V as [|? ? V1 V2]; subst. inversion H as [|? ? H1 H2]; subst. cbn [lkind lobj] in *.
  assert (Hf : length (firstn (nK k) p) = nK k) by (rewrite firstn_length; lia).
  assert (Hs : length (skipn (nK k) p) = count a) by (rewrite skipn_length; lia).
  rewrite (install_same k x); auto.
  - cbn [bind]. rewrite IH; auto. intros i Hi. specialize (R (nK k + i)%nat ltac:(lia)).
    rewrite (proj2 (Nat.ltb_ge _ _)) in R by lia. replace (nK k + i - nK k)%nat with i in R by lia. rewrite R. f_equal.
    transitivity (nth (nK k + i) (firstn (nK k) p ++ skipn (nK k) p) 0); [now rewrite firstn_skipn|].
    rewrite app_nth2 by lia. f_equal. lia.
  - intros i Hi. specialize (R i ltac:(lia)). apply Nat.ltb_lt in Hi as Hi'. rewrite Hi' in R. rewrite R. f_equal.
    transitivity (nth i (firstn (nK k) p ++ skipn (nK k) p) 0); [now rewrite firstn_skipn|]. now rewrite app_nth1 by lia.
Qed.

Lemma set_current_same d1 d2 d3 cs s : Forall no_max_norm cs -> reachable junk d1 d2 d3 cs s ->
  setParameters kc s (currentParameters kc s) = Ok s.
Proof.
  intros HM HR. pose proof (reachable_usable junk d1 d2 d3 cs s HM HR) as U. pose proof (u_good _ _ _ _ _ _ U) as G. unfold currentParameters.
  destruct (set_ok kc nI nO nK (nInv junk) (nsmooth junk) (nfn junk) (nrg junk) (nok junk) isIn _ _ s (parameterVector kc s) G (u_vector _ _ _ _ _ _ U))
    as (ls & E1 & Ei & _).
  assert (Ei' : installAll (layers kc s) (parameterVector kc s) = Ok (layers kc s)).
  { apply installAll_same; [apply G|eapply reachable_tidy; eauto| |].
    - rewrite <- (g_P _ _ _ _ _ _ _ _ _ G). apply U.
    - intros k Hk. apply (u_read _ _ _ _ _ _ U). rewrite (g_P _ _ _ _ _ _ _ _ _ G). exact Hk. }
  rewrite Ei in Ei'. injection Ei' as ->. rewrite E1. destruct s; reflexivity.
Qed.
End Fixed.
