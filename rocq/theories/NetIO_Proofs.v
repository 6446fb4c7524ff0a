(** Proofs about saving and loading networks. *)
From Coq Require Import String.
From Verif Require Import Base BaseFacts Matrix RSum MatOps Vec Activation_Model Layer_Model Layer_Spec LayerFun_Spec FC_Model
  SimpleLayers_Model Conv_Model Pool_Model Compression_Model Compression_Proofs Net_Model NetChain_Proofs Net_Proofs NetBuild_Model NetUse_Spec NetBuild_Proofs
  NetSettled_Proofs NetIO_Model NetIO_Spec.
From Verif Require RBM_Model SAE_Model RBMNet_Proofs.
Local Open Scope R_scope.

(** * Reading *)
Lemma Zfloor_INR n : Zfloor (INR n) = Z.of_nat n.
Proof.
  unfold Zfloor. rewrite INR_IZR_INZ. apply Int_part_spec. lra.
Qed.
Lemma read_dbl x t ts tr e : readDouble (mkStream (Num x :: t :: ts) tr e) = Ok (x, mkStream (t :: ts) tr e).
Proof. reflexivity. Qed.
Lemma read_int n t ts tr e : readInt (mkStream (int n :: t :: ts) tr e) = Ok (n, mkStream (t :: ts) tr e).
Proof.
  unfold readInt, int. rewrite read_dbl. cbn [bind]. rewrite Zfloor_INR, Nat2Z.id.
  rewrite (proj2 (Reqb_true _ _)); auto.
Qed.
Lemma read_bool b t ts tr e : readBool (mkStream (bit b :: t :: ts) tr e) = Ok (b, mkStream (t :: ts) tr e).
Proof.
  unfold readBool, bit. replace (Num (if b then 1 else 0)) with (int (if b then 1 else 0)) by now destruct b.
  rewrite read_int. now destruct b.
Qed.
Lemma read_act a t ts tr e : readAct (mkStream (int (actCode a) :: t :: ts) tr e) = Ok (a, mkStream (t :: ts) tr e).
Proof. unfold readAct. rewrite read_int. now destruct a. Qed.
Lemma read_ef a t ts tr e : readErrorFunction (mkStream (int (efCode a) :: t :: ts) tr e) = Ok (a, mkStream (t :: ts) tr e).
Proof. unfold readErrorFunction. rewrite read_int. now destruct a. Qed.
Lemma read_word w t ts tr e : readWord (mkStream (Word w :: t :: ts) tr e) = Ok (w, mkStream (t :: ts) tr e).
Proof. reflexivity. Qed.

(** the call that is made when the description of a call is read *)
Definition reread (prt : R -> R) (c : netCall) : netCall :=
  match c with
  | InputLayer _ _ _ | MaxPoolingCall _ _ | SetErrorFunctionCall _ => c
  | FullyConnectedCall u a sd b => FullyConnectedCall u a (prt sd) b
  | CompressedCall u p a co sd b => CompressedCall u p a co (prt sd) b
  | ExtremeCall u a sd b => ExtremeCall u a (prt sd) b
  | IntrinsicPlasticityCall m sd => IntrinsicPlasticityCall (prt m) (prt sd)
  | ConvolutionalCall fm kr kcl a sd b => ConvolutionalCall fm kr kcl a (prt sd) b
  | SubsamplingCall kr kcl a sd b => SubsamplingCall kr kcl a (prt sd) b
  | DropoutCall p => DropoutCall (prt p)
  | RestrictedBoltzmannMachineCall H cdN sd b => RestrictedBoltzmannMachineCall H cdN (prt sd) b
  | SparseAutoEncoderCall H beta rho a => SparseAutoEncoderCall H (prt beta) (prt rho) a
  | OutputCall u a sd b => OutputCall u a (prt sd) b
  | CompressedOutputCall u p a co sd b => CompressedOutputCall u p a co (prt sd) b
  | SetRegularizationCall l1 l2 m => SetRegularizationCall (prt l1) (prt l2) (prt m)
  end.

Section Load.
Variable junk : nat -> nat -> R.
Variable prt : R -> R.
Notation runCall := (runCall junk prt).
Notation runCalls := (runCalls junk prt).

Lemma load_call d fuel st c rest tr ty : rest <> [] -> exists ty',
  loadLoop junk prt d (S fuel) st (mkStream (callTokens prt c ++ rest) tr false) ty =
  (st <- runCall d st (reread prt c) ;; loadLoop junk prt d fuel st (mkStream rest tr false) ty').
Proof.
  intros H. destruct rest as [|t ts]; [easy|].
  destruct c; eexists; cbn [callTokens app]; cbn [loadLoop eof readToken toks trailing reread]; unfold loadEntry; cbn [String.eqb Ascii.eqb Bool.eqb];
    unfold dbl; rewrite ?read_int; cbn [bind]; rewrite ?read_int; cbn [bind]; rewrite ?read_int; cbn [bind]; rewrite ?read_act; cbn [bind];
    rewrite ?read_word; cbn [bind]; rewrite ?read_dbl; cbn [bind]; rewrite ?read_dbl; cbn [bind]; rewrite ?read_dbl; cbn [bind];
    rewrite ?read_bool; cbn [bind]; rewrite ?read_ef; cbn [bind]; rewrite ?read_act; cbn [bind].
  all: match goal with |- context [NetIO_Model.runCall _ _ _ _ ?c] => destruct (runCall d st c); cbn [bind]; reflexivity end.
Qed.

Lemma load_calls d cs : forall fuel st rest tr ty, rest <> [] -> exists ty',
  loadLoop junk prt d (length cs + fuel) st (mkStream (flat_map (callTokens prt) cs ++ rest) tr false) ty =
  (st <- runCalls d (map (reread prt) cs) st ;; loadLoop junk prt d fuel st (mkStream rest tr false) ty').
Proof.
  induction cs as [|c cs IH]; intros fuel st rest tr ty H.
  - exists ty. reflexivity.
  - cbn [flat_map length Nat.add map]. rewrite <- app_assoc.
    destruct (load_call d (length cs + fuel) st c (flat_map (callTokens prt) cs ++ rest) tr ty) as (ty1 & ->).
    { destruct (flat_map (callTokens prt) cs); [exact H|discriminate]. }
    unfold NetIO_Model.runCalls. cbn [for_each].
    destruct (runCall d st (reread prt c)) as [st1| | | |]; cbn [bind]; try (exists ty; reflexivity). apply IH. exact H.
Qed.
End Load.

(** * Calls and commands *)
Section Translate.
Variable junk : nat -> nat -> R.
Variable prt : R -> R.
Notation kc := (kclass junk).
Notation runCall := (runCall junk prt).
Notation runCalls := (runCalls junk prt).
Notation "s 'with_ef' ef" := (setErrorFunction kc s ef) (at level 20).

Lemma add_ef s reg l ef : add junk (s with_ef ef) reg l = (s' <- add junk s reg l ;; Ok (s' with_ef ef)).
Proof.
  unfold add. change (lastInfo junk (s with_ef ef)) with (lastInfo junk s). destruct (lastInfo junk s) as [info| | | |]; auto. cbn [bind].
  destruct l; try reflexivity;
    [| | |destruct (RBM_Model.rbm_new _ _ _ _ _ _ _); reflexivity|destruct (SAE_Model.sae_new _ _ _ _ _ _ _ _); reflexivity];
    (destruct (vget info 0); auto; cbn [bind]; destruct (vget info 1); auto; cbn [bind]; destruct (vget info 2); auto; cbn [bind]).
  - destruct (conv_new _ _ _ _ _ _ _ _ _ _); reflexivity.
  - destruct (subs_new _ _ _ _ _ _ _ _ _); reflexivity.
  - destruct (maxp_new _ _ _ _ _ _); reflexivity.
Qed.
Lemma init_ef s ef : initializeNetwork kc junk (s with_ef ef) = (s' <- initializeNetwork kc junk s ;; Ok (s' with_ef ef)).
Proof.
  unfold initializeNetwork. cbn [setErrorFunction infos parameters layers errorFunction dropout derivatives trainSet].
  destruct (vget (infos kc s) 0); auto. cbn [bind]. destruct (vget (infos kc s) (length (infos kc s) - 1)); auto. cbn [bind].
  destruct (for_ _ _ _); reflexivity.
Qed.

(** the commands that the calls between input layer and output layer stand for *)
Fixpoint commandsOf (d : draws) (n : nat) (info : list nat) (cs : list netCall) : res (list command) :=
  match cs with
  | [] => Ok []
  | SetErrorFunctionCall _ :: cs => commandsOf d (S n) info cs
  | SetRegularizationCall l1 l2 m :: cs => r <- commandsOf d (S n) info cs ;; Ok (SetRegularization (mkReg l1 l2 m) :: r)
  | c :: cs =>
      l <- layerOf junk d n info c ;;
      match l with Some l => r <- commandsOf d (S n) (layerOutput info l) cs ;; Ok (Add l :: r) | None => UB end
  end.
Definition efAfter (ef : ErrorFunction) (c : netCall) : ErrorFunction := match c with SetErrorFunctionCall e => e | _ => ef end.
Definition regAfter (r : Regularization) (c : netCall) : Regularization := match c with SetRegularizationCall l1 l2 m => mkReg l1 l2 m | _ => r end.

Definition tokensOf (cs : list netCall) : list token := flat_map (callTokens prt) cs.
Notation lastEF := (fold_left efAfter).
Notation lastReg := (fold_left regAfter).

Lemma run_setting d st c : isSetting c ->
  runCall d st c = Ok (mkState junk (theNet junk st with_ef (efAfter (errorFunction kc (theNet junk st)) c)) (regAfter (theReg junk st) c)
    (architecture junk st ++ callTokens prt c) (S (count junk st))).
Proof.
  destruct c; try easy; intros _; cbn [NetIO_Model.runCall efAfter regAfter]; auto.
  do 2 f_equal. destruct st as [[] ? ? ?]; reflexivity.
Qed.
Lemma ef_twice s e1 e2 : (s with_ef e1) with_ef e2 = s with_ef e2.
Proof. reflexivity. Qed.
Lemma ef_same s : s with_ef (errorFunction kc s) = s.
Proof. destruct s; reflexivity. Qed.

Lemma run_settings d cs : forall st, Forall isSetting cs ->
  runCalls d cs st = Ok (mkState junk (theNet junk st with_ef (lastEF cs (errorFunction kc (theNet junk st)))) (lastReg cs (theReg junk st))
    (architecture junk st ++ tokensOf cs) (count junk st + length cs)).
Proof.
  induction cs as [|c cs IH]; intros st H.
  - cbn. rewrite ef_same, app_nil_r, Nat.add_0_r. now destruct st.
  - inversion H; subst. unfold NetIO_Model.runCalls. cbn [for_each]. rewrite run_setting by auto. cbn [bind].
    fold (runCalls d cs). change (for_each cs (fun c st => runCall d st c)) with (runCalls d cs). rewrite IH by auto.
    cbn [theNet theReg architecture count fold_left length tokensOf flat_map]. rewrite ef_twice, <- app_assoc. do 2 f_equal. lia.
Qed.

Definition inner (c : netCall) : Prop := isSetting c \/ isHidden c.
Lemma run_hidden d st c info l : isHidden c -> lastInfo junk (theNet junk st) = Ok info -> layerOf junk d (count junk st) info c = Ok l ->
  exists l', l = Some l' /\
  runCall d st c = (s <- add junk (theNet junk st) (theReg junk st) l' ;;
    Ok (mkState junk s (theReg junk st) (architecture junk st ++ callTokens prt c) (S (count junk st)))).
Proof.
  intros Hc HL E. destruct c; try easy; cbn [NetIO_Model.runCall]; rewrite HL; cbn [bind layerOf] in *;
    try (injection E as <-; eexists; split; reflexivity).
  destruct (compressionMatrix _ _ _ _ _ _) as [phi| | | |]; try discriminate E.
  cbn [bind] in *. injection E as <-. eexists. split; reflexivity.
Qed.
Lemma run_hidden_fail d st c info : isHidden c -> lastInfo junk (theNet junk st) = Ok info ->
  (forall l, layerOf junk d (count junk st) info c <> Ok l) -> forall st', runCall d st c <> Ok st'.
Proof.
  intros Hc HL E st' H. unfold NetIO_Model.runCall in H.
  assert (X : exists l, layerOf junk d (count junk st) info c = Ok l); [|destruct X as (l & X); now apply (E l)].
  destruct c; try easy; rewrite HL in H; cbn [bind] in H;
    match goal with |- exists l, ?b = _ => destruct b; try discriminate H; eauto end.
Qed.
Lemma commandsOf_hidden d n info c cs : isHidden c \/ isOutput c -> commandsOf d n info (c :: cs) =
  (l <- layerOf junk d n info c ;;
   match l with Some l => r <- commandsOf d (S n) (layerOutput info l) cs ;; Ok (Add l :: r) | None => UB end).
Proof. destruct c; intros [H|H]; easy. Qed.
Lemma layerOf_some d n info c l : isHidden c \/ isOutput c -> layerOf junk d n info c = Ok l -> exists l', l = Some l'.
Proof.
  intros H E. destruct c; destruct H as [H|H]; try easy; cbn [layerOf] in E; try (injection E as <-; eauto);
  (destruct (compressionMatrix _ _ _ _ _ _) as [phi| | | |]; try discriminate E; cbn [bind] in *; injection E as <-; eauto).
Qed.

Lemma add_info I O s info reg l s' : adding junk I O s -> lastInfo junk s = Ok info -> maxSquaredWeightNorm reg <= 0 -> add junk s reg l = Ok s' ->
  lastInfo junk s' = Ok (layerOutput info l) /\ exists O', adding junk I O' s'.
Proof.
  intros A HL Hm E. destruct (adding_add junk I O s info reg l s' A HL Hm E) as (o & Es & A1 & _). split; [|eauto].
  rewrite Es. unfold lastInfo. cbn [addLayer infos]. rewrite vget_last. now rewrite kindOf_output.
Qed.

Notation run := (fun c st => runCommand junk st c).

Lemma mid_fwd d I mid : forall O st st' s info, adding junk I O s -> lastInfo junk s = Ok info ->
  maxSquaredWeightNorm (theReg junk st) <= 0 -> Forall noMaxNorm mid -> Forall inner mid ->
  theNet junk st = s with_ef (errorFunction kc (theNet junk st)) ->
  runCalls d mid st = Ok st' ->
  exists cs s' O', commandsOf d (count junk st) info mid = Ok cs /\ for_each cs run (s, theReg junk st) = Ok (s', theReg junk st') /\
    adding junk I O' s' /\ lastInfo junk s' = Ok (finalOutput info cs) /\ maxSquaredWeightNorm (theReg junk st') <= 0 /\
    theNet junk st' = s' with_ef (errorFunction kc (theNet junk st')) /\
    errorFunction kc (theNet junk st') = lastEF mid (errorFunction kc (theNet junk st)) /\
    theReg junk st' = lastReg mid (theReg junk st) /\
    architecture junk st' = (architecture junk st ++ tokensOf mid)%list /\ count junk st' = (count junk st + length mid)%nat.
Proof.
  induction mid as [|c mid IH]; intros O st st' s info A HL Hm HN HI Hs E.
  - unfold NetIO_Model.runCalls in E. cbn in E. injection E as <-. exists [], s, O. cbn. rewrite app_nil_r. repeat (split; auto).
  - inversion HN as [|? ? N1 N2]; subst. inversion HI as [|? ? I1 I2]; subst.
    unfold NetIO_Model.runCalls in E. cbn [for_each] in E.
    destruct (runCall d st c) as [st1| | | |] eqn:E1; try discriminate E. cbn [bind] in E.
    change (runCalls d mid st1 = Ok st') in E. destruct I1 as [I1|I1].
    + rewrite run_setting in E1 by auto.
      assert (Es : st1 = mkState junk (theNet junk st with_ef (efAfter (errorFunction kc (theNet junk st)) c)) (regAfter (theReg junk st) c)
        (architecture junk st ++ callTokens prt c) (S (count junk st))) by congruence. clear E1.
      destruct (IH O st1 st' s info) as (cs & s' & O' & C1 & C2 & C3 & C4 & C5 & C6 & C7 & C8 & C9 & C10); auto.
      { rewrite Es. cbn. destruct c; try easy; auto. }
      { rewrite Es. cbn [theNet]. rewrite Hs, ef_twice. reflexivity. }
      rewrite Es in C1, C2, C7, C8, C9, C10. cbn [count theReg architecture theNet errorFunction setErrorFunction] in *.
      destruct c; try easy; cbn [commandsOf efAfter regAfter fold_left length tokensOf flat_map] in *.
      * exists cs, s', O'. rewrite app_assoc, C9. repeat (split; auto). lia.
      * eexists. exists s', O'. rewrite C1. cbn [bind]. split; [reflexivity|]. cbn [for_each runCommand fst snd bind finalOutput].
        rewrite app_assoc. repeat (split; auto). lia.
    + assert (HL' : lastInfo junk (theNet junk st) = Ok info) by (rewrite Hs; exact HL).
      destruct (layerOf junk d (count junk st) info c) as [l| | | |] eqn:El;
        try (exfalso; eapply (run_hidden_fail d st c info); eauto; intros ?; congruence).
      destruct (run_hidden d st c info l I1 HL' El) as (l' & -> & Er). rewrite Er in E1. rewrite Hs, add_ef in E1.
      destruct (add junk s (theReg junk st) l') as [s1| | | |] eqn:Ea; try discriminate E1. cbn [bind] in E1.
      assert (Es : st1 = mkState junk (s1 with_ef (errorFunction kc (theNet junk st))) (theReg junk st) (architecture junk st ++ callTokens prt c) (S (count junk st))) by congruence.
      clear E1. destruct (add_info I O s info (theReg junk st) l' s1 A HL Hm Ea) as (L1 & O1 & A1).
      destruct (IH O1 st1 st' s1 (layerOutput info l')) as (cs & s' & O' & C1 & C2 & C3 & C4 & C5 & C6 & C7 & C8 & C9 & C10); auto; try (rewrite Es; auto; fail).
      exists (Add l' :: cs), s', O'. rewrite Es in C1, C2, C7, C8, C9, C10. cbn [count theReg architecture theNet errorFunction setErrorFunction] in *.
      rewrite commandsOf_hidden, El by auto. cbn [bind]. rewrite C1. cbn [bind]. split; auto.
      cbn [for_each runCommand fst snd finalOutput]. rewrite Ea. cbn [bind].
      split; auto. split; auto. split; auto. split; auto. split; auto.
      assert (Ee : efAfter (errorFunction kc (theNet junk st)) c = errorFunction kc (theNet junk st)) by (destruct c; easy).
      assert (Eg : regAfter (theReg junk st) c = theReg junk st) by (destruct c; easy).
      cbn [fold_left length tokensOf flat_map]. rewrite Ee, Eg, app_assoc. repeat (split; auto). lia.
Qed.

Lemma mid_bwd d I mid : forall O st s info cs s' reg', adding junk I O s -> lastInfo junk s = Ok info ->
  maxSquaredWeightNorm (theReg junk st) <= 0 -> Forall noMaxNorm mid -> Forall inner mid ->
  theNet junk st = s with_ef (errorFunction kc (theNet junk st)) ->
  commandsOf d (count junk st) info mid = Ok cs -> for_each cs run (s, theReg junk st) = Ok (s', reg') ->
  exists st', runCalls d mid st = Ok st'.
Proof.
  induction mid as [|c mid IH]; intros O st s info cs s' reg' A HL Hm HN HI Hs Ec E.
  - exists st. reflexivity.
  - inversion HN as [|? ? N1 N2]; subst. inversion HI as [|? ? I1 I2]; subst.
    unfold NetIO_Model.runCalls. cbn [for_each]. destruct I1 as [I1|I1].
    + rewrite run_setting by auto. cbn [bind]. change (for_each mid (fun c st => runCall d st c)) with (runCalls d mid).
      destruct c as [| | | | | | | | | | | | | |l1 l2 m]; try easy; cbn [commandsOf efAfter regAfter] in *.
      * apply (IH O _ s info cs s' reg'); auto. cbn [theNet errorFunction setErrorFunction]. rewrite Hs, ef_twice. reflexivity.
      * destruct (commandsOf d (S (count junk st)) info mid) as [cs1| | | |] eqn:E1; try discriminate Ec. cbn [bind] in Ec. injection Ec as <-.
        cbn [for_each runCommand fst snd bind] in E.
        apply (IH O _ s info cs1 s' reg'); auto. cbn [theNet errorFunction setErrorFunction]. rewrite Hs, ef_twice. reflexivity.
    + assert (HL' : lastInfo junk (theNet junk st) = Ok info) by (rewrite Hs; exact HL).
      rewrite commandsOf_hidden in Ec by auto.
      destruct (layerOf junk d (count junk st) info c) as [l| | | |] eqn:El; try discriminate Ec. cbn [bind] in Ec.
      destruct (run_hidden d st c info l I1 HL' El) as (l' & -> & Er). rewrite Er. rewrite Hs, add_ef.
      destruct (commandsOf d (S (count junk st)) (layerOutput info l') mid) as [cs1| | | |] eqn:E1; try discriminate Ec. cbn [bind] in Ec.
      injection Ec as <-. cbn [for_each runCommand fst snd] in E.
      destruct (add junk s (theReg junk st) l') as [s1| | | |] eqn:Ea; try discriminate E. cbn [bind] in *.
      destruct (add_info I O s info (theReg junk st) l' s1 A HL Hm Ea) as (L1 & O1 & A1).
      change (for_each mid (fun c st => runCall d st c)) with (runCalls d mid).
      apply (IH O1 _ s1 (layerOutput info l') cs1 s' reg'); auto.
Qed.

Lemma for_each_app {A St} (l1 l2 : list A) (b : A -> St -> res St) s : for_each (l1 ++ l2) b s = (s <- for_each l1 b s ;; for_each l2 b s).
Proof. revert s. induction l1 as [|a l1 IH]; intros s; cbn [app for_each]; auto. destruct (b a s); auto. apply IH. Qed.
Lemma runCalls_app d a b st : runCalls d (a ++ b) st = (st <- runCalls d a st ;; runCalls d b st).
Proof. apply for_each_app. Qed.
Lemma run_output d st c info l : isOutput c -> lastInfo junk (theNet junk st) = Ok info -> layerOf junk d (count junk st) info c = Ok l ->
  exists l', l = Some l' /\
  runCall d st c = (s <- add junk (theNet junk st) (theReg junk st) l' ;; s <- initializeNetwork kc junk s ;;
    Ok (mkState junk s (theReg junk st) (architecture junk st ++ callTokens prt c) (S (count junk st)))).
Proof.
  intros Hc HL E. destruct c; try easy; cbn [NetIO_Model.runCall]; rewrite HL; cbn [bind layerOf] in *;
    try (injection E as <-; eexists; split; reflexivity).
  destruct (compressionMatrix _ _ _ _ _ _) as [phi| | | |]; try discriminate E.
  cbn [bind] in *. injection E as <-. eexists. split; reflexivity.
Qed.
Lemma run_output_fail d st c info : isOutput c -> lastInfo junk (theNet junk st) = Ok info ->
  (forall l, layerOf junk d (count junk st) info c <> Ok l) -> forall st', runCall d st c <> Ok st'.
Proof.
  intros Hc HL E st' H. unfold NetIO_Model.runCall in H.
  assert (X : exists l, layerOf junk d (count junk st) info c = Ok l); [|destruct X as (l & X); now apply (E l)].
  destruct c; try easy; rewrite HL in H; cbn [bind] in H;
    match goal with |- exists l, ?b = _ => destruct b; try discriminate H; eauto end.
Qed.

Lemma settings_reg pre r : Forall isSetting pre -> Forall noMaxNorm pre -> maxSquaredWeightNorm r <= 0 -> maxSquaredWeightNorm (lastReg pre r) <= 0.
Proof.
  revert r. induction pre as [|c pre IH]; intros r H1 H2 Hr; auto. inversion H1; inversion H2; subst. cbn [fold_left]. apply IH; auto.
  destruct c; cbn in *; auto.
Qed.
Lemma ef_none c ef : isHidden c \/ isOutput c -> efAfter ef c = ef.
Proof. destruct c; intros [H|H]; easy. Qed.
Lemma reg_none c r : isHidden c \/ isOutput c -> regAfter r c = r.
Proof. destruct c; intros [H|H]; easy. Qed.

Lemma commandsOf_snoc d c cs1 : isOutput c -> forall n info cs, commandsOf d n info cs = Ok cs1 ->
  commandsOf d n info (cs ++ [c]) = (l <- layerOf junk d (n + length cs) (finalOutput info cs1) c ;;
    match l with Some l => Ok (cs1 ++ [Add l]) | None => UB end).
Proof.
  intros Hc n info cs. revert n info cs1. induction cs as [|x cs IH]; intros n info cs1 E.
  - cbn [commandsOf] in E. injection E as <-. cbn [app finalOutput length]. rewrite Nat.add_0_r. rewrite commandsOf_hidden by auto.
    destruct (layerOf junk d n info c) as [[l|]| | | |]; reflexivity.
  - cbn [app length]. replace (n + S (length cs))%nat with (S n + length cs)%nat by lia.
    assert (G : forall l, layerOf junk d n info x = Ok (Some l) -> isHidden x \/ isOutput x ->
       commandsOf d n info (x :: cs ++ [c]) = (l <- layerOf junk d (S n + length cs) (finalOutput info cs1) c ;; match l with Some l => Ok (cs1 ++ [Add l]) | None => UB end)).
    { intros l El Hx. rewrite commandsOf_hidden in E |- * by auto. rewrite El in E |- *. cbn [bind] in *.
      destruct (commandsOf d (S n) (layerOutput info l) cs) as [r| | | |] eqn:Er; try discriminate E. cbn [bind] in E. injection E as <-.
      rewrite (IH _ _ _ Er). cbn [finalOutput app]. destruct (layerOf junk d (S n + length cs) (finalOutput (layerOutput info l) r) c) as [[l'|]| | | |]; reflexivity. }
    assert (X : (isHidden x \/ isOutput x) -> exists l, layerOf junk d n info x = Ok (Some l)).
    { intros Hx. rewrite commandsOf_hidden in E by auto. destruct (layerOf junk d n info x) as [l| | | |] eqn:El; try discriminate E.
      destruct (layerOf_some d n info x l Hx El) as (l' & ->). eauto. }
    destruct x; try (destruct X as (l & El); [simpl; auto|]; apply (G l El); simpl; auto; fail).
    + cbn [commandsOf layerOf bind] in E. discriminate E.
    + cbn [commandsOf] in *. apply IH. exact E.
    + cbn [commandsOf] in *. destruct (commandsOf d (S n) info cs) as [r| | | |] eqn:Er; try discriminate E. cbn [bind] in E. injection E as <-.
      rewrite (IH _ _ _ Er). cbn [finalOutput app]. destruct (layerOf junk d (S n + length cs) (finalOutput info r) c) as [[l'|]| | | |]; reflexivity.
Qed.

Lemma commandsOf_prefix d cs tl : forall n info r, commandsOf d n info (cs ++ tl) = Ok r -> exists r1, commandsOf d n info cs = Ok r1.
Proof.
  induction cs as [|c cs IH]; intros n info r E; [exists []; reflexivity|].
  destruct c; cbn [commandsOf app] in *;
    try (match goal with |- context [layerOf ?a ?b ?c ?e ?f] => destruct (layerOf a b c e f) as [[l|]| | | |]; try discriminate E end; cbn [bind] in *;
         destruct (commandsOf d (S n) (layerOutput info l) (cs ++ tl)) as [r'| | | |] eqn:Er; try discriminate E;
         destruct (IH _ _ _ Er) as (r1 & ->); eexists; reflexivity).
  - eauto.
  - destruct (commandsOf d (S n) info (cs ++ tl)) as [r'| | | |] eqn:Er; try discriminate E.
    destruct (IH _ _ _ Er) as (r1 & ->). eexists. reflexivity.
Qed.

Section Complete.
Variables (pre : list netCall) (d1 d2 d3 : nat) (mid : list netCall) (out : netCall).
Hypotheses (Hpre : Forall isSetting pre) (Hmid : Forall inner mid) (Hout : isOutput out).
Notation all := (pre ++ InputLayer d1 d2 d3 :: mid ++ [out])%list.
Hypothesis HN : Forall noMaxNorm all.
Notation r0 := (mkReg 0 0 0).
Notation s0 := (inputLayer junk (net_new kc) d1 d2 d3).

Let N1 : Forall noMaxNorm pre.
Proof. apply Forall_app in HN. apply HN. Qed.
Let N2 : Forall noMaxNorm mid.
Proof. apply Forall_app in HN. destruct HN as (_ & H). inversion H as [|? ? ? H']; subst. apply Forall_app in H'. apply H'. Qed.

Lemma run_start d : runCalls d (pre ++ [InputLayer d1 d2 d3]) (state_new junk) =
  Ok (mkState junk (s0 with_ef (lastEF pre MSE)) (lastReg pre r0) (tokensOf (pre ++ [InputLayer d1 d2 d3])) (S (length pre))).
Proof.
  rewrite runCalls_app, (run_settings d pre) by auto. cbn [bind]. unfold NetIO_Model.runCalls. cbn [for_each].
  cbn [NetIO_Model.runCall bind state_new theNet theReg architecture count app Nat.add].
  do 2 f_equal. unfold tokensOf. rewrite flat_map_app. cbn [flat_map]. now rewrite app_nil_r.
Qed.

Lemma split_all d : runCalls d all (state_new junk) =
  (st <- runCalls d mid (mkState junk (s0 with_ef (lastEF pre MSE)) (lastReg pre r0) (tokensOf (pre ++ [InputLayer d1 d2 d3])) (S (length pre))) ;;
   runCall d st out).
Proof.
  replace all with ((pre ++ [InputLayer d1 d2 d3]) ++ (mid ++ [out]))%list by (rewrite <- app_assoc; reflexivity).
  rewrite runCalls_app, run_start. cbn [bind]. rewrite runCalls_app.
  destruct (runCalls d mid _) as [st| | | |]; auto. cbn [bind]. unfold NetIO_Model.runCalls. cbn [for_each]. now destruct (runCall d st out).
Qed.

Lemma complete_fwd d st : runCalls d all (state_new junk) = Ok st ->
  exists cs s, commandsOf d (S (length pre)) [d1; d2; d3] (mid ++ [out]) = Ok cs /\
    build junk d1 d2 d3 (SetRegularization (lastReg pre r0) :: cs) = Ok s /\
    theNet junk st = s with_ef (lastEF all MSE) /\ theReg junk st = lastReg all r0 /\
    architecture junk st = tokensOf all /\ count junk st = length all.
Proof.
  intros E. rewrite split_all in E.
  match type of E with context [NetIO_Model.runCalls _ _ d mid ?x] => set (st0 := x) in * end.
  destruct (runCalls d mid st0) as [st1| | | |] eqn:E1; try discriminate E. cbn [bind] in E.
  destruct (mid_fwd d _ mid _ st0 st1 s0 [d1; d2; d3] (adding_input junk d1 d2 d3) eq_refl) as
    (cs & s' & O' & C1 & C2 & C3 & C4 & C5 & C6 & C7 & C8 & C9 & C10); auto.
  { apply settings_reg; auto. cbn. lra. }
  cbn [st0 count theReg theNet architecture errorFunction setErrorFunction] in *.
  assert (HL : lastInfo junk (theNet junk st1) = Ok (finalOutput [d1; d2; d3] cs)) by (rewrite C6; exact C4).
  assert (EA : errorFunction kc (theNet junk st1) = lastEF all MSE).
  { rewrite C7, fold_left_app. cbn [fold_left efAfter]. rewrite fold_left_app. cbn [fold_left]. now rewrite ef_none by auto. }
  assert (RA : theReg junk st1 = lastReg all r0).
  { rewrite C8, fold_left_app. cbn [fold_left regAfter]. rewrite fold_left_app. cbn [fold_left]. now rewrite reg_none by auto. }
  destruct (layerOf junk d (count junk st1) (finalOutput [d1; d2; d3] cs) out) as [l| | | |] eqn:El;
    try (exfalso; eapply (run_output_fail d st1 out _); eauto; intros ?; congruence).
  destruct (run_output d st1 out _ l Hout HL El) as (l' & -> & Er). rewrite Er in E. rewrite C6, add_ef in E.
  destruct (add junk s' (theReg junk st1) l') as [s2| | | |] eqn:Ea; try discriminate E. cbn [bind] in E.
  rewrite init_ef in E. destruct (initializeNetwork kc junk s2) as [s3| | | |] eqn:Ei; try discriminate E. cbn [bind] in E.
  assert (Est : st = mkState junk (s3 with_ef (errorFunction kc (theNet junk st1))) (theReg junk st1) (architecture junk st1 ++ callTokens prt out) (S (count junk st1))) by congruence.
  exists (cs ++ [Add l'])%list, s3. split; [|split; [|split]].
  - rewrite (commandsOf_snoc d out cs Hout _ _ _ C1). rewrite <- C10, El. reflexivity.
  - unfold build. cbn [for_each runCommand fst snd bind]. rewrite for_each_app. cbn [st0 theReg] in C2. rewrite C2. cbn [bind for_each runCommand fst snd].
    rewrite Ea. cbn [bind]. exact Ei.
  - rewrite <- EA, Est. reflexivity.
  - rewrite Est. cbn [theReg architecture count]. split; auto. split.
    + rewrite C9. cbn [st0 architecture]. unfold tokensOf. rewrite !flat_map_app. cbn [flat_map]. rewrite !flat_map_app. cbn [flat_map].
      rewrite !app_nil_r, <- !app_assoc. reflexivity.
    + rewrite C10, app_length. cbn [length st0 count]. rewrite app_length. cbn [length]. lia.
Qed.

Lemma complete_bwd d cs s : commandsOf d (S (length pre)) [d1; d2; d3] (mid ++ [out]) = Ok cs ->
  build junk d1 d2 d3 (SetRegularization (lastReg pre r0) :: cs) = Ok s -> exists st, runCalls d all (state_new junk) = Ok st.
Proof.
  intros Ec Eb. rewrite split_all.
  match goal with |- context [NetIO_Model.runCalls _ _ d mid ?x] => set (st0 := x) in * end.
  assert (X : exists cs1 l, commandsOf d (S (length pre)) [d1; d2; d3] mid = Ok cs1 /\
     layerOf junk d (S (length pre) + length mid) (finalOutput [d1; d2; d3] cs1) out = Ok (Some l) /\ cs = (cs1 ++ [Add l])%list).
  { destruct (commandsOf_prefix d mid [out] _ _ _ Ec) as (cs1 & E1). exists cs1.
    rewrite (commandsOf_snoc d out cs1 Hout _ _ _ E1) in Ec. destruct (layerOf _ _ _ _ out) as [[l|]| | | |] eqn:El; try discriminate Ec.
    injection Ec as <-. eauto. }
  destruct X as (cs1 & l & E1 & El & ->).
  unfold build in Eb. cbn [for_each runCommand fst snd bind] in Eb. rewrite for_each_app in Eb.
  destruct (for_each cs1 run (s0, lastReg pre r0)) as [[s1 r1]| | | |] eqn:E2; try discriminate Eb. cbn [bind for_each runCommand fst snd] in Eb.
  assert (Hm : maxSquaredWeightNorm (theReg junk st0) <= 0) by (apply settings_reg; auto; cbn; lra).
  destruct (mid_bwd d _ mid _ st0 s0 [d1; d2; d3] cs1 s1 r1 (adding_input junk d1 d2 d3) eq_refl) as (st1 & E3); auto.
  rewrite E3. cbn [bind].
  destruct (mid_fwd d _ mid _ st0 st1 s0 [d1; d2; d3] (adding_input junk d1 d2 d3) eq_refl) as
    (cs & s' & O' & C1 & C2 & C3 & C4 & C5 & C6 & C7 & C8 & C9 & C10); auto.
  assert (cs = cs1) by (cbn [st0 count] in C1; congruence). subst cs.
  assert (Es : (s', theReg junk st1) = (s1, r1)) by (cbn [st0 theReg] in C2; congruence). injection Es as -> <-.
  assert (HL : lastInfo junk (theNet junk st1) = Ok (finalOutput [d1; d2; d3] cs1)) by (rewrite C6; exact C4).
  cbn [st0 count] in C10. rewrite <- C10 in El.
  destruct (run_output d st1 out _ _ Hout HL El) as (l' & El' & Er). injection El' as <-. rewrite Er, C6, add_ef.
  destruct (add junk s1 (theReg junk st1) l) as [s2| | | |] eqn:Ea; try discriminate Eb. cbn [bind] in *. rewrite init_ef.
  rewrite Eb. cbn [bind]. eauto.
Qed.
End Complete.
End Translate.

(** * Networks with different indeterminate values *)
Section Cast.
Variables j1 j2 : nat -> nat -> R.
(** the label without the random numbers of restricted Boltzmann machines that do not matter *)
Definition normK (k : kind) : kind :=
  match k with
  | KRestrictedBoltzmannMachine i h cdN backprop reg _ w =>
      KRestrictedBoltzmannMachine i h cdN backprop reg (fun _ => 0) (if backprop then fun _ _ => 0 else w)
  | _ => k
  end.
Definition castSt (k : kind) : St (kclass j1 k) -> St (kclass j2 (normK k)) :=
  match k as k0 return St (kclass j1 k0) -> St (kclass j2 (normK k0)) with
  | KInput _ => fun o => o | KFullyConnected _ _ _ _ _ => fun o => o | KCompressed _ _ _ _ _ _ _ => fun o => o
  | KExtreme _ _ _ _ _ => fun o => o | KIntrinsicPlasticity _ _ _ => fun o => o | KConvolutional _ => fun o => o
  | KSubsampling _ _ _ _ => fun o => o | KMaxPooling _ => fun o => o | KDropout _ _ => fun o => o
  | KRestrictedBoltzmannMachine _ _ _ _ _ _ _ => fun o => o | KSparseAutoEncoder _ _ _ _ _ _ => fun o => o
  end.
Definition cast (l : layer (kclass j1)) : layer (kclass j2) := mkLayer (kclass j2) (normK (lkind _ l)) (castSt _ (lobj _ l)).
Lemma norm_dims k : nI (normK k) = nI k /\ nO (normK k) = nO k /\ nK (normK k) = nK k.
Proof. destruct k; auto. Qed.

Lemma cast_inv k o : nInv j1 k o -> nInv j2 (normK k) (castSt k o).
Proof.
  destruct k; try exact (fun H => H). intros (H1 & H2). split; [exact H1|]. intros Hb. rewrite Hb in *. exact (H2 eq_refl).
Qed.
Lemma cast_fn k o : nfn j2 (normK k) (castSt k o) = nfn j1 k o.
Proof. destruct k; reflexivity. Qed.
Lemma cast_rg k o : nrg j2 (normK k) (castSt k o) = nrg j1 k o.
Proof. destruct k; reflexivity. Qed.
Lemma cast_install k o p : install (kclass j2 (normK k)) (castSt k o) p = (o' <- install (kclass j1 k) o p ;; Ok (castSt k o')).
Proof.
  assert (E : forall A (r : res A), r = (x <- r ;; Ok x)) by (intros A []; reflexivity).
  destruct k; cbn [castSt]; exact (E _ _).
Qed.

Lemma cast_invs ls : invs (kclass j1) (nInv j1) ls -> invs (kclass j2) (nInv j2) (map cast ls).
Proof. intros H. apply Forall_map. eapply Forall_impl; [|exact H]. intros l. apply cast_inv. Qed.
Lemma cast_kinds ls : map (lkind _) (map cast ls) = map normK (map (lkind _) ls).
Proof. rewrite !map_map. reflexivity. Qed.
Lemma cast_wired ls : forall I O, wired (kclass j1) nI nO I ls O -> wired (kclass j2) nI nO I (map cast ls) O.
Proof.
  induction ls as [|l ls IH]; intros I O; cbn [map wired cast lkind]; auto. destruct (norm_dims (lkind _ l)) as (-> & -> & _). intros (H1 & H2). auto.
Qed.
Lemma cast_count ls : NetChain_Proofs.count (kclass j2) nK (map cast ls) = NetChain_Proofs.count (kclass j1) nK ls.
Proof. induction ls as [|l ls IH]; cbn [map NetChain_Proofs.count cast lkind]; auto. destruct (norm_dims (lkind _ l)) as (_ & _ & ->). now rewrite IH. Qed.
Lemma cast_fns ls : forall dr n x, fns (kclass j2) (nfn j2) (map cast ls) dr n x = fns (kclass j1) (nfn j1) ls dr n x.
Proof. induction ls as [|l ls IH]; intros; cbn [map fns]; auto. rewrite IH. cbn [cast lkind lobj]. now rewrite cast_fn. Qed.
Lemma cast_rgs ls : rgs (kclass j2) (nrg j2) (map cast ls) = rgs (kclass j1) (nrg j1) ls.
Proof. induction ls as [|l ls IH]; cbn [map rgs]; auto. rewrite IH. cbn [cast lkind lobj]. now rewrite cast_rg. Qed.
Lemma cast_installAll ls : forall p q, installAll (kclass j1) nK ls p = Ok q -> installAll (kclass j2) nK (map cast ls) p = Ok (map cast q).
Proof.
  induction ls as [|[k o] ls IH]; intros p q E; cbn [map installAll cast lkind lobj] in *.
  - injection E as <-. reflexivity.
  - destruct (norm_dims k) as (_ & _ & ->). rewrite cast_install. destruct (install (kclass j1 k) o (firstn (nK k) p)) as [o'| | | |]; try discriminate E. cbn [bind] in *.
    destruct (installAll (kclass j1) nK ls (skipn (nK k) p)) as [ls'| | | |] eqn:E1; try discriminate E. cbn [bind] in *.
    rewrite (IH _ _ E1). cbn [bind]. injection E as <-. reflexivity.
Qed.
End Cast.

Lemma cast_read j k o i : readParam (kclass j (normK k)) (castSt j j k o) i = readParam (kclass j k) o i.
Proof. destruct k; reflexivity. Qed.
Lemma cast_same j a b : same_layers (kclass j) nO nK (nfn j) (nrg j) a b ->
  same_layers (kclass j) nO nK (nfn j) (nrg j) (map (cast j j) a) (map (cast j j) b).
Proof.
  induction 1 as [|x y a b S F IH]; cbn [map]; constructor; auto. destruct S as [k q s (S1 & S2 & S3)]. unfold cast. cbn [lkind lobj]. constructor.
  destruct (norm_dims k) as (_ & D1 & D2). split; [|split].
  - intros i Hi. rewrite D2 in Hi. rewrite !cast_read. auto.
  - intros n x i Hi. rewrite D1 in Hi. rewrite !cast_fn. auto.
  - rewrite !cast_rg. auto.
Qed.

Section Cross.
Variables j1 j2 : nat -> nat -> R.
Notation k1 := (kclass j1).
Notation k2 := (kclass j2).
Notation good1 := (good k1 nI nO nK (nInv j1) isIn).
Notation good2 := (good k2 nI nO nK (nInv j2) isIn).
Notation same_layers := (same_layers k1 nO nK (nfn j1) (nrg j1)).

Lemma cross_fns I O (s : net k1) (s' : net k2) n x j : good1 I O s -> good2 I O s' ->
  same_layers (map (cast j1 j1) (layers k1 s)) (map (cast j2 j1) (layers k2 s')) -> (j < O)%nat ->
  fns k1 (nfn j1) (layers k1 s) false n x j = fns k2 (nfn j2) (layers k2 s') false n x j.
Proof.
  intros G G' S Hj. rewrite <- (cast_fns j2 j1), <- (cast_fns j1 j1).
  apply (same_fns k1 nI nO nK (nInv j1) (nsmooth j1) (nfn j1) (nrg j1) (nok j1) _ _ S I O); auto.
  - apply cast_wired. apply G'.
  - apply cast_invs. apply G'.
Qed.

Lemma cross_outputs I O (s : net k1) (s' : net k2) : good1 I O s -> good2 I O s' ->
  same_layers (map (cast j1 j1) (layers k1 s)) (map (cast j2 j1) (layers k2 s')) ->
  errorFunction k1 s = errorFunction k2 s' -> dropout k1 s = false -> dropout k2 s' = false -> (0 < O)%nat ->
  I = netInputs s -> I = netInputs s' -> O = netOutputs s -> O = netOutputs s' ->
  sameOutputs s s' /\ sameErrors s s'.
Proof.
  intros G G' S HE D1 D2 HO I1 I2 O1 O2. split.
  - split; [congruence|]. split; [congruence|]. intros x HX HN. rewrite <- I1 in HX. rewrite <- O1.
    destruct (forward_net k1 nI nO nK (nInv j1) (nsmooth j1) (nfn j1) (nrg j1) (nok j1) isIn _ _ s x G HX)
      as (la & Y & Yo & A1 & A2 & A3 & A4 & A5 & A6 & A7 & A8 & A9 & _); [auto|].
    destruct (forward_net k2 nI nO nK (nInv j2) (nsmooth j2) (nfn j2) (nrg j2) (nok j2) isIn _ _ s' x G' HX)
      as (lb & Z & Zo & B1 & B2 & B3 & B4 & B5 & B6 & B7 & B8 & B9 & _); [auto|].
    do 4 eexists. split; [unfold net_apply; rewrite A5; reflexivity|]. split; [unfold net_apply; rewrite B5; reflexivity|].
    cbn [Net_Model.tempOutput Net_Model.with_output]. split; auto. split; auto.
    intros n j Hn Hj. rewrite A9, B9 by auto. rewrite HE. apply outrow_ext; auto.
    intros k Hk. rewrite A8, B8 by auto. rewrite D1, D2. eapply cross_fns; eauto.
  - intros d n F Hn. assert (F1 : data_fits d I O) by (unfold fits in F; rewrite I1, O1; exact F).
    destruct (error_at_ok k1 nI nO nK (nInv j1) (nsmooth j1) (nfn j1) (nrg j1) (nok j1) isIn I O (trainingSet k1 s d) d n) as (q & Eq & _); auto.
    { destruct G as [X1 X2 X3 X4 X5 X6 X7 X8]. constructor; auto. }
    destruct (error_at_ok k2 nI nO nK (nInv j2) (nsmooth j2) (nfn j2) (nrg j2) (nok j2) isIn I O (trainingSet k2 s' d) d n) as (q' & Eq' & _); auto.
    { destruct G' as [X1 X2 X3 X4 X5 X6 X7 X8]. constructor; auto. }
    exists q, q'. eexists. split; [exact Eq|]. rewrite Eq'. do 2 f_equal. cbn [trainingSet Net_Model.errorFunction Net_Model.layers]. f_equal.
    + rewrite HE. apply rowloss_ext; auto. intros j Hj. unfold netrow. cbn [trainingSet Net_Model.errorFunction Net_Model.layers Net_Model.dropout].
      rewrite HE, D1, D2. apply outrow_ext; auto. intros k Hk. symmetry. eapply cross_fns; eauto.
    + rewrite <- (cast_rgs j1 j1), (same_rgs k1 nO nK (nfn j1) (nrg j1) _ _ S). symmetry. apply cast_rgs.
Qed.
End Cross.

(** * The calls of the saved and of the loaded network *)
Definition lsim (l1 l2 : layerSpec) : Prop :=
  match l1, l2 with
  | FullyConnectedLayer u a b _, FullyConnectedLayer u' a' b' _ => u = u' /\ a = a' /\ b = b'
  | CompressedLayer u p a b _ _, CompressedLayer u' p' a' b' _ _ => u = u' /\ p = p' /\ a = a' /\ b = b'
  | ExtremeLayer u a b _, ExtremeLayer u' a' b' _ => u = u' /\ a = a' /\ b = b'
  | IntrinsicPlasticityLayer _ _, IntrinsicPlasticityLayer _ _ => True
  | ConvolutionalLayer f r c a b _, ConvolutionalLayer f' r' c' a' b' _ => f = f' /\ r = r' /\ c = c' /\ a = a' /\ b = b'
  | SubsamplingLayer r c a b _, SubsamplingLayer r' c' a' b' _ => r = r' /\ c = c' /\ a = a' /\ b = b'
  | MaxPoolingLayer r c, MaxPoolingLayer r' c' => r = r' /\ c = c'
  | DropoutLayer _ _, DropoutLayer _ _ => True
  | RestrictedBoltzmannMachineLayer H cdN b _ _, RestrictedBoltzmannMachineLayer H' cdN' b' _ _ => H = H' /\ cdN = cdN' /\ b = b'
  | SparseAutoEncoderLayer H _ _ a _, SparseAutoEncoderLayer H' _ _ a' _ => H = H' /\ a = a'
  | _, _ => False
  end.
Definition csim (c1 c2 : command) : Prop :=
  match c1, c2 with Add l1, Add l2 => lsim l1 l2 | SetRegularization _, SetRegularization _ => True | _, _ => False end.

Ltac sim_cases l1 l2 H := destruct l1, l2; try (now destruct H); cbn [lsim] in H; repeat match goal with E : _ /\ _ |- _ => destruct E end; subst.
Lemma lsim_output info l1 l2 : lsim l1 l2 -> layerOutput info l1 = layerOutput info l2.
Proof. intros H. sim_cases l1 l2 H; reflexivity. Qed.
Lemma lsim_params info l1 l2 : lsim l1 l2 -> layerParams info l1 = layerParams info l2.
Proof. intros H. sim_cases l1 l2 H; reflexivity. Qed.
Lemma csim_params cs1 cs2 : Forall2 csim cs1 cs2 -> forall info, totalParams info cs1 = totalParams info cs2.
Proof.
  induction 1 as [|c1 c2 cs1 cs2 Sm F IH]; intros info; auto. destruct c1, c2; try easy; cbn [totalParams].
  - rewrite (lsim_params _ _ _ Sm), (lsim_output _ _ _ Sm). f_equal. apply IH.
  - apply IH.
Qed.
Lemma csim_final cs1 cs2 : Forall2 csim cs1 cs2 -> forall info, finalOutput info cs1 = finalOutput info cs2.
Proof.
  induction 1 as [|c1 c2 cs1 cs2 Sm F IH]; intros info; auto. destruct c1, c2; try easy; cbn [finalOutput].
  - rewrite (lsim_output _ _ _ Sm). apply IH.
  - apply IH.
Qed.

Section Simulation.
Variables j1 j2 : nat -> nat -> R.
Variable prt : R -> R.
Hypothesis HP : printing prt.

Lemma prt_nonpos x : x <= 0 -> prt x <= 0.
Proof.
  intros H. pose proof (pr_close prt HP x) as C. rewrite (Rabs_left1 x) in C by lra.
  assert (prt x - x <= 5 / 10 ^ 6 * - x) by (eapply Rle_trans; [apply Rle_abs|exact C]). lra.
Qed.
Lemma prt_prt x : prt (prt x) = prt x.
Proof. apply (pr_exact prt HP). apply (pr_digits prt HP). Qed.

Lemma add_sim s1 s2 info reg1 reg2 l1 l2 s1' : lastInfo j1 s1 = Ok info -> lastInfo j2 s2 = Ok info -> lsim l1 l2 ->
  add j1 s1 reg1 l1 = Ok s1' -> exists s2', add j2 s2 reg2 l2 = Ok s2'.
Proof.
  intros L1 L2 H E. unfold add in *. rewrite L1 in E. rewrite L2. cbn [bind] in *.
  sim_cases l1 l2 H; eauto;
    [| | |match goal with |- context [RBM_Model.rbm_new j2 ?M ?H ?c ?b ?r ?w] => destruct (RBMNet_Proofs.rbm_new_ok j2 M H c b r w) as (o & ->) end; cbn [bind]; eauto
     |match goal with |- context [SAE_Model.sae_new j2 ?M ?H ?b ?r ?l ?a ?u] => destruct (RBMNet_Proofs.sae_new_ok j2 M H b r l a u) as (o & -> & _) end; cbn [bind]; eauto];
    (destruct (vget info 0) as [d0| | | |]; try discriminate E; cbn [bind] in *; destruct (vget info 1) as [d1| | | |]; try discriminate E; cbn [bind] in *;
     destruct (vget info 2) as [d2| | | |]; try discriminate E; cbn [bind] in *).
  - unfold conv_new in *.
    repeat match type of E with context [check ?b] => destruct b; [cbn [check bind] in *|discriminate E] end.
    destruct (_ <? 1)%Z; try discriminate E.
    repeat match type of E with context [check ?b] => destruct b; [cbn [check bind] in *|discriminate E] end. eauto.
  - unfold subs_new in *. destruct (pgeom_new _ _ _ _ _); try discriminate E. cbn [bind]. eauto.
  - unfold maxp_new in *. destruct (pgeom_new _ _ _ _ _); try discriminate E. cbn [bind]. eauto.
Qed.

Lemma matrix_sim d d' n info p co A : compressionMatrix j1 d n info p co = Ok A ->
  exists B, compressionMatrix j2 d' n info p co = Ok B /\
    (co = "dct"%string \/ co = "average"%string \/ co = "edge"%string -> B = A).
Proof.
  unfold compressionMatrix. intros E.
  destruct (factory_new (outputs info + 1) p (transformationOf co)) as [f| | | |] eqn:Ef; try discriminate E. cbn [bind] in *.
  unfold factory_new in Ef. destruct (Nat.ltb_spec (outputs info + 1) 1); try discriminate Ef. destruct (Nat.ltb_spec p 1); try discriminate Ef.
  injection Ef as <-. unfold createCompressionMatrix in *. cbn [rows cols paramDim inputDim compress] in *.
  rewrite !Nat.ltb_irrefl in *. cbn [orb] in *.
  change (msetZero (mkMat p (outputs info + 1) j1)) with (msetZero (mkMat p (outputs info + 1) j2)) in E.
  destruct (transformationOf co) eqn:Et.
  - exists A. split; auto.
  - destruct (fillCM_ok (normals d' n) (uniforms d' n) (mkFactory true GAUSSIAN (outputs info + 1) p) (msetZero (mkMat p (outputs info + 1) j2))) as (B & EB & _);
      cbn; auto; try lia. { intros [H1|H1]; discriminate. }
    exists B. split; auto. intros [->|[->| ->]]; discriminate Et.
  - destruct (fillCM_ok (normals d' n) (uniforms d' n) (mkFactory true SPARSE_RANDOM (outputs info + 1) p) (msetZero (mkMat p (outputs info + 1) j2))) as (B & EB & _);
      cbn; auto; try lia. { intros [H1|H1]; discriminate. }
    exists B. split; auto. intros [->|[->| ->]]; discriminate Et.
  - exists A. split; auto.
  - exists A. split; auto.
Qed.

Lemma layerOf_sim d d' n info c l1 : isHidden c \/ isOutput c -> layerOf j1 d n info c = Ok (Some l1) ->
  exists l2, layerOf j2 d' n info (reread prt c) = Ok (Some l2) /\ lsim l1 l2 /\
    (restorable c -> exactArguments c -> forall reg, normK (fst (kindOf info reg l1)) = normK (fst (kindOf info reg l2))).
Proof.
  intros Hc E. destruct c; try (destruct Hc; easy); cbn [layerOf reread] in *;
    try (injection E as <-; eexists; split; [reflexivity|]; split; [cbn; auto|]; intros R X reg; cbn in R, X; try easy; cbn [kindOf fst normK];
         try match type of X with _ /\ _ => destruct X as (X1 & X2) end; rewrite ?(pr_exact prt HP) by auto; try rewrite R; reflexivity);
    (destruct (compressionMatrix j1 d n info params compression) as [A| | | |] eqn:EA; try discriminate E; cbn [bind] in *; injection E as <-;
     destruct (matrix_sim d d' n info params compression A EA) as (B & EB & HB); rewrite EB; cbn [bind];
     eexists; split; [reflexivity|]; split; [cbn; auto|]; intros R X reg; cbn in R; rewrite (HB R); reflexivity).
Qed.

Lemma reread_hidden c : isHidden c \/ isOutput c -> isHidden (reread prt c) \/ isOutput (reread prt c).
Proof. destruct c; auto. Qed.

Lemma commandsOf_sim d d' cs : forall n info r1, commandsOf j1 d n info cs = Ok r1 -> Forall noMaxNorm cs ->
  exists r2, commandsOf j2 d' n info (map (reread prt) cs) = Ok r2 /\ Forall2 csim r1 r2 /\ Forall no_max_norm r1 /\ Forall no_max_norm r2 /\
    (Forall restorable cs -> Forall exactArguments cs -> forall reg, map normK (kindsOf info reg r1) = map normK (kindsOf info reg r2)).
Proof.
  induction cs as [|c cs IH]; intros n info r1 E HN.
  - cbn [commandsOf] in E. injection E as <-. exists []. cbn [map commandsOf]. split; auto.
  - inversion HN as [|? ? N1 N2]; subst.
    assert (G : isHidden c \/ isOutput c -> exists r2, commandsOf j2 d' n info (map (reread prt) (c :: cs)) = Ok r2 /\ Forall2 csim r1 r2 /\
       Forall no_max_norm r1 /\ Forall no_max_norm r2 /\
       (Forall restorable (c :: cs) -> Forall exactArguments (c :: cs) -> forall reg, map normK (kindsOf info reg r1) = map normK (kindsOf info reg r2))).
    { intros Hc. cbn [map]. rewrite commandsOf_hidden in E |- * by (auto; now apply reread_hidden).
      destruct (layerOf j1 d n info c) as [l| | | |] eqn:El; try discriminate E. cbn [bind] in E.
      destruct (layerOf_some j1 d n info c l Hc El) as (l' & ->).
      destruct (layerOf_sim d d' n info c l' Hc El) as (l2 & E2 & Sm & K). rewrite E2. cbn [bind].
      destruct (commandsOf j1 d (S n) (layerOutput info l') cs) as [r'| | | |] eqn:Er; try discriminate E. cbn [bind] in E. injection E as <-.
      destruct (IH _ _ _ Er N2) as (r2 & E3 & F & M1 & M2 & KK). rewrite <- (lsim_output _ _ _ Sm), E3. cbn [bind].
      eexists. split; [reflexivity|]. split; [constructor; auto|]. split; [constructor; cbn; auto|]. split; [constructor; cbn; auto|].
      intros R X reg. inversion R; inversion X; subst. cbn [kindsOf map]. rewrite !kindOf_output, K by auto. f_equal.
      rewrite <- (lsim_output _ _ _ Sm). auto. }
    destruct c; try (apply G; simpl; auto; fail).
    + cbn [commandsOf layerOf bind] in E. discriminate E.
    + cbn [commandsOf map reread] in *. destruct (IH _ _ _ E N2) as (r2 & E3 & F & M1 & M2 & KK). exists r2. repeat (split; auto).
      intros R X reg. inversion R; inversion X; subst. auto.
    + cbn [commandsOf map reread] in *. destruct (commandsOf j1 d (S n) info cs) as [r'| | | |] eqn:Er; try discriminate E. cbn [bind] in E. injection E as <-.
      destruct (IH _ _ _ Er N2) as (r2 & E3 & F & M1 & M2 & KK). rewrite E3. cbn [bind]. eexists. split; [reflexivity|].
      split; [constructor; cbn; auto|]. split; [constructor; cbn; auto|]. split; [constructor; cbn; auto; now apply prt_nonpos|].
      intros R X reg. inversion R; inversion X as [|? ? X0 X4]; subst. cbn [exactArguments] in X0. destruct X0 as (X1 & X2 & X3). cbn [kindsOf].
      rewrite !(pr_exact prt HP) by auto. auto.
Qed.

Lemma for_each_sim I1 I2 cs1 cs2 : Forall2 csim cs1 cs2 -> forall O1 O2 s1 s2 info reg1 reg2 s1' r1', Forall no_max_norm cs1 -> Forall no_max_norm cs2 ->
  adding j1 I1 O1 s1 -> adding j2 I2 O2 s2 -> lastInfo j1 s1 = Ok info -> lastInfo j2 s2 = Ok info ->
  maxSquaredWeightNorm reg1 <= 0 -> maxSquaredWeightNorm reg2 <= 0 ->
  for_each cs1 (fun c st => runCommand j1 st c) (s1, reg1) = Ok (s1', r1') ->
  exists s2' r2' O2', for_each cs2 (fun c st => runCommand j2 st c) (s2, reg2) = Ok (s2', r2') /\ adding j2 I2 O2' s2' /\
    exists info', lastInfo j1 s1' = Ok info' /\ lastInfo j2 s2' = Ok info'.
Proof.
  induction 1 as [|c1 c2 cs1 cs2 Sm F IH]; intros O1 O2 s1 s2 info reg1 reg2 s1' r1' M1 M2 A1 A2 L1 L2 R1 R2 E.
  - cbn [for_each] in E. injection E as <- <-. exists s2, reg2, O2. split; [reflexivity|]. split; [exact A2|]. now exists info.
  - inversion M1; inversion M2; subst. cbn [for_each] in *. destruct c1 as [l1|g1], c2 as [l2|g2]; try easy; cbn [runCommand fst snd] in *.
    + destruct (add j1 s1 reg1 l1) as [q1| | | |] eqn:E1; try discriminate E. cbn [bind] in E.
      destruct (add_sim s1 s2 info reg1 reg2 l1 l2 q1 L1 L2 Sm E1) as (q2 & E2). rewrite E2. cbn [bind].
      destruct (add_info j1 I1 O1 s1 info reg1 l1 q1 A1 L1 R1 E1) as (L1' & O1' & A1').
      destruct (add_info j2 I2 O2 s2 info reg2 l2 q2 A2 L2 R2 E2) as (L2' & O2' & A2'). rewrite <- (lsim_output _ _ _ Sm) in L2'.
      eapply (IH _ _ _ _ _ _ _ _ _ H2 H6 A1' A2' L1' L2' R1 R2 E); eauto.
    + cbn [bind] in *. apply (IH _ _ _ _ _ _ _ _ _ H2 H6 A1 A2 L1 L2 H1 H5 E).
Qed.

(** the loaded network before the parameters are read *)
Lemma build_sim d1 d2 d3 reg1 reg2 cs1 cs2 s1 : Forall2 csim cs1 cs2 -> Forall no_max_norm cs1 -> Forall no_max_norm cs2 ->
  maxSquaredWeightNorm reg1 <= 0 -> maxSquaredWeightNorm reg2 <= 0 ->
  build j1 d1 d2 d3 (SetRegularization reg1 :: cs1) = Ok s1 ->
  exists s2, build j2 d1 d2 d3 (SetRegularization reg2 :: cs2) = Ok s2 /\ netOutputs s2 = netOutputs s1.
Proof.
  intros F M1 M2 R1 R2 E. unfold build in *. cbn [for_each runCommand bind fst snd] in *.
  destruct (for_each cs1 (fun c st => runCommand j1 st c) (inputLayer j1 (net_new (kclass j1)) d1 d2 d3, reg1)) as [[a r]| | | |] eqn:E1; try discriminate E.
  cbn [bind] in E.
  destruct (for_each_sim _ _ cs1 cs2 F _ _ _ _ [d1; d2; d3] reg1 reg2 a r M1 M2 (adding_input j1 d1 d2 d3) (adding_input j2 d1 d2 d3) eq_refl eq_refl R1 R2 E1)
    as (b & r2 & O2 & E2 & A2 & info & L1 & L2).
  rewrite E2. cbn [bind]. destruct (initialize_ok j2 _ _ b A2) as (vec & Eb & _). rewrite Eb. eexists. split; [reflexivity|].
  assert (A1 : exists O, adding j1 (d1 * d2 * d3) O a).
  { assert (E1' : for_each (SetRegularization reg1 :: cs1) (fun c st => runCommand j1 st c) (inputLayer j1 (net_new (kclass j1)) d1 d2 d3, mkReg 0 0 0) = Ok (a, r)) by exact E1.
    assert (MM : Forall no_max_norm (SetRegularization reg1 :: cs1)) by (constructor; auto).
    destruct (adding_commands j1 _ _ _ _ [d1; d2; d3] (mkReg 0 0 0) _ _ (adding_input j1 d1 d2 d3) eq_refl (Rle_refl 0) MM E1') as (A & _). exact A. }
  destruct A1 as (O1 & A1). destruct (initialize_ok j1 _ _ a A1) as (vec1 & Ea & _). rewrite Ea in E. injection E as <-.
  unfold netOutputs. cbn [Net_Model.infos]. unfold lastInfo in L1, L2. now rewrite (last_vget _ _ _ L1), (last_vget _ _ _ L2).
Qed.
End Simulation.

(** * Parameters *)
Section Params.
Variable junk : nat -> nat -> R.
Variable prt : R -> R.
Notation kc := (kclass junk).
Notation loadLoop := (loadLoop junk prt).

Lemma read_params p tr : forall pre v, length v = length p ->
  for_from (length pre) (length p) readParameter ((pre ++ v)%list, mkStream (map (dbl prt) p) tr false) =
  Ok ((pre ++ map prt p)%list, mkStream [] tr (match p with [] => false | _ => negb tr end)).
Proof.
  induction p as [|x p IH]; intros pre v Hv.
  - destruct v; [|discriminate]. reflexivity.
  - destruct v as [|y v]; [discriminate|]. cbn [length map for_from]. unfold readParameter at 1.
    assert (E : vset (pre ++ y :: v) (length pre) (prt x) = Ok ((pre ++ [prt x]) ++ v)%list).
    { rewrite vset_Ok by (rewrite app_length; simpl; lia). f_equal. clear. induction pre as [|z pre IH]; simpl; auto. now rewrite IH. }
    destruct p as [|x' p].
    + cbn [map readToken toks dbl]. rewrite E. cbn [bind length for_from]. destruct v; [|discriminate]. now rewrite app_nil_r.
    + cbn [map readToken toks dbl trailing eof]. rewrite E. cbn [bind].
      specialize (IH (pre ++ [prt x])%list v). rewrite app_length in IH. cbn [length] in IH. rewrite Nat.add_1_r in IH. cbn [map] in IH. cbn [length].
      rewrite IH by (simpl in Hv |- *; lia). now rewrite <- app_assoc.
Qed.

Definition withNet (st : netState junk) (s : net kc) : netState junk := mkState junk s (theReg junk st) (architecture junk st) (count junk st).

Lemma read_none n : forall i (v : list R), for_from i n readParameter (v, mkStream [] true true) = Ok (v, mkStream [] true true).
Proof. induction n as [|n IH]; intros i v; [reflexivity|]. cbn [for_from readParameter readToken toks trailing bind]. apply IH. Qed.
(** the vector is set twice if white space follows *)
Lemma load_params d f st p tr ty : (p = [] -> tr = true) -> initialized kc (theNet junk st) = true ->
  dimension kc (theNet junk st) = length p -> length (parameterVector kc (theNet junk st)) = length p ->
  (forall s s', setParameters kc s (map prt p) = Ok s' -> initialized kc s' = initialized kc s /\ dimension kc s' = dimension kc s /\ parameterVector kc s' = map prt p) ->
  forall s s', setParameters kc (theNet junk st) (map prt p) = Ok s -> setParameters kc s (map prt p) = Ok s' ->
  loadLoop d (S (S f)) st (mkStream (Word "parameters" :: map (dbl prt) p) tr false) ty =
    Ok (withNet st (if tr then s' else s)).
Proof.
  intros HT HI HD HV HS s s' E1 E2.
  assert (ER : readToken (mkStream (Word "parameters" :: map (dbl prt) p) tr false) = (Some (Word "parameters"), mkStream (map (dbl prt) p) tr false)).
  { destruct p; [rewrite HT by auto|]; reflexivity. }
  assert (EP : for_ (dimension kc (theNet junk st)) readParameter (parameterVector kc (theNet junk st), mkStream (map (dbl prt) p) tr false) = Ok (map prt p, mkStream [] tr (negb tr))).
  { pose proof (read_params p tr [] (parameterVector kc (theNet junk st)) HV) as RP. cbn [length app] in RP. rewrite HD. unfold for_. rewrite RP. destruct p; [rewrite HT by auto|]; reflexivity. }
  remember (S f) as f1 eqn:Ef. cbn [NetIO_Model.loadLoop]. change (eof (mkStream (Word "parameters" :: map (dbl prt) p) tr false)) with false. cbv iota. rewrite ER. cbv iota beta.
  unfold loadEntry at 1. cbn [String.eqb Ascii.eqb Bool.eqb]. rewrite HI, EP. cbn [bind]. rewrite E1. cbn [bind]. subst f1. destruct tr; [|reflexivity].
  cbn [NetIO_Model.loadLoop eof negb readToken toks trailing]. unfold loadEntry at 1. cbn [String.eqb Ascii.eqb Bool.eqb theNet].
  destruct (HS _ _ E1) as (S1 & S2 & S3). rewrite S1, S2, HI, HD, S3. unfold for_. rewrite read_none. cbn [bind]. rewrite E2. cbn [bind].
  destruct f; reflexivity.
Qed.

Lemma for_from_pres {A} (Q : A -> Prop) n : forall i body (a a' : A), (forall i a a', Q a -> body i a = Ok a' -> Q a') ->
  Q a -> for_from i n body a = Ok a' -> Q a'.
Proof.
  induction n as [|n IH]; intros i body a a' HB HQ E; cbn [for_from] in E.
  - now injection E as <-.
  - destruct (body i a) as [b| | | |] eqn:Eb; try discriminate E. cbn [bind] in E. eauto.
Qed.
Lemma for_each_pres {A B} (Q : A -> Prop) (l : list B) : forall body (a a' : A), (forall i a a', Q a -> body i a = Ok a' -> Q a') ->
  Q a -> for_each l body a = Ok a' -> Q a'.
Proof.
  induction l as [|n l IH]; intros body a a' HB HQ E; cbn [for_each] in E.
  - now injection E as <-.
  - destruct (body n a) as [b| | | |] eqn:Eb; try discriminate E. cbn [bind] in E. eauto.
Qed.

Lemma add_dropout s reg l s' : add junk s reg l = Ok s' -> dropout kc s' = dropout kc s.
Proof.
  unfold add. intros E. destruct (lastInfo junk s) as [info| | | |]; try discriminate E. cbn [bind] in E.
  destruct l; try (injection E as <-; reflexivity);
    [| | |destruct (RBM_Model.rbm_new _ _ _ _ _ _ _); try discriminate E; injection E as <-; reflexivity
     |destruct (SAE_Model.sae_new _ _ _ _ _ _ _ _); try discriminate E; injection E as <-; reflexivity];
    (destruct (vget info 0); try discriminate E; cbn [bind] in E; destruct (vget info 1); try discriminate E; cbn [bind] in E;
     destruct (vget info 2); try discriminate E; cbn [bind] in E).
  - destruct (conv_new _ _ _ _ _ _ _ _ _ _); try discriminate E. injection E as <-. reflexivity.
  - destruct (subs_new _ _ _ _ _ _ _ _ _); try discriminate E. injection E as <-. reflexivity.
  - destruct (maxp_new _ _ _ _ _ _); try discriminate E. injection E as <-. reflexivity.
Qed.
Lemma build_new d1 d2 d3 cs s : build junk d1 d2 d3 cs = Ok s -> dropout kc s = false /\ initialized kc s = true.
Proof.
  unfold build. intros E.
  destruct (for_each cs _ _) as [[a r]| | | |] eqn:E1; try discriminate E. cbn [bind] in E.
  assert (D : dropout kc a = false).
  { apply (for_each_pres (fun st : net kc * Regularization => dropout kc (fst st) = false) cs _ _ _) in E1; auto.
    intros c [x y] [x' y'] H H1. destruct c as [l|g]; cbn [runCommand fst snd] in *.
    - destruct (add junk x y l) as [q| | | |] eqn:Ea; try discriminate H1. injection H1 as <- <-. rewrite (add_dropout _ _ _ _ Ea). exact H.
    - injection H1 as <- _. exact H. }
  unfold initializeNetwork in E. destruct (vget (infos kc a) 0); try discriminate E. cbn [bind] in E.
  destruct (vget (infos kc a) (length (infos kc a) - 1)); try discriminate E. cbn [bind] in E.
  destruct (for_ _ _ _); try discriminate E. cbn [bind] in E. injection E as <-. split; [exact D|reflexivity].
Qed.
End Params.

Lemma set_facts j (s s' : net (kclass j)) p : setParameters (kclass j) s p = Ok s' ->
  initialized (kclass j) s' = initialized (kclass j) s /\ dimension (kclass j) s' = dimension (kclass j) s /\ parameterVector (kclass j) s' = p /\
  errorFunction (kclass j) s' = errorFunction (kclass j) s /\ dropout (kclass j) s' = dropout (kclass j) s.
Proof.
  unfold setParameters. intros E. destruct (for_ _ _ _) as [l1| | | |]; try discriminate E. cbn [bind] in E.
  destruct (updateLayers _ _) as [l2| | | |]; try discriminate E. cbn [bind] in E. injection E as <-. cbn. auto.
Qed.

Lemma load_run junk prt d cs p st s s' fuel : runCalls junk prt d (map (reread prt) cs) (state_new junk) = Ok st ->
  initialized _ (theNet junk st) = true -> dimension _ (theNet junk st) = length p -> length (parameterVector _ (theNet junk st)) = length p ->
  setParameters _ (theNet junk st) (map prt p) = Ok s -> setParameters _ s (map prt p) = Ok s' -> (length cs + 2 <= fuel)%nat ->
  load junk prt d fuel (state_new junk) (mkStream (tokensOf prt cs ++ Word "parameters" :: map (dbl prt) p) (match p with [] => true | _ => false end) false) =
    Ok (withNet junk st (if match p with [] => true | _ => false end then s' else s)).
Proof.
  intros H1 H2 H3 H4 H5 H6 H7. replace fuel with (length cs + S (S (fuel - length cs - 2)))%nat by lia. unfold load.
  destruct (load_calls junk prt d cs (S (S (fuel - length cs - 2))) (state_new junk) (Word "parameters" :: map (dbl prt) p)
      (match p with [] => true | _ => false end) (Word "")) as (ty & EL); [discriminate|].
  unfold tokensOf. rewrite EL, H1. cbn [bind]. apply load_params; auto; [now intros ->|].
  intros a b E. destruct (set_facts _ a b _ E) as (F1 & F2 & F3 & _). auto.
Qed.

Lemma wired_unique {K} (c : K -> LayerClass) (i o : K -> nat) ls : forall I O O', wired c i o I ls O -> wired c i o I ls O' -> O = O'.
Proof. induction ls as [|l ls IH]; cbn [wired]; intros I O O' H H'; [congruence|]. destruct H, H'. eauto. Qed.

(** * Saving and loading *)
Section Main.
Notation lastEF cs e := (fold_left efAfter cs e).
Notation lastReg cs e := (fold_left regAfter cs e).
Variables j1 j2 : nat -> nat -> R.
Variable prt : R -> R.
Hypothesis HP : printing prt.
Variables (pre : list netCall) (d1 d2 d3 : nat) (mid : list netCall) (out : netCall).
Hypotheses (Hpre : Forall isSetting pre) (Hmid : Forall inner mid) (Hout : isOutput out).
Notation all := (pre ++ InputLayer d1 d2 d3 :: mid ++ [out])%list.
Hypothesis HN : Forall noMaxNorm all.
Notation r0 := (mkReg 0 0 0).
Notation k1 := (kclass j1).
Notation k2 := (kclass j2).
Notation "'re' l" := (map (reread prt) l) (at level 9).

Let NP : Forall noMaxNorm pre.
Proof. apply Forall_app in HN. apply HN. Qed.
Let NM : Forall noMaxNorm (mid ++ [out]).
Proof. apply Forall_app in HN. destruct HN as (_ & H). inversion H; auto. Qed.

Lemma used_reach d st : used j1 prt d all st -> exists more r s,
  Forall isSetting more /\ commandsOf j1 d (S (length pre)) [d1; d2; d3] (mid ++ [out]) = Ok r /\
  build j1 d1 d2 d3 (SetRegularization (lastReg pre r0) :: r) = Ok s /\ (0 < netOutputs s)%nat /\
  reachable j1 d1 d2 d3 (SetRegularization (lastReg pre r0) :: r) (theNet j1 st) /\
  errorFunction k1 (theNet j1 st) = lastEF (all ++ more) MSE /\ architecture j1 st = tokensOf prt (all ++ more).
Proof.
  induction 1 as [st E HO|st s U (more & r & s0 & I1 & I2 & I3 & I4 & I5 & I6 & I7) C EF|st c st' U (more & r & s0 & I1 & I2 & I3 & I4 & I5 & I6 & I7) HC E].
  - destruct (complete_fwd j1 prt pre d1 d2 d3 mid out Hpre Hmid Hout HN d st E) as (r & s & C1 & C2 & C3 & C4 & C5 & _).
    exists [], r, s. rewrite C3 in *. change (netOutputs (setErrorFunction k1 s (lastEF all MSE))) with (netOutputs s) in HO.
    rewrite app_nil_r. repeat (split; auto). eapply reach_call; [apply reach_build; eauto|constructor].
  - exists more, r, s0. cbn [theNet architecture]. repeat (split; auto); [|congruence]. eapply reach_call; eauto.
  - rewrite run_setting in E by auto. assert (Es : st' = mkState j1 (setErrorFunction k1 (theNet j1 st) (efAfter (errorFunction k1 (theNet j1 st)) c)) (regAfter (theReg j1 st) c)
    (architecture j1 st ++ callTokens prt c) (S (count j1 st))) by congruence. subst st'.
    exists (more ++ [c])%list, r, s0. cbn [theNet architecture setErrorFunction Net_Model.errorFunction]. repeat (split; auto).
    + apply Forall_app. auto.
    + eapply reach_call; [exact I5|constructor].
    + rewrite app_assoc, (fold_left_app _ _ [c]). cbn [fold_left]. now rewrite I6.
    + rewrite I7. unfold tokensOf. rewrite app_assoc, (flat_map_app _ (all ++ more)). cbn [flat_map]. now rewrite app_nil_r.
Qed.

Lemma re_setting c : isSetting c -> isSetting (reread prt c).
Proof. destruct c; auto. Qed.
Lemma re_settings cs : Forall isSetting cs -> Forall isSetting re cs.
Proof. intros H. apply Forall_map. eapply Forall_impl; [|exact H]. intros; now apply re_setting. Qed.
Lemma re_norm c : noMaxNorm c -> noMaxNorm (reread prt c).
Proof. destruct c; auto. apply (prt_nonpos prt HP). Qed.
Lemma re_ef c e : efAfter e (reread prt c) = efAfter e c.
Proof. destruct c; reflexivity. Qed.
Lemma re_lastEF cs : forall e, lastEF re cs e = lastEF cs e.
Proof. induction cs as [|c cs IH]; intros e; cbn [map fold_left]; auto. now rewrite re_ef. Qed.
Lemma re_tokens c : callTokens prt (reread prt c) = callTokens prt c.
Proof. destruct c; cbn [reread callTokens]; unfold dbl; rewrite ?(prt_prt prt HP); reflexivity. Qed.
Lemma re_tokensOf cs : tokensOf prt re cs = tokensOf prt cs.
Proof. induction cs as [|c cs IH]; auto. unfold tokensOf in *. cbn [map flat_map]. now rewrite re_tokens, IH. Qed.
Lemma re_lastReg cs : Forall exactArguments cs -> forall g, lastReg re cs g = lastReg cs g.
Proof.
  induction 1 as [|c cs X F IH]; intros g; cbn [map fold_left]; auto. rewrite IH. f_equal.
  destruct c; auto. cbn [exactArguments] in X. destruct X as (X1 & X2 & X3). cbn [reread regAfter]. now rewrite !(pr_exact prt HP) by auto.
Qed.


Lemma usable_outputs j cs s1 s2 : usable j d1 d2 d3 cs s1 -> usable j d1 d2 d3 cs s2 -> netOutputs s1 = netOutputs s2.
Proof.
  intros U1 U2. apply (wired_unique (kclass j) nI nO (layers _ s1) (d1 * d2 * d3)).
  - rewrite <- (u_inputs _ _ _ _ _ _ U1). apply (u_good _ _ _ _ _ _ U1).
  - apply (map_kind_wired (kclass j) nI nO _ (layers _ s2)).
    + now rewrite (u_kinds _ _ _ _ _ _ U1), (u_kinds _ _ _ _ _ _ U2).
    + rewrite <- (u_inputs _ _ _ _ _ _ U2). apply (u_good _ _ _ _ _ _ U2).
Qed.

(** what [load] makes of a file that [save] has written *)
Record loaded (st : netState j1) (st' : netState j2) : Prop := mkLoaded {
  ld_reach : exists r, Forall no_max_norm r /\ reachable j2 d1 d2 d3 r (theNet j2 st');
  ld_dim : dimension k2 (theNet j2 st') = dimension k1 (theNet j1 st);
  ld_inputs : netInputs (theNet j2 st') = netInputs (theNet j1 st);
  ld_outputs : netOutputs (theNet j2 st') = netOutputs (theNet j1 st);
  ld_vector : currentParameters k2 (theNet j2 st') = map prt (currentParameters k1 (theNet j1 st));
  ld_ef : errorFunction k2 (theNet j2 st') = errorFunction k1 (theNet j1 st);
  ld_dropout : dropout k2 (theNet j2 st') = false;
  ld_arch : architecture j2 st' = architecture j1 st;
  ld_same : Forall restorable all -> Forall exactArguments all ->
    exists s, setParameters k1 (useDropout k1 (theNet j1 st) false) (map prt (currentParameters k1 (theNet j1 st))) = Ok s /\
      sameOutputs s (theNet j2 st') /\ sameErrors s (theNet j2 st');
  ld_exact : Forall restorable all -> Forall exactArguments all -> dropout k1 (theNet j1 st) = false ->
    map prt (currentParameters k1 (theNet j1 st)) = currentParameters k1 (theNet j1 st) ->
    sameOutputs (theNet j1 st) (theNet j2 st') /\ sameErrors (theNet j1 st) (theNet j2 st') }.

Lemma load_saved_white d d' st tr : used j1 prt d all st -> (currentParameters k1 (theNet j1 st) = [] -> tr = true) ->
  exists st' n, (forall fuel, (n <= fuel)%nat -> load j2 prt d' fuel (state_new j2) (mkStream (toks (save j1 prt st)) tr false) = Ok st') /\ loaded st st'.
Proof.
  intros HU HT. destruct (used_reach d st HU) as (more & r & s & I1 & I2 & I3 & I4 & I5 & I6 & I7).
  destruct (commandsOf_sim j1 j2 prt HP d d' _ _ _ _ I2 NM) as (r' & C1 & C2 & C3 & C4 & C5).
  set (g := lastReg pre r0) in *. set (g' := lastReg re pre r0).
  assert (G : maxSquaredWeightNorm g <= 0) by (apply settings_reg; auto; cbn; lra).
  assert (G' : maxSquaredWeightNorm g' <= 0).
  { apply settings_reg; [now apply re_settings| |cbn; lra]. apply Forall_map. eapply Forall_impl; [|exact NP]. intros; now apply re_norm. }
  destruct (build_sim j1 j2 d1 d2 d3 g g' r r' s C2 C3 C4 G G' I3) as (s' & B1 & B2).
  assert (M1 : Forall no_max_norm (SetRegularization g :: r)) by (constructor; auto).
  assert (M2 : Forall no_max_norm (SetRegularization g' :: r')) by (constructor; auto).
  assert (Hmid' : Forall inner re mid).
  { apply Forall_map. eapply Forall_impl; [|exact Hmid]. intros c. destruct c; auto. }
  assert (Hout' : isOutput (reread prt out)) by (destruct out; auto).
  assert (HN' : Forall noMaxNorm re all).
  { apply Forall_map. eapply Forall_impl; [|exact HN]. intros; now apply re_norm. }
  assert (Eall : re all = (re pre ++ InputLayer d1 d2 d3 :: re mid ++ [reread prt out])%list).
  { rewrite map_app. cbn [map reread]. now rewrite map_app. }
  rewrite Eall in HN'. rewrite map_app in C1. cbn [map] in C1.
  destruct (complete_bwd j2 prt re pre d1 d2 d3 re mid (reread prt out) (re_settings _ Hpre) Hmid' Hout' HN' d' r' s') as (sa & Ra).
  { now rewrite map_length. } { exact B1. }
  destruct (complete_fwd j2 prt re pre d1 d2 d3 re mid (reread prt out) (re_settings _ Hpre) Hmid' Hout' HN' d' sa Ra)
    as (r'' & s'' & D1 & D2 & D3 & D4 & D5 & D6).
  rewrite map_length in D1. rewrite C1 in D1. injection D1 as <-. fold g' in D2. rewrite B1 in D2. injection D2 as <-.
  rewrite <- Eall in *.
  pose proof (run_settings j2 prt d' re more sa (re_settings _ I1)) as Rb.
  match type of Rb with _ = Ok ?x => set (sb := x) in * end.
  assert (Rall : runCalls j2 prt d' re (all ++ more) (state_new j2) = Ok sb).
  { rewrite map_app, runCalls_app, Ra. cbn [bind]. exact Rb. }
  assert (EN : theNet j2 sb = setErrorFunction k2 s' (lastEF (all ++ more) MSE)).
  { cbn [sb theNet]. rewrite D3. cbn [setErrorFunction Net_Model.errorFunction]. rewrite !re_lastEF. now rewrite (fold_left_app _ all more). }
  assert (EA : architecture j2 sb = architecture j1 st).
  { cbn [sb architecture]. rewrite D5, I7, !re_tokensOf. unfold tokensOf. now rewrite (flat_map_app _ all more). }
  assert (HR : reachable j2 d1 d2 d3 (SetRegularization g' :: r') (theNet j2 sb)).
  { rewrite EN. eapply reach_call; [apply reach_build; [exact B1|lia]|constructor]. }
  destruct (build_new j2 _ _ _ _ _ B1) as (BD & BI).
  pose proof (reachable_usable j2 d1 d2 d3 _ _ M2 HR) as U2.
  pose proof (reachable_usable j1 d1 d2 d3 _ _ M1 I5) as U1.
  set (p := currentParameters k1 (theNet j1 st)).
  assert (Lp : length p = P k1 (theNet j1 st)) by apply (u_vector _ _ _ _ _ _ U1).
  assert (DD : P k2 (theNet j2 sb) = P k1 (theNet j1 st)).
  { rewrite (usable_dimension _ _ _ _ _ _ U1), (usable_dimension _ _ _ _ _ _ U2). symmetry. apply (csim_params _ _). constructor; cbn; auto. }
  assert (SET : forall x cs, usable j2 d1 d2 d3 cs x -> P k2 x = P k1 (theNet j1 st) -> exists x', setParameters k2 x (map prt p) = Ok x' /\ usable j2 d1 d2 d3 cs x' /\ P k2 x' = P k2 x).
  { intros x cs U Hx. destruct (set_ok k2 nI nO nK (nInv j2) (nsmooth j2) (nfn j2) (nrg j2) (nok j2) isIn _ _ x (map prt p) (u_good _ _ _ _ _ _ U)) as (ls & E & _).
    { rewrite map_length. congruence. } exists (with_layers k2 (with_vector k2 x (map prt p)) ls). split; [exact E|]. split; [|reflexivity].
    eapply usable_set; [exact U| |exact E]. rewrite map_length. congruence. }
  destruct (SET _ _ U2 DD) as (x1 & X1 & UX1 & PX1). destruct (SET _ _ UX1) as (x2 & X2 & UX2 & PX2); [congruence|].
  assert (PRM : forall f ty, loadLoop j2 prt d' (S (S f)) sb (mkStream (Word "parameters" :: map (dbl prt) p) tr false) ty =
    Ok (withNet j2 sb (if tr then x2 else x1))).
  { intros f ty. apply load_params; auto.
    - rewrite EN. exact BI.
    - unfold dimension. congruence.
    - rewrite (u_vector _ _ _ _ _ _ U2). congruence.
    - intros a b E. destruct (set_facts _ a b _ E) as (H1 & H2 & H3 & _). auto. }
  exists (withNet j2 sb (if tr then x2 else x1)), (length (all ++ more) + 2)%nat. split.
  { intros fuel Hf. replace fuel with (length (all ++ more) + S (S (fuel - length (all ++ more) - 2)))%nat by lia.
    unfold load, save. cbn [toks]. rewrite I7.
    destruct (load_calls j2 prt d' (all ++ more) (S (S (fuel - length (all ++ more) - 2))) (state_new j2) (Word "parameters" :: map (dbl prt) p)
      tr (Word "")) as (ty & EL); [discriminate|].
    fold p. unfold tokensOf. rewrite EL, Rall. cbn [bind]. apply PRM. }
  assert (Z : exists x, setParameters k2 x (map prt p) = Ok (if tr then x2 else x1) /\ usable j2 d1 d2 d3 (SetRegularization g' :: r') x /\
     P k2 x = P k1 (theNet j1 st) /\ errorFunction k2 x = errorFunction k1 (theNet j1 st) /\ dropout k2 x = false /\
     reachable j2 d1 d2 d3 (SetRegularization g' :: r') x).
  { assert (F0 : errorFunction k2 (theNet j2 sb) = errorFunction k1 (theNet j1 st)) by (rewrite EN, I6; reflexivity).
    assert (F1 : dropout k2 (theNet j2 sb) = false) by (rewrite EN; exact BD).
    destruct tr; [|exists (theNet j2 sb); repeat (split; auto)].
    exists x1. destruct (set_facts _ _ _ _ X1) as (_ & _ & _ & H4 & H5). repeat (split; auto); try congruence.
    eapply reach_call; [exact HR|]. eapply call_setParameters; [|exact X1]. unfold dimension. rewrite map_length. congruence. }
  set (x' := if tr then x2 else x1) in *. destruct Z as (x & Z1 & Z2 & Z3 & Z4 & Z5 & Z6).
  assert (Lp' : length (map prt p) = P k2 x) by (rewrite map_length; congruence).
  destruct (set_facts _ _ _ _ Z1) as (Q1 & Q2 & Q3 & Q4 & Q5). unfold dimension in Q2.
  pose proof (usable_set j2 d1 d2 d3 _ _ _ _ Z2 Lp' Z1) as U'.
  destruct (set_ok k2 nI nO nK (nInv j2) (nsmooth j2) (nfn j2) (nrg j2) (nok j2) isIn _ _ x (map prt p) (u_good _ _ _ _ _ _ Z2) Lp')
    as (ls & S1 & S2 & S3 & S4 & S5 & S6). rewrite Z1 in S1.
  assert (Elay : layers k2 x' = ls) by (injection S1 as ->; reflexivity).
  assert (EI : netInputs x' = netInputs (theNet j1 st)) by (now rewrite (u_inputs _ _ _ _ _ _ U'), (u_inputs _ _ _ _ _ _ U1)).
  assert (EO : netOutputs x' = netOutputs (theNet j1 st)).
  { rewrite (usable_outputs _ _ _ _ U' (build_usable j2 d1 d2 d3 _ _ M2 B1 (eq_ind_r (fun n => (0 < n)%nat) I4 B2))), B2.
    apply (usable_outputs _ _ _ _ (build_usable j1 d1 d2 d3 _ _ M1 I3 I4) U1). }
  assert (KK : Forall restorable all -> Forall exactArguments all -> forall l1, installAll k1 nK (layers k1 (theNet j1 st)) (map prt p) = Ok l1 ->
    same_layers k1 nO nK (nfn j1) (nrg j1) (map (cast j1 j1) l1) (map (cast j2 j1) ls)).
  { intros RS XA l1 T2.
      apply (installAll_same k1 nI nO nK (nInv j1) (nsmooth j1) (nfn j1) (nrg j1) (nok j1)
        (map (cast j1 j1) (layers k1 (theNet j1 st))) (map (cast j2 j1) (layers k2 x)) (map prt p)); auto.
      - apply cast_invs. apply (u_good _ _ _ _ _ _ U1).
      - apply cast_invs. apply (u_good _ _ _ _ _ _ Z2).
      - rewrite !cast_kinds, (u_kinds _ _ _ _ _ _ U1), (u_kinds _ _ _ _ _ _ Z2). cbn [map]. f_equal. cbn [kindsOf].
        apply Forall_app in RS. destruct RS as (_ & RS). inversion RS; subst. apply Forall_app in XA. destruct XA as (XA1 & XA). inversion XA; subst.
        unfold g'. rewrite re_lastReg by auto. fold g. auto.
      - rewrite map_length, cast_count, <- (g_P _ _ _ _ _ _ _ _ _ (u_good _ _ _ _ _ _ U1)). exact Lp.
      - apply cast_installAll. exact T2.
      - apply cast_installAll. exact S2. }
  constructor; cbn [withNet theNet architecture]; auto; try congruence.
  - exists (SetRegularization g' :: r'). split; auto. eapply reach_call; [exact Z6|]. eapply call_setParameters; [|exact Z1]. exact Lp'.
  - unfold dimension. congruence.
  - intros RS XA. fold p.
    assert (U1d : usable j1 d1 d2 d3 (SetRegularization g :: r) (useDropout k1 (theNet j1 st) false)) by (eapply usable_calls; [exact U1|constructor]).
    destruct (set_ok k1 nI nO nK (nInv j1) (nsmooth j1) (nfn j1) (nrg j1) (nok j1) isIn _ _ _ (map prt p) (u_good _ _ _ _ _ _ U1d))
      as (l1 & T1 & T2 & T3 & T4 & T5 & T6). { rewrite map_length. exact Lp. }
    eexists. split; [exact T1|].
    apply (cross_outputs j1 j2 (netInputs (theNet j1 st)) (netOutputs (theNet j1 st))); auto.
    + rewrite <- EI, <- EO. apply (u_good _ _ _ _ _ _ U').
    + cbn [Net_Model.layers with_layers]. rewrite Elay.
      apply KK; auto.
    + cbn [Net_Model.errorFunction with_layers with_vector useDropout]. congruence.
    + congruence.
    + apply (u_pos _ _ _ _ _ _ U1).
  - fold p. intros RS XA HD Hp.
    destruct (set_current j1 d1 d2 d3 _ _ U1 (reachable_settled j1 d1 d2 d3 _ _ M1 I5)) as (q & V1 & V2 & V3 & _). fold p in V1.
    destruct (set_ok k1 nI nO nK (nInv j1) (nsmooth j1) (nfn j1) (nrg j1) (nok j1) isIn _ _ _ p (u_good _ _ _ _ _ _ U1) Lp)
      as (l1 & T1 & T2 & T3 & T4 & T5 & T6).
    rewrite V1 in T1. assert (EQ : layers k1 q = l1) by (injection T1 as ->; reflexivity).
    apply (cross_outputs j1 j2 (netInputs (theNet j1 st)) (netOutputs (theNet j1 st))); auto.
    + apply (u_good _ _ _ _ _ _ U1).
    + rewrite <- EI, <- EO. apply (u_good _ _ _ _ _ _ U').
    + rewrite Elay. eapply same_layers_trans; [apply cast_same; apply same_layers_sym; exact V2|]. rewrite EQ. apply KK; auto. now rewrite Hp.
    + congruence.
    + congruence.
    + apply (u_pos _ _ _ _ _ _ U1).
Qed.
Lemma load_saved d d' st : used j1 prt d all st ->
  exists st' n, (forall fuel, (n <= fuel)%nat -> load j2 prt d' fuel (state_new j2) (save j1 prt st) = Ok st') /\ loaded st st'.
Proof. intros HU. apply (load_saved_white d d' st (match currentParameters k1 (theNet j1 st) with [] => true | _ => false end) HU). now intros ->. Qed.
End Main.
