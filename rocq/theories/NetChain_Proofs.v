(** Forward and backward passes through all layers: the chain rule. *)
From Verif Require Import Base BaseFacts Matrix RSum MatOps Vec Deriv Layer_Model Layer_Spec Layer_Proofs
  Layer_Layout LayerFun_Spec Net_Model.
Local Open Scope R_scope.

Section Net.
Context {kind : Type} (kclass : kind -> LayerClass).
Context (kI kO kK : kind -> nat) (kInv : forall k, St (kclass k) -> Prop)
  (ksmooth : forall k, St (kclass k) -> mat -> Prop)
  (kfn : forall k, St (kclass k) -> bool -> nat -> (nat -> R) -> nat -> R) (krg : forall k, St (kclass k) -> R).
Context (ok : forall k, layer_ok (kclass k) (kI k) (kO k) (kK k) (kInv k) (ksmooth k) (kfn k) (krg k)).

Notation layer := (layer kclass).
Notation mkLayer := (mkLayer kclass).

(** the outputs of each layer are the inputs of the next one *)
Fixpoint wired (I : nat) (ls : list layer) (O : nat) : Prop :=
  match ls with
  | [] => I = O
  | l :: ls => kI (lkind kclass l) = I /\ wired (kO (lkind kclass l)) ls O
  end.
Definition invs (ls : list layer) : Prop := Forall (fun l => kInv _ (lobj kclass l)) ls.
Fixpoint count (ls : list layer) : nat :=
  match ls with [] => 0 | l :: ls => kK (lkind kclass l) + count ls end%nat.

Fixpoint installAll (ls : list layer) (p : list R) : res (list layer) :=
  match ls with
  | [] => Ok []
  | l :: ls =>
      let K := kK (lkind kclass l) in
      o <- install (kclass (lkind kclass l)) (lobj kclass l) (firstn K p) ;;
      ls <- installAll ls (skipn K p) ;; Ok (mkLayer (lkind kclass l) o :: ls)
  end.

(** parameter and derivative number [k] *)
Fixpoint readP (ls : list layer) (k : nat) : res R :=
  match ls with
  | [] => UB
  | l :: ls => if Nat.ltb k (kK (lkind kclass l)) then readParam (kclass (lkind kclass l)) (lobj kclass l) k
               else readP ls (k - kK (lkind kclass l))
  end.
Fixpoint readD (ls : list layer) (k : nat) : res R :=
  match ls with
  | [] => UB
  | l :: ls => if Nat.ltb k (kK (lkind kclass l)) then readDeriv (kclass (lkind kclass l)) (lobj kclass l) k
               else readD ls (k - kK (lkind kclass l))
  end.

(** the layers are differentiable at the inputs that they get in the forward pass *)
Fixpoint smooth_run (ls : list layer) (X : mat) (dropout : bool) : Prop :=
  match ls with
  | [] => True
  | l :: ls => ksmooth _ (lobj kclass l) X /\
      forall o Y r, forwardPropagate (kclass (lkind kclass l)) (lobj kclass l) X dropout = Ok (o, Y, r) ->
        smooth_run ls Y dropout
  end.

(** the same kinds of layers with the same functions *)
Inductive same_layer : layer -> layer -> Prop :=
| same_intro k q s : same_fun (kclass k) (kO k) (kK k) (kfn k) (krg k) q s ->
    same_layer (mkLayer k q) (mkLayer k s).
Definition same_layers : list layer -> list layer -> Prop := Forall2 same_layer.

Lemma same_layer_refl l : same_layer l l.
Proof. destruct l. constructor. split; auto. Qed.
Lemma same_layers_refl ls : same_layers ls ls.
Proof. induction ls; constructor; auto. apply same_layer_refl. Qed.
Lemma same_layer_sym a b : same_layer a b -> same_layer b a.
Proof. intros [k q s (H1 & H2 & H3)]. constructor. split; [|split]; intros; symmetry; auto. Qed.
Lemma same_fun_trans c O K fn rg a b d : same_fun c O K fn rg a b -> same_fun c O K fn rg b d -> same_fun c O K fn rg a d.
Proof. intros (A1 & A2 & A3) (B1 & B2 & B3). split; [|split]; intros; [rewrite A1 by auto|rewrite A2 by auto|rewrite A3]; auto. Qed.
Lemma same_layer_trans a b c : same_layer a b -> same_layer b c -> same_layer a c.
Proof.
  intros H1 H2. destruct a as [ka a], b as [kb b], c as [kc c].
  assert (ka = kb) by (inversion H1; auto). assert (kb = kc) by (inversion H2; auto). subst.
  assert (G : forall k (u v : St (kclass k)), same_layer (mkLayer k u) (mkLayer k v) ->
    (forall i, (i < kK k)%nat -> readParam (kclass k) u i = readParam (kclass k) v i) /\
    (forall n x j, (j < kO k)%nat -> kfn k u false n x j = kfn k v false n x j) /\ krg k u = krg k v).
  { clear. intros k u v H.
    change ((fun a b => (forall i, (i < kK (lkind _ a))%nat -> readParam _ (lobj _ a) i = readParam _ (lobj _ b) i) /\
       (forall n x j, (j < kO (lkind _ a))%nat -> kfn _ (lobj _ a) false n x j = kfn _ (lobj _ b) false n x j) /\ krg _ (lobj _ a) = krg _ (lobj _ b))
       (mkLayer k u) (mkLayer k v)). destruct H. exact H. }
  constructor. apply G in H1, H2. eapply same_fun_trans; [exact H1|exact H2].
Qed.
Lemma same_layers_trans a b c : same_layers a b -> same_layers b c -> same_layers a c.
Proof.
  intros H. revert c. induction H; intros c H2; inversion H2; subst; constructor; auto.
  eapply same_layer_trans; eauto. now apply IHForall2.
Qed.
Lemma same_layers_sym a b : same_layers a b -> same_layers b a.
Proof. induction 1; constructor; auto. now apply same_layer_sym. Qed.

Lemma same_layer_kind a b : same_layer a b -> lkind kclass a = lkind kclass b.
Proof. now intros []. Qed.
Lemma same_wired a b I O : same_layers a b -> wired I b O -> wired I a O.
Proof.
  intros H. revert I. induction H; intros I W; auto. destruct W as (W1 & W2). simpl.
  rewrite (same_layer_kind _ _ H). auto.
Qed.
Lemma same_count a b : same_layers a b -> count a = count b.
Proof. induction 1; simpl; auto. now rewrite (same_layer_kind _ _ H), IHForall2. Qed.
Lemma same_readP a b k : same_layers a b -> (k < count b)%nat -> readP a k = readP b k.
Proof.
  intros H. revert k. induction H; intros k Hk; auto. simpl in *.
  destruct H as [kd q s (H1 & _)]. cbn [lkind lobj] in *. destruct (Nat.ltb_spec k (kK kd)); auto.
  apply IHForall2. lia.
Qed.
Lemma same_app a a' b b' : same_layers a a' -> same_layers b b' -> same_layers (a ++ b) (a' ++ b').
Proof. apply Forall2_app. Qed.

(** the error terms and the functions of all layers *)
Fixpoint rgs (ls : list layer) : R :=
  match ls with [] => 0 | l :: ls => krg _ (lobj kclass l) + rgs ls end.
Fixpoint fns (ls : list layer) (dropout : bool) (n : nat) (x : nat -> R) : nat -> R :=
  match ls with [] => x | l :: ls => fns ls dropout n (kfn _ (lobj kclass l) dropout n x) end.

Lemma fns_ext ls : forall I O x x', wired I ls O -> invs ls -> (forall i, (i < I)%nat -> x i = x' i) ->
  forall dropout n j, (j < O)%nat -> fns ls dropout n x j = fns ls dropout n x' j.
Proof.
  induction ls as [|l ls IH]; intros I O x x' W V H d n j Hj.
  - simpl in *. subst. auto.
  - destruct W as (W1 & W2). inversion V as [|? ? V1 V2]; subst. simpl. apply (IH _ _ _ _ W2); auto.
    intros i Hi. apply (lo_ext _ _ _ _ _ _ _ _ (ok (lkind kclass l))); auto.
Qed.
Lemma same_fns a b : same_layers a b -> forall I O x, wired I b O -> invs b ->
  forall n j, (j < O)%nat -> fns a false n x j = fns b false n x j.
Proof.
  induction 1; intros I O z W V n j Hj; auto. destruct W as (W1 & W2). inversion V as [|? ? V1 V2]; subst. simpl.
  rewrite (IHForall2 (kO (lkind kclass y)) O) by auto.
  apply (fns_ext l' _ O _ _ W2 V2); auto.
  destruct H as [k q s (H1 & H2 & H3)]. intros i Hi. auto.
Qed.
Lemma fns_rows ls : forall I O x, wired I ls O -> invs ls ->
  forall n j, (j < O)%nat -> fns ls false n x j = fns ls false 0 x j.
Proof.
  induction ls as [|l ls IH]; intros I O x W V n j Hj; auto.
  destruct W as (W1 & W2). inversion V as [|? ? V1 V2]; subst. simpl. rewrite (IH _ _ _ W2) by auto.
  apply (fns_ext ls _ O _ _ W2 V2); auto. intros i Hi. now apply (lo_rows _ _ _ _ _ _ _ _ (ok (lkind kclass l))).
Qed.
Lemma same_rgs a b : same_layers a b -> rgs a = rgs b.
Proof.
  induction 1; simpl; auto. rewrite IHForall2. destruct H as [k q s (H1 & H2 & H3)]. cbn [lkind lobj]. now rewrite H3.
Qed.

(** * Forward *)
Lemma forward_all ls : forall I O X dropout, wired I ls O -> invs ls -> cols X = I ->
  exists qs Y, forwardLayers kclass ls X dropout = Ok (qs, Y, rgs ls) /\ invs qs /\ same_layers qs ls /\
    rows Y = rows X /\ cols Y = O /\
    forall n j, (n < rows X)%nat -> (j < O)%nat -> at_ Y n j = fns ls dropout n (at_ X n) j.
Proof.
  induction ls as [|l ls IH]; intros I O X dropout W V HX.
  - simpl in *. exists [], X. subst. split; auto. split; auto. split; [constructor|]. auto.
  - destruct W as (W1 & W2). inversion V as [|? ? V1 V2]; subst.
    destruct (lo_forward _ _ _ _ _ _ _ _ (ok (lkind kclass l)) (lobj kclass l) X dropout V1) as (q & Y & E & I1 & S1 & R1 & C1 & F1); auto.
    destruct (IH _ O Y dropout W2 V2 C1) as (qs & Z & E2 & I2 & S2 & R2 & C2 & F2).
    exists (mkLayer _ q :: qs), Z. cbn [forwardLayers]. rewrite E. cbn [bind]. rewrite E2. cbn [bind].
    split; auto. split; [constructor; auto|]. split.
    { constructor; auto. destruct l. now constructor. }
    split; [congruence|]. split; auto.
    intros n j Hn Hj. rewrite F2 by (auto; congruence).
    apply (fns_ext ls _ O _ _ W2 V2); auto.
Qed.


(** * Assignment of parameters *)
Lemma install_Ok k s p : kInv k s -> length p = kK k ->
  exists w q, writeAll (kclass k) s p = Ok w /\ kInv k w /\ updatedParameters (kclass k) w = Ok q /\ kInv k q /\
    forall i, (i < kK k)%nat -> readParam (kclass k) q i = Ok p.[i].
Proof.
  intros H Hp. pose proof (lo_contract _ _ _ _ _ _ _ _ (ok k)) as C.
  destruct (writeAll_Ok (kclass k) (kK k) (kInv k) s p (ct_write _ _ _ _ _ _ C) H Hp) as (w & E & I1 & R1).
  destruct (ct_updated _ _ _ _ _ _ C w I1) as (q & E2 & I2 & R2).
  exists w, q. split; auto. split; auto. split; auto. split; auto. intros i Hi. rewrite R2 by auto. auto.
Qed.

Lemma installAll_Ok ls : forall p, invs ls -> length p = count ls ->
  exists qs, installAll ls p = Ok qs /\ invs qs /\ map (lkind kclass) qs = map (lkind kclass) ls /\
    forall k, (k < count ls)%nat -> readP qs k = Ok p.[k].
Proof.
  induction ls as [|l ls IH]; intros p V Hp.
  - exists []. split; auto. split; auto. split; auto. intros k Hk. simpl in Hk. lia.
  - inversion V as [|? ? V1 V2]; subst. simpl in Hp. set (K := kK (lkind kclass l)) in *.
    destruct (install_Ok _ (lobj kclass l) (firstn K p) V1) as (w & q & E1 & _ & E2 & I2 & R2).
    { rewrite firstn_length. fold K. lia. }
    destruct (IH (skipn K p) V2) as (qs & E3 & I3 & M3 & R3).
    { rewrite skipn_length. lia. }
    exists (mkLayer _ q :: qs). cbn [installAll]. fold K. unfold install. rewrite E1. cbn [bind]. rewrite E2. cbn [bind].
    rewrite E3. cbn [bind]. split; auto. split; [constructor; auto|]. split; [cbn; congruence|].
    intros k Hk. cbn [readP lkind lobj]. fold K. simpl in Hk. fold K in Hk. destruct (Nat.ltb_spec k K).
    + rewrite R2 by auto. f_equal. transitivity (nth k (firstn K p ++ skipn K p) 0).
      * rewrite app_nth1; auto. rewrite firstn_length. lia.
      * now rewrite firstn_skipn.
    + rewrite R3 by lia. f_equal. transitivity (nth k (firstn K p ++ skipn K p) 0).
      * rewrite app_nth2; rewrite firstn_length, Nat.min_l by lia; auto. 
      * now rewrite firstn_skipn.
Qed.

Lemma map_kind_wired a b : map (lkind kclass) a = map (lkind kclass) b -> forall I O, wired I b O -> wired I a O.
Proof.
  revert b. induction a as [|x a IH]; intros [|y b] E I O W; try discriminate; auto.
  simpl in *. injection E as E1 E2. rewrite E1. destruct W. split; auto. now apply (IH b).
Qed.
Lemma map_kind_count a b : map (lkind kclass) a = map (lkind kclass) b -> count a = count b.
Proof.
  revert b. induction a as [|x a IH]; intros [|y b] E; try discriminate; auto.
  simpl in *. injection E as E1 E2. rewrite E1. f_equal. auto.
Qed.

(** * The chain rule through all layers but the first two *)
Lemma chain ls : forall I O l0 dropout N t0 (p : R -> list R) (p' : nat -> R) (X : R -> mat) (X' : nat -> nat -> R),
  wired I ls O -> invs ls -> (3 <= l0)%nat ->
  (forall t, length (p t) = count ls) -> (forall t, size_is (X t) N I) ->
  (forall k, (k < count ls)%nat -> D (fun t => (p t).[k]) t0 (p' k)) ->
  (forall n i, (n < N)%nat -> (i < I)%nat -> D (fun t => at_ (X t) n i) t0 (X' n i)) ->
  (forall qs, installAll ls (p t0) = Ok qs -> smooth_run qs (X t0) dropout) ->
  exists (q1 : R -> list layer) (Y : R -> mat) (reg : R -> R) (Y' : nat -> nat -> R) (reg' : R),
    (forall t, exists q, installAll ls (p t) = Ok q /\
       forwardLayers kclass q (X t) dropout = Ok (q1 t, Y t, reg t)) /\
    (forall t, size_is (Y t) N O) /\
    (forall n j, (n < N)%nat -> (j < O)%nat -> D (fun t => at_ (Y t) n j) t0 (Y' n j)) /\
    D reg t0 reg' /\
    forall ein, size_is ein N O ->
      exists q2 eout g, backLayers kclass (q1 t0) l0 ein = Ok (q2, eout) /\ 
        (forall k, (k < count ls)%nat -> readD q2 k = Ok (g k)) /\
        size_is eout N I /\
        inner N O (at_ ein) Y' + reg' = rsum (count ls) (fun k => g k * p' k) + inner N I (at_ eout) X'.
Proof.
  induction ls as [|l ls IH]; intros I O l0 dropout N t0 p p' X X' W V Hl Hp HX DP DX HS.
  - simpl in W. subst O. exists (fun _ => []), X, (fun _ => 0), X', 0. split; [|split; [|split; [|split]]]; auto.
    + intros t. exists []. auto.
    + apply D_const.
    + intros ein He. exists [], ein, (fun _ => 0). split; auto. split; [simpl; intros; lia|]. split; auto. simpl. ring.
  - destruct W as (W1 & W2). inversion V as [|? ? V1 V2]; subst. cbn [count] in *.
    set (kd := lkind kclass l) in *. set (K := kK kd) in *.
    pose proof (lo_contract _ _ _ _ _ _ _ _ (ok kd)) as C.
    assert (HS1 : forall q, install (kclass kd) (lobj kclass l) (firstn K (p t0)) = Ok q -> ksmooth kd q (X t0)).
    { intros q Hq. destruct (installAll_Ok ls (skipn K (p t0)) V2) as (qs & E & _); [rewrite skipn_length, Hp; fold K; lia|].
      assert (E' : installAll (l :: ls) (p t0) = Ok (mkLayer kd q :: qs)).
      { cbn [installAll]. fold kd. fold K. rewrite Hq. cbn [bind]. rewrite E. reflexivity. }
      apply HS in E'. apply E'. }
    destruct (ct_gradient _ _ _ _ _ _ C (lobj kclass l) dropout N t0 (fun t => firstn K (p t)) p' X X')
      as (q1 & Y & reg & Y' & reg' & HF & HY & HI1 & DY & DR & HB); auto.
    { intros t. rewrite firstn_length, Hp. fold K. lia. }
    { intros k Hk. apply (D_ext (fun t => (p t).[k])); [|apply DP; fold K in Hk; lia].
      intros t. transitivity (nth k (firstn K (p t) ++ skipn K (p t)) 0); [now rewrite firstn_skipn|].
      rewrite app_nth1; auto. rewrite firstn_length, Hp. fold K in Hk. lia. }
    destruct (IH (kO kd) O (S l0) dropout N t0 (fun t => skipn K (p t)) (fun k => p' (K + k)%nat) Y Y')
      as (q1s & Z & regs & Z' & regs' & HFs & HZ & DZ & DRs & HBs); auto.
    { intros t. rewrite skipn_length, Hp. fold K. lia. }
    { intros k Hk. apply (D_ext (fun t => (p t).[K + k])); [|apply DP; lia].
      intros t. transitivity (nth (K + k) (firstn K (p t) ++ skipn K (p t)) 0); [now rewrite firstn_skipn|].
      rewrite app_nth2; rewrite firstn_length, Hp; fold K; [f_equal|]; lia. }
    { intros qs Eqs. destruct (HF t0) as (q & E1 & E2).
      assert (E' : installAll (l :: ls) (p t0) = Ok (mkLayer kd q :: qs)).
      { cbn [installAll]. fold kd. fold K. rewrite E1. cbn [bind]. rewrite Eqs. reflexivity. }
      apply HS in E'. destruct E' as (_ & E'). eapply E'. exact E2. }
    exists (fun t => mkLayer kd (q1 t) :: q1s t), Z, (fun t => reg t + regs t), Z', (reg' + regs').
    split; [|split; [|split; [|split]]]; auto.
    + intros t. destruct (HF t) as (q & E1 & E2), (HFs t) as (qs & E3 & E4).
      exists (mkLayer kd q :: qs). cbn [installAll]. fold kd. fold K. rewrite E1. cbn [bind]. rewrite E3. cbn [bind].
      split; auto. cbn [forwardLayers lkind lobj]. rewrite E2. cbn [bind]. rewrite E4. reflexivity.
    + now apply D_plus.
    + intros ein He. destruct (HBs ein He) as (q2s & es & gs & B1 & B2 & B3 & B4).
      destruct (HB es true B3) as (q2 & eout & g & A1 & A2 & A3 & A4 & _).
      destruct (A4 eq_refl) as (A5 & A6).
      exists (mkLayer kd q2 :: q2s), eout, (fun k => if Nat.ltb k K then g k else gs (k - K)%nat).
      cbn [backLayers lkind lobj]. rewrite B1. cbn [bind].
      assert (Nat.ltb 2 l0 = true) as -> by (apply Nat.ltb_lt; lia). rewrite A1. cbn [bind].
      split; auto. split; [|split; auto].
      * intros k Hk. cbn [readD lkind lobj]. fold K. destruct (Nat.ltb_spec k K); auto. apply B2. lia.
      * rewrite rsum_app.
        rewrite (rsum_ext K _ (fun k => g k * p' k)).
        2:{ intros k Hk. apply Nat.ltb_lt in Hk. now rewrite Hk. }
        rewrite (rsum_ext (count ls) _ (fun k => gs k * p' (K + k)%nat)).
        2:{ intros k Hk. assert (Nat.ltb (K + k) K = false) as -> by (apply Nat.ltb_ge; lia).
            f_equal. f_equal. lia. }
        fold K in A6. lra.
Qed.

(** * Backward passes keep the functions *)
Lemma back_all ls : forall I O X dropout qs Y r ein l q2 eout, wired I ls O -> invs ls -> cols X = I -> (2 <= l)%nat ->
  forwardLayers kclass ls X dropout = Ok (qs, Y, r) -> rows ein = rows X -> cols ein = O ->
  backLayers kclass qs l ein = Ok (q2, eout) ->
  invs q2 /\ same_layers q2 qs /\ ((3 <= l)%nat -> rows eout = rows X /\ cols eout = I).
Proof.
  induction ls as [|x ls IH]; intros I O X dropout qs Y r ein l q2 eout W V HX Hl E He1 He2 Eb.
  - cbn in E. injection E as <- <- <-. cbn in Eb. injection Eb as <- <-. simpl in W. subst O.
    split; [constructor|]. split; [constructor|]. auto.
  - destruct W as (W1 & W2). inversion V as [|? ? V1 V2]; subst. cbn [forwardLayers] in E.
    destruct (lo_forward _ _ _ _ _ _ _ _ (ok (lkind kclass x)) (lobj kclass x) X dropout V1) as (q & Z & Ef & I1 & S1 & R1 & C1 & F1); auto.
    rewrite Ef in E. cbn [bind] in E.
    destruct (forwardLayers kclass ls Z dropout) as [[[qs1 Z1] r1]| | | |] eqn:Ef2; try discriminate E. cbn [bind] in E.
    injection E as <- <- <-. cbn [backLayers lkind lobj] in Eb.
    destruct (backLayers kclass qs1 (S l) ein) as [[q3 e3]| | | |] eqn:Eb2; try discriminate Eb. cbn [bind] in Eb.
    destruct (IH (kO (lkind kclass x)) (cols ein) Z dropout qs1 Z1 r1 ein (S l) q3 e3) as (H1 & H2 & H3); auto; [congruence|].
    destruct H3 as (H3 & H4); [lia|].
    destruct (backpropagate (kclass (lkind kclass x)) q e3 (Nat.ltb 2 l)) as [[q4 e4]| | | |] eqn:Eb3; try discriminate Eb.
    cbn [bind] in Eb. injection Eb as <- <-.
    destruct (lo_backward _ _ _ _ _ _ _ _ (ok (lkind kclass x)) (lobj kclass x) X dropout q Z (krg _ (lobj kclass x)) e3 (Nat.ltb 2 l) q4 e4 V1)
      as (G1 & G2 & G3); auto; [congruence|].
    split; [constructor; auto|]. split; [constructor; auto; now constructor|].
    intros Hl3. apply G3. apply Nat.ltb_lt. lia.
Qed.

(** * The first layer *)
Context (isInput : kind -> Prop).
Context (input : forall k, isInput k -> kK k = 0%nat /\ kI k = kO k /\
  (forall s X dropout, exists q, forwardPropagate (kclass k) s X dropout = Ok (q, X, 0)) /\
  (forall s e bp, exists q e', backpropagate (kclass k) s e bp = Ok (q, e') /\ (kInv k s -> kInv k q) /\
      same_fun (kclass k) (kO k) (kK k) (kfn k) (krg k) q s)).
Definition starts (ls : list layer) : Prop :=
  match ls with [] => False | l :: _ => isInput (lkind kclass l) end.

Lemma same_starts a b : same_layers a b -> starts b -> starts a.
Proof. intros [|x y l l' H _]; auto. simpl. now rewrite (same_layer_kind _ _ H). Qed.
Lemma map_kind_starts a b : map (lkind kclass) a = map (lkind kclass) b -> starts b -> starts a.
Proof. destruct a, b; try discriminate; auto. simpl. intros E. injection E as E _. now rewrite E. Qed.

Lemma back_net ls I O X dropout qs Y r ein q2 eout : starts ls -> wired I ls O -> invs ls -> cols X = I ->
  forwardLayers kclass ls X dropout = Ok (qs, Y, r) -> rows ein = rows X -> cols ein = O ->
  backLayers kclass qs 1 ein = Ok (q2, eout) -> invs q2 /\ same_layers q2 qs.
Proof.
  intros HS W V HX E He1 He2 Eb. destruct ls as [|x ls]; [easy|]. simpl in HS.
  destruct W as (W1 & W2). inversion V as [|? ? V1 V2]; subst. cbn [forwardLayers] in E.
  destruct (input _ HS) as (_ & EI & _ & Hb).
  destruct (lo_forward _ _ _ _ _ _ _ _ (ok (lkind kclass x)) (lobj kclass x) X dropout V1) as (q & Z & Ef & I1 & S1 & R1 & C1 & F1); auto.
  rewrite Ef in E. cbn [bind] in E.
  destruct (forwardLayers kclass ls Z dropout) as [[[qs1 Z1] r1]| | | |] eqn:Ef2; try discriminate E. cbn [bind] in E.
  injection E as <- <- <-. cbn [backLayers lkind lobj] in Eb.
  destruct (backLayers kclass qs1 2 ein) as [[q3 e3]| | | |] eqn:Eb2; try discriminate Eb. cbn [bind] in Eb.
  destruct (back_all ls (kO (lkind kclass x)) (cols ein) Z dropout qs1 Z1 r1 ein 2 q3 e3) as (H1 & H2 & _); auto; [congruence|].
  destruct (Hb q e3 (Nat.ltb 2 1)) as (q4 & e4 & E4 & I4 & S4). rewrite E4 in Eb. cbn [bind] in Eb. injection Eb as <- <-.
  split; [constructor; auto|]. constructor; auto. now constructor.
Qed.

(** the chain rule for the layers after the input layer *)
Lemma chain2 ls I O dropout N t0 (p : R -> list R) (p' : nat -> R) (X : mat) :
  wired I ls O -> invs ls ->
  (forall t, length (p t) = count ls) -> size_is X N I ->
  (forall k, (k < count ls)%nat -> D (fun t => (p t).[k]) t0 (p' k)) ->
  (forall qs, installAll ls (p t0) = Ok qs -> smooth_run qs X dropout) ->
  exists (q1 : R -> list layer) (Y : R -> mat) (reg : R -> R) (Y' : nat -> nat -> R) (reg' : R),
    (forall t, exists q, installAll ls (p t) = Ok q /\
       forwardLayers kclass q X dropout = Ok (q1 t, Y t, reg t)) /\
    (forall t, size_is (Y t) N O) /\
    (forall n j, (n < N)%nat -> (j < O)%nat -> D (fun t => at_ (Y t) n j) t0 (Y' n j)) /\
    D reg t0 reg' /\
    forall ein, size_is ein N O ->
      exists q2 eout g, backLayers kclass (q1 t0) 2 ein = Ok (q2, eout) /\ 
        (forall k, (k < count ls)%nat -> readD q2 k = Ok (g k)) /\
        inner N O (at_ ein) Y' + reg' = rsum (count ls) (fun k => g k * p' k).
Proof.
  destruct ls as [|l ls]; intros W V Hp HX DP HS.
  - simpl in W. subst O. exists (fun _ => []), (fun _ => X), (fun _ => 0), (fun _ _ => 0), 0. split; [|split; [|split; [|split]]]; auto.
    + intros t. exists []. auto.
    + intros. apply D_const.
    + apply D_const.
    + intros ein He. exists [], ein, (fun _ => 0). split; auto. split; [simpl; intros; lia|]. rewrite inner_0_r. simpl. ring.
  - destruct W as (W1 & W2). inversion V as [|? ? V1 V2]; subst. cbn [count] in *.
    set (kd := lkind kclass l) in *. set (K := kK kd) in *.
    pose proof (lo_contract _ _ _ _ _ _ _ _ (ok kd)) as C.
    assert (HS1 : forall q, install (kclass kd) (lobj kclass l) (firstn K (p t0)) = Ok q -> ksmooth kd q X).
    { intros q Hq. destruct (installAll_Ok ls (skipn K (p t0)) V2) as (qs & E & _); [rewrite skipn_length, Hp; fold K; lia|].
      assert (E' : installAll (l :: ls) (p t0) = Ok (mkLayer kd q :: qs)).
      { cbn [installAll]. fold kd. fold K. rewrite Hq. cbn [bind]. rewrite E. reflexivity. }
      apply HS in E'. apply E'. }
    destruct (ct_gradient _ _ _ _ _ _ C (lobj kclass l) dropout N t0 (fun t => firstn K (p t)) p' (fun _ => X) (fun _ _ => 0))
      as (q1 & Y & reg & Y' & reg' & HF & HY & HI1 & DY & DR & HB); auto.
    { intros t. rewrite firstn_length, Hp. fold K. lia. }
    { intros k Hk. apply (D_ext (fun t => (p t).[k])); [|apply DP; fold K in Hk; lia].
      intros t. transitivity (nth k (firstn K (p t) ++ skipn K (p t)) 0); [now rewrite firstn_skipn|].
      rewrite app_nth1; auto. rewrite firstn_length, Hp. fold K in Hk. lia. }
    { intros. apply D_const. }
    destruct (chain ls (kO kd) O 3 dropout N t0 (fun t => skipn K (p t)) (fun k => p' (K + k)%nat) Y Y')
      as (q1s & Z & regs & Z' & regs' & HFs & HZ & DZ & DRs & HBs); auto.
    { intros t. rewrite skipn_length, Hp. fold K. lia. }
    { intros k Hk. apply (D_ext (fun t => (p t).[K + k])); [|apply DP; lia].
      intros t. transitivity (nth (K + k) (firstn K (p t) ++ skipn K (p t)) 0); [now rewrite firstn_skipn|].
      rewrite app_nth2; rewrite firstn_length, Hp; fold K; [f_equal|]; lia. }
    { intros qs Eqs. destruct (HF t0) as (q & E1 & E2).
      assert (E' : installAll (l :: ls) (p t0) = Ok (mkLayer kd q :: qs)).
      { cbn [installAll]. fold kd. fold K. rewrite E1. cbn [bind]. rewrite Eqs. reflexivity. }
      apply HS in E'. destruct E' as (_ & E'). eapply E'. exact E2. }
    exists (fun t => mkLayer kd (q1 t) :: q1s t), Z, (fun t => reg t + regs t), Z', (reg' + regs').
    split; [|split; [|split; [|split]]]; auto.
    + intros t. destruct (HF t) as (q & E1 & E2), (HFs t) as (qs & E3 & E4).
      exists (mkLayer kd q :: qs). cbn [installAll]. fold kd. fold K. rewrite E1. cbn [bind]. rewrite E3. cbn [bind].
      split; auto. cbn [forwardLayers lkind lobj]. rewrite E2. cbn [bind]. rewrite E4. reflexivity.
    + now apply D_plus.
    + intros ein He. destruct (HBs ein He) as (q2s & es & gs & B1 & B2 & B3 & B4).
      destruct (HB es false B3) as (q2 & eout & g & A1 & A2 & A3 & _ & A6).
      specialize (A6 eq_refl (fun _ _ _ _ => eq_refl)).
      exists (mkLayer kd q2 :: q2s), eout, (fun k => if Nat.ltb k K then g k else gs (k - K)%nat).
      cbn [backLayers lkind lobj]. rewrite B1. cbn [bind]. change (Nat.ltb 2 2) with false. rewrite A1. cbn [bind].
      split; auto. split.
      * intros k Hk. cbn [readD lkind lobj]. fold K. destruct (Nat.ltb_spec k K); auto. apply B2. lia.
      * rewrite rsum_app.
        rewrite (rsum_ext K _ (fun k => g k * p' k)).
        2:{ intros k Hk. apply Nat.ltb_lt in Hk. now rewrite Hk. }
        rewrite (rsum_ext (count ls) _ (fun k => gs k * p' (K + k)%nat)).
        2:{ intros k Hk. assert (Nat.ltb (K + k) K = false) as -> by (apply Nat.ltb_ge; lia).
            f_equal. f_equal. lia. }
        fold K in A6. lra.
Qed.

(** the chain rule for all layers *)
Lemma chain_net ls I O dropout N t0 (p : R -> list R) (p' : nat -> R) (X : mat) :
  starts ls -> wired I ls O -> invs ls ->
  (forall t, length (p t) = count ls) -> size_is X N I ->
  (forall k, (k < count ls)%nat -> D (fun t => (p t).[k]) t0 (p' k)) ->
  (forall qs, installAll ls (p t0) = Ok qs -> smooth_run qs X dropout) ->
  exists (q1 : R -> list layer) (Y : R -> mat) (reg : R -> R) (Y' : nat -> nat -> R) (reg' : R),
    (forall t, exists q, installAll ls (p t) = Ok q /\
       forwardLayers kclass q X dropout = Ok (q1 t, Y t, reg t)) /\
    (forall t, size_is (Y t) N O) /\
    (forall n j, (n < N)%nat -> (j < O)%nat -> D (fun t => at_ (Y t) n j) t0 (Y' n j)) /\
    D reg t0 reg' /\
    forall ein, size_is ein N O ->
      exists q2 eout g, backLayers kclass (q1 t0) 1 ein = Ok (q2, eout) /\ 
        (forall k, (k < count ls)%nat -> readD q2 k = Ok (g k)) /\
        inner N O (at_ ein) Y' + reg' = rsum (count ls) (fun k => g k * p' k).
Proof.
  destruct ls as [|l ls]; intros Hst W V Hp HX DP HS; [easy|]. simpl in Hst.
  destruct W as (W1 & W2). inversion V as [|? ? V1 V2]; subst. cbn [count] in *.
  set (kd := lkind kclass l) in *. destruct (input kd Hst) as (K0 & EI & Hf & Hb). rewrite K0 in *. cbn [Nat.add] in *.
  assert (HI : exists q, install (kclass kd) (lobj kclass l) [] = Ok q /\ kInv kd q).
  { destruct (install_Ok kd (lobj kclass l) [] V1) as (w & q & E1 & _ & E2 & I2 & _); [now rewrite K0|].
    exists q. unfold install. rewrite E1. auto. }
  destruct HI as (q0 & Eq0 & Iq0). destruct (Hf q0 X dropout) as (q1 & Eq1).
  assert (IA : forall pp, installAll (l :: ls) pp = (qs <- installAll ls pp ;; Ok (mkLayer kd q0 :: qs))).
  { intros pp. cbn [installAll]. fold kd. rewrite K0. cbn [firstn skipn]. now rewrite Eq0. }
  destruct (chain2 ls (kO kd) O dropout N t0 p p' X) as (q1s & Z & regs & Z' & regs' & HFs & HZ & DZ & DRs & HBs); auto.
  { now rewrite <- EI. }
  { intros qs Eqs. assert (E : installAll (l :: ls) (p t0) = Ok (mkLayer kd q0 :: qs)) by (rewrite IA, Eqs; reflexivity).
    apply HS in E. destruct E as (_ & E). eapply E. exact Eq1. }
  exists (fun t => mkLayer kd q1 :: q1s t), Z, (fun t => 0 + regs t), Z', (0 + regs').
  split; [|split; [|split; [|split]]]; auto.
  - intros t. destruct (HFs t) as (qs & E1 & E2). exists (mkLayer kd q0 :: qs). rewrite IA, E1. split; auto.
    cbn [forwardLayers lkind lobj]. rewrite Eq1. cbn [bind]. rewrite E2. reflexivity.
  - apply D_plus; auto. apply D_const.
  - intros ein He. destruct (HBs ein He) as (q2s & es & gs & B1 & B2 & B3).
    destruct (Hb q1 es false) as (q4 & e4 & E4 & _). exists (mkLayer kd q4 :: q2s), e4, gs.
    cbn [backLayers lkind lobj]. rewrite B1. cbn [bind]. change (Nat.ltb 2 1) with false. rewrite E4. cbn [bind].
    split; auto. split; [|lra].
    intros k Hk. cbn [readD lkind]. rewrite K0. cbn [Nat.ltb Nat.leb]. rewrite Nat.sub_0_r. auto.
Qed.

(** * Pointers *)
Fixpoint ptrs (i : nat) (ls : list layer) : list (nat * nat) :=
  match ls with
  | [] => []
  | l :: ls => map (pair i) (seq 0 (kK (lkind kclass l))) ++ ptrs (S i) ls
  end.

Lemma ptrs_length ls : forall i, length (ptrs i ls) = count ls.
Proof. induction ls as [|l ls IH]; intros i; auto. simpl. now rewrite app_length, map_length, seq_length, IH. Qed.

Lemma map_kind_ptrs a b : map (lkind kclass) a = map (lkind kclass) b -> forall i, ptrs i a = ptrs i b.
Proof.
  revert b. induction a as [|x a IH]; intros [|y b] E i; try discriminate; auto.
  simpl in *. injection E as E1 E2. rewrite E1. f_equal. auto.
Qed.

Lemma ptrs_app a b : forall i, ptrs i (a ++ b) = ptrs i a ++ ptrs (i + length a) b.
Proof.
  induction a as [|x a IH]; intros i; simpl; [now rewrite Nat.add_0_r|].
  rewrite IH, app_assoc. do 2 f_equal. lia.
Qed.

Lemma vget_app1 {A} (a b : list A) i : (i < length a)%nat -> vget (a ++ b) i = vget a i.
Proof. intros H. unfold vget. now rewrite nth_error_app1. Qed.
Lemma vget_app2 {A} (a b : list A) i : (length a <= i)%nat -> vget (a ++ b) i = vget b (i - length a).
Proof. intros H. unfold vget. now rewrite nth_error_app2. Qed.
Lemma vget_pairs (i n k : nat) : (k < n)%nat -> vget (map (pair i) (seq 0 n)) k = Ok (i, k).
Proof.
  intros H. unfold vget. rewrite nth_error_map. rewrite (nth_error_nth' _ 0%nat) by now rewrite seq_length.
  rewrite seq_nth by auto. reflexivity.
Qed.

Lemma load_ptrs ls : forall pre k, (k < count ls)%nat ->
  exists ptr, vget (ptrs (length pre) ls) k = Ok ptr /\
    loadParam kclass (pre ++ ls) ptr = readP ls k /\ loadDeriv kclass (pre ++ ls) ptr = readD ls k.
Proof.
  induction ls as [|l ls IH]; intros pre k Hk; simpl in Hk; [lia|].
  cbn [ptrs readP readD]. destruct (Nat.ltb_spec k (kK (lkind kclass l))) as [H|H].
  - exists (length pre, k). rewrite vget_app1 by now rewrite map_length, seq_length. split; [now apply vget_pairs|].
    unfold loadParam, loadDeriv. cbn [fst snd]. rewrite vget_app2 by lia. rewrite Nat.sub_diag. auto.
  - rewrite vget_app2 by now rewrite map_length, seq_length. rewrite map_length, seq_length.
    destruct (IH (pre ++ [l]) (k - kK (lkind kclass l))%nat) as (ptr & E1 & E2 & E3); [lia|].
    rewrite app_length in E1. simpl in E1. rewrite Nat.add_comm in E1. rewrite <- app_assoc in E2, E3.
    exists ptr. auto.
Qed.

(** * setParameters *)
Fixpoint writeLs (ls : list layer) (p : list R) : res (list layer) :=
  match ls with
  | [] => Ok []
  | l :: ls =>
      let K := kK (lkind kclass l) in
      o <- writeAll (kclass (lkind kclass l)) (lobj kclass l) (firstn K p) ;;
      ls <- writeLs ls (skipn K p) ;; Ok (mkLayer (lkind kclass l) o :: ls)
  end.

Lemma writeLs_Ok ls : forall p, invs ls -> length p = count ls ->
  exists ws, writeLs ls p = Ok ws /\ updateLayers kclass ws = installAll ls p.
Proof.
  induction ls as [|l ls IH]; intros p V Hp.
  - exists []. auto.
  - inversion V as [|? ? V1 V2]; subst. simpl in Hp. set (K := kK (lkind kclass l)) in *.
    destruct (install_Ok _ (lobj kclass l) (firstn K p) V1) as (w & q & E1 & _ & E2 & I2 & R2).
    { rewrite firstn_length. fold K. lia. }
    destruct (IH (skipn K p) V2) as (ws & E3 & E4). { rewrite skipn_length. lia. }
    exists (mkLayer (lkind kclass l) w :: ws). cbn [writeLs]. fold K. rewrite E1. cbn [bind]. rewrite E3. cbn [bind]. split; auto.
    cbn [updateLayers installAll lkind lobj]. fold K. unfold install. rewrite E1. cbn [bind]. rewrite E2. cbn [bind].
    now rewrite E4.
Qed.

Section Writes.
Variables (ps : list (nat * nat)) (p : list R).
Let body := fun k (ls : list layer) => ptr <- vget ps k ;; v <- vget p k ;; storePtr kclass ls ptr v.

Lemma upd_middle (pre : list layer) l post x : upd (pre ++ l :: post) (length pre) x = pre ++ x :: post.
Proof. induction pre; simpl; auto. now rewrite IHpre. Qed.

Lemma write_layer k pl pre post n : forall a b s,
  (forall i, (i < n)%nat -> vget ps (a + i) = Ok (length pre, (b + i)%nat) /\ vget p (a + i) = vget pl (b + i)) ->
  for_from a n body (pre ++ mkLayer k s :: post) =
  (s' <- for_from b n (fun i s => v <- vget pl i ;; writeParam (kclass k) s i v) s ;; Ok (pre ++ mkLayer k s' :: post)).
Proof.
  induction n as [|n IH]; intros a b s H; auto. cbn [for_from]. unfold body at 1.
  destruct (H 0%nat) as (H1 & H2); [lia|]. rewrite !Nat.add_0_r in *. rewrite H1. cbn [bind]. rewrite H2.
  destruct (vget pl b) as [v| | | |]; auto. cbn [bind]. unfold storePtr. cbn [fst snd].
  rewrite vget_app2 by lia. rewrite Nat.sub_diag. cbn [vget nth_error bind lkind lobj].
  destruct (writeParam (kclass k) s b v) as [s1| | | |]; auto. cbn [bind]. rewrite upd_middle.
  apply IH. intros i Hi. destruct (H (S i)) as (H3 & H4); [lia|]. rewrite <- !Nat.add_succ_comm in H3, H4. auto.
Qed.

Lemma writes_layers ls : forall pre a q, invs ls -> length q = count ls ->
  (forall i, (i < count ls)%nat -> vget ps (a + i) = vget (ptrs (length pre) ls) i /\ vget p (a + i) = vget q i) ->
  for_from a (count ls) body (pre ++ ls) = (ws <- writeLs ls q ;; Ok (pre ++ ws)).
Proof.
  induction ls as [|l ls IH]; intros pre a q V Hq H.
  - cbn. now rewrite app_nil_r.
  - inversion V as [|? ? V1 V2]; subst. cbn [count] in *. rewrite for_from_app. destruct l as [kd s]. cbn [lkind lobj] in *.
    set (K := kK kd) in *.
    destruct (install_Ok kd s (firstn K q) V1) as (w & q' & E1 & _). { rewrite firstn_length. fold K. lia. }
    rewrite (write_layer kd (firstn K q) pre ls K a 0 s).
    + cbn [writeLs lkind lobj]. fold K. unfold writeAll, for_ in *. rewrite firstn_length in *. rewrite Nat.min_l in * by lia.
      rewrite E1. cbn [bind].
      replace (pre ++ mkLayer kd w :: ls) with ((pre ++ [mkLayer kd w]) ++ ls) by now rewrite <- app_assoc.
      rewrite (IH (pre ++ [mkLayer kd w]) (a + K)%nat (skipn K q)); auto.
      * destruct (writeLs ls (skipn K q)) as [ws| | | |]; auto. cbn [bind]. now rewrite <- app_assoc.
      * rewrite skipn_length. lia.
      * intros i Hi. destruct (H (K + i)%nat) as (H1 & H2); [lia|]. rewrite Nat.add_assoc in H1, H2.
        rewrite H1, H2. split.
        -- cbn [ptrs lkind]. fold K. rewrite vget_app2 by (rewrite map_length, seq_length; lia).
           rewrite map_length, seq_length, app_length. simpl. f_equal; [f_equal|]; lia.
        -- transitivity (vget (firstn K q ++ skipn K q) (K + i)); [now rewrite firstn_skipn|].
           rewrite vget_app2; rewrite firstn_length, Nat.min_l by lia; [f_equal|]; lia.
    + intros i Hi. destruct (H i) as (H1 & H2); [lia|]. rewrite H1, H2. split.
      * cbn [ptrs lkind]. fold K. rewrite vget_app1 by (rewrite map_length, seq_length; lia). now apply vget_pairs.
      * cbn [Nat.add]. transitivity (vget (firstn K q ++ skipn K q) i); [now rewrite firstn_skipn|].
        rewrite vget_app1; auto. rewrite firstn_length. lia.
Qed.
End Writes.
End Net.
