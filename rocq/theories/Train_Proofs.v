(** Proofs about networks as optimization problems. *)
From Verif Require Import Base BaseFacts Matrix RSum MatOps Vec Deriv Activation_Model Layer_Model Layer_Proofs FC_Model SimpleLayers_Model Conv_Model
  Pool_Model MaxPool_Proofs Net_Model NetChain_Proofs Net_Proofs NetBuild_Model NetUse_Spec NetBuild_Proofs Net_Props NetSettled_Proofs NetFixed_Proofs
  Evaluation_Model Alglib_Model Alglib_Spec Train_Model Train_Spec.
Local Open Scope R_scope.

Section Train.
Variables (junk : nat -> nat -> R) (d1 d2 d3 : nat) (cs : list command) (d : trainData) (ef : ErrorFunction).
Notation kc := (kclass junk).
Notation net := (net kc).
Notation trainable := (trainable junk d1 d2 d3 cs d ef).
Notation usable := (usable junk d1 d2 d3 cs).
Notation same_layers := (same_layers kc nO nK (nfn junk) (nrg junk)).
Notation same_net := (same_net kc nO nK (nfn junk) (nrg junk)).
Notation good := (good kc nI nO nK (nInv junk) isIn).
Notation rgs := (rgs kc (nrg junk)).
Notation netrow := (netrow kc (nfn junk)).
Notation batchobj := (batchobj kc (nfn junk)).
Notation batchloss := (batchloss kc (nfn junk)).
Notation params := (Net_Model.currentParameters kc).
Notation set := (Net_Model.setParameters kc).
Notation dim := (Net_Model.dimension kc).
Notation N := (rows (dataIn d)).
Hypothesis HM : Forall no_max_norm cs.

Lemma train_usable q : trainable q -> usable q.
Proof. intros (HR & _). now apply reachable_usable. Qed.
Lemma train_good q : trainable q -> good (netInputs q) (netOutputs q) q.
Proof. intros T. apply (u_good _ _ _ _ _ _ (train_usable q T)). Qed.
Lemma train_fits q : trainable q -> fits q d.
Proof. intros T. apply (u_fits _ _ _ _ _ _ (train_usable q T)). apply T. Qed.
Lemma train_pos q : trainable q -> (0 < netOutputs q)%nat.
Proof. intros T. apply (u_pos _ _ _ _ _ _ (train_usable q T)). Qed.
Lemma train_dim q : trainable q -> dim q = totalParams [d1; d2; d3] cs.
Proof. intros T. apply usable_dimension. now apply train_usable. Qed.
Lemma train_dims q q' : trainable q -> trainable q' -> dim q = dim q'.
Proof. intros T T'. now rewrite (train_dim q T), (train_dim q' T'). Qed.
Lemma train_length q : trainable q -> length (params q) = dim q.
Proof. intros T. apply (u_vector _ _ _ _ _ _ (train_usable q T)). Qed.
Lemma train_examples q : trainable q -> Net_Model.examples kc q = N.
Proof. intros (_ & E & _). unfold Net_Model.examples. now rewrite E. Qed.
Lemma train_kinds q q' : trainable q -> trainable q' -> map (lkind kc) (layers kc q) = map (lkind kc) (layers kc q').
Proof. intros T T'. now rewrite (u_kinds _ _ _ _ _ _ (train_usable q T)), (u_kinds _ _ _ _ _ _ (train_usable q' T')). Qed.
Lemma train_inputs q q' : trainable q -> trainable q' -> netInputs q = netInputs q'.
Proof. intros T T'. now rewrite (u_inputs _ _ _ _ _ _ (train_usable q T)), (u_inputs _ _ _ _ _ _ (train_usable q' T')). Qed.
Lemma train_outputs q q' : trainable q -> trainable q' -> netOutputs q = netOutputs q'.
Proof.
  intros T T'. pose proof (g_wired _ _ _ _ _ _ _ _ _ (train_good q T)) as W. pose proof (g_wired _ _ _ _ _ _ _ _ _ (train_good q' T')) as W'.
  apply (map_kind_wired kc nI nO _ _ (train_kinds q' q T' T)) in W. rewrite (train_inputs q q' T T') in W. eapply wired_fun; eauto.
Qed.

(** calls that keep the network *)
Lemma train_kept q q' : trainable q -> calls junk q q' -> same_net q' q -> trainable q' /\ params q' = params q.
Proof.
  intros (HR & T1 & T2 & T3) C (_ & S2 & S3 & S4 & _ & S6 & _). split; [|exact S6].
  split; [eapply reach_call; eauto|]. split; [congruence|]. split; congruence.
Qed.

Lemma set_train q x : trainable q -> length x = dim q -> exists q', set q x = Ok q' /\ trainable q' /\ params q' = x.
Proof.
  intros T Hx. destruct (set_ok kc nI nO nK (nInv junk) (nsmooth junk) (nfn junk) (nrg junk) (nok junk) isIn _ _ q x (train_good q T) Hx) as (ls & E & _).
  eexists. split; [exact E|]. destruct T as (HR & T1 & T2 & T3). split; [|reflexivity]. split; [|auto].
  eapply reach_call; [exact HR|]. eapply call_setParameters; eauto.
Qed.
Lemma set_params q : trainable q -> set q (params q) = Ok q.
Proof. intros (HR & _). eapply set_current_same; eauto. Qed.

(** the parameters determine the functions of the layers *)
Lemma train_same q q' : trainable q -> trainable q' -> params q = params q' -> same_layers (layers kc q) (layers kc q').
Proof.
  intros T T' E. pose proof (train_good q T) as G. pose proof (train_good q' T') as G'.
  destruct (set_ok kc nI nO nK (nInv junk) (nsmooth junk) (nfn junk) (nrg junk) (nok junk) isIn _ _ q (params q) G (train_length q T)) as (ls & E1 & I1 & _).
  destruct (set_ok kc nI nO nK (nInv junk) (nsmooth junk) (nfn junk) (nrg junk) (nok junk) isIn _ _ q' (params q') G' (train_length q' T')) as (ls' & E2 & I2 & _).
  rewrite (set_params q T) in E1. rewrite (set_params q' T') in E2.
  assert (A : forall a b : net, Ok a = Ok b -> layers kc a = layers kc b) by congruence.
  apply A in E1. apply A in E2. cbn in E1, E2. rewrite <- E in I2. rewrite <- E1 in I1. rewrite <- E2 in I2.
  apply (Net_Proofs.installAll_same kc nI nO nK (nInv junk) (nsmooth junk) (nfn junk) (nrg junk) (nok junk) (layers kc q) (layers kc q') (params q)); auto.
  - apply G.
  - apply G'.
  - now apply train_kinds.
  - rewrite (train_length q T). apply (g_P _ _ _ _ _ _ _ _ _ G).
Qed.

Lemma same_rows q q' n n' x j : trainable q -> trainable q' -> params q = params q' -> (j < netOutputs q)%nat ->
  netrow q (netOutputs q) n x j = netrow q' (netOutputs q') n' x j.
Proof.
  intros T T' E Hj. pose proof (train_same q q' T T' E) as S. rewrite <- (train_outputs q q' T T').
  unfold Net_Proofs.netrow. destruct T as (HR & T1 & T2 & T3). destruct T' as (HR' & T1' & T2' & T3').
  rewrite T2, T2', T3, T3'. apply outrow_ext; auto. intros k Hk.
  pose proof (u_good _ _ _ _ _ _ (reachable_usable junk d1 d2 d3 cs q HM HR)) as G.
  pose proof (u_good _ _ _ _ _ _ (reachable_usable junk d1 d2 d3 cs q' HM HR')) as G'.
  transitivity (fns kc (nfn junk) (layers kc q) false n' x k).
  - transitivity (fns kc (nfn junk) (layers kc q) false 0 x k).
    + apply (fns_rows kc nI nO nK (nInv junk) (nsmooth junk) (nfn junk) (nrg junk) (nok junk) _ (netInputs q) (netOutputs q)); auto; apply G.
    + symmetry. apply (fns_rows kc nI nO nK (nInv junk) (nsmooth junk) (nfn junk) (nrg junk) (nok junk) _ (netInputs q) (netOutputs q)); auto; apply G.
  - assert (T : trainable q) by (split; auto). assert (T' : trainable q') by (split; auto).
    apply (same_fns kc nI nO nK (nInv junk) (nsmooth junk) (nfn junk) (nrg junk) (nok junk) _ _ S (netInputs q') (netOutputs q')); auto; try apply G'.
    now rewrite <- (train_outputs q q' T T').
Qed.

(** error(i), and the part of it that has an exact gradient (they are the same for the mean squared error) *)
Definition errorOf (q : net) (i : nat) : R :=
  rowloss ef (netOutputs q) (netrow q (netOutputs q) 0 (at_ (dataIn d) i)) (at_ (dataOut d) i) + rgs (layers kc q).
Definition objOf (q : net) (idx : list nat) : R :=
  rsum (length idx) (fun i => rowobj ef (netOutputs q) (netrow q (netOutputs q) 0 (at_ (dataIn d) (nth i idx 0%nat))) (at_ (dataOut d) (nth i idx 0%nat))) / INR (length idx)
  + rgs (layers kc q) / INR (length idx).
Lemma errorOf_same q q' i : trainable q -> trainable q' -> params q = params q' -> errorOf q i = errorOf q' i.
Proof.
  intros T T' E. unfold errorOf. rewrite (same_rgs kc nO nK (nfn junk) (nrg junk) _ _ (train_same q q' T T' E)). f_equal.
  rewrite <- (train_outputs q q' T T'). apply rowloss_ext; auto. intros k Hk. rewrite (train_outputs q q' T T') at 2. now apply same_rows.
Qed.
Lemma objOf_same q q' idx : trainable q -> trainable q' -> params q = params q' -> objOf q idx = objOf q' idx.
Proof.
  intros T T' E. unfold objOf. rewrite (same_rgs kc nO nK (nfn junk) (nrg junk) _ _ (train_same q q' T T' E)). f_equal. f_equal.
  apply rsum_ext. intros i Hi. rewrite <- (train_outputs q q' T T'). apply rowobj_ext; auto. intros k Hk.
  rewrite (train_outputs q q' T T') at 2. now apply same_rows.
Qed.

Lemma error_at_train q i : trainable q -> (i < N)%nat ->
  exists q', error_at kc q i = Ok (q', errorOf q i) /\ trainable q' /\ params q' = params q.
Proof.
  intros T Hi. destruct (error_at_ok kc nI nO nK (nInv junk) (nsmooth junk) (nfn junk) (nrg junk) (nok junk) isIn _ _ q d i (train_good q T)) as (q' & E & G & S); auto.
  { apply T. } { apply train_fits; auto. } { intros _. now apply train_pos. }
  exists q'. unfold errorOf. pose proof T as (_ & _ & T2 & _). rewrite T2 in E. split; [exact E|].
  apply train_kept; auto. eapply call_error_at; eauto.
Qed.

Lemma rsum_div n (f : nat -> R) c : rsum n (fun i => f i / c) = rsum n f / c.
Proof. induction n as [|n IH]; cbn [rsum]; [unfold Rdiv; ring|]. rewrite IH. unfold Rdiv. ring. Qed.
Lemma nth_seq_ext n (f : nat -> R) : rsum n (fun i => f (nth i (seq 0 n) 0%nat)) = rsum n f.
Proof. apply rsum_ext. intros i Hi. now rewrite seq_nth. Qed.

Lemma error_train q : trainable q ->
  exists q', Net_Model.error kc q = Ok (q', rsum N (errorOf q) / INR N) /\ trainable q' /\ params q' = params q.
Proof.
  intros T. unfold Net_Model.error. rewrite (train_examples q T).
  destruct (for_inv (fun k (st : net * R) => trainable (fst st) /\ params (fst st) = params q /\ snd st = rsum k (fun n => errorOf q n / INR N))
     (fun n '(s, e) => ' (s, v) <- error_at kc s n ;; Ok (s, e + v / INR N)) N (q, 0)) as ([q' v] & E & T' & E' & Ev).
  - cbn [fst snd rsum]. auto.
  - intros k [a x] Hk (Ta & Ea & Ex). cbn [fst snd] in *. destruct (error_at_train a k Ta Hk) as (b & Eb & Tb & Pb). rewrite Eb. cbn [bind].
    eexists. split; [reflexivity|]. cbn [fst snd rsum]. split; auto. split; [congruence|]. rewrite Ex. do 2 f_equal. apply errorOf_same; auto.
  - exists q'. cbn [fst snd] in *. rewrite E, Ev, rsum_div. auto.
Qed.

Hypothesis HS : Forall always_smooth cs.
Hypothesis HCE : ef = CE -> forall i, (i < N)%nat -> rsum (cols (dataOut d)) (at_ (dataOut d) i) = 1.

Lemma batchobj_of q idx : trainable q -> batchobj q d idx (netOutputs q) + rgs (layers kc q) / INR (length idx) = objOf q idx.
Proof.
  intros T. unfold objOf, Net_Proofs.batchobj. f_equal. f_equal. apply rsum_ext. intros i Hi. pose proof T as (_ & _ & T2 & _). rewrite T2.
  apply rowobj_ext; auto. intros k Hk. now apply same_rows.
Qed.
Lemma batchloss_of q idx : trainable q -> idx <> [] ->
  batchloss q d idx (netOutputs q) + rgs (layers kc q) = rsum (length idx) (fun i => errorOf q (nth i idx 0%nat)) / INR (length idx).
Proof.
  intros T Hi. unfold errorOf, Net_Proofs.batchloss. rewrite rsum_plus, rsum_const. pose proof T as (_ & _ & T2 & _). rewrite T2.
  rewrite (rsum_ext _ _ (fun i => rowloss ef (netOutputs q) (netrow q (netOutputs q) 0 (at_ (dataIn d) (nth i idx 0%nat))) (at_ (dataOut d) (nth i idx 0%nat)))).
  - field. apply not_0_INR. destruct idx; [easy|discriminate].
  - intros i Hn. apply rowloss_ext; auto. intros k Hk. now apply same_rows.
Qed.

Lemma gradient_train q idx grad : trainable q -> idx <> [] -> Forall (fun i => (i < N)%nat) idx -> length grad = dim q ->
  exists q' g, Net_Model.errorGradient kc junk q idx grad = Ok (q', rsum (length idx) (fun i => errorOf q (nth i idx 0%nat)) / INR (length idx), g) /\
    trainable q' /\ params q' = params q /\ length g = dim q /\
    forall k, (k < dim q)%nat -> exists at_ : R -> net, (forall v, set q (upd (params q) k v) = Ok (at_ v)) /\
      derivable_pt_lim (fun v => objOf (at_ v) idx) (nth k (params q) 0) (nth k g 0).
Proof.
  intros T Hi Hin Hg. pose proof T as (HR & T1 & T2 & T3).
  destruct (batch_gradient kc nI nO nK (nInv junk) (nsmooth junk) (nfn junk) (nrg junk) (nok junk) isIn (nin junk) junk _ _ q d idx (params q) grad (train_good q T) T1 (train_fits q T))
    as (s1 & s2 & g & E1 & E2 & Lg & G2 & S2 & HG); auto.
  { destruct idx; [easy|simpl; lia]. } { now apply train_length. }
  { intros C. split; [now apply train_pos|]. apply Forall_forall. intros i H. rewrite Forall_forall in Hin.
    destruct (train_fits q T) as (_ & F & _). rewrite <- F. apply HCE; auto. congruence. }
  { intros s1 X E _. apply smooth_run_at. rewrite (set_params q T) in E. injection E as <-. eapply usable_smooth; eauto. now apply train_usable. }
  rewrite (set_params q T) in E1. injection E1 as <-. exists s2, g. rewrite batchloss_of in E2 by auto. split; [exact E2|].
  destruct (train_kept q s2 T) as (A & B); auto. { exact (call_errorGradient junk q idx grad s2 _ g Hi Hg E2). }
  split; auto. split; auto. split; auto. intros k Hk. destruct (HG k Hk) as (f & Ef & HD). exists f. split; auto.
  eapply D_ext; [|exact HD]. intros v. cbn beta. destruct (set_train q (upd (params q) k v) T) as (b & Eb & Tb & _). { rewrite upd_length. now apply train_length. }
  rewrite Ef in Eb. injection Eb as ->. rewrite <- (batchobj_of b idx Tb). now rewrite (train_outputs q b T Tb).
Qed.

(** the same gradient in all states with the same parameters *)
Lemma gradient_same q1 q2 idx b1 b2 r1 r2 v1 v2 g1 g2 : trainable q1 -> trainable q2 -> params q1 = params q2 -> idx <> [] -> Forall (fun i => (i < N)%nat) idx ->
  length b1 = dim q1 -> length b2 = dim q2 ->
  Net_Model.errorGradient kc junk q1 idx b1 = Ok (r1, v1, g1) -> Net_Model.errorGradient kc junk q2 idx b2 = Ok (r2, v2, g2) -> v1 = v2 /\ g1 = g2.
Proof.
  intros A1 A2 Ep Hi Hin L1 L2 E1 E2. pose proof (train_dims q1 q2 A1 A2) as Ed.
  destruct (gradient_train q1 idx b1 A1 Hi Hin L1) as (q1' & h1 & F1 & _ & _ & G1 & H1).
  destruct (gradient_train q2 idx b2 A2 Hi Hin L2) as (q2' & h2 & F2 & _ & _ & G2 & H2).
  rewrite E1 in F1. injection F1 as -> -> ->. rewrite E2 in F2. injection F2 as -> -> ->. split.
  - f_equal. apply rsum_ext. intros i _. now apply errorOf_same.
  - apply (nth_ext _ _ 0 0); [congruence|]. intros k Hk. rewrite G1 in Hk.
    destruct (H1 k Hk) as (f1 & S1 & D1). destruct (H2 k) as (f2 & S2 & D2); [congruence|]. rewrite <- Ep in D2.
    apply (D_unique (fun v => objOf (f1 v) idx) (nth k (params q1) 0)); [exact D1|]. eapply D_ext; [|exact D2]. intros v. cbn beta.
    destruct (set_train q1 (upd (params q1) k v) A1) as (a & Ea & Ta & Pa). { rewrite upd_length. now apply train_length. }
    destruct (set_train q2 (upd (params q2) k v) A2) as (b & Eb & Tb & Pb). { rewrite upd_length. now apply train_length. }
    rewrite S1 in Ea. rewrite S2 in Eb. injection Ea as ->. injection Eb as ->. apply objOf_same; auto. congruence.
Qed.

(** * The evaluator *)
Lemma applies_kept q q' : trainable q -> applies junk q q' -> trainable q' /\ params q' = params q.
Proof.
  intros T A. induction A as [q|q q1 x q2 y A IH HR HX E]; auto. destruct (IH T) as (T1 & P1). rewrite <- P1. apply train_kept; auto.
  - eapply call_apply; eauto.
  - destruct (forward_net kc nI nO nK (nInv junk) (nsmooth junk) (nfn junk) (nrg junk) (nok junk) isIn _ _ q1 x (train_good q1 T1) HX)
      as (ls & Y & Yo & Ef & Eo & SY & SYo & En & V & Sm & Fy & Fo & G').
    { intros _. split; auto. now apply train_pos. }
    unfold net_apply in E. rewrite En in E. cbn [bind] in E. injection E as <- _. unfold Net_Proofs.same_net. cbn. auto 10.
Qed.

(** * The network as objective *)
Variable evaluate : net -> res net.
Hypothesis HE : only_applies junk d1 d2 d3 evaluate cs d ef.

Lemma finished_train q : trainable q -> exists q', net_finishedIteration junk evaluate q = Ok q' /\ trainable q' /\ params q' = params q.
Proof.
  intros T. assert (T0 : trainable (useDropout kc q false)).
  { destruct T as (HR & T1 & T2 & T3). split; [|auto]. eapply reach_call; [exact HR|]. apply call_useDropout. }
  destruct (HE _ T0) as (q1 & E & A). destruct (applies_kept _ _ T0 A) as (T1 & P1). unfold net_finishedIteration. rewrite E. cbn [bind].
  eexists. split; [reflexivity|]. split; [|exact P1]. destruct T1 as (HR & T1 & T2 & T3). split; [|split; [|split]]; auto.
  - eapply reach_call; [exact HR|]. apply call_useDropout.
  - cbn. apply T.
Qed.

Lemma buffer_length q : length (buffer junk q) = dim q.
Proof. unfold buffer. now rewrite map_length, seq_length. Qed.

(** the functions of the parameters, in terms of a network [s0] *)
Variable s0 : net.
Hypothesis H0 : trainable s0.
Definition stateAt (x : vec) : net := match set s0 x with Ok q => q | _ => s0 end.
Lemma stateAt_train x : length x = dim s0 -> trainable (stateAt x) /\ params (stateAt x) = x.
Proof. intros Hx. destruct (set_train s0 x H0 Hx) as (q & E & T & P). unfold stateAt. rewrite E. auto. Qed.
Definition eN (i : nat) (x : vec) : R := errorOf (stateAt x) i.
Definition gB (idx : list nat) (x : vec) : vec :=
  match Net_Model.errorGradient kc junk (stateAt x) idx (buffer junk (stateAt x)) with Ok (_, _, g) => g | _ => [] end.

Lemma eN_of q i : trainable q -> errorOf q i = eN i (params q).
Proof.
  intros T. destruct (stateAt_train (params q)) as (T' & P'). { rewrite (train_length q T). now apply train_dims. }
  unfold eN. apply errorOf_same; auto.
Qed.
Lemma gB_of q idx : trainable q -> idx <> [] -> Forall (fun i => (i < N)%nat) idx ->
  exists q', Net_Model.errorGradient kc junk q idx (buffer junk q) = Ok (q', batchError eN idx (params q), gB idx (params q)) /\ trainable q' /\ params q' = params q.
Proof.
  intros T Hi Hin. destruct (stateAt_train (params q)) as (T' & P'). { rewrite (train_length q T). now apply train_dims. }
  destruct (gradient_train q idx (buffer junk q) T Hi Hin (buffer_length q)) as (q1 & g1 & E1 & T1 & P1 & L1 & _).
  destruct (gradient_train (stateAt (params q)) idx (buffer junk (stateAt (params q))) T' Hi Hin (buffer_length _)) as (q2 & g2 & E2 & _).
  exists q1. split; [|auto]. rewrite E1. unfold gB. rewrite E2. f_equal. f_equal.
  - f_equal. unfold batchError. f_equal. apply rsum_ext. intros i _. now apply eN_of.
  - symmetry in P'. exact (proj2 (gradient_same q _ idx _ _ _ _ _ _ _ _ T T' P' Hi Hin (buffer_length q) (buffer_length _) E1 E2)).
Qed.
Lemma gB_length idx x : length x = dim s0 -> idx <> [] -> Forall (fun i => (i < N)%nat) idx -> length (gB idx x) = dim s0.
Proof.
  intros Hx Hi Hin. destruct (stateAt_train x Hx) as (T' & P').
  destruct (gradient_train (stateAt x) idx (buffer junk (stateAt x)) T' Hi Hin (buffer_length _)) as (q2 & g2 & E2 & _ & _ & L & _).
  unfold gB. rewrite E2, L. now apply train_dims.
Qed.

Lemma single i : (i < N)%nat -> Forall (fun i => (i < N)%nat) [i].
Proof. auto. Qed.
Lemma allIn : Forall (fun i => (i < N)%nat) (seq 0 N).
Proof. apply Forall_forall. intros i H. apply in_seq in H. lia. Qed.

Lemma network_error_ok : network_error junk d1 d2 d3 cs d ef eN.
Proof.
  intros s x i T Hx Hi. destruct (set_train s x T Hx) as (s1 & E1 & T1 & P1). destruct (error_at_train s1 i T1 Hi) as (s2 & E2 & _).
  exists s1, s2. split; auto. rewrite E2. do 2 f_equal. rewrite <- P1. now apply eN_of.
Qed.

(** objOf is the mean error if there are no penalties or only one instance *)
Lemma objOf_mse q idx : trainable q -> ef = MSE -> (length idx = 1%nat \/ idx <> [] /\ Forall no_penalty cs) -> objOf q idx = batchError eN idx (params q).
Proof.
  intros T HF Hc. unfold objOf, batchError.
  rewrite (rsum_ext (length idx) (fun i => eN (nth i idx 0%nat) (params q)) (fun i => errorOf q (nth i idx 0%nat))) by (intros; symmetry; now apply eN_of).
  unfold errorOf. rewrite rsum_plus, rsum_const. rewrite HF. change (rowloss MSE) with (rowobj MSE).
  assert (INR (length idx) <> 0). { apply not_0_INR. destruct Hc as [->|(H & _)]; [lia|]. destruct idx; [easy|discriminate]. }
  destruct Hc as [Hl|(_ & HP)].
  - rewrite Hl. simpl. field.
  - rewrite (usable_noReg junk d1 d2 d3 cs q (train_usable q T) HP). field. auto.
Qed.
Lemma gradient_exact idx x : ef = MSE -> (length idx = 1%nat \/ idx <> [] /\ Forall no_penalty cs) -> Forall (fun i => (i < N)%nat) idx -> length x = dim s0 ->
  gradient_of (batchError eN idx) x (gB idx x).
Proof.
  intros HF Hc Hin Hx. assert (Hi : idx <> []) by (destruct Hc as [H|(H & _)]; [destruct idx; [discriminate|easy]|auto]).
  split; [rewrite gB_length; auto|]. intros k Hk. destruct (stateAt_train x Hx) as (T & P').
  destruct (gradient_train (stateAt x) idx (buffer junk (stateAt x)) T Hi Hin (buffer_length _)) as (q2 & g2 & E2 & _ & _ & L & HG).
  unfold gB. rewrite E2. rewrite P' in HG. destruct (HG k) as (f & Ef & HD). { rewrite (train_dims _ s0 T H0). congruence. }
  eapply D_ext; [|exact HD]. intros v. cbn beta. destruct (set_train (stateAt x) (upd x k v) T) as (b & Eb & Tb & Pb).
  { rewrite upd_length, Hx. now apply train_dims. }
  rewrite Ef in Eb. injection Eb as ->. rewrite (objOf_mse b idx Tb HF Hc). now rewrite Pb.
Qed.

Hypothesis HN : (0 < N)%nat.
Lemma net_behaves : behaves (net_objective junk evaluate) trainable (dim s0) N (batchError eN (seq 0 N)) (gB (seq 0 N)) eN (fun i => gB [i]).
Proof.
  assert (Hs : seq 0 N <> []) by (destruct N; [lia|discriminate]).
  split.
  - intros x Hx. split; [apply gB_length; auto using allIn|]. intros i Hi. apply gB_length; auto. discriminate.
  - exists (fun x q => trainable q /\ params q = x). split.
    + intros q T. split; [now apply train_dims|]. split; [now apply train_examples|]. intros x Hx. apply set_train; auto. rewrite Hx. now apply train_dims.
    + intros x q (T & <-). split; auto. split; auto. split.
      { destruct (finished_train q T) as (q' & E & T' & P'). exists q'. split; [exact E|auto]. }
      split. { destruct (error_train q T) as (q' & E & T' & P'). exists q'. split; [|auto]. cbn. rewrite E. cbn [bind]. do 2 f_equal. unfold batchError.
        rewrite seq_length, (nth_seq_ext N (fun i => eN i (params q))). f_equal. apply rsum_ext. intros. now apply eN_of. }
      split. { destruct (gB_of q (seq 0 N) T Hs allIn) as (q' & E & T' & P'). exists q'. split; [|auto]. cbn. rewrite (train_examples q T), E. reflexivity. }
      intros i Hi. split.
      { destruct (error_at_train q i T Hi) as (q' & E & T' & P'). exists q'. split; [|auto]. cbn. rewrite E. cbn [bind]. now rewrite eN_of. }
      destruct (gB_of q [i] T) as (q' & E & T' & P'); auto; [discriminate|]. exists q'. split; [|auto]. cbn. rewrite E. cbn [bind].
      do 3 f_equal. unfold batchError. cbn. field.
Qed.
End Train.
