(** Properties of restricted Boltzmann machines (C66 - C68). *)
From Verif Require Import Base BaseFacts Matrix RSum MatOps Vec Deriv Acc Activation_Model Activation_Proofs
  Layer_Model Layer_Spec Layer_Layout Layer_Proofs FC_Model FC_Proofs IO_Model SAE_Model SAE_Props
  RBM_Model RBM_Spec RBM_Proofs RBMLayer_Proofs RBMUse_Spec RBMUse_Proofs.
Local Open Scope R_scope.

(** A machine whose functions have been called in any order since its construction; [p] are
    the last parameters that were set, [data] is the last training set. *)
Definition rused junk u M H cdN backprop reg (p : list R) (data : list (list R)) (s : rbm) : Prop :=
  exists w s0, rbm_new junk M H cdN backprop reg w = Ok s0 /\ rbm_use junk u s0 M p data s.

Lemma rused_ready junk u M H cdN backprop reg p data s :
  rused junk u M H cdN backprop reg p data s -> rready M H cdN backprop reg p data s.
Proof.
  intros (w & s0 & E & U). destruct (rbm_new_ready junk M H cdN backprop reg w) as (s1 & E1 & R & _).
  assert (s1 = s0) by congruence. subst s1. eapply rbm_use_ready; eauto.
Qed.

(** * C66: the gradient *)
Section Gradient.
Context (junk : nat -> nat -> R) (u : nat -> R) (M H cdN : nat) (backprop : bool) (reg : Regularization).

Lemma penalty_sign w : 0 <= l1Penalty reg -> 0 <= l2Penalty reg -> (0 < l1Penalty reg -> w <> 0) ->
  penalty reg w = l1Penalty reg * sign w + l2Penalty reg * w.
Proof.
  intros H1 H2 Hw. unfold penalty. f_equal.
  - destruct (Rltb 0 (l1Penalty reg)) eqn:E.
    + apply Rltb_true in E. specialize (Hw E). unfold sign. destruct (Rlt_dec 0 w).
      * rewrite Rabs_right by lra. field. lra.
      * destruct (Rlt_dec w 0); [|lra]. rewrite Rabs_left by lra. field. lra.
    + apply Rltb_false in E. replace (l1Penalty reg) with 0 by lra. ring.
  - destruct (Rltb 0 (l2Penalty reg)) eqn:E; [auto|]. apply Rltb_false in E. replace (l2Penalty reg) with 0 by lra. ring.
Qed.

Lemma cd_split p k N v g : 0 <= l1Penalty reg -> 0 <= l2Penalty reg ->
  (0 < l1Penalty reg -> forall j i, (j < H)%nat -> (i < M)%nat -> rw H p j i <> 0) ->
  cdGradient u M H cdN reg p k N v g ->
  exists g0, contrastiveDivergence M H p u k N v cdN g0 /\ addPenalties M H (-1) (l1Penalty reg) (l2Penalty reg) p g0 g.
Proof.
  intros P1 P2 P3 (gpos & gneg & S1 & S2 & L & A & B & C).
  set (g0 := map (fun i => gneg.[i] - gpos.[i]) (seq 0 (M * H + M + H))).
  assert (F : forall i, (i < M * H + M + H)%nat -> g0.[i] = gneg.[i] - gpos.[i]).
  { intros i Hi. unfold g0. now rewrite nth_map_seq. }
  exists g0. split.
  - exists gpos, gneg. split; [auto|]. split; [exact S2|]. split; [|exact F]. unfold g0. now rewrite map_length, seq_length.
  - split; [exact L|]. split; [|split].
    + intros j i Hj Hi. rewrite A, penalty_sign by auto. unfold rw. rewrite F by nia. unfold rw. ring.
    + intros i Hi. rewrite B by auto. unfold biasV. rewrite F by nia. ring.
    + intros j Hj. rewrite C by auto. unfold biasH. rewrite F by nia. ring.
Qed.

(** errorGradient over a range of instances.  If penalties are used, they are subtracted. *)
Theorem C66_error_gradient p data s ns :
  rused junk u M H cdN backprop reg p data s -> data <> [] -> (0 < cdN)%nat ->
  (forall n, In n ns -> (n < length data)%nat) ->
  0 <= l1Penalty reg -> 0 <= l2Penalty reg ->
  (0 < l1Penalty reg -> forall j i, (j < H)%nat -> (i < M)%nat -> rw H p j i <> 0) ->
  let v n i := (nth (nth n ns 0%nat) data []).[i] in
  let N := length ns in
  exists s' g g0,
    rbm_errorGradient junk u s ns =
      Ok (s', rsum N (fun n => rsum M (fun i => (v n i - probVAt M H p u (draws s) N v (cdN - 1) n i) ^ 2)), g) /\
    contrastiveDivergence M H p u (draws s) N v cdN g0 /\
    addPenalties M H (-1) (l1Penalty reg) (l2Penalty reg) p g0 g /\
    draws s' = (draws s + cdN * (N * H + N * M) + N * H)%nat.
Proof.
  intros U Hd Hcd Hns P1 P2 P3 v N. apply rused_ready in U. destruct U as (I & F & Q & D & L).
  destruct D as [D|(_ & D)]; [|contradiction].
  destruct (errorGradient_ok junk u M H cdN backprop reg s data ns I D) as (s' & e & E & K & Dr & G & Ee).
  - intros n Hn. specialize (Hns n Hn). destruct (nth_error data n) as [x|] eqn:En.
    + exists x. split; auto. apply L. eapply nth_error_In; eauto.
    + apply nth_error_None in En. lia.
  - exact Hcd.
  - rewrite F in G, Ee. destruct (cd_split _ _ _ _ _ P1 P2 P3 G) as (g0 & G0 & G1).
    exists s', (rgrad s'), g0. rewrite E. subst e. split; [reflexivity|]. auto.
Qed.

(** gradient of one instance *)
Theorem C66_instance_gradient p data s n :
  rused junk u M H cdN backprop reg p data s -> (n < length data)%nat -> (0 < cdN)%nat ->
  0 <= l1Penalty reg -> 0 <= l2Penalty reg ->
  (0 < l1Penalty reg -> forall j i, (j < H)%nat -> (i < M)%nat -> rw H p j i <> 0) ->
  exists s' g g0,
    rbm_gradientN junk u s n = Ok (s', g) /\
    contrastiveDivergence M H p u (draws s) 1 (fun _ i => (nth n data []).[i]) cdN g0 /\
    addPenalties M H (-1) (l1Penalty reg) (l2Penalty reg) p g0 g /\
    draws s' = (draws s + cdN * (H + M) + H)%nat.
Proof.
  intros U Hn Hcd P1 P2 P3. apply rused_ready in U. destruct U as (I & F & Q & D & L).
  destruct D as [D|(_ & D)]; [|subst data; cbn in Hn; lia].
  destruct (gradientN_ok junk u M H cdN backprop reg s M data n (nth n data []) I D) as (s' & E & K & G & Dr); auto.
  - apply nth_error_nth'. auto.
  - apply L. now apply nth_In.
  - rewrite F in G. destruct (cd_split _ _ _ _ _ P1 P2 P3 G) as (g0 & G0 & G1).
    exists s', (rgrad s'), g0. auto.
Qed.

(** gradient of the training set: the sum of the gradients of the instances *)
Theorem C66_gradient p data s :
  rused junk u M H cdN backprop reg p data s -> data <> [] -> (0 < cdN)%nat ->
  0 <= l1Penalty reg -> 0 <= l2Penalty reg ->
  (0 < l1Penalty reg -> forall j i, (j < H)%nat -> (i < M)%nat -> rw H p j i <> 0) ->
  exists s' g (gs g0s : nat -> list R),
    rbm_gradient junk u s = Ok (s', g) /\ length g = (M * H + M + H)%nat /\
    (forall i, (i < M * H + M + H)%nat -> g.[i] = rsum (length data) (fun n => (gs n).[i])) /\
    forall n, (n < length data)%nat ->
      contrastiveDivergence M H p u (draws s + n * (cdN * (H + M) + H)) 1 (fun _ i => (nth n data []).[i]) cdN (g0s n) /\
      addPenalties M H (-1) (l1Penalty reg) (l2Penalty reg) p (g0s n) (gs n).
Proof.
  intros U Hd Hcd P1 P2 P3. pose proof U as U0. apply rused_ready in U. destruct U as (I & F & Q & D & L).
  destruct D as [D|(_ & D)]; [|contradiction].
  unfold rbm_gradient, theData. rewrite D. cbn [bind snd].
  replace (rbm_dimension s) with (M * H + M + H)%nat by (unfold rbm_dimension; destruct I as (C & _); now rewrite C).
  set (dim := (M * H + M + H)%nat).
  match goal with |- context [for_ _ ?b _] =>
    destruct (for_inv (fun t (x : rbm * list R) => rused junk u M H cdN backprop reg p data (fst x) /\
      draws (fst x) = (draws s + t * (cdN * (H + M) + H))%nat /\ length (snd x) = dim /\
      exists gs g0s : nat -> list R, (forall i, (i < dim)%nat -> (snd x).[i] = rsum t (fun n => (gs n).[i])) /\
      forall n, (n < t)%nat ->
      contrastiveDivergence M H p u (draws s + n * (cdN * (H + M) + H)) 1 (fun _ i => (nth n data []).[i]) cdN (g0s n) /\
      addPenalties M H (-1) (l1Penalty reg) (l2Penalty reg) p (g0s n) (gs n)) b (length data) (s, repeat 0 dim))
      as ((s' & g) & E & U' & _ & Lg & gs & g0s & Fg & Fn) end.
  - cbn [fst snd]. split; [auto|]. split; [lia|]. split; [apply repeat_length|].
    exists (fun _ => []), (fun _ => []). split; [|intros; lia]. intros i Hi. cbn [rsum]. apply nth_repeat.
  - intros t (q & g) Ht (Uq & Dq & Lg & gs & g0s & Fg & Fn). cbn [fst snd] in *.
    destruct (C66_instance_gradient p data q t Uq Ht Hcd P1 P2 P3) as (q' & gn & g0 & E & G0 & G1 & Dq').
    rewrite E. cbn [bind]. unfold vaddto. assert (Ln : length gn = dim) by apply G1. rewrite Lg, Ln, Nat.eqb_refl. cbn [bind].
    eexists. split; [reflexivity|]. cbn [fst snd]. split; [|split; [|split]].
    + destruct Uq as (w & s0 & Es & Us). exists w, s0. split; auto. eapply ru_gradientN; eauto.
    + rewrite Dq', Dq. lia.
    + now rewrite map_length, seq_length.
    + exists (fun n => if Nat.eqb n t then gn else gs n), (fun n => if Nat.eqb n t then g0 else g0s n). split.
      * intros i Hi. rewrite nth_map_seq by auto. rewrite Fg by auto. cbn [rsum]. rewrite Nat.eqb_refl. f_equal.
        apply rsum_ext. intros n Hn. destruct (Nat.eqb_spec n t); [lia|auto].
      * intros n Hn. destruct (Nat.eqb_spec n t) as [->|].
        { rewrite <- Dq. auto. }
        apply Fn. lia.
  - cbn [fst snd] in *. exists s', g, gs, g0s. auto.
Qed.
End Gradient.
Print Assumptions C66_error_gradient.
Print Assumptions C66_instance_gradient.
Print Assumptions C66_gradient.

(** The statistics of the instances are the derivatives of their free energy (the sum), so that
    the gradient points from smaller to larger free energy of the data. *)
Lemma softplus_derivative x : -45 <= x <= 45 -> / (1 + exp x) * (0 + exp x * 1) = sigma x.
Proof.
  intros Hx. unfold sigma. cbn [act_fun]. rewrite (proj2 (Rltb_false _ _)) by lra. rewrite (proj2 (Rltb_false _ _)) by lra.
  rewrite exp_Ropp. pose proof (exp_pos x). field. split; lra.
Qed.

Lemma D_free_energy M H p v k : length p = (M * H + M + H)%nat -> (k < length p)%nat ->
  (forall j, (j < H)%nat -> -45 <= inputH M H p v j <= 45) ->
  D (fun t => freeEnergy M H (upd p k t) v) p.[k]
    (- (rsum M (fun i => (if Nat.eqb (M * H + i) k then 1 else 0) * v i) +
        rsum H (fun j => probH M H p v j * (rsum M (fun i => v i * (if Nat.eqb (i * H + j) k then 1 else 0)) +
                                            (if Nat.eqb (M * H + M + j) k then 1 else 0))))).
Proof.
  intros Lp Hk Hin. unfold freeEnergy.
  apply (D_eq _ _ (- rsum M (fun i => (if Nat.eqb (M * H + i) k then 1 else 0) * v i) -
    rsum H (fun j => probH M H p v j * (rsum M (fun i => v i * (if Nat.eqb (i * H + j) k then 1 else 0)) +
                                            (if Nat.eqb (M * H + M + j) k then 1 else 0))))); [ring|].
  apply D_minus.
  - apply D_opp. apply (D_sum M (fun i t => biasV M H (upd p k t) i * v i)). intros i Hi.
    apply D_scal_r. apply D_upd. auto.
  - apply (D_sum H (fun j t => ln (1 + exp (inputH M H (upd p k t) v j)))). intros j Hj.
    assert (Di : D (fun t => inputH M H (upd p k t) v j) p.[k]
      (rsum M (fun i => v i * (if Nat.eqb (i * H + j) k then 1 else 0)) + (if Nat.eqb (M * H + M + j) k then 1 else 0))).
    { unfold inputH. apply D_plus.
      - apply (D_sum M (fun i t => v i * rw H (upd p k t) j i)). intros i Hi. apply D_scal. now apply D_upd.
      - now apply D_upd. }
    set (a := rsum M _ + _) in *. clearbody a.
    assert (E0 : inputH M H (upd p k p.[k]) v j = inputH M H p v j) by now rewrite upd_id.
    pose proof (D_ln _ _ _ (D_plus _ _ _ _ _ (D_const 1 p.[k]) (D_exp _ _ _ Di))) as Q. cbn beta in Q.
    rewrite E0 in Q. pose proof (exp_pos (inputH M H p v j)). eapply D_eq; [|apply Q; lra].
    unfold probH. rewrite <- (softplus_derivative _ (Hin j Hj)). ring.
Qed.

Theorem C66_positive_phase M H p N v gpos k :
  length p = (M * H + M + H)%nat -> (k < length p)%nat ->
  (forall n j, (n < N)%nat -> (j < H)%nat -> -45 <= inputH M H p (v n) j <= 45) ->
  statistics M H N v (fun n => probH M H p (v n)) gpos ->
  derivable_pt_lim (fun t => rsum N (fun n => freeEnergy M H (upd p k t) (v n))) p.[k] (- gpos.[k]).
Proof.
  intros Lp Hk Hin (L & A & B & C).
  eapply D_eq; [|apply (D_sum N (fun n t => freeEnergy M H (upd p k t) (v n))); intros n Hn; apply D_free_energy; auto].
  rewrite rsum_opp. f_equal. rewrite Lp in Hk.
  destruct (rdim_split M H k Hk) as [(j & i & Hj & Hi & ->)|[(i & Hi & ->)|(j & Hj & ->)]].
  - transitivity (rw H gpos j i); [|reflexivity]. rewrite (A j i Hj Hi). apply rsum_ext. intros n Hn.
    rewrite (rsum_0 M) by (intros i' Hi'; destruct (Nat.eqb_spec (M * H + i') (i * H + j)); [nia|ring]).
    rewrite (rsum_single H j _ Hj).
    + rewrite (rsum_single M i _ Hi).
      * rewrite Nat.eqb_refl. destruct (Nat.eqb_spec (M * H + M + j) (i * H + j)); [nia|ring].
      * intros i' Hi' Ni. destruct (Nat.eqb_spec (i' * H + j) (i * H + j)); [nia|ring].
    + intros j' Hj' Nj. rewrite (rsum_0 M).
      * destruct (Nat.eqb_spec (M * H + M + j') (i * H + j)); [nia|ring].
      * intros i' Hi'. destruct (Nat.eqb_spec (i' * H + j') (i * H + j)) as [E|]; [|ring].
        exfalso. assert (i' = i) by nia. subst. nia.
  - transitivity (biasV M H gpos i); [|reflexivity]. rewrite (B i Hi). apply rsum_ext. intros n Hn.
    rewrite (rsum_single M i _ Hi).
    + rewrite Nat.eqb_refl. rewrite (rsum_0 H); [ring|]. intros j Hj. rewrite (rsum_0 M).
      * destruct (Nat.eqb_spec (M * H + M + j) (M * H + i)); [lia|ring].
      * intros i' Hi'. destruct (Nat.eqb_spec (i' * H + j) (M * H + i)); [nia|ring].
    + intros i' Hi' Ni. destruct (Nat.eqb_spec (M * H + i') (M * H + i)); [lia|ring].
  - transitivity (biasH M H gpos j); [|reflexivity]. rewrite (C j Hj). apply rsum_ext. intros n Hn.
    rewrite (rsum_0 M) by (intros i' Hi'; destruct (Nat.eqb_spec (M * H + i') (M * H + M + j)); [lia|ring]).
    rewrite (rsum_single H j _ Hj).
    + rewrite Nat.eqb_refl. rewrite (rsum_0 M); [ring|]. intros i Hi. destruct (Nat.eqb_spec (i * H + j) (M * H + M + j)); [nia|ring].
    + intros j' Hj' Nj. rewrite (rsum_0 M).
      * destruct (Nat.eqb_spec (M * H + M + j') (M * H + M + j)); [lia|ring].
      * intros i Hi. destruct (Nat.eqb_spec (i * H + j') (M * H + M + j)); [nia|ring].
Qed.
Print Assumptions C66_positive_phase.

(** ** Reconstructions and error *)
Section Reconstruction.
Context (junk : nat -> nat -> R) (u : nat -> R) (M H cdN : nat) (backprop : bool) (reg : Regularization).

Theorem C66_reconstruction p data s n steps :
  rused junk u M H cdN backprop reg p data s -> (n < length data)%nat ->
  let x := nth n data [] in
  exists s' P, rbm_reconstructProb junk u s n steps = Ok (s', P) /\ rows P = 1%nat /\ cols P = M /\
    draws s' = (draws s + steps * (H + M))%nat /\
    forall i, (i < M)%nat -> at_ P 0 i =
      match steps with O => x.[i] | S t => probVAt M H p u (draws s) 1 (fun _ i => x.[i]) t 0 i end.
Proof.
  intros U Hn x. apply rused_ready in U. destruct U as (I & F & Q & D & L).
  destruct D as [D|(_ & D)]; [|subst data; cbn in Hn; lia].
  assert (Lx : length x = M) by (apply L, nth_In; auto).
  unfold rbm_reconstructProb, getInst, theData. rewrite D. cbn [bind snd]. rewrite (vget_nth data n [] Hn). cbn [bind]. fold x.
  match goal with |- context [for_ steps ?b ?s1] =>
    destruct (for_inv (fun t (q : rbm) => rsame H s q /\ size_is (mv (rsmp q)) 1 M /\ size_is (mpv (rsmp q)) 1 M /\
      draws q = (draws s + t * (H + M))%nat /\
      (forall i, (i < M)%nat -> at_ (mv (rsmp q)) 0 i = visibleAt M H p u (draws s) 1 (fun _ i => x.[i]) t 0 i) /\
      (forall i, (i < M)%nat -> at_ (mpv (rsmp q)) 0 i =
        match t with O => x.[i] | S t => probVAt M H p u (draws s) 1 (fun _ i => x.[i]) t 0 i end)) b steps s1)
      as (q & E & K & Sv & (S1 & S2) & Dq & _ & Fp) end.
  - cbn. split; [|split; [split; auto|split; [split; auto|split; [unfold draws; cbn; lia|auto]]]].
    destruct I as (_ & _ & Ch & _). unfold rsame. cbn. auto 12.
  - intros t q Ht (K & Sv & Sp & Dq & Fv & _). pose proof (rsame_inv _ _ _ _ _ _ _ K I) as Iq.
    assert (Fq : rflat (rpar q) = p) by (destruct K as (_ & E & _); now rewrite E).
    destruct (withH_ok junk u M H cdN backprop reg 1 q Iq Sv) as (q1 & E1 & K1 & V1 & V2 & V3 & T1 & T2 & _ & G1).
    rewrite E1. cbn [bind]. pose proof (rsame_inv _ _ _ _ _ _ _ K1 Iq) as Iq1.
    assert (Fq1 : rflat (rpar q1) = p) by (destruct K1 as (_ & E & _); now rewrite E).
    destruct (withV_ok u M H cdN backprop reg 1 q1 Iq1) as (q2 & E2 & K2 & W1 & W2 & W3 & T3 & T4 & G2 & G3); [now rewrite V2|auto|].
    exists q2. split; [exact E2|]. split; [exact (rsame_trans _ _ _ _ (rsame_trans _ _ _ _ K K1) K2)|].
    split; [auto|]. split; [auto|]. unfold draws in *. split; [lia|]. rewrite Fq in G1. rewrite Fq1 in G2, G3.
    assert (Hid : forall j, (j < H)%nat -> at_ (mh (rsmp q1)) 0 j = hiddenAt M H p u (mk (rsmp s)) 1 (fun _ i => x.[i]) t 0 j).
    { intros j Hj. rewrite G1 by auto. unfold hiddenAt. f_equal; [now apply probH_ext|]. f_equal. lia. }
    split.
    + intros i Hi. rewrite G3 by auto. rewrite visibleAt_S. f_equal; [unfold probVAt; now apply probV_ext|]. f_equal. lia.
    + intros i Hi. rewrite G2 by auto. unfold probVAt. now apply probV_ext.
  - rewrite E. cbn [bind]. eexists q, _. split; [reflexivity|]. auto.
Qed.

Theorem C66_instance_error p data s n :
  rused junk u M H cdN backprop reg p data s -> (n < length data)%nat ->
  let x := nth n data [] in
  exists s', rbm_errorN junk u s n =
    Ok (s', rsum M (fun i => (probVAt M H p u (draws s) 1 (fun _ i => x.[i]) 0 0 i - x.[i]) ^ 2)) /\
    draws s' = (draws s + (H + M))%nat.
Proof.
  intros U Hn x. destruct (C66_reconstruction p data s n 1 U Hn) as (s' & P & E & R1 & R2 & Dr & Fp).
  assert (K : rsame H s s').
  { eapply reconstruct_keep; [|exact E]. pose proof (rused_ready _ _ _ _ _ _ _ _ _ _ U) as Rd. eapply rready_okH; eauto. }
  apply rused_ready in U. destruct U as (I & F & Q & D & L).
  destruct D as [D|(_ & D)]; [|subst data; cbn in Hn; lia]. assert (Lx : length x = M) by (apply L, nth_In; auto).
  unfold rbm_errorN. rewrite E. cbn [bind]. unfold getInst, theData.
  assert (D' : rdata s' = Some (M, data)) by (destruct K as (_ & _ & _ & _ & Ed & _); congruence).
  rewrite D'. cbn [bind snd]. rewrite (vget_nth data n [] Hn). cbn [bind]. fold x.
  rewrite (mmap2_Ok _ _ _ 1 M); [|split; auto|split; auto]. cbn [bind].
  exists s'. split; [|lia]. do 2 f_equal. unfold msum. cbn [rows cols mmap at_ rsum]. rewrite Rplus_0_l.
  apply rsum_ext. intros i Hi. rewrite Fp by auto. cbn [rowOf at_]. fold x. ring.
Qed.

(** the error of the training set is the sum; the machine draws new random numbers for each instance *)
Theorem C66_error p data s :
  rused junk u M H cdN backprop reg p data s -> data <> [] ->
  exists s', rbm_error junk u s = Ok (s', rsum (length data) (fun n => rsum M (fun i =>
    (probVAt M H p u (draws s + n * (H + M)) 1 (fun _ i => (nth n data []).[i]) 0 0 i - (nth n data []).[i]) ^ 2))).
Proof.
  intros U Hd. pose proof U as U0. apply rused_ready in U. destruct U as (I & F & Q & D & L).
  destruct D as [D|(_ & D)]; [|contradiction].
  unfold rbm_error, theData. rewrite D. cbn [bind snd].
  match goal with |- context [for_ _ ?b _] =>
    destruct (for_inv (fun t (x : rbm * R) => rused junk u M H cdN backprop reg p data (fst x) /\
      draws (fst x) = (draws s + t * (H + M))%nat /\
      snd x = rsum t (fun n => rsum M (fun i =>
        (probVAt M H p u (draws s + n * (H + M)) 1 (fun _ i => (nth n data []).[i]) 0 0 i - (nth n data []).[i]) ^ 2)))
      b (length data) (s, 0)) as ((s' & e) & E & _ & _ & Fe) end.
  - cbn. split; [auto|split; [lia|auto]].
  - intros t (q & e) Ht (Uq & Dq & Fq). cbn [fst snd] in *.
    destruct (C66_instance_error p data q t Uq Ht) as (q' & E & Dq'). rewrite E. cbn [bind].
    eexists. split; [reflexivity|]. cbn [fst snd]. split; [|split].
    + destruct Uq as (w & s0 & Es & Us). exists w, s0. split; auto. eapply ru_errorN; eauto.
    + lia.
    + rewrite Fq. cbn [rsum]. now rewrite Dq.
  - cbn [fst snd] in *. exists s'. rewrite E. now rewrite Fe.
Qed.
End Reconstruction.
Print Assumptions C66_reconstruction.
Print Assumptions C66_error.

(** * C67: the learner *)
Section Learner.
Context (junk : nat -> nat -> R) (u : nat -> R) (M H cdN : nat) (backprop : bool) (reg : Regularization).

(** [w] are the random numbers for the weights *)
Theorem C67_construction w :
  exists s0, rbm_new junk M H cdN backprop reg w = Ok s0 /\
    let p := rbm_currentParameters s0 in
    length p = (M * H + M + H)%nat /\ rbm_dimension s0 = length p /\
    (forall j i, (j < H)%nat -> (i < M)%nat -> rw H p j i = w j i) /\
    (forall i, (i < M)%nat -> biasV M H p i = 0) /\ (forall j, (j < H)%nat -> biasH M H p j = 0).
Proof.
  destruct (rbm_new_ready junk M H cdN backprop reg w) as (s0 & E & (I & F & _) & _ & W & B1 & B2).
  exists s0. split; auto. pose proof I as (C & SP & _). cbn zeta.
  assert (Lp : length (rbm_currentParameters s0) = (M * H + M + H)%nat) by (rewrite <- F; now apply rflat_length).
  split; [auto|]. split; [unfold rbm_dimension; rewrite C; symmetry; auto|]. auto.
Qed.

Theorem C67_usable p data s :
  rused junk u M H cdN backprop reg p data s ->
  (forall p', length p' = rbm_dimension s ->
     exists q, rbm_setParameters s p' = Ok q /\ rused junk u M H cdN backprop reg p' data q) /\
  (forall data', (forall v, In v data' -> length v = M) ->
     rused junk u M H cdN backprop reg p data' (rbm_trainingSet s M data')).
Proof.
  intros U. pose proof (rused_ready _ _ _ _ _ _ _ _ _ _ U) as R. destruct U as (w & s0 & E & U). pose proof R as (I & _).
  pose proof I as (C & _). split.
  - intros p' L. assert (L' : length p' = rdim M H) by (unfold rbm_dimension in L; rewrite C in L; exact L).
    destruct (rbm_setParameters_ok M H cdN backprop reg s p' I L') as (q & Eq & _). exists q. split; auto.
    exists w, s0. split; auto. eapply ru_set; eauto.
  - intros data' L. exists w, s0. split; auto. eapply ru_train; eauto.
Qed.

Theorem C67_current_parameters p data s :
  rused junk u M H cdN backprop reg p data s -> rbm_currentParameters s = p.
Proof. intros U. apply rused_ready in U. apply U. Qed.

(** The output for an instance are the probabilities of the hidden units, whatever the random
    numbers are and whatever the machine has been used for. *)
Theorem C67_output p data s x :
  rused junk u M H cdN backprop reg p data s -> length x = M ->
  exists s', rbm_apply junk u s x = Ok (s', map (probH M H p (fun i => x.[i])) (seq 0 H)).
Proof.
  intros U Lx. apply rused_ready in U. destruct U as (I & F & _). unfold rbm_apply.
  pose proof (setV_same M H cdN backprop reg s (rowOf x) I) as K0. pose proof (rsame_inv _ _ _ _ _ _ _ K0 I) as I0.
  destruct (withH_ok junk u M H cdN backprop reg 1 (setV s (rowOf x)) I0) as (s' & E & _ & _ & _ & _ & S1 & _ & F1 & _); [split; auto|].
  rewrite E. cbn [bind]. rewrite (vecOf_ok _ H S1). cbn [bind]. exists s'. do 2 f_equal. apply map_ext_in. intros j Hj.
  apply in_seq in Hj. rewrite F1 by lia. change (rpar (setV s (rowOf x))) with (rpar s). rewrite F. reflexivity.
Qed.

Theorem C67_batch p data s X :
  rused junk u M H cdN backprop reg p data s -> cols X = M ->
  exists s' Z, rbm_encode junk u s X = Ok (s', Z) /\ rows Z = rows X /\ cols Z = H /\
    forall n j, (j < H)%nat -> at_ Z n j = probH M H p (at_ X n) j.
Proof.
  intros U HX. apply rused_ready in U. destruct U as (I & F & _). unfold rbm_encode.
  pose proof (setV_same M H cdN backprop reg s X I) as K0. pose proof (rsame_inv _ _ _ _ _ _ _ K0 I) as I0.
  destruct (withH_ok junk u M H cdN backprop reg (rows X) (setV s X) I0) as (s' & E & _ & _ & _ & _ & (S1 & S2) & _ & F1 & _); [split; auto|].
  rewrite E. cbn [bind]. eexists s', _. split; [reflexivity|]. split; [auto|]. split; [auto|].
  intros n j Hj. rewrite F1 by auto. change (rpar (setV s X)) with (rpar s). rewrite F. reflexivity.
Qed.

Lemma some_rbm p data : length p = (M * H + M + H)%nat ->
  (forall v, In v data -> length v = M) -> exists s, rused junk u M H cdN backprop reg p data s.
Proof.
  intros Lp Hd. destruct (C67_construction (fun _ _ => 1)) as (s0 & E & L & Dm & _).
  assert (U0 : rused junk u M H cdN backprop reg (rbm_currentParameters s0) [] s0).
  { exists (fun _ _ => 1), s0. split; auto. constructor. }
  destruct (C67_usable _ _ _ U0) as (A & _). destruct (A p) as (q & _ & U1); [congruence|].
  destruct (C67_usable _ _ _ U1) as (_ & B). eauto.
Qed.
End Learner.
Print Assumptions C67_construction.
Print Assumptions C67_output.
Print Assumptions C67_batch.

(** 2 visible and 3 hidden units, three rounds of sampling; all random numbers are 1/3 *)
Example C66_case : exists s,
  rused (fun _ _ => 7) (fun _ => 1/3) 2 3 3 true (mkReg (1/10) (1/100) 0) (repeat (1/2) 11) [[1; 0]; [0; 1]] s /\
  (forall j i, (j < 3)%nat -> (i < 2)%nat -> rw 3 (repeat (1/2) 11) j i <> 0) /\
  forall v j, In v [[1; 0]; [0; 1]] -> (j < 3)%nat -> -45 <= inputH 2 3 (repeat (1/2) 11) (fun i => v.[i]) j <= 45.
Proof.
  destruct (some_rbm (fun _ _ => 7) (fun _ => 1/3) 2 3 3 true (mkReg (1/10) (1/100) 0) (repeat (1/2) 11) [[1; 0]; [0; 1]]) as (s & U).
  - reflexivity.
  - intros v [<-|[<-|[]]]; reflexivity.
  - exists s. split; auto. split.
    + intros j i Hj Hi. destruct j as [|[|[|]]]; [..|lia]; (destruct i as [|[|]]; [..|lia]); unfold rw; cbn; lra.
    + intros v j [<-|[<-|[]]] Hj; (destruct j as [|[|[|]]]; [..|lia]); unfold inputH, rw, biasH; cbn; lra.
Qed.

(** ** What is wrong with the gradient *)
Lemma sigma_mono x y : -45 <= x -> x < y -> y <= 45 -> 0 < sigma x < sigma y.
Proof.
  intros H1 H2 H3. unfold sigma. cbn [act_fun]. rewrite !(proj2 (Rltb_false _ _)) by lra.
  pose proof (exp_pos (- x)). pose proof (exp_pos (- y)). pose proof (exp_increasing (- y) (- x) ltac:(lra)).
  split.
  - apply Rdiv_lt_0_compat; lra.
  - unfold Rdiv. rewrite !Rmult_1_l. apply Rinv_lt_contravar; [nra|lra].
Qed.

(** The negative statistics mix two things: probabilities of visible units and hidden
    probabilities that belong to other (sampled) visible units.  They are not the statistics
    of any visible vector: one visible and one hidden unit, weight 1, no biases, any
    instance, any random numbers, any number of rounds. *)
Theorem C66_negative_phase_refuted (draw : nat -> R) (k cd : nat) (v : nat -> nat -> R) (g : list R) :
  (0 < cd)%nat -> negativeStatistics 1 1 [1; 0; 0] draw k 1 v cd g ->
  forall w : nat -> R, ~ statistics 1 1 1 (fun _ => w) (fun _ => probH 1 1 [1; 0; 0] w) g.
Proof.
  intros Hcd (_ & _ & V & Hh) w (_ & _ & V' & Hh').
  specialize (V 0%nat ltac:(lia)). specialize (Hh 0%nat ltac:(lia)).
  specialize (V' 0%nat ltac:(lia)). specialize (Hh' 0%nat ltac:(lia)). rewrite V in V'. rewrite Hh in Hh'. cbn [rsum] in V', Hh'.
  destruct cd as [|t]; [lia|]. replace (S t - 1)%nat with t in V' by lia.
  assert (B : forall q x, bernoulli q x = 0 \/ bernoulli q x = 1) by (intros; unfold bernoulli; destruct (Rlt_dec _ _); auto).
  set (pv := probVAt 1 1 [1; 0; 0] draw k 1 v t 0 0) in V'.
  assert (Pv : 0 < pv < 1).
  { unfold pv, probVAt, probV, hiddenAt, rw, biasV. cbn [rsum].
    match goal with |- context [bernoulli ?q ?x] => destruct (B q x) as [-> | ->] end; cbn [Nat.mul Nat.add nth].
    - split; [|apply Rlt_le_trans with (sigma 45)].
      + pose proof (sigma_mono (-45) (0 + 0 * 1 + 0)). lra.
      + apply sigma_mono; lra.
      + unfold sigma. cbn [act_fun]. rewrite !(proj2 (Rltb_false _ _)) by lra. pose proof (exp_pos (- (45))).
        apply Rmult_le_reg_r with (1 + exp (- (45))); [lra|]. unfold Rdiv. rewrite Rmult_assoc, Rinv_l by lra. lra.
    - split; [|apply Rlt_le_trans with (sigma 45)].
      + pose proof (sigma_mono (-45) (0 + 1 * 1 + 0)). lra.
      + apply sigma_mono; lra.
      + unfold sigma. cbn [act_fun]. rewrite !(proj2 (Rltb_false _ _)) by lra. pose proof (exp_pos (- (45))).
        apply Rmult_le_reg_r with (1 + exp (- (45))); [lra|]. unfold Rdiv. rewrite Rmult_assoc, Rinv_l by lra. lra. }
  unfold probH, inputH, rw, biasH in Hh'. cbn [rsum Nat.mul Nat.add nth] in Hh'. rewrite visibleAt_S in Hh'. fold pv in Hh'.
  rewrite !Rplus_0_l in V', Hh'. assert (Ew : w 0%nat = pv) by lra. rewrite Ew in Hh'.
  match goal with H : context [bernoulli ?q ?x] |- _ => destruct (B q x) as [E|E]; rewrite E in H end.
  - pose proof (sigma_mono (0 * 1 + 0) (0 + pv * 1 + 0)). lra.
  - pose proof (sigma_mono (0 + pv * 1 + 0) (1 * 1 + 0)). lra.
Qed.
Print Assumptions C66_negative_phase_refuted.

(** The penalties have the wrong sign: an optimizer that descends along the gradient makes
    the weights larger.  The gradient with the penalty of the weights is not that of
    contrastive divergence plus the derivative of the penalty. *)
Theorem C66_regularization_refuted :
  exists junk u p data s s' g, rused junk u 1 1 1 true (mkReg 0 1 0) p data s /\ data <> [] /\
    rbm_gradientN junk u s 0 = Ok (s', g) /\
    forall g0, contrastiveDivergence 1 1 p u (draws s) 1 (fun _ i => (nth 0 data []).[i]) 1 g0 -> ~ addPenalties 1 1 1 0 1 p g0 g.
Proof.
  set (junk := fun _ _ : nat => 0). set (u := fun _ : nat => 1/2).
  destruct (some_rbm junk u 1 1 1 true (mkReg 0 1 0) [1; 0; 0] [[1]]) as (s & U); [reflexivity|intros v [<-|[]]; reflexivity|].
  destruct (C66_instance_gradient junk u 1 1 1 true (mkReg 0 1 0) _ _ _ 0 U) as (s' & g & g0 & E & G0 & G1 & _); try (cbn; lra || lia).
  exists junk, u, [1; 0; 0], [[1]], s, s', g. split; [auto|]. split; [discriminate|]. split; [auto|].
  intros h Hc (_ & A & _). destruct G1 as (_ & B & _).
  specialize (A 0%nat 0%nat ltac:(lia) ltac:(lia)). specialize (B 0%nat 0%nat ltac:(lia) ltac:(lia)). rewrite A in B.
  assert (Eh : rw 1 h 0 0 = rw 1 g0 0 0).
  { destruct Hc as (a1 & b1 & (_ & A1 & _) & (_ & B1 & _) & _ & F1). destruct G0 as (a2 & b2 & (_ & A2 & _) & (_ & B2 & _) & _ & F2).
    unfold rw in *. rewrite F1, F2 by (cbn; lia).
    specialize (A1 0%nat 0%nat ltac:(lia) ltac:(lia)). specialize (A2 0%nat 0%nat ltac:(lia) ltac:(lia)).
    specialize (B1 0%nat 0%nat ltac:(lia) ltac:(lia)). specialize (B2 0%nat 0%nat ltac:(lia) ltac:(lia)). rewrite A1, A2, B1, B2. reflexivity. }
  rewrite Eh in B. cbn [l1Penalty l2Penalty] in B. unfold rw in B. cbn in B. lra.
Qed.

(** * C68: the machine as a layer *)
Section AsLayer.
Context (junk : nat -> nat -> R) (u : nat -> R) (M H cdN : nat) (backprop : bool) (reg : Regularization).
Notation cls := (rbm_class junk u).
Notation K := (if backprop then (H * M + H)%nat else 0%nat).

Lemma rbm_history_inv s0 s : rbm_inv M H cdN backprop reg s0 -> history cls M H s0 s ->
  rbm_inv M H cdN backprop reg s /\ (backprop = false -> rpar s = rpar s0).
Proof.
  intros H0. induction 1 as [|s p q Hh IH Hp E|s X dropout q Y r Hh IH HX E|s X dropout q Y r ein bp q2 eout Hh IH HX E He1 He2 Eb]; auto;
    destruct IH as (IH & IK).
  - assert (Lp : length p = rbm_K M H backprop).
    { rewrite Hp. unfold paramCount. destruct (rbm_layout_init junk u M H cdN backprop reg s IH) as (E1 & _).
      refine (eq_trans (f_equal (@length _) E1) _). apply rlocs_length. }
    destruct (rbm_install junk u M H cdN backprop reg s p IH Lp) as (q' & E' & Hq & _ & R0 & _).
    assert (q' = q) by congruence. subst q'. split; auto. intros Hb. rewrite R0 by auto. auto.
  - destruct (rbm_forward_ok junk u M H cdN backprop reg s X dropout (rows X) IH) as (q' & Y' & E' & _ & Hq & (_ & Kq & _) & _); [split; auto|].
    cbn [forwardPropagate rbm_class] in E. assert (q' = q) by congruence. subst q'. split; auto. intros Hb. rewrite Kq. auto.
  - destruct (rbm_forward_ok junk u M H cdN backprop reg s X dropout (rows X) IH) as (q' & Y' & E' & SY & Hq & (_ & Kq & _) & _ & EX & EZ); [split; auto|].
    cbn [forwardPropagate rbm_class backpropagate] in E, Eb. assert (q = q') by congruence. subst q'.
    destruct (rbm_backward_ok junk M H cdN backprop reg q (rows X) ein bp Hq) as (q2' & e' & E2 & Hq2 & Kq2 & _).
    + rewrite EZ. auto.
    + rewrite EX. split; auto.
    + split; auto.
    + assert (q2' = q2) by congruence. subst q2'. split; auto. intros Hb. rewrite Kq2, Kq. auto.
Qed.

(** Without backpropagation to the weights the layer has no parameters, otherwise the weights
    and biases of the hidden units. *)
Theorem C68_parameters p data s :
  rused junk u M H cdN backprop reg p data s ->
  paramCount cls s = K /\
  (backprop = true ->
    (forall h d, (h < H)%nat -> (d < M)%nat -> readParam cls s (h * M + d) = Ok (rw H p h d)) /\
    (forall h, (h < H)%nat -> readParam cls s (H * M + h) = Ok (biasH M H p h))).
Proof.
  intros U. apply rused_ready in U. destruct U as (I & F & _). pose proof I as (C & SP & _). split.
  - unfold paramCount. destruct (rbm_layout_init junk u M H cdN backprop reg s I) as (E1 & _).
    refine (eq_trans (f_equal (@length _) E1) _). apply rlocs_length.
  - intros Hb. destruct (rbm_read junk u M H cdN backprop reg s I Hb) as (R1 & R2). split.
    + intros h d Hh Hd. rewrite R1, <- F by auto. now rewrite (rflat_w M H _ SP).
    + intros h Hh. rewrite R2, <- F by auto. now rewrite (rflat_bh M H _ SP).
Qed.

(** A trained machine in a network passes on the probabilities of its hidden units; its
    regularization contributes nothing to the error. *)
Theorem C68_pretrained_output p data s X dropout :
  rused junk u M H cdN backprop reg p data s -> cols X = M ->
  exists q Y, forwardPropagate cls s X dropout = Ok (q, Y, 0) /\ rows Y = rows X /\ cols Y = H /\
    forall n h, (h < H)%nat -> at_ Y n h = probH M H p (at_ X n) h.
Proof.
  intros U HX. apply rused_ready in U. destruct U as (I & F & _).
  destruct (rbm_forward_ok junk u M H cdN backprop reg s X dropout (rows X) I) as (q & Y & E & (Y1 & Y2) & _ & _ & V & _); [split; auto|].
  exists q, Y. rewrite F in V. auto.
Qed.

(** the input of hidden unit [h] when the layer has parameters [p]; a layer without parameters
    keeps the weights [p0] of the machine *)
Definition layerInput (p0 p : list R) (X : mat) (n h : nat) : R :=
  if backprop then rsum M (fun d => at_ X n d * p.[h * M + d]) + p.[H * M + h] else inputH M H p0 (at_ X n) h.

Lemma installed p0 data s0 s p : rused junk u M H cdN backprop reg p0 data s0 -> history cls M H s0 s ->
  length p = paramCount cls s0 ->
  exists q, install cls s p = Ok q /\ rbm_inv M H cdN backprop reg s /\ length p = rbm_K M H backprop /\
    rbm_inv M H cdN backprop reg q /\
    forall X n h, (h < H)%nat -> preact M true (qW (rpar q)) (qbh (rpar q)) X n h = layerInput p0 p X n h.
Proof.
  intros U Hh Hp. destruct (C68_parameters _ _ _ U) as (PC & _). rewrite PC in Hp.
  apply rused_ready in U. destruct U as (I & F & _). destruct (rbm_history_inv _ _ I Hh) as (Is & Ks).
  destruct (rbm_install junk u M H cdN backprop reg s p Is Hp) as (q & E & Iq & _ & R0 & R1).
  exists q. split; [exact E|]. split; [exact Is|]. split; [exact Hp|]. split; [exact Iq|]. intros X n h Hh'.
  unfold layerInput. destruct backprop eqn:Eb.
  - destruct (R1 eq_refl) as (A & B). unfold preact. rewrite B by auto. f_equal. apply rsum_ext. intros. now rewrite A.
  - rewrite (R0 eq_refl), (Ks eq_refl). pose proof I as (_ & SP & _). unfold preact, inputH. rewrite <- F.
    rewrite (rflat_bh M H _ SP) by auto. f_equal. apply rsum_ext. intros. now rewrite (rflat_w M H _ SP).
Qed.

(** At any time in the life of the layer its derivatives are exact. *)
Theorem C68_layer_gradient p0 data s0 s p X dropout e bp :
  rused junk u M H cdN backprop reg p0 data s0 -> history cls M H s0 s ->
  length p = paramCount cls s0 -> cols X = M -> rows e = rows X -> cols e = H ->
  (forall n h, (n < rows X)%nat -> (h < H)%nat -> layerInput p0 p X n h <> -45 /\ layerInput p0 p X n h <> 45) ->
  partials_exact cls s p X dropout e bp.
Proof.
  intros U Hh Hp HX He1 He2 Sm. destruct (installed _ _ _ _ _ U Hh Hp) as (q' & E' & Is & Hp' & _ & V).
  eapply contract_partials; [exact (rbm_contract junk u M H cdN backprop reg)|exact Is|..]; auto.
  intros q Eq. assert (q' = q) by (cbn in Eq; congruence). subst q'. intros n h Hn Hh'. rewrite V by auto. now apply Sm.
Qed.

(** and its outputs are the probabilities for the current layer parameters, whatever has been drawn *)
Theorem C68_layer_output p0 data s0 s p X dropout :
  rused junk u M H cdN backprop reg p0 data s0 -> history cls M H s0 s ->
  length p = paramCount cls s0 -> cols X = M ->
  exists q q1 Y, install cls s p = Ok q /\ forwardPropagate cls q X dropout = Ok (q1, Y, 0) /\
    rows Y = rows X /\ cols Y = H /\
    forall n h, (n < rows X)%nat -> (h < H)%nat -> at_ Y n h = sigma (layerInput p0 p X n h).
Proof.
  intros U Hh Hp HX. destruct (installed _ _ _ _ _ U Hh Hp) as (q & Eq & Is & Hp' & Iq & V).
  destruct (rbm_forward_ok junk u M H cdN backprop reg q X dropout (rows X) Iq) as (q1 & Y & E & (Y1 & Y2) & _ & _ & W & _); [split; auto|].
  exists q, q1, Y. split; [exact Eq|]. split; [exact E|]. split; auto. split; auto. intros n h Hn Hh'. rewrite W by auto.
  pose proof Iq as (_ & SP & _). rewrite probH_preact, V by auto. reflexivity.
Qed.
End AsLayer.
Print Assumptions C68_parameters.
Print Assumptions C68_pretrained_output.
Print Assumptions C68_layer_gradient.
Print Assumptions C68_layer_output.

Example C68_case : exists s0 s,
  rused (fun _ _ => 7) (fun _ => 1/3) 2 3 3 true (mkReg (1/10) (1/100) 0) (repeat (1/2) 11) [[1; 0]; [0; 1]] s0 /\
  history (rbm_class (fun _ _ => 7) (fun _ => 1/3)) 2 3 s0 s /\ s <> s0.
Proof.
  destruct C66_case as (s0 & U & _). pose proof (rused_ready _ _ _ _ _ _ _ _ _ _ U) as (I & F & _).
  destruct (rbm_install (fun _ _ => 7) (fun _ => 1/3) 2 3 3 true (mkReg (1/10) (1/100) 0) s0 (repeat 3 9) I) as (q & E & _ & _ & _ & R); [reflexivity|].
  destruct (R eq_refl) as (R1 & _). exists s0, q. split; auto. split.
  - eapply h_set; [apply h_new| |exact E]. destruct (C68_parameters _ _ _ _ _ _ _ _ _ _ U) as (PC & _). rewrite PC. reflexivity.
  - intros ->. specialize (R1 0%nat 0%nat ltac:(lia) ltac:(lia)). pose proof I as (_ & SP & _).
    pose proof (rflat_w 2 3 _ SP 0 0 ltac:(lia) ltac:(lia)) as Q. rewrite F in Q. rewrite <- Q in R1. cbn in R1. lra.
Qed.

(** Fine-tuning the layer leaves currentParameters and getParameters unchanged: the
    parameters they return are no longer those in use. *)
Theorem C68_current_parameters_refuted :
  exists junk u p s q s' y, rused junk u 1 1 1 true (mkReg 0 0 0) p [] s /\ writeParam (rbm_class junk u) s 0 1 = Ok q /\
    rbm_currentParameters q = p /\ rbm_getParameters q = p /\ rbm_apply junk u q [1] = Ok (s', y) /\
    y <> map (probH 1 1 p (fun d => [1].[d])) (seq 0 1).
Proof.
  set (junk := fun _ _ : nat => 0). set (u := fun _ : nat => 1/2). set (reg := mkReg 0 0 0).
  destruct (some_rbm junk u 1 1 1 true reg [0; 0; 0] []) as (s & U); [reflexivity|intros v []|].
  pose proof (rused_ready _ _ _ _ _ _ _ _ _ _ U) as (I & F & Q & _).
  destruct (rbm_write junk u 1 1 1 true reg s 0 1 I) as (q & E & Iq & R); [cbn; lia|].
  destruct (rbm_read junk u 1 1 1 true reg q Iq eq_refl) as (R1 & R2).
  destruct (rbm_read junk u 1 1 1 true reg s I eq_refl) as (S1 & S2).
  pose proof (R1 0%nat 0%nat ltac:(lia) ltac:(lia)) as A1. pose proof (R 0%nat ltac:(cbn; lia)) as A2. cbn [Nat.eqb Nat.mul Nat.add] in A1, A2.
  pose proof (R2 0%nat ltac:(lia)) as B1. pose proof (R 1%nat ltac:(cbn; lia)) as B2. cbn [Nat.eqb Nat.mul Nat.add] in B1, B2.
  pose proof (S2 0%nat ltac:(lia)) as B3. cbn [Nat.eqb Nat.mul Nat.add] in B3. pose proof I as (_ & SP & _).
  pose proof (rflat_bh 1 1 _ SP 0%nat ltac:(lia)) as B4. rewrite F in B4. unfold biasH in B4. cbn in B4.
  assert (W : at_ (qW (rpar q)) 0 0 = 1) by congruence.
  assert (Bq : at_ (qbh (rpar q)) 0 0 = 0) by congruence.
  assert (Pq : rparams q = rparams s).
  { unfold writeParam in E. destruct I as (C & _). cbn [rbm_class initialize] in E. unfold rbm_initializeLayer in E. rewrite C in E. cbn in E.
    destruct SP as ((W1 & W2) & _). rewrite mset_Ok in E by lia. cbn in E. injection E as <-. reflexivity. }
  pose proof (setV_same 1 1 1 true reg q (rowOf [1]) Iq) as K0. pose proof (rsame_inv _ _ _ _ _ _ _ K0 Iq) as I0.
  destruct (withH_ok junk u 1 1 1 true reg 1 (setV q (rowOf [1])) I0) as (s' & Ee & _ & _ & _ & _ & S3 & _ & F1 & _); [split; reflexivity|].
  eexists junk, u, [0; 0; 0], s, q, s', _. split; [auto|]. split; [exact E|].
  split; [unfold rbm_currentParameters; congruence|]. split; [unfold rbm_getParameters, rbm_currentParameters; congruence|].
  split.
  - unfold rbm_apply. rewrite Ee. cbn [bind]. rewrite (vecOf_ok _ 1 S3). cbn [bind]. reflexivity.
  - cbn [seq map]. rewrite F1 by lia. pose proof Iq as (_ & SPq & _). change (rpar (setV q (rowOf [1]))) with (rpar q).
    rewrite probH_preact by auto. unfold preact. cbn [mv rsmp setV setSmp rowOf at_ rsum]. rewrite W, Bq.
    unfold probH, inputH, rw, biasH. cbn [rsum Nat.mul Nat.add nth]. intros Q2. injection Q2 as Q2.
    destruct (sigma_mono (0 + 1 * 0 + 0) (0 + 1 * 1 + 0)) as (_ & Lt); try lra.
    change (sigma (0 + 1 * 1 + 0) = sigma (0 + 1 * 0 + 0)) in Q2. lra.
Qed.
