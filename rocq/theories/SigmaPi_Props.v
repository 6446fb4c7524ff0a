(** Properties of higher-order layers (C59 - C61). *)
From Verif Require Import Base BaseFacts Matrix RSum MatOps Vec Deriv Activation_Model Activation_Proofs
  Layer_Model Layer_Spec Layer_Proofs SigmaPi_Model SigmaPi_Spec SigmaPi_Proofs SigmaPiPass_Proofs SigmaPiMove_Proofs.
Local Open Scope R_scope.

(** at least one neuron is requested, and there are enough inputs for each of them *)
Definition usable (I : nat) (calls : list nodeCall) : Prop :=
  requested calls <> [] /\ forall d c, In (d, c) (requested calls) -> (d <= I)%nat.

Lemma tuples_nonempty d : forall lo hi, (lo + d <= hi)%nat -> In (seq lo d) (tuples d lo hi).
Proof.
  intros lo hi H. apply tuples_In. split; [apply seq_length|]. revert lo H.
  induction d as [|d IH]; intros lo H; cbn [seq increasing]; auto. split; [lia|]. rewrite Nat.add_1_r. apply IH. lia.
Qed.

Lemma requested_degree calls d c : In (d, c) (requested calls) -> (2 <= d)%nat.
Proof.
  unfold requested. rewrite in_flat_map. intros (k & _ & Hk). apply repeat_spec in Hk. injection Hk as -> _.
  destruct (corder k); cbn; lia.
Qed.

(** the facts that the passes rely on *)
Lemma ready junk I act calls s0 : sp_build junk I false act calls = Ok s0 -> usable I calls ->
  let nodes := spnodes s0 in let K := length (spw s0) in
  nodes_ok I (requested calls) nodes K /\ length nodes = length (requested calls) /\ nodes <> [] /\
  (forall n, In n nodes -> n <> []) /\
  (forall n u, In n nodes -> In u n -> (uweight u < K)%nat /\ forall i, In i (uposition u) -> (i < I)%nat) /\
  (0 < I)%nat /\ sp_inv I K act nodes s0.
Proof.
  intros E (U1 & U2). destruct (build_built _ _ _ _ _ _ E) as (A1 & A2 & A3 & A4 & A5 & A6 & A7 & A8 & A9 & A10 & A11).
  cbn [nbit] in *. rewrite Nat.add_0_r in *. pose proof (nodes_length _ _ _ _ A11) as L. cbn zeta.
  split; auto. split; auto.
  assert (N : spnodes s0 <> []). { intros Z. rewrite Z in L. destruct (requested calls); [auto|discriminate]. }
  split; auto.
  assert (Q : forall n, In n (spnodes s0) -> exists j d c, nth_error (requested calls) j = Some (d, c) /\ nth_error (spnodes s0) j = Some n /\
      map uposition n = tuples d 0 I).
  { intros n Hn. destruct (In_nth_error _ _ Hn) as (j & Hj).
    assert (Lj : (j < length (requested calls))%nat) by (rewrite L; apply nth_error_Some; congruence).
    destruct (nth_error (requested calls) j) as [[d c]|] eqn:Er; [|apply nth_error_None in Er; lia].
    exists j, d, c. split; auto. split; auto. destruct (weightIndex_unit _ _ _ _ _ _ _ A11 Er) as (n' & Hn' & Hm & _). congruence. }
  split.
  { intros n Hn Z. destruct (Q n Hn) as (j & d & c & Er & _ & Hm). subst n. cbn in Hm.
    pose proof (tuples_nonempty d 0 I) as T. rewrite <- Hm in T. apply T. apply (U2 d c). eapply nth_error_In; eauto. }
  split.
  { intros n u Hn Hu. destruct (Q n Hn) as (j & d & c & Er & Hj & Hm). split; [eapply nodes_range; eauto|].
    assert (Hp : In (uposition u) (tuples d 0 I)) by (rewrite <- Hm; now apply in_map). apply tuples_In in Hp. destruct Hp as (_ & Hp).
    intros i Hi. eapply increasing_In; eauto. }
  split.
  { destruct (requested calls) as [|[d c] r] eqn:Er; [congruence|].
    assert (2 <= d)%nat by (apply (requested_degree calls d c); rewrite Er; now left).
    specialize (U2 d c (or_introl eq_refl)). lia. }
  unfold sp_inv. rewrite <- L. auto 15.
Qed.

Lemma nsum_higherOrderSum I ns nodes K p X n j d c : nodes_ok I ns nodes K -> nth_error ns j = Some (d, c) ->
  nsum p X n (nth j nodes []) = higherOrderSum I d (fun pos => p.[weightIndex nodes j pos]) X n.
Proof.
  intros Hn Hj. destruct (weightIndex_unit _ _ _ _ _ _ _ Hn Hj) as (ne & En & Hm & Hw).
  rewrite (nth_error_nth _ _ [] En). unfold nsum, higherOrderSum. rewrite <- Hm, map_map. f_equal. apply map_ext_in.
  intros u Hu. now rewrite Hw.
Qed.

(** * C59: the outputs *)

(** A layer can be built whenever the constraints have values for all tuples of positions. *)
Theorem C59_build junk I act calls :
  (forall d f, In (d, Some f) (requested calls) -> forall pos, In pos (tuples d 0 I) -> exists r, f pos = Ok r) ->
  exists s, sp_build junk I false act calls = Ok s.
Proof.
  intros H. apply build_succeeds. intros k Hk Hn f pos Ef Hp. cbn [nbit] in Hp. rewrite Nat.add_0_r in Hp.
  apply (H (degree (corder k)) f); auto. unfold requested. apply in_flat_map. exists k. split; auto. rewrite Ef.
  destruct (cnumbers k); [lia|now left].
Qed.

(** Every output is the activation function of the sum of all weighted products of as many
    different inputs as the order of the neuron, where the weights are parameters that are
    shared as the constraint of the neuron demands. *)
Theorem C59_output_partial junk I act calls s0 :
  sp_build junk I false act calls = Ok s0 -> usable I calls ->
  exists wi, weights_assigned I (requested calls) wi (paramCount (sp_class junk) s0) /\
  forall s p X dropout, history (sp_class junk) I (length (requested calls)) s0 s ->
  length p = paramCount (sp_class junk) s0 -> cols X = I ->
  exists q q1 Y, install (sp_class junk) s p = Ok q /\ forwardPropagate (sp_class junk) q X dropout = Ok (q1, Y, 0) /\
    rows Y = rows X /\ cols Y = length (requested calls) /\
    forall n j d c, (n < rows X)%nat -> nth_error (requested calls) j = Some (d, c) ->
      at_ Y n j = act_fun act (higherOrderSum I d (fun pos => p.[wi j pos]) X n).
Proof.
  intros E U. destruct (ready _ _ _ _ _ E U) as (HN & L & H1 & H2 & H3 & H4 & H5).
  exists (weightIndex (spnodes s0)). rewrite (sp_count junk I (length (spw s0)) act (spnodes s0) s0 H5).
  split; [now apply nodes_assigned|]. intros s p X dropout Hh Hp HX. rewrite <- L in Hh.
  pose proof (sp_history junk I (length (spw s0)) act (spnodes s0) H1 H2 H3 H4 s0 s H5 Hh) as Hs.
  destruct (sp_install junk I (length (spw s0)) act (spnodes s0) H4 s p Hs Hp) as (q & Eq & Hq & Ew).
  destruct (forward_ok junk I (length (spw s0)) act (spnodes s0) H1 H2 H3 H4 q X dropout (rows X) Hq) as (q1 & Y & E1 & (Y1 & Y2) & _ & VY & _); [split; auto|].
  exists q, q1, Y. split; auto. split; auto. split; auto. split; [lia|]. intros n j d c Hn Hj.
  rewrite VY; auto.
  - rewrite Ew. now rewrite (nsum_higherOrderSum _ _ _ _ p X n j d c HN Hj).
  - rewrite L. apply nth_error_Some. congruence.
Qed.
Print Assumptions C59_output_partial.

(** The number of parameters of a neuron without constraint is the number of tuples, so
    nothing is shared between neurons or units unless a constraint demands it; here: two
    neurons of order 2 without and one with a constraint, 3 inputs. *)
Example C59_case : exists s, sp_build (fun _ _ => 0) 3 false TANH
    [mkCall Second 2 None; mkCall Third 1 None; mkCall Second 1 (distanceConstraint 3 1)] = Ok s /\
  usable 3 [mkCall Second 2 None; mkCall Third 1 None; mkCall Second 1 (distanceConstraint 3 1)].
Proof.
  destruct (C59_build (fun _ _ => 0) 3 TANH [mkCall Second 2 None; mkCall Third 1 None; mkCall Second 1 (distanceConstraint 3 1)]) as (s & E).
  - cbn [requested flat_map corder cnumbers cconstraint repeat app degree]. intros d f [X|[X|[X|[X|[]]]]]; try discriminate.
    injection X as <- <-. intros pos Hp. cbn in Hp.
    destruct Hp as [<-|[<-|[<-|[]]]]; cbn -[INR]; rewrite (proj2 (Rltb_true 0 1)) || idtac; cbn -[INR];
      (rewrite !(proj2 (Rltb_true _ _)) by (cbn; lra); cbn [check bind]; eauto).
  - exists s. split; auto. split; [discriminate|]. cbn. intros d c [X|[X|[X|[X|[]]]]]; injection X as <- _; lia.
Qed.

(** A layer with bias is useless: the neurons also use the input with the index [I], which
    the forward pass reads from its argument although that has only [I] columns.  No
    forward pass of a non-empty batch succeeds. *)
Lemma for_each_body {A S} (l : list A) (f : A -> S -> res S) s s' x : for_each l f s = Ok s' -> In x l ->
  exists a b, f x a = Ok b.
Proof.
  revert s. induction l as [|y l IH]; intros s E Hin; [destruct Hin|]. cbn [for_each] in E. apply bind_Ok in E.
  destruct E as (s1 & E1 & E2). destruct Hin as [<-|Hin]; eauto.
Qed.
Lemma for_from_body {S} (f : nat -> S -> res S) k : forall i s s' x, for_from i k f s = Ok s' -> (i <= x < i + k)%nat ->
  exists a b, f x a = Ok b.
Proof.
  induction k as [|k IH]; intros i s s' x E Hx; [lia|]. cbn [for_from] in E. apply bind_Ok in E. destruct E as (s1 & E1 & E2).
  destruct (Nat.eq_dec x i) as [->|]; eauto. apply (IH (i + 1)%nat s1 s'); [|lia]. now rewrite Nat.add_1_r.
Qed.
Lemma seq_In_last d I : (0 < d)%nat -> (d <= I + 1)%nat -> exists pos, In pos (tuples d 0 (I + 1)) /\ In I pos.
Proof.
  intros Hd H. exists (seq (I + 1 - d) d). split; [|apply in_seq; lia].
  apply tuples_In. split; [apply seq_length|].
  assert (G : forall d a lo, (lo <= a)%nat -> (a + d = I + 1)%nat -> increasing lo (I + 1) (seq a d)).
  { clear. induction d as [|d IH]; intros a lo H1 H2; cbn [seq increasing]; auto. split; [lia|]. apply IH; lia. }
  apply G; lia.
Qed.

Theorem C59_bias_refuted junk I act calls s0 X dropout :
  sp_build junk I true act calls = Ok s0 -> requested calls <> [] -> cols X = I -> (0 < rows X)%nat ->
  forall r, forwardPropagate (sp_class junk) s0 X dropout <> Ok r.
Proof.
  intros E Hr HX HN r F. destruct (build_built _ _ _ _ _ _ E) as (A1 & A2 & A3 & A4 & A5 & A6 & A7 & A8 & A9 & A10 & A11).
  cbn [nbit] in *. pose proof (nodes_length _ _ _ _ A11) as L.
  cbn [forwardPropagate sp_class] in F. unfold sp_forward in F.
  apply bind_Ok in F. destruct F as (x1 & _ & F). apply bind_Ok in F. destruct F as (x2 & _ & F).
  apply bind_Ok in F. destruct F as (a & F & _). unfold for_ in F at 1.
  destruct (for_from_body _ _ _ _ _ 0%nat F ltac:(lia)) as (a1 & a2 & F1).
  apply bind_Ok in F1. destruct F1 as (_ & _ & F1). unfold for_ in F1.
  destruct (nth_error (requested calls) 0) as [[d c]|] eqn:Er; [|destruct (requested calls); [congruence|discriminate]].
  destruct (for_from_body _ _ _ _ _ 0%nat F1) as (a3 & a4 & F2).
  { rewrite <- L. destruct (requested calls); [congruence|cbn; lia]. }
  destruct (weightIndex_unit _ _ _ _ _ _ _ A11 Er) as (n & En & Hm & _).
  unfold vget at 1 in F2. rewrite En in F2. cbn [bind] in F2. apply bind_Ok in F2. destruct F2 as (? & Ne & F2).
  apply bind_Ok in F2. destruct F2 as (sum & F2 & _).
  assert (Hd : (2 <= d)%nat) by (apply (requested_degree calls d c); eapply nth_error_In; eauto).
  assert (Hd2 : (d <= I + 1)%nat).
  { destruct (Nat.le_gt_cases d (I + 1)); auto. rewrite tuples_empty in Hm by lia. apply map_eq_nil in Hm. subst n. discriminate. }
  destruct (seq_In_last d I ltac:(lia) Hd2) as (pos & Hp & HI). rewrite <- Hm in Hp. apply in_map_iff in Hp. destruct Hp as (u & Eu & Hu).
  destruct (for_each_body _ _ _ _ u F2 Hu) as (b1 & b2 & F3). apply bind_Ok in F3. destruct F3 as (co & F3 & _).
  unfold correlation in F3. rewrite Eu in F3. destruct (for_each_body _ _ _ _ I F3 HI) as (c1 & c2 & F4).
  unfold mget, inside in F4. rewrite HX, (proj2 (Nat.ltb_ge I I)), andb_false_r in F4 by auto. discriminate.
Qed.
Print Assumptions C59_bias_refuted.
Example C59_bias_case : exists s, sp_build (fun _ _ => 0) 3 true TANH [mkCall Second 2 None] = Ok s.
Proof. apply build_succeeds. intros k [<-|[]] _ f pos Ef. discriminate. Qed.

(** Asking for the parameters throws. *)
Theorem C59_getParameters_throws s : sp_getParameters s = Throw.
Proof. reflexivity. Qed.

(** * C60: derivatives *)

(** The derivative pointers hold the exact partial derivatives with respect to the
    (shared) weights. *)
Theorem C60_weight_gradient_partial junk I act calls s0 :
  sp_build junk I false act calls = Ok s0 -> usable I calls ->
  exists wi, weights_assigned I (requested calls) wi (paramCount (sp_class junk) s0) /\
  forall s p X dropout e bp, history (sp_class junk) I (length (requested calls)) s0 s ->
  length p = paramCount (sp_class junk) s0 -> cols X = I ->
  rows e = rows X -> cols e = length (requested calls) ->
  (forall n j d c, (n < rows X)%nat -> nth_error (requested calls) j = Some (d, c) ->
     act_smooth act (higherOrderSum I d (fun pos => p.[wi j pos]) X n)) ->
  parameter_partials_exact (sp_class junk) s p X dropout e bp.
Proof.
  intros E U. destruct (ready _ _ _ _ _ E U) as (HN & L & H1 & H2 & H3 & H4 & H5).
  exists (weightIndex (spnodes s0)). rewrite (sp_count junk I (length (spw s0)) act (spnodes s0) s0 H5).
  split; [now apply nodes_assigned|]. intros s p X dropout e bp Hh Hp HX He1 He2 Sm. rewrite <- L in Hh.
  pose proof (sp_history junk I (length (spw s0)) act (spnodes s0) H1 H2 H3 H4 s0 s H5 Hh) as Hs.
  apply (sp_partials junk I (length (spw s0)) act (spnodes s0) H1 H2 H3 H4 s p X dropout e bp (rows X)); auto.
  - split; auto.
  - split; auto. lia.
  - intros n j Hn Hj. rewrite <- L in Sm || idtac.
    destruct (nth_error (requested calls) j) as [[d c]|] eqn:Ej; [|apply nth_error_None in Ej; lia].
    rewrite (nsum_higherOrderSum _ _ _ _ p X n j d c HN Ej). eauto.
Qed.
Print Assumptions C60_weight_gradient_partial.

(** The error signal for the previous layer is wrong: it misses the product of the other
    inputs.  One neuron of order 2 on 2 inputs (2 and 3), weight 1, linear, so that the
    output is the product of the inputs: the derivatives are 3 and 2, the layer returns 1
    and 1. *)
Theorem C60_input_gradient_refuted junk : exists s0,
  sp_build junk 2 false LINEAR [mkCall Second 1 None] = Ok s0 /\ usable 2 [mkCall Second 1 None] /\
  let X := mkMat 1 2 (fun _ i => if Nat.eqb i 0 then 2 else 3) in
  let e := mkMat 1 1 (fun _ _ => 1) in
  ~ partials_exact (sp_class junk) s0 [1] X false e true.
Proof.
  assert (U : usable 2 [mkCall Second 1 None]).
  { split; [discriminate|]. cbn. intros d c [X|[]]. injection X as <- _. lia. }
  destruct (C59_build junk 2 LINEAR [mkCall Second 1 None]) as (s0 & E).
  { cbn. intros d f [X|[]]. discriminate. }
  exists s0. split; auto. split; auto. intros X e (q & q1 & Y & reg & q2 & eo & Eq & E1 & E2 & _ & Hin).
  destruct (Hin eq_refl) as (_ & _ & H0). destruct (H0 0%nat 0%nat ltac:(cbn; lia) ltac:(cbn; lia)) as (f & Hf & Df). clear Hin H0.
  destruct (C59_output_partial junk 2 LINEAR _ s0 E U) as (wi & Hwi & HO).
  assert (K : paramCount (sp_class junk) s0 = 1%nat).
  { cbn in E. injection E as <-. reflexivity. }
  assert (W0 : wi 0%nat [0; 1]%nat = 0%nat).
  { pose proof (wa_range _ _ _ _ Hwi 0 2 None [0; 1]%nat eq_refl ltac:(cbn; auto)). lia. }
  assert (F : forall v, f v = 3 * v).
  { intros v. destruct (Hf v) as (a & b & Y' & r & F1 & F2 & _ & _ & ->).
    destruct (HO s0 [1] (mupd X 0 0 v) false (h_new _ _ _ _) (eq_sym K) eq_refl) as (a' & b' & Y'' & F1' & F2' & _ & _ & V).
    assert (a' = a) by congruence. subst a'. rewrite F2 in F2'. injection F2' as <- <- ->.
    specialize (V 0%nat 0%nat 2%nat None Nat.lt_0_1 eq_refl). cbn [rows cols e]. unfold inner. cbn [rsum]. cbn [at_ e]. rewrite V.
    unfold act_fun, higherOrderSum. cbn [tuples seq Nat.sub flat_map map app Nat.add]. unfold lsum, monomial. cbn [map fold_right]. rewrite W0. unfold mupd. cbn. ring. }
  assert (D3 : D f 2 3). { apply (D_ext (fun v => 3 * v)); [intros; symmetry; apply F|]. apply (D_eq _ _ (3 * 1)); [ring|]. apply D_scal, D_id. }
  cbn [at_ X Nat.eqb] in Df. pose proof (D_unique _ _ _ _ Df D3) as Ee.
  destruct (ready _ _ _ _ _ E U) as (HN & L & H1 & H2 & H3 & H4 & H5).
  destruct (sp_install junk _ _ _ _ H4 s0 [1] H5) as (q' & Eq' & Hq' & Ew'). { unfold paramCount in K. cbn in K. rewrite map_length, seq_length in K. auto. }
  assert (q' = q) by congruence. subst q'.
  destruct (forward_ok junk _ _ _ _ H1 H2 H3 H4 q X false 1 Hq') as (q1' & Y' & E1' & SY & Hq1 & VY & Ew & Ra & Ey & Rx & Vx); [split; auto|].
  cbn [forwardPropagate sp_class backpropagate] in E1, E2. assert (q1' = q1) by congruence. subst q1'.
  destruct (backward_ok junk _ _ _ _ H1 H2 H3 H4 q1 e true 1 Hq1 Ra) as (q2' & eo' & E2' & _ & _ & _ & Ve); auto.
  all: try (now rewrite Ey); try (split; auto; cbn; rewrite L; reflexivity). 
  assert (eo' = eo) by congruence. subst eo'. rewrite Ve in Ee by lia. rewrite Ew, Ew' in Ee.
  assert (SN : spnodes s0 = [[mkUnit [0; 1]%nat 0]]). { cbn in E. now injection E as <-. }
  rewrite SN in Ee. cbn in Ee. unfold occ, lsum in Ee. cbn in Ee. lra.
Qed.
Print Assumptions C60_input_gradient_refuted.

(** * C61: invariance *)

(** Two positions of an image have the same distance and slope after the image has moved. *)
Definition invariant_constraint (W H : nat) (z : Z) (d : nat) (c : constraint) : Prop :=
  forall dx dy p, In p (tuples d 0 (W * H)) -> Forall (onT W H z dx dy) p -> exists f r,
    c = Some f /\ f p = Ok r /\ f (map (mv W z dx dy) p) = Ok r.

Lemma tuples2 I p : In p (tuples 2 0 I) -> exists a b, p = [a; b] /\ (a < b < I)%nat.
Proof.
  intros H. apply tuples_In in H. destruct H as (L & Hi). destruct p as [|a [|b [|? ?]]]; try discriminate.
  cbn in Hi. exists a, b. split; auto. lia.
Qed.

Lemma row_ok W H i : (i < W * H)%nat -> Rltb (INR (i / W)) (INR H) = true /\ Nat.eqb W 0 = false.
Proof.
  intros Hi. assert (W <> 0)%nat by (intros ->; lia). split; [|now apply Nat.eqb_neq].
  apply Rltb_true. apply lt_INR. apply Nat.div_lt_upper_bound; auto.
Qed.

Lemma mv_real W H z dx dy i : (1 <= z)%Z -> onT W H z dx dy i ->
  (mv W z dx dy i < W * H)%nat /\
  INR (mv W z dx dy i mod W) = IZR z * INR (i mod W) + IZR dx /\ INR (mv W z dx dy i / W) = IZR z * INR (i / W) + IZR dy.
Proof.
  intros Hz Hi. destruct (mv_pixel W H z dx dy i Hi) as (A1 & A2 & A3). split; auto.
  rewrite !INR_IZR_INZ, A2, A3, !plus_IZR, !mult_IZR. auto.
Qed.

Lemma distance_invariant W H : invariant_constraint W H 1 2 (distanceConstraint W H).
Proof.
  intros dx dy p Hp Ht. destruct (tuples2 _ _ Hp) as (a & b & -> & Hab).
  inversion_clear Ht as [|? ? Ha Ht']. inversion_clear Ht' as [|? ? Hb _].
  destruct (mv_real W H 1 dx dy a ltac:(lia) Ha) as (A1 & A2 & A3). destruct (mv_real W H 1 dx dy b ltac:(lia) Hb) as (B1 & B2 & B3).
  eexists. eexists. split; [reflexivity|]. cbn [map].
  destruct (row_ok W H a ltac:(lia)) as (R1 & W0). destruct (row_ok W H b ltac:(lia)) as (R2 & _).
  destruct (row_ok W H _ A1) as (R3 & _). destruct (row_ok W H _ B1) as (R4 & _).
  rewrite W0, R1, R2, R3, R4. cbn [check bind]. split; [reflexivity|]. f_equal. rewrite A2, A3, B2, B3. ring.
Qed.

Lemma slope_invariant W H z : (1 <= z)%Z -> invariant_constraint W H z 2 (slopeConstraint W H).
Proof.
  intros Hz dx dy p Hp Ht. destruct (tuples2 _ _ Hp) as (a & b & -> & Hab).
  inversion_clear Ht as [|? ? Ha Ht']. inversion_clear Ht' as [|? ? Hb _].
  destruct (mv_real W H z dx dy a Hz Ha) as (A1 & A2 & A3). destruct (mv_real W H z dx dy b Hz Hb) as (B1 & B2 & B3).
  eexists. eexists. split; [reflexivity|]. cbn [map].
  destruct (row_ok W H a ltac:(lia)) as (R1 & W0). destruct (row_ok W H b ltac:(lia)) as (R2 & _).
  destruct (row_ok W H _ A1) as (R3 & _). destruct (row_ok W H _ B1) as (R4 & _).
  rewrite W0, R1, R2, R3, R4. cbn [check bind]. split; [reflexivity|]. f_equal. rewrite A2, A3, B2, B3.
  assert (Hz' : IZR z <> 0) by (apply not_0_IZR; lia).
  unfold Reqb. destruct (Req_EM_T (INR (a mod W)) (INR (b mod W))) as [Eq|Ne];
    destruct (Req_EM_T (IZR z * INR (a mod W) + IZR dx) (IZR z * INR (b mod W) + IZR dx)) as [Eq'|Ne']; auto.
  - exfalso. apply Ne'. now rewrite Eq.
  - exfalso. apply Ne. apply (Rmult_eq_reg_l (IZR z)); auto. lra.
  - f_equal. field. split; [intros Z; apply Ne; lra|]. auto || (intros Z; apply Ne'; lra).
Qed.

(** The values of the constraints: equal for two pairs of pixels if and only if the pairs have
    the same distance, or if the lines through them are parallel. *)
Definition column (W i : nat) : Z := Z.of_nat (i mod W).
Definition line (W i : nat) : Z := Z.of_nat (i / W).
Definition squaredDistance (W a b : nat) : Z :=
  ((column W b - column W a) ^ 2 + (line W b - line W a) ^ 2)%Z.
Definition parallel (W a b a' b' : nat) : Prop :=
  ((line W b - line W a) * (column W b' - column W a') = (line W b' - line W a') * (column W b - column W a))%Z.

Theorem C61_distance_values W H a b a' b' : (a < b < W * H)%nat -> (a' < b' < W * H)%nat ->
  exists f r r', distanceConstraint W H = Some f /\ f [a; b] = Ok r /\ f [a'; b'] = Ok r' /\
    (r = r' <-> squaredDistance W a b = squaredDistance W a' b').
Proof.
  intros H1 H2. destruct (row_ok W H a ltac:(lia)) as (R1 & W0). destruct (row_ok W H b ltac:(lia)) as (R2 & _).
  destruct (row_ok W H a' ltac:(lia)) as (R3 & _). destruct (row_ok W H b' ltac:(lia)) as (R4 & _).
  eexists. eexists. eexists. split; [reflexivity|]. cbn [map]. rewrite W0, R1, R2, R3, R4. cbn [check bind].
  split; [reflexivity|]. split; [reflexivity|]. unfold squaredDistance, column, line. rewrite !INR_IZR_INZ.
  rewrite <- !minus_IZR, <- !mult_IZR, <- !plus_IZR. split; intros E.
  - apply eq_IZR in E. nia.
  - f_equal. nia.
Qed.
Print Assumptions C61_distance_values.

Theorem C61_slope_values W H a b a' b' : (a < b < W * H)%nat -> (a' < b' < W * H)%nat ->
  exists f r r', slopeConstraint W H = Some f /\ f [a; b] = Ok r /\ f [a'; b'] = Ok r' /\
    (r = r' <-> parallel W a b a' b').
Proof.
  intros H1 H2. destruct (row_ok W H a ltac:(lia)) as (R1 & W0). destruct (row_ok W H b ltac:(lia)) as (R2 & _).
  destruct (row_ok W H a' ltac:(lia)) as (R3 & _). destruct (row_ok W H b' ltac:(lia)) as (R4 & _).
  assert (Wn : W <> 0%nat) by (intros ->; lia).
  assert (N1 : ~ (column W a = column W b /\ line W a = line W b)).
  { unfold column, line. intros (E1 & E2). pose proof (Nat.div_mod a W Wn). pose proof (Nat.div_mod b W Wn).
    assert (a mod W = b mod W) by lia. assert (a / W = b / W)%nat by lia. nia. }
  assert (N2 : ~ (column W a' = column W b' /\ line W a' = line W b')).
  { unfold column, line. intros (E1 & E2). pose proof (Nat.div_mod a' W Wn). pose proof (Nat.div_mod b' W Wn).
    assert (a' mod W = b' mod W) by lia. assert (a' / W = b' / W)%nat by lia. nia. }
  eexists. eexists. eexists. split; [reflexivity|]. cbn [map]. rewrite W0, R1, R2, R3, R4. cbn [check bind].
  split; [reflexivity|]. split; [reflexivity|]. rewrite !INR_IZR_INZ.
  fold (column W a) (column W b) (column W a') (column W b') (line W a) (line W b) (line W a') (line W b').
  unfold parallel. generalize dependent (column W a). generalize dependent (column W b).
  generalize dependent (column W a'). generalize dependent (column W b').
  generalize dependent (line W a). generalize dependent (line W b).
  generalize dependent (line W a'). generalize dependent (line W b').
  intros y4 y3 y2 y1 x4 x3 N2 x2 x1 N1.
  assert (NE : forall p q : Z, p <> q -> IZR q - IZR p <> 0) by (intros p q Hp E; apply Hp, eq_IZR; lra).
  assert (inj : forall p q : Z, IZR p = IZR q <-> p = q) by (intros; split; [apply eq_IZR|congruence]).
  unfold Reqb. destruct (Req_EM_T (IZR x1) (IZR x2)) as [E1|E1]; destruct (Req_EM_T (IZR x3) (IZR x4)) as [E2|E2];
    rewrite inj in E1, E2.
  - split; [intros _; nia|auto].
  - split.
    + intros E. exfalso. destruct (atan_bound ((IZR y4 - IZR y3) / (IZR x4 - IZR x3))). lra.
    + intros E. exfalso. assert (y2 = y1) by nia. apply N1. lia.
  - split.
    + intros E. exfalso. destruct (atan_bound ((IZR y2 - IZR y1) / (IZR x2 - IZR x1))). lra.
    + intros E. exfalso. assert (y4 = y3) by nia. apply N2. lia.
  - pose proof (NE _ _ E1) as D1. pose proof (NE _ _ E2) as D2. split.
    + intros E. apply (f_equal tan) in E. rewrite !tan_atan in E. apply eq_IZR. rewrite !mult_IZR, !minus_IZR.
      apply (Rmult_eq_reg_r (/ (IZR x2 - IZR x1))); [|now apply Rinv_neq_0_compat].
      apply (Rmult_eq_reg_r (/ (IZR x4 - IZR x3))); [|now apply Rinv_neq_0_compat].
      transitivity ((IZR y2 - IZR y1) / (IZR x2 - IZR x1)); [field; auto|]. rewrite E. field; auto.
    + intros E. f_equal. apply (f_equal IZR) in E. rewrite !mult_IZR, !minus_IZR in E.
      apply (Rmult_eq_reg_r ((IZR x2 - IZR x1) * (IZR x4 - IZR x3))); [|now apply Rmult_integral_contrapositive_currified].
      transitivity ((IZR y2 - IZR y1) * (IZR x4 - IZR x3)); [field; auto|]. rewrite E. field; auto.
Qed.
Print Assumptions C61_slope_values.

(** vertical and horizontal pairs of a 3 x 3 image are not parallel; two diagonals are *)
Example C61_values_case : ~ parallel 3 0 3 0 1 /\ parallel 3 0 4 1 5 /\ squaredDistance 3 0 3 = squaredDistance 3 0 1.
Proof. unfold parallel, squaredDistance. cbn. repeat split; lia. Qed.

(** the outputs of neuron [j] for two rows that show the same image, moved *)
Lemma invariant_output junk W H act calls s0 j c z :
  sp_build junk (W * H) false act calls = Ok s0 -> usable (W * H) calls ->
  nth_error (requested calls) j = Some (2%nat, c) -> (1 <= z)%Z -> invariant_constraint W H z 2 c ->
  forall s p X dropout n n' dx dy q q1 Y r, history (sp_class junk) (W * H) (length (requested calls)) s0 s ->
  length p = paramCount (sp_class junk) s0 -> cols X = (W * H)%nat -> (n < rows X)%nat -> (n' < rows X)%nat ->
  spread W H z dx dy X n X n' ->
  install (sp_class junk) s p = Ok q -> forwardPropagate (sp_class junk) q X dropout = Ok (q1, Y, r) ->
  at_ Y n j = at_ Y n' j.
Proof.
  intros E U Hj Hz Hc s p X dropout n n' dx dy q q1 Y r Hh Hp HX Hn Hn' Hs Eq E1.
  destruct (C59_output_partial junk (W * H) act calls s0 E U) as (wi & Hwi & HO).
  destruct (HO s p X dropout Hh Hp HX) as (q' & q1' & Y' & Eq' & E1' & _ & _ & V).
  assert (q' = q) by congruence. subst q'. rewrite E1 in E1'. injection E1' as <- <- _.
  rewrite !(V _ j 2%nat c) by auto. f_equal. apply (spread_sum W H z dx dy Hz); auto.
  intros t Ht Ho. destruct (Hc dx dy t Ht Ho) as (f & v & Ec & F1 & F2). subst c. f_equal.
  apply (wa_shared _ _ _ _ Hwi j 2 f (map (mv W z dx dy) t) t v v); auto.
  apply tuples_In in Ht. destruct Ht as (L & Hi). apply tuples_In. split; [now rewrite map_length|].
  apply (move_increasing W H z dx dy Hz t 0); auto. intros; lia.
Qed.

(** A neuron of order 2 with a DistanceConstraint gives the same output for an image and
    for the same image moved to any other place, whatever the parameters are. *)
Theorem C61_distance_translation junk W H act calls s0 j :
  sp_build junk (W * H) false act calls = Ok s0 -> usable (W * H) calls ->
  nth_error (requested calls) j = Some (2%nat, distanceConstraint W H) ->
  forall s p X dropout n n' dx dy q q1 Y r, history (sp_class junk) (W * H) (length (requested calls)) s0 s ->
  length p = paramCount (sp_class junk) s0 -> cols X = (W * H)%nat -> (n < rows X)%nat -> (n' < rows X)%nat ->
  translated W H dx dy X n X n' ->
  install (sp_class junk) s p = Ok q -> forwardPropagate (sp_class junk) q X dropout = Ok (q1, Y, r) ->
  at_ Y n j = at_ Y n' j.
Proof.
  intros E U Hj s p X dropout n n' dx dy q q1 Y r. intros. 
  eapply (invariant_output junk W H act calls s0 j _ 1 E U Hj ltac:(lia) (distance_invariant W H) s p); eauto.
Qed.

(** A neuron of order 2 with a SlopeConstraint in addition for the image with the distances
    between its pixels multiplied by any positive number. *)
Theorem C61_slope_translation_scale junk W H act calls s0 j :
  sp_build junk (W * H) false act calls = Ok s0 -> usable (W * H) calls ->
  nth_error (requested calls) j = Some (2%nat, slopeConstraint W H) ->
  forall s p X dropout n n' z dx dy q q1 Y r, (1 <= z)%Z -> history (sp_class junk) (W * H) (length (requested calls)) s0 s ->
  length p = paramCount (sp_class junk) s0 -> cols X = (W * H)%nat -> (n < rows X)%nat -> (n' < rows X)%nat ->
  spread W H z dx dy X n X n' ->
  install (sp_class junk) s p = Ok q -> forwardPropagate (sp_class junk) q X dropout = Ok (q1, Y, r) ->
  at_ Y n j = at_ Y n' j.
Proof.
  intros E U Hj s p X dropout n n' z dx dy q q1 Y r Hz. intros.
  eapply (invariant_output junk W H act calls s0 j _ z E U Hj Hz (slope_invariant W H z Hz) s p); eauto.
Qed.
Print Assumptions C61_distance_translation.
Print Assumptions C61_slope_translation_scale.

(** Three images of 3 x 3 pixels: two pixels on the diagonal; the same one step further
    down and to the right; the same with twice the distance. *)
Definition images : mat := mkMat 3 9 (fun n i =>
  match n, i with
  | O, O => 5 | O, 4%nat => 7 | 1%nat, 4%nat => 5 | 1%nat, 8%nat => 7 | 2%nat, O => 5 | 2%nat, 8%nat => 7 | _, _ => 0
  end).
Lemma image3 x y : onImage 3 3 x y -> ((x = 0 \/ x = 1 \/ x = 2) /\ (y = 0 \/ y = 1 \/ y = 2))%Z.
Proof. unfold onImage. lia. Qed.
Lemma images_translated : translated 3 3 1 1 images 0 images 1.
Proof.
  unfold translated, spread. split; [|split].
  - intros x y O N. destruct (image3 x y O) as ([-> | [-> | ->]] & [-> | [-> | ->]]); unfold pixelAt in N; try (exfalso; apply N; reflexivity); unfold onImage; lia.
  - intros x y O T. destruct (image3 x y O) as ([-> | [-> | ->]] & [-> | [-> | ->]]); unfold onImage in T; try lia; reflexivity.
  - intros x y O N. destruct (image3 x y O) as ([-> | [-> | ->]] & [-> | [-> | ->]]); unfold pixelAt in N; try (exfalso; apply N; reflexivity).
    + exists 0%Z, 0%Z. unfold onImage. lia.
    + exists 1%Z, 1%Z. unfold onImage. lia.
Qed.
Lemma images_spread : spread 3 3 2 0 0 images 0 images 2.
Proof.
  unfold spread. split; [|split].
  - intros x y O N. destruct (image3 x y O) as ([-> | [-> | ->]] & [-> | [-> | ->]]); unfold pixelAt in N; try (exfalso; apply N; reflexivity); unfold onImage; lia.
  - intros x y O T. destruct (image3 x y O) as ([-> | [-> | ->]] & [-> | [-> | ->]]); unfold onImage in T; try lia; reflexivity.
  - intros x y O N. destruct (image3 x y O) as ([-> | [-> | ->]] & [-> | [-> | ->]]); unfold pixelAt in N; try (exfalso; apply N; reflexivity).
    + exists 0%Z, 0%Z. unfold onImage. lia.
    + exists 1%Z, 1%Z. unfold onImage. lia.
Qed.

Lemma constraints_defined W H d f : In (d, Some f) [(2%nat, distanceConstraint W H); (2%nat, slopeConstraint W H)] ->
  forall pos, In pos (tuples d 0 (W * H)) -> exists r, f pos = Ok r.
Proof.
  intros Hin pos Hp. destruct Hin as [E|[E|[]]]; injection E as <- <-; destruct (tuples2 _ _ Hp) as (a & b & -> & Hab);
    destruct (row_ok W H a ltac:(lia)) as (R1 & W0); destruct (row_ok W H b ltac:(lia)) as (R2 & _);
    rewrite W0, R1, R2; cbn [check bind]; eauto.
Qed.

Example C61_case : exists s0,
  let calls := [mkCall Second 1 (distanceConstraint 3 3); mkCall Second 1 (slopeConstraint 3 3)] in
  sp_build (fun _ _ => 0) 9 false TANH calls = Ok s0 /\ usable 9 calls /\
  forall p, length p = paramCount (sp_class (fun _ _ => 0)) s0 -> exists q q1 Y,
    install (sp_class (fun _ _ => 0)) s0 p = Ok q /\
    forwardPropagate (sp_class (fun _ _ => 0)) q images false = Ok (q1, Y, 0) /\
    at_ Y 0 0 = at_ Y 1 0 /\ at_ Y 0 1 = at_ Y 2 1.
Proof.
  set (calls := [mkCall Second 1 (distanceConstraint 3 3); mkCall Second 1 (slopeConstraint 3 3)]).
  destruct (C59_build (fun _ _ => 0) 9 TANH calls (constraints_defined 3 3)) as (s0 & E).
  assert (U : usable 9 calls).
  { split; [discriminate|]. cbn. intros d c [X|[X|[]]]; injection X as <- _; lia. }
  exists s0. split; auto. split; auto. intros p Hp.
  destruct (C59_output_partial _ _ _ _ _ E U) as (wi & _ & HO).
  destruct (HO s0 p images false (h_new _ _ _ _) Hp eq_refl) as (q & q1 & Y & E1 & E2 & _).
  exists q, q1, Y. split; auto. split; auto. split.
  - apply (C61_distance_translation _ 3 3 TANH calls s0 0 E U eq_refl s0 p images false 0 1 1 1 q q1 Y 0); auto; try (cbn; lia); [apply h_new|apply images_translated].
  - apply (C61_slope_translation_scale _ 3 3 TANH calls s0 1 E U eq_refl s0 p images false 0 2 2 0 0 q q1 Y 0); auto; try (cbn; lia); [apply h_new|apply images_spread].
Qed.
