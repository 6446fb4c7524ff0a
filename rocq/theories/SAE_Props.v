(** Properties of sparse auto-encoders (C63 - C65). *)
From Verif Require Import Base BaseFacts Matrix RSum MatOps Vec Deriv Activation_Model Activation_Proofs
  Layer_Model Layer_Spec Layer_Layout Layer_Proofs IO_Model IO_Proofs Reg_Proofs FC_Model FC_Proofs
  SAE_Model SAE_Spec SAEGrad_Proofs SAE_Proofs SAELayer_Proofs SAEUse_Spec SAEUse_Proofs.
Local Open Scope R_scope.

(** An auto-encoder whose functions have been called in any order since its construction;
    [p] are the last parameters that were set, [data] is the last training set. *)
Definition used junk M H beta rho lambda act (p : list R) (data : list (list R)) (s : sae) : Prop :=
  exists u s0, (forall k, 0 <= u k <= 1) /\ sae_new junk M H beta rho lambda act u = Ok s0 /\
    sae_use junk s0 M p data s.

Lemma used_ready junk M H beta rho lambda act p data s :
  used junk M H beta rho lambda act p data s -> ready M H beta rho lambda act p data s.
Proof.
  intros (u & s0 & Hu & E & U). destruct (new_ready junk M H beta rho lambda act u Hu) as (s1 & E1 & R & _).
  assert (s1 = s0) by congruence. subst s1. eapply use_ready; eauto.
Qed.

Lemma ready_data M H beta rho lambda act p data s : ready M H beta rho lambda act p data s -> data <> [] ->
  size_is (sX s) (length data) M /\ (0 < rows (sX s))%nat /\
  (forall n d, (n < rows (sX s))%nat -> (d < M)%nat -> at_ (sX s) n d = at_ (dataMat M data) n d).
Proof.
  intros (I & F & Q & R1 & R2 & R3) Hd. split; [split; auto|]. rewrite R1. split; [destruct data; [congruence|cbn; lia]|].
  intros. cbn. auto.
Qed.

(** * C63: the objective and its gradient *)

Theorem C63_error junk M H beta rho lambda act p data s :
  used junk M H beta rho lambda act p data s -> data <> [] -> 0 < rho < 1 ->
  exists s' v, sae_error junk s = Ok (s', v) /\
    (meansProper M H act p (dataMat M data) -> v = Some (saeObjective M H beta rho lambda act p (dataMat M data))) /\
    (~ meansProper M H act p (dataMat M data) -> v = None).
Proof.
  intros U Hd Hr. apply used_ready in U. destruct (ready_data _ _ _ _ _ _ _ _ _ U Hd) as (SX & N0 & HX).
  destruct U as (I & F & Q & R1 & R2 & R3). destruct (error_ok junk M H beta rho lambda act s (length data) I SX) as (s' & E & _).
  pose proof I as (C & SP & _). rewrite <- R1 in E. exists s', (errValue M H beta rho lambda act (spar s) (sX s) (rows (sX s))).
  split; auto. split; intros Hm.
  - rewrite errValue_proper; auto.
    + rewrite F. f_equal. apply objective_ext; auto.
    + rewrite F. apply (meansProper_ext M H act (dataMat M data)); auto. intros. symmetry. apply HX; auto. cbn in *. lia.
  - apply errValue_improper; auto. rewrite F. intros Hp. apply Hm. apply (meansProper_ext M H act (sX s)); auto.
Qed.
Print Assumptions C63_error.

(** the activation function has no kink where it is evaluated *)
Definition noKinks M H act p (X : mat) : Prop :=
  (forall n h, (n < rows X)%nat -> (h < H)%nat -> act_smooth act (hiddenIn M H p (at_ X n) h)) /\
  (forall n d, (n < rows X)%nat -> (d < M)%nat -> act_smooth act (outIn M H act p (at_ X n) d)).

Lemma hiddenIn_ext M H p x y h : (forall d, (d < M)%nat -> x d = y d) -> hiddenIn M H p x h = hiddenIn M H p y h.
Proof. intros E. unfold hiddenIn. f_equal. apply rsum_ext. intros. now rewrite E. Qed.
Lemma outIn_ext M H act p x y d : (forall d, (d < M)%nat -> x d = y d) -> outIn M H act p x d = outIn M H act p y d.
Proof. intros E. unfold outIn. f_equal. apply rsum_ext. intros. unfold hidden. now rewrite (hiddenIn_ext M H p x y). Qed.

Theorem C63_error_gradient junk M H beta rho lambda act p data s g :
  used junk M H beta rho lambda act p data s -> data <> [] -> 0 < rho < 1 ->
  meansProper M H act p (dataMat M data) -> noKinks M H act p (dataMat M data) ->
  length g = sae_dimension s ->
  exists s' g', sae_errorGradient junk s g = Ok (s', Some (saeObjective M H beta rho lambda act p (dataMat M data)), g') /\
    length g' = length p /\
    forall k, (k < length p)%nat ->
      derivable_pt_lim (fun t => saeObjective M H beta rho lambda act (upd p k t) (dataMat M data)) p.[k] g'.[k].
Proof.
  intros U Hd Hr Hm (K1 & K2) Lg. apply used_ready in U. destruct (ready_data _ _ _ _ _ _ _ _ _ U Hd) as (SX & N0 & HX).
  destruct U as (I & F & Q & R1 & R2 & R3). pose proof I as (C & SP & _).
  assert (Lg' : length g = dim M H) by (unfold sae_dimension in Lg; rewrite C in Lg; exact Lg).
  assert (HY : forall n, (n < rows (sX s))%nat -> forall d, (d < M)%nat -> at_ (dataMat M data) n d = at_ (sX s) n d).
  { intros. symmetry. auto. }
  destruct (errorGradient_ok junk M H beta rho lambda act s (length data) g I SX Lg') as (s' & E & I' & KP & _ & _ & F1 & F2 & F3 & F4).
  pose proof I' as (_ & _ & SD & _). rewrite <- R1 in *.
  assert (Hm' : meansProper M H act (flat (spar s)) (sX s)).
  { rewrite F. apply (meansProper_ext M H act (dataMat M data)); auto. intros. apply HY; auto. cbn in *. lia. }
  exists s', (flat (sder s')). rewrite errValue_proper in E by auto. rewrite F in E.
  rewrite (objective_ext M H beta rho lambda act (sX s) (dataMat M data)) in E by auto. split; [exact E|].
  assert (Lp : length p = dim M H) by (rewrite <- F; now apply flat_length).
  split; [rewrite Lp; now apply flat_length|]. intros k Hk. rewrite Lp in Hk.
  apply (D_ext (fun t => saeObjective M H beta rho lambda act (upd p k t) (sX s))).
  { intros t. now apply objective_ext. }
  pose proof (objective_derivative M H beta rho lambda act (spar s) (sX s) k SP N0 Hr Hm') as Q'. rewrite F in Q'.
  apply Q'; auto; intros.
  - rewrite (hiddenIn_ext M H p _ (at_ (dataMat M data) n)); [apply K1; cbn; lia|]. intros. symmetry. auto.
  - rewrite (outIn_ext M H act p _ (at_ (dataMat M data) n)); [apply K2; cbn; lia|]. intros. symmetry. auto.
Qed.
Print Assumptions C63_error_gradient.

Theorem C63_gradient junk M H beta rho lambda act p data s :
  used junk M H beta rho lambda act p data s -> data <> [] -> 0 < rho < 1 ->
  meansProper M H act p (dataMat M data) -> noKinks M H act p (dataMat M data) ->
  exists s' g', sae_gradient junk s = Ok (s', g') /\ length g' = length p /\
    forall k, (k < length p)%nat ->
      derivable_pt_lim (fun t => saeObjective M H beta rho lambda act (upd p k t) (dataMat M data)) p.[k] g'.[k].
Proof.
  intros U Hd Hr Hm Hk. pose proof (used_ready _ _ _ _ _ _ _ _ _ _ U) as R.
  destruct (ready_data _ _ _ _ _ _ _ _ _ R Hd) as (SX & _). destruct R as (I & _).
  destruct (gradient_ok junk M H beta rho lambda act s _ I SX) as (s' & g & E & _ & _ & _ & _ & s1 & E1).
  assert (Lg : length (sgrad s) = sae_dimension s).
  { pose proof I as (C & _ & _ & G). unfold sae_dimension. rewrite C. exact G. }
  destruct (C63_error_gradient junk M H beta rho lambda act p data s (sgrad s) U Hd Hr Hm Hk Lg) as (s2 & g2 & E2 & L2 & D2).
  exists s', g. assert (g2 = g) by congruence. subst g2. auto.
Qed.
Print Assumptions C63_gradient.

(** With the logistic function, the usual choice, the value is a number and all derivatives
    exist if no unit is saturated. *)
Lemma logistic_range x : -45 < x < 45 -> 0 < act_fun LOGISTIC x < 1.
Proof.
  intros Hx. cbn. rewrite (proj2 (Rltb_false _ _)), (proj2 (Rltb_false _ _)) by lra. pose proof (exp_pos (- x)). split.
  - apply Rdiv_lt_0_compat; lra.
  - apply (Rmult_lt_reg_r (1 + exp (- x))); [lra|]. unfold Rdiv. rewrite Rmult_assoc, Rinv_l by lra. lra.
Qed.

Lemma mean_range N f a b : (0 < N)%nat -> (forall n, (n < N)%nat -> a < f n < b) -> a < rsum N f / INR N < b.
Proof.
  intros HN Hf. assert (P : 0 < INR N) by (apply lt_0_INR; auto).
  assert (G : forall m, (0 < m <= N)%nat -> a * INR m < rsum m f < b * INR m).
  { induction m as [|m IH]; intros Hm; [lia|]. rewrite S_INR. cbn [rsum]. specialize (Hf m ltac:(lia)).
    destruct m as [|m]; [cbn in *; lra|]. specialize (IH ltac:(lia)). lra. }
  specialize (G N ltac:(lia)). split.
  - apply (Rmult_lt_reg_r (INR N)); auto. unfold Rdiv. rewrite Rmult_assoc, Rinv_l by lra. lra.
  - apply (Rmult_lt_reg_r (INR N)); auto. unfold Rdiv. rewrite Rmult_assoc, Rinv_l by lra. lra.
Qed.

Theorem C63_logistic M H p data : data <> [] ->
  (forall v h, In v data -> (h < H)%nat -> -45 < hiddenIn M H p (fun d => v.[d]) h < 45) ->
  (forall v d, In v data -> (d < M)%nat -> -45 < outIn M H LOGISTIC p (fun d => v.[d]) d < 45) ->
  meansProper M H LOGISTIC p (dataMat M data) /\ noKinks M H LOGISTIC p (dataMat M data).
Proof.
  intros Hd H1 H2. split; [|split]; [intros h Hh|intros n h Hn Hh|intros n d Hn Hdd].
  - unfold meanActivation. apply mean_range; [destruct data; [congruence|cbn; lia]|].
    intros n Hn. apply logistic_range. apply (H1 (nth n data []) h); auto. now apply nth_In.
  - specialize (H1 (nth n data []) h (nth_In _ _ Hn) Hh). cbn in *. split; lra.
  - specialize (H2 (nth n data []) d (nth_In _ _ Hn) Hdd). cbn in *. split; lra.
Qed.

(** * C64: the learner *)

Theorem C64_construction junk M H beta rho lambda act u : (forall k, 0 <= u k <= 1) ->
  exists s0, sae_new junk M H beta rho lambda act u = Ok s0 /\
    let p := sae_currentParameters s0 in
    length p = (2 * M * H + M + H)%nat /\ sae_dimension s0 = length p /\
    let r := sqrt 6 / sqrt (INR H + INR M + 1) in
    (forall h d, (h < H)%nat -> (d < M)%nat -> - r <= w1 H p h d <= r /\ - r <= w2 M H p d h <= r) /\
    (forall h, (h < H)%nat -> bias1 M H p h = 0) /\ (forall d, (d < M)%nat -> bias2 M H p d = 0).
Proof.
  intros Hu. destruct (new_ready junk M H beta rho lambda act u Hu) as (s0 & E & (I & F & _) & W & B1 & B2).
  exists s0. split; auto. pose proof I as (C & SP & _). cbn zeta. rewrite <- F.
  split; [now apply flat_length|]. split; [unfold sae_dimension; rewrite C; symmetry; now apply flat_length|].
  split; [|split].
  - intros h d Hh Hd. rewrite (flat_w1 M H _ SP), (flat_w2 M H _ SP) by auto. auto.
  - intros h Hh. rewrite (flat_b1 M H _ SP) by auto. auto.
  - intros d Hd. rewrite (flat_b2 M H _ SP) by auto. auto.
Qed.
Print Assumptions C64_construction.

(** setParameters succeeds for every vector of the right size, and trainingSet for every
    data set with the right number of inputs, so the uses above can always be continued. *)
Theorem C64_usable junk M H beta rho lambda act p data s :
  used junk M H beta rho lambda act p data s ->
  (forall p', length p' = sae_dimension s ->
     exists q, sae_setParameters s p' = Ok q /\ used junk M H beta rho lambda act p' data q) /\
  (forall data', (forall v, In v data' -> length v = M) ->
     exists q, sae_trainingSet junk s M data' = Ok q /\ used junk M H beta rho lambda act p data' q).
Proof.
  intros U. pose proof (used_ready _ _ _ _ _ _ _ _ _ _ U) as R. destruct U as (u & s0 & Hu & E & U). pose proof R as (I & _).
  pose proof I as (C & _). split.
  - intros p' L. assert (L' : length p' = dim M H) by (unfold sae_dimension in L; rewrite C in L; exact L).
    destruct (setParameters_ok M H beta rho lambda act s p' I L') as (q & Eq & _). exists q. split; auto.
    exists u, s0. split; auto. split; auto. eapply su_set; eauto.
  - intros data' L. destruct (trainingSet_ok junk M H beta rho lambda act p data s data' R L) as (q & Eq & _). exists q. split; auto.
    exists u, s0. split; auto. split; auto. eapply su_train; eauto.
Qed.

Theorem C64_current_parameters junk M H beta rho lambda act p data s :
  used junk M H beta rho lambda act p data s -> sae_currentParameters s = p.
Proof. intros U. apply used_ready in U. apply U. Qed.
Print Assumptions C64_current_parameters.

Lemma vecOf_ok m n : size_is m 1 n -> vecOf m = Ok (map (at_ m 0%nat) (seq 0 n)).
Proof. intros (R & C). unfold vecOf. rewrite R, C. reflexivity. Qed.

Lemma apply_ready junk M H beta rho lambda act p data s x :
  ready M H beta rho lambda act p data s -> length x = M ->
  exists s' y, sae_apply junk s x = Ok (s', y) /\ kept s s' /\ y = map (hidden M H act p (fun d => x.[d])) (seq 0 H) /\
    size_is (tZ1 (stmp s')) 1 H /\
    (forall n h, at_ (tZ1 (stmp s')) n h = gZ1 M act (at_ (rowOf x)) (fun _ => at_ (pW1 (spar s))) (fun _ j => at_ (pb1 (spar s)) j 0) 0 n h).
Proof.
  intros (I & F & _) Lx. pose proof I as (C & SP & _).
  destruct (encode_ok junk M H beta rho lambda act s (rowOf x) 1 I) as (s' & Z & E & K & T & SZ & FZ); [split; cbn; auto|].
  unfold sae_apply. rewrite E. cbn [bind]. rewrite (vecOf_ok Z H SZ). cbn [bind]. eexists _, _. split; [reflexivity|].
  split; auto. rewrite T. split; [|split; auto]. apply map_ext_in. intros h Hh. apply in_seq in Hh.
  rewrite FZ, (Z1_vec M H act (spar s) SP) by lia. rewrite F. reflexivity.
Qed.

(** The outputs only depend on the parameters and the instance, not on what the object was
    used for before. *)
Theorem C64_hidden_representation junk M H beta rho lambda act p data s x :
  used junk M H beta rho lambda act p data s -> length x = M ->
  exists s', sae_apply junk s x = Ok (s', map (hidden M H act p (fun d => x.[d])) (seq 0 H)).
Proof.
  intros U L. apply used_ready in U. destruct (apply_ready junk _ _ _ _ _ _ _ _ _ x U L) as (s' & y & E & _ & -> & _). eauto.
Qed.
Print Assumptions C64_hidden_representation.

Theorem C64_reconstruction junk M H beta rho lambda act p data s x :
  used junk M H beta rho lambda act p data s -> length x = M ->
  exists s', sae_reconstruct junk s x = Ok (s', map (reconstruction M H act p (fun d => x.[d])) (seq 0 M)).
Proof.
  intros U L. apply used_ready in U. destruct (apply_ready junk _ _ _ _ _ _ _ _ _ x U L) as (s1 & y & E & K & _ & SZ & FZ).
  destruct U as (I & F & _). pose proof (kept_inv _ _ _ _ _ _ _ _ K I) as I1. pose proof K as (_ & _ & K3 & _).
  unfold sae_reconstruct. rewrite E. cbn [bind].
  destruct (decode_ok junk M H beta rho lambda act s1 (rowOf x) 1 I1 SZ) as (s2 & Z & E2 & _ & _ & _ & SZ2 & FZ2).
  { intros n h. rewrite FZ, K3. reflexivity. }
  rewrite E2. cbn [bind]. rewrite (vecOf_ok Z M SZ2). cbn [bind]. exists s2.
  assert (Q : map (at_ Z 0%nat) (seq 0 M) = map (reconstruction M H act p (fun d => x.[d])) (seq 0 M)); [|now rewrite Q].
  apply map_ext_in. intros d Hd. apply in_seq in Hd. pose proof I1 as (_ & SP & _).
  rewrite FZ2, (Z2_vec M H act (spar s1) SP) by lia. rewrite K3, F. reflexivity.
Qed.
Print Assumptions C64_reconstruction.

(** operator() of a matrix treats the rows separately *)
Theorem C64_batch junk M H beta rho lambda act p data s X :
  used junk M H beta rho lambda act p data s -> cols X = M ->
  exists s' Z, sae_encode junk s X = Ok (s', Z) /\ rows Z = rows X /\ cols Z = H /\
    forall n h, (n < rows X)%nat -> (h < H)%nat -> at_ Z n h = hidden M H act p (at_ X n) h.
Proof.
  intros U L. apply used_ready in U. destruct U as (I & F & _). pose proof I as (_ & SP & _).
  destruct (encode_ok junk M H beta rho lambda act s X (rows X) I) as (s' & Z & E & _ & _ & (S1 & S2) & FZ); [split; auto|].
  exists s', Z. split; auto. split; auto. split; auto. intros n h Hn Hh. rewrite FZ, (Z1_vec M H act (spar s) SP), F by auto. reflexivity.
Qed.
Print Assumptions C64_batch.

(** A use that meets the hypotheses: 2 inputs, 3 hidden units, parameters and training set
    given, error computed in between. *)
Lemma some_use junk M H beta rho lambda act p data : length p = (2 * M * H + M + H)%nat ->
  (forall v, In v data -> length v = M) -> exists s, used junk M H beta rho lambda act p data s.
Proof.
  intros Lp Hd. set (u := fun _ : nat => 1 / 2). assert (Hu : forall k, 0 <= u k <= 1) by (unfold u; intros; lra).
  destruct (C64_construction junk M H beta rho lambda act u Hu) as (s0 & E & L & Dm & _).
  assert (U0 : used junk M H beta rho lambda act (sae_currentParameters s0) [] s0).
  { exists u, s0. split; auto. split; auto. constructor. }
  destruct (C64_usable _ _ _ _ _ _ _ _ _ _ U0) as (A & _).
  destruct (A p) as (q & _ & U1); [congruence|]. destruct (C64_usable _ _ _ _ _ _ _ _ _ _ U1) as (_ & B).
  destruct (B data Hd) as (q' & _ & U2). eauto.
Qed.

Example C63_case : exists s, used (fun _ _ => 7) 2 3 3 (1/10) (1/100) LOGISTIC (repeat (1/2) 17) [[1; 2]; [3; 4]] s /\
  meansProper 2 3 LOGISTIC (repeat (1/2) 17) (dataMat 2 [[1; 2]; [3; 4]]) /\
  noKinks 2 3 LOGISTIC (repeat (1/2) 17) (dataMat 2 [[1; 2]; [3; 4]]).
Proof.
  destruct (some_use (fun _ _ => 7) 2 3 3 (1/10) (1/100) LOGISTIC (repeat (1/2) 17) [[1; 2]; [3; 4]]) as (s & U).
  - reflexivity.
  - intros v [<-|[<-|[]]]; reflexivity.
  - exists s. split; auto. apply C63_logistic; [discriminate| |].
    + intros v h [<-|[<-|[]]] Hh; (destruct h as [|[|[|]]]; [..|lia]); unfold hiddenIn, w1, bias1; cbn; lra.
    + intros v d Hv Hd. assert (B : forall h, 0 <= hidden 2 3 LOGISTIC (repeat (1 / 2) 17) (fun d => v.[d]) h <= 1).
      { intros h. unfold hidden. cbn [act_fun]. match goal with |- context [Rltb ?x (-45)] => set (a := x) end.
        destruct (Rltb a (-45)); [lra|]. destruct (Rltb 45 a); [lra|]. pose proof (exp_pos (- a)).
        split; [apply Rlt_le, Rdiv_lt_0_compat; lra|].
        apply (Rmult_le_reg_r (1 + exp (- a))); [lra|]. unfold Rdiv. rewrite Rmult_assoc, Rinv_l by lra. lra. }
      unfold outIn. set (f := hidden 2 3 LOGISTIC (repeat (1 / 2) 17) (fun d => v.[d])) in *. clearbody f.
      pose proof (B 0%nat). pose proof (B 1%nat). pose proof (B 2%nat).
      unfold w2, bias2. destruct d as [|[|]]; [..|lia]; cbn; lra.
Qed.

(** A saturated logistic unit has the output 0 or 1 exactly (its argument is compared with 45), and if
    it is so for all instances the error is not a number: hidden bias -46. *)
Theorem C63_logistic_saturated_refuted :
  exists M H beta rho lambda p data s, used (fun _ _ => 0) M H beta rho lambda LOGISTIC p data s /\
    data <> [] /\ 0 < rho < 1 /\ exists s', sae_error (fun _ _ => 0) s = Ok (s', None).
Proof.
  destruct (some_use (fun _ _ => 0) 1 1 0 (1/2) 0 LOGISTIC [0; 0; -46; 0] [[0]]) as (s & U).
  - reflexivity.
  - intros v [<-|[]]; reflexivity.
  - exists 1%nat, 1%nat, 0, (1/2), 0, [0; 0; -46; 0], [[0]], s. split; auto. split; [discriminate|]. split; [lra|].
    destruct (C63_error _ _ _ _ _ _ _ _ _ _ U) as (s' & v & E & _ & N); [discriminate|lra|].
    exists s'. rewrite E. rewrite N; auto. intros Hm. specialize (Hm 0%nat ltac:(lia)).
    unfold meanActivation, hidden, hiddenIn, bias1, w1 in Hm. cbn in Hm. rewrite (proj2 (Rltb_true _ _)) in Hm by lra. lra.
Qed.

(** With beta = 0 there is no sparsity penalty, and the rest of the objective is defined for
    all parameters.  Nevertheless the error is not a number as soon as a mean activation
    leaves the interval (0, 1), which activation functions like the hyperbolic tangent,
    the identity or the rectifier allow. *)
Theorem C63_error_finite_refuted :
  exists M H rho lambda act p data s, used (fun _ _ => 0) M H 0 rho lambda act p data s /\
    data <> [] /\ 0 < rho < 1 /\ exists s', sae_error (fun _ _ => 0) s = Ok (s', None).
Proof.
  destruct (some_use (fun _ _ => 0) 1 1 0 (1/2) 0 TANH [0; 0; -1; 0] [[0]]) as (s & U).
  - reflexivity.
  - intros v [<-|[]]; reflexivity.
  - exists 1%nat, 1%nat, (1/2), 0, TANH, [0; 0; -1; 0], [[0]], s. split; auto. split; [discriminate|]. split; [lra|].
    destruct (C63_error _ _ _ _ _ _ _ _ _ _ U) as (s' & v & E & _ & N); [discriminate|lra|].
    exists s'. rewrite E. rewrite N; auto. intros Hm. specialize (Hm 0%nat ltac:(lia)).
    unfold meanActivation, hidden, hiddenIn, bias1, w1 in Hm. cbn -[tanh] in Hm. destruct Hm as (Hm & _).
    replace (0 + 0 * 0 + -1) with (-1) in Hm by ring. revert Hm. unfold Rdiv. rewrite Rinv_1.
    unfold tanh. assert (sinh (-1) < 0).
    { unfold sinh. pose proof (exp_increasing (-1) 1 ltac:(lra)). replace (- -1) with 1 by ring. lra. }
    assert (0 < cosh (-1)) by (unfold cosh; pose proof (exp_pos (-1)); pose proof (exp_pos (- -1)); lra).
    assert (sinh (-1) / cosh (-1) < 0). { unfold Rdiv. apply Rmult_lt_reg_r with (cosh (-1)); auto. rewrite Rmult_assoc, Rinv_l by lra. lra. }
    intros. lra.
Qed.

(** * C65: the auto-encoder as a layer *)

Lemma sae_history_inv junk M H beta rho lambda act s0 s : sae_inv M H beta rho lambda act s0 ->
  history (sae_class junk) M H s0 s -> sae_inv M H beta rho lambda act s.
Proof.
  intros H0. induction 1 as [|s p q Hh IH Hp E|s X dropout q Y r Hh IH HX E|s X dropout q Y r ein bp q2 eout Hh IH HX E He1 He2 Eb]; auto.
  - assert (Lp : length p = (H * M + H)%nat).
    { rewrite Hp. unfold paramCount. pose proof IH as (C & _). cbn [sae_class initialize]. unfold sae_initializeLayer. rewrite C. cbn [cD cH fst].
      rewrite app_length, map_length, seq_length. f_equal. rewrite (flat_map_length_const _ M H); auto.
      intros. now rewrite map_length, seq_length. }
    destruct (sae_install junk M H beta rho lambda act s p IH Lp) as (q' & E' & Hq & _). congruence.
  - destruct (sae_forward_ok junk M H beta rho lambda act s X dropout (rows X) IH) as (q' & Y' & E' & _ & Hq & _); [split; auto|].
    cbn [forwardPropagate sae_class] in E. congruence.
  - destruct (sae_forward_ok junk M H beta rho lambda act s X dropout (rows X) IH) as (q' & Y' & E' & SY & Hq & _ & _ & EX & EZ & _); [split; auto|].
    cbn [forwardPropagate sae_class backpropagate] in E, Eb. assert (q = q') by congruence. subst q'.
    destruct (sae_backward_ok junk M H beta rho lambda act q (rows X) ein bp Hq) as (q2' & e' & E2 & Hq2 & _).
    + rewrite EZ. auto.
    + rewrite EX. split; auto.
    + split; auto.
    + congruence.
Qed.

(** the layer parameters are the weights and biases of the hidden layer, unit by unit, then the biases *)
Theorem C65_parameters junk M H beta rho lambda act p data s :
  used junk M H beta rho lambda act p data s ->
  paramCount (sae_class junk) s = (H * M + H)%nat /\
  (forall h d, (h < H)%nat -> (d < M)%nat -> readParam (sae_class junk) s (h * M + d) = Ok (w1 H p h d)) /\
  (forall h, (h < H)%nat -> readParam (sae_class junk) s (H * M + h) = Ok (bias1 M H p h)).
Proof.
  intros U. apply used_ready in U. destruct U as (I & F & _). pose proof I as (C & SP & _).
  destruct (sae_read junk M H beta rho lambda act s I) as (R1 & R2). split; [|split].
  - unfold paramCount. cbn [sae_class initialize]. unfold sae_initializeLayer. rewrite C. cbn [cD cH fst].
    rewrite app_length, map_length, seq_length. f_equal. rewrite (flat_map_length_const _ M H); auto.
    intros. now rewrite map_length, seq_length.
  - intros h d Hh Hd. rewrite R1, <- F by auto. now rewrite (flat_w1 M H _ SP).
  - intros h Hh. rewrite R2, <- F by auto. now rewrite (flat_b1 M H _ SP).
Qed.
Print Assumptions C65_parameters.

(** A pre-trained auto-encoder put into a network passes on the hidden representation. *)
Theorem C65_pretrained_output junk M H beta rho lambda act p data s X dropout :
  used junk M H beta rho lambda act p data s -> 0 <= lambda -> cols X = M ->
  exists q Y, forwardPropagate (sae_class junk) s X dropout =
      Ok (q, Y, lambda / 2 * rsum H (fun h => rsum M (fun d => w1 H p h d ^ 2))) /\
    rows Y = rows X /\ cols Y = H /\
    forall n h, (n < rows X)%nat -> (h < H)%nat -> at_ Y n h = hidden M H act p (at_ X n) h.
Proof.
  intros U Hl HX. apply used_ready in U. destruct U as (I & F & _). pose proof I as (C & SP & _).
  destruct (sae_forward_ok junk M H beta rho lambda act s X dropout (rows X) I) as (q & Y & E & (Y1 & Y2) & _ & V & _); [split; auto|].
  exists q, Y. split; [|split; [|split]]; auto.
  - refine (eq_trans E _). apply (f_equal (fun r => Ok (q, Y, r))). unfold regError. cbn [l1Penalty l2Penalty].
    rewrite (proj2 (Rltb_false 0 0)) by lra.
    assert (Q : msum (mmap (fun w => w * w) (pW1 (spar s))) = rsum H (fun h => rsum M (fun d => w1 H p h d ^ 2))).
    { rewrite (msum_sq _ H M); [|apply SP]. apply rsum_ext. intros h Hh. apply rsum_ext. intros d Hd.
      rewrite <- F. now rewrite (flat_w1 M H _ SP). }
    rewrite Q. destruct (Rltb 0 lambda) eqn:El; [unfold Rdiv; ring|]. apply Rltb_false in El. replace lambda with 0 by lra. lra.
  - intros n h Hn Hh. rewrite V. unfold hidden, hiddenIn, preact. f_equal. rewrite <- F. f_equal.
    + apply rsum_ext. intros d Hd. now rewrite (flat_w1 M H _ SP).
    + now rewrite (flat_b1 M H _ SP).
Qed.
Print Assumptions C65_pretrained_output.

(** Fine-tuning: at any time in the life of the layer its derivatives are exact. *)
Theorem C65_layer_gradient junk M H beta rho lambda act p0 data s0 s p X dropout e bp :
  used junk M H beta rho lambda act p0 data s0 -> history (sae_class junk) M H s0 s ->
  0 <= lambda -> length p = paramCount (sae_class junk) s0 -> cols X = M -> rows e = rows X -> cols e = H ->
  (forall n h, (n < rows X)%nat -> (h < H)%nat ->
     act_smooth act (rsum M (fun d => at_ X n d * p.[h * M + d]) + p.[H * M + h])) ->
  partials_exact (sae_class junk) s p X dropout e bp.
Proof.
  intros U Hh Hl Hp HX He1 He2 Sm. destruct (C65_parameters _ _ _ _ _ _ _ _ _ _ U) as (PC & _). rewrite PC in Hp.
  apply used_ready in U. destruct U as (I & _). pose proof (sae_history_inv _ _ _ _ _ _ _ _ _ I Hh) as Is.
  eapply contract_partials; [exact (sae_contract junk M H beta rho lambda act Hl)|exact Is|..]; auto.
  intros q Eq. destruct (sae_install junk M H beta rho lambda act s p Is Hp) as (q' & E' & _ & R1 & R2).
  assert (q' = q) by (cbn in Eq; congruence). subst q'. intros n h Hn Hh'. unfold preact. rewrite R2 by auto.
  rewrite (rsum_ext M _ (fun d => at_ X n d * p.[h * M + d])); [now apply Sm|]. intros d Hd. now rewrite R1.
Qed.
Print Assumptions C65_layer_gradient.

(** and its outputs are those of the current layer parameters *)
Theorem C65_layer_output junk M H beta rho lambda act p0 data s0 s p X dropout :
  used junk M H beta rho lambda act p0 data s0 -> history (sae_class junk) M H s0 s ->
  length p = paramCount (sae_class junk) s0 -> cols X = M ->
  exists q q1 Y r, install (sae_class junk) s p = Ok q /\ forwardPropagate (sae_class junk) q X dropout = Ok (q1, Y, r) /\
    rows Y = rows X /\ cols Y = H /\
    forall n h, (n < rows X)%nat -> (h < H)%nat ->
      at_ Y n h = act_fun act (rsum M (fun d => at_ X n d * p.[h * M + d]) + p.[H * M + h]).
Proof.
  intros U Hh Hp HX. destruct (C65_parameters _ _ _ _ _ _ _ _ _ _ U) as (PC & _). rewrite PC in Hp.
  apply used_ready in U. destruct U as (I & _). pose proof (sae_history_inv _ _ _ _ _ _ _ _ _ I Hh) as Is.
  destruct (sae_install junk M H beta rho lambda act s p Is Hp) as (q & Eq & Iq & R1 & R2).
  destruct (sae_forward_ok junk M H beta rho lambda act q X dropout (rows X) Iq) as (q1 & Y & E & (Y1 & Y2) & _ & V & _); [split; auto|].
  eexists q, q1, Y, _. split; [exact Eq|]. split; [exact E|]. split; auto. split; auto. intros n h Hn Hh'. rewrite V. unfold preact.
  rewrite R2 by auto. do 2 f_equal. apply rsum_ext. intros. now rewrite R1.
Qed.
Print Assumptions C65_layer_output.

Example C65_case : exists s0 s, used (fun _ _ => 7) 2 3 3 (1/10) (1/100) LOGISTIC (repeat (1/2) 17) [[1; 2]; [3; 4]] s0 /\
  history (sae_class (fun _ _ => 7)) 2 3 s0 s /\ s <> s0.
Proof.
  destruct C63_case as (s0 & U & _). pose proof (used_ready _ _ _ _ _ _ _ _ _ _ U) as (I & F & _).
  destruct (sae_install (fun _ _ => 7) 2 3 3 (1/10) (1/100) LOGISTIC s0 (repeat 3 9) I) as (q & E & _ & R1 & _); [reflexivity|].
  exists s0, q. split; auto. split.
  - eapply h_set; [apply h_new| |exact E]. destruct (C65_parameters _ _ _ _ _ _ _ _ _ _ U) as (PC & _). rewrite PC. reflexivity.
  - intros ->. specialize (R1 0%nat 0%nat ltac:(lia) ltac:(lia)). pose proof I as (_ & SP & _).
    pose proof (flat_w1 2 3 _ SP 0 0 ltac:(lia) ltac:(lia)) as Q. rewrite F in Q. rewrite <- Q in R1. cbn in R1. lra.
Qed.

(** The two interfaces of the class do not know of each other.  Fine-tuning the layer leaves
    currentParameters unchanged: the parameters it returns are no longer those in use. *)
Theorem C65_current_parameters_refuted :
  exists junk p s q s', used junk 1 1 0 (1/2) 0 LINEAR p [] s /\ writeParam (sae_class junk) s 0 1 = Ok q /\
    sae_currentParameters q = p /\ sae_apply junk q [1] = Ok (s', [1]) /\
    map (hidden 1 1 LINEAR p (fun d => [1].[d])) (seq 0 1) = [0].
Proof.
  set (junk := fun _ _ : nat => 0). destruct (some_use junk 1 1 0 (1/2) 0 LINEAR [0; 0; 0; 0] []) as (s & U); [reflexivity|intros v []|].
  pose proof (used_ready _ _ _ _ _ _ _ _ _ _ U) as (I & F & Q & _).
  destruct (sae_write junk 1 1 0 (1/2) 0 LINEAR s 0 1 I) as (q & E & Iq & R); [lia|].
  destruct (sae_read junk 1 1 0 (1/2) 0 LINEAR q Iq) as (R1 & R2).
  destruct (sae_read junk 1 1 0 (1/2) 0 LINEAR s I) as (S1 & S2).
  pose proof (R1 0%nat 0%nat ltac:(lia) ltac:(lia)) as A1. pose proof (R 0%nat ltac:(lia)) as A2. cbn [Nat.eqb Nat.mul Nat.add] in A1, A2.
  pose proof (R2 0%nat ltac:(lia)) as B1. pose proof (R 1%nat ltac:(lia)) as B2. cbn [Nat.eqb Nat.mul Nat.add] in B1, B2.
  pose proof (S2 0%nat ltac:(lia)) as B3. cbn [Nat.eqb Nat.mul Nat.add] in B3. pose proof I as (_ & SP & _).
  pose proof (flat_b1 1 1 _ SP 0%nat ltac:(lia)) as B4. rewrite F in B4. cbn in B4.
  assert (W : at_ (pW1 (spar q)) 0 0 = 1) by congruence.
  assert (Bq : at_ (pb1 (spar q)) 0 0 = 0) by congruence.
  destruct (encode_ok junk 1 1 0 (1/2) 0 LINEAR q (rowOf [1]) 1 Iq) as (s' & Z & Ee & _ & _ & SZ & FZ); [split; reflexivity|].
  exists junk, [0; 0; 0; 0], s, q, s'. split; auto. split; auto. split; [|split].
  - unfold writeParam in E. destruct I as (C & (SA & SB) & _). cbn [sae_class initialize] in E. unfold sae_initializeLayer in E. rewrite C in E. cbn in E.
    rewrite mset_Ok in E by (destruct SA; lia). cbn in E. injection E as <-. exact Q.
  - unfold sae_apply. rewrite Ee. cbn [bind]. rewrite (vecOf_ok Z 1 SZ). cbn [bind seq map]. rewrite FZ. unfold gZ1, gA1.
    cbn [rsum act_fun rowOf at_]. rewrite W, Bq. cbn. do 3 f_equal. ring.
  - cbn. unfold hidden, hiddenIn, w1, bias1. cbn. f_equal. ring.
Qed.

(** A forward pass of the layer replaces the training set: error then refers to the last
    input of the layer. *)
Theorem C65_forward_replaces_training_set junk M H beta rho lambda act p data s X dropout q Y r :
  used junk M H beta rho lambda act p data s -> 0 < rho < 1 -> cols X = M -> (0 < rows X)%nat ->
  meansProper M H act p X ->
  forwardPropagate (sae_class junk) s X dropout = Ok (q, Y, r) ->
  exists q', sae_error junk q = Ok (q', Some (saeObjective M H beta rho lambda act p X)).
Proof.
  intros U Hr HX HN Hm E. apply used_ready in U. destruct U as (I & F & _).
  destruct (sae_forward_ok junk M H beta rho lambda act s X dropout (rows X) I) as (q1 & Y1 & E1 & _ & I1 & _ & EP & EX & _); [split; auto|].
  cbn [forwardPropagate sae_class] in E. assert (q1 = q) by congruence. subst q1.
  destruct (error_ok junk M H beta rho lambda act q (rows X) I1) as (q' & Ee & _); [rewrite EX; split; auto|].
  exists q'. rewrite Ee. rewrite EX, EP. pose proof I as (_ & SP & _). rewrite errValue_proper, F; auto. now rewrite F.
Qed.
Print Assumptions C65_forward_replaces_training_set.

(** so the error of the training set is lost *)
Theorem C65_training_set_refuted :
  exists junk p data s X q Y r s1 e1 s2 e2, used junk 1 1 0 (1/2) 0 LINEAR p data s /\
    forwardPropagate (sae_class junk) s X false = Ok (q, Y, r) /\
    sae_error junk s = Ok (s1, Some e1) /\ sae_error junk q = Ok (s2, Some e2) /\ e1 <> e2.
Proof.
  set (junk := fun _ _ : nat => 0). set (p := [1/2; 0; 0; 0]). set (X := mkMat 1 1 (fun _ _ => 1/2)).
  destruct (some_use junk 1 1 0 (1/2) 0 LINEAR p [[1]]) as (s & U); [reflexivity|intros v [<-|[]]; reflexivity|].
  assert (P1 : meansProper 1 1 LINEAR p (dataMat 1 [[1]])).
  { intros h Hh. assert (h = 0)%nat by lia. subst h. unfold meanActivation, hidden, hiddenIn, w1, bias1. cbn. lra. }
  assert (P2 : meansProper 1 1 LINEAR p X).
  { intros h Hh. assert (h = 0)%nat by lia. subst h. unfold meanActivation, hidden, hiddenIn, w1, bias1. cbn. lra. }
  destruct (C63_error _ _ _ _ _ _ _ _ _ _ U) as (s1 & v & E1 & V & _); [discriminate|lra|]. rewrite (V P1) in E1.
  destruct (C65_pretrained_output _ _ _ _ _ _ _ _ _ _ X false U) as (q & Y & E2 & _); [lra|reflexivity|].
  assert (Q : exists q', sae_error junk q = Ok (q', Some (saeObjective 1 1 0 (1/2) 0 LINEAR p X))).
  { eapply (C65_forward_replaces_training_set _ _ _ _ _ _ _ _ _ _ X false _ _ _ U); [lra|reflexivity|cbn; lia|exact P2|exact E2]. }
  destruct Q as (s2 & E3).
  eexists junk, p, [[1]], s, X, q, Y, _, s1, _, s2, _. split; [exact U|]. split; [exact E2|]. split; [exact E1|]. split; [exact E3|].
  unfold saeObjective, reconstruction, outIn, hidden, hiddenIn, w1, w2, bias1, bias2. cbn -[KL]. lra.
Qed.
