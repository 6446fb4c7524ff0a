(** Backpropagation in double precision. *)
From Coq Require Import Lra Lia Psatz.
From Flocq Require Import Core BinarySingleNaN.
From Verif Require Import Base BaseFacts Deriv Activation_Model Activation_Proofs Float_Model Float_Spec Float_Proofs FloatAct_Proofs FloatSoft_Proofs FloatNet_Model FloatNet_Spec FloatNet_Proofs FloatGrad_Model FloatGrad_Spec FloatGradReal_Proofs.
Local Open Scope R_scope.
Opaque eps tiny maxDouble literal dint.

Lemma near_mono M e M' e' d r : near M e d r -> M <= M' -> e <= e' -> near M' e' d r.
Proof. intros (H1 & H2 & H3 & H4) L1 L2. split; auto. split; [lra|]. split; lra. Qed.
Lemma Forall2_imp {T U} (P Q : T -> U -> Prop) l k : (forall a b, P a b -> Q a b) -> Forall2 P l k -> Forall2 Q l k.
Proof. intros H. induction 1; constructor; auto. Qed.
Lemma Forall2_map_inv {T U V W} (P : V -> W -> Prop) (f : T -> V) (g : U -> W) l k : Forall2 P (map f l) (map g k) -> Forall2 (fun a b => P (f a) (g b)) l k.
Proof. revert k. induction l as [|a l IH]; intros [|b k] H; inversion H; subst; constructor; auto. Qed.
Lemma Forall2_map_both {T U V W} (P : V -> W -> Prop) (f : T -> V) (g : U -> W) l k : Forall2 (fun a b => P (f a) (g b)) l k -> Forall2 P (map f l) (map g k).
Proof. induction 1; cbn [map]; constructor; auto. Qed.

(** * The slope *)
Section Slope.
Variable m : libm.
Hypothesis A : accurate m.
Definition slopeNear (e : R) (act : ActivationFunction) (y : double) (r : R) : Prop :=
  finite (d_actDerivative act y) /\ Rabs (val (d_actDerivative act y) - dsig act r) <= 2 * e + 1 / 10 ^ 11 /\ Rabs (val (d_actDerivative act y)) <= 1.15 /\ Rabs (dsig act r) <= 1.15.
Lemma slope_near act a r M e : act <> RECTIFIER -> near M e (d_act m act a) (sigma act r) -> slopeNear e act (d_act m act a) (sigma act r).
Proof.
  intros NR (F & _ & _ & E). pose proof (Rabs_pos (val (d_act m act a) - sigma act r)) as P.
  assert (N : act <> LINEAR -> is_nan a = false). { intros NL. destruct a; auto. exfalso. unfold finite in F. destruct act; try congruence; [rewrite (nan_logistic m A) in F|rewrite (nan_tanh m A) in F|rewrite (nan_scaled m A) in F]; discriminate. }
  unfold slopeNear. destruct act; try congruence; cbn [d_act d_actDerivative sigma dsig] in *.
  - destruct (logistic_range m A a (N ltac:(discriminate))) as (H1 & H2). destruct (logisticDerivative_ok _ H1 H2) as (D1 & D2 & D3). cbn [act_der] in D3. pose proof (logistic_bounds r) as B. set (z := val (d_logistic m a)) in *. set (s := 1 / (1 + exp (- r))) in *. clearbody s.
    assert (Q : Rabs (z * (1 - z) - s * (1 - s)) <= 1 * e + e * 1). { apply mult_err; auto; [|apply Rabs_le; lra|apply Rabs_le; lra]. apply Rabs_le_inv in E. apply Rabs_le. lra. }
    assert (S1 : 0 <= s * (1 - s) <= 1) by nra. split; auto. split; [apply Rabs_le_inv in D3, Q; apply Rabs_le; lra|]. split; apply Rabs_le; lra.
  - destruct (normaltanh_range m A a (N ltac:(discriminate))) as (H1 & H2). destruct (normaltanhDerivative_ok _ H1 H2) as (D1 & D2 & D3). cbn [act_der] in D3. pose proof (tanh_range r) as B. set (z := val (d_normaltanh m a)) in *. set (s := tanh r) in *. clearbody s.
    assert (Q : Rabs (z * z - s * s) <= 1 * e + e * 1) by (apply mult_err; auto; apply Rabs_le; lra).
    assert (S1 : 0 <= s * s <= 1) by nra. split; auto. split; [apply Rabs_le_inv in D3, Q; apply Rabs_le; lra|]. split; apply Rabs_le; lra.
  - destruct (scaledtanh_range m A a (N ltac:(discriminate))) as (H1 & H2). destruct (scaledtanhDerivative_ok _ H1 H2) as (D1 & D2 & D3). cbn [act_der] in D3. pose proof (tanh_range (0.66666667 * r)) as B. destruct lit17 as (_ & L4). apply Rabs_le_inv in L4. set (z := val (d_scaledtanh m a)) in *. set (s := tanh (0.66666667 * r)) in *. clearbody s.
    assert (Q : Rabs (z * z - 1.7159 * s * (1.7159 * s)) <= 2 * e + e * 2) by (apply mult_err; auto; apply Rabs_le; lra).
    assert (S1 : 0 <= s * s <= 1) by nra. assert (S2 : 0 <= z * z) by apply Rle_0_sqr. set (q := z * z) in *. assert (G1 : 0.66666667 / 1.7159 * (1.7159 + z) * (1.7159 - z) = 0.66666667 / 1.7159 * (1.7159 * 1.7159 - q)) by (unfold q; ring). assert (G2 : 0.66666667 / 1.7159 * (1.7159 + 1.7159 * s) * (1.7159 - 1.7159 * s) = 0.66666667 * 1.7159 * (1 - s * s)) by (field; lra).
    rewrite G2. rewrite G1 in D3. replace (1.7159 * s * (1.7159 * s)) with (1.7159 * 1.7159 * (s * s)) in Q by ring. set (p := s * s) in *. clearbody q p. split; auto. apply Rabs_le_inv in D3, Q. split; [apply Rabs_le; lra|]. split; apply Rabs_le; lra.
  - destruct fin1 as (F1 & V1). rewrite V1. replace (1 - 1) with 0 by ring. rewrite Rabs_R0, Rabs_R1. split; auto. split; [lra|]. split; lra.
Qed.
(** * One delta *)
Lemma delta_near act y r e G H ein rein : 0 <= e -> 0 <= G <= 2 ^ 30 -> slopeNear e act y r -> near G H ein rein ->
  near (1.25 * G + 1 / 10 ^ 20) (1.15 * H + (2 * e + 2 / 10 ^ 11) * G + 1 / 10 ^ 20) (dmult (d_actDerivative act y) ein) (dsig act r * rein).
Proof.
  intros He HG (S1 & S2 & S3 & S4) (N1 & N2 & N3 & N4). set (d := d_actDerivative act y) in *. set (s := dsig act r) in *. pose proof eps_small as EP. pose proof tiny_tiny as TT.
  assert (B : Rabs (val d * val ein) <= 1.15 * G) by (rewrite Rabs_mult; apply Rmult_le_compat; auto using Rabs_pos). assert (B' : Rabs (s * rein) <= 1.15 * G) by (rewrite Rabs_mult; apply Rmult_le_compat; auto using Rabs_pos).
  pose proof (mult_ok d ein S1 N1 ltac:(apply small_max; lra)) as MO. pose proof (dist _ _ (1.15 * G) MO B ltac:(lra)) as DI. pose proof (mult_err _ _ _ _ _ _ _ _ S2 N4 S3 N3) as ME.
  assert (EG : eps * (1.15 * G) <= 1 / 10 ^ 14 * G) by (replace (eps * (1.15 * G)) with ((1.15 * eps) * G) by ring; apply Rmult_le_compat_r; lra). split; [apply MO|]. split; [|split; [lra|]].
  - replace (val (dmult d ein)) with ((val (dmult d ein) - val d * val ein) + val d * val ein) by ring. apply Rle_trans with (1 := Rabs_triang _ _). lra.
  - apply Rabs_le_inv in DI, ME. apply Rabs_le. lra.
Qed.
End Slope.

(** * Columns *)
Lemma column_map {T U} (f : T -> U) i rows : column i (map (map f) rows) = map f (column i rows).
Proof. unfold column. induction rows as [|r rows IH]; [reflexivity|]. cbn [map flat_map]. rewrite map_app, IH, nth_error_map. destruct (nth_error r i); reflexivity. Qed.
Lemma column_in {T} i (rows : list (list T)) v : In v (column i rows) -> exists r, In r rows /\ In v r.
Proof. intros H. apply in_flat_map in H as (r & Ir & Iv). exists r. split; auto. destruct (nth_error r i) as [u|] eqn:E; [|destruct Iv]. destruct Iv as [<-|[]]. eapply nth_error_In; eauto. Qed.
Lemma column_length {T} i (rows : list (list T)) : (forall r, In r rows -> (i < length r)%nat) -> length (column i rows) = length rows.
Proof. induction rows as [|r rows IH]; intros H; [reflexivity|]. destruct (nth_error r i) as [u|] eqn:E; [|apply nth_error_None in E; specialize (H r (or_introl eq_refl)); lia]. rewrite (column_cons i r rows u E). cbn [length]. rewrite IH; auto. intros; apply H; now right. Qed.
Lemma inner_dot c rd : dotR rd (map val c) = inner c rd.
Proof. unfold dotR, inner. f_equal. revert rd. induction c as [|a c IH]; intros [|b rd]; cbn [map combine fst snd]; auto. rewrite IH. f_equal. ring. Qed.

(** * Real layers *)
Lemma rOutput_asReal l x : rOutput (asReal l) x = exactLayer l x.
Proof.
  unfold rOutput, exactLayer, asReal. cbn [rweights rbiases ract]. assert (Q : forall (bs : list R) rows, map (fun p => sigma (actOf l) (dotR (fst p) x + snd p)) (combine (map (map val) rows) bs) = map (fun p => sigma (actOf l) (inner (fst p) x + snd p)) (combine rows bs)); [|apply Q].
  induction bs as [|b bs IH]; intros [|r rows]; cbn [map combine]; auto. cbn [fst snd]. rewrite IH. do 3 f_equal. rewrite <- inner_dot. unfold dotR. f_equal. generalize (map val r) as u. intros u. revert x IH. clear. intros x _. revert x. induction u as [|a u IHu]; intros [|c x]; cbn [combine map fst snd]; auto. rewrite IHu. f_equal. ring.
Qed.
Lemma asReal_shaped I ls : wellShaped I ls -> rshaped I (map asReal ls).
Proof.
  revert I. induction ls as [|l ls IH]; intros I; [trivial|]. cbn [wellShaped map rshaped]. intros ((T1 & T2) & SH). split; [split|].
  - cbn [rweights asReal]. intros r J. apply in_map_iff in J as (w & <- & J). rewrite map_length. auto.
  - cbn [rweights rbiases asReal]. unfold biases. rewrite map_length. destruct (biasVector l); rewrite map_length; auto.
  - cbn [rweights asReal]. rewrite map_length. auto.
Qed.

(** * The differences of outputs and targets *)
Lemma error_near Mg Dg tau x xr t : let g := 1.01 * (Mg + tau) in let h := Dg + (Mg + tau) / 2 ^ 52 in 0 <= Mg -> 0 <= tau -> g <= 2 ^ 30 -> Forall2 (near Mg Dg) x xr -> (forall v, In v t -> finite v /\ Rabs (val v) <= tau) ->
  Forall2 (near g h) (d_difference x t) (map (fun p => fst p - snd p) (combine xr (map val t))).
Proof.
  intros g h HM HT Gb F. revert t. pose proof eps_small as EP. unfold d_difference. induction F as [|d r x xr (F & D1 & D2 & D3) H0 IH]; intros [|v t] W; cbn [combine map fst snd]; try constructor.
  - destruct (W v (or_introl eq_refl)) as (Fv & Bv). assert (B : Rabs (val d - val v) <= Mg + tau) by (apply Rabs_le_inv in D1, Bv; apply Rabs_le; lra). assert (B2 : Rabs (r - val v) <= Mg + tau) by (apply Rabs_le_inv in D2, Bv; apply Rabs_le; lra).
    assert (SM : Rabs (val d - val v) <= maxDouble) by (apply small_max; unfold g in Gb; lra). pose proof (minus_rel d v F Fv SM) as E. assert (E2 : eps * Rabs (val d - val v) <= eps * (Mg + tau)) by (apply Rmult_le_compat_l; lra). assert (E3 : eps * (Mg + tau) <= 1 / 1000 * (Mg + tau)) by (apply Rmult_le_compat_r; lra).
    split; [apply (minus_ok d v F Fv SM)|]. split; [|split].
    + replace (val (dminus d v)) with ((val (dminus d v) - (val d - val v)) + (val d - val v)) by ring. apply Rle_trans with (1 := Rabs_triang _ _). unfold g. lra.
    + unfold g. lra.
    + unfold h. replace ((Mg + tau) / 2 ^ 52) with (eps * (Mg + tau)) by (rewrite eps_eq; field). apply Rabs_le_inv in E, D3. apply Rabs_le. lra.
  - apply IH. intros u I. apply W. now right.
Qed.

(** * Backpropagation of one instance *)
Section Back.
Variable m : libm.
Hypothesis A : accurate m.
Variables (n : nat) (w Mg Dg g h : R).
Hypothesis Hn : (Z.of_nat n <= 2 ^ 30)%Z.
Hypothesis Hw : 0 <= w.
Hypothesis HM : 0 <= Mg <= 2 ^ 28.
Hypothesis HD : 0 <= Dg.
Hypothesis Hg : 0 <= g.
Hypothesis Hh : 0 <= h.
Let G := backMagnitude (INR n) w g.
Let H := backDeviation (INR n) w g h Dg.
Let dm := deltaMagnitude (INR n) w g.
Let dd := deltaDeviation (INR n) w g h Dg.
Lemma dm_eq k : dm k = 1.25 * G k + 1 / 10 ^ 20. Proof. reflexivity. Qed.
Lemma dd_eq k : dd k = 1.15 * H k + (2 * Dg + 2 / 10 ^ 11) * G k + 1 / 10 ^ 20. Proof. reflexivity. Qed.
Lemma G_step k : G (S k) = 1.2 * (INR n * w * dm k + w) + 1. Proof. reflexivity. Qed.
Lemma H_step k : H (S k) = INR n * w * dd k + (2 * INR n + 2) / 2 ^ 52 * (INR n * w * dm k + w) + 1 / 10 ^ 20. Proof. reflexivity. Qed.
Lemma G_pos k : 0 <= G k.
Proof.
  induction k as [|k IH].
  - exact Hg.
  - rewrite G_step. assert (0 <= INR n * w * dm k); [|lra]. apply Rmult_le_pos; [apply Rmult_le_pos; auto using pos_INR|]. rewrite dm_eq. lra.
Qed.
Lemma dm_pos k : 0 <= dm k. Proof. pose proof (G_pos k). rewrite dm_eq. lra. Qed.
Lemma H_pos k : 0 <= H k /\ 0 <= dd k.
Proof.
  assert (Q : 0 <= H k -> 0 <= dd k). { intros Q. rewrite dd_eq. pose proof (G_pos k). assert (0 <= (2 * Dg + 2 / 10 ^ 11) * G k) by (apply Rmult_le_pos; lra). lra. }
  split; [|apply Q]; clear Q; induction k as [|k IH]; try exact Hh; rewrite H_step; pose proof (G_pos k) as GP; pose proof (dm_pos k) as DP; pose proof (pos_INR n) as NP;
    (assert (Q : 0 <= (2 * Dg + 2 / 10 ^ 11) * G k) by (apply Rmult_le_pos; lra)); (assert (D0 : 0 <= dd k) by (rewrite dd_eq; lra)); (assert (Q1 : 0 <= INR n * w * dd k) by (apply Rmult_le_pos; auto; now apply Rmult_le_pos));
    (assert (Q2 : 0 <= INR n * w * dm k) by (apply Rmult_le_pos; auto; now apply Rmult_le_pos)); (assert (Q3 : 0 <= (2 * INR n + 2) / 2 ^ 52 * (INR n * w * dm k + w)) by (apply Rmult_le_pos; lra)); lra.
Qed.
Lemma delta_list act ys yr ein rein k : G k <= 2 ^ 30 -> Forall2 (slopeNear Dg act) ys yr -> Forall2 (near (G k) (H k)) ein rein ->
  Forall2 (near (dm k) (dd k)) (map (fun p => dmult (d_actDerivative act (fst p)) (snd p)) (combine ys ein)) (map (fun p => dsig act (fst p) * snd p) (combine yr rein)).
Proof.
  intros GB F. revert ein rein. induction F as [|y r ys yr S0 F IH]; intros ein rein E; [constructor|]. destruct E as [|e re ein rein E0 E]; [constructor|]. cbn [combine map fst snd]. constructor; [|now apply IH]. rewrite dm_eq, dd_eq. apply delta_near; auto. split; [apply G_pos|auto].
Qed.
Lemma eout_near sum l I delta rd k : (forall i, summation (sum i)) -> takes I l -> weightsBelow w l -> (length (weightRows l) <= n)%nat -> length delta = length (weightRows l) -> G (S k) <= 2 ^ 30 ->
  Forall2 (near (dm k) (dd k)) delta rd -> Forall2 (near (G (S k)) (H (S k))) (d_eout sum l I delta) (reout (asReal l) I rd).
Proof.
  intros SM (T1 & _) W LN LD GB F. unfold d_eout, reout. apply Forall2_map_both. assert (Q : forall i, In i (seq 0 I) -> near (G (S k)) (H (S k)) (d_dot (sum i) delta (column i (weightRows l))) (dotR rd (column i (rweights (asReal l))))).
  2:{ revert Q. generalize (seq 0 I) as q. induction q as [|i q IH]; intros Q; constructor; [apply Q; now left|apply IH; intros; apply Q; now right]. }
  intros i J. apply in_seq in J. cbn [rweights asReal]. rewrite column_map, inner_dot. pose proof (G_pos k) as GP. destruct (H_pos k) as (HP & DD). pose proof (dm_pos k) as DM. pose proof (pos_INR n) as NP. rewrite G_step in GB.
  assert (Q0 : 0 <= INR n * w * dm k) by (repeat apply Rmult_le_pos; auto).
  destruct (pre_near n w (dm k) (dd k) Hn Hw DM DD ltac:(lra) (sum i) delta rd (column i (weightRows l)) None (SM i) F) as (P1 & P2 & P3 & P4 & P5).
  - rewrite column_length; [congruence|]. intros r Ir. rewrite (T1 r Ir). lia.
  - lia.
  - intros v Iv. apply column_in in Iv as (r & Ir & Iv). apply W. left. eauto.
  - discriminate.
  - cbn [biased biasValue] in *. rewrite !Rplus_0_r in *. set (s := d_dot (sum i) delta (column i (weightRows l))) in *. set (r0 := inner (column i (weightRows l)) (map val delta)) in *. set (r := inner (column i (weightRows l)) rd) in *. rewrite G_step, H_step. set (q := INR n * w * dm k + w) in *.
    assert (QP : 0 <= q) by (unfold q; lra). assert (NB : INR n <= 2 ^ 30) by (rewrite INR_IZR_INZ; apply IZR_le in Hn; lra). assert (SL : (2 * INR n + 2) / 2 ^ 52 * q <= 1 / 1000 * q) by (apply Rmult_le_compat_r; lra).
    split; auto. split; [|split; [lra|apply Rabs_le_inv in P2, P5; apply Rabs_le; lra]]. replace (val s) with ((val s - r0) + r0) by ring. apply Rle_trans with (1 := Rabs_triang _ _). lra.
Qed.
Lemma dback_cons sf sb err l ls x : d_back m sf sb err (l :: ls) x =
  ((d_delta l (d_instance m (sf O) l x) (snd (d_back m (fun k => sf (S k)) (fun k => sb (S k)) err ls (d_instance m (sf O) l x))), x) :: fst (d_back m (fun k => sf (S k)) (fun k => sb (S k)) err ls (d_instance m (sf O) l x)),
   d_eout (sb O) l (length x) (d_delta l (d_instance m (sf O) l x) (snd (d_back m (fun k => sf (S k)) (fun k => sb (S k)) err ls (d_instance m (sf O) l x))))).
Proof. cbn [d_back]. destruct (d_back m _ _ err ls _). reflexivity. Qed.
Lemma instance_slope sf l x xr e M : actOf l <> RECTIFIER -> e <= Dg -> Forall2 (near M e) (d_instance m sf l x) (exactLayer l xr) -> Forall2 (slopeNear Dg (actOf l)) (d_instance m sf l x) (exactLayer l xr).
Proof.
  intros NR LE F. unfold d_instance, exactLayer in *. rewrite <- (map_map (fun p => inner (fst p) xr + snd p) (sigma (actOf l))) in *. apply Forall2_map_both. apply Forall2_map_inv in F. revert F. apply Forall2_imp. intros a r Q. apply (slope_near m A _ a r M Dg NR). apply (near_mono M e); auto; lra.
Qed.
Lemma back_near ls : forall sf sb err rerr rt x xr M e, (forall k j, summation (sf k j)) -> (forall k j, summation (sb k j)) -> 0 <= M -> 0 <= e -> Forall2 (near M e) x xr -> wellShaped (length x) ls ->
  (forall l, In l ls -> weightsBelow w l /\ actOf l <> RECTIFIER /\ (length (weightRows l) <= n)%nat /\ forall r, In r (weightRows l) -> (length r <= n)%nat) ->
  (forall k, (k <= length ls)%nat -> magnitude (INR n) w M k <= Mg /\ deviation (INR n) w M e k <= Dg) ->
  (forall y, length y = outputs (length x) ls -> Forall2 (near Mg Dg) y (exactNet ls xr) -> Forall2 (near g h) (err y) (rerr (exactNet ls xr) rt) /\ length (err y) = length y) -> (forall k, (k <= length ls)%nat -> G k <= 2 ^ 30) ->
  Forall2 (near (G (length ls)) (H (length ls))) (snd (d_back m sf sb err ls x)) (snd (rback rerr (map asReal ls) xr rt)) /\ length (snd (d_back m sf sb err ls x)) = length x /\
  forall k l, nth_error ls k = Some l -> exists delta z rd rz, nth_error (fst (d_back m sf sb err ls x)) k = Some (delta, z) /\ nth_error (fst (rback rerr (map asReal ls) xr rt)) k = Some (rd, rz) /\
    Forall2 (near (dm (length ls - 1 - k)) (dd (length ls - 1 - k))) delta rd /\ Forall2 (near Mg Dg) z rz /\ length delta = length (weightRows l) /\ (forall r, In r (weightRows l) -> length z = length r).
Proof.
  induction ls as [|l ls IH]; intros sf sb err rerr rt x xr M e Sf Sb HM0 He F SH W MB EN GB.
  - cbn [d_back rback map fst snd length]. destruct (MB 0%nat ltac:(cbn; lia)) as (M0 & D0). cbn [magnitude deviation] in M0, D0. destruct (EN x eq_refl) as (EN1 & EN2). { revert F. apply Forall2_imp. intros a r Q. now apply (near_mono M e). } split; [exact EN1|]. split; [exact EN2|].
    intros [|k] l Q; discriminate.
  - destruct SH as (T & SH). destruct (W l (or_introl eq_refl)) as (W1 & W2 & W3 & W4). destruct (magnitude_step (INR n) w M (pos_INR n) Hw HM0) as (G0 & G1). destruct (MB 0%nat ltac:(cbn; lia)) as (M0 & D0). destruct (MB 1%nat ltac:(cbn; lia)) as (M1 & D1). cbn [magnitude deviation] in M0, D0, M1, D1.
    set (M' := 1.2 * (INR n * w * M + w) + 1) in *. set (e' := 1.15 * (INR n * w * e + (2 * INR n + 2) / 2 ^ 52 * (INR n * w * M + w) + 1 / 10 ^ 20) + 1 / 10 ^ 12) in *.
    assert (E0 : 0 <= e'). { unfold e'. assert (0 <= INR n * w * e) by (repeat apply Rmult_le_pos; auto; apply pos_INR). pose proof (pos_INR n). assert (0 <= (2 * INR n + 2) / 2 ^ 52 * (INR n * w * M + w)) by (apply Rmult_le_pos; lra). lra. }
    pose proof (instance_near m A n w M e Hn Hw HM0 He ltac:(unfold M' in M1; lra) (sf 0%nat) l x xr (Sf 0%nat) T W1 W4 F) as IN. fold M' e' in IN. pose proof (instance_slope (sf 0%nat) l x xr e' M' W2 D1 IN) as SN. pose proof (instance_length m (sf 0%nat) l x T) as LY. set (y := d_instance m (sf 0%nat) l x) in *. set (yr := exactLayer l xr) in *.
    destruct (IH (fun k => sf (S k)) (fun k => sb (S k)) err rerr rt y yr M' e') as (IH1 & IH2 & IH3); auto.
    + now rewrite LY.
    + intros k K. apply W. now right.
    + intros k K. apply (MB (S k)). cbn [length]. lia.
    + intros y0 L0 F0. rewrite LY in L0. exact (EN y0 L0 F0).
    + intros k K. apply GB. cbn [length]. lia.
    + rewrite dback_cons. fold y. cbn [map]. rewrite back_cons, rOutput_asReal. fold yr. cbn [fst snd]. set (D := d_back m (fun k => sf (S k)) (fun k => sb (S k)) err ls y) in *. set (Rr := rback rerr (map asReal ls) yr rt) in *.
      pose proof (delta_list (actOf l) y yr (snd D) (snd Rr) (length ls) ltac:(apply GB; cbn [length]; lia) SN IH1) as DL. assert (LD : length (d_delta l y (snd D)) = length (weightRows l)) by (unfold d_delta; rewrite map_length, combine_length; lia).
      assert (LX : length xr = length x) by (symmetry; eapply Forall2_length; eauto). split; [|split].
      * cbn [length]. rewrite LX. apply eout_near; auto.
      * unfold d_eout. now rewrite map_length, seq_length.
      * intros [|k] l0 Q; cbn [nth_error] in *.
        -- injection Q as <-. eexists _, _, _, _. split; [reflexivity|]. split; [reflexivity|]. cbn [length]. replace (S (length ls) - 1 - 0)%nat with (length ls) by lia. split; [exact DL|]. split; [|split; auto]. { revert F. apply Forall2_imp. intros a r Q. now apply (near_mono M e). } intros r I. symmetry. now apply T.
        -- destruct (IH3 k l0 Q) as (delta & z & rd & rz & Q1 & Q2 & Q3). exists delta, z, rd, rz. split; auto. split; auto. cbn [length]. replace (S (length ls) - 1 - S k)%nat with (length ls - 1 - k)%nat by lia. exact Q3.
Qed.
End Back.

(** * Means over a batch *)
Lemma dot_both a da b db u ur v vr : 0 <= a -> 0 <= b -> 0 <= da -> 0 <= db -> Forall2 (near a da) u ur -> Forall2 (near b db) v vr -> length u = length v ->
  mass u v <= INR (length u) * (a * b) /\ Rabs (total (map (fun p => val (fst p) * val (snd p)) (combine u v)) - dotR ur vr) <= INR (length u) * (a * db + da * b).
Proof.
  intros Ha Hb Hda Hdb F. revert v vr. induction F as [|d r u ur (F1 & F2 & F3 & F4) F IH]; intros v vr G L; inversion G as [|d' r' v' vr' (G1 & G2 & G3 & G4) G']; subst; try discriminate.
  - unfold mass, dotR. cbn [combine map total fold_right length INR]. rewrite Rminus_0_r, Rabs_R0. lra.
  - destruct (IH v' vr' G' ltac:(now injection L)) as (I1 & I2). unfold mass in *. rewrite dotR_cons. cbn [combine map total fold_right length fst snd] in *. rewrite S_INR. fold (total (map (fun p => Rabs (val (fst p) * val (snd p))) (combine u v'))) (total (map (fun p => val (fst p) * val (snd p)) (combine u v'))) in *. split.
    + assert (Rabs (val d * val d') <= a * b) by (rewrite Rabs_mult; apply Rmult_le_compat; auto using Rabs_pos). lra.
    + pose proof (mult_err _ _ _ _ _ _ _ _ F4 G4 F2 G3) as ME. apply Rabs_le_inv in ME, I2. apply Rabs_le. lra.
Qed.
Lemma mean_near s S0 S1 N a c : (1 <= N)%nat -> (Z.of_nat N <= 2 ^ 30)%Z -> 0 <= a <= 2 ^ 60 -> 0 <= c -> finite s -> Rabs S0 <= INR N * a -> Rabs (val s - S0) <= 2 * INR N * eps * (INR N * a) + 2 * INR N * tiny -> Rabs (S0 - S1) <= INR N * c ->
  finite (ddiv s (dint (Z.of_nat N))) /\ Rabs (val (ddiv s (dint (Z.of_nat N))) - S1 / INR N) <= c + (2 * INR N + 2) / 2 ^ 52 * a + 1 / 10 ^ 20.
Proof.
  intros N1 N2 Ha Hc Fs B0 E0 E1. assert (R1 : 1 <= INR N <= 2 ^ 30). { split; [change 1 with (INR 1); now apply le_INR|]. rewrite INR_IZR_INZ. apply IZR_le in N2. lra. }
  destruct (int_ok (Z.of_nat N) ltac:(lia)) as (FN & VN). rewrite <- INR_IZR_INZ in VN. set (r := INR N) in *. assert (IR : r * / r = 1) by (field; lra). assert (IP : 0 < / r) by (apply Rinv_0_lt_compat; lra). set (i := / r) in *.
  pose proof eps_small as EP. pose proof tiny_tiny as TT. assert (RE : 0 <= r * eps <= 1 / 2 ^ 20). { split; [apply Rmult_le_pos; lra|]. unfold r. apply len_eps. lia. } assert (REA : 0 <= (r * eps) * a <= 1 / 2 ^ 20 * a). { split; [apply Rmult_le_pos; lra|]. apply Rmult_le_compat_r; lra. }
  assert (Q0 : Rabs (S0 * i) <= a). { rewrite Rabs_mult, (Rabs_pos_eq i) by lra. apply Rle_trans with (r * a * i); [apply Rmult_le_compat_r; lra|]. replace (r * a * i) with (a * (r * i)) by ring. rewrite IR. lra. }
  assert (Q1 : Rabs (val s * i - S0 * i) <= 2 * ((r * eps) * a) + 2 * tiny). { rewrite <- Rmult_minus_distr_r, Rabs_mult, (Rabs_pos_eq i) by lra. apply Rle_trans with ((2 * r * eps * (r * a) + 2 * r * tiny) * i); [apply Rmult_le_compat_r; lra|]. replace ((2 * r * eps * (r * a) + 2 * r * tiny) * i) with (2 * ((r * eps) * a) * (r * i) + 2 * tiny * (r * i)) by ring. rewrite IR. lra. }
  assert (Q2 : Rabs (S0 * i - S1 * i) <= c). { rewrite <- Rmult_minus_distr_r, Rabs_mult, (Rabs_pos_eq i) by lra. apply Rle_trans with (r * c * i); [apply Rmult_le_compat_r; lra|]. replace (r * c * i) with (c * (r * i)) by ring. rewrite IR. lra. }
  assert (Q3 : Rabs (val s * i) <= 1.01 * a + 1 / 10 ^ 25). { apply Rabs_le_inv in Q0, Q1. apply Rabs_le. lra. }
  pose proof (div_ok s (dint (Z.of_nat N)) Fs ltac:(rewrite VN; lra)) as DV. rewrite VN in DV. change (val s / r) with (val s * i) in DV. specialize (DV ltac:(apply small_max; lra)). split; [apply DV|]. pose proof (faithful_err _ _ DV ltac:(apply small_max; lra)) as FE.
  assert (G1 : eps * Rabs (val s * i) <= eps * (1.01 * a + 1 / 10 ^ 25)) by (apply Rmult_le_compat_l; lra). assert (G2 : eps * (1 / 10 ^ 25) <= 1 / 4 * (1 / 10 ^ 25)) by (apply Rmult_le_compat_r; lra). assert (G3 : 0 <= eps * a) by (apply Rmult_le_pos; lra).
  change (S1 / r) with (S1 * i). replace ((2 * r + 2) / 2 ^ 52 * a) with (2 * ((r * eps) * a) + 2 * (eps * a)) by (rewrite eps_eq; field). apply Rabs_le_inv in Q1, Q2, FE. apply Rabs_le. lra.
Qed.
Lemma mean_products sum u ur v vr N a da b db : summation sum -> (1 <= N)%nat -> (Z.of_nat N <= 2 ^ 30)%Z -> 0 <= a -> 0 <= b -> 0 <= da -> 0 <= db -> a * b <= 2 ^ 60 -> Forall2 (near a da) u ur -> Forall2 (near b db) v vr -> length u = N -> length v = N ->
  finite (ddiv (d_dot sum u v) (dint (Z.of_nat N))) /\ Rabs (val (ddiv (d_dot sum u v) (dint (Z.of_nat N))) - dotR ur vr / INR N) <= meanDeviation N a da b db.
Proof.
  intros SM N1 N2 Ha Hb Hda Hdb AB F G LU LV. destruct (dot_both a da b db u ur v vr Ha Hb Hda Hdb F G ltac:(congruence)) as (M1 & M2). rewrite LU in M1, M2. assert (AB0 : 0 <= a * b) by now apply Rmult_le_pos.
  assert (R1 : 1 <= INR N <= 2 ^ 30). { split; [change 1 with (INR 1); now apply le_INR|]. rewrite INR_IZR_INZ. apply IZR_le in N2. lra. } assert (MB : INR N * (a * b) <= 2 ^ 30 * 2 ^ 60) by (apply Rmult_le_compat; lra).
  assert (C : length (combine u v) = N) by (rewrite combine_length; lia). pose proof (mass_pos u v) as MP. pose proof eps_small as EP.
  destruct (dot_ok sum u v SM) as (Fs & E); [intros q [I|I]; [now apply (near_finite _ _ _ _ _ F)|now apply (near_finite _ _ _ _ _ G)]|lia|lra|]. rewrite C in E. set (s := d_dot sum u v) in *. set (S0 := total (map (fun p => val (fst p) * val (snd p)) (combine u v))) in *.
  unfold meanDeviation. apply (mean_near s S0); auto.
  - assert (0 <= a * db) by now apply Rmult_le_pos. assert (0 <= da * b) by now apply Rmult_le_pos. lra.
  - apply Rle_trans with (2 := M1). unfold S0. apply Rle_trans with (1 := total_abs _). rewrite map_map. unfold mass. lra.
  - apply Rle_trans with (1 := E). apply Rplus_le_compat_r. apply Rmult_le_compat_l; auto. apply Rmult_le_pos; lra.
Qed.
Lemma near_total a da u ur : Forall2 (near a da) u ur -> sizes u <= INR (length u) * a /\ Rabs (total (map val u) - total ur) <= INR (length u) * da.
Proof.
  induction 1 as [|d r u ur (F1 & F2 & F3 & F4) F (I1 & I2)].
  - unfold sizes. cbn [map total fold_right length INR]. rewrite Rminus_0_r, Rabs_R0. lra.
  - unfold sizes in *. cbn [map total fold_right length] in *. rewrite S_INR. fold (total (map (fun x => Rabs (val x)) u)) (total (map val u)) (total ur) in *. split; [lra|]. apply Rabs_le_inv in F4, I2. apply Rabs_le. lra.
Qed.
Lemma mean_sum sum u ur N a da : summation sum -> (1 <= N)%nat -> (Z.of_nat N <= 2 ^ 30)%Z -> 0 <= a <= 2 ^ 60 -> 0 <= da -> Forall2 (near a da) u ur -> length u = N ->
  let s := match u with [] => dint 0 | c => sum c end in
  finite (ddiv s (dint (Z.of_nat N))) /\ Rabs (val (ddiv s (dint (Z.of_nat N))) - total ur / INR N) <= meanDeviation N a da 1 0.
Proof.
  intros SM N1 N2 Ha Hda F LU s. destruct (near_total a da u ur F) as (M1 & M2). rewrite LU in M1, M2. assert (R1 : 1 <= INR N <= 2 ^ 30). { split; [change 1 with (INR 1); now apply le_INR|]. rewrite INR_IZR_INZ. apply IZR_le in N2. lra. }
  assert (MB : INR N * a <= 2 ^ 30 * 2 ^ 60) by (apply Rmult_le_compat; lra). pose proof eps_small as EP. pose proof tiny_tiny as TT. assert (NE : u <> []) by (destruct u; [cbn in LU; lia|discriminate]). assert (ES : s = sum u) by (unfold s; destruct u; [easy|reflexivity]). rewrite ES. clear s ES.
  destruct (sums_any' u (sum u) (SM u NE)) as (Fs & E); [intros x I; eapply near_finite; eauto|lia|lra|]. rewrite LU in E. set (S0 := total (map val u)) in *. pose proof (sizes_pos u) as SP.
  unfold meanDeviation. replace (a * 0 + da * 1 + (2 * INR N + 2) / 2 ^ 52 * (a * 1) + 1 / 10 ^ 20) with (da + (2 * INR N + 2) / 2 ^ 52 * a + 1 / 10 ^ 20) by ring. apply (mean_near (sum u) S0); auto.
  - apply Rle_trans with (2 := M1). unfold S0. apply Rle_trans with (1 := total_abs _). rewrite map_map. unfold sizes. lra.
  - apply Rle_trans with (1 := E). assert (0 <= 2 * INR N * tiny) by (apply Rmult_le_pos; lra). assert (G1 : 2 * (INR N - 1) * eps * sizes u <= 2 * INR N * eps * (INR N * a)); [|lra]. apply Rmult_le_compat; auto; [apply Rmult_le_pos; lra|]. apply Rmult_le_compat_r; lra.
Qed.

(** * The columns of a batch *)
Lemma batch_columns {P} (F : nat * P -> list (list double * list double)) (rd : P -> R) j k M e (ps : list P) : forall s,
  (forall q p, In (q, p) (combine (seq s (length ps)) ps) -> exists delta z d, nth_error (F (q, p)) k = Some (delta, z) /\ nth_error delta j = Some d /\ near M e d (rd p)) ->
  Forall2 (near M e) (column j (map fst (column k (map F (combine (seq s (length ps)) ps))))) (map rd ps).
Proof.
  induction ps as [|p ps IH]; intros s H; [constructor|]. cbn [length seq combine map]. destruct (H s p (or_introl eq_refl)) as (delta & z & d & H1 & H2 & H3). rewrite (column_cons k _ _ _ H1). cbn [map fst]. rewrite (column_cons j _ _ _ H2). constructor; auto. apply IH. intros q p' I. apply H. cbn [length seq combine]. now right.
Qed.
Lemma batch_columns' {P} (F : nat * P -> list (list double * list double)) (rz : P -> R) i k M e (ps : list P) : forall s,
  (forall q p, In (q, p) (combine (seq s (length ps)) ps) -> exists delta z d, nth_error (F (q, p)) k = Some (delta, z) /\ nth_error z i = Some d /\ near M e d (rz p)) ->
  Forall2 (near M e) (column i (map snd (column k (map F (combine (seq s (length ps)) ps))))) (map rz ps).
Proof.
  induction ps as [|p ps IH]; intros s H; [constructor|]. cbn [length seq combine map]. destruct (H s p (or_introl eq_refl)) as (delta & z & d & H1 & H2 & H3). rewrite (column_cons k _ _ _ H1). cbn [map snd]. rewrite (column_cons i _ _ _ H2). constructor; auto. apply IH. intros q p' I. apply H. cbn [length seq combine]. now right.
Qed.
Lemma Forall2_nth {T U} (P : T -> U -> Prop) l k j b0 : Forall2 P l k -> (j < length l)%nat -> exists a, nth_error l j = Some a /\ P a (nth j k b0).
Proof. intros H. revert j. induction H as [|a b l k Q H IH]; intros [|j] L; cbn [length nth_error nth] in *; try lia; [eauto|]. apply IH. lia. Qed.
Lemma combine_map2 {T U V W} (f : T -> V) (g : U -> W) l k : combine (map f l) (map g k) = map (fun p => (f (fst p), g (snd p))) (combine l k).
Proof. revert k. induction l as [|a l IH]; intros [|b k]; cbn [map combine]; auto. now rewrite IH. Qed.
Lemma dotR_maps {P} (f g : P -> R) l : dotR (map f l) (map g l) = total (map (fun p => f p * g p) l).
Proof. unfold dotR. f_equal. induction l as [|a l IH]; cbn [map combine]; auto. now rewrite IH. Qed.

Section Batch.
Variable m : libm.
Hypothesis A : accurate m.
Variables (n : nat) (w Mg Dg g h x0 : R) (layers : list dlayer) (X T : list (list double)) (I : nat).
Variables (sf sb : nat -> nat -> nat -> list double -> double) (sw : nat -> nat -> nat -> list double -> double) (sd : nat -> nat -> list double -> double).
Hypothesis Sf : forall q k j, summation (sf q k j).
Hypothesis Sb : forall q k j, summation (sb q k j).
Hypothesis Sw : forall k j i, summation (sw k j i).
Hypothesis Sd : forall k j, summation (sd k j).
Hypothesis Hn : (Z.of_nat n <= 2 ^ 30)%Z.
Hypothesis HN : (1 <= length X)%nat /\ (Z.of_nat (length X) <= 2 ^ 30)%Z.
Hypothesis HL : length T = length X.
Hypothesis Hw : 0 <= w.
Hypothesis Hx : 0 <= x0.
Hypothesis HM : Mg <= 2 ^ 28.
Hypothesis Hg : 0 <= g.
Hypothesis Hh : 0 <= h.
Hypothesis SH : wellShaped I layers.
Hypothesis WL : forall l, In l layers -> weightsBelow w l /\ actOf l <> RECTIFIER /\ (length (weightRows l) <= n)%nat /\ forall r, In r (weightRows l) -> (length r <= n)%nat.
Hypothesis HX : forall x, In x X -> length x = I /\ forall v, In v x -> finite v /\ Rabs (val v) <= x0.
(* the error function in real numbers, its derivatives, and what is computed for them *)
Variables (loss : list R -> list R -> R) (rerr : list R -> list R -> list R) (okT : nat -> list R -> Prop) (err : nat -> list double -> list double -> list double).
Hypothesis D_loss : forall cs v ds t, okT (length cs) t -> moves cs v ds -> D (fun u => loss (along cs u) t) v (dotR (rerr (along cs v) t) ds).
Hypothesis HY : forall t, In t T -> okT (outputs I layers) (map val t).
Hypothesis EN : forall q x t, In (q, (x, t)) (indexed (combine X T)) -> forall y, length y = outputs I layers -> Forall2 (near Mg Dg) y (exactNet layers (map val x)) ->
  Forall2 (near g h) (err q y t) (rerr (exactNet layers (map val x)) (map val t)) /\ length (err q y t) = length y.
Hypothesis MB : forall k, (k <= length layers)%nat -> magnitude (INR n) w x0 k <= Mg /\ deviation (INR n) w x0 0 k <= Dg.
Hypothesis GB : forall k, (k <= length layers)%nat -> backMagnitude (INR n) w g k <= 2 ^ 30.
Let dm := deltaMagnitude (INR n) w g.
Let dd := deltaDeviation (INR n) w g h Dg.
Let rls := map asReal layers.
Let ps := combine X T.
Let F (q : nat * (list double * list double)) := fst (d_back m (sf (fst q)) (sb (fst q)) (fun y => err (fst q) y (snd (snd q))) layers (fst (snd q))).
Let tr (p : list double * list double) := fst (rback rerr rls (map val (fst p)) (map val (snd p))).
Lemma M_pos : 0 <= Mg /\ 0 <= Dg.
Proof. destruct (MB 0%nat ltac:(lia)) as (H1 & H2). cbn [magnitude deviation] in *. lra. Qed.
Lemma rls_smooth : smooth rls.
Proof. intros l J. apply in_map_iff in J as (l0 & <- & J). apply (WL l0 J). Qed.
Lemma outputs_asReal (ls : list dlayer) : forall k, routputs k (map asReal ls) = outputs k ls.
Proof. induction ls as [|l ls IH]; intros k; [reflexivity|]. cbn [map]. change (routputs (length (rweights (asReal l))) (map asReal ls) = outputs (length (weightRows l)) ls). cbn [rweights asReal]. rewrite map_length. apply IH. Qed.
Lemma instance_back q p k l : In (q, p) (indexed ps) -> nth_error layers k = Some l -> exists delta z rd rz, nth_error (F (q, p)) k = Some (delta, z) /\ nth_error (tr p) k = Some (rd, rz) /\
    Forall2 (near (dm (length layers - 1 - k)) (dd (length layers - 1 - k))) delta rd /\ Forall2 (near Mg Dg) z rz /\ length delta = length (weightRows l) /\ (forall r, In r (weightRows l) -> length z = length r).
Proof.
  intros J Hk. destruct p as (x, t). pose proof (in_combine_l _ _ _ _ (in_combine_r _ _ _ _ J)) as JX. destruct (HX x JX) as (LX & VX). destruct M_pos as (MP & DP).
  assert (NX : Forall2 (near x0 0) x (map val x)). { clear - VX. induction x as [|v x IH]; constructor; [|apply IH; intros; apply VX; now right]. destruct (VX v (or_introl eq_refl)) as (Fv & Bv). split; auto. split; auto. split; auto. rewrite Rminus_eq_0, Rabs_R0. lra. }
  destruct (back_near m A n w Mg Dg g h Hn Hw (conj MP HM) DP Hg Hh layers (sf q) (sb q) (fun y => err q y t) rerr (map val t) x (map val x) x0 0 (Sf q) (Sb q) Hx (Rle_refl 0) NX) as (_ & _ & B); auto; rewrite LX; auto.
Qed.
Lemma batch_length k l : nth_error layers k = Some l -> length (column k (map F (indexed ps))) = length X.
Proof.
  intros Hk. rewrite column_length.
  - rewrite map_length. unfold indexed. rewrite combine_length, seq_length. unfold ps. rewrite combine_length. lia.
  - intros r J. apply in_map_iff in J as ((q & p) & <- & J). destruct (instance_back q p k l J Hk) as (delta & z & _ & _ & Q & _). apply nth_error_Some. congruence.
Qed.
Definition rdOf k j p := nth j (fst (nth k (tr p) ([], []))) 0.
Definition rzOf k i p := nth i (snd (nth k (tr p) ([], []))) 0.
Lemma deltas_near k l j : nth_error layers k = Some l -> (j < length (weightRows l))%nat ->
  Forall2 (near (dm (length layers - 1 - k)) (dd (length layers - 1 - k))) (column j (map fst (column k (map F (indexed ps))))) (map (rdOf k j) ps).
Proof.
  intros Hk Hj. apply batch_columns. intros q p J. destruct (instance_back q p k l J Hk) as (delta & z & rd & rz & Q1 & Q2 & Q3 & _ & Q5 & _). destruct (Forall2_nth _ _ _ j 0 Q3 ltac:(lia)) as (d & D1 & D2). exists delta, z, d. split; auto. split; auto.
  unfold rdOf. now rewrite (nth_error_nth _ _ _ Q2).
Qed.
Lemma inputs_near k l i r : nth_error layers k = Some l -> In r (weightRows l) -> (i < length r)%nat ->
  Forall2 (near Mg Dg) (column i (map snd (column k (map F (indexed ps))))) (map (rzOf k i) ps).
Proof.
  intros Hk Hr Hi. apply batch_columns'. intros q p J. destruct (instance_back q p k l J Hk) as (delta & z & rd & rz & Q1 & Q2 & _ & Q4 & _ & Q6). destruct (Forall2_nth _ _ _ i 0 Q4 ltac:(rewrite (Q6 r Hr); auto)) as (d & D1 & D2). exists delta, z, d. split; auto. split; auto.
  unfold rzOf. now rewrite (nth_error_nth _ _ _ Q2).
Qed.
Lemma mean_derivative (ls : R -> list rlayer) f v0 : (forall p, In p ps -> D (fun v => loss (rNet (ls v) (map val (fst p))) (map val (snd p))) v0 (f p)) ->
  D (fun v => meanLoss loss (ls v) (map (map val) X) (map (map val) T)) v0 (total (map f ps) / INR (length X)).
Proof.
  intros H. unfold meanLoss. apply (D_ext (fun v => total (map (fun p => loss (rNet (ls v) (map val (fst p))) (map val (snd p))) ps) / INR (length X))).
  - intros v. rewrite combine_map2, map_map, map_length. reflexivity.
  - apply (D_scal_r (/ INR (length X)) (fun v => total (map (fun p => loss (rNet (ls v) (map val (fst p))) (map val (snd p))) ps))). exact (D_total (fun p v => loss (rNet (ls v) (map val (fst p))) (map val (snd p))) f ps v0 H).
Qed.
Lemma gradient_layer k l : nth_error layers k = Some l -> nth_error (d_gradientWith m sf sb sw sd err layers X T) k = Some (d_layerGradient (sw k) (sd k) (length X) l (column k (map F (indexed ps)))).
Proof. intros Hk. unfold d_gradientWith. rewrite nth_error_map, (indexed_nth _ _ _ Hk). reflexivity. Qed.
Lemma nth_seq_map {U} (f : nat -> U) N i : (i < N)%nat -> nth_error (map f (seq 0 N)) i = Some (f i).
Proof. intros L. rewrite nth_error_map. rewrite (nth_error_nth' _ 0%nat) by (now rewrite seq_length). rewrite seq_nth by auto. reflexivity. Qed.
Lemma bounds k l : nth_error layers k = Some l -> let c := (length layers - 1 - k)%nat in 0 <= dm c <= 2 ^ 31 /\ 0 <= dd c.
Proof.
  intros Hk c. destruct M_pos as (MP & DP). assert (K : (k < length layers)%nat) by (apply nth_error_Some; congruence). pose proof (GB c ltac:(unfold c; lia)) as B. pose proof (G_pos n w g Hw Hg c) as P. pose proof (H_pos n w Dg g h Hw DP Hg Hh c) as (_ & Q). split; [|exact Q].
  unfold dm, deltaMagnitude. lra.
Qed.
Lemma gradient_weight k j i l r v : nth_error layers k = Some l -> nth_error (weightRows l) j = Some r -> nth_error r i = Some v ->
  exists gw gb row d exact, nth_error (d_gradientWith m sf sb sw sd err layers X T) k = Some (gw, gb) /\ nth_error gw j = Some row /\ nth_error row i = Some d /\ finite d /\
    D (fun u => meanLoss loss (setWeight rls k j i u) (map (map val) X) (map (map val) T)) (val v) exact /\
    Rabs (val d - exact) <= meanDeviation (length X) (dm (length layers - 1 - k)) (dd (length layers - 1 - k)) Mg Dg.
Proof.
  intros Hk Hj Hi. destruct HN as (N1 & N2). destruct M_pos as (MP & DP). destruct (bounds k l Hk) as (B1 & B2). assert (J : (j < length (weightRows l))%nat) by (apply nth_error_Some; congruence). assert (Ii : (i < length r)%nat) by (apply nth_error_Some; congruence). pose proof (nth_error_In _ _ Hj) as Ir.
  pose proof (deltas_near k l j Hk J) as DN. pose proof (inputs_near k l i r Hk Ir Ii) as XN. pose proof (batch_length k l Hk) as BL. set (cs := column k (map F (indexed ps))) in *.
  assert (L1 : length (column j (map fst cs)) = length X) by (rewrite (Forall2_length _ _ DN), map_length; unfold ps; rewrite combine_length; lia). assert (L2 : length (column i (map snd cs)) = length X) by (rewrite (Forall2_length _ _ XN), map_length; unfold ps; rewrite combine_length; lia).
  assert (AB : dm (length layers - 1 - k) * Mg <= 2 ^ 60) by (apply Rle_trans with (2 ^ 31 * 2 ^ 28); [apply Rmult_le_compat; lra|lra]).
  destruct (mean_products (sw k j i) _ _ _ _ (length X) _ _ _ _ (Sw k j i) N1 N2 (proj1 B1) MP B2 DP AB DN XN L1 L2) as (Fd & Ed).
  eexists _, _, _, _, (dotR (map (rdOf k j) ps) (map (rzOf k i) ps) / INR (length X)). split; [apply (gradient_layer k l Hk)|]. split; [|split; [|split; [exact Fd|split; [|exact Ed]]]].
  - unfold d_layerGradient. rewrite nth_error_map, (indexed_nth _ _ _ Hj). reflexivity.
  - cbn [fst snd]. now rewrite nth_seq_map.
  - rewrite dotR_maps. apply mean_derivative. intros (x, t) JP. pose proof (in_combine_l _ _ _ _ JP) as JX. destruct (HX x JX) as (LX & _). pose proof (HY t (in_combine_r _ _ _ _ JP)) as OT.
    destruct (weight_derivative loss rerr okT D_loss rls (map val x) (map val t) k (asReal l) j (map val r) i (val v)) as (delta & z & Q1 & Q2).
    + rewrite map_length, LX. unfold rls. rewrite outputs_asReal. exact OT.
    + rewrite map_length, LX. now apply asReal_shaped.
    + apply rls_smooth.
    + unfold rls. rewrite nth_error_map, Hk. reflexivity.
    + cbn [rweights asReal]. rewrite nth_error_map, Hj. reflexivity.
    + rewrite nth_error_map, Hi. reflexivity.
    + cbn [fst snd]. unfold rdOf, rzOf, tr. cbn [fst snd]. rewrite (nth_error_nth _ _ _ Q1). exact Q2.
Qed.
Lemma gradient_bias k j l b v : nth_error layers k = Some l -> biasVector l = Some b -> nth_error b j = Some v ->
  exists gw row d exact, nth_error (d_gradientWith m sf sb sw sd err layers X T) k = Some (gw, Some row) /\ nth_error row j = Some d /\ finite d /\
    D (fun u => meanLoss loss (setBias rls k j u) (map (map val) X) (map (map val) T)) (val v) exact /\
    Rabs (val d - exact) <= meanDeviation (length X) (dm (length layers - 1 - k)) (dd (length layers - 1 - k)) 1 0.
Proof.
  intros Hk Hb Hj. destruct HN as (N1 & N2). destruct M_pos as (MP & DP). destruct (bounds k l Hk) as (B1 & B2). assert (J' : (j < length b)%nat) by (apply nth_error_Some; congruence).
  assert (LB : length b = length (weightRows l)). { clear - SH Hk Hb. revert I k SH Hk. induction layers as [|a ls IH]; intros I [|k] SH Hk; try discriminate; cbn [wellShaped nth_error] in *; [|now apply (IH _ k (proj2 SH))]. injection Hk as ->. destruct SH as ((_ & Q) & _). now rewrite Hb in Q. }
  pose proof (deltas_near k l j Hk ltac:(lia)) as DN. pose proof (batch_length k l Hk) as BL. set (cs := column k (map F (indexed ps))) in *.
  assert (L1 : length (column j (map fst cs)) = length X) by (rewrite (Forall2_length _ _ DN), map_length; unfold ps; rewrite combine_length; lia).
  destruct (mean_sum (sd k j) _ _ (length X) _ _ (Sd k j) N1 N2 ltac:(split; [apply B1|lra]) B2 DN L1) as (Fd & Ed).
  eexists _, _, _, (total (map (rdOf k j) ps) / INR (length X)). split; [rewrite (gradient_layer k l Hk); unfold d_layerGradient; rewrite Hb; reflexivity|]. split; [|split; [exact Fd|split; [|exact Ed]]].
  - rewrite nth_seq_map by auto. f_equal. fold cs. now destruct (column j (map fst cs)).
  - apply mean_derivative. intros (x, t) JP. pose proof (in_combine_l _ _ _ _ JP) as JX. destruct (HX x JX) as (LX & _). pose proof (HY t (in_combine_r _ _ _ _ JP)) as OT.
    destruct (bias_derivative loss rerr okT D_loss rls (map val x) (map val t) k (asReal l) j (val v)) as (delta & z & Q1 & Q2).
    + rewrite map_length, LX. unfold rls. rewrite outputs_asReal. exact OT.
    + rewrite map_length, LX. now apply asReal_shaped.
    + apply rls_smooth.
    + unfold rls. rewrite nth_error_map, Hk. reflexivity.
    + cbn [rbiases asReal]. unfold biases. rewrite Hb, nth_error_map, Hj. reflexivity.
    + cbn [fst snd]. unfold rdOf, tr. cbn [fst snd]. rewrite (nth_error_nth _ _ _ Q1). exact Q2.
Qed.
End Batch.
