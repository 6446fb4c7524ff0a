(** Proofs about networks in double precision. *)
From Coq Require Import Permutation Lra Lia Psatz.
From Flocq Require Import Core BinarySingleNaN.
From Verif Require Import Base BaseFacts Activation_Model Float_Model Float_Spec Float_Proofs FloatAct_Proofs FloatSoft_Proofs FloatNet_Model FloatNet_Spec.
Local Open Scope R_scope.
Opaque eps tiny maxDouble literal dint.

(** * Sums of numbers of any sign *)
Definition sizes (l : list double) : R := total (map (fun x => Rabs (val x)) l).
Lemma sizes_pos l : 0 <= sizes l.
Proof. apply total_pos. intros x I. apply in_map_iff in I as (y & <- & _). apply Rabs_pos. Qed.
Lemma sizes_app l k : sizes (l ++ k) = sizes l + sizes k.
Proof. unfold sizes. rewrite map_app. apply total_app. Qed.
Lemma sizes_perm l k : Permutation l k -> sizes l = sizes k.
Proof. intros P. unfold sizes. apply total_perm, Permutation_map, P. Qed.
Lemma len_eps n : (Z.of_nat n <= 2 ^ 31)%Z -> INR n * eps <= 1 / 2 ^ 20.
Proof. intros N. rewrite INR_IZR_INZ, eps_eq. apply IZR_le in N. lra. Qed.
Lemma pow_len n : (Z.of_nat n <= 2 ^ 31)%Z -> 1 <= (1 + eps) ^ n <= 1 + 2 * INR n * eps /\ 2 * INR n * eps <= 1 / 2 ^ 19.
Proof.
  intros N. pose proof (len_eps n N). pose proof eps_pos. split; [split|].
  - apply pow_ge. lra.
  - pose proof (pow_small eps n). lra.
  - lra.
Qed.
Lemma sums_any l s : sumsTo l s -> (forall x, In x l -> finite x) -> (Z.of_nat (length l) <= 2 ^ 31)%Z -> sizes l <= 2 ^ 99 ->
  (1 <= length l)%nat /\ finite s /\ Rabs (val s - total (map val l)) <= ((1 + eps) ^ (length l - 1) - 1) * sizes l /\ Rabs (total (map val l)) <= sizes l.
Proof.
  induction 1 as [x|l1 a l2 b l H1 IH1 H2 IH2 P]; intros H N B.
  - cbn [length map total fold_right sizes Nat.sub pow]. split; auto. split; [apply H; now left|]. split.
    + replace (val x - (val x + 0)) with 0 by ring. rewrite Rabs_R0. lra.
    + rewrite !Rplus_0_r. lra.
  - pose proof (Permutation_length P) as L. rewrite app_length in L.
    assert (Q : forall x, In x (l1 ++ l2) -> finite x). { intros x I. apply H. eapply Permutation_in; [apply Permutation_sym, P|exact I]. }
    pose proof (sizes_perm _ _ P) as SP. rewrite sizes_app in SP. pose proof (sizes_pos l1) as P1. pose proof (sizes_pos l2) as P2.
    destruct IH1 as (L1 & F1 & E1 & T1); [intros x I; apply Q, in_or_app; auto|lia|lra|]. destruct IH2 as (L2 & F2 & E2 & T2); [intros x I; apply Q, in_or_app; auto|lia|lra|].
    assert (T : total (map val l) = total (map val l1) + total (map val l2)) by (rewrite <- total_app, <- map_app; apply total_perm, Permutation_map, P).
    rewrite T, SP. rewrite SP in B. set (t1 := total (map val l1)) in *. set (t2 := total (map val l2)) in *. set (s1 := sizes l1) in *. set (s2 := sizes l2) in *. pose proof eps_pos as EP.
    set (k := (length l - 1)%nat) in *. replace k with (Datatypes.S (k - 1)) by lia. cbn [pow].
    pose proof (pow_ge eps (k - 1) ltac:(lra)) as K1. pose proof (pow_mono eps (length l1 - 1) (k - 1) ltac:(lra) ltac:(lia)) as K2. pose proof (pow_mono eps (length l2 - 1) (k - 1) ltac:(lra) ltac:(lia)) as K3.
    destruct (pow_len (k - 1) ltac:(lia)) as ((_ & K4) & K5). set (w := (1 + eps) ^ (k - 1)) in *. set (ne := 2 * INR (k - 1) * eps) in *. clearbody ne.
    assert (E1' : Rabs (val a - t1) <= (w - 1) * s1). { apply Rle_trans with (1 := E1). apply Rmult_le_compat_r; lra. }
    assert (E2' : Rabs (val b - t2) <= (w - 1) * s2). { apply Rle_trans with (1 := E2). apply Rmult_le_compat_r; lra. }
    assert (AB : Rabs (val a + val b) <= w * (s1 + s2)). { apply Rabs_le_inv in E1', E2', T1, T2. apply Rabs_le. lra. }
    assert (W2 : w * (s1 + s2) <= 2 * (s1 + s2)) by (apply Rmult_le_compat_r; lra).
    assert (MB : Rabs (val a + val b) <= maxDouble) by (apply small_max; lra).
    pose proof (plus_rel a b F1 F2 MB) as SR. split; [lia|]. split; [apply (plus_ok a b F1 F2 MB)|].
    assert (eps * Rabs (val a + val b) <= eps * (w * (s1 + s2))) by (apply Rmult_le_compat_l; lra).
    apply Rabs_le_inv in E1', E2', SR, T1, T2. split; apply Rabs_le; lra.
Qed.
Lemma sums_any' l s : sumsTo l s -> (forall x, In x l -> finite x) -> (Z.of_nat (length l) <= 2 ^ 31)%Z -> sizes l <= 2 ^ 99 ->
  finite s /\ Rabs (val s - total (map val l)) <= 2 * (INR (length l) - 1) * eps * sizes l.
Proof.
  intros H F N B. destruct (sums_any l s H F N B) as (L & Fs & E & _). split; auto. apply Rle_trans with (1 := E). apply Rmult_le_compat_r; [apply sizes_pos|].
  destruct (pow_len (length l - 1) ltac:(lia)) as ((_ & K) & _). rewrite minus_INR in K by auto. cbn [INR] in K. lra.
Qed.

(** * Inner products *)
Lemma total_abs l : Rabs (total l) <= total (map Rabs l).
Proof. induction l as [|a l IH]; cbn [total fold_right map]; [rewrite Rabs_R0; lra|]. apply Rle_trans with (1 := Rabs_triang _ _). apply Rplus_le_compat_l, IH. Qed.
Lemma total_le_map {T} (f g : T -> R) l : (forall x, In x l -> f x <= g x) -> total (map f l) <= total (map g l).
Proof. induction l as [|a l IH]; cbn [total fold_right map]; intros H; [lra|]. apply Rplus_le_compat; [apply H; now left|apply IH; intros; apply H; now right]. Qed.
Lemma total_affine {T} (f : T -> R) c d l : total (map (fun x => c * f x + d) l) = c * total (map f l) + INR (length l) * d.
Proof. induction l as [|a l IH]; cbn [total fold_right map length]; [cbn [INR]; ring|]. rewrite S_INR. fold (total (map (fun x => c * f x + d) l)) (total (map f l)). rewrite IH. ring. Qed.
Lemma total_diff {T} (f g h : T -> R) l : (forall x, In x l -> Rabs (f x - g x) <= h x) -> Rabs (total (map f l) - total (map g l)) <= total (map h l).
Proof.
  induction l as [|a l IH]; cbn [total fold_right map]; intros H; [rewrite Rminus_0_r, Rabs_R0; lra|]. pose proof (H a (or_introl eq_refl)) as H1. pose proof (IH (fun x Q => H x (or_intror Q))) as H2.
  fold (total (map f l)) (total (map g l)) (total (map h l)). apply Rabs_le_inv in H1, H2. apply Rabs_le. lra.
Qed.
(** the sum of the absolute values of the products *)
Definition mass (x w : list double) : R := total (map (fun p => Rabs (val (fst p) * val (snd p))) (combine x w)).
Lemma mass_pos x w : 0 <= mass x w.
Proof. apply total_pos. intros v I. apply in_map_iff in I as (y & <- & _). apply Rabs_pos. Qed.
Lemma dot_ok sum x w : summation sum -> (forall v, In v x \/ In v w -> finite v) -> (Z.of_nat (length (combine x w)) <= 2 ^ 30)%Z -> mass x w <= 2 ^ 98 ->
  finite (d_dot sum x w) /\
  Rabs (val (d_dot sum x w) - total (map (fun p => val (fst p) * val (snd p)) (combine x w))) <= 2 * INR (length (combine x w)) * eps * mass x w + 2 * INR (length (combine x w)) * tiny.
Proof.
  intros SM F N B. unfold d_dot. pose proof tiny_pos as TP. pose proof tiny_tiny as TT. pose proof eps_small as EP. pose proof (mass_pos x w) as MP.
  set (c := combine x w) in *. set (l := map _ c). assert (LL : length l = length c) by (unfold l; apply map_length). assert (NN : 0 <= INR (length c) <= 2 ^ 30). { split; [apply pos_INR|]. rewrite INR_IZR_INZ. apply IZR_le in N. lra. }
  assert (PQ : forall p, In p c -> finite (dmult (fst p) (snd p)) /\ Rabs (val (dmult (fst p) (snd p)) - val (fst p) * val (snd p)) <= eps * Rabs (val (fst p) * val (snd p)) + tiny).
  { intros (u & v) I. cbn [fst snd]. assert (Fu : finite u) by (apply F; left; eapply in_combine_l; eauto). assert (Fv : finite v) by (apply F; right; eapply in_combine_r; eauto).
    assert (Q : Rabs (val u * val v) <= maxDouble). { apply small_max. apply Rle_trans with (mass x w); [|lra]. unfold mass. fold c. apply total_ge; [intros q Iq; apply in_map_iff in Iq as (y & <- & _); apply Rabs_pos|]. apply in_map_iff. exists (u, v). auto. }
    pose proof (mult_ok u v Fu Fv Q) as M. split; [apply M|]. now apply faithful_err. }
  destruct l as [|p0 l0] eqn:EL.
  - destruct c; [|discriminate]. cbn [map total fold_right length INR]. destruct fin0 as (F0 & V0). split; auto. rewrite V0, Rminus_0_r, Rabs_R0. lra.
  - rewrite <- EL in *. assert (NE : l <> []) by (rewrite EL; discriminate). assert (FL : forall p, In p l -> finite p). { intros p I. apply in_map_iff in I as (q & <- & I). now apply PQ. }
    set (n := INR (length c)) in *. assert (SL : sizes l <= (1 + eps) * mass x w + n * tiny).
    { unfold sizes, l, mass. rewrite map_map. fold c. unfold n. rewrite <- total_affine. apply total_le_map. intros p I. destruct (PQ p I) as (_ & E). apply Rabs_le_inv in E. set (v := val (dmult (fst p) (snd p))) in *. set (r := val (fst p) * val (snd p)) in *. apply Rabs_le. pose proof (Rle_abs r). pose proof (Rle_abs (- r)). rewrite Rabs_Ropp in *. lra. }
    assert (NT : 0 <= n * tiny <= 1). { split; [apply Rmult_le_pos; lra|]. apply Rle_trans with (2 ^ 30 * (1 / 10 ^ 30)); [apply Rmult_le_compat; lra|lra]. }
    assert (EM : eps * mass x w <= 1 / 2 * mass x w) by (apply Rmult_le_compat_r; lra).
    destruct (sums_any' l (sum l) (SM l NE) FL ltac:(rewrite LL; lia) ltac:(lra)) as (F1 & E1). rewrite LL in E1. fold n in E1. split; auto.
    assert (E2 : Rabs (total (map val l) - total (map (fun p => val (fst p) * val (snd p)) c)) <= eps * mass x w + n * tiny).
    { unfold l, mass. rewrite map_map. fold c. unfold n. rewrite <- total_affine. apply total_diff. intros p I. now apply PQ. }
    assert (N1 : 1 <= n). { unfold n. rewrite <- LL. change 1 with (INR 1). apply le_INR. rewrite EL. cbn [length]. lia. }
    assert (NE2 : n * eps <= 1 / 2 ^ 20) by (apply len_eps; lia). set (M := mass x w) in *. assert (G1 : 2 * (n - 1) * eps * sizes l <= 2 * (n - 1) * eps * ((1 + eps) * M + n * tiny)).
    { apply Rmult_le_compat_l; auto. apply Rmult_le_pos; lra. }
    assert (G2 : (n * eps) * (eps * M) <= 1 / 2 ^ 20 * (eps * M)) by (apply Rmult_le_compat_r; auto; apply Rmult_le_pos; lra).
    assert (G3 : (n * eps) * (n * tiny) <= 1 / 2 ^ 20 * (n * tiny)) by (apply Rmult_le_compat_r; lra).
    assert (G4 : 0 <= eps * M) by (apply Rmult_le_pos; lra). assert (G5 : 0 <= eps * (eps * M)) by (apply Rmult_le_pos; lra). assert (G6 : 0 <= eps * (n * tiny)) by (apply Rmult_le_pos; lra).
    apply Rabs_le_inv in E1, E2. apply Rabs_le. replace (2 * (n - 1) * eps * ((1 + eps) * M + n * tiny)) with (2 * (n * (eps * M)) - 2 * (eps * M) + 2 * ((n * eps) * (eps * M)) - 2 * (eps * (eps * M)) + 2 * ((n * eps) * (n * tiny)) - 2 * (eps * (n * tiny))) in G1 by ring.
    replace (2 * n * eps * M + 2 * n * tiny) with (2 * (n * (eps * M)) + 2 * (n * tiny)) by ring. lra.
Qed.

(** * The slope of the activation functions *)
Lemma logistic_tanh x : 1 / (1 + exp (- x)) = (1 + Rtrigo_def.tanh (x / 2)) / 2.
Proof.
  unfold Rtrigo_def.tanh, sinh, cosh. replace (- x) with (- (x / 2) + - (x / 2)) by field. rewrite exp_plus. assert (E : exp (x / 2) * exp (- (x / 2)) = 1) by (rewrite <- exp_plus; replace (x / 2 + - (x / 2)) with 0 by ring; apply exp_0).
  pose proof (exp_pos (x / 2)). pose proof (exp_pos (- (x / 2))). set (u := exp (x / 2)) in *. set (v := exp (- (x / 2))) in *. assert (V : v = / u) by (apply Rmult_eq_reg_l with u; [rewrite E; field; lra|lra]). rewrite V in *. field. nra.
Qed.
Lemma sigma_lipschitz act x y : Rabs (sigma act x - sigma act y) <= 1.15 * Rabs (x - y).
Proof.
  pose proof (Rabs_pos (x - y)) as P. destruct act; cbn [sigma].
  - rewrite !logistic_tanh. pose proof (tanh_lipschitz (x / 2) (y / 2)) as L. replace (x / 2 - y / 2) with ((x - y) * / 2) in L by field. rewrite Rabs_mult, (Rabs_pos_eq (/ 2)) in L by lra. apply Rabs_le_inv in L. apply Rabs_le. lra.
  - pose proof (tanh_lipschitz x y). lra.
  - pose proof (tanh_lipschitz (0.66666667 * x) (0.66666667 * y)) as L. rewrite <- Rmult_minus_distr_l, Rabs_mult, (Rabs_pos_eq 0.66666667) in L by lra. rewrite <- Rmult_minus_distr_l, Rabs_mult, (Rabs_pos_eq 1.7159) by lra. lra.
  - assert (Rabs (Rmax 0 x - Rmax 0 y) <= Rabs (x - y)); [|lra]. unfold Rmax. destruct (Rle_dec 0 x), (Rle_dec 0 y); try lra; unfold Rabs; repeat destruct Rcase_abs; lra.
  - lra.
Qed.
Lemma sigma_bound act x : Rabs (sigma act x) <= 1.15 * Rabs x + 1 / 2.
Proof.
  pose proof (sigma_lipschitz act x 0) as L. rewrite Rminus_0_r in L. assert (Z : Rabs (sigma act 0) <= 1 / 2).
  { assert (T : Rtrigo_def.tanh 0 = 0) by (unfold Rtrigo_def.tanh, sinh, cosh; rewrite Ropp_0, exp_0; field). destruct act; cbn [sigma].
    - rewrite Ropp_0, exp_0. rewrite Rabs_pos_eq; lra.
    - rewrite T, Rabs_R0. lra.
    - rewrite Rmult_0_r, T, Rmult_0_r, Rabs_R0. lra.
    - rewrite Rmax_left, Rabs_R0; lra.
    - rewrite Rabs_R0. lra. }
  apply Rabs_le_inv in L, Z. apply Rabs_le. lra.
Qed.

(** * One unit *)
Section Unit.
Variable m : libm.
Hypothesis A : accurate m.
Lemma bias_ok s b r e : finite s -> finite b -> Rabs (val s - r) <= e -> e + Rabs r + Rabs (val b) <= 2 ^ 100 ->
  finite (dplus s b) /\ Rabs (val (dplus s b) - (r + val b)) <= e + eps * (e + Rabs r + Rabs (val b)).
Proof.
  intros Fs Fb E B. assert (Q : Rabs (val s + val b) <= e + Rabs r + Rabs (val b)). { replace (val s + val b) with ((val s - r) + (r + val b)) by ring. apply Rle_trans with (1 := Rabs_triang _ _). pose proof (Rabs_triang r (val b)). lra. }
  assert (MB : Rabs (val s + val b) <= maxDouble) by (apply small_max; lra). split; [apply (plus_ok s b Fs Fb MB)|]. pose proof (plus_rel s b Fs Fb MB) as SR. pose proof eps_pos.
  assert (eps * Rabs (val s + val b) <= eps * (e + Rabs r + Rabs (val b))) by (apply Rmult_le_compat_l; lra). apply Rabs_le_inv in SR, E. apply Rabs_le. lra.
Qed.
End Unit.

(** [d] and [r] are at most [M], and [e] apart *)
Definition near (M e : R) (d : double) (r : R) : Prop := finite d /\ Rabs (val d) <= M /\ Rabs r <= M /\ Rabs (val d - r) <= e.
Lemma near_dot M e B x xr w : 0 <= M -> 0 <= B -> Forall2 (near M e) x xr -> length w = length x -> (forall v, In v w -> finite v /\ Rabs (val v) <= B) ->
  mass x w <= INR (length x) * (B * M) /\ Rabs (inner w xr) <= INR (length x) * (B * M) /\
  Rabs (total (map (fun p => val (fst p) * val (snd p)) (combine x w)) - inner w xr) <= INR (length x) * (B * e).
Proof.
  intros HM HB H. revert w. induction H as [|d r x xr (F & D1 & D2 & D3) H IH]; intros w L W.
  - cbn [length INR combine map total fold_right mass]. unfold inner. destruct w; [|discriminate]. cbn. rewrite Rminus_0_r, Rabs_R0. lra.
  - destruct w as [|v w]; [discriminate|]. destruct (W v (or_introl eq_refl)) as (Fv & Bv). destruct (IH w) as (I1 & I2 & I3); [now injection L|intros; apply W; now right|].
    unfold mass, inner in *. cbn [combine map total fold_right fst snd] in *. fold (total (map (fun p => Rabs (val (fst p) * val (snd p))) (combine x w))) (total (map (fun p => val (fst p) * snd p) (combine w xr))) (total (map (fun p => val (fst p) * val (snd p)) (combine x w))) in *.
    cbn [length]. rewrite S_INR. set (n := INR (length x)) in *. assert (P1 : Rabs (val d * val v) <= B * M) by (rewrite Rabs_mult, Rmult_comm; apply Rmult_le_compat; auto using Rabs_pos).
    assert (P2 : Rabs (val v * r) <= B * M) by (rewrite Rabs_mult; apply Rmult_le_compat; auto using Rabs_pos). assert (P3 : Rabs (val d * val v - val v * r) <= B * e).
    { replace (val d * val v - val v * r) with (val v * (val d - r)) by ring. rewrite Rabs_mult. apply Rmult_le_compat; auto using Rabs_pos. }
    split; [lra|]. split; [apply Rle_trans with (1 := Rabs_triang _ _); lra|]. apply Rabs_le_inv in P3, I3. apply Rabs_le. lra.
Qed.
Lemma near_self M e x xr : Forall2 (near M e) x xr -> Forall2 (near M 0) x (map val x).
Proof. induction 1 as [|d r x xr (F & D1 & D2 & D3) H IH]; cbn [map]; constructor; auto. split; auto. split; auto. split; auto. rewrite Rminus_eq_0, Rabs_R0. lra. Qed.
Lemma near_finite M e x xr v : Forall2 (near M e) x xr -> In v x -> finite v.
Proof. induction 1 as [|d r x xr (F & _) H IH]; [easy|]. intros [<-|I]; auto. Qed.
Section Layer.
Variable m : libm.
Hypothesis A : accurate m.
Variables (n : nat) (B M e : R).
Hypothesis N : (Z.of_nat n <= 2 ^ 30)%Z.
Hypothesis HB : 0 <= B.
Hypothesis HM : 0 <= M.
Hypothesis He : 0 <= e.
Hypothesis Small : INR n * B * M + B <= 2 ^ 90.
Let d : R := (2 * INR n + 2) / 2 ^ 52 * (INR n * B * M + B) + 1 / 10 ^ 20.
Lemma sizes_n : 0 <= INR n <= 2 ^ 30 /\ 0 <= INR n * B * M /\ INR n * eps <= 1 / 2 ^ 20 /\ 0 <= INR n * tiny <= 1 / 10 ^ 20 / 8.
Proof.
  assert (K : 0 <= INR n <= 2 ^ 30). { split; [apply pos_INR|]. rewrite INR_IZR_INZ. apply IZR_le in N. lra. }
  split; auto. split; [repeat apply Rmult_le_pos; lra|]. split; [apply len_eps; lia|]. pose proof tiny_tiny. split; [apply Rmult_le_pos; lra|]. apply Rle_trans with (2 ^ 30 * (1 / 10 ^ 30)); [apply Rmult_le_compat; lra|lra].
Qed.
Definition biased (b : option double) (a : double) : double := match b with Some v => dplus a v | None => a end.
Definition biasValue (b : option double) : R := match b with Some v => val v | None => 0 end.
Lemma pre_near sum x xr w (b : option double) : summation sum -> Forall2 (near M e) x xr -> length w = length x -> (length x <= n)%nat -> (forall v, In v w -> finite v /\ Rabs (val v) <= B) ->
  (forall v, b = Some v -> finite v /\ Rabs (val v) <= B) ->
  let a := biased b (d_dot sum x w) in let r := inner w xr + biasValue b in let r0 := inner w (map val x) + biasValue b in
  finite a /\ Rabs (val a - r0) <= d /\ Rabs r0 <= INR n * B * M + B /\ Rabs r <= INR n * B * M + B /\ Rabs (r0 - r) <= INR n * B * e.
Proof.
  intros SM H L LN W Wb a r r0. destruct sizes_n as (K1 & K2 & K4 & K5). pose proof eps_small as EP. pose proof tiny_pos as TP. pose proof (pos_INR (length x)) as P. pose proof (mass_pos x w) as MP.
  destruct (near_dot M e B x xr w HM HB H L W) as (M1 & M2 & M3). destruct (near_dot M 0 B x (map val x) w HM HB (near_self _ _ _ _ H) L W) as (_ & Z2 & Z3).
  assert (EQI : total (map (fun p => val (fst p) * val (snd p)) (combine x w)) = inner w (map val x)). { apply Rminus_diag_uniq. rewrite Rmult_0_r, Rmult_0_r in Z3. pose proof (Rabs_pos (total (map (fun p => val (fst p) * val (snd p)) (combine x w)) - inner w (map val x))) as Q. destruct (Req_dec (total (map (fun p => val (fst p) * val (snd p)) (combine x w)) - inner w (map val x)) 0) as [|NZ]; auto. pose proof (Rabs_pos_lt _ NZ). lra. }
  rewrite EQI in M3. clear Z3. pose proof (le_INR _ _ LN) as LN'. assert (BM : 0 <= B * M) by now apply Rmult_le_pos. assert (Be : 0 <= B * e) by now apply Rmult_le_pos.
  assert (Q1 : INR (length x) * (B * M) <= INR n * B * M) by (rewrite Rmult_assoc; apply Rmult_le_compat_r; auto). assert (Q2 : INR (length x) * (B * e) <= INR n * B * e) by (rewrite Rmult_assoc; apply Rmult_le_compat_r; auto).
  assert (C : length (combine x w) = length x) by (rewrite combine_length; lia).
  destruct (dot_ok sum x w SM) as (F & E0); [intros u [I|I]; [now apply (near_finite _ _ _ _ _ H)|now apply W]|rewrite C; lia|lra|]. rewrite C, EQI in E0. set (s := d_dot sum x w) in *. set (t := inner w (map val x)) in *.
  set (T := INR n * B * M) in *. set (ne := INR n * eps) in *. assert (NE : 0 <= ne) by (apply Rmult_le_pos; lra). assert (G0 : 0 <= ne * T) by now apply Rmult_le_pos. assert (G0' : 0 <= ne * B) by now apply Rmult_le_pos. assert (G0'' : 0 <= eps * T) by (apply Rmult_le_pos; lra). assert (G3 : 0 <= eps * B) by (apply Rmult_le_pos; lra).
  assert (EQ : d = (2 * (ne * T) + 2 * (eps * T) + 2 * (ne * B) + 2 * (eps * B)) + 1 / 10 ^ 20). { unfold d, ne. fold T. rewrite eps_eq. field. }
  set (k := INR (length x)) in *. assert (H1 : (k * eps) * mass x w <= ne * T). { unfold ne. apply Rmult_le_compat; try lra. - apply Rmult_le_pos; lra. - apply Rmult_le_compat_r; lra. }
  assert (H2 : k * tiny <= INR n * tiny) by (apply Rmult_le_compat_r; lra). assert (E1 : Rabs (val s - t) <= 2 * (ne * T) + 1 / 10 ^ 20 / 4) by (apply Rle_trans with (1 := E0); lra). clear E0.
  assert (R3 : Rabs (r0 - r) <= INR n * B * e) by (unfold r, r0; replace (t + biasValue b - (inner w xr + biasValue b)) with (t - inner w xr) by ring; lra).
  destruct b as [v|]; subst a r r0; cbn [biased biasValue] in *.
  - destruct (Wb v eq_refl) as (Fv & Bv). assert (G1 : ne * T <= 1 / 2 ^ 20 * T) by (apply Rmult_le_compat_r; lra).
    set (d0 := 2 * (ne * T) + 1 / 10 ^ 20 / 4) in *. pose proof (Rabs_pos (val v)). pose proof (Rabs_pos t). assert (D0 : d0 <= T + 1 / 10 ^ 20) by (unfold d0; lra).
    destruct (bias_ok s v t d0 F Fv E1) as (F1 & E2); [lra|]. split; auto. split; [|split; [|split; auto]]; try (apply Rle_trans with (1 := Rabs_triang _ _); lra).
    assert (G4 : eps * (d0 + Rabs t + Rabs (val v)) <= eps * (2 * T + 1 / 10 ^ 20 + B)) by (apply Rmult_le_compat_l; lra).
    assert (G5 : eps * (1 / 10 ^ 20) <= 1 / 4 * (1 / 10 ^ 20)) by (apply Rmult_le_compat_r; lra). apply Rle_trans with (1 := E2). rewrite EQ. unfold d0 in *. lra.
  - rewrite !Rplus_0_r in *. split; auto. split; [rewrite EQ; lra|]. split; [lra|]. split; [lra|]. auto.
Qed.
Lemma unit_near act sum x xr w (b : option double) : summation sum -> Forall2 (near M e) x xr -> length w = length x -> (length x <= n)%nat -> (forall v, In v w -> finite v /\ Rabs (val v) <= B) ->
  (forall v, b = Some v -> finite v /\ Rabs (val v) <= B) ->
  near (1.2 * (INR n * B * M + B) + 1) (1.15 * (INR n * B * e + (2 * INR n + 2) / 2 ^ 52 * (INR n * B * M + B) + 1 / 10 ^ 20) + 1 / 10 ^ 12)
    (d_act m act (biased b (d_dot sum x w))) (sigma act (inner w xr + biasValue b)).
Proof.
  intros SM H L LN W Wb. destruct (pre_near sum x xr w b SM H L LN W Wb) as (F & E1 & R1 & R2 & E2). set (a := biased b (d_dot sum x w)) in *. set (r := inner w xr + biasValue b) in *. set (r0 := inner w (map val x) + biasValue b) in *. destruct sizes_n as (K1 & K2 & K4 & K5).
  assert (DT : d <= 1 / 2 ^ 18 * (INR n * B * M + B) + 1 / 10 ^ 20). { unfold d. apply Rplus_le_compat_r, Rmult_le_compat_r; lra. } fold d in E1.
  replace (INR n * B * e + (2 * INR n + 2) / 2 ^ 52 * (INR n * B * M + B) + 1 / 10 ^ 20) with (INR n * B * e + d) by (unfold d; ring).
  pose proof (act_accuracy m A act a F) as AC. pose proof (sigma_lipschitz act (val a) r) as LI. assert (AR : Rabs (val a - r) <= INR n * B * e + d) by (apply Rabs_le_inv in E1, E2; apply Rabs_le; lra).
  assert (AB : Rabs (val a) <= (1 + 1 / 2 ^ 18) * (INR n * B * M + B) + 1 / 10 ^ 20). { replace (val a) with ((val a - r0) + r0) by ring. apply Rle_trans with (1 := Rabs_triang _ _). lra. }
  pose proof (sigma_bound act (val a)) as S1. pose proof (sigma_bound act r) as S2. split; [now apply act_finite|]. split; [|split].
  - replace (val (d_act m act a)) with ((val (d_act m act a) - sigma act (val a)) + sigma act (val a)) by ring. apply Rle_trans with (1 := Rabs_triang _ _). lra.
  - lra.
  - apply Rabs_le_inv in AC, LI. apply Rabs_le. lra.
Qed.
Lemma indexed_map {T U V} (f : nat -> T -> U) (g : U -> V) l : map g (map (fun q => f (fst q) (snd q)) (indexed l)) = map (fun q => g (f (fst q) (snd q))) (indexed l).
Proof. apply map_map. Qed.
Lemma instance_near sum l x xr : (forall j, summation (sum j)) -> takes (length x) l -> weightsBelow B l -> (forall w, In w (weightRows l) -> (length w <= n)%nat) -> Forall2 (near M e) x xr ->
  Forall2 (near (1.2 * (INR n * B * M + B) + 1) (1.15 * (INR n * B * e + (2 * INR n + 2) / 2 ^ 52 * (INR n * B * M + B) + 1 / 10 ^ 20) + 1 / 10 ^ 12))
    (d_instance m sum l x) (exactLayer l xr).
Proof.
  intros SM (TW & TB) W LN H. unfold d_instance, exactLayer, biases, indexed. destruct l as [rows bias act]. cbn [weightRows biasVector actOf] in *.
  assert (LX : forall w, In w rows -> (length x <= n)%nat) by (intros w I; rewrite <- (TW w I); auto). clear LN.
  assert (HW : forall w, In w rows -> forall v, In v w -> finite v /\ Rabs (val v) <= B) by (intros w I v J; apply W; left; cbn [weightRows]; eauto). set (M' := 1.2 * _ + 1). set (e1 := 1.15 * _ + _).
  destruct bias as [b|].
  - assert (HV : forall v, In v b -> finite v /\ Rabs (val v) <= B) by (intros v J; apply W; right; cbn [biasVector]; eauto). clear W. generalize 0%nat as j. revert b TB HV. induction rows as [|w rows IH]; intros b TB HV j; [destruct b; [constructor|discriminate]|].
    destruct b as [|v b]; [discriminate|]. cbn [length seq combine map fst snd]. constructor.
    + apply (unit_near act (sum j) x xr w (Some v)); auto; [apply TW; now left|apply (LX w); now left|apply HW; now left|]. intros u [= <-]. apply HV. now left.
    + apply IH; auto; [intros; apply TW; now right|intros w' J; apply (LX w'); now right|intros; eapply HW; eauto; now right|intros; apply HV; now right].
  - clear W TB. generalize 0%nat as j. induction rows as [|w rows IH]; intros j; [constructor|]. cbn [length seq combine map fst snd]. constructor.
    + apply (unit_near act (sum j) x xr w None); auto; [apply TW; now left|apply (LX w); now left|apply HW; now left|discriminate].
    + apply IH; auto; [intros; apply TW; now right|intros w' J; apply (LX w'); now right|intros; eapply HW; eauto; now right].
Qed.
End Layer.

(** * Networks *)
Lemma instance_length m sum l x : takes (length x) l -> length (d_instance m sum l x) = length (weightRows l).
Proof. intros (_ & T). unfold d_instance, indexed. rewrite map_length. destruct (biasVector l) as [b|]; rewrite ?map_length, ?combine_length, ?map_length, ?combine_length, ?seq_length; lia. Qed.
Lemma fits_ok l x : takes (length x) l -> d_fits l x = true.
Proof.
  intros (T1 & T2). unfold d_fits. apply andb_true_intro. split; [apply forallb_forall; intros w I; now apply Nat.eqb_eq, T1|]. destruct (biasVector l); auto. now apply Nat.eqb_eq.
Qed.
Lemma indexed_nth {T} (l : list T) i x : nth_error l i = Some x -> nth_error (indexed l) i = Some (i, x).
Proof.
  unfold indexed. assert (G : forall k, nth_error l i = Some x -> nth_error (combine (seq k (length l)) l) i = Some ((k + i)%nat, x)); [|apply (G 0%nat)].
  revert i. induction l as [|a l IH]; intros [|i] k; cbn [nth_error length seq combine]; try discriminate.
  - intros [= <-]. now rewrite Nat.add_0_r.
  - intros Q. rewrite (IH i (Datatypes.S k) Q). do 2 f_equal. lia.
Qed.
Lemma forward_ok m sum l X I : takes I l -> (forall x, In x X -> length x = I) ->
  exists Y, d_forward m sum l X = Ok Y /\ length Y = length X /\ (forall y, In y Y -> length y = length (weightRows l)) /\
  forall i x, nth_error X i = Some x -> nth_error Y i = Some (d_instance m (sum i) l x).
Proof.
  intros T HX. unfold d_forward. replace (forallb (d_fits l) X) with true. 2:{ symmetry. apply forallb_forall. intros x J. apply fits_ok. now rewrite HX. }
  eexists. split; [reflexivity|]. unfold indexed at 1. rewrite map_length, combine_length, seq_length. split; [lia|]. split.
  - intros y J. apply in_map_iff in J as ((i & x) & <- & J). unfold indexed in J. apply in_combine_r in J. cbn [fst snd]. apply instance_length. now rewrite HX.
  - intros i x Q. rewrite nth_error_map, (indexed_nth X i x Q). reflexivity.
Qed.
Lemma magnitude_step n B M : 0 <= n -> 0 <= B -> 0 <= M -> 0 <= n * B * M /\ 0 <= 1.2 * (n * B * M + B) + 1.
Proof. intros. assert (0 <= n * B * M) by (repeat apply Rmult_le_pos; auto). split; lra. Qed.
Lemma net_near m (A : accurate m) n B : (Z.of_nat n <= 2 ^ 30)%Z -> 0 <= B -> forall layers sum X I M e, (forall k i j, summation (sum k i j)) -> 0 <= M -> 0 <= e ->
  wellShaped I layers -> (forall l, In l layers -> weightsBelow B l /\ forall w, In w (weightRows l) -> (length w <= n)%nat) ->
  (forall k, (k <= length layers)%nat -> magnitude (INR n) B M k <= 2 ^ 90) ->
  (forall x, In x X -> length x = I) ->
  exists Y, d_net m sum layers X = Ok Y /\ length Y = length X /\
  forall i x y xr, nth_error X i = Some x -> nth_error Y i = Some y -> Forall2 (near M e) x xr ->
    Forall2 (near (magnitude (INR n) B M (length layers)) (deviation (INR n) B M e (length layers))) y (exactNet layers xr).
Proof.
  intros N HB. induction layers as [|l ls IH]; intros sum X I M e SM HM He SH W MB HX.
  - exists X. split; [reflexivity|]. split; auto. intros i x y xr Q1 Q2 H. rewrite Q1 in Q2. injection Q2 as <-. exact H.
  - cbn [wellShaped] in SH. destruct SH as (S1 & S2). destruct (W l (or_introl eq_refl)) as (W1 & W2). destruct (magnitude_step (INR n) B M (pos_INR n) HB HM) as (G0 & G1).
    pose proof (MB 1%nat ltac:(cbn [length]; lia)) as M1. cbn [magnitude] in M1. set (M' := 1.2 * (INR n * B * M + B) + 1) in *. set (e' := 1.15 * (INR n * B * e + (2 * INR n + 2) / 2 ^ 52 * (INR n * B * M + B) + 1 / 10 ^ 20) + 1 / 10 ^ 12).
    assert (E0 : 0 <= e'). { unfold e'. assert (0 <= INR n * B * e) by (repeat apply Rmult_le_pos; auto; apply pos_INR). pose proof (pos_INR n). assert (0 <= (2 * INR n + 2) / 2 ^ 52 * (INR n * B * M + B)) by (apply Rmult_le_pos; lra). lra. }
    destruct (forward_ok m (sum 0%nat) l X I S1 HX) as (Z & EZ & LZ & SZ & NZ).
    destruct (IH (fun k => sum (Datatypes.S k)) Z (length (weightRows l)) M' e') as (Y & EY & LY & HY); auto.
    + intros k K. apply W. now right.
    + intros k K. apply (MB (Datatypes.S k)). cbn [length]. lia.
    + exists Y. cbn [d_net]. rewrite EZ. cbn [bind]. split; auto. split; [congruence|]. intros i x y xr Q1 Q2 H. cbn [length deviation magnitude]. fold M' e'. change (exactNet (l :: ls) xr) with (exactNet ls (exactLayer l xr)).
      apply (HY i _ y (exactLayer l xr) (NZ i x Q1) Q2). apply instance_near; auto; [unfold M' in M1; lra|]. rewrite (HX x); auto. eapply nth_error_In; eauto.
Qed.

(** * The mean squared error *)
Lemma mse_ok sum Df : summation sum -> concat Df <> [] -> (Z.of_nat (length (concat Df)) <= 2 ^ 30)%Z -> (Z.of_nat (length Df) <= 2 ^ 31)%Z -> (forall v, In v (concat Df) -> finite v /\ Rabs (val v) <= 2 ^ 30) ->
  let exact := total (map (fun v => val v * val v) (concat Df)) / (2 * INR (length Df)) in
  finite (d_meanSquaredError sum Df) /\ Rabs (val (d_meanSquaredError sum Df) - exact) <= (2 * INR (length (concat Df)) + 2) / 2 ^ 52 * exact + 1 / 10 ^ 20.
Proof.
  intros SM NE N NR H exact. unfold d_meanSquaredError. set (l := concat Df) in *. assert (SQ : forall (T U : Type) (f : T -> T -> U) k, map (fun p => f (fst p) (snd p)) (combine k k) = map (fun x => f x x) k) by (intros T U f; induction k as [|a k IH]; cbn [combine map fst snd]; congruence).
  pose proof (dot_ok sum l l SM) as D. unfold d_dot in D. rewrite (SQ _ _ dmult), (SQ _ _ (fun u v => val u * val v)) in D. assert (C : length (combine l l) = length l) by (rewrite combine_length; lia). rewrite C in D. set (T := total (map (fun v => val v * val v) l)) in *.
  assert (MT : mass l l = T). { unfold mass, T. rewrite (SQ _ _ (fun u v => Rabs (val u * val v)) l). f_equal. apply map_ext. intros v. apply Rabs_pos_eq. apply Rle_0_sqr. } rewrite MT in D.
  set (n := INR (length l)) in *. assert (NN : 0 <= n <= 2 ^ 30). { unfold n. split; [apply pos_INR|]. rewrite INR_IZR_INZ. apply IZR_le in N. lra. }
  assert (TB : 0 <= T <= 2 ^ 90). { split; [rewrite <- MT; apply mass_pos|]. apply Rle_trans with (total (map (fun v : double => 0 * 0 + 2 ^ 60) l)). - apply total_le_map. intros v I. destruct (H v I) as (_ & B). replace (val v * val v) with (Rabs (val v) * Rabs (val v)) by (rewrite <- Rabs_mult; apply Rabs_pos_eq, Rle_0_sqr). assert (Rabs (val v) * Rabs (val v) <= 2 ^ 30 * 2 ^ 30) by (apply Rmult_le_compat; auto using Rabs_pos). lra. - rewrite (total_affine (fun _ => 0)). fold n. replace (total (map (fun _ : double => 0) l)) with 0. + lra. + clear. induction l as [|a l IH]; cbn [map total fold_right]; [reflexivity|]. fold (total (map (fun _ : double => 0) l)). lra. }
  destruct D as (F & E); [intros v [I|I]; now apply H|auto|lra|]. set (s := match map (fun x => dmult x x) l with [] => dint 0 | _ :: _ => sum _ end) in *.
  assert (R0 : (1 <= length Df)%nat) by (unfold l in NE; destruct Df; [easy|cbn [length]; lia]). assert (R1 : 1 <= INR (length Df) <= 2 ^ 31). { split; [change 1 with (INR 1); now apply le_INR|]. rewrite INR_IZR_INZ. apply IZR_le in NR. lra. }
  set (r := INR (length Df)) in *. destruct (int_ok 2 ltac:(lia)) as (F2 & V2), (int_ok (Z.of_nat (length Df)) ltac:(lia)) as (F3 & V3), (int_ok (2 * Z.of_nat (length Df)) ltac:(lia)) as (F4 & V4). rewrite mult_IZR, <- INR_IZR_INZ in V4. rewrite <- INR_IZR_INZ in V3. fold r in V3, V4.
  assert (VD : val (dmult (dint 2) (dint (Z.of_nat (length Df)))) = 2 * r). { pose proof (mult_ok _ _ F2 F3) as Q. rewrite V2, V3 in Q. apply (faithful_exact _ _ _ (Q ltac:(apply small_max; rewrite Rabs_pos_eq; lra)) F4 V4). }
  set (dn := dmult (dint 2) _) in *. pose proof eps_small as EP. pose proof tiny_tiny as TT. assert (NEP : n * eps <= 1 / 2 ^ 20) by (apply len_eps; lia). assert (NT : 0 <= n * tiny <= 1 / 10 ^ 20 / 8). { split; [apply Rmult_le_pos; lra|]. apply Rle_trans with (2 ^ 30 * (1 / 10 ^ 30)); [apply Rmult_le_compat; lra|lra]. }
  assert (G1 : (n * eps) * T <= 1 / 2 ^ 20 * T) by (apply Rmult_le_compat_r; lra). assert (G1' : 0 <= (n * eps) * T) by (repeat apply Rmult_le_pos; lra). assert (SB : Rabs (val s) <= 2 * T + 1). { apply Rabs_le_inv in E. apply Rabs_le. lra. }
  assert (IR : 0 < / (2 * r) <= 1 / 2). { split; [apply Rinv_0_lt_compat; lra|]. replace (1 / 2) with (/ 2) by lra. apply Rinv_le; lra. } set (i := / (2 * r)) in *.
  assert (EX : exact = T * i) by reflexivity. clearbody exact. assert (X0 : 0 <= exact) by (rewrite EX; apply Rmult_le_pos; lra). assert (Q : Rabs (val s * i - exact) <= (2 * n * eps * T + 2 * n * tiny) * i). { rewrite EX, <- Rmult_minus_distr_r, Rabs_mult, (Rabs_pos_eq i) by lra. apply Rmult_le_compat_r; lra. }
  assert (QQ : (2 * n * eps * T + 2 * n * tiny) * i = 2 * ((n * eps) * exact) + 2 * (n * tiny * i)) by (rewrite EX; ring). rewrite QQ in Q. assert (G2 : (n * tiny) * i <= (n * tiny) * 1) by (apply Rmult_le_compat_l; lra). assert (G3 : 0 <= (n * tiny) * i) by (apply Rmult_le_pos; lra). assert (G4 : (n * eps) * exact <= 1 / 2 ^ 20 * exact) by (apply Rmult_le_compat_r; lra). assert (G5 : 0 <= (n * eps) * exact) by (repeat apply Rmult_le_pos; lra).
  assert (SI : Rabs (val s * i) <= 2 * exact + 1 / 10 ^ 20). { apply Rabs_le_inv in Q. apply Rabs_le. lra. } assert (XB : exact <= 2 ^ 90). { rewrite EX. apply Rle_trans with (T * 1); [apply Rmult_le_compat_l; lra|lra]. }
  pose proof (div_ok s dn F ltac:(rewrite VD; lra)) as DV. rewrite VD in DV. change (val s / (2 * r)) with (val s * i) in DV. specialize (DV ltac:(apply small_max; lra)). split; [apply DV|]. pose proof (faithful_err _ _ DV ltac:(apply small_max; lra)) as FE.
  assert (G6 : eps * Rabs (val s * i) <= eps * (2 * exact + 1 / 10 ^ 20)) by (apply Rmult_le_compat_l; lra). assert (G7 : eps * (1 / 10 ^ 20) <= 1 / 4 * (1 / 10 ^ 20)) by (apply Rmult_le_compat_r; lra).
  replace ((2 * n + 2) / 2 ^ 52 * exact) with (2 * ((n * eps) * exact) + 2 * (eps * exact)) by (rewrite eps_eq; field). apply Rabs_le_inv in Q, FE. apply Rabs_le. lra.
Qed.
