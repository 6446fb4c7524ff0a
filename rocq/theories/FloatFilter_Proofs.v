(** Proofs about FloatFilter_Model. *)
From Coq Require Import Permutation Lra Lia Psatz.
From Flocq Require Import Core BinarySingleNaN.
From Verif Require Import Base BaseFacts Activation_Model Float_Model Float_Spec Float_Proofs FloatSoft_Proofs FloatSGD_Spec FloatSGD_Proofs FloatNet_Spec FloatNet_Proofs FloatPool_Model FloatScale_Proofs FloatNorm_Proofs FloatFilter_Model.
Local Open Scope R_scope.

(** the pairs that are multiplied, in the order of the program *)
Definition mirror (t pq : nat) : nat := if Nat.leb pq t then t - pq else pq - t.
Definition pairsAt (x : dmat) (b a : list double) (c t pq : nat) : list (double * double) :=
  (match nth_error b pq with Some v => [(v, dat x c (mirror t pq))] | None => [] end) ++
  (match pq, nth_error a pq with O, _ => [] | S _, Some v => [(v, dat x c (mirror t pq))] | S _, None => [] end).
Definition pairs (x : dmat) (b a : list double) (c t n : nat) : list (double * double) := flat_map (pairsAt x b a c t) (seq 0 n).

Lemma source_ok x c t pq : (c < drows x)%nat -> (t < dcols x)%nat -> (pq < dcols x)%nat -> d_source x c t pq = Ok (dat x c (mirror t pq)).
Proof.
  intros C T P. unfold d_source, mirror, dmget. apply Nat.ltb_lt in C as ->. destruct (Nat.leb_spec pq t); cbn [andb]; destruct (Nat.ltb_spec (t - pq) (dcols x)), (Nat.ltb_spec (pq - t) (dcols x)); try lia; reflexivity.
Qed.
Lemma get_ok v i : (i < length v)%nat -> exists d, nth_error v i = Some d /\ dvget v i = Ok d.
Proof. intros H. unfold dvget. destruct (nth_error v i) as [d|] eqn:E; [eauto|]. apply nth_error_None in E. lia. Qed.
Lemma sums_snoc l s v : sumsTo l s -> sumsTo (l ++ [v]) (dplus s v).
Proof. intros H. eapply sums_add; [exact H|constructor|reflexivity]. Qed.
Definition prod (p : double * double) : double := dmult (fst p) (snd p).
Lemma filter_sum x b a c t : (c < drows x)%nat -> (t < dcols x)%nat -> (length b <= dcols x)%nat -> (1 <= length a <= dcols x)%nat ->
  exists y a0, nth_error a 0 = Some a0 /\ d_filterAt x b a c t = Ok (ddiv y a0) /\ sumsTo (dint 0 :: map prod (pairs x b a c t (Nat.max (length b) (length a)))) y.
Proof.
  intros C T B A. set (n := Nat.max (length b) (length a)). assert (X : exists y, for_ n (fun pq y =>
    y <- (if Nat.ltb pq (length b) then bv <- dvget b pq ;; xv <- d_source x c t pq ;; Ok (dplus y (dmult bv xv)) else Ok y) ;;
    if (Nat.ltb 0 pq && Nat.ltb pq (length a))%bool then av <- dvget a pq ;; xv <- d_source x c t pq ;; Ok (dplus y (dmult av xv)) else Ok y) (dint 0) = Ok y /\ sumsTo (dint 0 :: map prod (pairs x b a c t n)) y).
  { apply (for_inv (fun k y => sumsTo (dint 0 :: map prod (pairs x b a c t k)) y)); [constructor|]. intros k y Hk S. unfold pairs. rewrite seq_S, flat_map_app, map_app, app_comm_cons. fold (pairs x b a c t k). cbn [flat_map Nat.add]. rewrite app_nil_r. set (l := dint 0 :: map prod (pairs x b a c t k)) in *. unfold pairsAt. rewrite map_app.
    assert (F1 : exists y', (if Nat.ltb k (length b) then bv <- dvget b k ;; xv <- d_source x c t k ;; Ok (dplus y (dmult bv xv)) else Ok y) = Ok y' /\ sumsTo (l ++ map prod (match nth_error b k with Some v => [(v, dat x c (mirror t k))] | None => [] end)) y').
    { destruct (Nat.ltb_spec k (length b)) as [L|L].
      - destruct (get_ok b k L) as (v & -> & ->). rewrite source_ok by lia. cbn [bind]. eexists. split; [reflexivity|]. now apply sums_snoc.
      - apply nth_error_None in L. rewrite L. exists y. split; [reflexivity|]. cbn [map]. now rewrite app_nil_r. }
    destruct F1 as (y' & -> & S'). cbn [bind]. rewrite app_assoc. set (l' := l ++ map prod _) in *. destruct k as [|k].
    - exists y'. split; [reflexivity|]. cbn [map]. now rewrite app_nil_r.
    - change (Nat.ltb 0 (Datatypes.S k)) with true. rewrite andb_true_l. destruct (Nat.ltb_spec (Datatypes.S k) (length a)) as [L|L].
      + destruct (get_ok a (Datatypes.S k) L) as (v & -> & ->). rewrite source_ok by lia. cbn [bind]. eexists. split; [reflexivity|]. now apply sums_snoc.
      + apply nth_error_None in L. rewrite L. exists y'. split; [reflexivity|]. cbn [map]. now rewrite app_nil_r. }
  destruct X as (y & E & S). destruct (get_ok a 0) as (a0 & N0 & G0); [lia|]. exists y, a0. split; [exact N0|]. unfold d_filterAt. fold n. rewrite E. cbn [bind]. rewrite G0. split; [reflexivity|exact S].
Qed.

(** * Sums over the taps *)
Lemma tot_flat {A B} (f : B -> R) (g : A -> list B) l : total (map f (flat_map g l)) = total (map (fun p => total (map f (g p))) l).
Proof. induction l as [|a l IH]; [reflexivity|]. cbn [flat_map map]. rewrite map_app, total_app, IH. reflexivity. Qed.
Lemma tot_plus {A} (u v : A -> R) l : total (map (fun p => u p + v p) l) = total (map u l) + total (map v l).
Proof. induction l as [|a l IH]; unfold total in *; cbn [map fold_right] in *; [ring|]. rewrite IH. ring. Qed.
Lemma tot_ext {A} (u v : A -> R) l : (forall p, In p l -> u p = v p) -> total (map u l) = total (map v l).
Proof. intros H. f_equal. now apply map_ext_in. Qed.
Lemma tot_zero {A} (u : A -> R) l : (forall p, In p l -> u p = 0) -> total (map u l) = 0.
Proof. induction l as [|a l IH]; intros H; unfold total in *; cbn [map fold_right]; [reflexivity|]. rewrite (H a (or_introl eq_refl)), IH; [ring|]. intros. apply H. now right. Qed.
Lemma tot_tail (u : nat -> R) m n : (m <= n)%nat -> (forall p, (m <= p)%nat -> u p = 0) -> total (map u (seq 0 n)) = total (map u (seq 0 m)).
Proof. intros L H. replace n with (m + (n - m))%nat by lia. rewrite seq_app, map_app, total_app, (tot_zero u (seq _ (n - m))); [ring|]. intros p I. apply in_seq in I. apply H. lia. Qed.
Lemma taps x b a c t (f : double * double -> R) : (1 <= length a)%nat ->
  total (map f (pairs x b a c t (Nat.max (length b) (length a)))) =
  total (map (fun p => f (nth p b B754_nan, dat x c (mirror t p))) (seq 0 (length b))) + total (map (fun p => f (nth p a B754_nan, dat x c (mirror t p))) (seq 1 (length a - 1))).
Proof.
  intros A. unfold pairs. rewrite tot_flat. set (u := fun p => match nth_error b p with Some v => f (v, dat x c (mirror t p)) | None => 0 end). set (w := fun p => match p, nth_error a p with O, _ => 0 | S _, Some v => f (v, dat x c (mirror t p)) | S _, None => 0 end).
  rewrite (tot_ext _ (fun p => u p + w p)). 2:{ intros p _. unfold pairsAt. rewrite map_app, total_app. unfold u, w. destruct (nth_error b p), p as [|p]; try destruct (nth_error a (Datatypes.S p)); unfold total; cbn [map fold_right]; ring. }
  rewrite tot_plus. f_equal.
  - rewrite (tot_tail u (length b)) by (try lia; intros p H; unfold u; apply nth_error_None in H; now rewrite H). apply tot_ext. intros p I. apply in_seq in I. unfold u. rewrite (nth_error_nth' b B754_nan) by lia. reflexivity.
  - assert (WZ : forall p, (length a <= p)%nat -> w p = 0) by (intros p H; unfold w; destruct p as [|p]; [reflexivity|apply nth_error_None in H; now rewrite H]). rewrite (tot_tail w (length a)) by (lia || exact WZ). replace (length a) with (Datatypes.S (length a - 1)) at 1 by lia. cbn [seq map]. unfold total at 1. cbn [fold_right]. fold (total (map w (seq 1 (length a - 1)))). change (w 0%nat) with 0. rewrite Rplus_0_l.
    apply tot_ext. intros p I. apply in_seq in I. unfold w. destruct p as [|p]; [lia|]. rewrite (nth_error_nth' a B754_nan) by lia. reflexivity.
Qed.
Lemma pairs_in x b a c t n p : In p (pairs x b a c t n) -> In (fst p) (b ++ tl a) /\ exists i, (i < n)%nat /\ snd p = dat x c (mirror t i).
Proof.
  intros I. unfold pairs in I. apply in_flat_map in I as (i & J & I). apply in_seq in J. unfold pairsAt in I. apply in_app_or in I as [I|I].
  - destruct (nth_error b i) as [v|] eqn:E; [|destruct I]. destruct I as [<-|[]]. split; [apply in_or_app; left; eapply nth_error_In; exact E|exists i; split; [lia|reflexivity]].
  - destruct i as [|i]; [destruct I|]. destruct (nth_error a (Datatypes.S i)) as [v|] eqn:E; [|destruct I]. destruct I as [<-|[]]. split; [apply in_or_app; right; destruct a as [|a0 a]; [discriminate E|]; eapply nth_error_In; exact E|exists (Datatypes.S i); split; [lia|reflexivity]].
Qed.
Lemma pairs_length x b a c t n : (length (pairs x b a c t n) <= 2 * n)%nat.
Proof.
  unfold pairs. induction n as [|n IH]; [cbn; lia|]. rewrite seq_S, flat_map_app, app_length. cbn [flat_map]. rewrite app_nil_r. assert (length (pairsAt x b a c t (0 + n)) <= 2)%nat; [|lia]. unfold pairsAt. rewrite app_length. destruct (nth_error b (0 + n)), (0 + n)%nat as [|k]; try destruct (nth_error a (Datatypes.S k)); cbn; lia.
Qed.
Lemma tot_err {A} (f g h : A -> R) c d l : (forall p, In p l -> Rabs (f p - g p) <= c * h p + d) -> Rabs (total (map f l) - total (map g l)) <= c * total (map h l) + INR (length l) * d.
Proof.
  induction l as [|a l IH]; intros H; unfold total in *; cbn [map fold_right length] in *; [rewrite Rminus_0_r, Rabs_R0; cbn; lra|]. rewrite S_INR. pose proof (H a (or_introl eq_refl)) as Ha. assert (HH := IH (fun p I => H p (or_intror I))).
  match goal with |- Rabs (f a + ?u - (g a + ?v)) <= _ => replace (f a + u - (g a + v)) with ((f a - g a) + (u - v)) by ring end. apply Rle_trans with (1 := Rabs_triang _ _). lra.
Qed.

Definition exactProd (p : double * double) : R := val (fst p) * val (snd p).
Definition absProd (p : double * double) : R := Rabs (exactProd p).
Lemma prod_ok p : finite (fst p) -> finite (snd p) -> Rabs (val (fst p)) <= 2 ^ 30 -> Rabs (val (snd p)) <= 2 ^ 30 -> finite (prod p) /\ Rabs (val (prod p) - exactProd p) <= eps * absProd p + tiny /\ absProd p <= 2 ^ 60.
Proof.
  intros F G B C. assert (P : absProd p <= 2 ^ 60). { unfold absProd, exactProd. rewrite Rabs_mult. replace (2 ^ 60) with (2 ^ 30 * 2 ^ 30) by (rewrite pow_split; reflexivity). apply Rmult_le_compat; auto using Rabs_pos. }
  assert (M : Rabs (exactProd p) <= maxDouble). { apply small_max. apply Rle_trans with (1 := P). apply Rle_pow; [lra|lia]. } pose proof (mult_ok _ _ F G M) as X. split; [apply X|]. split; [|exact P]. apply faithful_err; auto.
Qed.
Lemma filter_err l y a0 : sumsTo (dint 0 :: map prod l) y -> (forall p, In p l -> finite (fst p) /\ finite (snd p) /\ Rabs (val (fst p)) <= 2 ^ 30 /\ Rabs (val (snd p)) <= 2 ^ 30) -> (Z.of_nat (length l) < 2 ^ 31)%Z ->
  finite a0 -> / 2 ^ 30 <= Rabs (val a0) ->
  finite (ddiv y a0) /\ Rabs (val (ddiv y a0) - total (map exactProd l) / val a0) <= (3 * INR (length l) + 3) * eps * (total (map absProd l) / Rabs (val a0)) + 3 * INR (length l) * tiny / Rabs (val a0) + tiny.
Proof.
  intros S H N F0 A0. destruct zero_ok as (FZ & VZ). set (n := INR (length l)). assert (n0 : 0 <= n) by apply pos_INR. assert (N31 : n + 1 <= 2 ^ 31). { unfold n. rewrite <- S_INR, INR_IZR_INZ, (pow_IZR 2 31). apply IZR_le. cbn [Z.of_nat] in N. change (2 ^ Z.of_nat 31)%Z with (2 ^ 31)%Z. lia. }
  pose proof eps_pos as EP. pose proof eps_ten as ET. assert (T0 : 0 < tiny) by apply bpow_gt_0. pose proof tiny_one as T1.
  set (A := total (map absProd l)). set (E := total (map exactProd l)). assert (A_0 : 0 <= A) by (apply total_pos; intros r I; apply in_map_iff in I as (p & <- & _); apply Rabs_pos).
  assert (D : Rabs (total (map (fun p => val (prod p)) l) - E) <= eps * A + n * tiny). { apply tot_err. intros p I. destruct (H p I) as (P1 & P2 & P3 & P4). now apply prod_ok. }
  assert (SZ : sizes (dint 0 :: map prod l) = total (map (fun p => Rabs (val (prod p))) l)). { unfold sizes. cbn [map]. rewrite map_map. unfold total at 1. cbn [fold_right]. fold (total (map (fun p => Rabs (val (prod p))) l)). rewrite VZ, Rabs_R0. ring. }
  assert (D2 : Rabs (total (map (fun p => Rabs (val (prod p))) l) - A) <= eps * A + n * tiny). { apply tot_err. intros p I. destruct (H p I) as (P1 & P2 & P3 & P4). destruct (prod_ok p) as (_ & X & _); auto. apply Rle_trans with (2 := X). unfold absProd. apply Rabs_triang_inv2. }
  assert (EA : eps * A <= / 1024 * A) by (apply Rmult_le_compat_r; lra). assert (nt0 : 0 <= n * tiny) by (apply Rmult_le_pos; lra). assert (SB : sizes (dint 0 :: map prod l) <= 1025 / 1024 * A + n * tiny) by (rewrite SZ; apply Rabs_le_inv in D2; lra).
  assert (AB : A <= n * 2 ^ 60). { unfold A, n. clear - H. induction l as [|p l IH]; [cbn; lra|]. cbn [map length]. unfold total. cbn [fold_right]. fold (total (map absProd l)). rewrite S_INR. assert (total (map absProd l) <= INR (length l) * 2 ^ 60) by (apply IH; intros; apply H; now right). destruct (H p (or_introl eq_refl)) as (P1 & P2 & P3 & P4). destruct (prod_ok p) as (_ & _ & X); auto. lra. }
  assert (P60 : 1 <= 2 ^ 60) by (apply pow_R1_Rle; lra). assert (AB2 : n * 2 ^ 60 <= 2 ^ 91). { replace (2 ^ 91) with (2 ^ 31 * 2 ^ 60) by (rewrite pow_split; reflexivity). apply Rmult_le_compat_r; lra. } assert (nt : n * tiny <= 2 ^ 31). { apply Rle_trans with (n * 1); [apply Rmult_le_compat_l; lra|lra]. }
  assert (P31 : 2 ^ 31 <= 2 ^ 91) by (apply Rle_pow; [lra|lia]). assert (P93 : 4 * 2 ^ 91 <= 2 ^ 99). { replace (4 * 2 ^ 91) with (2 ^ 93) by (replace (2 ^ 93) with (2 * (2 * 2 ^ 91)) by reflexivity; ring). apply Rle_pow; [lra|lia]. }
  assert (LN : length (dint 0 :: map prod l) = Datatypes.S (length l)) by (cbn; now rewrite map_length).
  destruct (sums_any' _ _ S) as (Fy & Ey). { intros v [<-|I]; [exact FZ|]. apply in_map_iff in I as (p & <- & I). destruct (H p I) as (P1 & P2 & P3 & P4). now apply prod_ok. } { rewrite LN. lia. } { lra. }
  rewrite LN, S_INR in Ey. fold n in Ey. replace (2 * (n + 1 - 1) * eps) with (2 * (n * eps)) in Ey by ring. assert (TV : total (map val (dint 0 :: map prod l)) = total (map (fun p => val (prod p)) l)). { cbn [map]. rewrite map_map. unfold total at 1. cbn [fold_right]. fold (total (map (fun p => val (prod p)) l)). rewrite VZ. ring. } rewrite TV in Ey.
  assert (EN : n * eps <= / 1024). { apply Rle_trans with (2 ^ 31 * eps); [apply Rmult_le_compat_r; lra|]. unfold eps. replace (2 ^ 52) with (2 ^ 31 * 2 ^ 21) by (rewrite pow_split; reflexivity). rewrite Rinv_mult, <- Rmult_assoc, Rinv_r, Rmult_1_l by (apply pow_nonzero; lra). apply Rinv_le_contravar; [lra|]. apply Rle_trans with (2 ^ 10); [lra|apply Rle_pow; [lra|lia]]. }
  assert (ne0 : 0 <= n * eps) by (apply Rmult_le_pos; lra). assert (Q1 : n * eps * sizes (dint 0 :: map prod l) <= n * eps * (1025 / 1024 * A + n * tiny)) by (apply Rmult_le_compat_l; lra). assert (Q2 : n * eps * (n * tiny) <= / 1024 * (n * tiny)) by (apply Rmult_le_compat_r; lra). assert (Q3 : 0 <= n * eps * A) by (apply Rmult_le_pos; lra). assert (Q4 : n * eps * A <= / 1024 * A) by (apply Rmult_le_compat_r; lra).
  assert (DY : Rabs (val y - E) <= (3 * n + 1) * eps * A + 2 * (n * tiny)). { replace (val y - E) with ((val y - total (map (fun p => val (prod p)) l)) + (total (map (fun p => val (prod p)) l) - E)) by ring. apply Rle_trans with (1 := Rabs_triang _ _). lra. }
  assert (EB : Rabs E <= A). { unfold E, A. apply Rle_trans with (1 := total_abs _). rewrite map_map. apply Rle_refl. }
  assert (YB : Rabs (val y) <= 1030 / 1024 * A + 2 * (n * tiny)). { replace (val y) with (E + (val y - E)) by ring. apply Rle_trans with (1 := Rabs_triang _ _). lra. }
  set (r := val a0) in *. assert (PI : 0 < / 2 ^ 30) by (apply Rinv_0_lt_compat, pow_lt; lra). assert (R0 : r <> 0) by (intros Z; rewrite Z, Rabs_R0 in A0; lra). assert (IR : 0 < / Rabs r) by (apply Rinv_0_lt_compat; lra). assert (IB : / Rabs r <= 2 ^ 30). { rewrite <- (Rinv_inv (2 ^ 30)). apply Rinv_le_contravar; lra. }
  assert (M : Rabs (val y / r) <= maxDouble). { apply big. unfold Rdiv. rewrite Rabs_mult, Rabs_inv. apply Rle_trans with (2 ^ 99 * 2 ^ 30). { apply Rmult_le_compat; try lra. apply Rabs_pos. } rewrite pow_split. apply Rle_pow; [lra|lia]. }
  pose proof (div_ok y a0 Fy R0 M) as F. fold r in F. pose proof (faithful_err _ _ F M) as EF. split; [apply F|]. replace (val (ddiv y a0) - E / r) with ((val (ddiv y a0) - val y / r) + (val y - E) / r) by (field; exact R0). apply Rle_trans with (1 := Rabs_triang _ _).
  unfold Rdiv in *. rewrite !Rabs_mult, Rabs_inv in *. assert (Z1 : Rabs (val y - E) * / Rabs r <= ((3 * n + 1) * eps * A + 2 * (n * tiny)) * / Rabs r) by (apply Rmult_le_compat_r; lra).
  assert (Z2 : eps * (Rabs (val y) * / Rabs r) <= eps * ((1030 / 1024 * A + 2 * (n * tiny)) * / Rabs r)) by (apply Rmult_le_compat_l; [lra|]; apply Rmult_le_compat_r; lra). set (i := / Rabs r) in *.
  assert (W1 : 0 <= eps * (A * i)) by (apply Rmult_le_pos; [lra|]; apply Rmult_le_pos; lra). assert (W2 : 0 <= n * tiny * i) by (apply Rmult_le_pos; lra). assert (W3 : eps * (n * tiny * i) <= / 1024 * (n * tiny * i)) by (apply Rmult_le_compat_r; lra). lra.
Qed.
