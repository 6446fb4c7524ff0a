(** Proofs about the text that is written for a number. *)
From Coq Require Import Ascii.
From Verif Require Import Base BaseFacts NetIO_Spec NetPrint_Proofs Text_Model Text_Spec Text_Proofs.
Local Open Scope R_scope.

(** * Rounding *)
Lemma roundEven_close y : Rabs (IZR (roundEven y) - y) <= 1 / 2.
Proof.
  unfold roundEven. pose proof (Zfloor_bounds y). destruct (Rltb _ (1 / 2)) eqn:E1; [apply Rltb_true in E1; apply Rabs_le; lra|]. apply Rltb_false in E1.
  destruct (Rltb (1 / 2) _) eqn:E2; [rewrite plus_IZR; apply Rabs_le; lra|]. apply Rltb_false in E2.
  destruct (Z.even _); [apply Rabs_le; lra|rewrite plus_IZR; apply Rabs_le; lra].
Qed.
Lemma roundEven_Z z : roundEven (IZR z) = z.
Proof. unfold roundEven. rewrite Zfloor_IZR. rewrite (proj2 (Rltb_true _ _)) by lra. reflexivity. Qed.
Lemma roundEven_best y j : Rabs (IZR (roundEven y) - y) <= Rabs (IZR j - y).
Proof.
  pose proof (roundEven_close y) as H. destruct (Z.eq_dec j (roundEven y)) as [->|N]; [lra|].
  assert (1 <= Rabs (IZR j - IZR (roundEven y))). { rewrite <- minus_IZR, <- abs_IZR. apply IZR_le. lia. }
  replace (IZR j - IZR (roundEven y)) with ((IZR j - y) - (IZR (roundEven y) - y)) in H0 by ring.
  pose proof (Rabs_triang (IZR j - y) (- (IZR (roundEven y) - y))) as T. rewrite Rabs_Ropp in T. unfold Rminus at 1 in H0. lra.
Qed.

Section Positive.
Variable a : R.
Hypothesis Ha : 0 < a.
Notation X0 := (Zfloor (ln a / ln 10)).
Notation u := (powerRZ 10 (X0 - 5)).
Notation y0 := (a * powerRZ 10 (5 - X0)).
Notation k := (roundEven y0).

Lemma expo_a : expo a = (X0 - 5)%Z.
Proof. unfold expo. now rewrite Rabs_pos_eq by lra. Qed.
Lemma a_scaled : a = y0 * u.
Proof. rewrite Rmult_assoc, <- p10_add. replace (5 - X0 + (X0 - 5))%Z with 0%Z by lia. cbn. ring. Qed.
Lemma y0_bounds : IZR (10 ^ 5) <= y0 < IZR (10 ^ 6).
Proof.
  assert (N : a <> 0) by lra. pose proof (scaled a N) as H. rewrite expo_a in H. replace (- (X0 - 5))%Z with (5 - X0)%Z in H by lia.
  rewrite Rabs_pos_eq in H; auto. apply Rmult_le_pos; [lra|left; apply p10].
Qed.
Lemma k_bounds : (10 ^ 5 <= k <= 10 ^ 6)%Z.
Proof.
  pose proof y0_bounds as (B1 & B2). pose proof (roundEven_close y0) as C. 
  assert (C1 : IZR k <= y0 + 1 / 2 /\ y0 - 1 / 2 <= IZR k). { unfold Rabs in C. destruct (Rcase_abs _); lra. } clear C. split.
  - apply Znot_gt_le. intros H. assert (H1 : (k + 1 <= 10 ^ 5)%Z) by lia. apply IZR_le in H1. rewrite plus_IZR in H1. lra.
  - apply Znot_gt_le. intros H. assert (H1 : (10 ^ 6 + 1 <= k)%Z) by lia. apply IZR_le in H1. rewrite plus_IZR in H1. lra.
Qed.
Definition posRound : R := let '(m, X) := scientific a in IZR m * powerRZ 10 (X - 5).
Lemma posRound_k : posRound = IZR k * u.
Proof.
  unfold posRound, scientific. destruct (Z.eqb_spec k (10 ^ 6)) as [->|N]; [|reflexivity].
  replace (X0 + 1 - 5)%Z with (1 + (X0 - 5))%Z by lia. rewrite p10_add, <- Rmult_assoc. f_equal. rewrite (p10_Z 1), <- mult_IZR by lia. reflexivity.
Qed.
Lemma scientific_bounds : let '(m, _) := scientific a in (10 ^ 5 <= m < 10 ^ 6)%Z.
Proof. pose proof k_bounds. unfold scientific. destruct (Z.eqb_spec k (10 ^ 6)) as [E|N]; lia. Qed.

Lemma diff_k j : Rabs (IZR j * u - a) = Rabs (IZR j - y0) * u.
Proof. replace (IZR j * u - a) with ((IZR j - y0) * u) by (rewrite Rmult_minus_distr_r, <- a_scaled; reflexivity). rewrite Rabs_mult, (Rabs_right u) by (left; apply p10). reflexivity. Qed.
Lemma posRound_six : sixDigits posRound.
Proof.
  unfold posRound. pose proof scientific_bounds as B. destruct (scientific a) as (m, X). exists m, (X - 5)%Z. split; [lia|reflexivity].
Qed.
Lemma posRound_best y : sixDigits y -> Rabs (posRound - a) <= Rabs (y - a).
Proof.
  intros (m & e & Hm & ->). rewrite posRound_k, diff_k. pose proof (p10 (X0 - 5)) as PU. destruct (Z_le_gt_dec (X0 - 5) e) as [He|He].
  - replace (IZR m * powerRZ 10 e) with (IZR (m * 10 ^ (e - (X0 - 5))) * u).
    + rewrite diff_k. apply Rmult_le_compat_r; [lra|]. apply roundEven_best.
    + rewrite mult_IZR, <- p10_Z by lia. rewrite Rmult_assoc, <- p10_add. do 2 f_equal. lia.
  - assert (HY : IZR m * powerRZ 10 e <= IZR (10 ^ 5) * u).
    { apply Rle_trans with (IZR (10 ^ 6) * powerRZ 10 e).
      - apply Rmult_le_compat_r; [left; apply p10|]. apply IZR_le. lia.
      - rewrite <- !p10_Z by lia. rewrite <- !p10_add. apply p10_le. lia. }
    apply Rle_trans with (Rabs (IZR (10 ^ 5) - y0) * u); [apply Rmult_le_compat_r; [lra|apply roundEven_best]|]. rewrite <- diff_k.
    assert (HA : IZR (10 ^ 5) * u <= a). { apply Rle_trans with (y0 * u); [|right; symmetry; apply a_scaled]. apply Rmult_le_compat_r; [lra|]. apply y0_bounds. }
    rewrite (Rabs_left1 (IZR (10 ^ 5) * u - a)) by lra. rewrite (Rabs_left1 (IZR m * _ - a)) by lra. lra.
Qed.
Lemma posRound_close : Rabs (posRound - a) <= 5 / 10 ^ 6 * a.
Proof.
  rewrite posRound_k, diff_k. pose proof (p10 (X0 - 5)). pose proof (roundEven_close y0). pose proof y0_bounds as (B & _). change (IZR (10 ^ 5)) with 100000 in B.
  apply Rle_trans with (1 / 2 * u); [apply Rmult_le_compat_r; lra|]. apply Rle_trans with (5 / 10 ^ 6 * (y0 * u)); [|right; f_equal; symmetry; apply a_scaled]. rewrite <- Rmult_assoc. apply Rmult_le_compat_r; lra.
Qed.
Lemma posRound_pos : 0 < posRound.
Proof. rewrite posRound_k. apply Rmult_lt_0_compat; [|apply p10]. apply (IZR_lt 0). pose proof k_bounds. lia. Qed.
End Positive.

Lemma expo_unique x e : 0 < x -> powerRZ 10 e <= x < powerRZ 10 (e + 1) -> Zfloor (ln x / ln 10) = e.
Proof.
  intros Hx (B1 & B2). assert (N : x <> 0) by lra. pose proof (expo_bounds x N) as (B3 & B4). rewrite Rabs_pos_eq in B3, B4 by lra. rewrite (expo_a x Hx) in B3, B4.
  set (f := Zfloor (ln x / ln 10)) in *. replace (f - 5 + 5)%Z with f in B3 by lia. replace (f - 5 + 6)%Z with (f + 1)%Z in B4 by lia.
  destruct (Z.lt_trichotomy f e) as [L|[L|L]]; auto; exfalso.
  - assert (H : powerRZ 10 (f + 1) <= powerRZ 10 e) by (apply p10_le; lia). lra.
  - assert (H : powerRZ 10 (e + 1) <= powerRZ 10 f) by (apply p10_le; lia). lra.
Qed.
Lemma scientific_exact m X : (10 ^ 5 <= m < 10 ^ 6)%Z -> scientific (IZR m * powerRZ 10 (X - 5)) = (m, X).
Proof.
  intros H. set (r := IZR m * powerRZ 10 (X - 5)). pose proof (p10 (X - 5)) as HP.
  assert (E : Zfloor (ln r / ln 10) = X).
  { apply expo_unique.
    - apply Rmult_lt_0_compat; auto. apply (IZR_lt 0). lia.
    - unfold r. split.
      + replace X with (5 + (X - 5))%Z at 1 by lia. rewrite p10_add, (p10_Z 5) by lia. apply Rmult_le_compat_r; [lra|]. apply IZR_le. lia.
      + replace (X + 1)%Z with (6 + (X - 5))%Z by lia. rewrite p10_add, (p10_Z 6) by lia. apply Rmult_lt_compat_r; [lra|]. apply IZR_lt. lia. }
  unfold scientific. rewrite E. replace (r * powerRZ 10 (5 - X)) with (IZR m).
  - rewrite roundEven_Z. destruct (Z.eqb_spec m (10 ^ 6)); [lia|reflexivity].
  - unfold r. rewrite Rmult_assoc, <- p10_add. replace (X - 5 + (5 - X))%Z with 0%Z by lia. cbn. ring.
Qed.
Lemma scientific_again a : 0 < a -> scientific (posRound a) = scientific a.
Proof. intros Ha. unfold posRound. pose proof (scientific_bounds a Ha) as B. destruct (scientific a) as (m, X). now apply scientific_exact. Qed.

(** * Digits *)
Lemma fixedDigits_ok k : forall m, (0 <= m < 10 ^ Z.of_nat k)%Z -> digs (fixedDigits k m) /\ length (fixedDigits k m) = k /\ valueOf (fixedDigits k m) = m.
Proof.
  induction k as [|k IH]; intros m H.
  - cbn in *. repeat split; [constructor|]. change (valueOf []) with 0%Z. lia.
  - cbn [fixedDigits]. rewrite Nat2Z.inj_succ, Z.pow_succ_r in H by lia.
    assert (HD : (0 <= m / 10 < 10 ^ Z.of_nat k)%Z) by (split; [apply Z.div_pos; lia|apply Z.div_lt_upper_bound; lia]).
    destruct (IH (m / 10)%Z HD) as (H1 & H2 & H3). pose proof (Z.mod_pos_bound m 10 ltac:(lia)) as HM. pose proof (Z.div_mod m 10 ltac:(lia)) as HE. repeat split.
    + apply Forall_app. split; auto. constructor; [|constructor]. lia.
    + rewrite app_length, H2. cbn. lia.
    + rewrite valueOf_snoc, H3. lia.
Qed.
Lemma strip_form ds : exists n, ds = strip ds ++ repeat 0%nat n.
Proof.
  induction ds as [|d ds (n & IH)]; [exists 0%nat; reflexivity|]. cbn [strip]. destruct (strip ds) as [|s l] eqn:E.
  - cbn in IH. destruct (Nat.eqb_spec d 0) as [->|N].
    + exists (S n). cbn. now rewrite IH at 1.
    + exists n. cbn. now rewrite IH at 1.
  - exists n. cbn [app] in *. now rewrite IH at 1.
Qed.
Lemma digs_strip ds : digs ds -> digs (strip ds).
Proof. intros H. destruct (strip_form ds) as (n & E). rewrite E in H. apply Forall_app in H. tauto. Qed.
Lemma valueOf_zeros n : valueOf (repeat 0%nat n) = 0%Z.
Proof. induction n; [reflexivity|]. cbn [repeat]. rewrite repeat_cons, valueOf_snoc, IHn. reflexivity. Qed.
Lemma mantissa_strip A C : mantissa A (strip C) = mantissa A C.
Proof.
  destruct (strip_form C) as (n & E). rewrite E at 2. unfold mantissa. rewrite app_assoc, (valueOf_app (A ++ strip C)), valueOf_zeros, Z.add_0_r, app_length, !repeat_length.
  rewrite mult_IZR, <- p10_Z by lia. rewrite Rmult_assoc, <- p10_add. do 2 f_equal. lia.
Qed.
Lemma digs_firstn n ds : digs ds -> digs (firstn n ds).
Proof. intros H. rewrite <- (firstn_skipn n ds) in H. apply Forall_app in H. tauto. Qed.
Lemma digs_skipn n ds : digs ds -> digs (skipn n ds).
Proof. intros H. rewrite <- (firstn_skipn n ds) in H. apply Forall_app in H. tauto. Qed.

Lemma printPositive_plain a : 0 < a -> plain (printPositive a) (posRound a).
Proof.
  intros Ha. unfold printPositive, posRound. pose proof (scientific_bounds a Ha) as B. destruct (scientific a) as (m, X).
  destruct (fixedDigits_ok 6 m) as (D1 & D2 & D3); [change (10 ^ Z.of_nat 6)%Z with (10 ^ 6)%Z; lia|]. set (ds := fixedDigits 6 m) in *. clearbody ds.
  assert (SCI : plain (chars (firstn 1 ds) ++ point (strip (skipn 1 ds)) ++ printExponent X) (IZR m * powerRZ 10 (X - 5))).
  { set (n := Z.to_nat (Z.abs X)). destruct (natDigits_ok n n (nat_pow n)) as (N1 & N2 & N3). unfold printExponent. fold n.
    set (e := (if Z.ltb (Z.abs X) 10 then [0%nat] else []) ++ natDigits n n).
    assert (E1 : valueOf e = Z.abs X). { unfold e. rewrite valueOf_app, N3. destruct (Z.ltb _ _); change (valueOf [0%nat]) with 0%Z; change (valueOf []) with 0%Z; unfold n; lia. }
    assert (E2 : digs e). { unfold e. apply Forall_app. split; auto. destruct (Z.ltb _ _); [constructor; [lia|constructor]|constructor]. }
    assert (E3 : e <> []). { unfold e. destruct (natDigits n n); [congruence|]. now destruct (Z.ltb _ _). }
    replace (IZR m * powerRZ 10 (X - 5)) with (mantissa (firstn 1 ds) (strip (skipn 1 ds)) * powerRZ 10 (signed (Z.ltb X 0) (valueOf e))).
    - apply plain_exp; auto; [|now apply digs_firstn|now apply digs_strip, digs_skipn]. destruct ds; discriminate.
    - rewrite mantissa_strip. unfold mantissa. rewrite firstn_skipn, D3, skipn_length, D2, E1, Rmult_assoc, <- p10_add. do 2 f_equal. unfold signed. destruct (Z.ltb_spec X 0); lia. }
  destruct (Z.leb_spec (-4) X) as [L1|L1], (Z.ltb_spec X 6) as [L2|L2]; cbn [andb]; try exact SCI. clear SCI.
  destruct (Z.leb_spec 0 X) as [L3|L3].
  - set (k := (Z.to_nat X + 1)%nat). assert (HK : (1 <= k <= 6)%nat) by (unfold k; lia).
    replace (IZR m * powerRZ 10 (X - 5)) with (mantissa (firstn k ds) (strip (skipn k ds))).
    + apply plain_plain; [|now apply digs_firstn|now apply digs_strip, digs_skipn]. intros E. apply (f_equal (@length nat)) in E. rewrite firstn_length in E. cbn in E. lia.
    + rewrite mantissa_strip. unfold mantissa. rewrite firstn_skipn, D3, skipn_length. do 2 f_equal. unfold k. lia.
  - set (k := (Z.to_nat (- X) - 1)%nat).
    replace (IZR m * powerRZ 10 (X - 5)) with (mantissa [0%nat] (strip (repeat 0%nat k ++ ds))).
    + apply plain_plain; [discriminate|constructor; [lia|constructor]|]. apply digs_strip, Forall_app. split; auto. apply Forall_forall. intros x Hx. apply repeat_spec in Hx. lia.
    + rewrite mantissa_strip. unfold mantissa. change ([0%nat] ++ repeat 0%nat k ++ ds) with (repeat 0%nat (S k) ++ ds).
      rewrite valueOf_app, valueOf_zeros, D3, app_length, repeat_length, D2. do 2 f_equal. unfold k. lia.
Qed.

(** * All numbers *)
Definition roundSix (x : R) : R := if Reqb x 0 then 0 else if Rltb x 0 then - posRound (- x) else posRound x.
Lemma roundSix_cases (Q : R -> R -> Prop) : Q 0 0 -> (forall x, 0 < x -> Q x (posRound x)) -> (forall x, 0 < x -> Q (- x) (- posRound x)) -> forall x, Q x (roundSix x).
Proof.
  intros H0 H1 H2 x. unfold roundSix. destruct (Reqb x 0) eqn:E; [apply Reqb_true in E; now subst|]. apply Reqb_false in E.
  destruct (Rltb x 0) eqn:E'.
  - apply Rltb_true in E'. specialize (H2 (- x) ltac:(lra)). now rewrite Ropp_involutive in H2.
  - apply Rltb_false in E'. apply H1. lra.
Qed.
Lemma six_opp y : sixDigits y -> sixDigits (- y).
Proof. intros (m & e & H & ->). exists (- m)%Z, e. split; [now rewrite Z.abs_opp|]. rewrite opp_IZR. ring. Qed.
Lemma six_0 : sixDigits 0.
Proof. exists 0%Z, 0%Z. split; [reflexivity|]. simpl. ring. Qed.
Lemma abs_opp x y : Rabs (- x - - y) = Rabs (x - y).
Proof. rewrite <- (Rabs_Ropp (x - y)). f_equal. ring. Qed.
Lemma roundSix_closest x : closestSix x (roundSix x).
Proof.
  revert x. apply (roundSix_cases closestSix).
  - split; [apply six_0|]. intros y _. rewrite Rminus_0_r, Rabs_R0. apply Rabs_pos.
  - intros x Hx. split; [now apply posRound_six|]. intros y Hy. now apply posRound_best.
  - intros x Hx. split; [now apply six_opp, posRound_six|]. intros y Hy. rewrite abs_opp. rewrite <- (Ropp_involutive y), abs_opp. apply posRound_best; auto. now apply six_opp.
Qed.
Lemma roundSix_printing : printing roundSix.
Proof.
  constructor.
  - intros x. apply roundSix_closest.
  - intros x Hx. destruct (roundSix_closest x) as (_ & H). specialize (H x Hx). rewrite (Rminus_diag_eq x x), Rabs_R0 in H by reflexivity.
    pose proof (Rabs_pos (roundSix x - x)). assert (E : Rabs (roundSix x - x) = 0) by lra. apply Rminus_diag_uniq. destruct (Req_dec (roundSix x - x) 0) as [|N]; auto. now apply Rabs_no_R0 in N.
  - apply (roundSix_cases (fun x r => Rabs (r - x) <= 5 / 10 ^ 6 * Rabs x)).
    + rewrite Rminus_0_r, Rabs_R0. lra.
    + intros x Hx. rewrite (Rabs_pos_eq x) by lra. now apply posRound_close.
    + intros x Hx. rewrite abs_opp, Rabs_Ropp, (Rabs_pos_eq x) by lra. now apply posRound_close.
Qed.
Lemma roundSix_pos x : 0 < x -> roundSix x = posRound x.
Proof. intros H. unfold roundSix. destruct (Reqb x 0) eqn:E; [apply Reqb_true in E; lra|]. now rewrite (proj2 (Rltb_false x 0)) by lra. Qed.
Lemma printDouble_numeral x : numeral (printDouble x) (roundSix x).
Proof.
  unfold printDouble, roundSix. destruct (Reqb x 0) eqn:E.
  - apply numeral_plain. change 0 with (IZR (valueOf [0%nat])). apply numeral_integer. apply digits_chars; [discriminate|constructor; [lia|constructor]].
  - apply Reqb_false in E. destruct (Rltb x 0) eqn:E'.
    + apply Rltb_true in E'. pose proof (printPositive_plain (- x) ltac:(lra)) as H. apply numeral_negative; [now apply plain_numeral|].
      intros t' Ht. apply plain_head in H as (d & t'' & Et & Hd). rewrite Et in Ht. injection Ht as Hc _. destruct (digitChar_other d Hd) as (_ & N & _). rewrite Hc in N. discriminate N.
    + apply Rltb_false in E'. apply plain_numeral, printPositive_plain. lra.
Qed.
Lemma printDouble_again x : printDouble (roundSix x) = printDouble x.
Proof.
  revert x. apply (roundSix_cases (fun x r => printDouble r = printDouble x)); [reflexivity| |].
  - intros x Hx. pose proof (posRound_pos x Hx). unfold printDouble. destruct (Reqb x 0) eqn:E; [apply Reqb_true in E; lra|]. destruct (Reqb (posRound x) 0) eqn:E1; [apply Reqb_true in E1; lra|].
    rewrite !(proj2 (Rltb_false _ 0)) by lra. unfold printPositive. now rewrite scientific_again.
  - intros x Hx. pose proof (posRound_pos x Hx). unfold printDouble. destruct (Reqb (- x) 0) eqn:E; [apply Reqb_true in E; lra|]. destruct (Reqb (- posRound x) 0) eqn:E1; [apply Reqb_true in E1; lra|].
    rewrite !(proj2 (Rltb_true _ 0)) by lra. f_equal. unfold printPositive. now rewrite !Ropp_involutive, scientific_again.
Qed.
