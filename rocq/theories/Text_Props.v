(** Property C95: numbers as text. *)
From Coq Require Import Ascii String.
From Verif Require Import Base BaseFacts NetIO_Spec NetPrint_Proofs Text_Model Text_Spec Text_Proofs TextPrint_Proofs TextSVM_Proofs.
Local Open Scope R_scope.
Local Open Scope list_scope.

(** C95.  Every number is written as a decimal numeral that denotes a number with six significant digits, and no number with six
    digits is closer. *)
Theorem C95_written :
  forall x, exists r, numeral (printDouble x) r /\ closestSix x r /\ (sixDigits x -> r = x) /\ Rabs (r - x) <= 5 / 10 ^ 6 * Rabs x.
Proof.
  intros x. exists (roundSix x). split; [apply printDouble_numeral|]. split; [apply roundSix_closest|]. split; [apply (pr_exact _ roundSix_printing)|apply (pr_close _ roundSix_printing)].
Qed.

(** C95.  Whatever numeral follows white space is read exactly, and reading stops behind it. *)
Theorem C95_read_numeral :
  forall w t v r, white w -> numeral t v -> separated r ->
  exists s, extractDouble (fromText (w ++ t ++ r)) = (Some v, s) /\ rest s = r /\ failbit s = false /\ (eofbit s = true <-> r = []).
Proof.
  intros w t v r Hw Ht Hr. rewrite (extract_numeral w t v r Hw Ht Hr). eexists. split; [reflexivity|]. repeat split; destruct r; auto; discriminate.
Qed.
Theorem C95_read_integer :
  forall w t z r, white w -> digits t z -> separated r ->
  exists s, extractInt (fromText (w ++ t ++ r)) = (Some z, s) /\ rest s = r /\ failbit s = false /\ (eofbit s = true <-> r = []).
Proof.
  intros w t v r Hw Ht Hr. rewrite (extract_digits w t v r Hw Ht Hr). eexists. split; [reflexivity|]. repeat split; destruct r; auto; discriminate.
Qed.

(** C95.  What is read back: the closest number with six digits; it is written in the same way, so that writing and reading once more
    does not lose anything. *)
Theorem C95_round_trip :
  forall x w r, white w -> separated r ->
  exists y s, extractDouble (fromText (w ++ printDouble x ++ r)) = (Some y, s) /\ rest s = r /\ failbit s = false /\
    closestSix x y /\ (sixDigits x -> y = x) /\ Rabs (y - x) <= 5 / 10 ^ 6 * Rabs x /\ printDouble y = printDouble x.
Proof.
  intros x w r Hw Hr. exists (roundSix x). destruct (C95_read_numeral w (printDouble x) (roundSix x) r Hw (printDouble_numeral x) Hr) as (s & E & H1 & H2 & _).
  exists s. repeat split; auto; try apply roundSix_closest; [apply (pr_exact _ roundSix_printing)|apply (pr_close _ roundSix_printing)|apply printDouble_again].
Qed.
(** C95.  The order of two numbers is never reversed by writing and reading them. *)
Theorem C95_order :
  forall x y r s, x <= y -> numeral (printDouble x) r -> numeral (printDouble y) s -> r <= s.
Proof.
  intros x y r s H Hr Hs. assert (r = roundSix x) as -> by (rewrite <- (atof_numeral _ _ Hr); apply atof_numeral, printDouble_numeral).
  assert (s = roundSix y) as -> by (rewrite <- (atof_numeral _ _ Hs); apply atof_numeral, printDouble_numeral).
  destruct (Req_dec x y) as [->|N]; [lra|]. destruct (Rle_dec (roundSix x) (roundSix y)) as [|G]; auto. exfalso.
  destruct (roundSix_closest x) as (X1 & X2), (roundSix_closest y) as (Y1 & Y2). specialize (X2 _ Y1). specialize (Y2 _ X1).
  revert X2 Y2. unfold Rabs. repeat destruct (Rcase_abs _); lra.
Qed.
(** C95.  Natural numbers of any size are written exactly; they can be read as int and as double. *)
Theorem C95_integers :
  forall n w r, white w -> separated r ->
  (exists s, extractInt (fromText (w ++ printNat n ++ r)) = (Some (Z.of_nat n), s) /\ rest s = r /\ failbit s = false) /\
  (exists s, extractDouble (fromText (w ++ printNat n ++ r)) = (Some (INR n), s) /\ rest s = r /\ failbit s = false).
Proof.
  intros n w r Hw Hr. split.
  - destruct (C95_read_integer w _ _ r Hw (printNat_digits n) Hr) as (s & E & H1 & H2 & _). eauto.
  - rewrite INR_IZR_INZ. destruct (C95_read_numeral w (printNat n) (IZR (Z.of_nat n)) r Hw) as (s & E & H1 & H2 & _); eauto. apply numeral_plain. constructor. apply printNat_digits.
Qed.
(** C95.  Integers that are stored as double can be read as int if they have at most six digits ... *)
Theorem C95_integer_of_double :
  forall z r, (Z.abs z < 10 ^ 6)%Z -> separated r ->
  exists s, extractInt (fromText (printDouble (IZR z) ++ r)) = (Some z, s) /\ rest s = r /\ failbit s = false.
Proof.
  intros z r Hz Hr. destruct (printDouble_integer z Hz) as [H|(t' & z' & E & H & ->)].
  - destruct (C95_read_integer [] _ _ r (Forall_nil _) H Hr) as (s & E & H1 & H2 & _). eauto.
  - rewrite E. unfold extractInt, extract, fromText. cbn [rest eofbit failbit orb app]. rewrite (skip_none "-") by reflexivity.
    unfold scanInt. change (takeSign ("-"%char :: t' ++ r)) with (true, t' ++ r). cbv iota beta. apply digits_form in H as (ds & D1 & D2 & -> & ->).
    rewrite takeDigits_chars by (auto; now apply stops_digits, separated_stops). destruct ds; [congruence|]. eexists. split; [reflexivity|]. auto.
Qed.

(** the text of a number from its digits *)
Ltac powers := cbn; cbv [Pos.to_nat Pos.iter_op Nat.add]; cbn.
Lemma roundEven_near y m : Rabs (y - IZR m) < 1 / 2 -> roundEven y = m.
Proof.
  intros H. pose proof (roundEven_best y m) as B. rewrite (Rabs_minus_sym (IZR m) y) in B.
  assert (L : Rabs (IZR (roundEven y - m)) < 1). { rewrite minus_IZR. revert H B. unfold Rabs. repeat destruct (Rcase_abs _); lra. }
  rewrite <- abs_IZR in L. apply (lt_IZR _ 1) in L. lia.
Qed.
Lemma scientific_value a X m : 0 < a -> powerRZ 10 X <= a < powerRZ 10 (X + 1) -> Rabs (a * powerRZ 10 (5 - X) - IZR m) < 1 / 2 -> (m < 10 ^ 6)%Z ->
  scientific a = (m, X).
Proof. intros H1 H2 H3 H4. unfold scientific. rewrite (expo_unique a X) by auto. rewrite (roundEven_near _ m H3). destruct (Z.eqb_spec m (10 ^ 6)); [lia|reflexivity]. Qed.

(** ... but with seven digits they are written with an exponent, and only the part before it is read. *)
Theorem C95_integer_of_double_refuted :
  printDouble 1000000 = list_ascii_of_string "1e+06" /\
  extractInt (fromText (printDouble 1000000)) = (Some 1%Z, mkIn (list_ascii_of_string "e+06") false false).
Proof.
  assert (E : printDouble 1000000 = list_ascii_of_string "1e+06").
  { unfold printDouble. rewrite (proj2 (Reqb_false 1000000 0)) by lra. rewrite (proj2 (Rltb_false 1000000 0)) by lra. unfold printPositive.
    rewrite (scientific_value 1000000 6 100000); [reflexivity|lra|powers; lra| |lia]. unfold Rabs. destruct (Rcase_abs _) as [Hr|Hr]; revert Hr; powers; lra. }
  split; auto. rewrite E. reflexivity.
Qed.

Print Assumptions C95_written.
Print Assumptions C95_read_numeral.
Print Assumptions C95_read_integer.
Print Assumptions C95_round_trip.
Print Assumptions C95_order.
Print Assumptions C95_integers.
Print Assumptions C95_integer_of_double.
Print Assumptions C95_integer_of_double_refuted.

(** 1 / 3, -1234567, 0.00001, 0.00015, 123.456, 999999.5 (a tie that is rounded up to 10 ^ 6) and 1234565 (a tie that is rounded down
    to the even digit) as text *)
Ltac digits_of X m :=
  unfold printDouble;
  match goal with
  | |- context [Reqb ?x 0] => rewrite (proj2 (Reqb_false x 0)) by lra
  end;
  match goal with
  | |- context [Rltb ?x 0] => first [rewrite (proj2 (Rltb_false x 0)) by lra | rewrite (proj2 (Rltb_true x 0)) by lra]
  end;
  unfold printPositive;
  match goal with |- context [scientific ?a] => rewrite (scientific_value a X m); [reflexivity|lra|powers; lra|unfold Rabs; destruct (Rcase_abs _) as [Hr|Hr]; revert Hr; powers; lra|lia] end.
Example ex_third : printDouble (1 / 3) = list_ascii_of_string "0.333333".
Proof. digits_of (-1)%Z 333333%Z. Qed.
Example ex_large : printDouble (-1234567) = list_ascii_of_string "-1.23457e+06".
Proof. digits_of 6%Z 123457%Z. Qed.
Example ex_small : printDouble (1 / 100000) = list_ascii_of_string "1e-05".
Proof. digits_of (-5)%Z 100000%Z. Qed.
Example ex_zeros : printDouble (15 / 100000) = list_ascii_of_string "0.00015".
Proof. digits_of (-4)%Z 150000%Z. Qed.
Example ex_point : printDouble (123456 / 1000) = list_ascii_of_string "123.456".
Proof. digits_of 2%Z 123456%Z. Qed.
Example ex_tie_up : printDouble (9999995 / 10) = list_ascii_of_string "1e+06".
Proof.
  unfold printDouble. rewrite (proj2 (Reqb_false (9999995 / 10) 0)) by lra. rewrite (proj2 (Rltb_false (9999995 / 10) 0)) by lra. unfold printPositive.
  assert (E : scientific (9999995 / 10) = (100000, 6)%Z); [|rewrite E; reflexivity]. unfold scientific. rewrite (expo_unique _ 5) by (powers; lra). replace (9999995 / 10 * powerRZ 10 (5 - 5)) with (9999995 / 10) by (powers; lra). unfold roundEven.
  assert (F : Zfloor (9999995 / 10) = 999999%Z).
  { symmetry. unfold Zfloor, Int_part. assert (1000000 = up (9999995 / 10))%Z as <-; [apply tech_up; lra|reflexivity]. }
  rewrite F. rewrite (proj2 (Rltb_false (9999995 / 10 - IZR 999999) (1 / 2))) by lra. rewrite (proj2 (Rltb_false (1 / 2) (9999995 / 10 - IZR 999999))) by lra. reflexivity.
Qed.
Example ex_tie_even : printDouble 1234565 = list_ascii_of_string "1.23456e+06".
Proof.
  unfold printDouble. rewrite (proj2 (Reqb_false 1234565 0)) by lra. rewrite (proj2 (Rltb_false 1234565 0)) by lra. unfold printPositive.
  assert (E : scientific 1234565 = (123456, 6)%Z); [|rewrite E; reflexivity]. unfold scientific. rewrite (expo_unique _ 6) by (powers; lra). replace (1234565 * powerRZ 10 (5 - 6)) with (1234565 / 10) by (powers; lra). unfold roundEven.
  assert (F : Zfloor (1234565 / 10) = 123456%Z).
  { symmetry. unfold Zfloor, Int_part. assert (123457 = up (1234565 / 10))%Z as <-; [apply tech_up; lra|reflexivity]. }
  rewrite F. rewrite (proj2 (Rltb_false (1234565 / 10 - IZR 123456) (1 / 2))) by lra. rewrite (proj2 (Rltb_false (1 / 2) (1234565 / 10 - IZR 123456))) by lra. reflexivity.
Qed.
(** a numeral *)
Example ex_numeral : numeral (list_ascii_of_string "-1.25e-03") (- (125 / 100000)).
Proof.
  replace (- (125 / 100000)) with (- ((IZR 1 + IZR 25 / 10 ^ 2) * powerRZ 10 (- 3))) by (powers; lra). apply numeral_negative; [|discriminate].
  apply (numeral_small (list_ascii_of_string "1.25") (IZR 1 + IZR 25 / 10 ^ 2) (list_ascii_of_string "03") 3).
  - apply (numeral_fraction (list_ascii_of_string "1") (list_ascii_of_string "25") 1 25); [constructor; cbn; tauto|]. apply (digits_more ["2"%char] 2 "5"%char 5); [constructor|]; cbn; tauto.
  - apply (digits_more ["0"%char] 0 "3"%char 3); [constructor|]; cbn; tauto.
Qed.
Example ex_separated : separated (list_ascii_of_string " 2") /\ white [" "; "010"]%char.
Proof. split; [right; eexists _, _; split; [reflexivity|repeat constructor]|repeat constructor]; cbn; tauto. Qed.
