(** Proofs about numbers as text. *)
From Coq Require Import Ascii.
From Verif Require Import Base BaseFacts NetIO_Spec NetPrint_Proofs Text_Model Text_Spec.
Local Open Scope R_scope.

(** * Digits *)
Definition digs (ds : list nat) : Prop := Forall (fun d => (d < 10)%nat) ds.
Ltac ten d H := destruct d as [|[|[|[|[|[|[|[|[|[|?]]]]]]]]]]; [..|exfalso; clear -H; lia].
Lemma digitOf_char d : (d < 10)%nat -> digitOf (digitChar d) = Some d.
Proof. intros H. ten d H; reflexivity. Qed.
Lemma digitChar_table d : (d < 10)%nat -> In (digitChar d, Z.of_nat d) digitTable.
Proof. intros H. ten d H; cbn; tauto. Qed.
Lemma table_digitChar c z : In (c, z) digitTable -> exists d, (d < 10)%nat /\ c = digitChar d /\ z = Z.of_nat d.
Proof.
  cbn. intros H. repeat (destruct H as [H|H]; [injection H as <- <-|]); [exists 0%nat|exists 1%nat|exists 2%nat|exists 3%nat|exists 4%nat|exists 5%nat|exists 6%nat
   |exists 7%nat|exists 8%nat|exists 9%nat|destruct H]; (split; [lia|split; reflexivity]).
Qed.
Lemma digitChar_other d : (d < 10)%nat -> isspace (digitChar d) = false /\ Ascii.eqb (digitChar d) "-" = false /\ Ascii.eqb (digitChar d) "+" = false /\
  Ascii.eqb (digitChar d) "." = false /\ isE (digitChar d) = false /\ Ascii.eqb (digitChar d) ":" = false /\ Ascii.eqb (digitChar d) "010" = false.
Proof. intros H. ten d H; repeat split. Qed.

Lemma valueOf_snoc ds d : valueOf (ds ++ [d]) = (10 * valueOf ds + Z.of_nat d)%Z.
Proof. unfold valueOf. now rewrite fold_left_app. Qed.
Lemma valueOf_app a b : valueOf (a ++ b) = (valueOf a * 10 ^ Z.of_nat (length b) + valueOf b)%Z.
Proof.
  induction b as [|d b IH] using rev_ind.
  - rewrite app_nil_r. cbn [length]. change (valueOf []) with 0%Z. cbn. lia.
  - rewrite app_assoc, !valueOf_snoc, IH, app_length. cbn [length]. rewrite Nat2Z.inj_add, Z.pow_add_r by lia. change (10 ^ Z.of_nat 1)%Z with 10%Z. lia.
Qed.
Lemma valueOf_nonneg ds : (0 <= valueOf ds)%Z.
Proof. induction ds using rev_ind; [reflexivity|]. rewrite valueOf_snoc. lia. Qed.

Lemma chars_app a b : chars (a ++ b) = chars a ++ chars b.
Proof. apply map_app. Qed.
Lemma chars_length ds : length (chars ds) = length ds.
Proof. apply map_length. Qed.

Lemma digits_chars ds : ds <> [] -> digs ds -> digits (chars ds) (valueOf ds).
Proof.
  induction ds as [|d ds IH] using rev_ind; [congruence|]. intros _ H. apply Forall_app in H as (H1 & H2). inversion H2; subst.
  rewrite chars_app, valueOf_snoc. destruct ds as [|d' ds].
  - change (valueOf []) with 0%Z. cbn. apply digits_one. now apply digitChar_table.
  - apply digits_more; [apply IH; auto; discriminate|]. now apply digitChar_table.
Qed.
Lemma digits_form t z : digits t z -> exists ds, ds <> [] /\ digs ds /\ t = chars ds /\ z = valueOf ds.
Proof.
  intros H. induction H as [c d H|t z c d H IH HD].
  - apply table_digitChar in H as (n & Hn & -> & ->). exists [n]. repeat split; [discriminate|constructor; [auto|constructor]].
  - destruct IH as (ds & H1 & H2 & -> & ->). apply table_digitChar in HD as (n & Hn & -> & ->). exists (ds ++ [n]). rewrite chars_app, valueOf_snoc.
    repeat split; [now destruct ds|]. apply Forall_app. split; auto.
Qed.

Definition stopsDigits (t : text) : Prop := match t with [] => True | c :: _ => digitOf c = None end.
Lemma takeDigits_chars ds t : digs ds -> stopsDigits t -> takeDigits (chars ds ++ t) = (ds, t).
Proof.
  intros H Ht. induction H as [|d ds Hd H IH].
  - cbn. destruct t as [|c t]; [reflexivity|]. cbn in *. now rewrite Ht.
  - cbn [chars map app takeDigits]. rewrite digitOf_char by auto. unfold chars in IH. now rewrite IH.
Qed.

(** * Unsigned numerals *)
Definition mantissa (A B : list nat) : R := IZR (valueOf (A ++ B)) * powerRZ 10 (- Z.of_nat (length B)).
Lemma unsigned_form t v : unsignedNumeral t v -> exists A B, A <> [] /\ digs A /\ digs B /\ t = chars A ++ point B /\ v = mantissa A B.
Proof.
  intros H. destruct H as [t z H|t1 t2 z f H1 H2].
  - apply digits_form in H as (ds & H1 & H2 & -> & ->). exists ds, []. repeat split; auto; [constructor|now rewrite app_nil_r|]. unfold mantissa. rewrite app_nil_r. cbn. ring.
  - apply digits_form in H1 as (A & A1 & A2 & -> & ->). apply digits_form in H2 as (B & B1 & B2 & -> & ->). exists A, B. repeat split; auto.
    + now destruct B.
    + unfold mantissa. rewrite chars_length, valueOf_app, plus_IZR, mult_IZR, <- p10_Z by lia. rewrite Rmult_plus_distr_r, Rmult_assoc, p10_inv.
      rewrite powerRZ_neg'. rewrite <- pow_powerRZ. unfold Rdiv. ring.
Qed.
Lemma unsigned_chars A B : A <> [] -> digs A -> digs B -> unsignedNumeral (chars A ++ point B) (mantissa A B).
Proof.
  intros HA HA' HB. destruct B as [|b B].
  - cbn [point]. rewrite app_nil_r. replace (mantissa A []) with (IZR (valueOf A)); [apply numeral_integer; now apply digits_chars|].
    unfold mantissa. rewrite app_nil_r. cbn. ring.
  - replace (mantissa A (b :: B)) with (IZR (valueOf A) + IZR (valueOf (b :: B)) / 10 ^ length (chars (b :: B))).
    + apply numeral_fraction; [now apply digits_chars|]. apply digits_chars; [discriminate|auto].
    + unfold mantissa. rewrite chars_length, valueOf_app, plus_IZR, mult_IZR, <- p10_Z by lia. rewrite Rmult_plus_distr_r, Rmult_assoc, p10_inv.
      rewrite powerRZ_neg'. rewrite <- pow_powerRZ. unfold Rdiv. ring.
Qed.

(** * Reading *)
Definition stops (t : text) : Prop := match t with [] => True | c :: _ => digitOf c = None /\ Ascii.eqb c "." = false /\ isE c = false end.
Lemma stops_digits t : stops t -> stopsDigits t.
Proof. destruct t; cbn; tauto. Qed.
Lemma takeSign_chars A t : A <> [] -> digs A -> takeSign (chars A ++ t) = (false, chars A ++ t).
Proof. destruct A as [|a A]; [congruence|]. intros _ H. inversion H; subst. destruct (digitChar_other a) as (_ & E1 & E2 & _); auto. cbn [chars map app takeSign]. now rewrite E1, E2. Qed.
Definition stopsFraction (t : text) : Prop := match t with [] => True | c :: _ => digitOf c = None /\ Ascii.eqb c "." = false end.
Lemma takeMantissa A B t : digs A -> digs B -> stopsFraction t ->
  (let '(ds, t) := takeDigits (chars A ++ point B ++ t) in let '(fs, t) := takeFraction t in (ds, fs, t)) = (A, B, t).
Proof.
  intros HA HB Ht. rewrite takeDigits_chars; auto.
  - destruct B as [|b B].
    + cbn [point app]. unfold takeFraction. destruct t as [|c t]; [reflexivity|]. destruct Ht as (_ & ->). reflexivity.
    + change (takeFraction (point (b :: B) ++ t)) with (takeDigits (chars (b :: B) ++ t)). rewrite takeDigits_chars; [reflexivity|auto|]. destruct t; [exact Logic.I|apply Ht].
  - destruct B; [cbn [point app]; destruct t; [exact Logic.I|apply Ht]|]. reflexivity.
Qed.
Lemma decimal_mantissa neg A B e : decimal neg A B e = (if neg then -1 else 1) * (mantissa A B * powerRZ 10 e).
Proof.
  unfold decimal, mantissa, signed. replace (e - Z.of_nat (length B))%Z with (- Z.of_nat (length B) + e)%Z by lia. rewrite p10_add.
  destruct neg; [rewrite opp_IZR|]; ring.
Qed.
(** the unsigned part of both scanners *)
Definition scanUnsigned (neg : bool) (t : text) : option R * text :=
  let '(ds, t) := takeDigits t in
  let '(fs, t) := takeFraction t in
  match ds ++ fs with
  | [] => (None, t)
  | _ =>
      match t with
      | c :: t' =>
          if isE c then
            let '(eneg, t') := takeSign t' in
            let '(es, t') := takeDigits t' in
            match es with [] => (None, t') | _ => (Some (decimal neg ds fs (signed eneg (valueOf es))), t') end
          else (Some (decimal neg ds fs 0), t)
      | [] => (Some (decimal neg ds fs 0), t)
      end
  end.
Lemma scanUnsigned_plain neg A B t : A <> [] -> digs A -> digs B -> stops t ->
  scanUnsigned neg (chars A ++ point B ++ t) = (Some ((if neg then -1 else 1) * mantissa A B), t).
Proof.
  intros HA HA' HB Ht. unfold scanUnsigned. assert (HF : stopsFraction t) by (destruct t; cbn in *; tauto).
  pose proof (takeMantissa A B t HA' HB HF) as E. destruct (takeDigits _) as (ds, t1). destruct (takeFraction t1) as (fs, t2). injection E as -> -> ->.
  destruct (A ++ B) as [|x l] eqn:EAB; [now destruct A|]. assert (ED : decimal neg A B 0 = (if neg then -1 else 1) * mantissa A B) by (rewrite decimal_mantissa; cbn; ring).
  destruct t as [|c t]; [now rewrite ED|]. destruct Ht as (_ & _ & ->). now rewrite ED.
Qed.
Lemma scanUnsigned_exp neg (eneg : bool) A B e t : A <> [] -> digs A -> digs B -> e <> [] -> digs e -> stopsDigits t ->
  scanUnsigned neg (chars A ++ point B ++ "e"%char :: (if eneg then "-"%char else "+"%char) :: chars e ++ t) =
  (Some ((if neg then -1 else 1) * (mantissa A B * powerRZ 10 (signed eneg (valueOf e)))), t).
Proof.
  intros HA HA' HB He He' Ht. unfold scanUnsigned. match goal with |- context [chars A ++ point B ++ ?u] => set (t' := u) end.
  assert (HF : stopsFraction t') by (split; reflexivity).
  pose proof (takeMantissa A B t' HA' HB HF) as E. destruct (takeDigits (chars A ++ _)) as (ds, t1). destruct (takeFraction t1) as (fs, t2). injection E as -> -> ->.
  destruct (A ++ B) as [|x l] eqn:EAB; [now destruct A|]. unfold t'. cbn [isE Ascii.eqb]. change (isE "e") with true. cbn match.
  assert (ES : takeSign ((if eneg then "-"%char else "+"%char) :: chars e ++ t) = (eneg, chars e ++ t)) by now destruct eneg.
  rewrite ES, takeDigits_chars by auto. destruct e as [|x' e']; [congruence|]. now rewrite decimal_mantissa.
Qed.
Lemma scan_sign t : scanDouble t = let '(neg, t) := takeSign t in scanUnsigned neg t.
Proof. reflexivity. Qed.

(** every numeral is a sign and an unsigned one *)
Inductive plain : text -> R -> Prop :=
| plain_plain A B : A <> [] -> digs A -> digs B -> plain (chars A ++ point B) (mantissa A B)
| plain_exp (eneg : bool) A B e : A <> [] -> digs A -> digs B -> e <> [] -> digs e ->
    plain (chars A ++ point B ++ "e"%char :: (if eneg then "-"%char else "+"%char) :: chars e) (mantissa A B * powerRZ 10 (signed eneg (valueOf e))).
Lemma numeral_form t v : numeral t v -> plain t v \/ exists t' v', t = "-"%char :: t' /\ v = - v' /\ plain t' v'.
Proof.
  intros H. induction H as [t v H|t v e z H HE|t v e z H HE|t v H IH HN].
  - apply unsigned_form in H as (A & B & H1 & H2 & H3 & -> & ->). left. now constructor.
  - apply unsigned_form in H as (A & B & H1 & H2 & H3 & -> & ->). apply digits_form in HE as (es & H4 & H5 & -> & ->). left.
    rewrite <- app_assoc. now apply (plain_exp false).
  - apply unsigned_form in H as (A & B & H1 & H2 & H3 & -> & ->). apply digits_form in HE as (es & H4 & H5 & -> & ->). left.
    rewrite <- app_assoc. now apply (plain_exp true).
  - right. exists t, v. split; auto. split; auto. destruct IH as [IH|(t' & v' & -> & _)]; auto. now contradiction (HN t').
Qed.
Lemma plain_head t v : plain t v -> exists d t', t = digitChar d :: t' /\ (d < 10)%nat.
Proof. intros [A B HA HA' HB|eneg A B e HA HA' HB He He']; (destruct A as [|a A]; [congruence|]; inversion HA'; subst; exists a; eexists; split; [reflexivity|auto]). Qed.
Lemma plain_numeral t v : plain t v -> numeral t v.
Proof.
  intros [A B HA HA' HB|eneg A B e HA HA' HB He He'].
  - apply numeral_plain. now apply unsigned_chars.
  - rewrite app_assoc. destruct eneg; cbn [signed].
    + apply numeral_small; [now apply unsigned_chars|now apply digits_chars].
    + apply numeral_large; [now apply unsigned_chars|now apply digits_chars].
Qed.
Lemma plain_scan neg t v r : plain t v -> stops r -> scanUnsigned neg (t ++ r) = (Some ((if neg then -1 else 1) * v), r).
Proof.
  intros [A B HA HA' HB|eneg A B e HA HA' HB He He'] Hr.
  - rewrite <- app_assoc. now apply scanUnsigned_plain.
  - rewrite <- app_assoc. cbn [app]. rewrite <- app_assoc. cbn [app]. apply scanUnsigned_exp; auto. now apply stops_digits.
Qed.
Lemma plain_sign t v r : plain t v -> takeSign (t ++ r) = (false, t ++ r).
Proof. intros H. apply plain_head in H as (d & t' & -> & Hd). destruct (digitChar_other d) as (_ & E1 & E2 & _); auto. cbn [app takeSign]. now rewrite E1, E2. Qed.
Lemma scan_numeral t v r : numeral t v -> stops r -> scanDouble (t ++ r) = (Some v, r).
Proof.
  intros H Hr. rewrite scan_sign. apply numeral_form in H as [H|(t' & v' & -> & -> & H)].
  - rewrite (plain_sign _ _ _ H). cbv iota beta. rewrite (plain_scan false _ _ _ H Hr). do 2 f_equal. ring.
  - change (takeSign (("-"%char :: t') ++ r)) with (true, t' ++ r). cbv iota beta. rewrite (plain_scan true _ _ _ H Hr). do 2 f_equal. ring.
Qed.
Lemma numeral_head t v : numeral t v -> exists c t', t = c :: t' /\ isspace c = false.
Proof.
  intros H. apply numeral_form in H as [H|(t' & v' & -> & _)]; [|exists "-"%char, t'; auto].
  apply plain_head in H as (d & t' & -> & Hd). exists (digitChar d), t'. split; auto. now apply digitChar_other.
Qed.

Lemma white_space w : white w <-> Forall (fun c => isspace c = true) w.
Proof.
  unfold white. rewrite !Forall_forall. split; intros H c Hc; specialize (H c Hc).
  - cbn in H. repeat (destruct H as [<-|H]; [reflexivity|]). destruct H.
  - destruct c as [[] [] [] [] [] [] [] []]; try discriminate H; cbn; tauto.
Qed.
Lemma skip_white w t : white w -> skipSpaces (w ++ t) = skipSpaces t.
Proof. rewrite white_space. intros H. induction H as [|c w Hc H IH]; [reflexivity|]. cbn [app skipSpaces]. now rewrite Hc. Qed.
Lemma skip_none c t : isspace c = false -> skipSpaces (c :: t) = c :: t.
Proof. intros H. cbn. now rewrite H. Qed.
Lemma separated_stops t : separated t -> stops t.
Proof.
  intros [->|(c & t' & -> & H)]; [exact Logic.I|]. inversion H; subst. cbn in H2. cbn.
  repeat (destruct H2 as [<-|H2]; [repeat split|]). destruct H2.
Qed.
Lemma extract_numeral w t v r : white w -> numeral t v -> separated r ->
  extractDouble (fromText (w ++ t ++ r)) = (Some v, mkIn r (match r with [] => true | _ => false end) false).
Proof.
  intros Hw H Hr. destruct (numeral_head t v H) as (c & t' & Et & Hc). unfold extractDouble, extract, fromText. cbn [rest eofbit failbit orb].
  rewrite skip_white by auto. rewrite Et. cbn [app]. rewrite (skip_none c) by auto. change (c :: t' ++ r) with ((c :: t') ++ r). rewrite <- Et.
  rewrite (scan_numeral t v r H) by now apply separated_stops. reflexivity.
Qed.

(** * Integers *)
Lemma natDigits_ok fuel : forall n, (n < 10 ^ S fuel)%nat -> digs (natDigits fuel n) /\ natDigits fuel n <> [] /\ valueOf (natDigits fuel n) = Z.of_nat n.
Proof.
  induction fuel as [|fuel IH]; intros n H.
  - cbn in *. repeat split; [constructor; [lia|constructor]|discriminate].
  - cbn [natDigits]. destruct (Nat.ltb_spec n 10).
    + repeat split; [constructor; [lia|constructor]|discriminate].
    + destruct (IH (n / 10)%nat) as (H1 & H2 & H3). { apply Nat.div_lt_upper_bound; [lia|]. cbn [Nat.pow] in *. lia. }
      repeat split.
      * apply Forall_app. split; auto. constructor; [|constructor]. apply Nat.mod_upper_bound. lia.
      * now destruct (natDigits fuel (n / 10)).
      * rewrite valueOf_snoc, H3. pose proof (Nat.div_mod n 10). lia.
Qed.
Lemma nat_pow n : (n < 10 ^ S n)%nat.
Proof. apply Nat.lt_le_trans with (10 ^ n)%nat; [apply Nat.pow_gt_lin_r; lia|]. apply Nat.pow_le_mono_r; lia. Qed.
Lemma printNat_digits n : digits (printNat n) (Z.of_nat n).
Proof. destruct (natDigits_ok n n (nat_pow n)) as (H1 & H2 & H3). unfold printNat. rewrite <- H3. now apply digits_chars. Qed.
Lemma scanInt_digits t z r : digits t z -> stopsDigits r -> scanInt (t ++ r) = (Some z, r).
Proof.
  intros H Hr. apply digits_form in H as (ds & H1 & H2 & -> & ->). unfold scanInt. rewrite takeSign_chars, takeDigits_chars by auto.
  destruct ds; [congruence|reflexivity].
Qed.
Lemma digits_head t z : digits t z -> exists c t', t = c :: t' /\ isspace c = false.
Proof. intros H. apply (numeral_head t (IZR z)). apply numeral_plain. now constructor. Qed.
Lemma extract_digits w t z r : white w -> digits t z -> separated r ->
  extractInt (fromText (w ++ t ++ r)) = (Some z, mkIn r (match r with [] => true | _ => false end) false).
Proof.
  intros Hw H Hr. destruct (digits_head t z H) as (c & t' & Et & Hc). unfold extractInt, extract, fromText. cbn [rest eofbit failbit orb].
  rewrite skip_white by auto. rewrite Et. cbn [app]. rewrite (skip_none c) by auto. change (c :: t' ++ r) with ((c :: t') ++ r). rewrite <- Et.
  rewrite (scanInt_digits t z r H) by now apply stops_digits, separated_stops. reflexivity.
Qed.
