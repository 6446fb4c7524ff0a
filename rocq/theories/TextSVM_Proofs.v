(** Proofs about LibSVM files as text. *)
From Coq Require Import Ascii.
From Verif Require Import Base BaseFacts Matrix IO_Model IO_Spec IO_Proofs SVM_Proofs NetIO_Spec NetPrint_Proofs Text_Model Text_Spec Text_Proofs TextPrint_Proofs TextIO_Model TextIO_Spec TextIO_Proofs.
Local Open Scope R_scope.

(** * Words *)
Definition word_chars (w : text) : Prop := Forall (fun c => isspace c = false) w.
Definition words (t : text) : list text := wordsOf (length t) t.
Lemma skip_length t : (length (skipSpaces t) <= length t)%nat.
Proof. induction t as [|c t IH]; [auto|]. cbn. destruct (isspace c); cbn; lia. Qed.
Lemma scanWord_length t : (length (fst (scanWord t)) + length (snd (scanWord t)) = length t)%nat.
Proof. induction t as [|c t IH]; [auto|]. cbn. destruct (isspace c); [reflexivity|]. destruct (scanWord t). cbn in *. lia. Qed.
Lemma skip_head t c t' : skipSpaces t = c :: t' -> isspace c = false.
Proof. induction t as [|d t IH]; [discriminate|]. cbn. destruct (isspace d) eqn:E; auto. intros H. injection H as <- <-. exact E. Qed.
Lemma scanWord_shorter c t : isspace c = false -> (length (snd (scanWord (c :: t))) <= length t)%nat.
Proof. intros H. cbn. rewrite H. pose proof (scanWord_length t). destruct (scanWord t). cbn in *. lia. Qed.
Lemma wordsOf_fuel n : forall t, (length t <= n)%nat -> wordsOf n t = words t.
Proof.
  induction n as [n IH] using lt_wf_ind. intros t H. unfold words. destruct t as [|c t]. { destruct n; reflexivity. }
  destruct n as [|n]; [cbn in H; lia|]. cbn [length wordsOf]. destruct (skipSpaces (c :: t)) as [|d t'] eqn:E; [reflexivity|].
  pose proof (skip_head _ _ _ E) as Hd. pose proof (scanWord_shorter d t' Hd) as HL. pose proof (skip_length (c :: t)) as HK. rewrite E in HK. cbn [length] in *.
  destruct (scanWord (d :: t')) as (w, u). cbn [snd] in HL. f_equal.
  rewrite (IH n) by lia. destruct (le_lt_dec n (length t)) as [|L]; [|rewrite <- (IH (length t)) by lia; reflexivity].
  assert (n = length t) as <- by lia. rewrite <- (IH n) by lia. reflexivity.
Qed.
Lemma words_cons c t : isspace c = true -> words (c :: t) = words t.
Proof.
  intros H. unfold words at 1. cbn [length wordsOf skipSpaces]. rewrite H. rewrite <- (wordsOf_fuel (S (length t)) t) by lia. reflexivity.
Qed.
Lemma words_white w t : white w -> words (w ++ t) = words t.
Proof. rewrite white_space. intros H. induction H as [|c w Hc H IH]; [reflexivity|]. cbn [app]. now rewrite words_cons. Qed.
Lemma scanWord_word w t : word_chars w -> separated t -> scanWord (w ++ t) = (w, t).
Proof.
  intros H Ht. induction H as [|c w Hc H IH].
  - destruct Ht as [->|(c & t' & -> & Hc)]; [reflexivity|]. apply white_space in Hc. inversion Hc; subst. cbn. now rewrite H1.
  - cbn. rewrite Hc. now rewrite IH.
Qed.
Lemma words_word w t : w <> [] -> word_chars w -> separated t -> words (w ++ t) = w :: words t.
Proof.
  intros Hn H Ht. destruct w as [|c w]; [congruence|]. inversion H; subst. unfold words at 1. cbn [app length wordsOf]. rewrite skip_none by auto.
  change (c :: w ++ t) with ((c :: w) ++ t). rewrite scanWord_word by auto. f_equal. apply wordsOf_fuel. rewrite app_length. lia.
Qed.
Lemma words_nil w : white w -> words w = [].
Proof. intros H. rewrite <- (app_nil_r w), words_white; auto. Qed.
Lemma words_app a : forall b, separated b -> words (a ++ b) = words a ++ words b.
Proof.
  remember (length a) as n eqn:En. revert a En. induction n as [n IH] using lt_wf_ind. intros a En b Hb.
  destruct a as [|c a]; [reflexivity|]. destruct (isspace c) eqn:Ec.
  - cbn [app]. rewrite !words_cons by auto. apply (IH (length a)); auto. subst. cbn. lia.
  - assert (S : exists w r, c :: a = w ++ r /\ w <> [] /\ word_chars w /\ separated r).
    { clear -Ec. revert c Ec. induction a as [|d a IHa]; intros c Ec.
      - exists [c], []. repeat split; auto; [discriminate|constructor; auto|now left].
      - destruct (isspace d) eqn:Ed.
        + exists [c], (d :: a). repeat split; auto; [discriminate|constructor; auto|]. right. exists d, a. split; auto. apply white_space. constructor; auto.
        + destruct (IHa d Ed) as (w & r & E & H1 & H2 & H3). exists (c :: w), r. rewrite E. repeat split; auto; [discriminate|constructor; auto]. }
    destruct S as (w & r & E & H1 & H2 & H3). rewrite E, <- app_assoc. rewrite (words_word w (r ++ b)) by auto using separated_app. rewrite (words_word w r) by auto. cbn [app]. f_equal.
    apply (IH (length r)); auto. subst n. rewrite E, app_length. destruct w; [congruence|cbn; lia].
Qed.

(** * Characters of numerals *)
Definition plain_char (c : ascii) : Prop := isspace c = false /\ Ascii.eqb c ":" = false.
Lemma chars_plain ds : digs ds -> Forall plain_char (chars ds).
Proof. intros H. apply Forall_map. eapply Forall_impl; [|exact H]. intros d Hd. destruct (digitChar_other d Hd) as (A & _ & _ & _ & _ & B & _). now split. Qed.
Lemma point_plain ds : digs ds -> Forall plain_char (point ds).
Proof. intros H. destruct ds; [constructor|]. constructor; [split; reflexivity|now apply chars_plain]. Qed.
Lemma plain_text t v : plain t v -> Forall plain_char t.
Proof.
  intros [A B HA HA' HB|eneg A B e HA HA' HB He He'].
  - apply Forall_app. auto using chars_plain, point_plain.
  - apply Forall_app. split; [now apply chars_plain|]. apply Forall_app. split; [now apply point_plain|]. constructor; [split; reflexivity|]. constructor; [destruct eneg; split; reflexivity|now apply chars_plain].
Qed.
Lemma numeral_plain_chars t v : numeral t v -> Forall plain_char t.
Proof. intros H. apply numeral_form in H as [H|(t' & v' & -> & _ & H)]; [now apply plain_text in H|]. constructor; [split; reflexivity|now apply plain_text in H]. Qed.
Lemma plain_word t : Forall plain_char t -> word_chars t.
Proof. apply Forall_impl. intros c (H & _). exact H. Qed.

(** * Numbers in words *)
Lemma splitColon_none w : Forall plain_char w -> splitColon w = (w, None).
Proof. intros H. induction H as [|c w (_ & Hc) H IH]; [reflexivity|]. cbn. now rewrite Hc, IH. Qed.
Lemma splitColon_some a b : Forall plain_char a -> splitColon (a ++ ":"%char :: b) = (a, Some b).
Proof. intros H. induction H as [|c w (_ & Hc) H IH]; [reflexivity|]. cbn. now rewrite Hc, IH. Qed.
Lemma skip_word t : word_chars t -> skipSpaces t = t.
Proof. intros H. destruct H as [|c t H _]; [reflexivity|]. now apply skip_none. Qed.

Definition atofUnsigned (neg : bool) (t : text) : R :=
  let '(ds, t) := takeDigits t in
  let '(fs, t) := takeFraction t in
  match ds ++ fs with
  | [] => 0
  | _ =>
      match t with
      | c :: t' =>
          let '(eneg, t') := takeSign t' in
          let '(es, _) := takeDigits t' in
          if (isE c && negb (match es with [] => true | _ => false end))%bool then decimal neg ds fs (signed eneg (valueOf es))
          else decimal neg ds fs 0
      | [] => decimal neg ds fs 0
      end
  end.
Lemma atof_sign t : atof t = let '(neg, t) := takeSign (skipSpaces t) in atofUnsigned neg t.
Proof. reflexivity. Qed.
Lemma atof_plain neg t v : plain t v -> atofUnsigned neg t = (if neg then -1 else 1) * v.
Proof.
  intros [A B HA HA' HB|eneg A B e HA HA' HB He He']; unfold atofUnsigned.
  - pose proof (takeMantissa A B [] HA' HB Logic.I) as E. rewrite app_nil_r in E. destruct (takeDigits _) as (ds, t1). destruct (takeFraction t1) as (fs, t2). injection E as -> -> ->.
    destruct (A ++ B) as [|x l] eqn:EAB; [now destruct A|]. rewrite decimal_mantissa. cbn. ring.
  - match goal with |- context [chars A ++ point B ++ ?u] => set (t' := u) end. assert (HF : stopsFraction t') by (split; reflexivity).
    pose proof (takeMantissa A B t' HA' HB HF) as E. destruct (takeDigits (chars A ++ _)) as (ds, t1). destruct (takeFraction t1) as (fs, t2). injection E as -> -> ->.
    destruct (A ++ B) as [|x l] eqn:EAB; [now destruct A|]. unfold t'.
    assert (ES : takeSign ((if eneg then "-"%char else "+"%char) :: chars e) = (eneg, chars e)) by now destruct eneg.
    rewrite ES. rewrite <- (app_nil_r (chars e)), takeDigits_chars by (auto; exact Logic.I). destruct e as [|x' e']; [congruence|]. change (isE "e") with true. cbn [andb negb]. now rewrite decimal_mantissa.
Qed.
Lemma atof_numeral t v : numeral t v -> atof t = v.
Proof.
  intros H. rewrite atof_sign, skip_word by now apply plain_word, (numeral_plain_chars t v). apply numeral_form in H as [H|(t' & v' & -> & -> & H)].
  - rewrite <- (app_nil_r t) at 1. rewrite (plain_sign _ _ _ H), app_nil_r. cbv iota beta. rewrite (atof_plain _ _ _ H). ring.
  - change (takeSign ("-"%char :: t')) with (true, t'). cbv iota beta. rewrite (atof_plain _ _ _ H). ring.
Qed.
Lemma atoi_integer t z : integerNumeral t z -> atoi t = z.
Proof.
  intros [H|(t' & z' & -> & H & ->)]; unfold atoi.
  - rewrite skip_word by now apply plain_word, (numeral_plain_chars t (IZR z)), digits_numeral. rewrite <- (app_nil_r t), (scanInt_digits t z []); auto. exact Logic.I.
  - rewrite skip_none by reflexivity. apply digits_form in H as (ds & H1 & H2 & -> & ->). unfold scanInt. change (takeSign ("-"%char :: chars ds)) with (true, chars ds). cbv iota beta.
    rewrite <- (app_nil_r (chars ds)), takeDigits_chars by (auto; exact Logic.I). now destruct ds.
Qed.
Lemma integer_numeral t z : integerNumeral t z -> numeral t (IZR z).
Proof.
  intros [H|(t' & z' & -> & H & ->)]; [now apply digits_numeral|]. rewrite opp_IZR. apply numeral_negative; [now apply digits_numeral|].
  intros t Ht. apply digits_form in H as (ds & H1 & H2 & -> & _). destruct ds as [|d ds]; [congruence|]. inversion H2; subst. injection Ht as Hc _.
  destruct (digitChar_other d) as (_ & N & _); auto. rewrite Hc in N. discriminate N.
Qed.

(** * Simulation of the loader *)
Definition denotes (w : text) (tw : word) : Prop := w <> [] /\ textInt w = wordInt tw /\ textReal w = wordReal tw.
Definition labels_ (w : text) (tw : word) : Prop := atoi w = wordInt tw /\ textInt w = wordInt tw.
Definition lineDenotes (ws : list text) (tws : list word) : Prop :=
  match ws, tws with
  | [], [] => True
  | w :: ws, tw :: tws => labels_ w tw /\ Forall2 denotes ws tws
  | _, _ => False
  end.
Definition tokDenotes (w : text) (o : option word) : Prop := match o with Some tw => denotes w tw | None => w = [] end.
Definition related (ct : textCollected) (c : collected) : Prop :=
  tTargets ct = cTargets c /\ tMinimal ct = cMinimal c /\ tInstances ct = cInstances c /\ Forall2 tokDenotes (tFeatures ct) (cFeatures c).
Lemma last_denotes ws tws : Forall2 denotes ws tws -> forall w tw, textInt w = wordInt tw -> textInt (last ws w) = wordInt (last tws tw).
Proof.
  intros H. induction H as [|a b ws tws (_ & Hab & _) H IH]; intros w tw Hw; [exact Hw|].
  destruct H as [|a' b' ws tws Hab' H]; [exact Hab|]. change (textInt (last (a' :: ws) w) = wordInt (last (b' :: tws) tw)). now apply IH.
Qed.
Lemma firstPass_sim lines tlines : Forall2 lineDenotes lines tlines ->
  forall ct c, related ct c -> exists ct' c',
    for_each lines (fun ws c => match ws with [] => Ok c | classStr :: rest =>
        Ok (mkTColl (tFeatures c ++ rest ++ [[]]) (tTargets c ++ [atoi classStr]) (Z.max (tMinimal c) (textInt (last rest classStr))) (S (tInstances c))) end) ct = Ok ct' /\
    for_each tlines (fun line c => match line with [] => Ok c | classStr :: rest =>
        let lastw := last rest classStr in
        Ok (mkColl (cFeatures c ++ map Some rest ++ [None]) (cTargets c ++ [wordInt classStr]) (Z.max (cMinimal c) (wordInt lastw)) (S (cInstances c))) end) c = Ok c' /\
    related ct' c'.
Proof.
  intros H. induction H as [|ws tws lines tlines HL H IH]; intros ct c HR; [exists ct, c; auto|]. cbn [for_each].
  destruct ws as [|w ws], tws as [|tw tws]; try contradiction HL.
  - cbn [bind]. now apply IH.
  - destruct HL as ((L1 & L2) & L3). cbn [bind]. apply IH. destruct HR as (R1 & R2 & R3 & R4). split; [|split; [|split]]; cbn [tTargets tMinimal tInstances tFeatures cTargets cMinimal cInstances cFeatures].
    + now rewrite R1, L1.
    + rewrite R2. f_equal. now apply last_denotes.
    + now rewrite R3.
    + apply Forall2_app; auto. apply Forall2_app; [|constructor; [reflexivity|constructor]]. clear -L3. induction L3; constructor; auto.
Qed.
Lemma for_each_map {A B S} (g : A -> B) (f : B -> S -> res S) l : forall s, for_each (map g l) f s = for_each l (fun a => f (g a)) s.
Proof. induction l as [|a l IH]; intros s; [reflexivity|]. cbn. destruct (f (g a) s); auto. cbn. apply IH. Qed.
Lemma svmLoad_sim t c tlines : Forall2 lineDenotes (map words (linesOf t)) tlines -> svmLoadText t c = svmLoad tlines c.
Proof.
  intros H. destruct (firstPass_sim _ _ H (mkTColl [] [] (Z.of_nat c) 0) (mkColl [] [] (Z.of_nat c) 0)) as (ct & c' & E1 & E2 & R1 & R2 & R3 & R4); [repeat split; constructor|].
  rewrite for_each_map in E1. unfold svmLoadText, svmLoad. change (firstPass tlines c) with (for_each tlines (fun line c => match line with [] => Ok c | classStr :: rest =>
        let lastw := last rest classStr in
        Ok (mkColl (cFeatures c ++ map Some rest ++ [None]) (cTargets c ++ [wordInt classStr]) (Z.max (cMinimal c) (wordInt lastw)) (S (cInstances c))) end) (mkColl [] [] (Z.of_nat c) 0)). rewrite E2.
  change (firstPassText t c) with (for_each (linesOf t) (fun a c => match words a with [] => Ok c | classStr :: rest =>
        Ok (mkTColl (tFeatures c ++ rest ++ [[]]) (tTargets c ++ [atoi classStr]) (Z.max (tMinimal c) (textInt (last rest classStr))) (S (tInstances c))) end) (mkTColl [] [] (Z.of_nat c) 0)). rewrite E1.
  cbn [bind]. rewrite R1, R2, R3. match goal with |- (bind ?m _) = _ => destruct m as [out| | | |]; try reflexivity end. cbn [bind].
  assert (G : forall fs tfs s, Forall2 tokDenotes fs tfs ->
    for_each fs (fun tok s => let '(inp, row) := s in match tok with _ :: _ => 
        let index := textInt tok in let index := if Nat.ltb 1 (classCount (cTargets c')) then (index - 1)%Z else index in
        k <- zidx index ;; inp <- mset inp row k (textReal tok) ;; Ok (inp, row) | [] => Ok (inp, S row) end) s =
    for_each tfs (fun tok s => let '(inp, row) := s in match tok with Some w =>
        let index := wordInt w in let index := if Nat.ltb 1 (classCount (cTargets c')) then (index - 1)%Z else index in
        k <- zidx index ;; inp <- mset inp row k (wordReal w) ;; Ok (inp, row) | None => Ok (inp, S row) end) s).
  { clear. intros fs tfs s H. revert s. induction H as [|w o fs tfs Hw H IH]; intros s; [reflexivity|]. cbn [for_each]. destruct s as (inp, row).
    destruct o as [tw|]; cbn in Hw.
    - destruct Hw as (W1 & W2 & W3). destruct w as [|ch w]; [congruence|]. cbn zeta. rewrite W2, W3. destruct (zidx _) as [k| | | |]; try reflexivity. cbn [bind].
      destruct (mset inp row k (wordReal tw)) as [m| | | |]; try reflexivity. cbn [bind]. apply IH.
    - subst w. cbn [bind]. apply IH. }
  rewrite (G _ _ _ R4). reflexivity.
Qed.

(** empty lines do not count *)
Definition nonempty {A} (l : list A) : bool := match l with [] => false | _ => true end.
Lemma svmLoad_nonempty lines c : svmLoad lines c = svmLoad (filter nonempty lines) c.
Proof.
  unfold svmLoad. replace (firstPass lines c) with (firstPass (filter nonempty lines) c); [reflexivity|]. unfold firstPass. generalize (mkColl [] [] (Z.of_nat c) 0) as s.
  induction lines as [|l lines IH]; intros s; [reflexivity|]. cbn [filter]. destruct l as [|w l]; cbn [nonempty for_each bind]; auto.
Qed.

(** * Lines *)
Definition no_newline (t : text) : Prop := Forall (fun c => Ascii.eqb c "010" = false) t.
Lemma linesOf_line l t : no_newline l -> linesOf (l ++ "010"%char :: t) = l :: linesOf t.
Proof. intros H. induction H as [|c l Hc H IH]; [reflexivity|]. cbn [app linesOf]. rewrite Hc, IH. reflexivity. Qed.
Lemma linesOf_last l : no_newline l -> linesOf l = [l].
Proof. intros H. induction H as [|c l Hc H IH]; [reflexivity|]. cbn [linesOf]. now rewrite Hc, IH. Qed.
Lemma space_newline c : isspace c = false -> Ascii.eqb c "010" = false.
Proof. intros H. destruct (Ascii.eqb_spec c "010") as [->|]; [discriminate H|reflexivity]. Qed.
Lemma word_newline w : word_chars w -> no_newline w.
Proof. apply Forall_impl. apply space_newline. Qed.
Lemma blanks_white w : blanks w -> white w.
Proof. apply Forall_impl. intros c H. cbn in *. tauto. Qed.
Lemma blanks_newline w : blanks w -> no_newline w.
Proof. apply Forall_impl. intros c H. cbn in H. destruct H as [<-|[<-|[]]]; reflexivity. Qed.
Lemma blanks_separated w : blanks w -> separated w.
Proof. intros H. destruct H as [|c w H _]; [now left|]. right. exists c, w. split; auto. constructor; [|constructor]. cbn in *. tauto. Qed.

Lemma features_separated fs r : featuresText fs r -> separated r.
Proof. intros H. destruct H as [w H|w k t v tv fs r H1 H2 H3 H4 H5]; [now apply blanks_separated|]. destruct H1; [congruence|]. right. eexists _, _. split; [reflexivity|]. constructor; [|constructor]. cbn in *. tauto. Qed.
Lemma features_newline fs r : featuresText fs r -> no_newline r.
Proof.
  intros H. induction H as [w H|w k t v tv fs r H1 H2 H3 H4 H5 IH]; [now apply blanks_newline|]. apply Forall_app. split; [now apply blanks_newline|].
  apply Forall_app. split; [apply word_newline, plain_word; eapply numeral_plain_chars, digits_numeral; eauto|]. constructor; [reflexivity|]. apply Forall_app. split; auto.
  apply word_newline, plain_word. eapply numeral_plain_chars; eauto.
Qed.
Lemma feature_denotes k t v tv : digits t (Z.of_nat k) -> numeral tv v -> word_chars (t ++ ":"%char :: tv) /\ denotes (t ++ ":"%char :: tv) (WFeat k v).
Proof.
  intros H1 H2. pose proof (numeral_plain_chars _ _ (digits_numeral _ _ H1)) as P1. split.
  - apply Forall_app. split; [now apply plain_word|]. constructor; [reflexivity|]. apply plain_word. eapply numeral_plain_chars; eauto.
  - split; [now destruct t|]. unfold textInt, textReal. rewrite splitColon_some by auto. cbn [fst snd wordInt wordReal]. split; [apply atoi_integer; now left|now apply atof_numeral].
Qed.
Lemma features_denote fs r : featuresText fs r -> Forall2 denotes (words r) (map (fun p => WFeat (fst p) (snd p)) fs).
Proof.
  intros H. induction H as [w H|w k t v tv fs r H1 H2 H3 H4 H5 IH].
  - rewrite words_nil by now apply blanks_white. constructor.
  - destruct (feature_denotes k t v tv H3 H4) as (HW & HD). rewrite words_white by now apply blanks_white.
    replace (t ++ ":"%char :: tv ++ r) with ((t ++ ":"%char :: tv) ++ r) by (rewrite <- app_assoc; reflexivity).
    rewrite words_word; [|apply HD|exact HW|eapply features_separated; eauto]. cbn [map fst snd]. constructor; auto.
Qed.
Lemma trunc_IZR z : trunc (IZR z) = z.
Proof. unfold trunc. destruct (Rle_dec 0 (IZR z)); [apply Zfloor_IZR|]. rewrite <- opp_IZR, Zfloor_IZR. lia. Qed.
Lemma label_denotes t z : integerNumeral t z -> word_chars t /\ t <> [] /\ labels_ t (WNum (IZR z)).
Proof.
  intros H. pose proof (integer_numeral _ _ H) as HN. pose proof (numeral_plain_chars _ _ HN) as HP. split; [now apply plain_word|]. split; [eapply numeral_nonempty; eauto|].
  unfold labels_, textInt. rewrite splitColon_none by auto. cbn [fst wordInt]. rewrite trunc_IZR. split; now apply atoi_integer.
Qed.
Lemma line_denotes i l : lineText i l -> no_newline l /\ lineDenotes (words l) (line_of i).
Proof.
  intros H. destruct H as [w z t fs r H1 H2 H3]. destruct (label_denotes t z H2) as (W1 & W2 & W3). split.
  - apply Forall_app. split; [now apply blanks_newline|]. apply Forall_app. split; [now apply word_newline|]. eapply features_newline; eauto.
  - rewrite words_white by now apply blanks_white. rewrite words_word; auto; [|eapply features_separated; eauto]. split; [exact W3|]. now apply features_denote.
Qed.
Lemma file_denotes file t : fileText file t -> exists tlines, Forall2 lineDenotes (map words (linesOf t)) tlines /\ filter nonempty tlines = map line_of file.
Proof.
  intros H. induction H as [w H|i l H|w file t H H' (tl & IH1 & IH2)|i l file t H H' (tl & IH1 & IH2)].
  - exists [[]]. split; [|reflexivity]. rewrite linesOf_last by now apply blanks_newline. cbn. rewrite words_nil by now apply blanks_white. constructor; [exact Logic.I|constructor].
  - exists [line_of i]. split; [|reflexivity]. destruct (line_denotes i l H) as (N & L). rewrite linesOf_last by auto. constructor; [exact L|constructor].
  - exists ([] :: tl). split; [|exact IH2]. rewrite linesOf_line by now apply blanks_newline. cbn [map]. constructor; auto. rewrite words_nil by now apply blanks_white. exact Logic.I.
  - exists (line_of i :: tl). destruct (line_denotes i l H) as (N & L). rewrite linesOf_line by auto. split; [constructor; auto|]. cbn. now rewrite IH2.
Qed.
Lemma svmLoad_file file t c : fileText file t -> svmLoadText t c = svmLoad (map line_of file) c.
Proof. intros H. destruct (file_denotes file t H) as (tl & H1 & H2). rewrite (svmLoad_sim t c tl H1), svmLoad_nonempty. now rewrite H2. Qed.

(** * Saving *)
(** an integer below 10 ^ 6 is written as integer *)
Lemma printPositive_integer z : (1 <= z < 10 ^ 6)%Z -> digits (printPositive (IZR z)) z.
Proof.
  intros Hz. assert (Ha : 0 < IZR z) by (apply (IZR_lt 0); lia). unfold printPositive.
  assert (E : exists m X, scientific (IZR z) = (m, X) /\ (10 ^ 5 <= m < 10 ^ 6)%Z /\ (0 <= X < 6)%Z /\ m = (z * 10 ^ (5 - X))%Z).
  { pose proof (scientific_bounds (IZR z) Ha) as B. pose proof (roundSix_printing) as HP. pose proof (pr_exact _ HP (IZR z)) as HE.
    rewrite roundSix_pos in HE by auto. unfold posRound in HE. destruct (scientific (IZR z)) as (m, X). exists m, X. split; auto. split; auto.
    specialize (HE (ltac:(exists z, 0%Z; split; [lia|simpl; ring]))).
    assert (HX : (0 <= X < 6)%Z).
    { split.
      - apply Znot_gt_le. intros L. assert (IZR m * powerRZ 10 (X - 5) < 1); [|rewrite HE in *; assert (1 <= IZR z) by (apply IZR_le; lia); lra].
        apply Rlt_le_trans with (IZR (10 ^ 6) * powerRZ 10 (X - 5)); [apply Rmult_lt_compat_r; [apply p10|apply IZR_lt; lia]|]. rewrite <- p10_Z, <- p10_add by lia.
        apply (p10_le _ 0). lia.
      - apply Znot_ge_lt. intros L. assert (IZR (10 ^ 6) <= IZR m * powerRZ 10 (X - 5)); [|rewrite HE in *; assert (IZR z < IZR (10 ^ 6)) by (apply IZR_lt; lia); lra].
        apply Rle_trans with (IZR (10 ^ 5) * powerRZ 10 (X - 5)); [|apply Rmult_le_compat_r; [left; apply p10|apply IZR_le; lia]]. rewrite <- !p10_Z, <- p10_add by lia. apply p10_le. lia. }
    split; auto. apply eq_IZR. rewrite mult_IZR, <- p10_Z by lia. rewrite <- HE, Rmult_assoc, <- p10_add. replace (X - 5 + (5 - X))%Z with 0%Z by lia. cbn. ring. }
  destruct E as (m & X & -> & B & HX & Em). destruct (Z.leb_spec (-4) X); [|lia]. destruct (Z.ltb_spec X 6); [|lia]. destruct (Z.leb_spec 0 X); [|lia]. cbn [andb].
  destruct (fixedDigits_ok 6 m) as (D1 & D2 & D3); [change (10 ^ Z.of_nat 6)%Z with (10 ^ 6)%Z; lia|]. set (ds := fixedDigits 6 m) in *. clearbody ds.
  set (k := (Z.to_nat X + 1)%nat). assert (HL : length (skipn k ds) = Z.to_nat (5 - X)) by (rewrite skipn_length, D2; unfold k; lia).
  pose proof (valueOf_app (firstn k ds) (skipn k ds)) as EV. rewrite firstn_skipn, D3, Em, HL, Z2Nat.id in EV by lia.
  assert (HB : (valueOf (skipn k ds) < 10 ^ Z.of_nat (length (skipn k ds)))%Z).
  { clear -D1. assert (H : digs (skipn k ds)) by now apply digs_skipn. revert H. generalize (skipn k ds). clear. intros l H. induction l as [|d l IH] using rev_ind; [reflexivity|].
    apply Forall_app in H as (H1 & H2). inversion H2; subst. rewrite valueOf_snoc, app_length. cbn [length]. rewrite Nat2Z.inj_add, Z.pow_add_r by lia. change (10 ^ Z.of_nat 1)%Z with 10%Z. specialize (IH H1). lia. }
  rewrite HL, Z2Nat.id in HB by lia. pose proof (valueOf_nonneg (skipn k ds)) as HB0. set (q := (10 ^ (5 - X))%Z) in *. assert (Hq : (0 < q)%Z) by (unfold q; apply Z.pow_pos_nonneg; lia).
  assert (HV : valueOf (firstn k ds) = z /\ valueOf (skipn k ds) = 0%Z) by (clear -EV HB HB0 Hq; clearbody q; revert EV HB HB0; generalize (valueOf (firstn k ds)) (valueOf (skipn k ds)); intros u v EV HB HB0;
    assert (v = (z - u) * q)%Z by lia; subst v; assert (0 <= z - u < 1)%Z by nia; split; nia). destruct HV as (V1 & V2).
  assert (ES : strip (skipn k ds) = []).
  { clear -V2. revert V2. generalize (skipn k ds). intros l. induction l as [|d l IH]; intros H; [reflexivity|].
    change (d :: l) with ([d] ++ l) in H. rewrite valueOf_app in H. pose proof (valueOf_nonneg l). change (valueOf [d]) with (Z.of_nat d) in H.
    pose proof (Z.pow_pos_nonneg 10 (Z.of_nat (length l)) ltac:(lia) ltac:(lia)). assert (d = 0%nat) by nia. subst d. cbn [strip]. rewrite IH by nia. reflexivity. }
  rewrite ES. cbn [point]. rewrite app_nil_r. rewrite <- V1. apply digits_chars; [|now apply digs_firstn].
  intros EE. apply (f_equal (@length nat)) in EE. rewrite firstn_length, D2 in EE. cbn in EE. unfold k in EE. lia.
Qed.
Lemma printDouble_integer z : (Z.abs z < 10 ^ 6)%Z -> integerNumeral (printDouble (IZR z)) z.
Proof.
  intros H. unfold printDouble. destruct (Reqb (IZR z) 0) eqn:E.
  - apply Reqb_true in E. apply eq_IZR in E. subst z. left. change (digits (chars [0%nat]) (valueOf [0%nat])). apply digits_chars; [discriminate|constructor; [lia|constructor]].
  - apply Reqb_false in E. assert (z <> 0)%Z by (intros ->; auto). destruct (Rltb (IZR z) 0) eqn:E'.
    + apply Rltb_true in E'. apply (lt_IZR z 0) in E'. right. eexists _, (- z)%Z. split; [reflexivity|]. split; [|lia]. rewrite <- opp_IZR. apply printPositive_integer. lia.
    + apply Rltb_false in E'. apply (le_IZR 0) in E'. left. apply printPositive_integer. lia.
Qed.

(** the saved text and the saved words *)
Definition savedLine (l : text) (tws : list word) : Prop := no_newline l /\ lineDenotes (words l) tws.
Lemma savedLine_add l tws j x : savedLine l tws -> tws <> [] -> savedLine (l ++ blank ++ printNat (j + 1) ++ ":"%char :: printDouble x) (tws ++ [WFeat (j + 1) (roundSix x)]).
Proof.
  intros (H1 & H2) Hn. destruct (feature_denotes (j + 1) (printNat (j + 1)) (roundSix x) (printDouble x) (printNat_digits _) (printDouble_numeral x)) as (W & D). split.
  - apply Forall_app. split; auto. constructor; [reflexivity|]. now apply word_newline.
  - rewrite words_app by (apply sep_cons, white_blank). rewrite words_white by apply white_blank.
    rewrite <- (app_nil_r (printNat (j + 1) ++ _)), words_word; [|apply D|exact W|now left]. rewrite (words_nil []) by constructor.
    destruct (words l) as [|w ws], tws as [|tw tws]; try contradiction H2; [congruence|]. destruct H2 as (L1 & L2). split; auto. apply Forall2_app; auto.
Qed.
Lemma svmSave_text inp out tls : svmSave roundSix inp out = Ok tls ->
  (Nat.ltb 1 (cols out) = false -> forall i, (i < rows out)%nat -> exists z, (Z.abs z < 10 ^ 6)%Z /\ at_ out i 0 = IZR z) ->
  rows inp = rows out ->
  exists t, svmSaveText inp out = Ok t /\ forall c, svmLoadText t c = svmLoad tls c.
Proof.
  intros E HZ HR. unfold svmSave in E. unfold svmSaveText. destruct (check _); try discriminate E. cbn [bind] in *.
  pose (Rel := fun (a : list (list word)) (b : text) => exists ls, b = concat (map (fun l => l ++ newline) ls) /\ Forall2 savedLine ls a).
  assert (G : exists t, for_ (rows inp) (fun i t =>
    label <- (if Nat.ltb 1 (cols out) then k <- rowMax out i ;; Ok (printNat k) else x <- mget out i 0 ;; Ok (printDouble x)) ;;
    line <- for_ (cols inp) (fun j line => x <- mget inp i j ;; Ok (if Rltb 0 (Rabs x) then line ++ blank ++ printNat (j + 1) ++ ":"%char :: printDouble x else line)) label ;;
    Ok (t ++ line ++ newline)) [] = Ok t /\ Rel tls t).
  { refine (for_sim_lt Rel (rows inp) _ _ _ [] [] tls _ E); [|exists []; split; [reflexivity|constructor]].
    intros i tl b tl' Hi (ls & -> & HF) E1.
    match type of E1 with bind ?m _ = _ => destruct m as [lab| | | |] eqn:EL; try discriminate E1 end. cbn [bind] in E1.
    assert (LAB : exists lt, (if Nat.ltb 1 (cols out) then k <- rowMax out i ;; Ok (printNat k) else x <- mget out i 0 ;; Ok (printDouble x)) = Ok lt /\ savedLine lt [lab]).
    { destruct (Nat.ltb 1 (cols out)) eqn:EC.
      - destruct (rowMax out i) as [k| | | |]; try discriminate EL. cbn [bind] in *. injection EL as <-. eexists. split; [reflexivity|].
        destruct (label_denotes (printNat k) (Z.of_nat k)) as (W1 & W2 & W3); [left; apply printNat_digits|]. split; [now apply word_newline|].
        rewrite <- (app_nil_r (printNat k)), words_word by (auto; now left). rewrite INR_IZR_INZ. split; [exact W3|constructor].
      - destruct (mget out i 0) as [x| | | |] eqn:EM; try discriminate EL. cbn [bind] in *. injection EL as <-. eexists. split; [reflexivity|].
        destruct (HZ eq_refl i ltac:(lia)) as (z & Hz & Ez).
        assert (x = IZR z) as ->. { unfold mget in EM. destruct (inside out i 0); try discriminate EM. injection EM as <-. exact Ez. }
        destruct (label_denotes (printDouble (IZR z)) z) as (W1 & W2 & W3); [now apply printDouble_integer|]. split; [now apply word_newline|].
        rewrite <- (app_nil_r (printDouble _)), words_word by (auto; now left). rewrite (pr_exact _ roundSix_printing) by (exists z, 0%Z; split; [lia|simpl; ring]). split; [exact W3|constructor]. }
    destruct LAB as (lt & EB & SB). rewrite EB. cbn [bind].
    match type of E1 with bind ?m _ = _ => destruct m as [line| | | |] eqn:EN; try discriminate E1 end. cbn [bind] in E1. injection E1 as <-.
    destruct (for_sim (fun (a : list word) (b : text) => savedLine b a /\ a <> []) (cols inp)
      (fun j line => x <- mget inp i j ;; Ok (if Rltb 0 (Rabs x) then line ++ [WFeat (j + 1) (roundSix x)] else line))
      (fun j line => x <- mget inp i j ;; Ok (if Rltb 0 (Rabs x) then line ++ blank ++ printNat (j + 1) ++ ":"%char :: printDouble x else line))) with (a := [lab]) (b := lt) (a' := line) as (b & F & HB & _).
    - intros j ? ? ? (S1 & S2) E2. destruct (mget inp i j) as [x| | | |]; try discriminate E2. cbn [bind] in *. injection E2 as <-. eexists. split; [reflexivity|].
      destruct (Rltb 0 (Rabs x)); auto. split; [now apply savedLine_add|]. intros N. now apply app_eq_nil in N as (_ & N).
    - split; auto. discriminate.
    - exact EN.
    - unfold text in F |- *. rewrite F. cbn [bind]. eexists. split; [reflexivity|]. exists (ls ++ [b]). split; [rewrite map_app, concat_app; cbn; now rewrite app_nil_r|]. apply Forall2_app; auto. }
  destruct G as (t & Et & ls & -> & HF). eexists. split; [exact Et|]. intros c.
  rewrite (svmLoad_sim _ c (tls ++ [[]])).
  - rewrite svmLoad_nonempty, filter_app. cbn [filter nonempty]. rewrite app_nil_r. now rewrite <- svmLoad_nonempty.
  - clear -HF. induction HF as [|l tl ls tls (H1 & H2) HF IH]; [constructor; [exact Logic.I|constructor]|]. cbn [map concat]. rewrite <- app_assoc. unfold newline at 1. cbn [app].
    rewrite linesOf_line by auto. cbn [map app]. constructor; auto.
Qed.
