(** Property C96: data files as text. *)
From Coq Require Import Ascii String.
From Verif Require Import Base BaseFacts Matrix IO_Model IO_Spec IO_Proofs SVM_Proofs NetIO_Spec NetPrint_Proofs Text_Model Text_Spec Text_Proofs TextPrint_Proofs TextIO_Model TextIO_Spec TextIO_Proofs TextSVM_Proofs Text_Props.
Local Open Scope R_scope.
Local Open Scope list_scope.

Lemma white_separated w t : white w -> w <> [] -> separated (w ++ t).
Proof. intros H N. destruct H as [|c w Hc H]; [congruence|]. right. exists c, (w ++ t). split; auto. constructor; auto. Qed.
Lemma numbers_spell vs r : numbersText vs r -> spells r (map TReal vs).
Proof. intros H. induction H; constructor; auto. Qed.
Lemma rowToks_numbers m n : rowToks (fun x => x) m n = map TReal (rowNumbers m n).
Proof. unfold rowToks, rowNumbers. rewrite map_map. reflexivity. Qed.
Lemma fannText_spells inp out t : fannText inp out t -> spells t ([TInt (rows inp); TInt (cols inp); TInt (cols out)] ++
    flat_map (fun n => rowToks (fun x => x) inp n ++ rowToks (fun x => x) out n) (seq 0 (rows inp))) /\ t <> [].
Proof.
  intros (w1 & t1 & w2 & t2 & w3 & t3 & r & -> & H1 & H2 & H3 & H3' & H4 & H5 & H5' & H6 & H7 & H8). split.
  - cbn [app]. constructor; auto; [now apply white_separated|]. constructor; auto; [now apply white_separated|]. constructor; auto.
    replace (flat_map _ _) with (map TReal (concat (map (fun n => rowNumbers inp n ++ rowNumbers out n) (seq 0 (rows inp))))); [now apply numbers_spell|].
    generalize (seq 0 (rows inp)). intros l. induction l as [|n l IH]; [reflexivity|]. cbn [map concat flat_map]. rewrite !map_app, IH, !rowToks_numbers. reflexivity.
  - intros E. apply app_eq_nil in E as (_ & E). apply app_eq_nil in E as (E & _). subst t1. now apply digits_head in H2 as (c & t' & E & _).
Qed.

(** C96.  Whatever lays out a dataset in the order of the format, with white space of any kind between the numbers, is loaded exactly. *)
Theorem C96_fann_load :
  forall junk inp out t, rows inp = rows out -> fannText inp out t ->
  exists inp' out' s, fannLoadText junk (fromText t) = Ok (rows inp, inp', out', s) /\ meq inp' inp /\ meq out' out.
Proof.
  intros junk inp out t H HT. destruct (fannText_spells inp out t HT) as (HS & Hn).
  destruct (fann_roundtrip (fun x => x) junk inp out [] H) as (ts & inp' & out' & E1 & E2 & E3 & E4). rewrite app_nil_r in E2.
  rewrite fannSave_ok in E1 by auto. injection E1 as <-. destruct (fannLoad_sim junk t _ _ _ _ _ HS E2) as (r & E & _). rewrite at_fromText in E by auto.
  exists inp', out', (at_text r). split; [exact E|]. split; [exact E3|exact E4].
Qed.
(** C96.  Saving a dataset and loading the text gives the same dataset with all numbers rounded to the closest number with six digits. *)
Theorem C96_fann_round_trip :
  forall junk inp out, rows inp = rows out ->
  exists t inp' out' s, fannSaveText inp out = Ok t /\ fannLoadText junk (fromText t) = Ok (rows inp, inp', out', s) /\
    roundedTo inp inp' /\ roundedTo out out'.
Proof.
  intros junk inp out H. destruct (fann_roundtrip roundSix junk inp out [] H) as (ts & inp' & out' & E1 & E2 & E3 & E4). rewrite app_nil_r in E2.
  destruct (fannSave_spells inp out ts E1) as (t & F1 & F2 & F3). destruct (fannLoad_sim junk t ts _ _ _ _ F2 E2) as (r & F4 & _). rewrite at_fromText in F4 by auto.
  exists t, inp', out', (at_text r). split; [exact F1|]. split; [exact F4|].
  split; [destruct E3 as (R1 & R2 & R3)|destruct E4 as (R1 & R2 & R3)]; (split; [exact R1|]; split; [exact R2|]); intros i j Hi Hj; rewrite R3; cbn; try (rewrite R1 || rewrite R2); auto using roundSix_closest.
Qed.

(** C96.  LibSVM files: lines with a label and index:value, empty lines, blanks and tabulators.  Two labels *)
Theorem C96_svm_load_two_classes :
  forall file t c W ls, fileText file t ->
  (forall r, In r file -> well_formed r) ->
  (forall r, In r file -> snd r = [] -> (fst r <= Z.of_nat c)%Z) ->
  width file c W -> labels file ls -> length ls = 2%nat ->
  exists inp out, svmLoadText t c = Ok (length file, inp, out) /\
    rows inp = length file /\ cols inp = W /\ rows out = length file /\ cols out = 1%nat /\
    forall i r, nth_error file i = Some r ->
      at_ out i 0 = IZR (fst r) /\
      forall j x, feature (snd r) (S j) x -> at_ inp i j = x.
Proof. intros file t c W ls HT H1 H2 H3 H4 H5. rewrite (svmLoad_file file t c HT). now apply (svmLoad_binary file c W ls). Qed.
(** C96.  More than two labels *)
Theorem C96_svm_load_many_classes :
  forall file t c W ls, fileText file t ->
  (forall r, In r file -> well_formed r) ->
  (forall r, In r file -> snd r = [] -> (fst r <= Z.of_nat c)%Z) ->
  width file c W -> labels file ls -> (2 < length ls)%nat ->
  (forall z, In z ls -> (1 <= z <= Z.of_nat (length ls))%Z) ->
  exists inp out, svmLoadText t c = Ok (length file, inp, out) /\
    rows inp = length file /\ cols inp = W /\ rows out = length file /\ cols out = length ls /\
    forall i r, nth_error file i = Some r ->
      (forall j, (j < length ls)%nat -> at_ out i j = if Z.eqb (fst r) (Z.of_nat j + 1) then 1 else 0) /\
      forall j x, feature (snd r) (S j) x -> at_ inp i j = x.
Proof. intros file t c W ls HT H1 H2 H3 H4 H5 H6. rewrite (svmLoad_file file t c HT). now apply (svmLoad_multi file c W ls). Qed.

(** C96 (partial): the round trip for one output with exactly two integer labels that have at most six digits, the number of columns
    given to load, and no line without features whose label exceeds the number of columns.  Missing: everything else, where the
    following theorems show that it fails. *)
Theorem C96_svm_round_trip_partial :
  forall inp out (z : nat -> Z) a b,
  rows inp = rows out -> cols out = 1%nat ->
  (forall i, (i < rows out)%nat -> at_ out i 0 = IZR (z i)) ->
  (Z.abs a < 10 ^ 6)%Z -> (Z.abs b < 10 ^ 6)%Z ->
  a <> b -> (forall i, (i < rows out)%nat -> z i = a \/ z i = b) ->
  (exists i, (i < rows out)%nat /\ z i = a) -> (exists i, (i < rows out)%nat /\ z i = b) ->
  (forall i, (i < rows inp)%nat ->
     (exists j, (j < cols inp)%nat /\ at_ inp i j <> 0) \/ (z i <= Z.of_nat (cols inp))%Z) ->
  exists t inp' out', svmSaveText inp out = Ok t /\ svmLoadText t (cols inp) = Ok (rows inp, inp', out') /\
    roundedTo inp inp' /\ meq out' out.
Proof.
  intros inp out z a b H1 H2 H3 HA HB H4 H5 H6 H7 H8.
  assert (HZ : forall i, (i < rows out)%nat -> (Z.abs (z i) < 10 ^ 6)%Z) by (intros i Hi; destruct (H5 i Hi) as [->| ->]; auto).
  assert (HS : forall i, (i < rows out)%nat -> roundSix (at_ out i 0) = at_ out i 0).
  { intros i Hi. apply (pr_exact _ roundSix_printing). exists (z i), 0%Z. split; auto. rewrite H3 by auto. cbn. ring. }
  destruct (svm_roundtrip roundSix inp out z a b) as (tls & inp' & out' & E1 & E2 & E3 & E4); auto. { intros i Hi. rewrite HS; auto. }
  destruct (svmSave_text inp out tls E1) as (t & F1 & F2); auto. { intros _ i Hi. exists (z i). auto. }
  exists t, inp', out'. split; [exact F1|]. split; [rewrite F2; exact E2|]. split.
  - destruct E3 as (R1 & R2 & R3). split; [exact R1|]. split; [exact R2|]. intros i j Hi Hj. rewrite R3 by (rewrite ?R1, ?R2; auto). cbn.
    destruct (Reqb (at_ inp i j) 0) eqn:E; [apply Reqb_true in E; rewrite E; rewrite <- (pr_exact _ roundSix_printing 0 six_0) at 2|]; apply roundSix_closest.
  - destruct E4 as (R1 & R2 & R3). split; [exact R1|]. split; [exact R2|]. intros i j Hi Hj. rewrite R3 by auto. cbn in *. rewrite R1 in Hi. rewrite R2 in Hj. cbn in *. assert (j = 0)%nat as -> by lia. auto.
Qed.
(** C96 is false for more than two classes, *)
Theorem C96_svm_many_classes_refuted :
  forall inp out c ls,
  rows inp = rows out -> (1 < cols out)%nat ->
  NoDup ls -> (2 < length ls)%nat ->
  (forall k, In k ls <-> exists i, (i < rows out)%nat /\ (k < cols out)%nat /\
     (forall j, (j < cols out)%nat -> at_ out i j <= at_ out i k) /\
     (forall j, (j < k)%nat -> at_ out i j < at_ out i k)) ->
  In 0%nat ls ->
  exists t, svmSaveText inp out = Ok t /\ svmLoadText t c = UB.
Proof.
  intros inp out c ls H1 H2 H3 H4 H5 H6. destruct (svm_multi_refuted roundSix inp out c ls) as (tls & E1 & E2); auto.
  destruct (svmSave_text inp out tls E1) as (t & F1 & F2); auto. { intros N. apply Nat.ltb_ge in N. lia. }
  exists t. split; [exact F1|]. now rewrite F2.
Qed.
(** for only one label, *)
Theorem C96_svm_one_class_refuted :
  forall inp out a i,
  rows inp = rows out -> cols out = 1%nat -> (1 <= cols inp)%nat ->
  (forall i, (i < rows out)%nat -> at_ out i 0 = IZR a) -> (Z.abs a < 10 ^ 6)%Z ->
  (forall i, (i < rows inp)%nat ->
     (exists j, (j < cols inp)%nat /\ at_ inp i j <> 0) \/ (a <= Z.of_nat (cols inp))%Z) ->
  (i < rows inp)%nat -> at_ inp i (cols inp - 1) <> 0 ->
  exists t, svmSaveText inp out = Ok t /\ svmLoadText t (cols inp) = UB.
Proof.
  intros inp out a i H1 H2 H3 H4 HA H5 H6 H7. destruct (svm_single_refuted roundSix inp out a i) as (tls & E1 & E2); auto.
  { intros k Hk. rewrite H4 by auto. apply (pr_exact _ roundSix_printing). exists a, 0%Z. split; auto. cbn. ring. }
  destruct (svmSave_text inp out tls E1) as (t & F1 & F2); auto. { intros _ k Hk. exists a. auto. }
  exists t. split; [exact F1|]. now rewrite F2.
Qed.
(** and for two labels with seven digits: they are written with an exponent, of which load only reads the digits in front of the
    point, so that both labels are the same and load writes outside of the matrix of inputs. *)
Theorem C96_svm_large_labels_refuted :
  let inp := mkMat 2 1 (fun i _ => INR (i + 1)) in
  let out := mkMat 2 1 (fun i _ => match i with O => 1000000 | _ => 1500000 end) in
  svmSaveText inp out = Ok (list_ascii_of_string "1e+06 1:1" ++ ["010"%char] ++ list_ascii_of_string "1.5e+06 1:2" ++ ["010"%char]) /\
  svmLoadText (list_ascii_of_string "1e+06 1:1" ++ ["010"%char] ++ list_ascii_of_string "1.5e+06 1:2" ++ ["010"%char]) 1 = UB.
Proof.
  cbv zeta. split; [|reflexivity].
  assert (E1 : printDouble 1 = list_ascii_of_string "1") by digits_of 0%Z 100000%Z.
  assert (E2 : printDouble 2 = list_ascii_of_string "2") by digits_of 0%Z 200000%Z.
  assert (E3 : printDouble 1000000 = list_ascii_of_string "1e+06") by digits_of 6%Z 100000%Z.
  assert (E4 : printDouble 1500000 = list_ascii_of_string "1.5e+06") by digits_of 6%Z 150000%Z.
  unfold svmSaveText, mget, inside. cbn - [printDouble Rltb Rabs INR list_ascii_of_string]. change (INR 1) with 1. change (INR 2) with 2.
  rewrite (proj2 (Rltb_true 0 (Rabs 1))) by (rewrite Rabs_right; lra). rewrite (proj2 (Rltb_true 0 (Rabs 2))) by (rewrite Rabs_right; lra).
  rewrite E1, E2, E3, E4. reflexivity.
Qed.

Print Assumptions C96_fann_load.
Print Assumptions C96_fann_round_trip.
Print Assumptions C96_svm_load_two_classes.
Print Assumptions C96_svm_load_many_classes.
Print Assumptions C96_svm_round_trip_partial.
Print Assumptions C96_svm_many_classes_refuted.
Print Assumptions C96_svm_one_class_refuted.
Print Assumptions C96_svm_large_labels_refuted.

(** A dataset and its text: the entries of a row are aligned. *)
Definition exampleIn : mat := mkMat 2 2 (fun i j => match i, j with O, O => -1 | O, _ => 1 / 3 | _, O => 10 | _, _ => 0 end).
Definition exampleOut : mat := mkMat 2 1 (fun i _ => INR i).
Example ex_fann : fannSaveText exampleIn exampleOut =
  Ok (list_ascii_of_string "2 2 1" ++ newline ++ list_ascii_of_string "      -1 0.333333" ++ newline ++ list_ascii_of_string "0" ++ newline ++
      list_ascii_of_string "10  0" ++ newline ++ list_ascii_of_string "1" ++ newline).
Proof.
  assert (E1 : printDouble 1 = list_ascii_of_string "1") by digits_of 0%Z 100000%Z.
  assert (E2 : printDouble (-1) = list_ascii_of_string "-1") by digits_of 0%Z 100000%Z.
  assert (E3 : printDouble 10 = list_ascii_of_string "10") by digits_of 1%Z 100000%Z.
  assert (E4 : printDouble 0 = list_ascii_of_string "0"). { unfold printDouble. rewrite (proj2 (Reqb_true 0 0)) by auto. reflexivity. }
  unfold fannSaveText, rowText, mget, inside. cbn - [printDouble aligned INR list_ascii_of_string Rdiv]. change (INR 0) with 0. change (INR 1) with 1.
  rewrite E1, E2, E3, E4, ex_third. reflexivity.
Qed.
(** A LibSVM file with an empty line, tabulators and without the last end of line *)
Definition exampleFile : list instance := [(1%Z, [(1%nat, 5); (3%nat, 1 / 2)]); ((-1)%Z, [(2%nat, 4)])].
Ltac digit := constructor; cbn; tauto.
Example ex_file : fileText exampleFile (list_ascii_of_string "1 1:5 3:0.5" ++ "010"%char :: "009"%char :: "010"%char :: list_ascii_of_string "-1  2:4").
Proof.
  unfold exampleFile. apply file_line.
  - apply (line_text [] 1 ["1"%char] _ (list_ascii_of_string " 1:5 3:0.5")); [constructor|left; digit|].
    apply (features_next [" "%char] 1 ["1"%char] 5 ["5"%char] _ (list_ascii_of_string " 3:0.5")); [repeat constructor; cbn; tauto|discriminate|digit|apply numeral_plain, (numeral_integer ["5"%char] 5); digit|].
    apply (features_next [" "%char] 3 ["3"%char] (1 / 2) (list_ascii_of_string "0.5") [] []); [repeat constructor; cbn; tauto|discriminate|digit| |constructor; constructor].
    replace (1 / 2) with (IZR 0 + IZR 5 / 10 ^ 1) by lra. apply numeral_plain, (numeral_fraction ["0"%char] ["5"%char] 0 5); digit.
  - apply (file_empty ["009"%char]); [repeat constructor; cbn; tauto|]. apply file_last.
    apply (line_text [] (-1) (list_ascii_of_string "-1") _ (list_ascii_of_string "  2:4")); [constructor| |].
    + right. exists ["1"%char], 1%Z. split; [reflexivity|]. split; [digit|reflexivity].
    + apply (features_next [" "; " "]%char 2 ["2"%char] 4 ["4"%char] [] []); [repeat constructor; cbn; tauto|discriminate|digit|apply numeral_plain, (numeral_integer ["4"%char] 4); digit|constructor; constructor].
Qed.
Example ex_width : width exampleFile 2 3 /\ labels exampleFile [1; -1]%Z.
Proof.
  split.
  - repeat split; [lia| |right; eexists _, _; split; [left; reflexivity|right; left; reflexivity]].
    intros r k x [<-|[<-|[]]] H; cbn in H; destruct H as [H|H]; [|destruct H as [H|H]| |]; try contradiction; injection H as <- _; lia.
  - split; [repeat constructor; cbn; intuition discriminate|]. intros z. cbn. tauto.
Qed.
