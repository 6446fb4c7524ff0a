(** Proofs about cross validation, complements of a split, and the evaluator. *)
From Verif Require Import BaseFacts DataSet_Model DataSet_Spec DataSet_Proofs
  Evaluation_Model Evaluation_Spec Evaluation_Proofs.

Section Split.
Context {V : Type}.

Lemma split_structure (h : heap V) ds n shuf rows :
  lists h ds rows -> 1 < n -> shuffles shuf ->
  exists vs parts, splitGroups h ds n true shuf [] = Ok vs /\ length vs = n /\
    Forall2 (fun o part => exists idx, o = View ds idx /\ pick rows idx part) vs parts /\
    Permutation (concat parts) rows /\
    (n <= length rows -> forall part, In part parts -> 0 < length part) /\
    (length rows < n -> exists rest, parts = [] :: rest).
Proof.
  intros L Hn Hsh. pose proof L as [HS _].
  destruct (splitGroups_idx h ds n true shuf [] _ HS Hn Hsh) as (vs & E & Lv & Hc & Hv & Hk).
  simpl in E.
  destruct (indices_pick rows true shuf Hsh) as (l' & P & Q).
  rewrite <- Hc in P. destruct (pick_concat _ _ _ P) as (parts & F & Ec).
  assert (Lp : length parts = n).
  { rewrite <- (Forall2_length _ _ F), map_length. auto. }
  assert (G : Forall2 (fun o part => exists idx, o = View ds idx /\ pick rows idx part) vs parts).
  { clear - F Hv. revert parts F. induction vs as [|o vs IH]; intros parts F; simpl in F;
      inversion F as [|i p is ps Hp Hps]; subst; constructor.
    - destruct (Hv o (or_introl eq_refl)) as [idx ->]. exists idx. auto.
    - apply IH; auto. intros o' Ho. apply Hv. now right. }
  exists vs, parts. split; [exact E|]. split; [exact Lv|]. split; [exact G|].
  split; [now rewrite Ec|].
  assert (Len : forall k part, k < n - 1 -> nth_error parts k = Some part -> length part = length rows / n).
  { intros k part Hk1 Hp. destruct (Hk k Hk1) as (idx & H3 & H4).
    destruct (Forall2_nth _ _ _ k _ G H3) as (part' & H1 & idx' & H5 & H6). inversion H5; subst.
    assert (part' = part) by congruence. subst. now rewrite (pick_length _ _ _ H6). }
  assert (Tot : length (concat parts) = length rows).
  { rewrite Ec. now apply Permutation_length. }
  split.
  - intros Hle part Hin. apply In_nth_error in Hin. destruct Hin as [k Hp].
    assert (Hkn : k < n) by (rewrite <- Lp; apply nth_error_Some; congruence).
    assert (Q1 : 0 < length rows / n) by (apply Nat.div_str_pos; lia).
    destruct (Nat.lt_ge_cases k (n - 1)) as [Lt|Ge]; [rewrite (Len k part) by auto; auto|].
    assert (k = n - 1) by lia. subst k.
    (* the last part takes what is left *)
    assert (S1 : length (concat parts) = (n - 1) * (length rows / n) + length part).
    { assert (A : parts = firstn (n - 1) parts ++ [part]).
      { rewrite <- (firstn_skipn (n - 1) parts) at 1. f_equal.
        assert (B : skipn (n - 1) parts = part :: skipn n parts).
        { clear - Hp Hn. replace (skipn n parts) with (skipn 1 (skipn (n - 1) parts)).
          - clear Hn. generalize dependent (n - 1). intros k. revert parts.
            induction k; intros [|x parts] H; simpl in *; try discriminate; [inversion H; reflexivity|]. now apply IHk.
          - assert (Z : forall a b (l : list (list (V * V))), skipn a (skipn b l) = skipn (b + a) l).
            { intros a b; revert a. induction b; intros a l; simpl; auto. destruct l; auto. now destruct a. }
            rewrite Z. f_equal. lia. }
        rewrite B. f_equal. apply skipn_all2. lia. }
      rewrite A at 1. rewrite concat_app, app_length. simpl. rewrite app_nil_r. f_equal.
      assert (B : forall k, k <= n - 1 -> length (concat (firstn k parts)) = k * (length rows / n)).
      { induction k as [|k IHk]; intros Hk'; [reflexivity|].
        destruct (nth_error parts k) as [p|] eqn:Ek; [|apply nth_error_None in Ek; lia].
        assert (C : firstn (S k) parts = firstn k parts ++ [p]).
        { clear - Ek. revert k Ek. induction parts as [|x parts IH]; intros [|k] Ek; simpl in *; try discriminate.
          - congruence.
          - f_equal. now apply IH. }
        rewrite C, concat_app, app_length, IHk by lia. simpl. rewrite app_nil_r.
        rewrite (Len k p) by (auto; lia). lia. }
      apply B. lia. }
    pose proof (Nat.mul_div_le (length rows) n ltac:(lia)). nia.
  - intros Hlt. destruct parts as [|p parts]; simpl in Lp; [lia|].
    specialize (Len 0 p ltac:(lia) eq_refl). rewrite Nat.div_small in Len by auto.
    destruct p; [|discriminate]. eauto.
Qed.

Lemma Forall2_erase {A B} (R : A -> B -> Prop) i la lb :
  Forall2 R la lb -> Forall2 R (erase i la) (erase i lb).
Proof.
  intros F. unfold erase. revert i. induction F as [|x y la lb Hxy F IH]; intros i.
  - destruct i; simpl; constructor.
  - destruct i as [|i]; simpl; auto. constructor; auto. apply IH.
Qed.

Lemma erase_perm {A} i (parts : list (list A)) part :
  nth_error parts i = Some part -> Permutation (concat (erase i parts) ++ part) (concat parts).
Proof.
  unfold erase. revert i. induction parts as [|p parts IH]; intros [|i] H; simpl in *; try discriminate.
  - inversion H; subst. apply Permutation_app_comm.
  - rewrite <- app_assoc. apply Permutation_app_head. now apply IH.
Qed.

Lemma erase_length {A} i (l : list A) : i < length l -> length (erase i l) = length l - 1.
Proof. intros H. unfold erase. rewrite app_length, firstn_length, skipn_length. lia. Qed.

Lemma pick_good h ds (rows : list (V * V)) vs parts :
  lists h ds rows ->
  Forall2 (fun o part => exists idx, o = View ds idx /\ pick rows idx part) vs parts ->
  Forall (good_view h) vs.
Proof.
  intros [HS _] F. induction F as [|o p vs parts (idx & -> & P) F IH]; constructor; auto.
  exists ds, idx, (length rows). repeat split; auto. eapply pick_range; eauto.
Qed.

(** merging views of the same data set into a new empty view *)
Lemma merge_new h ds (rows : list (V * V)) vs parts :
  wf h -> lists h ds rows ->
  Forall2 (fun o part => exists idx, o = View ds idx /\ pick rows idx part) vs parts ->
  forall from k sel, 0 < k ->
  nth_error vs (from + k) = Some (View ds []) ->
  Forall2 (fun a part => nth_error parts a = Some part) (seq from k) sel ->
  exists h', merge (h ++ vs) (length h + (from + k)) (seq (length h + from) k) = Ok h' /\
    lists h' (length h + (from + k)) (concat sel) /\
    (forall a l, a < length h + (from + k) -> lists (h ++ vs) a l -> lists h' a l).
Proof.
  intros W L F from k sel Hk Hm Hs.
  assert (Wv : wf (h ++ vs)) by (apply wf_extend; auto; eapply pick_good; eauto).
  destruct (merge_ok (h ++ vs) (length h + (from + k)) (seq (length h + from) k) ds [] []) with (parts := sel)
    as (h' & E & L' & Below); auto.
  - rewrite nth_error_app2 by lia. replace (length h + (from + k) - length h) with (from + k) by lia. auto.
  - destruct k; [lia|]. discriminate.
  - intros Hin. apply in_seq in Hin. lia.
  - apply (lists_new h ds rows [] [] vs (from + k) L Hm). constructor.
  - clear - F L Hs. revert from sel Hs. induction k as [|k IH]; intros from sel Hs; simpl in *;
      inversion Hs as [|a p as_ ps Hp Hps]; subst; constructor.
    + assert (Y : exists o, nth_error vs from = Some o).
      { destruct (nth_error vs from) as [o|] eqn:Eo; eauto. apply nth_error_None in Eo.
        rewrite (Forall2_length _ _ F) in Eo. apply nth_error_None in Eo. congruence. }
      destruct Y as [o Eo]. destruct (Forall2_nth _ _ _ from o F Eo) as (p' & Ep & idx & -> & Pk).
      assert (p' = p) by congruence. subst p'. split.
      * exists idx. rewrite nth_error_app2 by lia. replace (length h + from - length h) with from by lia. auto.
      * exact (lists_new h ds rows idx p vs from L Eo Pk).
    + replace (S (length h + from)) with (length h + S from) by lia. apply IH. auto.
  - exists h'. split; [exact E|]. split; [exact L'|]. intros a l Ha Hl. now apply Below.
Qed.

Lemma seq_sel {A} (pre suf : list A) rest :
  Forall2 (fun a part => nth_error (pre ++ suf ++ rest) a = Some part) (seq (length pre) (length suf)) suf.
Proof.
  revert pre. induction suf as [|x suf IH]; intros pre; simpl; constructor.
  - rewrite nth_error_app2, Nat.sub_diag by lia. reflexivity.
  - specialize (IH (pre ++ [x])). rewrite app_length in IH. simpl in IH. rewrite Nat.add_1_r in IH.
    rewrite <- app_assoc in IH. exact IH.
Qed.

Lemma complement_parts h ds n (rows : list (V * V)) vs parts i test :
  reachable h -> lists h ds rows -> 1 < n -> length vs = n ->
  Forall2 (fun o part => exists idx, o = View ds idx /\ pick rows idx part) vs parts ->
  nth_error parts i = Some test ->
  exists h',
    merge (h ++ vs ++ erase i vs ++ [View ds []]) (length h + (n + (n - 1)))
          (seq (length h + n) (n - 1)) = Ok h' /\
    lists h' (length h + i) test /\
    lists h' (length h + (n + (n - 1))) (concat (erase i parts)).
Proof.
  intros Hr L Hn Lv F Ht. apply reachable_wf in Hr.
  pose proof (Forall2_length _ _ F) as Lp.
  assert (Hi : i < n) by (rewrite <- Lv, Lp; apply nth_error_Some; congruence).
  pose proof (Forall2_erase _ i _ _ F) as Fe.
  assert (Fa : Forall2 (fun o part => exists idx, o = View ds idx /\ pick rows idx part)
      (vs ++ erase i vs ++ [View ds []]) (parts ++ erase i parts ++ [[]])).
  { apply Forall2_app; auto. apply Forall2_app; auto. constructor; [|constructor].
    exists []. split; auto. constructor. }
  assert (Le : length (erase i parts) = n - 1) by (rewrite erase_length; lia).
  assert (Lev : length (erase i vs) = n - 1) by (rewrite erase_length; lia).
  destruct (merge_new h ds rows _ _ Hr L Fa n (n - 1) (erase i parts)) as (h' & Em & Lt & Below).
  - lia.
  - rewrite nth_error_app2 by lia. rewrite Lv. rewrite nth_error_app2 by lia. rewrite Lev.
    replace (n + (n - 1) - n - (n - 1)) with 0 by lia. reflexivity.
  - pose proof (seq_sel parts (erase i parts) [[]]) as X. rewrite <- Lp, Lv, Le in X. exact X.
  - exists h'. split; [exact Em|]. split; [|exact Lt].
    destruct (nth_error_lt vs i) as [o Eo]; [lia|].
    destruct (Forall2_nth _ _ _ i o F Eo) as (p' & Ep & idx & -> & Pk).
    assert (p' = test) by congruence. subst p'.
    apply Below; [lia|]. apply (lists_new h ds rows idx test _ i L); auto.
    rewrite nth_error_app1; auto. lia.
Qed.

Lemma erase_nonempty {A} (parts : list (list A)) i :
  1 < length parts -> (forall p, In p parts -> 0 < length p) -> 0 < length (concat (erase i parts)).
Proof.
  intros H N. destruct parts as [|p [|q parts]]; simpl in H; try lia.
  destruct i as [|i]; unfold erase; simpl.
  - rewrite app_length. specialize (N q (or_intror (or_introl eq_refl))). lia.
  - rewrite app_length. specialize (N p (or_introl eq_refl)). lia.
Qed.

Lemma complement_ok h ds n shuf (rows : list (V * V)) i :
  reachable h -> lists h ds rows -> 1 < n -> shuffles shuf -> i < n ->
  exists vs h' test train,
    splitGroups h ds n true shuf [] = Ok vs /\ length vs = n /\
    merge (h ++ vs ++ erase i vs ++ [View ds []]) (length h + (n + (n - 1)))
          (seq (length h + n) (n - 1)) = Ok h' /\
    lists h' (length h + i) test /\
    lists h' (length h + (n + (n - 1))) train /\
    Permutation (train ++ test) rows.
Proof.
  intros Hr L Hn Hsh Hi.
  destruct (split_structure h ds n shuf rows L Hn Hsh) as (vs & parts & E & Lv & F & P & _ & _).
  pose proof (Forall2_length _ _ F) as Lp.
  destruct (nth_error_lt parts i) as [test Ht]; [lia|].
  destruct (complement_parts h ds n rows vs parts i test Hr L Hn Lv F Ht) as (h' & Em & Lt & Ltr).
  exists vs, h', test, (concat (erase i parts)). do 5 (split; auto).
  rewrite <- P. now apply erase_perm.
Qed.
End Split.

(** ** cross validation *)
Section CV.
Context {L : Type}.
Variable init : source -> L -> L.
Variable step : source -> L -> bool * L.
Variable predict : L -> vec -> vec.
Variable signaled : nat -> nat -> bool.

Lemma shows_source h outputs a rows : lists h a rows ->
  exists s, source_of h outputs a = Ok s /\ shows s rows /\ srcOutputs s = outputs /\
    srcSamples s = length rows.
Proof.
  intros [HS HR]. unfold source_of. rewrite HS. simpl. eexists. split; [reflexivity|].
  repeat split; auto; simpl; try apply (HR _ _ H).
Qed.

(** hits exist for any number of outputs *)
Lemma hits_total f ds rows : shows ds rows ->
  Forall (fun r => 0 < length (snd r) /\ 0 < length (f (fst r)))  rows ->
  exists k, classificationHits f ds = Ok k /\ k <= length rows.
Proof.
  intros Sh F. unfold classificationHits.
  erewrite for_source with (body' := fun r hits =>
    eq <- (if Nat.leb 2 (srcOutputs ds)
           then klass <- maxCoeff (snd r) ;; result <- maxCoeff (f (fst r)) ;; Ok (Nat.eqb klass result)
           else o <- vget (snd r) 0 ;; y <- vget (f (fst r)) 0 ;;
                Ok (Z.eqb (Zfloor (o + / 2)) (Zfloor (y + / 2)))) ;;
    Ok (if (eq : bool) then S hits else hits)); [|exact Sh|].
  2: { intros i r s _ -> ->. reflexivity. }
  assert (G : forall acc, exists k, for_each rows (fun r hits =>
    eq <- (if Nat.leb 2 (srcOutputs ds)
           then klass <- maxCoeff (snd r) ;; result <- maxCoeff (f (fst r)) ;; Ok (Nat.eqb klass result)
           else o <- vget (snd r) 0 ;; y <- vget (f (fst r)) 0 ;;
                Ok (Z.eqb (Zfloor (o + / 2)) (Zfloor (y + / 2)))) ;;
    Ok (if (eq : bool) then S hits else hits)) acc = Ok k /\ k <= acc + length rows).
  { clear Sh. induction F as [|r rows [H1 H2] F IH]; intros acc; simpl.
    - exists acc. split; auto. lia.
    - destruct (maxCoeff_ok _ H1) as (c1 & E1 & _). destruct (maxCoeff_ok _ H2) as (c2 & E2 & _).
      destruct (vget_Ok _ _ H1) as (x1 & E3 & _). destruct (vget_Ok _ _ H2) as (x2 & E4 & _).
      rewrite E1, E2, E3, E4. simpl.
      destruct (srcOutputs ds) as [|[|o]]; simpl.
      + match goal with |- context [for_each rows _ ?s] => destruct (IH s) as (k & E & Hk); destruct (_ =? _)%Z in E, Hk |- * end;
        exists k; split; auto; lia.
      + match goal with |- context [for_each rows _ ?s] => destruct (IH s) as (k & E & Hk); destruct (_ =? _)%Z in E, Hk |- * end;
        exists k; split; auto; lia.
      + match goal with |- context [for_each rows _ ?s] => destruct (IH s) as (k & E & Hk); destruct (c1 =? c2) in E, Hk |- * end;
        exists k; split; auto; lia. }
  destruct (G 0) as (k & E & H). exists k. split; auto.
Qed.

Lemma trainLoop_ok train tst rtrain rtest i :
  shows train rtrain -> shows tst rtest -> 0 < length rtrain -> 0 < length rtest ->
  (forall l, Forall (fun r => 0 < length (snd r) /\ 0 < length (predict l (fst r))) (rtrain ++ rtest)) ->
  forall fuel k l last acc, accOf predict tst k last acc ->
  trainLoop step predict signaled fuel i k train tst l last acc = Fuel \/
  exists l1 k1 last1 acc1,
    trainLoop step predict signaled fuel i k train tst l last acc = Ok (l1, k1, last1, acc1) /\
    accOf predict tst k1 last1 acc1 /\ k <= k1 /\
    (fst (step train l) = true -> signaled i (S k) = false -> k < k1).
Proof.
  intros S1 S2 N1 N2 D fuel. induction fuel as [|f IH]; intros k l last acc A; simpl.
  - destruct (step train l) as [more l']. simpl. destruct more, (signaled i (S k)); simpl; auto;
    right; do 4 eexists; (split; [reflexivity|split; [exact A|split; [lia|discriminate]]]).
  - destruct (step train l) as [more l']. simpl.
    assert (Stop : forall b, (more = true -> signaled i (S k) = false -> False) -> b = (l', k, last, acc) ->
      exists l1 k1 last1 acc1, Ok b = Ok (l1, k1, last1, acc1) /\ accOf predict tst k1 last1 acc1 /\ k <= k1 /\
        (more = true -> signaled i (S k) = false -> k < k1)).
    { intros b Hm ->. do 4 eexists. split; [reflexivity|]. split; [exact A|]. split; [lia|]. intros. exfalso; auto. }
    destruct more; simpl; [|right; apply Stop; auto; discriminate].
    destruct (signaled i (S k)) eqn:Sg; simpl; [right; apply Stop; auto; discriminate|]. clear Stop.
    pose proof (D l') as D'. apply Forall_app in D'. destruct D' as [D1 D2].
    destruct (hits_total (predict l') train rtrain S1 D1) as (h1 & -> & _).
    destruct (hits_total (predict l') tst rtest S2 D2) as (h2 & E2 & L2). rewrite E2. simpl.
    destruct (Nat.eqb_spec (srcSamples train) 0) as [Z|_]; [destruct S1; lia|].
    destruct (Nat.eqb_spec (srcSamples tst) 0) as [Z|_]; [destruct S2; lia|]. simpl.
    destruct (IH (S k) l' l' (INR (h2 / srcSamples tst))) as [->|(l1 & k1 & last1 & acc1 & -> & A1 & Le & _)]; auto.
    { split; [lia|]. intros _. exists h2. split; auto. split; auto. destruct S2; lia. }
    right. do 4 eexists. split; [reflexivity|]. split; [exact A1|]. split; [lia|]. intros; lia.
Qed.

Lemma oneFold_ok fuel h outputs ds n rows vs parts i test l :
  reachable h -> lists h ds rows -> 1 < n -> length vs = n ->
  Forall2 (fun o part => exists idx, o = View ds idx /\ pick rows idx part) vs parts ->
  Permutation (concat parts) rows ->
  (forall p, In p parts -> 0 < length p) ->
  nth_error parts i = Some test ->
  (forall l, Forall (fun r => 0 < length (snd r) /\ 0 < length (predict l (fst r))) rows) ->
  oneFold init step predict signaled fuel h outputs ds vs i l = Fuel \/
  exists l' f tst,
    oneFold init step predict signaled fuel h outputs ds vs i l = Ok (l', f) /\
    lists (fMem f) (fTest f) test /\ lists (fMem f) (fTraining f) (concat (erase i parts)) /\
    source_of (fMem f) outputs (fTest f) = Ok tst /\ srcSamples tst = length test /\
    accOf predict tst (fRounds f) (fLast f) (fTestAccuracy f) /\
    ((forall s l, fst (step s (init s l)) = true) -> (forall j k, signaled j k = false) -> 0 < fRounds f).
Proof.
  intros Hr Ll Hn Lv F P NE Ht D.
  destruct (complement_parts h ds n rows vs parts i test Hr Ll Hn Lv F Ht) as (h' & Em & Lt & Ltr).
  pose proof (Forall2_length _ _ F) as Lp.
  assert (Hi : i < n) by (rewrite <- Lv, Lp; apply nth_error_Some; congruence).
  unfold oneFold. rewrite Lv.
  assert (Le : length (erase i vs) = n - 1) by (rewrite erase_length; lia). rewrite Le.
  replace (length h + n + (n - 1)) with (length h + (n + (n - 1))) by lia.
  rewrite Em. simpl.
  destruct (shows_source h' outputs _ _ Ltr) as (str & E1 & Sh1 & O1 & N1).
  destruct (shows_source h' outputs _ _ Lt) as (sts & E2 & Sh2 & O2 & N2).
  rewrite E1, E2. simpl.
  assert (DD : forall l, Forall (fun r => 0 < length (snd r) /\ 0 < length (predict l (fst r)))
    (concat (erase i parts) ++ test)).
  { intros l0. apply (Permutation_Forall (x := rows)); [|apply D].
    rewrite <- P. symmetry. now apply erase_perm. }
  assert (N3 : 0 < length (concat (erase i parts))) by (apply erase_nonempty; auto; lia).
  assert (N4 : 0 < length test) by (apply NE; eapply nth_error_In; eauto).
  assert (A0 : accOf predict sts 0 (init str l) 0%R) by (split; auto; lia).
  destruct (trainLoop_ok str sts _ test i Sh1 Sh2 N3 N4 DD fuel 0 (init str l) _ _ A0)
    as [->|(l1 & k1 & last1 & acc1 & -> & A & _ & Pos)]; [left; reflexivity|].
  right. simpl. do 3 eexists. split; [reflexivity|]. simpl.
  split; [exact Lt|]. split; [exact Ltr|]. split; [exact E2|]. auto.
Qed.

Lemma crossValidation_ok fuel h outputs ds n shuf rows l :
  reachable h -> lists h ds rows -> 1 < n -> n <= length rows -> shuffles shuf ->
  (forall l, Forall (fun r => 0 < length (snd r) /\ 0 < length (predict l (fst r))) rows) ->
  crossValidation init step predict signaled fuel h outputs ds n shuf l = Fuel \/
  exists v log tests,
    crossValidation init step predict signaled fuel h outputs ds n shuf l = Ok (v, log) /\
    length log = n /\ length tests = n /\
    Permutation (concat tests) rows /\
    v = mean (map fTestAccuracy log) /\
    forall i f test, nth_error log i = Some f -> nth_error tests i = Some test ->
      exists train tst,
      lists (fMem f) (fTest f) test /\ lists (fMem f) (fTraining f) train /\
      Permutation (train ++ test) rows /\ 0 < length test /\
      source_of (fMem f) outputs (fTest f) = Ok tst /\ srcSamples tst = length test /\
      accOf predict tst (fRounds f) (fLast f) (fTestAccuracy f) /\
      ((forall s l, fst (step s (init s l)) = true) -> (forall j k, signaled j k = false) -> 0 < fRounds f).
Proof.
  intros Hr Ll Hn Hle Hsh D.
  destruct (split_structure h ds n shuf rows Ll Hn Hsh) as (vs & parts & E & Lv & F & P & NE & _).
  pose proof (Forall2_length _ _ F) as Lp. specialize (NE Hle).
  unfold crossValidation. rewrite E. cbn [bind].
  set (body := fun i s => let '(l, total, log) := s in
      ' (l', f) <- oneFold init step predict signaled fuel h outputs ds vs i l ;;
      Ok (l', (total + fTestAccuracy f)%R, log ++ [f])).
  set (good := fun (i : nat) (f : fold (L := L)) (test : list (vec * vec)) => exists train tst,
      lists (fMem f) (fTest f) test /\ lists (fMem f) (fTraining f) train /\
      Permutation (train ++ test) rows /\ 0 < length test /\
      source_of (fMem f) outputs (fTest f) = Ok tst /\ srcSamples tst = length test /\
      accOf predict tst (fRounds f) (fLast f) (fTestAccuracy f) /\
      ((forall s l, fst (step s (init s l)) = true) -> (forall j k, signaled j k = false) -> 0 < fRounds f)).
  assert (G : forall k i l total log,
     i + k = n -> length log = i -> total = fold_right Rplus 0%R (map fTestAccuracy log) ->
     (forall j f test, nth_error log j = Some f -> nth_error parts j = Some test -> good j f test) ->
     for_from i k body (l, total, log) = Fuel \/
     exists l' total' log', for_from i k body (l, total, log) = Ok (l', total', log') /\
       length log' = n /\ total' = fold_right Rplus 0%R (map fTestAccuracy log') /\
       (forall j f test, nth_error log' j = Some f -> nth_error parts j = Some test -> good j f test)).
  { induction k as [|k IH]; intros i l0 total log Hik Li Et Hg.
    - right. simpl. do 3 eexists. split; [reflexivity|]. repeat split; auto. lia.
    - cbn [for_from]. unfold body at 1 3.
      destruct (nth_error_lt parts i) as [test Ht]; [lia|].
      destruct (oneFold_ok fuel h outputs ds n rows vs parts i test l0 Hr Ll Hn Lv F P NE Ht D)
        as [->|(l' & f & tst & -> & F1 & F2 & F3 & F4 & F5 & F6)]; [left; reflexivity|]. simpl.
      apply IH; auto; try lia.
      + rewrite app_length; simpl; lia.
      + rewrite map_app, fold_right_app, Et. simpl.
        generalize (map (@fTestAccuracy L) log). intros ls. clear.
        induction ls as [|x ls IHl]; simpl; [lra|]. rewrite <- IHl. lra.
      + intros j f0 test0 Hj Hp. destruct (Nat.lt_ge_cases j i) as [Lt|Ge].
        * rewrite nth_error_app1 in Hj by lia. eauto.
        * assert (j < length (log ++ [f])) by (apply nth_error_Some; congruence).
          rewrite app_length in H; simpl in H. assert (j = i) by lia. subst j.
          rewrite nth_error_app2, Li, Nat.sub_diag in Hj by lia. inversion Hj; subst f0.
          assert (test0 = test) by congruence. subst test0.
          exists (concat (erase i parts)), tst. do 2 (split; auto). split.
          { rewrite <- P. now apply erase_perm. }
          split; auto. apply NE. eapply nth_error_In; eauto. }
  match goal with |- context [for_ n ?b ?s] => change (for_ n b s) with (for_from 0 n body (l, 0%R, [])) end.
  destruct (G n 0 l 0%R []) as [->|(l' & total & log & -> & Ln & Et & Hg)]; auto.
  { intros [|j] f test Hj; discriminate. }
  right. simpl. exists (total / INR n)%R, log, parts.
  split; [reflexivity|]. split; [auto|]. split; [lia|]. split; [auto|]. split; [|exact Hg].
  unfold mean. rewrite map_length, Ln, Et. reflexivity.
Qed.

(** If the optimizer stops, so does cross validation. *)
Lemma trainLoop_stops (m : L -> nat) train tst rtrain rtest i :
  shows train rtrain -> shows tst rtest ->
  (forall l, Forall (fun r => 0 < length (snd r) /\ 0 < length (predict l (fst r))) (rtrain ++ rtest)) ->
  (forall l, fst (step train l) = true -> m (snd (step train l)) < m l) ->
  forall fuel k l last acc, m l <= fuel ->
  trainLoop step predict signaled fuel i k train tst l last acc <> Fuel.
Proof.
  intros S1 S2 D Dec fuel. induction fuel as [|f IH]; intros k l last acc Hm; simpl;
    specialize (Dec l); destruct (step train l) as [more l']; simpl in Dec.
  - destruct more; [specialize (Dec eq_refl); lia|]. discriminate.
  - destruct more; [|discriminate]. specialize (Dec eq_refl). destruct (signaled i (S k)); [discriminate|].
    simpl. pose proof (D l') as D'. apply Forall_app in D'. destruct D' as [D1 D2].
    destruct (hits_total (predict l') train rtrain S1 D1) as (h1 & -> & _).
    destruct (hits_total (predict l') tst rtest S2 D2) as (h2 & E2 & L2). rewrite E2. simpl.
    destruct (srcSamples train =? 0); simpl; [discriminate|].
    destruct (srcSamples tst =? 0); simpl; [discriminate|]. apply IH. lia.
Qed.

Lemma crossValidation_stops (m : L -> nat) fuel h outputs ds n shuf rows l :
  reachable h -> lists h ds rows -> 1 < n -> n <= length rows -> shuffles shuf ->
  (forall l, Forall (fun r => 0 < length (snd r) /\ 0 < length (predict l (fst r))) rows) ->
  (forall s l, fst (step s l) = true -> m (snd (step s l)) < m l) ->
  (forall s l, m (init s l) <= fuel) ->
  crossValidation init step predict signaled fuel h outputs ds n shuf l <> Fuel.
Proof.
  intros Hr Ll Hn Hle Hsh D Dec Hm.
  destruct (split_structure h ds n shuf rows Ll Hn Hsh) as (vs & parts & E & Lv & F & P & NE & _).
  pose proof (Forall2_length _ _ F) as Lp. specialize (NE Hle).
  unfold crossValidation. rewrite E. cbn [bind].
  match goal with |- context [for_ n ?b ?s] => set (body := b) end.
  assert (G : forall k i s, i + k = n -> for_from i k body s <> Fuel).
  { induction k as [|k IH]; intros i [[l0 total] log] Hik; simpl; [discriminate|].
    destruct (nth_error_lt parts i) as [test Ht]; [lia|].
    assert (O : oneFold init step predict signaled fuel h outputs ds vs i l0 <> Fuel).
    { destruct (complement_parts h ds n rows vs parts i test Hr Ll Hn Lv F Ht) as (h' & Em & Lt & Ltr).
      unfold oneFold. rewrite Lv.
      assert (Le : length (erase i vs) = n - 1) by (rewrite erase_length; lia). rewrite Le.
      replace (length h + n + (n - 1)) with (length h + (n + (n - 1))) by lia.
      rewrite Em. cbn [bind].
      destruct (shows_source h' outputs _ _ Ltr) as (str & E1 & Sh1 & O1 & N1).
      destruct (shows_source h' outputs _ _ Lt) as (sts & E2 & Sh2 & O2 & N2).
      rewrite E1, E2. cbn [bind].
      assert (DD : forall l, Forall (fun r => 0 < length (snd r) /\ 0 < length (predict l (fst r)))
        (concat (erase i parts) ++ test)).
      { intros l1. apply (Permutation_Forall (x := rows)); [|apply D].
        rewrite <- P. symmetry. now apply erase_perm. }
      pose proof (trainLoop_stops m str sts _ test i Sh1 Sh2 DD (Dec str) fuel 0 (init str l0) (init str l0) 0%R (Hm str l0)) as NF.
      destruct (trainLoop _ _ _ _ _ _ _ _ _ _ _) as [[[[x1 x2] x3] x4]| | | |]; simpl; congruence. }
    destruct (oneFold init step predict signaled fuel h outputs ds vs i l0) as [[l' f]| | | |] eqn:Eo;
      try congruence; simpl; rewrite ?Eo; simpl; try congruence.
    apply IH. lia. }
  specialize (G n 0 (l, 0%R, []) eq_refl). unfold for_.
  destruct (for_from 0 n body (l, 0%R, [])) as [[[x1 x2] x3]| | | |]; simpl; congruence.
Qed.

(** integer division makes the accuracy of a fold 0 or 1 *)
Lemma accOf_bool test k last acc : 0 < srcSamples test -> accOf predict test k last acc ->
  acc = 0%R \/ acc = 1%R.
Proof.
  intros HN [A B]. destruct k as [|k]; [left; auto|].
  destruct B as (hits & _ & Hle & ->); [lia|].
  destruct (Nat.eq_dec hits (srcSamples test)) as [->|Ne].
  - right. rewrite Nat.div_same by lia. reflexivity.
  - left. rewrite Nat.div_small by lia. reflexivity.
Qed.

Lemma fold_wrong test k last acc hits : 0 < k -> accOf predict test k last acc ->
  classificationHits (predict last) test = Ok hits -> hits < srcSamples test -> acc = 0%R.
Proof.
  intros Hk [_ B] E Hlt. destruct (B Hk) as (hits' & E' & _ & ->).
  rewrite E in E'. inversion E'; subst. rewrite Nat.div_small by auto. reflexivity.
Qed.

(** more folds than instances: the first test set is empty and its accuracy is a
    division by zero *)
Lemma crossValidation_empty_test fuel h outputs ds n shuf rows l :
  reachable h -> lists h ds rows -> 1 < n -> length rows < n -> shuffles shuf ->
  (forall l, Forall (fun r => 0 < length (snd r) /\ 0 < length (predict l (fst r))) rows) ->
  (forall train l, fst (step train l) = true) -> signaled 0 1 = false -> 0 < fuel ->
  crossValidation init step predict signaled fuel h outputs ds n shuf l = UB.
Proof.
  intros Hr Ll Hn Hlt Hsh D St Sg Hf.
  destruct (split_structure h ds n shuf rows Ll Hn Hsh) as (vs & parts & E & Lv & F & P & _ & NE).
  destruct (NE Hlt) as [rest ->]. unfold crossValidation. rewrite E. simpl.
  destruct n as [|n]; [lia|]. unfold for_. cbn [for_from].
  destruct (complement_parts h ds (S n) rows vs _ 0 [] Hr Ll Hn Lv F eq_refl) as (h' & Em & Lt & Ltr).
  unfold oneFold at 1. rewrite Lv.
  assert (Le : length (erase 0 vs) = S n - 1) by (rewrite erase_length; lia). rewrite Le.
  replace (length h + S n + (S n - 1)) with (length h + (S n + (S n - 1))) by lia.
  rewrite Em. cbn [bind].
  destruct (shows_source h' outputs _ _ Ltr) as (str & E1 & Sh1 & O1 & N1).
  destruct (shows_source h' outputs _ _ Lt) as (sts & E2 & Sh2 & O2 & N2).
  rewrite E1, E2. cbn [bind].
  destruct fuel as [|fuel]; [lia|]. cbn [trainLoop].
  specialize (St str (init str l)). destruct (step str (init str l)) as [more l'] eqn:Es.
  simpl in St. subst more. rewrite Sg. simpl negb. cbn [andb].
  pose proof (D l') as D'.
  assert (DD : Forall (fun r => 0 < length (snd r) /\ 0 < length (predict l' (fst r)))
    (concat (erase 0 ([] :: rest)))).
  { apply (Permutation_Forall (x := rows)); [|apply D]. rewrite <- P. reflexivity. }
  destruct (hits_total (predict l') str _ Sh1 DD) as (h1 & -> & _).
  destruct (hits_total (predict l') sts _ Sh2) as (h2 & -> & _); [constructor|].
  cbn [bind]. rewrite N2. simpl. destruct (Nat.eqb (srcSamples str) 0); reflexivity.
Qed.
End CV.

(** ** evaluator *)
Lemma triple_eq (a a' : R) (b b' c c' : nat) : a = a' -> b = b' -> c = c' -> Ok (a, b, c) = Ok (a', b', c').
Proof. congruence. Qed.

Lemma evaluate_ok e c rows : 0 < eInterval e -> callable c rows ->
  exists e', evaluate e (fst c) (snd c) = Ok e' /\ eInterval e' = eInterval e /\
    eIteration e' = S (eIteration e) /\
    (if S (eIteration e) mod eInterval e =? 0
     then exists line, eLog e' = eLog e ++ [line] /\ lIteration line = S (eIteration e) /\
            reports line (fst c) rows
     else eLog e' = eLog e).
Proof.
  intros HI [Sh F]. unfold evaluate.
  destruct (Nat.eqb_spec (eInterval e) 0); [lia|]. cbn [bind].
  destruct (S (eIteration e) mod eInterval e =? 0) eqn:Em.
  2: { eexists. split; [reflexivity|]. auto. }
  destruct (classes_exist (fst c) rows) as (ts & ps & T & P & DT & DP).
  { eapply Forall_impl; [|exact F]. simpl. intros r [H1 H2]. rewrite H2. auto. }
  set (learner := fst c) in *.
  erewrite for_source with (body' := fun r s => let '(err, correct, wrong) := s in
        d <- vsub (learner (fst r)) (snd r) ;;
        j1 <- oneOfCDecoding (snd r) ;;
        j2 <- oneOfCDecoding (learner (fst r)) ;;
        Ok (if Nat.eqb j1 j2
            then ((err + squaredNorm d)%R, S correct, wrong)
            else ((err + squaredNorm d)%R, correct, S wrong))); [|exact Sh|].
  2: { intros i r [[a b] d] _ -> ->. reflexivity. }
  assert (G : forall err cor wr, exists wr',
    for_each rows (fun r s => let '(err, correct, wrong) := s in
        d <- vsub (learner (fst r)) (snd r) ;;
        j1 <- oneOfCDecoding (snd r) ;;
        j2 <- oneOfCDecoding (learner (fst r)) ;;
        Ok (if Nat.eqb j1 j2
            then ((err + squaredNorm d)%R, S correct, wrong)
            else ((err + squaredNorm d)%R, correct, S wrong))) (err, cor, wr) =
    Ok ((err + sum_rows (fun r => sq_dist (learner (fst r)) (snd r)) rows)%R,
        cor + number Nat.eqb ts ps, wr') /\ number Nat.eqb ts ps + wr' = wr + length rows).
  { clear - F DT DP. revert ts ps DT DP. induction F as [|r rows [H1 H2] F IH]; intros ts ps DT DP err cor wr;
      inversion DT as [|r1 t l1 ts' K1 T']; inversion DP as [|r2 p l3 ps' K2 P']; subst.
    - exists wr. simpl. split; [|unfold number; simpl; lia].
      unfold number, sum_rows. apply triple_eq; simpl; try lia; lra.
    - cbn [for_each]. destruct (vsub_sq _ _ H2) as (d & -> & Ed). cbn [bind]. rewrite K1. cbn [bind]. rewrite K2. cbn [bind].
      rewrite number_cons. destruct (Nat.eqb t p); rewrite Ed; cbn [length sum_rows fold_right];
      match goal with |- context [for_each rows _ (?a, ?b, ?c)] => destruct (IH ts' ps' T' P' a b c) as (wr' & E & Hs) end;
      exists wr'; rewrite E; (split; [|lia]); apply triple_eq; try lia; unfold sum_rows; lra. }
  destruct (G 0%R 0 0) as (wr & -> & Hs). cbn [bind].
  eexists. split; [reflexivity|]. simpl. split; auto. split; auto.
  eexists. split; [reflexivity|]. simpl. split; auto. exists ts, ps. simpl.
  split; [auto|]. split; [auto|]. split; [auto|]. split; [lia|].
  destruct Sh as [-> _]. f_equal. lra.
Qed.

Lemma evaluations_ok interval (calls : list ((vec -> vec) * source)) (rowss : list (list (vec * vec))) :
  0 < interval -> Forall2 callable calls rowss ->
  exists e, evaluations (newEvaluator interval) calls = Ok e /\
    map lIteration (eLog e) = filter (fun k => k mod interval =? 0) (seq 1 (length calls)) /\
    Forall (fun line => exists c rows, nth_error calls (lIteration line - 1) = Some c /\
       nth_error rowss (lIteration line - 1) = Some rows /\ reports line (fst c) rows) (eLog e).
Proof.
  intros HI F. unfold evaluations.
  assert (G : forall suf sufr pre prer e, length pre = length prer ->
    calls = pre ++ suf -> rowss = prer ++ sufr -> Forall2 callable suf sufr ->
    eInterval e = interval -> eIteration e = length pre ->
    map lIteration (eLog e) = filter (fun k => k mod interval =? 0) (seq 1 (length pre)) ->
    Forall (fun line => exists c rows, nth_error calls (lIteration line - 1) = Some c /\
       nth_error rowss (lIteration line - 1) = Some rows /\ reports line (fst c) rows) (eLog e) ->
    exists e', for_each suf (fun c e => evaluate e (fst c) (snd c)) e = Ok e' /\
    map lIteration (eLog e') = filter (fun k => k mod interval =? 0) (seq 1 (length calls)) /\
    Forall (fun line => exists c rows, nth_error calls (lIteration line - 1) = Some c /\
       nth_error rowss (lIteration line - 1) = Some rows /\ reports line (fst c) rows) (eLog e')).
  { induction suf as [|c suf IH]; intros sufr pre prer e Lpre Ec Er Fs Ei Eit Em Fl;
      inversion Fs as [|c' rows l1 sufr' Hc Fs']; subst sufr.
    - exists e. rewrite app_nil_r in Ec. subst calls. simpl. split; [reflexivity|]. split; [exact Em|exact Fl].
    - subst c' l1. cbn [for_each]. destruct (evaluate_ok e c rows) as (e1 & -> & I1 & I2 & I3); auto; [lia|].
      cbn [bind].
      apply (IH sufr' (pre ++ [c]) (prer ++ [rows])); auto.
      + rewrite !app_length. simpl. lia.
      + now rewrite <- app_assoc.
      + now rewrite <- app_assoc.
      + congruence.
      + rewrite app_length. simpl. lia.
      + rewrite app_length. simpl length. rewrite Nat.add_1_r, seq_S, filter_app. simpl.
        rewrite Ei, Eit in I3. destruct (S (length pre) mod interval =? 0).
        * destruct I3 as (line & -> & Hl & _). rewrite map_app, Em. simpl. now rewrite Hl.
        * rewrite app_nil_r. congruence.
      + destruct (S (eIteration e) mod eInterval e =? 0); [|now rewrite I3].
        destruct I3 as (line & -> & Hl & Rp). apply Forall_app. split; auto. constructor; [|constructor].
        exists c, rows. rewrite Hl, Eit. replace (S (length pre) - 1) with (length pre) by lia.
        rewrite Ec, Er. split; [|split; auto].
        * rewrite nth_error_app2, Nat.sub_diag by lia. reflexivity.
        * rewrite Lpre, nth_error_app2, Nat.sub_diag by lia. reflexivity. }
  apply (G calls rowss [] [] (newEvaluator interval)); auto. constructor.
Qed.
