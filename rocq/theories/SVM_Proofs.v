(** Proofs about the LibSVM format. *)
From Verif Require Import Base BaseFacts Matrix IO_Model IO_Spec.

Lemma trunc_IZR z : trunc (IZR z) = z.
Proof.
  unfold trunc. destruct (Rle_dec 0 (IZR z)); [apply Zfloor_IZR|].
  rewrite <- opp_IZR, Zfloor_IZR. lia.
Qed.

Definition lastIndex (r : instance) : Z :=
  wordInt (last (map (fun p => WFeat (fst p) (snd p)) (snd r)) (WNum (IZR (fst r)))).

Definition minimalFrom (c : Z) (file : list instance) : Z :=
  fold_left (fun m r => Z.max m (lastIndex r)) file c.

Definition tokensOf (file : list instance) : list (option word) :=
  flat_map (fun r => map (fun p => Some (WFeat (fst p) (snd p))) (snd r) ++ [None]) file.

Lemma firstPass_ok file : forall c0,
  for_each (map line_of file) (fun line c =>
    match line with
    | [] => Ok c
    | classStr :: rest =>
        let lastw := last rest classStr in
        Ok (mkColl (cFeatures c ++ map Some rest ++ [None])
                   (cTargets c ++ [wordInt classStr])
                   (Z.max (cMinimal c) (wordInt lastw))
                   (S (cInstances c)))
    end) c0 =
  Ok (mkColl (cFeatures c0 ++ tokensOf file) (cTargets c0 ++ map fst file)
             (minimalFrom (cMinimal c0) file) (cInstances c0 + length file)).
Proof.
  induction file as [|r file IH]; intros [fs ts m n]; simpl.
  - now rewrite !app_nil_r, Nat.add_0_r.
  - etransitivity; [apply IH|]. cbn [cFeatures cTargets cMinimal cInstances].
    rewrite map_map, trunc_IZR, <- !app_assoc. simpl.
    f_equal. f_equal. lia.
Qed.

Lemma last_map {A B} (f : A -> B) l d : last (map f l) (f d) = f (last l d).
Proof. induction l as [|a [|b l] IH]; simpl in *; auto. Qed.

Lemma last_default {A} (l : list A) d d' : l <> [] -> last l d = last l d'.
Proof. induction l as [|a [|b l] IH]; simpl in *; intros; try congruence. apply IH. congruence. Qed.

Lemma lastIndex_nonempty z fs d : fs <> [] -> lastIndex (z, fs) = Z.of_nat (fst (last fs d)).
Proof.
  intros H. unfold lastIndex. simpl.
  rewrite (last_default _ _ (WFeat (fst d) (snd d))) by (destruct fs; simpl; congruence).
  pose proof (last_map (fun p : nat * R => WFeat (fst p) (snd p)) fs d) as E. cbn beta in E.
  rewrite E. reflexivity.
Qed.

Lemma increasing_last fs : forall lo d, increasing_from lo fs -> fs <> [] ->
  (forall k x, In (k, x) fs -> lo <= k <= fst (last fs d)) /\ In (last fs d) fs.
Proof.
  induction fs as [|[k0 x0] fs IH]; intros lo d H N; [congruence|].
  simpl in H. destruct H as [H1 H2]. destruct fs as [|p fs].
  - simpl. split; auto. intros k x [E|[]]. inversion E; subst. lia.
  - destruct (IH (S k0) d H2) as [A B]; [congruence|].
    change (last ((k0, x0) :: p :: fs) d) with (last (p :: fs) d).
    split; [|right; exact B].
    intros k x [E|Hin].
    + inversion E; subst. split; auto. destruct (last (p :: fs) d) as [k' x'] eqn:El.
      destruct (A k' x' B) as [A1 _]. simpl. lia.
    + destruct (A k x Hin). lia.
Qed.

Lemma minimal_width file : forall c W,
  (forall r, In r file -> well_formed r) ->
  (forall r, In r file -> snd r = [] -> (fst r <= Z.of_nat c)%Z) ->
  width file c W -> minimalFrom (Z.of_nat c) file = Z.of_nat W.
Proof.
  induction file as [|[z fs] file IH]; intros c W Hw He (H1 & H2 & H3); unfold minimalFrom in *; simpl.
  - destruct H3 as [->|(r & x & [] & _)]. reflexivity.
  - destruct fs as [|p fs'] eqn:Efs.
    + assert (E : Z.max (Z.of_nat c) (lastIndex (z, [])) = Z.of_nat c).
      { unfold lastIndex. simpl. rewrite trunc_IZR. specialize (He (z, []) (or_introl eq_refl) eq_refl).
        simpl in He. lia. }
      rewrite E. apply IH; auto.
      * intros r Hr. apply Hw. now right.
      * intros r Hr. apply He. now right.
      * split; auto. split.
        -- intros r k x Hr. apply (H2 r k x). now right.
        -- destruct H3 as [?|(r & x & [<-|Hr] & Hx)]; auto; [destruct Hx|]. right; eauto.
    + rewrite <- Efs in *. assert (Nfs : fs <> []) by (subst; congruence).
      rewrite (lastIndex_nonempty z fs (0, 0%R)) by auto.
      destruct (increasing_last fs 1 (0, 0%R)) as [A B]; auto.
      { apply (Hw (z, fs)). now left. }
      set (k := fst (last fs (0, 0%R))) in *.
      rewrite <- Nat2Z.inj_max. apply IH.
      * intros r Hr. apply Hw. now right.
      * intros r Hr Er. specialize (He r (or_intror Hr) Er). lia.
      * assert (Hk : k <= W).
        { destruct (last fs (0, 0%R)) as [k' x'] eqn:El. apply (H2 (z, fs) k x'); [now left|].
          exact B. }
        split; [lia|]. split.
        -- intros r k0 x Hr. apply (H2 r k0 x). now right.
        -- destruct H3 as [->|(r & x & [<-|Hr] & Hx)].
           ++ left. lia.
           ++ left. simpl in Hx. destruct (A _ _ Hx). lia.
           ++ right. eauto.
Qed.

(** the last pair for column [j] wins *)
Definition over (fs : list (nat * R)) (j : nat) (x : R) : R :=
  fold_left (fun acc p => if Nat.eqb (fst p) (S j) then snd p else acc) fs x.

Lemma over_notin fs j x : (forall y, ~ In (S j, y) fs) -> over fs j x = x.
Proof.
  revert x. induction fs as [|[k y] fs IH]; intros x H; simpl; auto.
  destruct (Nat.eqb_spec k (S j)) as [->|].
  - exfalso. apply (H y). now left.
  - apply IH. intros y' Hy. apply (H y'). now right.
Qed.

Lemma increasing_notin fs : forall lo k x, increasing_from lo fs -> k < lo -> ~ In (k, x) fs.
Proof.
  induction fs as [|[k0 x0] fs IH]; intros lo k x H L; simpl; [tauto|].
  simpl in H. destruct H as [H1 H2]. intros [E|Hin].
  - inversion E. lia.
  - revert Hin. apply (IH (S k0)); auto. lia.
Qed.

Lemma over_in fs : forall lo j x y, increasing_from lo fs -> In (S j, y) fs -> over fs j x = y.
Proof.
  induction fs as [|[k0 x0] fs IH]; intros lo j x y H Hin0; [destruct Hin0|].
  destruct H as [H1 H2]. simpl in *. destruct Hin0 as [E|Hin].
  - inversion E; subst. rewrite Nat.eqb_refl. apply over_notin.
    intros y'. apply increasing_notin with (1 := H2). lia.
  - apply (IH (S k0)); tauto.
Qed.

Lemma over_feature fs j x : increasing_from 1 fs -> feature fs (S j) x -> over fs j 0%R = x.
Proof.
  intros H [Hin|[-> N]].
  - now apply over_in with (lo := 1).
  - now apply over_notin.
Qed.

Definition putFeature (dec : bool) (tok : option word) (s : mat * nat) : res (mat * nat) :=
  let '(inp, row) := s in
  match tok with
  | Some w =>
      let index := wordInt w in
      let index := if dec then (index - 1)%Z else index in
      k <- zidx index ;;
      inp <- mset inp row k (wordReal w) ;; Ok (inp, row)
  | None => Ok (inp, S row)
  end.

Lemma putFeatures_row fs : forall lo m row W,
  row < rows m -> cols m = W -> increasing_from lo fs -> 1 <= lo ->
  (forall k x, In (k, x) fs -> k <= W) ->
  exists m', for_each (map (fun p => Some (WFeat (fst p) (snd p))) fs) (putFeature true) (m, row) = Ok (m', row) /\
    rows m' = rows m /\ cols m' = W /\
    forall i j, at_ m' i j = if Nat.eqb i row then over fs j (at_ m i j) else at_ m i j.
Proof.
  induction fs as [|[k x] fs IH]; intros lo m row W Hr Hc Hi Hlo Hk; simpl.
  - exists m. repeat split; auto. intros. now destruct (Nat.eqb i row).
  - simpl in Hi. destruct Hi as [Hi1 Hi2].
    assert (HkW : k <= W) by (apply (Hk k x); now left).
    rewrite zidx_Ok by lia. cbn [bind].
    rewrite mset_Ok by lia. cbn [bind].
    destruct (IH (S k) (mupd m row (Z.to_nat (Z.of_nat k - 1)) x) row W) as (m' & E & R1 & R2 & R3); auto.
    + lia.
    + intros k' x' Hin. apply (Hk k' x'). now right.
    + exists m'. split; [exact E|]. repeat split; auto.
      intros i j. rewrite R3. rewrite at_mupd.
      destruct (Nat.eqb_spec i row) as [->|]; simpl; auto.
      destruct (Nat.eqb_spec j (Z.to_nat (Z.of_nat k - 1))), (Nat.eqb_spec k (S j)); auto; lia.
Qed.

Lemma putFeatures_ok file W : (forall r, In r file -> well_formed r) ->
  (forall r k x, In r file -> In (k, x) (snd r) -> k <= W) ->
  exists m', for_each (tokensOf file) (putFeature true) (mzero (length file) W, 0) = Ok (m', length file) /\
    rows m' = length file /\ cols m' = W /\
    forall i r j x, nth_error file i = Some r -> feature (snd r) (S j) x -> at_ m' i j = x.
Proof.
  intros Hw Hk.
  enough (G : forall todo done m, file = done ++ todo -> rows m = length file -> cols m = W ->
    (forall i r j x, nth_error done i = Some r -> feature (snd r) (S j) x -> at_ m i j = x) ->
    (forall i j, length done <= i -> at_ m i j = 0%R) ->
    exists m', for_each (tokensOf todo) (putFeature true) (m, length done) = Ok (m', length file) /\
      rows m' = length file /\ cols m' = W /\
      forall i r j x, nth_error file i = Some r -> feature (snd r) (S j) x -> at_ m' i j = x).
  { apply (G file [] (mzero (length file) W)); auto. intros i r j x H. now destruct i. }
  induction todo as [|r todo IH]; intros done m Ef Hr Hc Hd H0.
  - rewrite app_nil_r in Ef. subst done. simpl. exists m. auto.
  - unfold tokensOf. simpl flat_map. rewrite <- app_assoc, for_each_app.
    assert (Hin : In r file) by (subst file; apply in_or_app; right; now left).
    destruct (putFeatures_row (snd r) 1 m (length done) W) as (m1 & E1 & R1 & R2 & R3); auto.
    + rewrite Hr, Ef, app_length. simpl. lia.
    + now apply Hw.
    + intros k x. now apply Hk.
    + rewrite E1. cbn [bind app for_each putFeature].
      destruct (IH (done ++ [r]) m1) as (m' & E' & Q); auto.
      * now rewrite <- app_assoc.
      * now rewrite R1.
      * intros i r' j x Hn Hf. rewrite R3.
        destruct (Nat.lt_ge_cases i (length done)) as [Hi|Hi].
        -- rewrite (proj2 (Nat.eqb_neq _ _)) by lia. rewrite nth_error_app1 in Hn by auto. eauto.
        -- assert (i = length done).
           { assert (i < length (done ++ [r])) by (apply nth_error_Some; congruence).
             rewrite app_length in H. simpl in H. lia. }
           subst i. rewrite Nat.eqb_refl. rewrite nth_error_app2, Nat.sub_diag in Hn by auto.
           inversion Hn; subst r'. rewrite H0 by lia. apply over_feature; auto. now apply Hw.
      * intros i j Hi. rewrite app_length in Hi. simpl in Hi. rewrite R3.
        rewrite (proj2 (Nat.eqb_neq _ _)) by lia. apply H0. lia.
      * rewrite app_length in E'. simpl in E'. rewrite Nat.add_1_r in E'. eauto.
Qed.

Lemma labels_count file ls : labels file ls -> classCount (map fst file) = length ls.
Proof.
  intros [N H]. unfold classCount.
  apply Permutation_length. apply NoDup_Permutation; auto.
  - apply NoDup_nodup.
  - intros z. rewrite nodup_In. symmetry. apply H.
Qed.

Definition putLabel (ts : list Z) (multi : bool) (i : nat) (out : mat) : res mat :=
  t <- vget ts i ;;
  if multi then k <- zidx (t - 1) ;; mset out i k 1%R else mset out i 0 (IZR t).

Lemma svmLoad_unfold file c :
  svmLoad (map line_of file) c =
  let classes := classCount (map fst file) in
  let multi := Nat.ltb 2 classes in
  out <- for_ (length (map fst file)) (putLabel (map fst file) multi)
           (mzero (length file) (if multi then classes else 1)) ;;
  ' (inp, _) <- for_each (tokensOf file) (putFeature (Nat.ltb 1 classes))
     (mzero (length file) (Z.to_nat (minimalFrom (Z.of_nat c) file)), 0) ;;
  _ <- check (Nat.eqb (rows inp) (rows out)) ;;
  Ok (length file, inp, out).
Proof.
  unfold svmLoad, firstPass. rewrite firstPass_ok. cbn [bind cFeatures cTargets cMinimal cInstances app].
  reflexivity.
Qed.

Lemma putLabels_single ts : 
  exists out, for_ (length ts) (putLabel ts false) (mzero (length ts) 1) = Ok out /\
    rows out = length ts /\ cols out = 1 /\
    forall i t, nth_error ts i = Some t -> at_ out i 0 = IZR t.
Proof.
  destruct (for_inv (fun n (m : mat) => rows m = length ts /\ cols m = 1 /\
     forall i t, i < n -> nth_error ts i = Some t -> at_ m i 0 = IZR t)
    (putLabel ts false) (length ts) (mzero (length ts) 1)) as (m & E & R1 & R2 & R3).
  - repeat split; intros; lia.
  - intros i m Hi (R1 & R2 & R3). unfold putLabel.
    destruct (nth_error_lt ts i Hi) as [t Et]. unfold vget. rewrite Et. cbn [bind].
    rewrite mset_Ok by lia. eexists. split; [reflexivity|]. repeat split; auto.
    intros i' t' Hi' Et'. rewrite at_mupd. destruct (Nat.eqb_spec i' i) as [->|]; simpl; [congruence|].
    apply R3; auto; lia.
  - exists m. repeat split; auto. intros i t Et. apply R3; auto. apply nth_error_Some. congruence.
Qed.

Lemma putLabels_multi ts C : (forall t, In t ts -> (1 <= t <= Z.of_nat C)%Z) ->
  exists out, for_ (length ts) (putLabel ts true) (mzero (length ts) C) = Ok out /\
    rows out = length ts /\ cols out = C /\
    forall i t j, nth_error ts i = Some t -> j < C ->
      at_ out i j = if Z.eqb t (Z.of_nat j + 1) then 1%R else 0%R.
Proof.
  intros Ht.
  destruct (for_inv (fun n (m : mat) => rows m = length ts /\ cols m = C /\
     (forall i t j, i < n -> nth_error ts i = Some t -> 
       at_ m i j = if Z.eqb t (Z.of_nat j + 1) then 1%R else 0%R) /\
     (forall i j, n <= i -> at_ m i j = 0%R))
    (putLabel ts true) (length ts) (mzero (length ts) C)) as (m & E & R1 & R2 & R3 & R4).
  - repeat split; intros; lia.
  - intros i m Hi (R1 & R2 & R3 & R4). unfold putLabel.
    destruct (nth_error_lt ts i Hi) as [t Et]. unfold vget. rewrite Et. cbn [bind].
    assert (Hr : (1 <= t <= Z.of_nat C)%Z) by (apply Ht; eapply nth_error_In; eauto).
    rewrite zidx_Ok by lia. cbn [bind].
    rewrite mset_Ok by lia. eexists. split; [reflexivity|]. repeat split; auto.
    + intros i' t' j Hi' Et'. rewrite at_mupd. destruct (Nat.eqb_spec i' i) as [->|]; simpl.
      * assert (t' = t) by congruence. subst t'.
        destruct (Nat.eqb_spec j (Z.to_nat (t - 1))), (Z.eqb_spec t (Z.of_nat j + 1)); auto; lia.
      * apply R3; auto; lia.
    + intros i' j Hi'. rewrite at_mupd. rewrite (proj2 (Nat.eqb_neq _ _)) by lia. apply R4. lia.
  - exists m. repeat split; auto. intros i t j Et Hj. apply R3; auto. apply nth_error_Some. congruence.
Qed.

(** labels outside 1..C with more than two classes *)
Lemma putLabels_multi_bad ts C i t : nth_error ts i = Some t -> (t < 1 \/ Z.of_nat C < t)%Z ->
  for_ (length ts) (putLabel ts true) (mzero (length ts) C) = UB.
Proof.
  intros Et Hbad.
  assert (G : forall n k m, k + n = length ts -> k <= i -> cols m = C -> rows m = length ts ->
     for_from k n (putLabel ts true) m = UB).
  { induction n as [|n IH]; intros k m Hk Hi Hc Hr.
    - assert (i < length ts) by (apply nth_error_Some; congruence). lia.
    - simpl. unfold putLabel at 1.
      destruct (nth_error_lt ts k) as [t' Et']; [lia|]. unfold vget. rewrite Et'. cbn [bind].
      destruct (Z.lt_ge_cases (t' - 1) 0) as [L|L].
      { unfold zidx. rewrite (proj2 (Z.ltb_lt _ _)) by lia. reflexivity. }
      rewrite zidx_Ok by lia. cbn [bind]. unfold mset.
      destruct (inside m k (Z.to_nat (t' - 1))) eqn:Ei; [|reflexivity]. cbn [bind].
      apply inside_iff in Ei. apply IH; auto; [lia|].
      assert (k <> i); [|lia]. intros ->. assert (t' = t) by congruence. subst t'. lia. }
  apply G; auto. lia.
Qed.

Lemma svmLoad_binary file c W ls :
  (forall r, In r file -> well_formed r) ->
  (forall r, In r file -> snd r = [] -> (fst r <= Z.of_nat c)%Z) ->
  width file c W -> labels file ls -> length ls = 2 ->
  exists inp out, svmLoad (map line_of file) c = Ok (length file, inp, out) /\
    rows inp = length file /\ cols inp = W /\ rows out = length file /\ cols out = 1 /\
    forall i r, nth_error file i = Some r ->
      at_ out i 0 = IZR (fst r) /\
      forall j x, feature (snd r) (S j) x -> at_ inp i j = x.
Proof.
  intros Hw He HW Hl H2. rewrite svmLoad_unfold. rewrite (labels_count file ls Hl), H2. cbv zeta. change (2 <? 2) with false. change (1 <? 2) with true.
  destruct (putLabels_single (map fst file)) as (out & E1 & A1 & A2 & A3).
  rewrite map_length in E1, A1. rewrite map_length. cbn iota. rewrite E1. cbn [bind].
  rewrite (minimal_width file c W) by auto. rewrite Nat2Z.id.
  destruct (putFeatures_ok file W) as (inp & E2 & B1 & B2 & B3); auto.
  { apply HW. }
  rewrite E2. cbn [bind]. rewrite A1, B1, Nat.eqb_refl. simpl.
  exists inp, out. repeat split; auto.
  - apply A3. rewrite nth_error_map, H. reflexivity.
  - intros j x. eauto.
Qed.

Lemma svmLoad_multi file c W ls :
  (forall r, In r file -> well_formed r) ->
  (forall r, In r file -> snd r = [] -> (fst r <= Z.of_nat c)%Z) ->
  width file c W -> labels file ls -> 2 < length ls ->
  (forall z, In z ls -> (1 <= z <= Z.of_nat (length ls))%Z) ->
  exists inp out, svmLoad (map line_of file) c = Ok (length file, inp, out) /\
    rows inp = length file /\ cols inp = W /\ rows out = length file /\ cols out = length ls /\
    forall i r, nth_error file i = Some r ->
      (forall j, j < length ls -> at_ out i j = if Z.eqb (fst r) (Z.of_nat j + 1) then 1%R else 0%R) /\
      forall j x, feature (snd r) (S j) x -> at_ inp i j = x.
Proof.
  intros Hw He HW Hl H2 Hrange. rewrite svmLoad_unfold. rewrite (labels_count file ls Hl).
  cbv zeta. rewrite (proj2 (Nat.ltb_lt 2 _)) by lia. rewrite (proj2 (Nat.ltb_lt 1 _)) by lia.
  destruct (putLabels_multi (map fst file) (length ls)) as (out & E1 & A1 & A2 & A3).
  { intros t Ht. apply Hrange. now apply Hl. }
  rewrite map_length in E1, A1. rewrite map_length. cbn iota. rewrite E1. cbn [bind].
  rewrite (minimal_width file c W) by auto. rewrite Nat2Z.id.
  destruct (putFeatures_ok file W) as (inp & E2 & B1 & B2 & B3); auto.
  { apply HW. }
  rewrite E2. cbn [bind]. rewrite A1, B1, Nat.eqb_refl. simpl.
  exists inp, out. repeat split; auto.
  - intros j Hj. apply A3; auto. rewrite nth_error_map, H. reflexivity.
  - intros j x. eauto.
Qed.

Lemma svmLoad_multi_bad file c ls z :
  labels file ls -> 2 < length ls -> In z ls -> (z < 1 \/ Z.of_nat (length ls) < z)%Z ->
  svmLoad (map line_of file) c = UB.
Proof.
  intros Hl H2 Hz Hbad. rewrite svmLoad_unfold. rewrite (labels_count file ls Hl).
  cbv zeta. rewrite (proj2 (Nat.ltb_lt 2 _)) by lia.
  apply Hl in Hz. apply In_nth_error in Hz. destruct Hz as [i Ei].
  pose proof (putLabels_multi_bad (map fst file) (length ls) i z Ei Hbad) as E.
  cbn iota. replace (length file) with (length (map fst file)) at 1 by apply map_length.
  rewrite E. reflexivity.
Qed.

(** one class only: indices are not decremented *)
Lemma svmLoad_single_bad file c ls W r x :
  labels file ls -> length ls = 1 -> (forall r, In r file -> well_formed r) ->
  (forall r, In r file -> snd r = [] -> (fst r <= Z.of_nat c)%Z) ->
  width file c W -> In r file -> In (W, x) (snd r) ->
  svmLoad (map line_of file) c = UB.
Proof.
  intros Hl H1 Hw He HW Hr Hx. rewrite svmLoad_unfold. rewrite (labels_count file ls Hl), H1. cbv zeta. change (2 <? 1) with false. change (1 <? 1) with false.
  destruct (putLabels_single (map fst file)) as (out & E1 & A1 & A2 & A3).
  rewrite map_length in E1, A1. rewrite map_length. cbn iota. rewrite E1. cbn [bind].
  rewrite (minimal_width file c W) by auto. rewrite Nat2Z.id.
  assert (G : forall toks m row, cols m = W -> In (Some (WFeat W x)) toks ->
     (forall w, In (Some w) toks -> exists k y, w = WFeat k y) ->
     for_each toks (putFeature false) (m, row) = UB).
  { clear. induction toks as [|tok toks IH]; intros m row Hc Hin Hf; [destruct Hin|].
    simpl. destruct tok as [w|].
    - destruct (Hf w) as (k & y & ->); [now left|]. simpl. rewrite zidx_Ok by lia. cbn [bind].
      unfold mset. destruct (inside m row (Z.to_nat (Z.of_nat k))) eqn:Ei; [|reflexivity]. cbn [bind].
      apply inside_iff in Ei. apply IH; auto.
      + destruct Hin as [Hin|Hin]; auto. inversion Hin; subst. lia.
      + intros w Hw. apply Hf. now right.
    - simpl. apply IH; auto.
      + destruct Hin as [Hin|Hin]; auto. discriminate.
      + intros w Hw. apply Hf. now right. }
  rewrite G; auto.
  - unfold tokensOf. apply in_flat_map. exists r. split; auto. apply in_or_app. left.
    apply in_map_iff. exists (W, x). auto.
  - intros w Hin. unfold tokensOf in Hin. apply in_flat_map in Hin. destruct Hin as (r' & _ & Hin).
    apply in_app_or in Hin. destruct Hin as [Hin|[Hin|[]]]; [|discriminate].
    apply in_map_iff in Hin. destruct Hin as ([k y] & E & _). inversion E. eauto.
Qed.

(** ** save *)
Section SVM.
Variable prt : R -> R.

(** nonzero entries of a row, printed *)
Definition feats (m : mat) (i : nat) : list (nat * R) :=
  flat_map (fun j => if Rltb 0 (Rabs (at_ m i j)) then [(j + 1, prt (at_ m i j))] else []) (seq 0 (cols m)).

Lemma featLoop_ok m i label : i < rows m ->
  for_ (cols m) (fun j line =>
        x <- mget m i j ;;
        Ok (if Rltb 0 (Rabs x) then line ++ [WFeat (j + 1) (prt x)] else line)) [label] =
  Ok (label :: map (fun p => WFeat (fst p) (snd p)) (feats m i)).
Proof.
  intros Hi. unfold feats.
  destruct (for_inv (fun n (s : list word) => s = label :: map (fun p => WFeat (fst p) (snd p))
     (flat_map (fun j => if Rltb 0 (Rabs (at_ m i j)) then [(j + 1, prt (at_ m i j))] else []) (seq 0 n)))
    (fun j line =>
        x <- mget m i j ;;
        Ok (if Rltb 0 (Rabs x) then line ++ [WFeat (j + 1) (prt x)] else line)) (cols m) [label])
   as (s & E & ->); auto.
  intros j s Hj ->. rewrite mget_Ok by auto. cbn [bind]. eexists. split; [reflexivity|].
  rewrite seq_S, flat_map_app, map_app. simpl. destruct (Rltb 0 (Rabs (at_ m i j))); simpl; auto.
  now rewrite app_nil_r.
Qed.

Lemma feats_increasing m i : increasing_from 1 (feats m i).
Proof.
  unfold feats.
  assert (G : forall n k, increasing_from (k + 1)
    (flat_map (fun j => if Rltb 0 (Rabs (at_ m i j)) then [(j + 1, prt (at_ m i j))] else []) (seq k n))).
  { induction n as [|n IH]; intros k; simpl; auto. destruct (Rltb 0 (Rabs (at_ m i k))); simpl.
    - split; auto. specialize (IH (S k)). now rewrite Nat.add_1_r in *.
    - specialize (IH (S k)). simpl in IH.
      assert (W : forall l lo, increasing_from (S lo) l -> increasing_from lo l).
      { intros [|p l] lo; simpl; auto. intros [A B]. split; auto. lia. }
      now apply W. }
  apply (G (cols m) 0).
Qed.

Lemma feats_feature m i j : j < cols m ->
  feature (feats m i) (S j) (if Reqb (at_ m i j) 0 then 0%R else prt (at_ m i j)).
Proof.
  intros Hj. unfold feature, feats. destruct (Reqb (at_ m i j) 0) eqn:E.
  - right. split; auto. apply Reqb_true in E. intros y Hin. apply in_flat_map in Hin.
    destruct Hin as (k & _ & Hk). destruct (Rltb 0 (Rabs (at_ m i k))) eqn:Ek; [|destruct Hk].
    destruct Hk as [Hk|[]]. inversion Hk; subst. assert (k = j) by lia. subst k.
    rewrite E, Rabs_R0 in Ek. apply Rltb_true in Ek. lra.
  - left. apply in_flat_map. exists j. split; [apply in_seq; lia|].
    apply Reqb_false in E. assert (0 < Rabs (at_ m i j))%R by now apply Rabs_pos_lt.
    rewrite (proj2 (Rltb_true _ _)) by auto. left. f_equal. lia.
Qed.

Lemma feats_bound m i k x : In (k, x) (feats m i) -> k <= cols m.
Proof.
  unfold feats. intros Hin. apply in_flat_map in Hin.
  destruct Hin as (j & Hj & Hk). apply in_seq in Hj. destruct (Rltb 0 (Rabs (at_ m i j))); [|destruct Hk].
  destruct Hk as [Hk|[]]. inversion Hk; subst. lia.
Qed.

Lemma feats_empty m i : feats m i = [] -> forall j, j < cols m -> at_ m i j = 0%R.
Proof.
  intros E j Hj. destruct (Req_dec (at_ m i j) 0) as [|N]; auto. exfalso.
  assert (In (j + 1, prt (at_ m i j)) (feats m i)); [|rewrite E in *; auto].
  unfold feats. apply in_flat_map. exists j. split; [apply in_seq; lia|].
  rewrite (proj2 (Rltb_true _ _)) by now apply Rabs_pos_lt. now left.
Qed.

(** the file written for one output with integer labels *)
Lemma svmSave_single inp out (z : nat -> Z) : rows inp = rows out -> cols out = 1 ->
  (forall i, i < rows out -> prt (at_ out i 0) = IZR (z i)) ->
  svmSave prt inp out = Ok (map line_of (map (fun i => (z i, feats inp i)) (seq 0 (rows inp)))).
Proof.
  intros Hr Hc Hz. unfold svmSave. rewrite Hr, Nat.eqb_refl. simpl check. cbn [bind]. rewrite <- Hr.
  match goal with |- for_ _ ?b _ = _ => set (body := b) end.
  destruct (for_inv (fun n (s : list (list word)) => s = map line_of (map (fun i => (z i, feats inp i)) (seq 0 n)))
    body (rows inp) []) as (s & E & ->); auto.
  intros i s Hi ->. unfold body. rewrite Hc. change (1 <? 1) with false. cbn iota. rewrite mget_Ok by lia. cbn [bind].
  rewrite featLoop_ok by auto. cbn [bind]. eexists. split; [reflexivity|].
  rewrite seq_S, !map_app. simpl. f_equal. f_equal. unfold line_of. simpl. rewrite Hz by lia. reflexivity.
Qed.

Lemma rowMax_spec m i : i < rows m -> 1 <= cols m ->
  exists k, rowMax m i = Ok k /\ k < cols m /\
    (forall j, j < cols m -> (at_ m i j <= at_ m i k)%R) /\
    (forall j, j < k -> (at_ m i j < at_ m i k)%R).
Proof.
  intros Hi Hc. unfold rowMax. rewrite mget_Ok by lia. cbn [bind].
  set (body := fun j s => x <- mget m i j ;; Ok (if Rltb (fst s) x then (x, j) else s)).
  destruct (for_from_inv (fun n (s : R * nat) => snd s < n /\ fst s = at_ m i (snd s) /\
     (forall j, j < n -> (at_ m i j <= fst s)%R) /\ (forall j, j < snd s -> (at_ m i j < fst s)%R))
     body (cols m - 1) 1 (at_ m i 0, 0)) as ([x k] & E & R1 & R2 & R3 & R4).
  - simpl. repeat split; auto; try lia. intros j Hj. assert (j = 0) by lia. subst. lra.
  - intros j [x k] [Hj Hj2] (R1 & R2 & R3 & R4). simpl in *. unfold body. rewrite mget_Ok by lia. cbn [bind fst].
    eexists. split; [reflexivity|].
    destruct (Rltb x (at_ m i j)) eqn:E; simpl.
    + apply Rltb_true in E. repeat split; auto.
      * intros j' Hj'. destruct (Nat.eq_dec j' j) as [->|]; [lra|]. specialize (R3 j'). assert (at_ m i j' <= x)%R by (apply R3; lia). lra.
      * intros j' Hj'. assert (at_ m i j' <= x)%R by (apply R3; lia). lra.
    + apply Rltb_false in E. repeat split; auto.
      intros j' Hj'. destruct (Nat.eq_dec j' j) as [->|]; [lra|]. apply R3; lia.
  - rewrite E. cbn [bind]. simpl in *. exists k. subst x. replace (1 + (cols m - 1)) with (cols m) in * by lia.
    repeat split; auto; try lia. intros j Hj. apply R3. lia.
Qed.

(** the file written for several outputs *)
Lemma svmSave_multi inp out : rows inp = rows out -> 1 < cols out ->
  exists cls : nat -> nat,
    (forall i, i < rows out -> cls i < cols out /\
       (forall j, j < cols out -> (at_ out i j <= at_ out i (cls i))%R) /\
       (forall j, j < cls i -> (at_ out i j < at_ out i (cls i))%R)) /\
    svmSave prt inp out = Ok (map line_of (map (fun i => (Z.of_nat (cls i), feats inp i)) (seq 0 (rows inp)))).
Proof.
  intros Hr Hc.
  exists (fun i => match rowMax out i with Ok k => k | _ => 0 end). split.
  { intros i Hi. destruct (rowMax_spec out i) as (k & E & R); auto; [lia|]. rewrite E. auto. }
  unfold svmSave. rewrite Hr, Nat.eqb_refl. simpl check. cbn [bind]. rewrite <- Hr.
  match goal with |- for_ _ ?b _ = _ => set (body := b) end.
  match goal with |- _ = Ok (map line_of (map ?f _)) => set (g := f) end.
  destruct (for_inv (fun n (s : list (list word)) => s = map line_of (map g (seq 0 n)))
    body (rows inp) []) as (s & E & ->); auto.
  intros i s Hi ->. unfold body. rewrite (proj2 (Nat.ltb_lt _ _)) by auto.
  destruct (rowMax_spec out i) as (k & E & R); [lia|lia|]. rewrite E. cbn [bind].
  rewrite featLoop_ok by auto. cbn [bind]. eexists. split; [reflexivity|].
  rewrite seq_S, !map_app. simpl. f_equal. f_equal. unfold line_of, g. simpl. rewrite E, INR_IZR_INZ. reflexivity.
Qed.

Lemma file_width inp (z : nat -> Z) : 
  width (map (fun i => (z i, feats inp i)) (seq 0 (rows inp))) (cols inp) (cols inp).
Proof.
  split; [lia|]. split; [|now left].
  intros r k x Hr Hin. apply in_map_iff in Hr. destruct Hr as (i & <- & Hi). simpl in Hin.
  eapply feats_bound; eauto.
Qed.

Lemma svm_roundtrip inp out (z : nat -> Z) a b : rows inp = rows out -> cols out = 1 ->
  (forall i, i < rows out -> prt (at_ out i 0) = IZR (z i)) ->
  a <> b -> (forall i, i < rows out -> z i = a \/ z i = b) ->
  (exists i, i < rows out /\ z i = a) -> (exists i, i < rows out /\ z i = b) ->
  (forall i, i < rows inp -> (exists j, j < cols inp /\ at_ inp i j <> 0%R) \/ (z i <= Z.of_nat (cols inp))%Z) ->
  exists s inp' out', svmSave prt inp out = Ok s /\
    svmLoad s (cols inp) = Ok (rows inp, inp', out') /\
    meq inp' (mmap (fun x => if Reqb x 0 then 0%R else prt x) inp) /\
    meq out' (mmap prt out).
Proof.
  intros Hr Hc Hz Hab Hz2 Ha Hb He.
  rewrite (svmSave_single inp out z) by auto.
  set (file := map (fun i => (z i, feats inp i)) (seq 0 (rows inp))).
  assert (Hlen : length file = rows inp) by (unfold file; now rewrite map_length, seq_length).
  assert (Hnth : forall i, i < rows inp -> nth_error file i = Some (z i, feats inp i)).
  { intros i Hi. unfold file. rewrite nth_error_map.
    rewrite (nth_error_nth' (seq 0 (rows inp)) 0) by now rewrite seq_length. rewrite seq_nth by auto. reflexivity. }
  destruct (svmLoad_binary file (cols inp) (cols inp) [a; b]) as (inp' & out' & E & A1 & A2 & A3 & A4 & A5).
  - intros r Hin. unfold file in Hin. apply in_map_iff in Hin. destruct Hin as (i & <- & Hi).
    apply feats_increasing.
  - intros r Hin Er. unfold file in Hin. apply in_map_iff in Hin. destruct Hin as (i & <- & Hi).
    apply in_seq in Hi. simpl in *. destruct (He i) as [(j & Hj & Nj)|]; auto; [lia|].
    exfalso. apply Nj. apply (feats_empty inp i Er j Hj).
  - apply file_width.
  - split.
    + constructor; [|constructor; [easy|constructor]]. intros [|[]]; auto.
    + intros x. unfold file. rewrite map_map. simpl. rewrite in_map_iff. split.
      * intros [<-|[<-|[]]].
        -- destruct Ha as (i & Hi & E). exists i. split; auto. apply in_seq. lia.
        -- destruct Hb as (i & Hi & E). exists i. split; auto. apply in_seq. lia.
      * intros (i & <- & Hi). apply in_seq in Hi. destruct (Hz2 i) as [->| ->]; auto. lia.
  - reflexivity.
  - exists (map line_of file), inp', out'. rewrite Hlen in *. split; auto. split; auto. split.
    + split; auto. split; auto. intros i j Hi Hj. simpl.
      destruct (A5 i _ (Hnth i ltac:(lia))) as [_ F]. apply F. apply feats_feature. lia.
    + split; [simpl; lia|]. split; [simpl; lia|]. intros i j Hi Hj. simpl.
      destruct (A5 i _ (Hnth i ltac:(lia))) as [F _]. replace j with 0 by lia. rewrite F. simpl.
      rewrite Hz; auto. lia.
Qed.

(** classes are written counting from zero and read counting from one *)
Lemma svm_multi_refuted inp out c ls : rows inp = rows out -> 1 < cols out ->
  NoDup ls -> 2 < length ls ->
  (forall k, In k ls <-> exists i, i < rows out /\ k < cols out /\
     (forall j, j < cols out -> (at_ out i j <= at_ out i k)%R) /\
     (forall j, j < k -> (at_ out i j < at_ out i k)%R)) ->
  In 0 ls ->
  exists s, svmSave prt inp out = Ok s /\ svmLoad s c = UB.
Proof.
  intros Hr Hc Hn Hl Hk H0. destruct (svmSave_multi inp out Hr Hc) as (cls & Hcls & E).
  rewrite E. eexists. split; [reflexivity|].
  apply (svmLoad_multi_bad _ c (map Z.of_nat ls) 0%Z).
  - split.
    + apply FinFun.Injective_map_NoDup; auto. intros x y. apply Nat2Z.inj.
    + intros z. rewrite map_map. simpl. rewrite !in_map_iff. split.
      * intros (k & <- & Hin). apply Hk in Hin. destruct Hin as (i & Hi & Hk' & M1 & M2).
        exists i. split; [|apply in_seq; lia]. f_equal.
        destruct (Hcls i Hi) as (Q1 & Q2 & Q3).
        destruct (Nat.lt_trichotomy (cls i) k) as [L|[L|L]]; auto; exfalso.
        -- specialize (M2 _ L). specialize (Q2 k Hk'). lra.
        -- specialize (Q3 _ L). specialize (M1 (cls i) Q1). lra.
      * intros (i & <- & Hi). apply in_seq in Hi. exists (cls i). split; auto. apply Hk.
        exists i. split; [lia|]. apply Hcls. lia.
  - now rewrite map_length.
  - apply in_map_iff. exists 0. auto.
  - lia.
Qed.

(** data of one class only *)
Lemma svm_single_refuted inp out a i : rows inp = rows out -> cols out = 1 -> 1 <= cols inp ->
  (forall i, i < rows out -> prt (at_ out i 0) = IZR a) ->
  (forall i, i < rows inp -> (exists j, j < cols inp /\ at_ inp i j <> 0%R) \/ (a <= Z.of_nat (cols inp))%Z) ->
  i < rows inp -> at_ inp i (cols inp - 1) <> 0%R ->
  exists s, svmSave prt inp out = Ok s /\ svmLoad s (cols inp) = UB.
Proof.
  intros Hr Hc Hc1 Hz He Hi Hne. rewrite (svmSave_single inp out (fun _ => a)) by auto.
  eexists. split; [reflexivity|].
  apply (svmLoad_single_bad _ (cols inp) [a] (cols inp) (a, feats inp i) (prt (at_ inp i (cols inp - 1)))).
  - split; [constructor; [easy|constructor]|]. intros z. rewrite map_map. simpl. rewrite in_map_iff. split.
    + intros [<-|[]]. exists i. split; auto. apply in_seq. lia.
    + intros (? & <- & _). auto.
  - reflexivity.
  - intros r Hin. apply in_map_iff in Hin. destruct Hin as (k & <- & _). apply feats_increasing.
  - intros r Hin Er. apply in_map_iff in Hin. destruct Hin as (k & <- & Hk). apply in_seq in Hk. simpl in *.
    destruct (He k) as [(j & Hj & Nj)|]; auto; [lia|]. exfalso. apply Nj. apply (feats_empty inp k Er j Hj).
  - apply file_width.
  - apply in_map_iff. exists i. split; auto. apply in_seq. lia.
  - simpl. unfold feats. apply in_flat_map. exists (cols inp - 1). split; [apply in_seq; lia|].
    rewrite (proj2 (Rltb_true _ _)) by now apply Rabs_pos_lt. left. f_equal. lia.
Qed.
End SVM.
