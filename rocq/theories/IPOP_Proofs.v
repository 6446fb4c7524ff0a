(** Proofs about IPOPCMAES. *)
From Verif Require Import Base BaseFacts Vec Evaluation_Model IPOP_Model IPOP_Spec.
Local Open Scope R_scope.

Lemma evaluated_app a b : evaluated (a ++ b) = evaluated a ++ evaluated b.
Proof. apply flat_map_app. Qed.
Lemma run_sizes_app a b : run_sizes (a ++ b) = run_sizes a ++ run_sizes b.
Proof. apply flat_map_app. Qed.
Lemma evaluated_Evals xs : evaluated (map Eval xs) = xs.
Proof. induction xs; simpl; auto. now f_equal. Qed.
Lemma run_sizes_Evals xs : run_sizes (map Eval xs) = [].
Proof. induction xs; simpl; auto. Qed.
Lemma leading_Evals xs : leading (map Eval xs) = length xs.
Proof. induction xs; simpl; auto. Qed.
Lemma runs_Evals xs : runs (map Eval xs) = [].
Proof. induction xs; simpl; auto. Qed.
Lemma leading_app_Start a l b : leading (a ++ Start l :: b) = leading a.
Proof. induction a as [|[|] a IH]; simpl; auto. Qed.
Lemma runs_app_Start a l b : runs (a ++ Start l :: b) = runs a ++ runs (Start l :: b).
Proof.
  induction a as [|[m|x] a IH]; auto.
  - change (runs ((Start m :: a) ++ Start l :: b))
      with ((m, leading (a ++ Start l :: b)) :: runs (a ++ Start l :: b)).
    now rewrite leading_app_Start, IH.
Qed.

(** [b] is a best point of [xs] *)
Definition is_best (error : vec -> R) (xs : list vec) (b : option (vec * R)) : Prop :=
  match b with
  | None => xs = []
  | Some (x, f) => f = error x /\ In x xs /\ forall y, In y xs -> error x <= error y
  end.

Lemma best_of_spec error xs : is_best error xs (best_of (combine xs (map error xs))).
Proof.
  induction xs as [|x xs IH]; simpl; auto.
  destruct (best_of _) as [[y e]|]; simpl in *.
  - destruct IH as (-> & I & H). destruct (Rltb (error y) (error x)) eqn:E; simpl.
    + apply Rltb_true in E. split; auto. split; auto. intros z [<-|Hz]; [lra|auto].
    + apply Rltb_false in E. split; auto. split; auto. intros z [<-|Hz]; [lra|].
      specialize (H z Hz). lra.
  - subst xs. split; auto. split; auto. intros z [<-|[]]. lra.
Qed.

Lemma update_best error xs g c : is_best error xs (bestEver c) ->
  is_best error (xs ++ g) (bestEver (updateDistribution (combine g (map error g)) c)).
Proof.
  intros H. pose proof (best_of_spec error g) as G. unfold updateDistribution. cbn [bestEver].
  destruct (bestEver c) as [[y e]|]; destruct (best_of _) as [[x f]|]; simpl in H, G.
  - destruct H as (-> & I & H). destruct G as (-> & J & G).
    destruct (Rltb (error x) (error y)) eqn:E; simpl; (split; [auto|]); (split; [apply in_or_app; auto|]).
    + apply Rltb_true in E. intros z Hz. apply in_app_or in Hz. destruct Hz as [Hz|Hz]; auto.
      specialize (H z Hz). lra.
    + apply Rltb_false in E. intros z Hz. apply in_app_or in Hz. destruct Hz as [Hz|Hz]; auto.
      specialize (G z Hz). lra.
  - subst g. rewrite app_nil_r. simpl. auto.
  - subst xs. simpl. auto.
  - subst. reflexivity.
Qed.

Section Proofs.
Variable dimension : nat.
Variable error : vec -> R.
Variable dblmax : R.
Variable sample : nat -> list generation -> list vec.
Variable testTerm : nat -> list generation -> bool.
Variable maxEvals maxRestarts : Z.
Variable minimalValue : R.
Variable lambda0 : nat.
Hypothesis Lib : library_ok dimension lambda0 sample testTerm.
Hypothesis Small : forall x, length x = dimension -> error x < dblmax.
Hypothesis MaxE : maxEvals = (-1)%Z \/ (1 <= maxEvals)%Z.

Notation L r := (lambda0 * 2 ^ r)%nat.
Notation gstep := (generation_step dimension error sample).

Lemma L_pos r : (0 < L r)%nat.
Proof. destruct Lib as (H & _). pose proof (Nat.pow_nonzero 2 r ltac:(lia)). nia. Qed.

Lemma generation_step_spec c pop fit rs ev o ov tr :
  length fit = L (run c) ->
  let P := sample (run c) (hist c) in
  gstep (mkIpop (Some c) (L (run c)) 0 pop fit rs ev o ov tr)
  = Ok (mkIpop (Some (updateDistribution (combine P (map error P)) c)) (L (run c)) 0 P
          (map error P) rs (ev + Z.of_nat (L (run c))) o ov (tr ++ map Eval P)).
Proof.
  intros HF P. pose proof (L_pos (run c)) as HL. destruct Lib as (_ & LP & LD & _).
  assert (LP' : length P = L (run c)) by apply LP.
  unfold generation_step. cbn [lambda]. remember (L (run c)) as l eqn:El. clear El.
  destruct (for_inv (fun i s => s =
     if Nat.eqb i l then
       mkIpop (Some (updateDistribution (combine P (map error P)) c)) l 0 P
          (map error P) rs (ev + Z.of_nat l) o ov (tr ++ map Eval P)
     else
       mkIpop (Some c) l i (if Nat.eqb i 0 then pop else P) (map error (firstn i P) ++ skipn i fit)
         rs (ev + Z.of_nat i) o ov (tr ++ map Eval (firstn i P)))
     (fun _ s => individual_step dimension error sample s) l
     (mkIpop (Some c) l 0 pop fit rs ev o ov tr)) as (s & E & Hs).
  - destruct (Nat.eqb_spec 0 l); [lia|]. simpl. rewrite Z.add_0_r, app_nil_r. reflexivity.
  - intros i s Hi ->. destruct (Nat.eqb_spec i l); [lia|].
    unfold individual_step, getNext. cbn [cmaes currentIndividual lambda population].
    rewrite check_true by (apply Nat.ltb_lt; lia). cbn [bind].
    replace (if Nat.eqb i 0 then sample (run c) (hist c) else if Nat.eqb i 0 then pop else P) with P
      by (destruct (Nat.eqb i 0); auto).
    rewrite (vget_nth P i []) by lia. cbn [bind].
    assert (HD : length (nth i P []) = dimension) by (apply (LD (run c) (hist c)); fold P; apply nth_In; lia).
    destruct (Nat.ltb_spec (length (nth i P [])) dimension); [lia|].
    rewrite firstn_all2 by lia. cbn [bind evaluate fitnessValues restarts evaluationsAfterRestart
      optimum optimumValue trace cmaes lambda currentIndividual population].
    unfold setError. cbn [fitnessValues restarts evaluationsAfterRestart
      optimum optimumValue trace cmaes lambda currentIndividual population].
    rewrite check_true by (apply Nat.ltb_lt; lia). cbn [bind].
    assert (HA : length (map error (firstn i P)) = i) by (rewrite map_length, firstn_length; lia).
    rewrite vset_Ok by (rewrite app_length, skipn_length, HA; lia). cbn [bind].
    assert (EP : firstn (S i) P = firstn i P ++ [nth i P []]).
    { clear -Hi LP'. revert i Hi LP'. generalize l. induction P as [|p Q IH]; intros m i Hi E; simpl in E; [lia|].
      destruct i; simpl; auto. f_equal. apply (IH (m - 1)%nat); lia. }
    assert (EF : upd (map error (firstn i P) ++ skipn i fit) i (error (nth i P []))
                 = map error (firstn (S i) P) ++ skipn (S i) fit).
    { rewrite EP, map_app, <- app_assoc. simpl.
      assert (G : forall (a b : list R) x, length a = i -> (i < length a + length b)%nat ->
         upd (a ++ b) i x = a ++ x :: skipn 1 b).
      { clear. intros a. revert i. induction a as [|y a IH]; intros i b x H Hl; simpl in *.
        - subst i. destruct b; simpl in *; [lia|auto].
        - destruct i; [lia|]. simpl. f_equal. apply IH; lia. }
      rewrite G; auto; [|rewrite skipn_length, HA; lia].
      rewrite skipn_add, Nat.add_1_r. reflexivity. }
    rewrite EF.
    replace (ev + Z.of_nat i + 1)%Z with (ev + Z.of_nat (S i))%Z by lia.
    rewrite <- !app_assoc.
    change (map Eval (firstn i P) ++ [Eval (nth i P [])]) with
      (map Eval (firstn i P) ++ map Eval [nth i P []]).
    rewrite <- map_app, <- EP.
    destruct (Nat.eqb_spec (S i) l) as [<-|Hne].
    + rewrite !firstn_all2, !skipn_all2, !app_nil_r by lia.
      eexists. split; reflexivity.
    + eexists. split; reflexivity.
  - rewrite Nat.eqb_refl in Hs. rewrite E, Hs. reflexivity.
Qed.

(** state inside a run that started after the events [tr0] *)
Definition in_run (r : nat) (tr0 : list event) (o : vec) (ov : R) (s : ipop) : Prop :=
  exists c xs,
    cmaes s = Some c /\ run c = r /\ lambda s = L r /\ currentIndividual s = 0%nat /\
    length (fitnessValues s) = L r /\ restarts s = Z.of_nat r /\
    evaluationsAfterRestart s = Z.of_nat (length xs) /\ optimum s = o /\ optimumValue s = ov /\
    trace s = tr0 ++ Start (L r) :: map Eval xs /\
    is_best error xs (bestEver c) /\
    Forall (fun x => length x = dimension) xs /\
    (xs = [] <-> hist c = []) /\ (xs = [] \/ (L r <= length xs)%nat) /\
    (maxEvals <> (-1)%Z -> (Z.of_nat (length xs) < maxEvals + Z.of_nat (L r))%Z).

Lemma in_run_step r tr0 o ov s : in_run r tr0 o ov s ->
  terminated testTerm maxEvals s = false ->
  exists s', gstep s = Ok s' /\ in_run r tr0 o ov s' /\
    (evaluationsAfterRestart s' = evaluationsAfterRestart s + Z.of_nat (L r))%Z.
Proof.
  intros (c & xs & Hc & Hr & Hl & Hcur & Hf & Hrs & He & Ho & Hov & Ht & Hb & Hd & Hh & Hg & Hm) T.
  destruct s as [cm l cur pop fit rs ev o' ov' tr].
  cbn [fitnessValues restarts evaluationsAfterRestart optimum optimumValue trace cmaes lambda
       currentIndividual population] in *. subst cm l cur rs ev o' ov' tr. subst r.
  rewrite generation_step_spec by auto. cbv zeta.
  eexists. split; [reflexivity|]. split; [|reflexivity].
  set (P := sample (run c) (hist c)).
  assert (LP : length P = L (run c)) by apply Lib.
  pose proof (L_pos (run c)) as HL.
  eexists _, (xs ++ P). 
  cbn [fitnessValues restarts evaluationsAfterRestart optimum optimumValue trace cmaes lambda
       currentIndividual population]. 
  repeat split.
  - now rewrite map_length.
  - rewrite app_length, LP. lia.
  - rewrite <- app_assoc. simpl. now rewrite map_app.
  - now apply update_best.
  - apply Forall_app. split; auto. apply Forall_forall. intros x Hx. eapply Lib; eauto.
  - intros E. apply app_eq_nil in E. destruct E as (_ & E). rewrite E in LP. simpl in LP. lia.
  - cbn [updateDistribution hist]. intros E. symmetry in E. now apply app_cons_not_nil in E.
  - right. rewrite app_length. lia.
  - intros Ha. rewrite app_length, LP. unfold terminated in T.
    cbn [currentIndividual cmaes evaluationsAfterRestart] in T. simpl in T.
    apply orb_false_iff in T. destruct T as (_ & T).
    rewrite (proj2 (Z.eqb_neq _ _) Ha) in T. simpl in T.
    rewrite Z.geb_leb in T. apply Z.leb_gt in T. lia.
Qed.

(** between two runs, and at the end *)
Definition settled (o : vec) (ov : R) (tr : list event) : Prop :=
  (evaluated tr = [] /\ o = [] /\ ov = dblmax) \/
  (In o (evaluated tr) /\ length o = dimension /\ ov = error o /\
   forall y, In y (evaluated tr) -> error o <= error y).

Definition runs_bounded (tr : list event) : Prop :=
  forall l n, In (l, n) (runs tr) -> (l <= n)%nat /\
   (maxEvals <> (-1)%Z -> (Z.of_nat n <= maxEvals + Z.of_nat l)%Z).

(** [r] is the number of runs made *)
Definition between (r : nat) (s : ipop) : Prop :=
  (r = 0%nat <-> cmaes s = None) /\ lambda s = L (r - 1) /\ currentIndividual s = 0%nat /\
  restarts s = (Z.of_nat r - 1)%Z /\
  settled (optimum s) (optimumValue s) (trace s) /\
  (r <> 0%nat -> evaluated (trace s) <> []) /\
  run_sizes (trace s) = map (fun k => L k) (seq 0 r) /\
  runs_bounded (trace s).

Lemma between_init : between 0 (ipop_init dblmax lambda0).
Proof.
  unfold between, ipop_init. cbn. repeat split; auto; try lia.
  - left. auto.
  - inversion H.
  - inversion H.
Qed.

Lemma restart_true r s : between r s -> (Z.of_nat r <= maxRestarts)%Z ->
  exists s', restart maxRestarts s = (true, s') /\
    in_run r (trace s) (optimum s) (optimumValue s) s'.
Proof.
  intros (Hc & Hl & Hcur & Hr & _) Hm. unfold restart. rewrite Hr.
  replace (Z.of_nat r - 1 + 1)%Z with (Z.of_nat r) by lia.
  assert (E : (Z.of_nat r >? maxRestarts)%Z = false) by (rewrite Z.gtb_ltb; apply Z.ltb_ge; lia).
  rewrite E. eexists. split; [reflexivity|].
  assert (EL : (if (Z.of_nat r >? 0)%Z then (lambda s * 2)%nat else lambda s) = L r).
  { rewrite Hl. destruct r; simpl Z.gtb.
    - simpl. auto.
    - rewrite Nat.sub_succ, Nat.sub_0_r, Nat.pow_succ_r'.
      replace (Z.pos (Pos.of_succ_nat r) >? 0)%Z with true by reflexivity. nia. }
  rewrite EL, Nat2Z.id. pose proof (L_pos r).
  eexists _, []. cbn [fitnessValues restarts evaluationsAfterRestart optimum optimumValue trace cmaes lambda
       currentIndividual population run hist bestEver].
  repeat split; auto.
  - apply repeat_length.
  - simpl. intros. lia.
Qed.

Lemma finish_run r tr0 o ov s :
  in_run r tr0 o ov s -> terminated testTerm maxEvals s = true ->
  settled o ov tr0 -> run_sizes tr0 = map (fun k => L k) (seq 0 r) -> runs_bounded tr0 ->
  exists s', update_optimum dimension error s = Ok s' /\ between (S r) s' /\
    (reached minimalValue s' = true -> error (optimum s') < minimalValue).
Proof.
  intros (c & xs & Hc & Hr & Hl & Hcur & Hf & Hrs & He & Ho & Hov & Ht & Hb & Hd & Hh & Hg & Hm) T HS HR HB.
  destruct s as [cm l cur pop fit rs ev o' ov' tr].
  cbn [fitnessValues restarts evaluationsAfterRestart optimum optimumValue trace cmaes lambda
       currentIndividual population] in *. subst cm l cur rs ev o' ov' tr. subst r.
  pose proof (L_pos (run c)) as HL.
  assert (NE : xs <> []).
  { intros ->. unfold terminated in T. cbn in T. rewrite (proj1 Hh eq_refl) in T.
    destruct Lib as (_ & _ & _ & F). rewrite F in T. simpl in T.
    destruct MaxE as [E|E].
    - rewrite E in T. discriminate.
    - rewrite Z.geb_leb in T. apply andb_true_iff in T. destruct T as (_ & T). apply Z.leb_le in T. lia. }
  destruct (bestEver c) as [[x f]|] eqn:EB; simpl in Hb; [|contradiction].
  destruct Hb as (-> & Ix & Hmin).
  assert (LX : length x = dimension) by (rewrite Forall_forall in Hd; auto).
  unfold update_optimum. cbn [cmaes optimumValue]. rewrite EB.
  assert (RB : forall ys, ys <> [] -> length ys = length xs \/ length ys = S (length xs) ->
     runs_bounded (tr0 ++ Start (L (run c)) :: map Eval ys)).
  { intros ys Hy Hlen l n Hin. rewrite runs_app_Start in Hin. apply in_app_or in Hin.
    destruct Hin as [Hin|Hin]; [now apply HB|]. cbn [runs] in Hin. rewrite leading_Evals, runs_Evals in Hin.
    destruct Hin as [Hin|[]]. inversion Hin; subst. split.
    - destruct Hg; [congruence|lia].
    - intros Ha. specialize (Hm Ha). lia. }
  assert (RS : forall ys, run_sizes (tr0 ++ Start (L (run c)) :: map Eval ys)
               = map (fun k => L k) (seq 0 (S (run c)))).
  { intros ys. rewrite run_sizes_app. cbn [run_sizes flat_map].
    change (run_sizes tr0 ++ [L (run c)] ++ run_sizes (map Eval ys) = map (fun k : nat => L k) (seq 0 (S (run c)))).
    rewrite run_sizes_Evals, HR, seq_S, map_app. simpl. reflexivity. }
  assert (EV : forall ys, evaluated (tr0 ++ Start (L (run c)) :: map Eval ys) = evaluated tr0 ++ ys).
  { intros ys. rewrite evaluated_app. f_equal. change (evaluated (map Eval ys) = ys). apply evaluated_Evals. }
  destruct (Rltb (error x) ov) eqn:E.
  - apply Rltb_true in E. destruct (Nat.ltb_spec (length x) dimension); [lia|].
    rewrite firstn_all2 by lia. cbn [evaluate].
    eexists. split; [reflexivity|]. unfold between, settled.
    cbn [fitnessValues restarts evaluationsAfterRestart optimum optimumValue trace cmaes lambda
       currentIndividual population]. rewrite <- app_assoc.
    replace ((Start (L (run c)) :: map Eval xs) ++ [Eval x]) with (Start (L (run c)) :: map Eval (xs ++ [x]))
      by (simpl; now rewrite map_app).
    rewrite RS, EV. split; [|intros HRc].
    + split; [split; discriminate|]. split; [now rewrite Nat.sub_succ, Nat.sub_0_r|].
      split; [reflexivity|]. split; [lia|]. split; [|split; [|split; [reflexivity|]]].
      * right. split; [apply in_or_app; right; apply in_or_app; left; auto|]. repeat split; auto.
        intros y Hy. apply in_app_or in Hy. destruct Hy as [Hy|Hy].
        -- destruct HS as [(Z0 & _)|(_ & _ & Z1 & Z2)]; [rewrite Z0 in Hy; destruct Hy|].
           specialize (Z2 y Hy). lra.
        -- apply in_app_or in Hy. destruct Hy as [Hy|[<-|[]]]; [auto|lra].
      * intros _ Hn. apply app_eq_nil in Hn. destruct Hn as (_ & Hn). apply app_eq_nil in Hn. tauto.
      * apply RB. { intros Hn. apply app_eq_nil in Hn. tauto. } right. rewrite app_length. simpl. lia.
    + unfold reached in HRc. cbn [cmaes] in HRc. destruct c as [rr hh bb]. cbn in EB. subst bb.
      now apply Rltb_true in HRc.
  - apply Rltb_false in E. eexists. split; [reflexivity|]. unfold between, settled.
    cbn [fitnessValues restarts evaluationsAfterRestart optimum optimumValue trace cmaes lambda
       currentIndividual population]. rewrite RS, EV.
    destruct HS as [(_ & _ & Z0)|(Z0 & Z3 & Z1 & Z2)]; [specialize (Small x LX); lra|].
    split; [|intros HRc].
    + split; [split; discriminate|]. split; [now rewrite Nat.sub_succ, Nat.sub_0_r|].
      split; [reflexivity|]. split; [lia|]. split; [|split; [|split; [reflexivity|]]].
      * right. split; [apply in_or_app; left; auto|]. repeat split; auto.
        intros y Hy. apply in_app_or in Hy. destruct Hy as [Hy|Hy]; [auto|].
        specialize (Hmin y Hy). lra.
      * intros _ Hn. apply app_eq_nil in Hn. tauto.
      * apply RB; auto.
    + unfold reached in HRc. cbn [cmaes] in HRc. destruct c as [rr hh bb]. cbn in EB. subst bb.
      apply Rltb_true in HRc. lra.
Qed.

Notation opt := (optimize dimension error sample testTerm maxEvals maxRestarts minimalValue).

Lemma run_body fuel r s s1 : between r s -> in_run r (trace s) (optimum s) (optimumValue s) s1 ->
  let w := while_ fuel (fun s => negb (terminated testTerm maxEvals s)) gstep s1 in
  w = Fuel \/ exists s2 s3, w = Ok s2 /\ update_optimum dimension error s2 = Ok s3 /\ between (S r) s3 /\
    (reached minimalValue s3 = true -> error (optimum s3) < minimalValue).
Proof.
  intros HB HI w.
  destruct (while_inv (in_run r (trace s) (optimum s) (optimumValue s))
     (fun s => negb (terminated testTerm maxEvals s)) gstep) with (fuel := fuel) (s := s1) as [E|(s2 & E & I2 & T)]; auto.
  - intros s' Hs' T. destruct (in_run_step _ _ _ _ _ Hs') as (s'' & A & B & _); eauto.
    now destruct (terminated _ _ _).
  - right. destruct HB as (_ & _ & _ & _ & HS & _ & HR & HRB).
    destruct (finish_run r (trace s) (optimum s) (optimumValue s) s2) as (s3 & A & B & C); auto.
    { now destruct (terminated _ _ _). }
    exists s2, s3. auto.
Qed.

(** what holds when optimize returns *)
Definition finished (s : ipop) : Prop :=
  In (optimum s) (evaluated (trace s)) /\ length (optimum s) = dimension /\ cmaes s <> None /\
  (forall y, In y (evaluated (trace s)) -> error (optimum s) <= error y) /\
  (exists r, (1 <= Z.of_nat r <= maxRestarts + 1)%Z /\
     run_sizes (trace s) = map (fun k => L k) (seq 0 r) /\
     ((Z.of_nat r < maxRestarts + 1)%Z -> error (optimum s) < minimalValue)) /\
  runs_bounded (trace s).

Lemma between_finished r s : between r s -> r <> 0%nat -> (Z.of_nat r <= maxRestarts + 1)%Z ->
  ((Z.of_nat r < maxRestarts + 1)%Z -> error (optimum s) < minimalValue) -> finished s.
Proof.
  intros (Hc & _ & _ & _ & HS & HE & HR & HB) H0 H1 H2. destruct HS as [(Z & _)|(A & B & C & D)].
  - now apply HE in H0.
  - unfold finished. repeat split; auto.
    + intros N. apply Hc in N. contradiction.
    + exists r. repeat split; auto. lia.
    + eapply HB; eauto.
    + eapply HB; eauto.
Qed.

Lemma optimize_partial : (0 <= maxRestarts)%Z -> forall fuel r s,
  between r s -> (Z.of_nat r <= maxRestarts + 1)%Z ->
  opt fuel s = Fuel \/ exists s', opt fuel s = Ok s' /\ finished s'.
Proof.
  intros H0. induction fuel as [|fuel IH]; intros r s HB Hr.
  - destruct (Z_le_gt_dec (Z.of_nat r) maxRestarts) as [Hle|Hgt].
    + destruct (restart_true r s HB Hle) as (s1 & E & _). cbn [optimize]. rewrite E. now left.
    + right. cbn [optimize]. unfold restart. pose proof HB as (Hc & Hl & Hcur & Hrr & Hx). rewrite Hrr.
      replace (Z.of_nat r - 1 + 1)%Z with (Z.of_nat r) by lia.
      assert (E : (Z.of_nat r >? maxRestarts)%Z = true) by (rewrite Z.gtb_ltb; apply Z.ltb_lt; lia).
      rewrite E. eexists. split; [reflexivity|].
      assert (F : finished s).
      { apply (between_finished r); auto; lia. }
      exact F.
  - destruct (Z_le_gt_dec (Z.of_nat r) maxRestarts) as [Hle|Hgt].
    + destruct (restart_true r s HB Hle) as (s1 & E & I1). cbn [optimize]. rewrite E.
      destruct (run_body (S fuel) r s s1 HB I1) as [F|(s2 & s3 & F & G & B3 & Re)].
      * rewrite F. now left.
      * rewrite F. cbn [bind]. rewrite G. cbn [bind]. destruct (reached minimalValue s3) eqn:ER.
        -- right. exists s3. split; auto. apply (between_finished (S r)); auto; lia.
        -- apply (IH (S r)); auto. lia.
    + right. cbn [optimize]. unfold restart. pose proof HB as (Hc & Hl & Hcur & Hrr & Hx). rewrite Hrr.
      replace (Z.of_nat r - 1 + 1)%Z with (Z.of_nat r) by lia.
      assert (E : (Z.of_nat r >? maxRestarts)%Z = true) by (rewrite Z.gtb_ltb; apply Z.ltb_lt; lia).
      rewrite E. eexists. split; [reflexivity|].
      assert (F : finished s).
      { apply (between_finished r); auto; lia. }
      exact F.
Qed.

Lemma optimize_total : (1 <= maxEvals)%Z -> forall k fuel r s,
  between r s -> k = Z.to_nat (maxRestarts + 1 - Z.of_nat r) ->
  (k + Z.to_nat maxEvals < fuel)%nat -> opt fuel s <> Fuel.
Proof.
  intros HM. induction k as [|k IH]; intros fuel r s HB Hk Hf; (destruct fuel as [|fuel]; [lia|]).
  - cbn [optimize]. unfold restart. pose proof HB as (Hc & Hl & Hcur & Hrr & Hx). rewrite Hrr.
    replace (Z.of_nat r - 1 + 1)%Z with (Z.of_nat r) by lia.
    assert (E : (Z.of_nat r >? maxRestarts)%Z = true) by (rewrite Z.gtb_ltb; apply Z.ltb_lt; lia).
    rewrite E. discriminate.
  - destruct (restart_true r s HB) as (s1 & E & I1); [lia|]. cbn [optimize]. rewrite E.
    pose proof (L_pos r) as HL.
    destruct (while_total (in_run r (trace s) (optimum s) (optimumValue s))
       (fun s => Z.to_nat (maxEvals - evaluationsAfterRestart s))
       (fun s => negb (terminated testTerm maxEvals s)) gstep) with (fuel := S fuel) (s := s1) as (s2 & F & _); auto.
    { intros s' Hs' T. assert (T' : terminated testTerm maxEvals s' = false) by now destruct (terminated _ _ _).
      destruct (in_run_step _ _ _ _ _ Hs' T') as (s'' & A & B & C). exists s''. repeat split; auto.
      rewrite C. unfold terminated in T'. destruct Hs' as (c & xs & Hc & _ & _ & Hcur & _).
      rewrite Hcur in T'. simpl in T'. apply orb_false_iff in T'. destruct T' as (_ & T').
      assert (N : (maxEvals =? -1)%Z = false) by (apply Z.eqb_neq; lia). rewrite N in T'. simpl in T'.
      rewrite Z.geb_leb in T'. apply Z.leb_gt in T'. lia. }
    { destruct I1 as (c & xs & _ & _ & _ & _ & _ & _ & He & _). rewrite He. lia. }
    destruct (run_body (S fuel) r s s1 HB I1) as [F'|(s2' & s3 & F' & G & B3 & Re)]; [congruence|].
    rewrite F'. cbn [bind]. rewrite G. cbn [bind]. destruct (reached minimalValue s3); [discriminate|].
    apply (IH fuel (S r)); auto; lia.
Qed.
End Proofs.
