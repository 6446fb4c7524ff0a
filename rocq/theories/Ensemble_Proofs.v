(** Boosting: the model refines the specification. *)
From Verif Require Import Base BaseFacts Matrix RSum MatOps Vec Acc DataSet_Model Evaluation_Model Evaluation_Spec Evaluation_Proofs
  Weighted_Model Weighted_Proofs Ensemble_Model Ensemble_Spec.
Local Open Scope R_scope.

Notation eps := (/ 10000000000).
Lemma eps_pos : 0 < eps. Proof. apply Rinv_0_lt_compat. lra. Qed.

Section Ensemble.
Context {L O : Type} (predict : L -> vec -> vec) (optimize : source -> O -> L -> O * L).

Definition hitOf (l : L) (rows : list (vec * vec)) (n : nat) : bool :=
  match nth_error rows n with
  | Some r => match oneOfCDecoding (predict l (fst r)), oneOfCDecoding (snd r) with
              | Ok c, Ok k => Nat.eqb c k
              | _, _ => false
              end
  | None => false
  end.

Definition sound (rows : list (vec * vec)) : Prop :=
  forall r l, In r rows -> (0 < length (snd r))%nat /\ (0 < length (predict l (fst r)))%nat.

Lemma hit_ok l rows : sound rows -> classifies (predict l) rows (hitOf l rows).
Proof.
  intros Hs n r E. pose proof (nth_error_In _ _ E) as HI. destruct (Hs r l HI) as (A & B).
  destruct (decoding_ok _ A) as (k & Ek & Ck). destruct (decoding_ok _ B) as (c & Ec & Cc).
  exists c, k. split; auto. split; auto. unfold hitOf. now rewrite E, Ec, Ek.
Qed.

Lemma accuracy_hit l ds rows w : sound rows -> shows ds rows -> length w = length rows ->
  weightedAccuracy (predict l) ds w = Ok (rsum (length rows) (fun n => if hitOf l rows n then w.[n] else 0)).
Proof.
  intros Hs (EN & Hr) Lw. unfold weightedAccuracy. rewrite EN.
  match goal with |- context [for_ _ ?b _] =>
    destruct (for_inv (fun t a => a = rsum t (fun n => if hitOf l rows n then w.[n] else 0)) b (length rows) 0) as (a & E & Ea) end.
  - reflexivity.
  - intros n a Hn ->. destruct (nth_error_lt rows n Hn) as (r & Er). destruct (Hr n r Er) as (E1 & E2).
    pose proof (nth_error_In _ _ Er) as HI. destruct (Hs r l HI) as (A & B).
    destruct (decoding_ok _ A) as (k & Ek & _). destruct (decoding_ok _ B) as (c & Ec & _).
    rewrite E1. cbn [bind]. rewrite Ec. cbn [bind]. rewrite E2. cbn [bind]. rewrite Ek. cbn [bind].
    cbn [rsum]. assert (Eh : hitOf l rows n = Nat.eqb c k) by (unfold hitOf; now rewrite Er, Ec, Ek). rewrite Eh.
    destruct (Nat.eqb c k).
    + rewrite (vget_nth w n 0) by lia. cbn [bind]. eexists. split; [reflexivity|]. reflexivity.
    + eexists. split; [reflexivity|]. ring.
  - rewrite E. now subst a.
Qed.

Lemma accuracy_error l rows w : length w = length rows -> distribution w ->
  rsum (length rows) (fun n => if hitOf l rows n then w.[n] else 0) = 1 - weightedError w (hitOf l rows).
Proof.
  intros Lw (_ & Hs). unfold weightedError. rewrite <- Hs, Lw.
  assert (Q : rsum (length rows) (fun n => w.[n]) =
    rsum (length rows) (fun n => if hitOf l rows n then w.[n] else 0) + rsum (length rows) (fun n => if hitOf l rows n then 0 else w.[n])).
  { rewrite <- rsum_plus. apply rsum_ext. intros n Hn. destruct (hitOf l rows n); ring. }
  rewrite Lw in *. lra.
Qed.

Lemma error_bounds w hit : distribution w -> 0 <= weightedError w hit <= 1.
Proof.
  intros (Hp & Hs). unfold weightedError. split.
  - apply rsum_nonneg. intros n Hn. destruct (hit n); [lra|]. left. auto.
  - rewrite <- Hs. apply rsum_le. intros n Hn. destruct (hit n); [|lra]. left. auto.
Qed.

Lemma reweight_ok l ds rows w alpha : sound rows -> shows ds rows -> length w = length rows ->
  exists w', reweight predict l ds alpha w = Ok w' /\ length w' = length w /\
    forall n, (n < length w)%nat -> w'.[n] = w.[n] * exp (if hitOf l rows n then - alpha else alpha).
Proof.
  intros Hs (EN & Hr) Lw. unfold reweight. rewrite EN.
  match goal with |- context [for_ _ ?b _] =>
    destruct (for_inv (fun t (v : list R) => length v = length w /\
      forall n, (n < length w)%nat -> v.[n] = if Nat.ltb n t then w.[n] * exp (if hitOf l rows n then - alpha else alpha) else w.[n])
      b (length rows) w) as (v & E & Lv & Fv) end.
  - split; auto.
  - intros n v Hn (Lv & Fv). destruct (nth_error_lt rows n Hn) as (r & Er). destruct (Hr n r Er) as (E1 & E2).
    pose proof (nth_error_In _ _ Er) as HI. destruct (Hs r l HI) as (A & B).
    destruct (decoding_ok _ A) as (k & Ek & _). destruct (decoding_ok _ B) as (c & Ec & _).
    rewrite E1. cbn [bind]. rewrite Ec. cbn [bind]. rewrite E2. cbn [bind]. rewrite Ek. cbn [bind].
    assert (Eh : hitOf l rows n = Nat.eqb c k) by (unfold hitOf; now rewrite Er, Ec, Ek).
    rewrite (vget_nth v n 0) by lia. cbn [bind]. rewrite vset_Ok by lia. eexists. split; [reflexivity|].
    split; [now rewrite upd_length|]. intros n' Hn'. rewrite nth_upd by lia. destruct (Nat.eqb_spec n n') as [<-|Nn].
    + rewrite (proj2 (Nat.ltb_lt n (S n))) by lia. rewrite Fv by lia. rewrite Nat.ltb_irrefl. rewrite Eh.
      f_equal. f_equal. destruct (Nat.eqb c k); ring.
    + rewrite Fv by lia. destruct (Nat.ltb_spec n' n), (Nat.ltb_spec n' (S n)); auto; lia.
  - exists v. split; auto. split; auto. intros n Hn. rewrite Fv by auto.
    rewrite (proj2 (Nat.ltb_lt n (length rows))) by lia. reflexivity.
Qed.

Lemma instanceOf_nat inds N n i : instanceOf inds N n = Ok i -> nth_error inds n = Some (Z.of_nat i) /\ (i < N)%nat.
Proof.
  unfold instanceOf, vget. destruct (nth_error inds n) as [z|]; [|discriminate]. cbn [bind]. unfold zidx.
  destruct (Z.ltb z 0) eqn:Ez; [discriminate|]. cbn [bind]. destruct (Nat.ltb (Z.to_nat z) N) eqn:E; [|discriminate]. intros [= <-].
  apply Z.ltb_ge in Ez. apply Nat.ltb_lt in E. rewrite Z2Nat.id by auto. auto.
Qed.

Lemma weightedSource_ok ds rows w : shows ds rows -> length w = length rows -> distribution w ->
  exists src rows', weightedSource ds w = Ok src /\ resampled rows w rows' /\ shows src rows' /\ srcOutputs src = srcOutputs ds.
Proof.
  intros (EN & Hr) Lw (Hp & Hs).
  assert (F : Forall (fun x => 0 <= x) w).
  { apply Forall_forall. intros x HI. destruct (In_nth _ _ 0 HI) as (n & Hn & <-). left. auto. }
  assert (Hsum : fold_right Rplus 0 w = 1) by (fold (lsum w); rewrite lsum_rsum; exact Hs).
  destruct (resample_frequency w F Hsum (fun _ => 0)) as (inds & E & Li & Hi & Hc).
  unfold weightedSource. rewrite EN, <- Lw, E. cbn [bind].
  set (ix := map Z.to_nat inds).
  assert (Hix : forall n, (n < length w)%nat -> exists i r, instanceOf inds (length w) n = Ok i /\ nth_error ix n = Some i /\ nth_error rows i = Some r).
  { intros n Hn. destruct (Hi n Hn) as (i & x & E1 & E2 & _). destruct (instanceOf_nat _ _ _ _ E1) as (E3 & E4).
    destruct (nth_error_lt rows i ltac:(lia)) as (r & Er). exists i, r. split; auto. split; auto.
    unfold ix. rewrite nth_error_map, E3. cbn. now rewrite Nat2Z.id. }
  assert (Lx : length ix = length rows) by (unfold ix; rewrite map_length; lia).
  set (rows' := map (fun i => nth i rows ([], [])) ix).
  eexists _, rows'. split; [reflexivity|]. split; [|split].
  - exists ix. split; auto. split.
    + unfold rows'. assert (G : forall i, In i ix -> (i < length rows)%nat).
      { intros i HI. destruct (In_nth_error _ _ HI) as (n & E1). assert (Hn : (n < length w)%nat) by (rewrite Lw, <- Lx; apply nth_error_Some; congruence).
        destruct (Hix n Hn) as (i' & r & _ & E2 & E3). assert (i' = i) by congruence. subst. apply nth_error_Some. congruence. }
      clearbody ix. clear -G. induction ix as [|i ix IH]; [constructor|]. cbn. constructor.
      * apply nth_error_nth'. apply G. now left.
      * apply IH. intros. apply G. now right.
    + intros i Hi'. rewrite <- Lw. assert (Hw : nth_error w i = Some w.[i]) by (apply nth_error_nth'; lia).
      specialize (Hc i _ Hw).
      assert (Q : count_occ Nat.eq_dec ix i = count_occ Z.eq_dec inds (Z.of_nat i)); [|now rewrite Q].
      assert (Pz : forall z, In z inds -> (0 <= z)%Z).
      { intros z HI. destruct (In_nth_error _ _ HI) as (n & E1). assert (Hn : (n < length w)%nat) by (rewrite <- Li; apply nth_error_Some; congruence).
        destruct (Hi n Hn) as (i' & x & E2 & _). destruct (instanceOf_nat _ _ _ _ E2) as (E3 & _). assert (z = Z.of_nat i') by congruence. lia. }
      unfold ix. clear -Pz. induction inds as [|z inds IH]; [reflexivity|]. cbn [map].
      specialize (IH (fun z' Hz' => Pz z' (or_intror Hz'))). pose proof (Pz z (or_introl eq_refl)).
      destruct (Z.eq_dec z (Z.of_nat i)) as [->|Nz].
      * rewrite Nat2Z.id. rewrite !count_occ_cons_eq by auto. auto.
      * rewrite (count_occ_cons_neq Z.eq_dec) by auto. rewrite (count_occ_cons_neq Nat.eq_dec); auto. intros <-. apply Nz. now rewrite Z2Nat.id.
  - split.
    + cbn. unfold rows'. rewrite map_length. lia.
    + intros n r' Er. cbn. assert (Hn : (n < length w)%nat).
      { rewrite Lw, <- Lx. unfold rows' in Er. rewrite nth_error_map in Er. apply nth_error_Some. destruct (nth_error ix n); discriminate || cbn in Er; congruence. }
      destruct (Hix n Hn) as (i & r & E1 & E2 & E3). rewrite E1. cbn [bind]. unfold rows' in Er. rewrite nth_error_map, E2 in Er. cbn in Er.
      rewrite (nth_error_nth rows i ([], []) E3) in Er. injection Er as <-. now apply Hr.
  - reflexivity.
Qed.

(** ** What a round does to a distribution *)
Lemma quality_exp e : 0 <= e < 1 -> exp (2 * quality e) = (1 - e) / (e + eps).
Proof.
  intros He. pose proof eps_pos. unfold quality. replace (2 * (/ 2 * ln ((1 - e) / (e + eps)))) with (ln ((1 - e) / (e + eps))) by field.
  apply exp_ln. apply Rdiv_lt_0_compat; lra.
Qed.

Lemma reweighted_distribution w hit w' : distribution w -> (0 < length w)%nat -> reweighted w hit w' -> distribution w'.
Proof.
  intros (Hp & Hs) HN (Lw & Fw). cbv zeta in Fw. set (e := weightedError w hit) in *.
  set (Z := rsum (length w) (fun i => w.[i] * factor hit e i)) in *.
  assert (Hf : forall n, (n < length w)%nat -> 0 < w.[n] * factor hit e n).
  { intros n Hn. apply Rmult_lt_0_compat; auto. apply exp_pos. }
  assert (HZ : 0 < Z). { unfold Z. apply rsum_pos; auto. }
  split.
  - rewrite Lw. intros n Hn. rewrite Fw by auto. apply Rdiv_lt_0_compat; auto.
  - rewrite Lw. rewrite (rsum_ext _ _ (fun n => / Z * (w.[n] * factor hit e n))).
    + rewrite rsum_scal. fold Z. field. lra.
    + intros n Hn. rewrite Fw by auto. field. lra.
Qed.

Lemma reweighted_error w hit w' : distribution w -> (0 < length w)%nat -> weightedError w hit < 1 -> 0 < weightedError w hit -> reweighted w hit w' ->
  weightedError w' hit = weightedError w hit / (2 * weightedError w hit + eps).
Proof.
  intros Hd HN He1 He0 (Lw & Fw). cbv zeta in Fw. set (e := weightedError w hit) in *. pose proof Hd as (Hp & Hs).
  set (Z := rsum (length w) (fun i => w.[i] * factor hit e i)) in *. pose proof eps_pos.
  assert (EZ : Z = e * exp (quality e) + (1 - e) * exp (- quality e)).
  { unfold Z. transitivity (rsum (length w) (fun n => exp (quality e) * (if hit n then 0 else w.[n]) + exp (- quality e) * (w.[n] - if hit n then 0 else w.[n]))).
    - apply rsum_ext. intros n Hn. unfold factor. destruct (hit n); ring.
    - rewrite rsum_plus, !rsum_scal. rewrite rsum_minus. rewrite Hs. unfold e, weightedError. ring. }
  assert (Q : exp (quality e) = exp (2 * quality e) * exp (- quality e)) by (rewrite <- exp_plus; f_equal; ring).
  rewrite quality_exp in Q by lra. pose proof (exp_pos (- quality e)).
  assert (P1 : 0 < (1 - e) / (e + eps)) by (apply Rdiv_lt_0_compat; lra).
  assert (HZ : 0 < Z). { rewrite EZ. pose proof (exp_pos (quality e)). apply Rplus_lt_0_compat; apply Rmult_lt_0_compat; lra. }
  unfold weightedError at 1. rewrite Lw. transitivity (exp (quality e) * e / Z).
  - unfold Rdiv. rewrite Rmult_assoc, (Rmult_comm e), <- Rmult_assoc. unfold e at 2. unfold weightedError. rewrite <- rsum_scal.
    apply rsum_ext. intros n Hn. destruct (hit n) eqn:Eh; [ring|]. rewrite Fw by auto. unfold factor. rewrite Eh. field. lra.
  - rewrite EZ, Q. clear EZ Q P1 HZ Fw Z. set (d := eps) in *. set (x := exp (- quality e)) in *. clearbody d x e.
    assert (P : 0 < e * ((1 - e) * x) + (1 - e) * x * (e + d)).
    { replace (e * ((1 - e) * x) + (1 - e) * x * (e + d)) with ((1 - e) * x * (2 * e + d)) by ring.
      repeat apply Rmult_lt_0_compat; lra. }
    field. repeat split; lra.
Qed.

Lemma firstn_upd {A} (l : list A) t x : (t < length l)%nat -> firstn (S t) (upd l t x) = firstn t l ++ [x].
Proof.
  revert t. induction l as [|y l IH]; intros [|t] Ht; cbn [length] in Ht; try lia; [reflexivity|].
  cbn [upd]. change (firstn (S (S t)) (y :: upd l t x)) with (y :: firstn (S t) (upd l t x)). rewrite IH by lia. reflexivity.
Qed.

(** ** Training *)
Notation state := (list L * O * list (option R) * list R * source * nat)%type.

(** what is known between two rounds *)
Definition ready F rows (w : list R) (r : source) : Prop :=
  distribution w /\ length w = length rows /\
  exists rows', resampled rows w rows' /\ shows r rows' /\ srcOutputs r = F.

Lemma round_ok ds rows m mem o mw w r t :
  sound rows -> shows ds rows -> rows <> [] -> ready (srcOutputs ds) rows w r -> (m < length mem)%nat -> (t < length mw)%nat ->
  exists l rows' o1 l1 w1 r1,
    let hit := hitOf l1 rows in
    let e := weightedError w hit in
    let a := if Rlt_dec e 1 then Some (quality e) else None in
    ada_round predict optimize ds m (mem, o, mw, w, r, t) = Ok (upd mem m l1, o1, upd mw t a, w1, r1, S t) /\
    ready (srcOutputs ds) rows w1 r1 /\
    nth_error mem m = Some l /\ resampled rows w rows' /\ shows r rows' /\ srcOutputs r = srcOutputs ds /\
    optimize r o l = (o1, l1) /\ classifies (predict l1) rows hit /\
    (if Rlt_dec 0 e then if Rlt_dec e (/ 2) then reweighted w hit w1 else w1 = w else w1 = w).
Proof.
  intros Hs Sh Hne (Hd & Lw & rows' & Rs & Sr & Er) Hm Ht. destruct (nth_error_lt mem m Hm) as (l & El).
  destruct (optimize r o l) as (o1, l1) eqn:Eo.
  assert (Hpos : (0 < length w)%nat) by (rewrite Lw; destruct rows; [contradiction|cbn; lia]).
  pose proof (hit_ok l1 rows Hs) as Hc. pose proof (error_bounds w (hitOf l1 rows) Hd) as Hb. pose proof eps_pos as He.
  set (e := weightedError w (hitOf l1 rows)) in *.
  set (a := if Rlt_dec e 1 then Some (quality e) else None).
  assert (Ea : option_map (Rmult (/ 2)) (logarithm ((1 - e) / (e + eps))) = a).
  { unfold a, logarithm. destruct (Rlt_dec e 1).
    - rewrite (proj2 (Rltb_true _ _)) by (apply Rdiv_lt_0_compat; lra). reflexivity.
    - replace e with 1 by lra. replace ((1 - 1) / (1 + eps)) with 0 by (field; lra).
      rewrite (proj2 (Rltb_false _ _)) by lra. reflexivity. }
  assert (Step : ada_round predict optimize ds m (mem, o, mw, w, r, t) =
    (if (Reqb e 0 || Rleb (/ 2) e)%bool then Ok (upd mem m l1, o1, upd mw t a, w, r, S t)
     else match a with None => UB | Some alpha =>
       w <- reweight predict l1 ds alpha w ;;
       let w := map (fun v => v / fold_right Rplus 0 w) w in
       r <- weightedSource ds w ;; Ok (upd mem m l1, o1, upd mw t a, w, r, S t) end)).
  { unfold ada_round. unfold vget at 1. rewrite El. cbn [bind]. rewrite Eo. rewrite vset_Ok by auto. cbn [bind].
    rewrite (accuracy_hit l1 ds rows w Hs Sh Lw). cbn [bind]. rewrite (accuracy_error l1 rows w Lw Hd). fold e.
    replace (1 - (1 - e)) with e by ring. rewrite Ea.
    rewrite (proj2 (Rleb_true 0 e)) by lra. rewrite (proj2 (Rleb_true e 1)) by lra. cbn [andb check bind].
    rewrite vset_Ok by auto. cbn [bind]. reflexivity. }
  destruct (Rlt_dec 0 e) as [H0|H0]; [destruct (Rlt_dec e (/ 2)) as [H1|H1]|].
  - rewrite (proj2 (Reqb_false e 0)) in Step by lra. rewrite (proj2 (Rleb_false _ _)) in Step by lra. cbn [orb] in Step.
    assert (Eq : a = Some (quality e)) by (unfold a; destruct (Rlt_dec e 1); [reflexivity|lra]).
    rewrite Eq in Step.
    destruct (reweight_ok l1 ds rows w (quality e) Hs Sh Lw) as (w2 & Ew & L2 & F2). rewrite Ew in Step. cbn [bind] in Step. cbv zeta in Step.
    set (w1 := map (fun v => v / fold_right Rplus 0 w2) w2) in *.
    assert (Rw : reweighted w (hitOf l1 rows) w1).
    { split; [unfold w1; now rewrite map_length|]. intros n Hn. fold e. unfold w1.
      set (f := fun v => v / fold_right Rplus 0 w2). assert (Em : (map f w2).[n] = f w2.[n]).
      { rewrite (nth_indep _ 0 (f 0)) by (rewrite map_length; lia). apply map_nth. }
      rewrite Em. unfold f.
      rewrite F2 by auto. f_equal. fold (lsum w2). rewrite lsum_rsum, L2. apply rsum_ext. intros i Hi. now rewrite F2. }
    pose proof (reweighted_distribution _ _ _ Hd Hpos Rw) as Hd1. assert (L1 : length w1 = length rows) by (destruct Rw; lia).
    destruct (weightedSource_ok ds rows w1 Sh L1 Hd1) as (r1 & rows1 & E1 & R1 & S1 & O1). rewrite E1 in Step. cbn [bind] in Step.
    exists l, rows', o1, l1, w1, r1. cbv zeta. fold e a. rewrite Step, Eq. split; [reflexivity|]. split; [split; [auto|split; [auto|eauto]]|].
    destruct (Rlt_dec 0 e); [|lra]. destruct (Rlt_dec e (/ 2)); [|lra]. auto 12.
  - rewrite (proj2 (Rleb_true (/ 2) e)) in Step by lra. rewrite orb_true_r in Step.
    exists l, rows', o1, l1, w, r. cbv zeta. fold e a. rewrite Step. split; [reflexivity|]. split; [split; [auto|split; [auto|eauto]]|].
    destruct (Rlt_dec 0 e); [|lra]. destruct (Rlt_dec e (/ 2)); [lra|]. auto 12.
  - rewrite (proj2 (Reqb_true e 0)) in Step by lra. cbn [orb] in Step.
    exists l, rows', o1, l1, w, r. cbv zeta. fold e a. rewrite Step. split; [reflexivity|]. split; [split; [auto|split; [auto|eauto]]|].
    destruct (Rlt_dec 0 e); [lra|]. auto 12.
Qed.

(** the number a model gets before normalisation *)
Definition alphaOf (r : round) : option R := if Rlt_dec (roundError r) 1 then Some (quality (roundError r)) else None.

Lemma rounds_ok ds rows ms : sound rows -> shows ds rows -> rows <> [] ->
  forall mem o mw w r t, ready (srcOutputs ds) rows w r -> (forall m, In m ms -> (m < length mem)%nat) -> (t + length ms = length mw)%nat ->
  exists rs mem' o' w' r',
    for_each ms (ada_round predict optimize ds) (mem, o, mw, w, r, t) =
      Ok (mem', o', firstn t mw ++ map alphaOf rs, w', r', length mw) /\
    boosting predict optimize (srcOutputs ds) rows w mem o ms rs w' mem' o' /\ length rs = length ms.
Proof.
  intros Hs Sh Hne. induction ms as [|m ms IH]; intros mem o mw w r t Hr Hm Hl; cbn [length] in Hl.
  - exists [], mem, o, w, r. cbn [for_each map]. rewrite app_nil_r, firstn_all2 by lia. split; [do 2 f_equal; lia|]. split; [constructor|auto].
  - destruct (round_ok ds rows m mem o mw w r t Hs Sh Hne Hr) as (l & rows' & o1 & l1 & w1 & r1 & H); [apply Hm; now left|lia|].
    cbv zeta in H. destruct H as (E & Hr1 & El & Rs & Sr & Er & Eo & Hc & Hw). cbn [for_each]. rewrite E. cbn [bind].
    destruct (IH (upd mem m l1) o1 (upd mw t (alphaOf (mkRound w (hitOf l1 rows)))) w1 r1 (S t)) as (rs & mem' & o' & w' & r' & E' & B & Lr).
    + exact Hr1.
    + intros m' H'. rewrite upd_length. apply Hm. now right.
    + rewrite upd_length. lia.
    + exists (mkRound w (hitOf l1 rows) :: rs), mem', o', w', r'. split.
      * refine (eq_trans E' _). rewrite upd_length. rewrite firstn_upd by lia. rewrite <- app_assoc. reflexivity.
      * split; [|cbn; lia]. eapply b_round; eauto.
Qed.
End Ensemble.
