(** Proofs about the limit of the norm of weights: setParameters. *)
From Coq Require Import FunctionalExtensionality.
From Verif Require Import Base BaseFacts Matrix RSum MatOps Vec Activation_Model Activation_Proofs Layer_Model Layer_Spec Layer_Proofs LayerFun_Spec
  FC_Model FC_Proofs Net_Model NetBuild_Model NetUse_Spec NetChain_Proofs Net_Proofs NetBuild_Proofs RBMUse_Proofs NetNorm_Spec NetNorm_Proofs.
Local Open Scope R_scope.

(** * The weights of one layer *)
Lemma limitNorm_length m w : length (limitNorm m w) = length w.
Proof. unfold limitNorm. destruct (Rltb m (squaredNorm w)); auto. apply map_length. Qed.
Lemma limitUnits_length m I b units : forall p, length p = (units * (I + b))%nat -> length (limitUnits m I b units p) = length p.
Proof.
  induction units as [|units IH]; intros p H; cbn [limitUnits]; [now rewrite H|]. cbn [Nat.mul] in H.
  rewrite !app_length, limitNorm_length, IH, !firstn_length, !skipn_length; [|rewrite skipn_length]; lia.
Qed.
Lemma nth_firstn (p : list R) i n : (i < n)%nat -> (firstn n p).[i] = p.[i].
Proof. revert p n. induction i; intros [|x p] [|n] H; try lia; cbn [firstn nth]; auto. apply IHi. lia. Qed.
Lemma nth_skipn (p : list R) i n : (skipn n p).[i] = p.[n + i].
Proof. revert p. induction n; intros [|x p]; cbn [skipn Nat.add nth]; auto. now destruct i. Qed.
Lemma limitUnits_nth m I b units : forall p j i, length p = (units * (I + b))%nat -> (j < units)%nat -> (i < I + b)%nat ->
  (limitUnits m I b units p).[j * (I + b) + i] =
    let n2 := rsum I (fun i => p.[j * (I + b) + i] * p.[j * (I + b) + i]) in
    if Nat.ltb i I then if Rltb m n2 then p.[j * (I + b) + i] * sqrt (m / n2) else p.[j * (I + b) + i] else p.[j * (I + b) + i].
Proof.
  induction units as [|units IH]; intros p j i H Hj Hi; [lia|]. cbn [limitUnits]. cbn [Nat.mul] in H.
  assert (L1 : length (limitNorm m (firstn I p)) = I) by (rewrite limitNorm_length, firstn_length; lia).
  assert (L2 : length (firstn b (skipn I p)) = b) by (rewrite firstn_length, skipn_length; lia).
  destruct j as [|j].
  - cbn [Nat.mul Nat.add]. cbn zeta. destruct (Nat.ltb_spec i I).
    + rewrite app_nth1 by lia. unfold limitNorm.
      assert (Q : squaredNorm (firstn I p) = rsum I (fun i => p.[i] * p.[i])).
      { unfold squaredNorm. rewrite firstn_length, Nat.min_l by lia. apply rsum_ext. intros k Hk. now rewrite nth_firstn. }
      rewrite Q. destruct (Rltb m _).
      * rewrite (nth_indep _ 0 (0 * sqrt (m / rsum I (fun i => p.[i] * p.[i])))) by (rewrite map_length, firstn_length; lia).
        rewrite (map_nth (fun a => a * sqrt (m / rsum I (fun i => p.[i] * p.[i])))). now rewrite nth_firstn.
      * now apply nth_firstn.
    + rewrite app_nth2 by lia. rewrite L1. rewrite app_nth1 by lia. rewrite nth_firstn, nth_skipn by lia. f_equal. lia.
  - cbn [Nat.mul]. rewrite app_nth2 by lia. rewrite L1. rewrite app_nth2 by lia. rewrite L2.
    replace (I + b + j * (I + b) + i - I - b)%nat with (j * (I + b) + i)%nat by lia.
    rewrite IH; [|rewrite skipn_length; lia|lia|auto].
    assert (Q : forall k, (skipn (I + b) p).[j * (I + b) + k] = p.[I + b + j * (I + b) + k]) by (intros k; rewrite nth_skipn; f_equal; lia).
    cbn zeta. rewrite (rsum_ext I (fun i0 => (skipn (I + b) p).[j * (I + b) + i0] * (skipn (I + b) p).[j * (I + b) + i0]) (fun i0 => p.[I + b + j * (I + b) + i0] * p.[I + b + j * (I + b) + i0])).
    + now rewrite Q.
    + intros k Hk. now rewrite Q.
Qed.

Section FC.
Context (junk : nat -> nat -> R) (I J : nat) (bias : bool) (act : ActivationFunction) (reg : Regularization).
Notation c := (fc_class junk).
Notation B := (unitParams I bias).
Notation inv := (fc_inv I J bias act).

(** only the weights and biases are different, and only in the matrices *)
Definition sameRest (s q : fc) : Prop :=
  q = fc_params s (fW q) (fb q) /\ (forall j i, ~ (j < J /\ i < I)%nat -> at_ (fW q) j i = at_ (fW s) j i) /\
  (forall j i, ~ (bias = true /\ (j < J)%nat /\ i = 0%nat) -> at_ (fb q) j i = at_ (fb s) j i).
Lemma sameRest_refl s : sameRest s s.
Proof. split; [|split]; auto. now destruct s. Qed.

Lemma mset_at m i j v q : mset m i j v = Ok q -> forall a b, at_ q a b = if (Nat.eqb a i && Nat.eqb b j)%bool then v else at_ m a b.
Proof. unfold mset. destruct (inside m i j); intros H; [|discriminate]. injection H as <-. reflexivity. Qed.

Lemma fc_write_rest s0 s k v q : inv reg s -> sameRest s0 s -> writeParam c s k v = Ok q -> sameRest s0 q.
Proof.
  intros V (S1 & S2 & S3) E. pose proof V as (_ & _ & _ & _ & _ & (W1 & W2) & _ & (b1 & b2) & _). unfold writeParam in E. cbn [initialize fc_class] in E.
  rewrite (fc_init I J bias act reg s V) in E. cbn [fst] in E.
  change ((l <- vget (fc_locs I J bias) k ;; fc_store s l v) = Ok q) in E.
  destruct (vget (fc_locs I J bias) k) as [l| | | |] eqn:El; try discriminate E. cbn [bind] in E.
  apply vget_Some in El. apply nth_error_In in El. apply fc_locs_In in El.
  destruct El as [(j & i & Hj & Hi & ->)|(j & Hj & Hb & ->)]; cbn [fc_store] in E.
  - destruct (mset (fW s) j i v) as [W| | | |] eqn:EW; try discriminate E. cbn [bind] in E.
    assert (Eq : q = fc_params s W (fb s)) by congruence. subst q. clear E. pose proof (mset_at _ _ _ _ _ EW) as EW'. clear EW.
    split; [|split].
    + rewrite S1. reflexivity.
    + intros a b H. cbn [fc_params fW]. rewrite EW'. destruct (Nat.eqb_spec a j); [destruct (Nat.eqb_spec b i)|]; cbn [andb]; auto. subst. tauto.
    + exact S3.
  - destruct (mset (fb s) j 0 v) as [W| | | |] eqn:EW; try discriminate E. cbn [bind] in E.
    assert (Eq : q = fc_params s (fW s) W) by congruence. subst q. clear E. pose proof (mset_at _ _ _ _ _ EW) as EW'. clear EW.
    split; [|split].
    + rewrite S1. reflexivity.
    + exact S2.
    + intros a b H. cbn [fc_params fb]. rewrite EW'. destruct (Nat.eqb_spec a j); [destruct (Nat.eqb_spec b 0)|]; cbn [andb]; auto. subst. tauto.
Qed.
Lemma fc_writeAll_rest s p q : inv reg s -> length p = (J * B)%nat -> writeAll c s p = Ok q -> sameRest s q.
Proof.
  intros V Hp E. unfold writeAll, for_ in E.
  assert (G : forall n from s1 q1, (from + n <= J * B)%nat -> inv reg s1 -> sameRest s s1 ->
    for_from from n (fun k s => v <- vget p k ;; writeParam c s k v) s1 = Ok q1 -> sameRest s q1).
  { induction n as [|n IH]; intros from s1 q1 Hn V1 S1 E1; cbn [for_from] in E1.
    - assert (Q : q1 = s1) by congruence. now subst.
    - destruct (vget p from) as [v| | | |]; try discriminate E1. cbn [bind] in E1.
      destruct (fc_write junk I J bias act reg s1 from v V1) as (s2 & E2 & V2 & _); [lia|]. rewrite E2 in E1. cbn [bind] in E1.
      apply (IH (S from) s2 q1); auto; [lia|]. exact (fc_write_rest s s1 from v s2 V1 S1 E2). }
  apply (G (length p) 0%nat s q); auto; [lia|]. apply sameRest_refl.
Qed.

Lemma fc_updated_rest reg' s q : inv reg' s -> fc_updatedParameters s = Ok q ->
  q = fc_params s (fW q) (fb s) /\ (forall j i, ~ (j < J /\ i < I)%nat -> at_ (fW q) j i = at_ (fW s) j i).
Proof.
  intros V E. pose proof V as (_ & E2 & _ & _ & _ & (W1 & W2) & _). unfold fc_updatedParameters in E.
  destruct (Rltb 0 (maxSquaredWeightNorm (freg s))); [|assert (Q : q = s) by congruence; subst; split; auto; now destruct s].
  match type of E with bind ?m _ = _ => destruct m as [W| | | |] eqn:EW; try discriminate E end. cbn [bind] in E.
  assert (Eq : q = fc_params s W (fb s)) by congruence. subst q. clear E. split; auto. cbn [fc_params fW].
  rewrite E2 in EW. unfold for_ in EW.
  assert (G : forall n from W0 W1', (from + n <= J)%nat -> cols W0 = I -> (forall j i, ~ (j < J /\ i < I)%nat -> at_ W0 j i = at_ (fW s) j i) ->
    for_from from n (fun j W =>
      let squaredNorm := rsum (cols W) (fun i => at_ W j i * at_ W j i) in
      if Nat.ltb j (rows W) then
        if Rltb (maxSquaredWeightNorm (freg s)) squaredNorm
        then Ok (mrow_map W j (fun w => w * sqrt (maxSquaredWeightNorm (freg s) / squaredNorm)))
        else Ok W
      else UB) W0 = Ok W1' -> forall j i, ~ (j < J /\ i < I)%nat -> at_ W1' j i = at_ (fW s) j i).
  { induction n as [|n IH]; intros from W0 W1' Hn C H E1 j i Hji; cbn [for_from] in E1.
    - assert (Q : W1' = W0) by congruence. subst. auto.
    - cbn zeta in E1. destruct (Nat.ltb from (rows W0)); [|discriminate E1].
      destruct (Rltb (maxSquaredWeightNorm (freg s)) _); cbn [bind] in E1; [|apply (IH (S from) W0 W1'); auto; lia].
      apply (IH (S from) _ W1') with (4 := E1); [lia| | |exact Hji].
      + unfold mrow_map. cbn [cols]. exact C.
      + intros a b Hab. unfold mrow_map. cbn [at_]. destruct (Nat.eqb_spec a from); cbn [andb]; auto.
        destruct (Nat.ltb_spec b (cols W0)); auto. exfalso. apply Hab. lia. }
  intros j i H. apply (G J 0%nat (fW s) W) with (5 := H); auto.
Qed.

Lemma mat_ext (a b : mat) : rows a = rows b -> cols a = cols b -> (forall i j, at_ a i j = at_ b i j) -> a = b.
Proof.
  destruct a as [r c0 f], b as [r' c' f']. cbn. intros -> -> H. f_equal. extensionality i. extensionality j. apply H.
Qed.

(** the layer after updatedParameters has the limited parameters *)
Lemma fc_limited m s p w : maxSquaredWeightNorm reg <= 0 -> inv reg s -> length p = (J * B)%nat -> writeAll c s p = Ok w ->
  exists q, updatedParameters c (fcS m w) = Ok (fcS m q) /\
    writeAll c s (if Rltb 0 m then limitUnits m I (if bias then 1 else 0) J p else p) = Ok q /\ updatedParameters c q = Ok q.
Proof.
  intros Hreg V Hp E. cbn [updatedParameters fc_class].
  assert (Vw : inv reg w) by (destruct (fc_writeAll junk I J bias act reg s p V Hp) as (w' & E' & V' & _); congruence).
  destruct (Rltb 0 m) eqn:Em.
  2:{ exists w. split; [|split; auto].
      - unfold fc_updatedParameters. cbn [fcS freg withLimit maxSquaredWeightNorm]. now rewrite Em.
      - now apply (fc_updated I J bias act reg Hreg). }
  set (lp := limitUnits m I (if bias then 1 else 0) J p).
  assert (Hl : length lp = (J * B)%nat) by (unfold lp; rewrite limitUnits_length; auto).
  destruct (fc_writeAll junk I J bias act reg s lp V Hl) as (q & Eq & Vq & Qw & Qb). exists q. split; [|split; auto].
  2:{ now apply (fc_updated I J bias act reg Hreg). }
  destruct (fc_writeAll junk I J bias act reg s p V Hp) as (w' & E' & _ & Ww & Wb). assert (w' = w) by congruence. subst w'.
  pose proof (fc_writeAll_rest s p w V Hp E) as (Rw1 & Rw2 & Rw3). pose proof (fc_writeAll_rest s lp q V Hl Eq) as (Rq1 & Rq2 & Rq3).
  assert (VS : fc_inv I J bias act (withLimit m reg) (fcS m w)).
  { destruct Vw as (A1 & A2 & A3 & A4 & A5 & A6). unfold fc_inv. cbn [fcS fI fJ fbias fact freg fW fWd fb fbd fy fyd]. rewrite A5. auto 10. }
  destruct (fc_updated_general I J bias act (withLimit m reg) (fcS m w) VS) as (u & Eu & Vu & Bu & Uu). rewrite Eu. f_equal.
  assert (RU : u = fc_params (fcS m w) (fW u) (fb (fcS m w)) /\ (forall j i, ~ (j < J /\ i < I)%nat -> at_ (fW u) j i = at_ (fW (fcS m w)) j i)).
  { exact (fc_updated_rest (withLimit m reg) (fcS m w) u VS Eu). }
  destruct RU as (RU1 & RU2).
  assert (EqW : fW u = fW q).
  { destruct Vu as (_ & _ & _ & _ & _ & (u1 & u2) & _), Vq as (_ & _ & _ & _ & _ & (q1 & q2) & _). apply mat_ext; try congruence.
    intros j i. destruct (Nat.ltb_spec j J) as [Hj|Hj]; [destruct (Nat.ltb_spec i I) as [Hi|Hi]|].
    - rewrite Qw by auto. unfold lp. assert (HB : B = (I + if bias then 1 else 0)%nat) by reflexivity. rewrite HB in *.
      rewrite limitUnits_nth by (auto; lia). apply Nat.ltb_lt in Hi as Hi'. rewrite Hi'. cbn zeta.
      apply Rltb_true in Em. rewrite (Uu Em j Hj i Hi). cbn [fcS fW withLimit maxSquaredWeightNorm]. rewrite !Ww by auto.
      rewrite (rsum_ext I (fun i0 => at_ (fW w) j i0 * at_ (fW w) j i0) (fun i0 => p.[j * (I + (if bias then 1 else 0)) + i0] * p.[j * (I + (if bias then 1 else 0)) + i0])); auto.
      intros k Hk. now rewrite !Ww by auto.
    - rewrite RU2 by lia. cbn [fcS fW]. rewrite Rw2, Rq2 by lia. auto.
    - rewrite RU2 by lia. cbn [fcS fW]. rewrite Rw2, Rq2 by lia. auto. }
  assert (Eqb : fb w = fb q).
  { destruct Vw as (_ & _ & _ & _ & _ & _ & _ & (w1 & w2) & _), Vq as (_ & _ & _ & _ & _ & _ & _ & (q1 & q2) & _). apply mat_ext; try congruence.
    intros j i. destruct bias eqn:Eb; [destruct (Nat.ltb_spec j J) as [Hj|Hj]; [destruct i as [|i]|]|].
    - rewrite (Wb eq_refl j Hj), (Qb eq_refl j Hj). unfold lp, unitParams. rewrite limitUnits_nth; auto; [|lia]. rewrite Nat.ltb_irrefl. reflexivity.
    - rewrite Rw3, Rq3 by (intros (_ & _ & ?); lia). auto.
    - rewrite Rw3, Rq3 by (intros (_ & ? & _); lia). auto.
    - rewrite Rw3, Rq3 by (intros (? & _); discriminate). auto. }
  rewrite RU1, EqW, Rq1. cbn [fcS fb]. rewrite Eqb, Rw1. reflexivity.
Qed.
End FC.

(** * All layers *)
Section Net.
Variable junk : nat -> nat -> R.
Notation kc := (kclass junk).
Notation nInv := (nInv junk).
Notation invs := (invs kc nInv).
Notation count := (count kc nK).
Notation installAll := (installAll kc nK).
Notation writeLs := (writeLs kc nK).

Definition limitK (m : R) (k : kind) (p : list R) : list R :=
  match k with KFullyConnected i j b _ _ => if Rltb 0 m then limitUnits m i (if b then 1 else 0) j p else p | _ => p end.
Fixpoint limitLs (ms : list R) (ls : list (layer kc)) (p : list R) : list R :=
  match ls with
  | [] => p
  | l :: ls => limitK (hd 0 ms) (lkind kc l) (firstn (nK (lkind kc l)) p) ++ limitLs (tl ms) ls (skipn (nK (lkind kc l)) p)
  end.
Lemma limitK_length m k p : length p = nK k -> length (limitK m k p) = length p.
Proof. destruct k; cbn [limitK nK]; auto. intros H. destruct (Rltb 0 m); auto. now apply limitUnits_length. Qed.
Lemma limitLs_length ls : forall ms p, length p = count ls -> length (limitLs ms ls p) = length p.
Proof.
  induction ls as [|l ls IH]; intros ms p H; cbn [limitLs NetChain_Proofs.count] in *; auto.
  rewrite app_length, limitK_length, IH; rewrite ?firstn_length, ?skipn_length; lia.
Qed.

(** the squared norms of weights are limited *)
Definition bnd (m : R) (l : layer kc) : Prop :=
  match lkind kc l as k return St (kc k) -> Prop with
  | KFullyConnected ni nj _ _ _ => fun o => 0 < m -> forall j, (j < nj)%nat -> rsum ni (fun i => at_ (fW o) j i * at_ (fW o) j i) <= m
  | _ => fun _ => True
  end (lobj kc l).
Fixpoint bnds (ms : list R) (ls : list (layer kc)) : Prop :=
  match ls with [] => True | l :: ls => bnd (hd 0 ms) l /\ bnds (tl ms) ls end.

Lemma install_limited m k o p : nInv k o -> length p = nK k ->
  exists w q, writeAll (kc k) o p = Ok w /\ updatedParameters (kc (sk m k)) (so junk m k w) = Ok (so junk m k q) /\
    install (kc k) o (limitK m k p) = Ok q /\ bnd m (mkLayer kc k q).
Proof.
  intros V Hp.
  assert (G : (forall i j b a r, k <> KFullyConnected i j b a r) ->
    exists w q, writeAll (kc k) o p = Ok w /\ updatedParameters (kc (sk m k)) (so junk m k w) = Ok (so junk m k q) /\ install (kc k) o p = Ok q).
  { intros H. destruct (install_Ok kc nI nO nK nInv (nsmooth junk) (nfn junk) (nrg junk) (nok junk) k o p V Hp) as (w & q & E1 & _ & E2 & _).
    exists w, q. split; auto. split.
    - rewrite so_updated by auto. unfold rmap. rewrite E2. reflexivity.
    - unfold install. rewrite E1. cbn [bind]. exact E2. }
  destruct k; try (destruct G as (w0 & q & E1 & E2 & E3); [discriminate|]; exists w0, q; split; [auto|]; split; [auto|]; split; [auto|exact Logic.I]).
  clear G. destruct V as (Hr & V). cbn [limitK nK sk so] in *.
  destruct (fc_writeAll junk I J bias act reg o p V Hp) as (w & E & _). destruct (fc_limited junk I J bias act reg m o p w Hr V Hp E) as (q & E1 & E2 & E3).
  exists w, q. split; [exact E|]. split; [exact E1|]. split.
  - unfold install. change (kc (KFullyConnected I J bias act reg)) with (fc_class junk). rewrite E2. exact E3.
  - cbn [bnd lkind lobj]. intros Hm j Hj. apply Rltb_true in Hm as Hm'. rewrite Hm' in E2.
    set (lp := limitUnits m I (if bias then 1 else 0) J p) in *.
    destruct (fc_writeAll junk I J bias act reg o lp V) as (q' & E4 & _ & Q & _). { unfold lp. now rewrite limitUnits_length. }
    assert (q' = q) by congruence. subst q'.
    set (P2 := fun i => p.[j * (I + (if bias then 1 else 0)) + i] * p.[j * (I + (if bias then 1 else 0)) + i]).
    rewrite (rsum_ext I _ (fun i => if Rltb m (rsum I P2) then P2 i * (m / rsum I P2) else P2 i)).
    2:{ intros i Hi. rewrite !Q by auto. unfold lp, unitParams. rewrite limitUnits_nth by (auto; lia). apply Nat.ltb_lt in Hi. rewrite Hi. cbn zeta. fold P2.
        destruct (Rltb m (rsum I P2)) eqn:E5; [|reflexivity]. apply Rltb_true in E5. unfold P2 at 3.
        assert (0 <= m / rsum I P2) by (apply Rlt_le, Rdiv_lt_0_compat; lra).
        transitivity (p.[j * (I + (if bias then 1 else 0)) + i] * p.[j * (I + (if bias then 1 else 0)) + i] * (sqrt (m / rsum I P2) * sqrt (m / rsum I P2))); [ring|].
        now rewrite sqrt_sqrt. }
    destruct (Rltb m (rsum I P2)) eqn:E5.
    + apply Rltb_true in E5. rewrite rsum_scal_r. right. field. lra.
    + apply Rltb_false in E5. exact E5.
Qed.

Lemma installs ls : forall ms p, invs ls -> length p = count ls ->
  exists wt lt, writeLs ls p = Ok wt /\ updateLayers kc (relab junk ms wt) = Ok (relab junk ms lt) /\ installAll ls (limitLs ms ls p) = Ok lt /\ bnds ms lt.
Proof.
  induction ls as [|[k o] ls IH]; intros ms p V Hp.
  - exists [], []. cbn. auto.
  - inversion V as [|? ? V1 V2]; subst. cbn [NetChain_Proofs.count lkind] in Hp. cbn [lkind lobj] in V1.
    assert (L1 : length (firstn (nK k) p) = nK k) by (rewrite firstn_length; lia).
    destruct (install_limited (hd 0 ms) k o (firstn (nK k) p) V1 L1) as (w & q & E1 & E2 & E3 & E4).
    destruct (IH (tl ms) (skipn (nK k) p) V2) as (wt & lt & F1 & F2 & F3 & F4). { rewrite skipn_length. lia. }
    exists (mkLayer kc k w :: wt), (mkLayer kc k q :: lt). split; [|split; [|split; [|split; auto]]].
    + cbn [NetChain_Proofs.writeLs lkind lobj]. rewrite E1. cbn [bind]. now rewrite F1.
    + cbn [relab updateLayers sl lkind lobj]. rewrite E2. cbn [bind]. now rewrite F2.
    + cbn [NetChain_Proofs.installAll limitLs lkind lobj].
      assert (L2 : length (limitK (hd 0 ms) k (firstn (nK k) p)) = nK k) by (rewrite limitK_length; auto).
      rewrite firstn_app, L2, Nat.sub_diag. cbn [firstn]. rewrite app_nil_r, firstn_all2 by lia. rewrite E3. cbn [bind].
      rewrite skipn_app, L2, Nat.sub_diag. cbn [skipn]. rewrite skipn_all2 by lia. cbn [app]. now rewrite F3.
Qed.

Lemma set_limited I O t ms v p : good kc nI nO nK nInv isIn I O t -> length p = P kc t ->
  exists t1, setParameters kc (rl junk ms v t) p = Ok (rl junk ms p t1) /\ setParameters kc t (limitLs ms (layers kc t) p) = Ok t1 /\
    length (limitLs ms (layers kc t) p) = P kc t /\ bnds ms (layers kc t1).
Proof.
  intros G Hp. pose proof G as [H1 H2 H3 H4 H5 H6 H7 H8]. rewrite H6 in Hp.
  destruct (installs (layers kc t) ms p H3 Hp) as (wt & lt & E1 & E2 & E3 & E4).
  assert (Hl : length (limitLs ms (layers kc t) p) = P kc t) by (rewrite limitLs_length, H6; auto).
  destruct (set_ok kc nI nO nK nInv (nsmooth junk) (nfn junk) (nrg junk) (nok junk) isIn I O t _ G Hl) as (ls & S1 & S2 & _).
  assert (ls = lt) by congruence. subst ls. rewrite S1. eexists. split; [|split; [reflexivity|split; auto]].
  unfold setParameters. cbn [rl with_vector with_layers P parameters layers]. rewrite H6. unfold for_.
  rewrite (for_map (relab junk ms) (fun k ls => ptr <- vget (parameters kc t) k ;; v <- vget p k ;; storePtr kc ls ptr v)).
  2:{ intros i s. unfold rmap. destruct (vget (parameters kc t) i) as [ptr| | | |]; cbn [bind]; auto. destruct (vget p i) as [x| | | |]; cbn [bind]; auto. apply relab_storePtr. }
  pose proof (writes_layers kc nI nO nK nInv (nsmooth junk) (nfn junk) (nrg junk) (nok junk) (parameters kc t) p (layers kc t) [] 0 p H3 Hp) as EW.
  cbn [app] in EW. unfold rmap. rewrite EW.
  - rewrite E1. cbn [bind]. rewrite E2. cbn [bind]. reflexivity.
  - intros i Hi. cbn [Nat.add length]. now rewrite H4.
Qed.

(** the limited parameters in terms of commands *)
Lemma limitLs_commands cs : forall info r ls p, map (lkind kc) ls = kindsOf info (withoutLimit r) (unlimited cs) ->
  limitLs (limits r cs) ls p = limitParameters info r cs p.
Proof.
  induction cs as [|[l|q] cs IH]; intros info r ls p H.
  - destruct ls; [reflexivity|discriminate H].
  - cbn [unlimited map unlimitedCommand kindsOf] in H. destruct ls as [|x ls]; [discriminate H|]. cbn [map] in H. injection H as Hk H.
    cbn [limitLs limits hd tl limitParameters]. rewrite Hk, kindOf_params. rewrite kindOf_output in H.
    rewrite (IH _ _ _ _ H). f_equal. destruct l; reflexivity.
  - cbn [unlimited map unlimitedCommand kindsOf limits limitParameters] in *. now apply IH.
Qed.
Lemma unlimited_ok cs : Forall no_max_norm (unlimited cs).
Proof. apply Forall_map, Forall_forall. intros [l|q] _; cbn; auto. lra. Qed.
Lemma unlimited_redraw w cs : forall i, unlimited (redraw w i cs) = redraw w i (unlimited cs).
Proof. induction cs as [|[l|q] cs IH]; intros i; cbn [redraw unlimited map unlimitedCommand]; auto; f_equal; apply IH. Qed.
Lemma limits_redraw w cs : forall i r, limits r (redraw w i cs) = limits r cs.
Proof. induction cs as [|[l|q] cs IH]; intros i r; cbn [redraw limits]; auto. f_equal. apply IH. Qed.

(** * Every state of a network with limits belongs to a state of the network without limits *)
Definition lims (cs : list command) : list R := 0 :: limits (mkReg 0 0 0) cs.

Lemma rmap_Ok {A B} (f : A -> B) r y : rmap f r = Ok y -> exists x, r = Ok x /\ y = f x.
Proof. destruct r as [x| | | |]; cbn; intros E; try discriminate. injection E as <-. eauto. Qed.

Lemma same_bnd m l l' : nInv _ (lobj kc l) -> nInv _ (lobj kc l') -> same_layer kc nO nK (nfn junk) (nrg junk) l' l -> bnd m l -> bnd m l'.
Proof.
  intros V V' S. destruct S as [k q s (S1 & _)]. cbn [lkind lobj] in *. destruct k; auto. unfold bnd. cbn [lkind lobj]. intros H Hm j Hj.
  destruct V as (_ & V), V' as (_ & V'). cbn [nK] in S1.
  rewrite (rsum_ext I _ (fun i => at_ (fW s) j i * at_ (fW s) j i)); [now apply H|]. intros i Hi.
  assert (E : at_ (fW q) j i = at_ (fW s) j i); [|now rewrite E].
  assert (Hi' : (i < unitParams I bias)%nat) by (unfold unitParams; lia).
  specialize (S1 (j * unitParams I bias + i)%nat). change (kc (KFullyConnected I J bias act reg)) with (fc_class junk) in S1.
  rewrite (fc_read junk I J bias act reg q j i V' Hj Hi'), (fc_read junk I J bias act reg s j i V Hj Hi') in S1.
  apply Nat.ltb_lt in Hi. rewrite Hi in S1. assert (L : (j * unitParams I bias + i < J * unitParams I bias)%nat) by (clear - Hj Hi'; nia).
  specialize (S1 L). congruence.
Qed.
Lemma same_bnds ls ls' : same_layers kc nO nK (nfn junk) (nrg junk) ls' ls -> forall ms, invs ls -> invs ls' -> bnds ms ls -> bnds ms ls'.
Proof.
  induction 1 as [|x y l l' S F IH]; intros ms V V' B; auto. inversion V; subst. inversion V'; subst. destruct B as (B1 & B2). split; [|now apply IH].
  now apply (same_bnd _ y x).
Qed.

Lemma calls_sim d1 d2 d3 cs t ms v s' : usable junk d1 d2 d3 cs t -> length v = P kc t -> calls junk (rl junk ms v t) s' ->
  exists t' v', calls junk t t' /\ s' = rl junk ms v' t' /\ length v' = P kc t' /\ (bnds ms (layers kc t) -> bnds ms (layers kc t')).
Proof.
  intros U Hv C. pose proof U as [H1 H2 H3 H4 H5 H6 H7].
  assert (FIN : forall t' v', calls junk t t' -> s' = rl junk ms v' t' -> length v' = P kc t ->
     bnds ms (layers kc t') \/ same_layers kc nO nK (nfn junk) (nrg junk) (layers kc t') (layers kc t) ->
     exists t' v', calls junk t t' /\ s' = rl junk ms v' t' /\ length v' = P kc t' /\ (bnds ms (layers kc t) -> bnds ms (layers kc t'))).
  { intros t' v' Ct Es Lv B. pose proof (usable_calls junk d1 d2 d3 cs t t' U Ct) as U'. exists t', v'. split; auto. split; auto. split.
    - rewrite Lv, (usable_dimension _ _ _ _ _ _ U), (usable_dimension _ _ _ _ _ _ U'). reflexivity.
    - destruct B as [B|B]; auto. apply (same_bnds _ _ B); [apply H1|apply (u_good _ _ _ _ _ _ U')]. }
  remember (rl junk ms v t) as s eqn:Es.
  destruct C as [s p s' Hp E|s x s' y HR HX E|s n s' e E|s s' e E|s idx grad s' e g Hi Hg E|s n s' g E|s s' g HN E|s b|s ef|s d Hd]; subst s.
  - change (dimension kc (rl junk ms v t)) with (P kc t) in Hp. destruct (set_limited _ _ t ms v p H1 Hp) as (t1 & E1 & E2 & E3 & E4).
    assert (s' = rl junk ms p t1) by congruence. subst s'. apply (FIN t1 p); auto. now apply (call_setParameters junk t (limitLs ms (layers kc t) p)).
  - rewrite rl_apply in E. apply rmap_Ok in E. destruct E as ((t' & y') & E & Q). cbn [f2] in Q. assert (s' = rl junk ms v t') by congruence. subst s'.
    apply (FIN t' v); auto. { now apply (call_apply junk t x t' y'). } right.
    destruct (forward_net kc nI nO nK nInv (nsmooth junk) (nfn junk) (nrg junk) (nok junk) isIn _ _ t x H1 HX)
      as (ls & Y & Yo & Ef & Eo & SY & SYo & En & V & Sm & Fy & Fo & G'); auto.
    unfold net_apply in E. rewrite En in E. cbn [bind] in E. injection E as <- _. exact Sm.
  - rewrite rl_error_at in E. apply rmap_Ok in E. destruct E as ((t' & y') & E & Q). cbn [f2] in Q. assert (s' = rl junk ms v t') by congruence. subst s'.
    apply (FIN t' v); auto. { now apply (call_error_at junk t n t' y'). } right.
    destruct (error_at_pres kc nI nO nK nInv (nsmooth junk) (nfn junk) (nrg junk) (nok junk) isIn _ _ t n t' y' H1) as (G & S); auto. apply S.
  - rewrite rl_error in E. apply rmap_Ok in E. destruct E as ((t' & y') & E & Q). cbn [f2] in Q. assert (s' = rl junk ms v t') by congruence. subst s'.
    apply (FIN t' v); auto. { now apply (call_error junk t t' y'). } right.
    destruct (error_pres kc nI nO nK nInv (nsmooth junk) (nfn junk) (nrg junk) (nok junk) isIn _ _ t t' y' H1) as (G & S); auto. apply S.
  - rewrite rl_errorGradient in E. apply rmap_Ok in E. destruct E as (((t' & y') & g') & E & Q). cbn [f3] in Q. assert (s' = rl junk ms v t') by congruence. subst s'.
    apply (FIN t' v); auto. { now apply (call_errorGradient junk t idx grad t' y' g'). } right.
    destruct (errorGradient_pres kc nI nO nK nInv (nsmooth junk) (nfn junk) (nrg junk) (nok junk) isIn (nin junk) junk _ _ t idx grad t' y' g' H1) as (G & S & _); auto. apply S.
  - rewrite rl_gradient_at in E. apply rmap_Ok in E. destruct E as ((t' & y') & E & Q). cbn [f2] in Q. assert (s' = rl junk ms v t') by congruence. subst s'.
    apply (FIN t' v); auto. { now apply (call_gradient_at junk t n t' y'). } right.
    unfold gradient_at in E. destruct (errorGradient kc junk t [n] (tempGradient kc t)) as [[[s1 v1] g1]| | | |] eqn:E1; try discriminate E.
    cbn [bind] in E. injection E as <- <-.
    destruct (errorGradient_pres kc nI nO nK nInv (nsmooth junk) (nfn junk) (nrg junk) (nok junk) isIn (nin junk) junk _ _ t [n] (tempGradient kc t) s1 v1 g1 H1) as (G & S & L); auto.
    { discriminate. } { apply (g_grad _ _ _ _ _ _ _ _ _ H1). } apply S.
  - rewrite rl_gradient in E. apply rmap_Ok in E. destruct E as ((t' & y') & E & Q). cbn [f2] in Q. assert (s' = rl junk ms v t') by congruence. subst s'.
    apply (FIN t' v); auto. { now apply (call_gradient junk t t' y'). } right.
    unfold gradient in E. destruct (errorGradient kc junk t (seq 0 (examples kc t)) (tempGradient kc t)) as [[[s1 v1] g1]| | | |] eqn:E1; try discriminate E.
    cbn [bind] in E. injection E as <- <-.
    destruct (errorGradient_pres kc nI nO nK nInv (nsmooth junk) (nfn junk) (nrg junk) (nok junk) isIn (nin junk) junk _ _ t (seq 0 (examples kc t)) (tempGradient kc t) s1 v1 g1 H1) as (G & S & L); auto.
    { change (0 < examples kc t)%nat in HN. destruct (examples kc t); [lia|discriminate]. } { apply (g_grad _ _ _ _ _ _ _ _ _ H1). } apply S.
  - apply (FIN (useDropout kc t b) v); auto; [constructor|]. right. apply same_layers_refl.
  - apply (FIN (setErrorFunction kc t ef) v); auto; [constructor|]. right. apply same_layers_refl.
  - apply (FIN (trainingSet kc t d) v); auto; [now constructor|]. right. apply same_layers_refl.
Qed.

Lemma reach_sim d1 d2 d3 cs s : reachable junk d1 d2 d3 cs s ->
  exists t v, reachable junk d1 d2 d3 (unlimited cs) t /\ s = rl junk (lims cs) v t /\ length v = P kc t.
Proof.
  intros HR. induction HR as [cs s E HO|cs s s' HR IH C|cs s w s' HR IH E].
  - rewrite rl_build in E. destruct (build junk d1 d2 d3 (unlimited cs)) as [t| | | |] eqn:Et; try discriminate E. cbn [bind] in E.
    assert (s = rl junk (lims cs) (parameterVector kc t) t) by (unfold lims; congruence). subst s.
    assert (Rt : reachable junk d1 d2 d3 (unlimited cs) t) by (constructor; auto).
    exists t, (parameterVector kc t). split; auto. split; auto. apply (u_vector _ _ _ _ _ _ (reachable_usable junk d1 d2 d3 _ t (unlimited_ok cs) Rt)).
  - destruct IH as (t & v & Rt & -> & Lv). pose proof (reachable_usable junk d1 d2 d3 _ t (unlimited_ok cs) Rt) as U.
    destruct (calls_sim _ _ _ _ t (lims cs) v s' U Lv C) as (t' & v' & C' & Es & L & _). exists t', v'. split; auto. eapply reach_call; eauto.
  - destruct IH as (t & v & Rt & -> & Lv). pose proof (reachable_usable junk d1 d2 d3 _ t (unlimited_ok cs) Rt) as U.
    rewrite rl_initialize in E by (auto; apply U). destruct (net_initialize junk w t) as [t'| | | |] eqn:Et; try discriminate E. cbn [bind] in E.
    assert (s' = rl junk (lims cs) (parameterVector kc t') t') by congruence. subst s'.
    assert (Rt' : reachable junk d1 d2 d3 (unlimited (redraw w 1 cs)) t') by (rewrite unlimited_redraw; eapply reach_initialize; eauto).
    exists t', (parameterVector kc t'). split; auto. split; [unfold lims; now rewrite limits_redraw|].
    apply (u_vector _ _ _ _ _ _ (reachable_usable junk d1 d2 d3 _ t' (unlimited_ok _) Rt')).
Qed.

Lemma limitLs_all d1 d2 d3 cs t p : usable junk d1 d2 d3 (unlimited cs) t ->
  limitLs (lims cs) (layers kc t) p = limitParameters [d1; d2; d3] (mkReg 0 0 0) cs p.
Proof.
  intros U. pose proof (u_kinds _ _ _ _ _ _ U) as K. destruct (layers kc t) as [|l ls]; [discriminate K|]. cbn [map] in K. injection K as K1 K2.
  unfold lims. cbn [limitLs hd tl]. rewrite K1. cbn [nK limitK firstn skipn app]. apply limitLs_commands. exact K2.
Qed.
End Net.
