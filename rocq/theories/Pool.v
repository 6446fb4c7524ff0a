(** Loops over regions, shared by the proofs about subsampling and max-pooling. *)
From Verif Require Import Base BaseFacts Matrix RSum MatOps Acc Activation_Model Layer_Model Layer_Layout
  FC_Model Pool_Model.
Local Open Scope R_scope.

(** * Strided loops *)
Lemma strided_from_for {A} max k (body : nat -> nat -> A -> res A) n : forall fuel o s,
  (n < fuel)%nat -> (max <= (o + n) * k)%nat -> (n = 0 \/ (o + n - 1) * k < max)%nat ->
  strided_from fuel (o * k) o max k body s = for_from o n (fun o => body (o * k)%nat o) s.
Proof.
  induction n as [|n IH]; intros fuel o s Hf H1 H2; (destruct fuel as [|fuel]; [lia|]); cbn [strided_from for_from].
  - destruct (Nat.ltb_spec (o * k) max) as [H|H]; auto. rewrite Nat.add_0_r in H1. lia.
  - destruct (Nat.ltb_spec (o * k) max) as [H|H].
    + destruct (body (o * k)%nat o s) as [s1| | | |]; cbn [bind]; auto.
      replace (o * k + k)%nat with ((S o) * k)%nat by lia. replace (o + 1)%nat with (S o) by lia.
      apply IH; [lia|replace (S o + n)%nat with (o + S n)%nat by lia; auto|].
      right. destruct n as [|n]; [|].
      * replace (S o + 0 - 1)%nat with o by lia. auto.
      * destruct H2 as [|H2]; [lia|]. replace (S o + S n - 1)%nat with (o + S (S n) - 1)%nat by lia. auto.
    + exfalso. destruct H2 as [|H2]; [lia|].
      assert (o * k <= (o + S n - 1) * k)%nat by (apply Nat.mul_le_mono_r; lia). lia.
Qed.

Lemma strided_for {A} R k (body : nat -> nat -> A -> res A) s : (0 < k)%nat -> (k <= R)%nat ->
  strided (R + 1 - k) k body s = for_ (R / k) (fun o => body (o * k)%nat o) s.
Proof.
  intros Hk HR. unfold strided, for_.
  pose proof (Nat.div_mod R k ltac:(lia)) as E. pose proof (Nat.mod_upper_bound R k ltac:(lia)) as Hm.
  assert (Hd : (0 < R / k)%nat) by (apply Nat.div_str_pos; lia).
  assert (Hle : ((R / k) * k <= R)%nat) by lia.
  assert (R / k <= R + 1 - k)%nat by nia.
  apply (strided_from_for (R + 1 - k) k body (R / k) (S (R + 1 - k)) 0 s); lia.
Qed.

(** what initialize establishes *)
Definition pgeom_ok (g : pgeom) : Prop :=
  (0 < pkernelRows g)%nat /\ (0 < pkernelCols g)%nat /\
  (pkernelRows g <= pinRows g)%nat /\ (pkernelCols g <= pinCols g)%nat /\
  pfmInSize g = (pinRows g * pinCols g)%nat /\
  poutRows g = (pinRows g / pkernelRows g)%nat /\ poutCols g = (pinCols g / pkernelCols g)%nat /\
  pfmOutSize g = (poutRows g * poutCols g)%nat /\
  pmaxRow g = (pinRows g + 1 - pkernelRows g)%nat /\ pmaxCol g = (pinCols g + 1 - pkernelCols g)%nat.

Definition pgeom_of (fm R C kr kc : nat) : pgeom :=
  mkPgeom fm R C kr kc (R * C) (R / kr) (C / kc) (R / kr * (C / kc)) (R + 1 - kr) (C + 1 - kc).

Lemma pgeom_new_iff fm R C kr kc :
  (exists g, pgeom_new fm R C kr kc = Ok g) <->
  (0 < fm /\ 0 < kr <= R /\ 0 < kc <= C)%nat.
Proof.
  unfold pgeom_new. split.
  - intros (g & E). destruct (Nat.eqb_spec kr 0); [discriminate E|]. destruct (Nat.eqb_spec kc 0); [discriminate E|].
    cbn [orb] in E. destruct (Nat.ltb_spec (fm * (R / kr) * (C / kc)) 1) as [|H]; [discriminate E|].
    assert (Hf : (0 < fm)%nat) by (destruct fm; simpl in H; lia).
    assert (H1 : (R / kr <> 0)%nat) by (intros Z; rewrite Z in H; lia).
    assert (H2 : (C / kc <> 0)%nat) by (intros Z; rewrite Z in H; lia).
    assert (kr <= R)%nat. { apply Nat.nlt_ge. intros Z. apply H1. now apply Nat.div_small. }
    assert (kc <= C)%nat. { apply Nat.nlt_ge. intros Z. apply H2. now apply Nat.div_small. }
    lia.
  - intros (Hf & (H1 & H2) & (H3 & H4)).
    destruct (Nat.eqb_spec kr 0); [lia|]. destruct (Nat.eqb_spec kc 0); [lia|]. cbn [orb].
    assert (P1 : (0 < R / kr)%nat) by (apply Nat.div_str_pos; lia).
    assert (P2 : (0 < C / kc)%nat) by (apply Nat.div_str_pos; lia).
    assert (P3 : (0 < fm * (R / kr))%nat) by (apply Nat.mul_pos_pos; lia).
    assert (P4 : (0 < fm * (R / kr) * (C / kc))%nat) by (apply Nat.mul_pos_pos; lia).
    assert (P5 : (0 < R * C)%nat) by (apply Nat.mul_pos_pos; lia).
    assert (P6 : (0 < R / kr * (C / kc))%nat) by (apply Nat.mul_pos_pos; lia).
    rewrite (proj2 (Nat.ltb_ge _ 1)) by lia.
    rewrite (proj2 (Nat.ltb_lt 0 (R * C)) P5), (proj2 (Nat.ltb_lt 0 (R / kr)) P1), (proj2 (Nat.ltb_lt 0 (C / kc)) P2),
      (proj2 (Nat.ltb_lt 0 (R / kr * (C / kc))) P6). cbn [check bind].
    rewrite (proj2 (Nat.ltb_lt 0 (R + 1 - kr))), (proj2 (Nat.ltb_lt 0 (C + 1 - kc))) by lia.
    cbn [check bind]. eauto.
Qed.

Lemma pgeom_new_ok fm R C kr kc g : pgeom_new fm R C kr kc = Ok g ->
  g = pgeom_of fm R C kr kc /\ pgeom_ok g /\ (0 < fm)%nat.
Proof.
  intros E. destruct (proj1 (pgeom_new_iff fm R C kr kc)) as (Hf & (H1 & H2) & (H3 & H4)); [eauto|].
  assert (E' : g = pgeom_of fm R C kr kc).
  { unfold pgeom_new in E. destruct (_ || _)%bool; [discriminate E|]. destruct (Nat.ltb _ 1); [discriminate E|].
    repeat (destruct (Nat.ltb 0 _); [|discriminate E]; cbn [check bind] in E).
    assert (E2 : forall a b : pgeom, Ok a = Ok b -> b = a) by congruence. apply E2 in E. exact E. }
  split; auto. split; auto. subst g. unfold pgeom_ok. simpl pkernelRows. simpl pkernelCols. simpl pinRows. simpl pinCols.
  repeat (split; [lia || reflexivity|]). reflexivity.
Qed.

Section PL.
Context (g : pgeom) (Hg : pgeom_ok g).
Notation KR := (pkernelRows g).
Notation KC := (pkernelCols g).
Notation OR := (poutRows g).
Notation OC := (poutCols g).
Notation FI := (pfmInSize g).
Notation FO := (pfmOutSize g).
Notation FM := (pfm g).
(** numbers of inputs and outputs *)
Definition pI : nat := FM * FI.
Definition pO : nat := FM * FO.
(** the first input of a region, and the output that belongs to it *)
Definition pbase (o ro co : nat) : nat := o * FI + ro * KR * pinCols g + co * KC.
Definition pout (o ro co : nat) : nat := o * FO + ro * OC + co.

Lemma psizes : (FM * pinRows g * pinCols g)%nat = pI /\ (FM * OR * OC)%nat = pO.
Proof. destruct Hg as (_ & _ & _ & _ & G1 & _ & _ & G4 & _). unfold pI, pO. rewrite G1, G4. lia. Qed.

Lemma rows_fit ro : (ro < OR)%nat -> (ro * KR + KR <= pinRows g)%nat.
Proof.
  intros H. destruct Hg as (H1 & _ & _ & _ & _ & G2 & _). rewrite G2 in H.
  pose proof (Nat.mul_div_le (pinRows g) KR ltac:(lia)). nia.
Qed.
Lemma cols_fit co : (co < OC)%nat -> (co * KC + KC <= pinCols g)%nat.
Proof.
  intros H. destruct Hg as (_ & H1 & _ & _ & _ & _ & G3 & _). rewrite G3 in H.
  pose proof (Nat.mul_div_le (pinCols g) KC ltac:(lia)). nia.
Qed.

Lemma pbase_range o ro co : (o < FM)%nat -> (ro < OR)%nat -> (co < OC)%nat -> (pbase o ro co + KC <= pI)%nat.
Proof.
  intros Ho Hr Hc. pose proof (rows_fit ro Hr) as H1. pose proof (cols_fit co Hc) as H2.
  destruct Hg as (K1 & _ & _ & _ & G1 & _). unfold pbase, pI. rewrite G1.
  assert (A1 : ((ro * KR + 1) * pinCols g <= pinRows g * pinCols g)%nat) by (apply Nat.mul_le_mono_r; lia).
  assert (A2 : ((o + 1) * (pinRows g * pinCols g) <= FM * (pinRows g * pinCols g))%nat) by (apply Nat.mul_le_mono_r; lia).
  lia.
Qed.

Lemma pbase_inj o ro co k o' ro' co' k' : (ro < OR)%nat -> (co < OC)%nat -> (k < KC)%nat ->
  (ro' < OR)%nat -> (co' < OC)%nat -> (k' < KC)%nat ->
  (pbase o ro co + k = pbase o' ro' co' + k')%nat -> o = o' /\ ro = ro' /\ co = co' /\ k = k'.
Proof.
  intros Hr Hc Hk Hr' Hc' Hk' E. pose proof Hg as (K1 & K2 & _ & _ & G1 & _).
  pose proof (rows_fit ro Hr). pose proof (rows_fit ro' Hr').
  pose proof (cols_fit co Hc). pose proof (cols_fit co' Hc'). unfold pbase in E. rewrite G1 in E.
  assert (J1 : (ro * KR * pinCols g + (co * KC + k) < pinRows g * pinCols g)%nat) by (apply join_index; lia).
  assert (J2 : (ro' * KR * pinCols g + (co' * KC + k') < pinRows g * pinCols g)%nat) by (apply join_index; lia).
  destruct (split_index_inj (pinRows g * pinCols g) o (ro * KR * pinCols g + (co * KC + k)) o' (ro' * KR * pinCols g + (co' * KC + k')))
    as (-> & E1); try lia.
  destruct (split_index_inj (pinCols g) (ro * KR) (co * KC + k) (ro' * KR) (co' * KC + k')) as (E2 & E3); try lia.
  destruct (split_index_inj KC co k co' k') as (-> & ->); try lia.
  assert (ro = ro') by nia. auto.
Qed.

Lemma pout_range o ro co : (o < FM)%nat -> (ro < OR)%nat -> (co < OC)%nat -> (pout o ro co < pO)%nat.
Proof.
  intros Ho Hr Hc. destruct Hg as (_ & _ & _ & _ & _ & _ & _ & G4 & _). unfold pout, pO. rewrite G4.
  pose proof (join_index OC ro co OR Hr Hc). pose proof (join_index (OR * OC) o (ro * OC + co) FM Ho H). lia.
Qed.

Lemma pout_split j : (j < pO)%nat ->
  exists o ro co, (o < FM)%nat /\ (ro < OR)%nat /\ (co < OC)%nat /\ j = pout o ro co.
Proof.
  intros Hj. destruct Hg as (_ & _ & _ & _ & _ & _ & _ & G4 & _). unfold pO in Hj.
  destruct (split_index FO j FM Hj) as (o & k & Ho & Hk & ->). rewrite G4 in Hk.
  destruct (split_index OC k OR Hk) as (ro & co & Hr & Hc & ->). exists o, ro, co. unfold pout. repeat (split; auto). lia.
Qed.

Lemma pout_inj o ro co o' ro' co' : (ro < OR)%nat -> (co < OC)%nat -> (ro' < OR)%nat -> (co' < OC)%nat ->
  pout o ro co = pout o' ro' co' -> o = o' /\ ro = ro' /\ co = co'.
Proof.
  intros Hr Hc Hr' Hc' E. destruct Hg as (_ & _ & _ & _ & _ & _ & _ & G4 & _). unfold pout in E.
  pose proof (join_index OC ro co OR Hr Hc). pose proof (join_index OC ro' co' OR Hr' Hc').
  destruct (split_index_inj FO o (ro * OC + co) o' (ro' * OC + co')) as (-> & E'); try lia.
  destruct (split_index_inj OC ro co ro' co'); auto.
Qed.

Lemma rsum_pout (f : nat -> R) : rsum pO f =
  rsum FM (fun o => rsum OR (fun ro => rsum OC (fun co => f (pout o ro co)))).
Proof.
  destruct Hg as (_ & _ & _ & _ & _ & _ & _ & G4 & _). unfold pO, pout. rewrite rsum_block. apply rsum_ext. intros o Ho.
  rewrite G4, rsum_block. apply rsum_ext. intros ro Hr. apply rsum_ext. intros co Hc. f_equal. lia.
Qed.

(** decoding of an output index *)
Definition po (j : nat) : nat := j / FO.
Definition pro (j : nat) : nat := (j mod FO) / OC.
Definition pco (j : nat) : nat := (j mod FO) mod OC.
Lemma decode o ro co : (ro < OR)%nat -> (co < OC)%nat ->
  po (pout o ro co) = o /\ pro (pout o ro co) = ro /\ pco (pout o ro co) = co.
Proof.
  intros Hr Hc. destruct Hg as (_ & _ & _ & _ & _ & _ & _ & G4 & _).
  pose proof (join_index OC ro co OR Hr Hc) as Hj. rewrite <- G4 in Hj.
  assert (E1 : po (pout o ro co) = o).
  { unfold po, pout. replace (o * FO + ro * OC + co)%nat with (o * FO + (ro * OC + co))%nat by lia.
    rewrite Nat.div_add_l by lia. rewrite Nat.div_small by lia. lia. }
  assert (E2 : (pout o ro co mod FO = ro * OC + co)%nat).
  { unfold pout. replace (o * FO + ro * OC + co)%nat with ((ro * OC + co) + o * FO)%nat by lia.
    rewrite Nat.mod_add by lia. apply Nat.mod_small. lia. }
  split; auto. unfold pro, pco. rewrite E2. split.
  - rewrite Nat.div_add_l by lia. rewrite Nat.div_small by lia. lia.
  - rewrite Nat.add_comm, Nat.mod_add by lia. apply Nat.mod_small. lia.
Qed.

(** * The loops *)
Section Loops.
Context {A : Type}.

Lemma pool_for (body : nat -> nat -> nat -> nat -> nat -> A -> res A) a :
  pool g body a =
  (' (a, _) <- for_ FM (fun fmo => for_ OR (fun ro => for_ OC (fun co st =>
      let '(a, outputIdx) := st in
      a <- body fmo ro co (pbase fmo ro co) outputIdx a ;; Ok (a, S outputIdx)))) (a, 0%nat) ;;
   Ok a).
Proof.
  destruct Hg as (K1 & K2 & K3 & K4 & G1 & G2 & G3 & G4 & G5 & G6). unfold pool. f_equal. unfold for_ at 1 4.
  apply for_from_ext. intros o st _. rewrite G5, strided_for by auto. rewrite <- G2. unfold for_.
  apply for_from_ext. intros ro st2 _. rewrite G6, strided_for by auto. rewrite <- G3. unfold for_.
  apply for_from_ext. intros co [a1 oi] _. reflexivity.
Qed.

(** each region adds its part *)
Lemma adds_pool (ok : A -> Prop) (L : A -> R) body d :
  (forall o ro co, (o < FM)%nat -> (ro < OR)%nat -> (co < OC)%nat ->
     adds ok L (body o ro co (pbase o ro co) (pout o ro co)) (d o ro co)) ->
  adds ok L (pool g body) (rsum FM (fun o => rsum OR (fun ro => rsum OC (fun co => d o ro co)))).
Proof.
  intros H a Ha. rewrite pool_for. revert a Ha. destruct Hg as (_ & _ & _ & _ & _ & _ & _ & G4 & _).
  apply (adds2_adds ok L _ 0%nat (FM * FO)%nat).
  apply (adds2_for ok L FM _ (fun o => o * FO)%nat); try lia. intros o Ho.
  apply (adds2_for ok L OR _ (fun ro => o * FO + ro * OC)%nat); try lia. intros ro Hr.
  apply (adds2_for ok L OC _ (fun co => o * FO + ro * OC + co)%nat); try (simpl; lia). intros co Hc.
  intros a Ha. destruct (H o ro co Ho Hr Hc a Ha) as (a' & E & O & V). unfold pout in E. exists a'. rewrite E. cbn [bind].
  split; [|auto]. f_equal. f_equal. lia.
Qed.

(** an invariant that is indexed by the number of regions that have been handled *)
Lemma pool_inv (P : nat -> A -> Prop) body a :
  P 0%nat a ->
  (forall o ro co a, (o < FM)%nat -> (ro < OR)%nat -> (co < OC)%nat -> P (pout o ro co) a ->
     exists a', body o ro co (pbase o ro co) (pout o ro co) a = Ok a' /\ P (S (pout o ro co)) a') ->
  exists a', pool g body a = Ok a' /\ P pO a'.
Proof.
  intros H0 H. rewrite pool_for. pose proof Hg as (_ & _ & _ & _ & _ & _ & _ & G4 & _).
  match goal with |- context [for_ FM ?b (a, 0%nat)] =>
    destruct (for_inv (fun o (st : A * nat) => snd st = (o * FO)%nat /\ P (o * FO)%nat (fst st)) b FM (a, 0%nat))
      as ([a' i'] & E & Ei & Pa) end.
  - split; auto.
  - intros o [a1 i1] Ho (E1 & P1). simpl in E1, P1. subst i1.
    match goal with |- context [for_ OR ?b _] =>
      destruct (for_inv (fun ro (st : A * nat) => snd st = (o * FO + ro * OC)%nat /\ P (o * FO + ro * OC)%nat (fst st)) b OR (a1, (o * FO)%nat))
        as ([a2 i2] & E2 & Ei2 & P2) end.
    + simpl. rewrite Nat.add_0_r. auto.
    + intros ro [a2 i2] Hr (E2 & P2). simpl in E2, P2. subst i2.
      match goal with |- context [for_ OC ?b _] =>
        destruct (for_inv (fun co (st : A * nat) => snd st = (o * FO + ro * OC + co)%nat /\ P (o * FO + ro * OC + co)%nat (fst st)) b OC
           (a2, (o * FO + ro * OC)%nat)) as ([a3 i3] & E3 & Ei3 & P3) end.
      * simpl. rewrite Nat.add_0_r. auto.
      * intros co [a3 i3] Hc (E3 & P3). simpl in E3, P3. subst i3.
        destruct (H o ro co a3 Ho Hr Hc P3) as (a4 & E4 & P4). unfold pout in E4, P4. rewrite E4. cbn [bind].
        eexists. split; [reflexivity|]. simpl fst. simpl snd.
        replace (o * FO + ro * OC + S co)%nat with (S (o * FO + ro * OC + co)) by lia. auto.
      * simpl in Ei3, P3. rewrite E3. eexists. split; [reflexivity|]. simpl fst. simpl snd.
        replace (o * FO + S ro * OC)%nat with (o * FO + ro * OC + OC)%nat by lia. auto.
    + simpl in Ei2, P2. rewrite E2. eexists. split; [reflexivity|]. simpl fst. simpl snd.
      replace (S o * FO)%nat with (o * FO + OR * OC)%nat by lia. auto.
  - simpl in Ei, Pa. rewrite E. cbn [bind]. eauto.
Qed.

Lemma adds_region (ok : A -> Prop) (L : A -> R) base body d :
  (forall k, (k < KC)%nat -> adds ok L (body (base + k)%nat) (d k)) ->
  adds ok L (region g base body) (INR KR * rsum KC d).
Proof.
  intros H. rewrite <- rsum_const. unfold region. apply adds_for. intros kr Hk.
  apply (adds2_adds ok L _ base (base + KC)%nat).
  apply (adds2_for ok L KC _ (fun kc => base + kc)%nat); try lia. intros kc Hc a Ha.
  destruct (H kc Hc a Ha) as (a' & E & O & V). exists a'. rewrite E. cbn [bind].
  split; [|auto]. f_equal. f_equal. lia.
Qed.

(** an invariant that holds after each complete row, and one within a row *)
Lemma region_inv (P : nat -> A -> Prop) base body a :
  (0 < KC)%nat -> P 0%nat a ->
  (forall k a, (k < KC)%nat -> P k a -> exists a', body (base + k)%nat a = Ok a' /\ P (S k) a') ->
  (forall k a, (k < KC)%nat -> P KC a -> exists a', body (base + k)%nat a = Ok a' /\ P KC a') ->
  exists a', region g base body a = Ok a' /\ P KC a'.
Proof.
  intros Hc H0 H1 H2. unfold region.
  assert (Row : forall (Q : nat -> A -> Prop) a, Q 0%nat a ->
    (forall k a, (k < KC)%nat -> Q k a -> exists a', body (base + k)%nat a = Ok a' /\ Q (S k) a') ->
    exists a', (' (a, _) <- for_ KC (fun kc st =>
        let '(a, inputIdx) := st in
        a <- body inputIdx a ;; Ok (a, S inputIdx)) (a, base) ;; Ok a) = Ok a' /\ Q KC a').
  { intros Q a0 Q0 Qs.
    match goal with |- context [for_ KC ?b _] =>
      destruct (for_inv (fun k (st : A * nat) => snd st = (base + k)%nat /\ Q k (fst st)) b KC (a0, base)) as ([a1 i1] & E & Ei & Qa) end.
    - simpl. rewrite Nat.add_0_r. auto.
    - intros k [a1 i1] Hk (E1 & Q1). simpl in E1, Q1. subst i1. destruct (Qs k a1 Hk Q1) as (a2 & E2 & Q2). rewrite E2.
      cbn [bind]. eexists. split; [reflexivity|]. simpl fst. simpl snd. split; auto; lia.
    - rewrite E. cbn [bind]. eauto. }
  destruct Hg as (K1 & _).
  destruct (for_inv (fun kr (a : A) => if Nat.eqb kr 0 then P 0%nat a else P KC a)
    (fun kr a => ' (a, _) <- for_ KC (fun kc st =>
        let '(a, inputIdx) := st in
        a <- body inputIdx a ;; Ok (a, S inputIdx)) (a, base) ;; Ok a) KR a) as (a' & E & Pa).
  - simpl. auto.
  - intros kr a1 Hk Pa. simpl Nat.eqb. destruct kr as [|kr]; simpl in Pa |- *.
    + apply (Row P); auto.
    + apply (Row (fun _ => P KC)); auto.
  - exists a'. split; auto. destruct (Nat.eqb_spec KR 0); [lia|]. auto.
Qed.
End Loops.
End PL.

(** * std::vector<Eigen::MatrixXd> *)
Definition vat (V : list mat) (o : nat) : mat := nth o V no_mat.
Definition vsize (V : list mat) (O r c : nat) : Prop :=
  length V = O /\ forall o, (o < O)%nat -> size_is (vat V o) r c.

Lemma vsize_get V O r c o : vsize V O r c -> (o < O)%nat -> vget V o = Ok (vat V o) /\ size_is (vat V o) r c.
Proof. intros (H1 & H2) Ho. split; [|auto]. apply vget_nth. lia. Qed.
Lemma vsize_set V O r c o m : vsize V O r c -> (o < O)%nat -> size_is m r c ->
  exists V', vset V o m = Ok V' /\ vsize V' O r c /\ vat V' o = m /\ forall o', o' <> o -> vat V' o' = vat V o'.
Proof.
  intros (H1 & H2) Ho Hm. rewrite vset_Ok by lia. eexists. split; [reflexivity|].
  assert (V' : forall o', vat (upd V o m) o' = if Nat.eqb o o' then m else vat V o') by (intros; apply nth_updA; lia).
  split; [split|split].
  - rewrite upd_length. auto.
  - intros o' Ho'. rewrite V'. destruct (Nat.eqb o o'); auto.
  - rewrite V', Nat.eqb_refl. auto.
  - intros o' Hn. rewrite V'. destruct (Nat.eqb_spec o o'); [congruence|auto].
Qed.
Lemma vsize_map O (f : nat -> mat) r c : (forall o, size_is (f o) r c) -> vsize (map f (seq 0 O)) O r c.
Proof.
  intros H. split; [now rewrite map_length, seq_length|]. intros o Ho. unfold vat.
  rewrite nth_map_seq by auto. auto.
Qed.

Lemma wget_Ok V O r c o i j : vsize V O r c -> (o < O)%nat -> (i < r)%nat -> (j < c)%nat ->
  wget V o i j = Ok (at_ (vat V o) i j).
Proof.
  intros H Ho Hi Hj. destruct (vsize_get V O r c o H Ho) as (E & (S1 & S2)). unfold wget. rewrite E. cbn [bind].
  apply mget_Ok; lia.
Qed.
Lemma wset_Ok V O r c o i j v : vsize V O r c -> (o < O)%nat -> (i < r)%nat -> (j < c)%nat ->
  exists V', wset V o i j v = Ok V' /\ vsize V' O r c /\
    at_ (vat V' o) i j = v /\
    forall o' i' j', (o' <> o \/ i' <> i \/ j' <> j) -> at_ (vat V' o') i' j' = at_ (vat V o') i' j'.
Proof.
  intros H Ho Hi Hj. destruct (vsize_get V O r c o H Ho) as (E & (S1 & S2)). unfold wset. rewrite E. cbn [bind].
  rewrite mset_Ok by lia. cbn [bind].
  destruct (vsize_set V O r c o (mupd (vat V o) i j v) H Ho) as (V' & E' & Sz & T1 & T2); [split; auto|].
  exists V'. split; auto. split; auto. split.
  - rewrite T1. apply at_mupd_same.
  - intros o' i' j' Hn. destruct (Nat.eq_dec o' o) as [->|]; [|now rewrite T2].
    rewrite T1. apply at_mupd_other. lia.
Qed.

Lemma for_vec V O r c (body : nat -> list mat -> res (list mat)) (new : nat -> mat -> mat) :
  vsize V O r c ->
  (forall o V1, (o < O)%nat -> vsize V1 O r c ->
     body o V1 = vset V1 o (new o (vat V1 o)) /\ size_is (new o (vat V1 o)) r c) ->
  exists V', for_ O body V = Ok V' /\ vsize V' O r c /\
    forall o, (o < O)%nat -> vat V' o = new o (vat V o).
Proof.
  intros HV Hb.
  destruct (for_inv (fun k (V1 : list mat) => vsize V1 O r c /\
     (forall o, (o < k)%nat -> vat V1 o = new o (vat V o)) /\
     (forall o, (k <= o)%nat -> vat V1 o = vat V o)) body O V) as (V' & E & S' & V1 & _).
  - split; auto. split; auto. intros; lia.
  - intros o V1 Ho (S1 & F1 & F2). destruct (Hb o V1 Ho S1) as (Eb & Sb).
    destruct (vsize_set V1 O r c o _ S1 Ho Sb) as (V2 & E2 & S2 & T1 & T2). exists V2. rewrite Eb, E2. split; auto.
    split; auto. split.
    + intros o' Ho'. destruct (Nat.eq_dec o' o) as [->|]; [rewrite T1, F2 by lia; auto|]. rewrite T2 by auto. apply F1. lia.
    + intros o' Ho'. rewrite T2 by lia. apply F2. lia.
  - exists V'. auto.
Qed.
