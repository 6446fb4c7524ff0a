(** Proofs about the subsampling layer. *)
From Verif Require Import Base BaseFacts Matrix RSum MatOps Vec Deriv Acc Activation_Model
  Activation_Proofs Layer_Model Layer_Spec Layer_Proofs Layer_Layout FC_Model Reg_Proofs
  Compressed_Proofs Pool_Model Pool.
Local Open Scope R_scope.

Definition subs_inv (g : pgeom) (bias : bool) (act : ActivationFunction) (reg : Regularization) (s : subs) : Prop :=
  sg s = g /\ sbias s = bias /\ sact s = act /\ sreg s = reg /\
  vsize (sW s) (pfm g) (poutRows g) (poutCols g) /\
  vsize (sWd s) (pfm g) (poutRows g) (poutCols g) /\
  (bias = true -> vsize (sWb s) (pfm g) (poutRows g) (poutCols g) /\ vsize (sWbd s) (pfm g) (poutRows g) (poutCols g)) /\
  cols (sa s) = pO g /\ cols (sy s) = pO g /\ cols (syd s) = pO g /\ cols (se s) = pI g.

Section SP.
Context (junk : nat -> nat -> R) (g : pgeom) (Hg : pgeom_ok g) (bias : bool) (act : ActivationFunction)
  (reg : Regularization).
Notation inv := (subs_inv g bias act reg).
Notation c := (subs_class junk).
Notation KR := (pkernelRows g).
Notation KC := (pkernelCols g).
Notation OR := (poutRows g).
Notation OC := (poutCols g).
Notation FO := (pfmOutSize g).
Notation FM := (pfm g).
Definition sB : nat := 1 + if bias then 1 else 0.
Notation B := sB.
Notation K := (pO g * B)%nat.

(** * Pointers *)
Section Locs.
Context (cw cb : nat -> nat -> nat -> sloc).
Definition sblock (o r k : nat) : list sloc := cw o r k :: (if bias then [cb o r k] else []).
Definition slocs : list sloc :=
  flat_map (fun o => flat_map (fun r => flat_map (fun k => sblock o r k) (seq 0 OC)) (seq 0 OR)) (seq 0 FM).

Lemma sblock_length o r k : length (sblock o r k) = B.
Proof. unfold sblock, sB. destruct bias; auto. Qed.
Lemma srow_length o r : length (flat_map (fun k => sblock o r k) (seq 0 OC)) = (OC * B)%nat.
Proof. apply flat_map_length_const. intros. apply sblock_length. Qed.
Lemma smap_length o : length (flat_map (fun r => flat_map (fun k => sblock o r k) (seq 0 OC)) (seq 0 OR)) = (OR * (OC * B))%nat.
Proof. apply flat_map_length_const. intros. apply srow_length. Qed.
Lemma slocs_length : length slocs = K.
Proof.
  unfold slocs. rewrite (flat_map_length_const _ (OR * (OC * B))) by (intros; apply smap_length).
  destruct Hg as (_ & _ & _ & _ & _ & _ & _ & G4 & _). unfold pO. rewrite G4. lia.
Qed.

Lemma slocs_nth o r k l : (o < FM)%nat -> (r < OR)%nat -> (k < OC)%nat -> (l < B)%nat ->
  nth_error slocs (pout g o r k * B + l) = nth_error (sblock o r k) l.
Proof.
  intros Ho Hr Hk Hl. destruct Hg as (_ & _ & _ & _ & _ & _ & _ & G4 & _).
  replace (pout g o r k * B + l)%nat with (o * (OR * (OC * B)) + (r * (OC * B) + (k * B + l)))%nat
    by (unfold pout; rewrite G4; lia).
  pose proof (join_index B k l OC Hk Hl) as J1. pose proof (join_index (OC * B) r (k * B + l) OR Hr J1) as J2.
  unfold slocs. rewrite (nth_error_blocks _ (OR * (OC * B)) FM 0); auto; [|intros; apply smap_length].
  rewrite (nth_error_blocks _ (OC * B) OR 0); auto; [|intros; apply srow_length].
  rewrite (nth_error_blocks _ B OC 0); auto. intros. apply sblock_length.
Qed.
Lemma slocs_w o r k : (o < FM)%nat -> (r < OR)%nat -> (k < OC)%nat ->
  nth_error slocs (pout g o r k * B) = Some (cw o r k).
Proof.
  intros. rewrite <- (Nat.add_0_r (pout g o r k * B)). rewrite slocs_nth; auto. unfold sB. lia.
Qed.
Lemma slocs_b o r k : bias = true -> (o < FM)%nat -> (r < OR)%nat -> (k < OC)%nat ->
  nth_error slocs (pout g o r k * B + 1) = Some (cb o r k).
Proof.
  intros Hb Ho Hr Hk. rewrite slocs_nth by (auto; unfold sB; rewrite Hb; lia). unfold sblock. rewrite Hb. auto.
Qed.
End Locs.

Lemma sindex i : (i < K)%nat -> exists o r k, (o < FM)%nat /\ (r < OR)%nat /\ (k < OC)%nat /\
  (i = (pout g o r k * B)%nat \/ (bias = true /\ i = (pout g o r k * B + 1)%nat)).
Proof.
  intros Hi. destruct (split_index B i (pO g) Hi) as (j & l & Hj & Hl & ->).
  destruct (pout_split g Hg j Hj) as (o & r & k & Ho & Hr & Hk & ->). exists o, r, k. repeat (split; auto).
  unfold sB in Hl |- *. destruct bias; destruct l as [|[|l]]; try lia; auto.
Qed.

Notation locs := (slocs SW SWb).
Notation dlocs := (slocs SWd SWbd).
Definition sidx (l : sloc) : nat :=
  match l with SW o r k => pout g o r k * B | SWb o r k => pout g o r k * B + 1 | _ => 0 end.

Lemma subs_init s : inv s -> subs_initialize s = (locs, dlocs).
Proof. intros (A1 & A2 & _). unfold subs_initialize. rewrite A1, A2. reflexivity. Qed.

Lemma slocs_In l : In l locs -> exists o r k, (o < FM)%nat /\ (r < OR)%nat /\ (k < OC)%nat /\
  (l = SW o r k \/ (bias = true /\ l = SWb o r k)).
Proof.
  intros H. apply In_nth_error in H. destruct H as (i & Hi).
  assert (H : (i < K)%nat) by (rewrite <- (slocs_length SW SWb); apply nth_error_Some; congruence).
  destruct (sindex i H) as (o & r & k & Ho & Hr & Hk & [->|(Hb & ->)]); exists o, r, k; repeat (split; auto).
  - rewrite slocs_w in Hi by auto. injection Hi as <-. auto.
  - rewrite slocs_b in Hi by auto. injection Hi as <-. auto.
Qed.

Lemma sidx_ok i l : nth_error locs i = Some l -> sidx l = i.
Proof.
  intros Hi. assert (H : (i < K)%nat) by (rewrite <- (slocs_length SW SWb); apply nth_error_Some; congruence).
  destruct (sindex i H) as (o & r & k & Ho & Hr & Hk & [->|(Hb & ->)]).
  - rewrite slocs_w in Hi by auto. injection Hi as <-. auto.
  - rewrite slocs_b in Hi by auto. injection Hi as <-. auto.
Qed.

Lemma subs_load_ok s l : inv s -> In l locs -> exists v, subs_load s l = Ok v.
Proof.
  intros H Hl. destruct H as (_ & _ & _ & _ & HW & _ & HB & _).
  destruct (slocs_In l Hl) as (o & r & k & Ho & Hr & Hk & [->|(Hb & ->)]); cbn [subs_load].
  - rewrite (wget_Ok _ FM OR OC) by auto. eauto.
  - rewrite (wget_Ok _ FM OR OC) by (auto; now apply HB). eauto.
Qed.

Lemma subs_store_ok s l v : inv s -> In l locs ->
  exists s', subs_store s l v = Ok s' /\ inv s' /\ subs_load s' l = Ok v /\
  forall l', In l' locs -> l' <> l -> subs_load s' l' = subs_load s l'.
Proof.
  intros H Hl. pose proof H as (A1 & A2 & A3 & A4 & A5 & A6 & A7 & A8).
  destruct (slocs_In l Hl) as (o & r & k & Ho & Hr & Hk & [->|(Hb & ->)]); cbn [subs_store].
  - destruct (wset_Ok (sW s) FM OR OC o r k v A5 Ho Hr Hk) as (V & E & Sz & T1 & T2). rewrite E. cbn [bind].
    eexists. split; [reflexivity|]. split; [|split].
    + unfold subs_inv. simpl. auto 10.
    + cbn [subs_load subs_with sW]. rewrite (wget_Ok _ FM OR OC) by auto. now rewrite T1.
    + intros l' Hl' Hn.
      destruct (slocs_In l' Hl') as (o' & r' & k' & Ho' & Hr' & Hk' & [->|(_ & ->)]); [|reflexivity].
      cbn [subs_load subs_with sW]. rewrite !(wget_Ok _ FM OR OC) by auto. rewrite T2; auto.
      destruct (Nat.eq_dec o' o) as [->|]; auto. destruct (Nat.eq_dec r' r) as [->|]; auto.
      destruct (Nat.eq_dec k' k) as [->|]; auto; congruence.
  - destruct (A7 Hb) as (A7a & A7b).
    destruct (wset_Ok (sWb s) FM OR OC o r k v A7a Ho Hr Hk) as (V & E & Sz & T1 & T2). rewrite E. cbn [bind].
    eexists. split; [reflexivity|]. split; [|split].
    + unfold subs_inv. simpl. auto 10.
    + cbn [subs_load subs_with sWb]. rewrite (wget_Ok _ FM OR OC) by auto. now rewrite T1.
    + intros l' Hl' Hn.
      destruct (slocs_In l' Hl') as (o' & r' & k' & Ho' & Hr' & Hk' & [->|(_ & ->)]); [reflexivity|].
      cbn [subs_load subs_with sWb]. rewrite !(wget_Ok _ FM OR OC) by auto. rewrite T2; auto.
      destruct (Nat.eq_dec o' o) as [->|]; auto. destruct (Nat.eq_dec r' r) as [->|]; auto.
      destruct (Nat.eq_dec k' k) as [->|]; auto; congruence.
Qed.

Lemma subs_layout_init s : inv s ->
  fst (initialize c s) = locs /\ length (snd (initialize c s)) = length locs.
Proof. intros H. cbn [initialize subs_class]. rewrite subs_init by auto. simpl. now rewrite !slocs_length. Qed.

Lemma subs_write s k v : inv s -> (k < K)%nat ->
  exists s', writeParam c s k v = Ok s' /\ inv s' /\
  forall k', (k' < K)%nat -> readParam c s' k' = if Nat.eqb k' k then Ok v else readParam c s k'.
Proof.
  rewrite <- (slocs_length SW SWb). apply (layout_write c inv locs sidx).
  - apply subs_layout_init.
  - apply sidx_ok.
  - apply subs_store_ok.
Qed.

Lemma subs_read_w s o r k : inv s -> (o < FM)%nat -> (r < OR)%nat -> (k < OC)%nat ->
  readParam c s (pout g o r k * B) = Ok (at_ (vat (sW s) o) r k).
Proof.
  intros H Ho Hr Hk. unfold readParam. destruct (subs_layout_init s H) as (E & _). rewrite E.
  unfold vget. rewrite slocs_w by auto. cbn [bind]. destruct H as (_ & _ & _ & _ & HW & _).
  cbn [load subs_class subs_load]. now apply (wget_Ok _ FM OR OC).
Qed.
Lemma subs_read_b s o r k : inv s -> bias = true -> (o < FM)%nat -> (r < OR)%nat -> (k < OC)%nat ->
  readParam c s (pout g o r k * B + 1) = Ok (at_ (vat (sWb s) o) r k).
Proof.
  intros H Hb Ho Hr Hk. unfold readParam. destruct (subs_layout_init s H) as (E & _). rewrite E.
  unfold vget. rewrite slocs_b by auto. cbn [bind]. destruct H as (_ & _ & _ & _ & _ & _ & HB & _).
  cbn [load subs_class subs_load]. apply (wget_Ok _ FM OR OC); auto. now apply HB.
Qed.
Lemma subs_readDeriv_w s o r k : inv s -> (o < FM)%nat -> (r < OR)%nat -> (k < OC)%nat ->
  readDeriv c s (pout g o r k * B) = Ok (at_ (vat (sWd s) o) r k).
Proof.
  intros H Ho Hr Hk. unfold readDeriv. cbn [initialize subs_class]. rewrite subs_init by auto. cbn [snd].
  unfold vget. rewrite slocs_w by auto. cbn [bind]. destruct H as (_ & _ & _ & _ & _ & HW & _).
  cbn [load subs_class subs_load]. now apply (wget_Ok _ FM OR OC).
Qed.
Lemma subs_readDeriv_b s o r k : inv s -> bias = true -> (o < FM)%nat -> (r < OR)%nat -> (k < OC)%nat ->
  readDeriv c s (pout g o r k * B + 1) = Ok (at_ (vat (sWbd s) o) r k).
Proof.
  intros H Hb Ho Hr Hk. unfold readDeriv. cbn [initialize subs_class]. rewrite subs_init by auto. cbn [snd].
  unfold vget. rewrite slocs_b by auto. cbn [bind]. destruct H as (_ & _ & _ & _ & _ & _ & HB & _).
  cbn [load subs_class subs_load]. apply (wget_Ok _ FM OR OC); auto. now apply HB.
Qed.

Lemma w_range o r k : (o < FM)%nat -> (r < OR)%nat -> (k < OC)%nat -> (pout g o r k * B < K)%nat.
Proof.
  intros. pose proof (pout_range g Hg o r k H H0 H1). unfold sB. destruct bias; nia.
Qed.
Lemma b_range o r k : bias = true -> (o < FM)%nat -> (r < OR)%nat -> (k < OC)%nat -> (pout g o r k * B + 1 < K)%nat.
Proof.
  intros Hb ? ? ?. pose proof (pout_range g Hg o r k H H0 H1). unfold sB. rewrite Hb. nia.
Qed.

Lemma subs_install s p : inv s -> length p = K ->
  exists q, install c s p = Ok q /\ inv q /\
    (forall o r k, (o < FM)%nat -> (r < OR)%nat -> (k < OC)%nat -> at_ (vat (sW q) o) r k = p.[pout g o r k * B]) /\
    (bias = true -> forall o r k, (o < FM)%nat -> (r < OR)%nat -> (k < OC)%nat -> at_ (vat (sWb q) o) r k = p.[pout g o r k * B + 1]).
Proof.
  intros H Hp. destruct (writeAll_Ok c K inv s p subs_write H Hp) as (q & E & Hq & R1).
  exists q. split; [unfold install; rewrite E; auto|]. split; auto. split.
  - intros o r k Ho Hr Hk. pose proof (R1 _ (w_range o r k Ho Hr Hk)) as R2. rewrite subs_read_w in R2 by auto.
    now injection R2.
  - intros Hb o r k Ho Hr Hk. pose proof (R1 _ (b_range o r k Hb Ho Hr Hk)) as R2. rewrite subs_read_b in R2 by auto.
    now injection R2.
Qed.

(** * Forward *)
Lemma adds_madd N O r0 c0 n idx v : (n < N)%nat -> (idx < O)%nat ->
  adds (fun a => size_is a N O) (fun a => at_ a r0 c0) (fun a => madd a n idx v)
    (if (Nat.eqb r0 n && Nat.eqb c0 idx)%bool then v else 0).
Proof.
  intros Hn Hi a (S1 & S2). rewrite madd_Ok by lia. eexists. split; [reflexivity|]. split; [split; auto|].
  rewrite at_mupd. destruct (Nat.eqb_spec r0 n), (Nat.eqb_spec c0 idx); subst; simpl; ring.
Qed.

(** the activation of one output *)
Definition spre (w b : nat -> nat -> nat -> R) (x : nat -> R) (o r k : nat) : R :=
  INR KR * rsum KC (fun kc => x (pbase g o r k + kc)%nat * w o r k) + if bias then b o r k else 0.

Lemma subs_activate_adds W Wb x N r0 c0 :
  vsize W FM OR OC -> (bias = true -> vsize Wb FM OR OC) -> size_is x N (pI g) ->
  adds (fun a => size_is a N (pO g)) (fun a => at_ a r0 c0) (subs_activate g bias W Wb x)
    (rsum N (fun n => rsum FM (fun o => rsum OR (fun r => rsum OC (fun k =>
       if (Nat.eqb r0 n && Nat.eqb c0 (pout g o r k))%bool
       then spre (fun o => at_ (vat W o)) (fun o => at_ (vat Wb o)) (at_ x n) o r k else 0))))).
Proof.
  intros HW HB Hx. pose proof Hx as (X1 & X2). unfold subs_activate. rewrite X1.
  apply adds_for. intros n Hn. apply (adds_pool g Hg). intros o r k Ho Hr Hk.
  pose proof (pout_range g Hg o r k Ho Hr Hk) as Hout. pose proof (pbase_range g Hg o r k Ho Hr Hk) as Hin.
  apply (adds_eq _ _ _ (INR KR * rsum KC (fun kc => if (Nat.eqb r0 n && Nat.eqb c0 (pout g o r k))%bool
      then at_ x n (pbase g o r k + kc)%nat * at_ (vat W o) r k else 0) +
    (if bias then (if (Nat.eqb r0 n && Nat.eqb c0 (pout g o r k))%bool then at_ (vat Wb o) r k else 0) else 0))).
  { unfold spre. destruct (Nat.eqb r0 n && Nat.eqb c0 (pout g o r k))%bool; [destruct bias; reflexivity|].
    rewrite rsum_0 by auto. destruct bias; ring. }
  apply adds_seq.
  - apply (adds_region g). intros kc Hc a Ha. rewrite mget_Ok by lia. cbn [bind].
    rewrite (wget_Ok _ FM OR OC) by auto. cbn [bind]. apply (adds_madd N (pO g)); auto.
  - destruct bias; [|apply adds_id]. intros a Ha. rewrite (wget_Ok _ FM OR OC) by (auto; now apply HB). cbn [bind].
    apply (adds_madd N (pO g)); auto.
Qed.

Lemma subs_activate_ok W Wb x N :
  vsize W FM OR OC -> (bias = true -> vsize Wb FM OR OC) -> size_is x N (pI g) ->
  exists a, subs_activate g bias W Wb x (mzero N (pO g)) = Ok a /\ size_is a N (pO g) /\
    forall n o r k, (n < N)%nat -> (o < FM)%nat -> (r < OR)%nat -> (k < OC)%nat ->
      at_ a n (pout g o r k) = spre (fun o => at_ (vat W o)) (fun o => at_ (vat Wb o)) (at_ x n) o r k.
Proof.
  intros HW HB Hx.
  destruct (subs_activate_adds W Wb x N 0 0 HW HB Hx (mzero N (pO g))) as (a & E & Sa & _); [split; auto|].
  exists a. split; auto. split; auto. intros n o r k Hn Ho Hr Hk.
  destruct (subs_activate_adds W Wb x N n (pout g o r k) HW HB Hx (mzero N (pO g))) as (a' & E' & _ & V); [split; auto|].
  assert (a' = a) by congruence. subst a'. rewrite V. simpl at_. rewrite Rplus_0_l.
  assert (Z : forall o' r' k', (r' < OR)%nat -> (k' < OC)%nat -> (o' <> o \/ r' <> r \/ k' <> k) ->
    Nat.eqb (pout g o r k) (pout g o' r' k') = false).
  { intros o' r' k' Hr' Hk' Hne. apply Nat.eqb_neq. intros Eq. destruct (pout_inj g Hg _ _ _ _ _ _ Hr Hk Hr' Hk' Eq). lia. }
  rewrite (rsum_single N n); auto.
  2:{ intros n' Hn' Hne. replace (Nat.eqb n n') with false by (symmetry; apply Nat.eqb_neq; auto).
      apply rsum_0. intros. apply rsum_0. intros. apply rsum_0. auto. }
  rewrite (rsum_single FM o); auto.
  2:{ intros o' Ho' Hne. apply rsum_0. intros. apply rsum_0. intros. rewrite Z, andb_false_r; auto. }
  rewrite (rsum_single OR r); auto.
  2:{ intros r' Hr' Hne. apply rsum_0. intros. rewrite Z, andb_false_r; auto. }
  rewrite (rsum_single OC k); auto.
  2:{ intros k' Hk' Hne. rewrite Z, andb_false_r; auto. }
  now rewrite !Nat.eqb_refl.
Qed.

Definition sregError (W : list mat) : R := rsum FM (fun o => regError reg (vat W o)).

Lemma subs_regError_ok W : vsize W FM OR OC -> subs_regError FM reg W = Ok (sregError W).
Proof.
  intros HW. unfold subs_regError, sregError, regError.
  assert (G : forall (h : mat -> R) e0,
     for_ FM (fun o e => m <- vget W o ;; Ok (e + h m)) e0 = Ok (e0 + rsum FM (fun o => h (vat W o)))).
  { intros h e0.
    destruct (adds_for (fun _ : R => True) (fun e => e) FM (fun o e => m <- vget W o ;; Ok (e + h m))
       (fun o => h (vat W o))) with (s := e0) as (e1 & E1 & _ & V1); auto.
    - intros o Ho e _. destruct (vsize_get _ _ _ _ o HW Ho) as (E & _). rewrite E. cbn [bind]. eauto.
    - rewrite E1, V1. auto. }
  destruct (Rltb 0 (l1Penalty reg)) eqn:E1.
  - rewrite G. cbn [bind]. destruct (Rltb 0 (l2Penalty reg)) eqn:E2.
    + rewrite (G (fun m => l2Penalty reg * msum (mmap (fun w => w * w) m) / 2)).
      f_equal. rewrite Rplus_0_l, <- rsum_plus. apply rsum_ext. intros. ring.
    + f_equal. rewrite Rplus_0_l. apply rsum_ext. intros. ring.
  - cbn [bind]. destruct (Rltb 0 (l2Penalty reg)) eqn:E2.
    + rewrite (G (fun m => l2Penalty reg * msum (mmap (fun w => w * w) m) / 2)).
      f_equal. rewrite Rplus_0_l. apply rsum_ext. intros. ring.
    + f_equal. rewrite rsum_0; auto. intros. ring.
Qed.

Notation pre q X n := (spre (fun o => at_ (vat (sW q) o)) (fun o => at_ (vat (sWb q) o)) (at_ X n)).

Lemma subs_forward_ok q x dropout N : inv q -> size_is x N (pI g) ->
  exists q1 y, subs_forward junk q x dropout = Ok (q1, y, sregError (sW q)) /\ size_is y N (pO g) /\ inv q1 /\
    (forall n o r k, (n < N)%nat -> (o < FM)%nat -> (r < OR)%nat -> (k < OC)%nat ->
      at_ y n (pout g o r k) = act_fun act (pre q x n o r k)) /\
    sW q1 = sW q /\ sWb q1 = sWb q /\ sx q1 = x /\ rows (sa q1) = N /\ sy q1 = y.
Proof.
  intros (A1 & A2 & A3 & A4 & A5 & A6 & A7 & A8 & A9 & A10 & A11) Hx. pose proof Hx as (X1 & X2).
  destruct (psizes g Hg) as (Z1 & Z2).
  unfold subs_forward. rewrite A1, Z1, Z2, X2. cbn [mconsresize cols]. rewrite A2, A3, A4, A8, A9, !Nat.eqb_refl.
  cbn [check bind]. rewrite X1.
  destruct (subs_activate_ok (sW q) (sWb q) x N) as (a & Ea & Sa & Fa); auto; [intros Hb; now apply A7|].
  rewrite Ea. cbn [bind].
  destruct (activationFunction_Ok act a (mconsresize junk (sy q) N (pO g)) N (pO g)) as (y & Ey & Sy & Fy); auto.
  { split; auto. }
  rewrite Ey. cbn [bind]. rewrite subs_regError_ok by auto. cbn [bind].
  eexists. exists y. split; [reflexivity|]. split; auto. split; [|split].
  - unfold subs_inv. simpl. destruct Sa, Sy. auto 15.
  - intros. rewrite Fy, Fa; auto.
  - simpl. destruct Sa. auto 10.
Qed.

(** * Backward *)
Section Back.
Context (N : nat) (X' : nat -> nat -> R) (W' b' : nat -> nat -> nat -> R).

Notation bst := (mat * list mat * list mat)%type.
Definition sbok (st : bst) : Prop :=
  let '(e, Wd, Wbd) := st in
  size_is e N (pI g) /\ vsize Wd FM OR OC /\ (bias = true -> vsize Wbd FM OR OC).
Definition wdot (V : list mat) (V' : nat -> nat -> nat -> R) : R :=
  rsum FM (fun o => rsum OR (fun r => rsum OC (fun k => at_ (vat V o) r k * V' o r k))).
Definition sbL (st : bst) : R :=
  let '(e, Wd, Wbd) := st in
  rsum N (fun n => rsum (pI g) (fun i => at_ e n i * X' n i)) + wdot Wd W' + (if bias then wdot Wbd b' else 0).

Lemma wadd_Ok V V' o r k v : vsize V FM OR OC -> (o < FM)%nat -> (r < OR)%nat -> (k < OC)%nat ->
  exists V2, wadd V o r k v = Ok V2 /\ vsize V2 FM OR OC /\ wdot V2 V' = wdot V V' + v * V' o r k.
Proof.
  intros HV Ho Hr Hk. unfold wadd. rewrite (wget_Ok _ FM OR OC) by auto. cbn [bind].
  destruct (wset_Ok V FM OR OC o r k (at_ (vat V o) r k + v) HV Ho Hr Hk) as (V2 & E & Sz & T1 & T2).
  exists V2. split; auto. split; auto. unfold wdot.
  rewrite (rsum_change FM o _ (fun o => rsum OR (fun r => rsum OC (fun k => at_ (vat V o) r k * V' o r k)))); auto.
  2:{ intros o' Hlt Hne. apply rsum_ext. intros. apply rsum_ext. intros. now rewrite T2 by auto. }
  f_equal.
  rewrite (rsum_change OR r _ (fun r => rsum OC (fun k => at_ (vat V o) r k * V' o r k))); auto.
  2:{ intros r' Hlt Hne. apply rsum_ext. intros. now rewrite T2 by auto. }
  rewrite (rsum_change OC k _ (fun k => at_ (vat V o) r k * V' o r k)); auto.
  2:{ intros k' Hlt Hne. now rewrite T2 by auto. }
  rewrite T1. ring.
Qed.

Lemma madd_inner e n i v : size_is e N (pI g) -> (n < N)%nat -> (i < pI g)%nat ->
  exists e', madd e n i v = Ok e' /\ size_is e' N (pI g) /\
    rsum N (fun n => rsum (pI g) (fun i => at_ e' n i * X' n i)) =
    rsum N (fun n => rsum (pI g) (fun i => at_ e n i * X' n i)) + v * X' n i.
Proof.
  intros (S1 & S2) Hn Hi. rewrite madd_Ok by lia. eexists. split; [reflexivity|]. split; [split; auto|].
  rewrite (rsum_change N n _ (fun n => rsum (pI g) (fun i => at_ e n i * X' n i))); auto.
  2:{ intros n' Hlt Hne. apply rsum_ext. intros. now rewrite at_mupd_other by auto. }
  f_equal. rewrite (rsum_change (pI g) i _ (fun i => at_ e n i * X' n i)); auto.
  2:{ intros i' Hlt Hne. now rewrite at_mupd_other by auto. }
  rewrite at_mupd_same. ring.
Qed.

Lemma subs_collect_adds W x deltas :
  vsize W FM OR OC -> size_is x N (pI g) -> size_is deltas N (pO g) ->
  adds sbok sbL (subs_collect g bias W x deltas N)
    (rsum N (fun n => rsum FM (fun o => rsum OR (fun r => rsum OC (fun k =>
       INR KR * rsum KC (fun kc => at_ (vat W o) r k * at_ deltas n (pout g o r k) * X' n (pbase g o r k + kc)%nat +
                          at_ deltas n (pout g o r k) * at_ x n (pbase g o r k + kc)%nat * W' o r k) +
       (if bias then at_ deltas n (pout g o r k) * b' o r k else 0)))))).
Proof.
  intros HW (X1 & X2) (D1 & D2). unfold subs_collect.
  apply adds_for. intros n Hn. apply (adds_pool g Hg). intros o r k Ho Hr Hk.
  pose proof (pout_range g Hg o r k Ho Hr Hk) as Hout. pose proof (pbase_range g Hg o r k Ho Hr Hk) as Hin.
  intros st Hst. rewrite mget_Ok by lia. cbn [bind]. set (d := at_ deltas n (pout g o r k)). revert st Hst.
  apply (adds_seq sbok sbL).
  - apply (adds_region g). intros kc Hc [[e Wd] Wbd] (O1 & O2 & O3).
    rewrite (wget_Ok _ FM OR OC) by auto. cbn [bind].
    destruct (madd_inner e n (pbase g o r k + kc)%nat (at_ (vat W o) r k * d)) as (e' & Ee & Se & Ve); [auto|auto|lia|].
    rewrite Ee. cbn [bind]. rewrite mget_Ok by lia. cbn [bind].
    destruct (wadd_Ok Wd W' o r k (d * at_ x n (pbase g o r k + kc)%nat)) as (Wd2 & E2 & S2 & V2); auto.
    rewrite E2. cbn [bind]. eexists. split; [reflexivity|]. split; [simpl; auto|].
    unfold sbL. rewrite Ve, V2. ring.
  - destruct bias eqn:Eb; [|apply adds_id]. intros [[e Wd] Wbd] (O1 & O2 & O3). rewrite Eb in O3.
    destruct (wadd_Ok Wbd b' o r k d) as (V2 & E2 & S2 & F2); auto. 
    rewrite E2. cbn [bind]. eexists. split; [reflexivity|]. split; [simpl; auto|].
    unfold sbL. rewrite Eb, F2. ring.
Qed.
End Back.

(** derivative of the activations *)
Definition sA' (q : subs) (x : mat) (X' : nat -> nat -> R) (W' b' : nat -> nat -> nat -> R) (n o r k : nat) : R :=
  INR KR * rsum KC (fun kc => X' n (pbase g o r k + kc)%nat * at_ (vat (sW q) o) r k +
     at_ x n (pbase g o r k + kc)%nat * W' o r k) + if bias then b' o r k else 0.

Lemma subs_backward_ok q1 N y x ein bp : inv q1 -> sx q1 = x -> size_is x N (pI g) ->
  rows (sa q1) = N -> sy q1 = y -> size_is y N (pO g) -> size_is ein N (pO g) ->
  let d := fun n j => act_der act (at_ y n j) * at_ ein n j in
  exists q2 eout, subs_backward junk q1 ein bp = Ok (q2, eout) /\ inv q2 /\ size_is eout N (pI g) /\
    forall X' W' b',
      rsum N (fun n => rsum FM (fun o => rsum OR (fun r => rsum OC (fun k =>
        d n (pout g o r k) * sA' q1 x X' W' b' n o r k)))) +
      rsum FM (fun o => rsum OR (fun r => rsum OC (fun k => regD reg (at_ (vat (sW q1) o) r k) * W' o r k))) =
      sbL N X' W' b' (eout, sWd q2, sWbd q2).
Proof.
  intros (A1 & A2 & A3 & A4 & A5 & A6 & A7 & A8 & A9 & A10 & A11) Ex Sx Ra Ey Sy Se d.
  unfold subs_backward. rewrite A1, A2, A3, A4, Ey, Ra, A10, A11, Ex.
  destruct (activationFunctionDerivative_Ok act y (mconsresize junk (syd q1) N (pO g)) N (pO g)) as (yd & Eyd & Syd & Fyd); auto.
  { split; auto. }
  rewrite Eyd. cbn [bind]. rewrite (mmap2_Ok _ _ _ N (pO g)) by auto. cbn [bind].
  set (dm := mkMat N (pO g) (fun i j => at_ yd i j * at_ ein i j)).
  match goal with |- context [for_ FM ?b (sWd q1, sWbd q1)] => set (zb := b) end.
  assert (HZ : exists Wd0 Wbd0, for_ FM zb (sWd q1, sWbd q1) = Ok (Wd0, Wbd0) /\ vsize Wd0 FM OR OC /\
     (forall o, (o < FM)%nat -> vat Wd0 o = msetZero (vat (sWd q1) o)) /\
     (bias = true -> vsize Wbd0 FM OR OC /\ forall o, (o < FM)%nat -> vat Wbd0 o = msetZero (vat (sWbd q1) o))).
  { destruct (for_inv (fun i (st : list mat * list mat) => let '(V1, V2) := st in
       vsize V1 FM OR OC /\ (forall o, (o < i)%nat -> vat V1 o = msetZero (vat (sWd q1) o)) /\
       (forall o, (i <= o)%nat -> vat V1 o = vat (sWd q1) o) /\
       (bias = true -> vsize V2 FM OR OC /\ (forall o, (o < i)%nat -> vat V2 o = msetZero (vat (sWbd q1) o)) /\
       (forall o, (i <= o)%nat -> vat V2 o = vat (sWbd q1) o))) zb FM (sWd q1, sWbd q1)) as ([V1 V2] & E & H1 & H2 & H3 & H4).
    - split; auto. split; [intros; lia|]. split; auto. intros Hb. split; [now apply A7|]. split; auto. intros; lia.
    - intros i [V1 V2] Hi (H1 & H2 & H3 & H4). unfold zb.
      destruct (vsize_get _ _ _ _ i H1 Hi) as (E1 & S1). rewrite E1. cbn [bind].
      destruct (vsize_set V1 FM OR OC i (msetZero (vat V1 i)) H1 Hi) as (V1' & E1' & S1' & T1 & T2).
      { destruct S1; split; auto. }
      rewrite E1'. cbn [bind].
      assert (Q : (forall o, (o < S i)%nat -> vat V1' o = msetZero (vat (sWd q1) o)) /\
                  (forall o, (S i <= o)%nat -> vat V1' o = vat (sWd q1) o)).
      { split; intros o Ho; (destruct (Nat.eq_dec o i) as [->|]; [try lia; rewrite T1, H3 by lia; auto|]); rewrite T2 by auto.
        - apply H2; lia.
        - apply H3; lia. }
      destruct bias eqn:Eb.
      + destruct (H4 eq_refl) as (H5 & H6 & H7).
        destruct (vsize_get _ _ _ _ i H5 Hi) as (E2 & S2). rewrite E2. cbn [bind].
        destruct (vsize_set V2 FM OR OC i (msetZero (vat V2 i)) H5 Hi) as (V2' & E2' & S2' & T3 & T4).
        { destruct S2; split; auto. }
        rewrite E2'. cbn [bind]. eexists. split; [reflexivity|]. destruct Q as (Q1 & Q2). split; auto. split; auto. split; auto.
        intros _. split; auto. split; intros o Ho; (destruct (Nat.eq_dec o i) as [->|]; [try lia; rewrite T3, H7 by lia; auto|]); rewrite T4 by auto.
        * apply H6; lia.
        * apply H7; lia.
      + eexists. split; [reflexivity|]. destruct Q as (Q1 & Q2). split; auto. split; auto. split; auto. intros; discriminate.
    - exists V1, V2. split; auto. split; auto. split; auto. intros Hb. destruct (H4 Hb) as (H5 & H6 & _). auto. }
  destruct HZ as (Wd0 & Wbd0 & E0 & S0 & V0 & B0). rewrite E0. cbn [bind].
  assert (HB : forall X' W' b', exists st, subs_collect g bias (sW q1) x dm N (mzero N (pI g), Wd0, Wbd0) = Ok st /\
    sbok N st /\ sbL N X' W' b' st = sbL N X' W' b' (mzero N (pI g), Wd0, Wbd0) +
    (rsum N (fun n => rsum FM (fun o => rsum OR (fun r => rsum OC (fun k =>
       INR KR * rsum KC (fun kc => at_ (vat (sW q1) o) r k * at_ dm n (pout g o r k) * X' n (pbase g o r k + kc)%nat +
                          at_ dm n (pout g o r k) * at_ x n (pbase g o r k + kc)%nat * W' o r k) +
       (if bias then at_ dm n (pout g o r k) * b' o r k else 0))))))).
  { intros X' W' b'. apply (subs_collect_adds N X' W' b' (sW q1) x dm); auto; [split; auto|].
    split; [split; auto|]. split; auto. intros Hb. now apply B0. }
  destruct (HB (fun _ _ => 0) (fun _ _ _ => 0) (fun _ _ _ => 0)) as ([[e Wd] Wbd] & Ec & (O1 & O2 & O3) & _).
  rewrite Ec. cbn [bind].
  match goal with |- context [if Rltb 0 (l1Penalty reg) then ?m else Ok Wd] =>
    assert (H1 : exists Wd1, (if Rltb 0 (l1Penalty reg) then m else Ok Wd) = Ok Wd1 /\ vsize Wd1 FM OR OC /\
      forall o r k, (o < FM)%nat -> at_ (vat Wd1 o) r k = at_ (vat Wd o) r k +
        (if Rltb 0 (l1Penalty reg) then l1Penalty reg * at_ (vat (sW q1) o) r k / Rabs (at_ (vat (sW q1) o) r k) else 0)) end.
  { destruct (Rltb 0 (l1Penalty reg)).
    - destruct (for_vec Wd FM OR OC (fun o Wd =>
        m <- vget Wd o ;; w <- vget (sW q1) o ;;
        m <- mmap2 (fun d w => d + l1Penalty reg * w / Rabs w) m w ;; vset Wd o m)
        (fun o m => mkMat OR OC (fun r k => at_ m r k + l1Penalty reg * at_ (vat (sW q1) o) r k / Rabs (at_ (vat (sW q1) o) r k))) O2)
        as (Wd1 & E1 & S1 & V1).
      + intros o W1 Ho HW1. destruct (vsize_get _ _ _ _ o HW1 Ho) as (E & S1).
        destruct (vsize_get _ _ _ _ o A5 Ho) as (E' & S1'). rewrite E, E'. cbn [bind].
        rewrite (mmap2_Ok _ _ _ OR OC) by auto. split; auto. split; auto.
      + exists Wd1. split; [exact E1|]. split; auto. intros o r k Ho. rewrite V1 by auto. auto.
    - exists Wd. split; auto. split; auto. intros. ring. }
  destruct H1 as (Wd1 & E1 & S1 & V1). rewrite E1. cbn [bind].
  match goal with |- context [if Rltb 0 (l2Penalty reg) then ?m else Ok Wd1] =>
    assert (H1 : exists Wd2, (if Rltb 0 (l2Penalty reg) then m else Ok Wd1) = Ok Wd2 /\ vsize Wd2 FM OR OC /\
      forall o r k, (o < FM)%nat -> at_ (vat Wd2 o) r k = at_ (vat Wd1 o) r k +
        (if Rltb 0 (l2Penalty reg) then l2Penalty reg * at_ (vat (sW q1) o) r k else 0)) end.
  { destruct (Rltb 0 (l2Penalty reg)).
    - destruct (for_vec Wd1 FM OR OC (fun o Wd =>
        m <- vget Wd o ;; w <- vget (sW q1) o ;;
        m <- mmap2 (fun d w => d + l2Penalty reg * w) m w ;; vset Wd o m)
        (fun o m => mkMat OR OC (fun r k => at_ m r k + l2Penalty reg * at_ (vat (sW q1) o) r k)) S1)
        as (Wd2 & E2 & S2 & V2).
      + intros o W1 Ho HW1. destruct (vsize_get _ _ _ _ o HW1 Ho) as (E & S2).
        destruct (vsize_get _ _ _ _ o A5 Ho) as (E' & S1'). rewrite E, E'. cbn [bind].
        rewrite (mmap2_Ok _ _ _ OR OC) by auto. split; auto. split; auto.
      + exists Wd2. split; [exact E2|]. split; auto. intros o r k Ho. rewrite V2 by auto. auto.
    - exists Wd1. split; auto. split; auto. intros. ring. }
  destruct H1 as (Wd2 & E2 & S2 & V2). rewrite E2. cbn [bind].
  eexists. exists e. split; [reflexivity|]. split; [|split; auto].
  { unfold subs_inv. cbn [sg sbias sact sreg sW sWd sWb sWbd sa sy syd se]. destruct Syd as (Y1 & Y2), Sy as (Y3 & Y4), O1 as (Y5 & Y6).
    rewrite <- Ey in Y4.
    split; [auto|]; split; [auto|]; split; [auto|]; split; [auto|]; split; [auto|]; split; [auto|];
      split; [intros Hb; split; [now apply A7|auto]|]. repeat split; try congruence; auto. }
  intros X' W' b'. cbn [sWd sWbd].
  destruct (HB X' W' b') as (st & Ec' & _ & VL). rewrite Ec in Ec'. injection Ec' as <-.
  assert (EL : sbL N X' W' b' (e, Wd2, Wbd) = sbL N X' W' b' (e, Wd, Wbd) +
      rsum FM (fun o => rsum OR (fun r => rsum OC (fun k => regD reg (at_ (vat (sW q1) o) r k) * W' o r k)))).
  { unfold sbL. enough (E : wdot Wd2 W' = wdot Wd W' +
      rsum FM (fun o => rsum OR (fun r => rsum OC (fun k => regD reg (at_ (vat (sW q1) o) r k) * W' o r k)))) by (rewrite E; ring).
    unfold wdot. rewrite <- rsum_plus. apply rsum_ext. intros o Ho. rewrite <- rsum_plus. apply rsum_ext. intros r Hr.
    rewrite <- rsum_plus. apply rsum_ext. intros k Hk. rewrite V2, V1 by auto. unfold regD. ring. }
  rewrite EL, VL.
  replace (sbL N X' W' b' (mzero N (pI g), Wd0, Wbd0)) with 0.
  2:{ unfold sbL, wdot. rewrite (rsum_0 N). 2:{ intros. apply rsum_0. intros. simpl. ring. }
      rewrite (rsum_0 FM). 2:{ intros o Ho. apply rsum_0. intros r Hr. apply rsum_0. intros.
        rewrite V0 by auto. simpl. ring. }
      destruct bias eqn:Eb; [|ring]. destruct (B0 eq_refl) as (_ & B2). rewrite (rsum_0 FM); [ring|].
      intros. apply rsum_0. intros. apply rsum_0. intros. rewrite B2 by auto. simpl. ring. }
  rewrite Rplus_0_l. f_equal. apply rsum_ext. intros n Hn. apply rsum_ext. intros o Ho.
  apply rsum_ext. intros r Hr. apply rsum_ext. intros k Hk.
  assert (Ed : at_ dm n (pout g o r k) = d n (pout g o r k)) by (simpl; rewrite Fyd; auto).
  rewrite !Ed. unfold sA'. rewrite Rmult_plus_distr_l. f_equal; [|destruct bias; ring].
  rewrite <- Rmult_assoc, (Rmult_comm _ (INR KR)), Rmult_assoc. f_equal. rewrite <- rsum_scal. apply rsum_ext. intros. ring.
Qed.

Definition subs_smooth (q : subs) (X : mat) : Prop :=
  (forall n o r k, (n < rows X)%nat -> (o < FM)%nat -> (r < OR)%nat -> (k < OC)%nat ->
     act_smooth act (pre q X n o r k)) /\
  (0 < l1Penalty reg -> forall o r k, (o < FM)%nat -> (r < OR)%nat -> (k < OC)%nat -> at_ (vat (sW q) o) r k <> 0).

Lemma rsum_sparams (f : nat -> R) : rsum K f =
  rsum FM (fun o => rsum OR (fun r => rsum OC (fun k => f (pout g o r k * B)%nat +
    if bias then f (pout g o r k * B + 1)%nat else 0))).
Proof.
  rewrite rsum_block. rewrite (rsum_pout g Hg). apply rsum_ext. intros o Ho. apply rsum_ext. intros r Hr.
  apply rsum_ext. intros k Hk. unfold sB. destruct bias; cbn [Nat.add rsum]; rewrite ?Nat.add_0_r; ring.
Qed.

Lemma subs_contract : contract c (pI g) (pO g) K inv subs_smooth.
Proof.
  constructor.
  - intros s Hs. rewrite <- (slocs_length SW SWb). now apply (layout_count c inv locs subs_layout_init).
  - intros s k Hs Hk. rewrite <- (slocs_length SW SWb) in Hk.
    apply (layout_read c inv locs subs_layout_init); auto. apply subs_load_ok.
  - apply subs_write.
  - intros s Hs. exists s. auto.
  - apply (gradient_intro c (pI g) (pO g) K inv subs_smooth
      (fun s dropout N p X q q1 Y r0 =>
         inv q /\
         (forall o r k, (o < FM)%nat -> (r < OR)%nat -> (k < OC)%nat -> at_ (vat (sW q) o) r k = p.[pout g o r k * B]) /\
         (bias = true -> forall o r k, (o < FM)%nat -> (r < OR)%nat -> (k < OC)%nat -> at_ (vat (sWb q) o) r k = p.[pout g o r k * B + 1]) /\
         (forall n o r k, (n < N)%nat -> (o < FM)%nat -> (r < OR)%nat -> (k < OC)%nat ->
           at_ Y n (pout g o r k) = act_fun act (pre q X n o r k)) /\
         sW q1 = sW q /\ sWb q1 = sWb q /\ sx q1 = X /\ rows (sa q1) = N /\ sy q1 = Y /\
         r0 = sregError (sW q))).
    + intros s dropout N p X Hs Hp HX.
      destruct (subs_install s p Hs Hp) as (q & E & Hq & R1 & R2).
      destruct (subs_forward_ok q X dropout N Hq HX) as (q1 & y & Ef & Sy & Hq1 & F1 & F2 & F3 & F4 & F5 & F6).
      exists q, q1, y, (sregError (sW q)). auto 20.
    + intros s dropout N t0 p p' X X' q q1 Y r0 Hs Hp HX Dp DX (Sm1 & Sm2) SY Hq1 HP.
      set (W' := fun o r k => p' (pout g o r k * B)%nat).
      set (b' := fun o r k => p' (pout g o r k * B + 1)%nat).
      assert (DW : forall o r k, (o < FM)%nat -> (r < OR)%nat -> (k < OC)%nat ->
        D (fun t => at_ (vat (sW (q t)) o) r k) t0 (W' o r k)).
      { intros o r k Ho Hr Hk. apply (D_ext (fun t => (p t).[pout g o r k * B])).
        - intros t. destruct (HP t) as (_ & R1 & _). symmetry. now apply R1.
        - apply Dp. now apply w_range. }
      assert (Db : bias = true -> forall o r k, (o < FM)%nat -> (r < OR)%nat -> (k < OC)%nat ->
        D (fun t => at_ (vat (sWb (q t)) o) r k) t0 (b' o r k)).
      { intros Hb o r k Ho Hr Hk. apply (D_ext (fun t => (p t).[pout g o r k * B + 1])).
        - intros t. destruct (HP t) as (_ & _ & R2 & _). symmetry. now apply R2.
        - apply Dp. now apply b_range. }
      set (Y' := fun n j => act_der act (at_ (Y t0) n j) *
         sA' (q t0) (X t0) X' W' b' n (po g j) (pro g j) (pco g j)).
      assert (HY' : forall n o r k, (r < OR)%nat -> (k < OC)%nat ->
        Y' n (pout g o r k) = act_der act (at_ (Y t0) n (pout g o r k)) * sA' (q t0) (X t0) X' W' b' n o r k).
      { intros n o r k Hr Hk. unfold Y'. destruct (decode g Hg o r k Hr Hk) as (E1 & E2 & E3). now rewrite E1, E2, E3. }
      exists Y', (rsum FM (fun o => rsum OR (fun r => rsum OC (fun k =>
        regD reg (at_ (vat (sW (q t0)) o) r k) * W' o r k)))).
      split; [|split].
      * intros n j Hn Hj. destruct (pout_split g Hg j Hj) as (o & r & k & Ho & Hr & Hk & ->).
        rewrite HY' by auto. destruct (HP t0) as (_ & _ & _ & Fv & _). rewrite Fv by auto.
        apply (D_ext (fun t => act_fun act (pre (q t) (X t) n o r k))).
        { intros t. destruct (HP t) as (_ & _ & _ & F' & _). symmetry. now rewrite F'. }
        apply (D_comp (fun t => pre (q t) (X t) n o r k) (act_fun act)).
        2:{ apply act_derivative. apply Sm1; auto. destruct (HX t0). lia. }
        unfold spre, sA'.
        apply (D_plus (fun t => INR KR * rsum KC (fun kc => at_ (X t) n (pbase g o r k + kc)%nat * at_ (vat (sW (q t)) o) r k))
          (fun t => if bias then at_ (vat (sWb (q t)) o) r k else 0)).
        { apply (D_scal (INR KR) (fun t => rsum KC (fun kc => at_ (X t) n (pbase g o r k + kc)%nat * at_ (vat (sW (q t)) o) r k))).
          apply (D_sum KC (fun kc t => at_ (X t) n (pbase g o r k + kc)%nat * at_ (vat (sW (q t)) o) r k)). intros kc Hc.
          apply (D_mult (fun t => at_ (X t) n (pbase g o r k + kc)%nat) (fun t => at_ (vat (sW (q t)) o) r k)); auto.
          apply DX; auto. pose proof (pbase_range g Hg o r k Ho Hr Hk). lia. }
        { destruct bias eqn:Eb; [auto|apply D_const]. }
      * apply (D_ext (fun t => sregError (sW (q t)))).
        { intros t. destruct (HP t) as (_ & _ & _ & _ & _ & _ & _ & _ & _ & ->). auto. }
        unfold sregError. apply (D_sum FM (fun o t => regError reg (vat (sW (q t)) o))). intros o Ho.
        apply D_regError; auto.
        { intros t. destruct (HP t) as ((_ & _ & _ & _ & SW & _) & _). now apply SW. }
      * intros ein bp Hein. destruct (HP t0) as (Hq & _ & _ & Fv & E1 & E2 & E3 & E4 & E5 & _).
        destruct (subs_backward_ok (q1 t0) N (Y t0) (X t0) ein bp) as (q2 & eout & Eb & Hq2 & Se & Key); auto.
        cbv zeta in Key. specialize (Key X' W' b').
        set (gr := fun k => outOf (readDeriv c q2 k) 0).
        assert (G1 : forall o r k, (o < FM)%nat -> (r < OR)%nat -> (k < OC)%nat ->
          gr (pout g o r k * B)%nat = at_ (vat (sWd q2) o) r k).
        { intros. unfold gr. now rewrite subs_readDeriv_w by auto. }
        assert (G2 : bias = true -> forall o r k, (o < FM)%nat -> (r < OR)%nat -> (k < OC)%nat ->
          gr (pout g o r k * B + 1)%nat = at_ (vat (sWbd q2) o) r k).
        { intros. unfold gr. now rewrite subs_readDeriv_b by auto. }
        exists q2, eout, gr. split; auto. split; auto. split.
        { intros i Hi. destruct (sindex i Hi) as (o & r & k & Ho & Hr & Hk & [->|(Hb & ->)]).
          - rewrite G1 by auto. now apply subs_readDeriv_w.
          - rewrite G2 by auto. now apply subs_readDeriv_b. }
        assert (Key2 : inner N (pO g) (at_ ein) Y' +
          rsum FM (fun o => rsum OR (fun r => rsum OC (fun k =>
            regD reg (at_ (vat (sW (q t0)) o) r k) * W' o r k))) =
          rsum K (fun k => gr k * p' k) + inner N (pI g) (at_ eout) X').
        { rewrite E1 in Key. unfold inner. rewrite (Rplus_comm (rsum K _)).
          rewrite (rsum_ext N (fun n => rsum (pO g) (fun j => at_ ein n j * Y' n j))
            (fun n => rsum FM (fun o => rsum OR (fun r => rsum OC (fun k =>
              act_der act (at_ (Y t0) n (pout g o r k)) * at_ ein n (pout g o r k) *
              sA' (q1 t0) (X t0) X' W' b' n o r k))))).
          2:{ intros n Hn. rewrite (rsum_pout g Hg). apply rsum_ext. intros o Ho. apply rsum_ext. intros r Hr.
              apply rsum_ext. intros k Hk. rewrite HY' by auto. unfold sA'. rewrite E1. ring. }
          rewrite Key. unfold sbL, wdot. rewrite Rplus_assoc. f_equal. rewrite rsum_sparams.
          destruct bias eqn:Ebias.
          - rewrite <- rsum_plus. apply rsum_ext. intros o Ho. rewrite <- rsum_plus. apply rsum_ext. intros r Hr.
            rewrite <- rsum_plus. apply rsum_ext. intros k Hk. rewrite G1, G2 by auto. auto.
          - rewrite Rplus_0_r. apply rsum_ext. intros o Ho. apply rsum_ext. intros r Hr.
            apply rsum_ext. intros k Hk. rewrite Rplus_0_r, G1 by auto. auto. }
        split; [intros _; auto|].
        intros _ HX'. rewrite Key2. unfold inner. rewrite (rsum_0 N); [ring|]. intros n Hn. apply rsum_0.
        intros i Hi. rewrite HX' by auto. ring.
Qed.
End SP.
