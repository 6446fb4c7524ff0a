(** Proofs about the convolutional layer. *)
From Verif Require Import Base BaseFacts Matrix RSum MatOps Vec Deriv Acc Activation_Model
  Activation_Proofs Layer_Model Layer_Spec Layer_Proofs Layer_Layout FC_Model Reg_Proofs
  Compressed_Proofs Conv_Model.
Local Open Scope R_scope.

(** what initialize establishes *)
Definition geom_ok (g : cgeom) : Prop :=
  fmInSize g = (inRows g * inCols g)%nat /\ outRows g = maxRow g /\ outCols g = maxCol g /\
  fmOutSize g = (maxRow g * maxCol g)%nat /\
  (0 < maxRow g)%nat /\ (0 < maxCol g)%nat /\
  (maxRow g + kernelRows g <= inRows g + 1)%nat /\ (maxCol g + kernelCols g <= inCols g + 1)%nat.

Definition nb (g : cgeom) : nat := if cbias g then 1 else 0.
(** numbers of inputs, outputs, parameters per kernel, parameters per output map *)
Definition cI (g : cgeom) : nat := (fmin g * fmInSize g)%nat.
Definition cO (g : cgeom) : nat := (fmout g * fmOutSize g)%nat.
Definition cB (g : cgeom) : nat := (kernelRows g * kernelCols g + nb g)%nat.
Definition cF (g : cgeom) : nat := (fmin g * cB g)%nat.

Definition conv_inv (g : cgeom) (s : conv) : Prop :=
  cg s = g /\ tsize (cW s) (fmout g) (fmin g) (kernelRows g) (kernelCols g) /\
  tsize (cWd s) (fmout g) (fmin g) (kernelRows g) (kernelCols g) /\
  (cbias g = true -> size_is (cWb s) (fmout g) (fmin g) /\ size_is (cWbd s) (fmout g) (fmin g)) /\
  cols (ca s) = cO g /\ cols (cy s) = cO g /\ cols (cyd s) = cO g /\ cols (ce s) = cI g.

(** the activation of output map o at (row, col) *)
Definition cpre (g : cgeom) (w : nat -> nat -> nat -> nat -> R) (b : nat -> nat -> R) (x : nat -> R)
    (o row col : nat) : R :=
  rsum (fmin g) (fun i =>
    rsum (kernelRows g) (fun kr => rsum (kernelCols g) (fun kc =>
      w o i kr kc * x (i * fmInSize g + row * inCols g + col + kr * inCols g + kc)%nat)) +
    if cbias g then b o i else 0).

Lemma adds_scan {A} (ok : A -> Prop) (L : A -> R) MR MC f base (d : nat -> nat -> R) :
  (forall row col, (row < MR)%nat -> (col < MC)%nat -> adds ok L (f row col (base + row * MC + col)%nat) (d row col)) ->
  adds ok L (scan MR MC f base) (rsum MR (fun row => rsum MC (fun col => d row col))).
Proof.
  intros H. unfold scan. apply (adds2_adds ok L _ base (base + MR * MC)%nat).
  apply (adds2_for ok L MR _ (fun row => base + row * MC)%nat); try lia. intros row Hr.
  apply (adds2_for ok L MC _ (fun col => base + row * MC + col)%nat); try (simpl; lia). intros col Hc.
  intros a Ha. destruct (H row col Hr Hc a Ha) as (a' & E & O & V). exists a'. rewrite E. cbn [bind].
  split; [|auto]. f_equal. f_equal. lia.
Qed.

Section CP.
Context (junk : nat -> nat -> R) (g : cgeom) (Hg : geom_ok g).
Notation inv := (conv_inv g).
Notation c := (conv_class junk).
Notation KR := (kernelRows g).
Notation KC := (kernelCols g).
Notation MR := (maxRow g).
Notation MC := (maxCol g).
Notation FI := (fmInSize g).
Notation FO := (fmOutSize g).
Notation FM := (fmin g).
Notation FN := (fmout g).
Notation B := (cB g).
Notation F := (cF g).
Notation K := (FN * F)%nat.

(** * Indices *)
Lemma in_range i row col kr : (i < FM)%nat -> (row < MR)%nat -> (col < MC)%nat -> (kr < KR)%nat ->
  (i * FI + row * inCols g + col + kr * inCols g + KC <= cI g)%nat.
Proof.
  intros Hi Hr Hc Hk. destruct Hg as (G1 & _ & _ & _ & _ & _ & G5 & G6). unfold cI. rewrite G1.
  assert (A1 : ((row + kr + 1) * inCols g <= inRows g * inCols g)%nat) by (apply Nat.mul_le_mono_r; lia).
  assert (A2 : ((i + 1) * (inRows g * inCols g) <= FM * (inRows g * inCols g))%nat) by (apply Nat.mul_le_mono_r; lia).
  lia.
Qed.

Lemma out_range o row col : (o < FN)%nat -> (row < MR)%nat -> (col < MC)%nat ->
  (o * FO + row * MC + col < cO g)%nat.
Proof.
  intros Ho Hr Hc. destruct Hg as (_ & _ & _ & G4 & _). unfold cO. rewrite G4.
  pose proof (join_index MC row col MR Hr Hc). pose proof (join_index (MR * MC) o (row * MC + col) FN Ho H). lia.
Qed.

Lemma out_split j : (j < cO g)%nat ->
  exists o row col, (o < FN)%nat /\ (row < MR)%nat /\ (col < MC)%nat /\ j = (o * FO + row * MC + col)%nat.
Proof.
  intros Hj. destruct Hg as (_ & _ & _ & G4 & _). unfold cO in Hj.
  destruct (split_index FO j FN Hj) as (o & k & Ho & Hk & ->). rewrite G4 in Hk.
  destruct (split_index MC k MR Hk) as (row & col & Hr & Hc & ->). exists o, row, col. repeat (split; auto). lia.
Qed.

Lemma out_inj o row col o' row' col' : (row < MR)%nat -> (col < MC)%nat -> (row' < MR)%nat -> (col' < MC)%nat ->
  (o * FO + row * MC + col = o' * FO + row' * MC + col')%nat -> o = o' /\ row = row' /\ col = col'.
Proof.
  intros Hr Hc Hr' Hc' E. destruct Hg as (_ & _ & _ & G4 & _).
  pose proof (join_index MC row col MR Hr Hc). pose proof (join_index MC row' col' MR Hr' Hc').
  destruct (split_index_inj FO o (row * MC + col) o' (row' * MC + col')) as (-> & E'); try lia.
  destruct (split_index_inj MC row col row' col'); auto.
Qed.

(** * Pointers *)
Section Locs.
Context (cw : nat -> nat -> nat -> nat -> cloc) (cb : nat -> nat -> cloc).
Definition cblock (o i : nat) : list cloc :=
  flat_map (fun kr => map (cw o i kr) (seq 0 KC)) (seq 0 KR) ++ (if cbias g then [cb o i] else []).
Definition clocs : list cloc := flat_map (fun o => flat_map (cblock o) (seq 0 FM)) (seq 0 FN).

Lemma kblock_length o i : length (flat_map (fun kr => map (cw o i kr) (seq 0 KC)) (seq 0 KR)) = (KR * KC)%nat.
Proof. apply flat_map_length_const. intros. now rewrite map_length, seq_length. Qed.
Lemma cblock_length o i : length (cblock o i) = B.
Proof.
  unfold cblock, cB, nb. rewrite app_length, kblock_length. destruct (cbias g); auto.
Qed.
Lemma cmap_length o : length (flat_map (cblock o) (seq 0 FM)) = F.
Proof. apply flat_map_length_const. intros. apply cblock_length. Qed.
Lemma clocs_length : length clocs = K.
Proof. apply flat_map_length_const. intros. apply cmap_length. Qed.

Lemma clocs_nth o i l : (o < FN)%nat -> (i < FM)%nat -> (l < B)%nat ->
  nth_error clocs (o * F + (i * B + l)) = nth_error (cblock o i) l.
Proof.
  intros Ho Hi Hl. unfold clocs. rewrite (nth_error_blocks _ F FN 0); auto.
  - simpl. rewrite (nth_error_blocks _ B FM 0); auto. intros. apply cblock_length.
  - intros. apply cmap_length.
  - unfold cF. now apply join_index.
Qed.
Lemma clocs_w o i kr kc : (o < FN)%nat -> (i < FM)%nat -> (kr < KR)%nat -> (kc < KC)%nat ->
  nth_error clocs (o * F + (i * B + (kr * KC + kc))) = Some (cw o i kr kc).
Proof.
  intros Ho Hi Hr Hc. pose proof (join_index KC kr kc KR Hr Hc) as Hj.
  rewrite clocs_nth by (auto; unfold cB; lia). unfold cblock.
  rewrite nth_error_app1 by (rewrite kblock_length; auto).
  rewrite (nth_error_blocks _ KC KR 0); auto.
  - now apply map_seq_nth.
  - intros. now rewrite map_length, seq_length.
Qed.
Lemma clocs_b o i : cbias g = true -> (o < FN)%nat -> (i < FM)%nat ->
  nth_error clocs (o * F + (i * B + KR * KC)) = Some (cb o i).
Proof.
  intros Hb Ho Hi. rewrite clocs_nth by (auto; unfold cB, nb; rewrite Hb; lia). unfold cblock.
  rewrite nth_error_app2 by (rewrite kblock_length; auto). rewrite kblock_length, Nat.sub_diag, Hb. auto.
Qed.
End Locs.

(** every index belongs to a kernel entry or to a bias *)
Lemma cindex k : (k < K)%nat -> exists o i, (o < FN)%nat /\ (i < FM)%nat /\
  ((exists kr kc, (kr < KR)%nat /\ (kc < KC)%nat /\ k = (o * F + (i * B + (kr * KC + kc)))%nat) \/
   (cbias g = true /\ k = (o * F + (i * B + KR * KC))%nat)).
Proof.
  intros Hk. destruct (split_index F k FN Hk) as (o & k1 & Ho & Hk1 & ->). unfold cF in Hk1.
  destruct (split_index B k1 FM Hk1) as (i & l & Hi & Hl & ->). exists o, i. split; auto. split; auto.
  unfold cB, nb in Hl. destruct (Nat.lt_ge_cases l (KR * KC)) as [H|H].
  - left. destruct (split_index KC l KR H) as (kr & kc & Hr & Hc & ->). exists kr, kc. auto.
  - right. destruct (cbias g); [|lia]. split; auto. lia.
Qed.

Notation locs := (clocs CW CWb).
Notation dlocs := (clocs CWd CWbd).
Definition cidx (l : cloc) : nat :=
  match l with
  | CW o i kr kc => o * F + (i * B + (kr * KC + kc))
  | CWb o i => o * F + (i * B + KR * KC)
  | _ => 0
  end.

Lemma conv_init s : inv s -> conv_initialize s = (locs, dlocs).
Proof. intros (A1 & _). unfold conv_initialize. rewrite A1. reflexivity. Qed.

Lemma clocs_In l : In l locs -> exists o i, (o < FN)%nat /\ (i < FM)%nat /\
  ((exists kr kc, (kr < KR)%nat /\ (kc < KC)%nat /\ l = CW o i kr kc) \/ (cbias g = true /\ l = CWb o i)).
Proof.
  intros H. apply In_nth_error in H. destruct H as (k & Hk).
  assert (H : (k < K)%nat) by (rewrite <- (clocs_length CW CWb); apply nth_error_Some; congruence).
  destruct (cindex k H) as (o & i & Ho & Hi & [(kr & kc & Hr & Hc & ->)|(Hb & ->)]); exists o, i; split; auto; split; auto.
  - rewrite clocs_w in Hk by auto. injection Hk as <-. left. eauto.
  - rewrite clocs_b in Hk by auto. injection Hk as <-. auto.
Qed.

Lemma cidx_ok k l : nth_error locs k = Some l -> cidx l = k.
Proof.
  intros Hk. assert (H : (k < K)%nat) by (rewrite <- (clocs_length CW CWb); apply nth_error_Some; congruence).
  destruct (cindex k H) as (o & i & Ho & Hi & [(kr & kc & Hr & Hc & ->)|(Hb & ->)]).
  - rewrite clocs_w in Hk by auto. injection Hk as <-. auto.
  - rewrite clocs_b in Hk by auto. injection Hk as <-. auto.
Qed.

Lemma conv_load_w s o i kr kc : inv s -> (o < FN)%nat -> (i < FM)%nat -> (kr < KR)%nat -> (kc < KC)%nat ->
  conv_load s (CW o i kr kc) = Ok (at_ (tat (cW s) o i) kr kc).
Proof.
  intros (_ & HW & _) Ho Hi Hr Hc. destruct (tget_Ok _ _ _ _ _ o i HW Ho Hi) as (E & (S1 & S2)).
  simpl. rewrite E. cbn [bind]. apply mget_Ok; lia.
Qed.

Lemma conv_load_ok s l : inv s -> In l locs -> exists v, conv_load s l = Ok v.
Proof.
  intros H Hl. destruct (clocs_In l Hl) as (o & i & Ho & Hi & [(kr & kc & Hr & Hc & ->)|(Hb & ->)]).
  - rewrite conv_load_w by auto. eauto.
  - destruct H as (_ & _ & _ & HB & _). destruct (HB Hb) as ((S1 & S2) & _). simpl. rewrite mget_Ok by lia. eauto.
Qed.

Lemma conv_store_ok s l v : inv s -> In l locs ->
  exists s', conv_store s l v = Ok s' /\ inv s' /\ conv_load s' l = Ok v /\
  forall l', In l' locs -> l' <> l -> conv_load s' l' = conv_load s l'.
Proof.
  intros H Hl. pose proof H as (A1 & A2 & A3 & A4 & A5).
  destruct (clocs_In l Hl) as (o & i & Ho & Hi & [(kr & kc & Hr & Hc & ->)|(Hb & ->)]).
  - destruct (tget_Ok _ _ _ _ _ o i A2 Ho Hi) as (E & Sz). pose proof Sz as (S1 & S2).
    cbn [conv_store]. rewrite E. cbn [bind]. rewrite mset_Ok by lia. cbn [bind].
    destruct (tset_Ok (cW s) FN FM KR KC o i (mupd (tat (cW s) o i) kr kc v) A2 Ho Hi) as (W' & E' & SW & T1 & T2).
    { split; auto. }
    rewrite E'. cbn [bind]. eexists. split; [reflexivity|].
    assert (Hi' : inv (conv_params s W' (cWb s))) by (unfold conv_inv; simpl; auto 10).
    split; auto. split.
    + rewrite conv_load_w by auto. simpl. rewrite T1. now rewrite at_mupd_same.
    + intros l' Hl' Hn.
      destruct (clocs_In l' Hl') as (o' & i' & Ho' & Hi2 & [(kr' & kc' & Hr' & Hc' & ->)|(Hb & ->)]); [|reflexivity].
      rewrite !conv_load_w by auto. simpl. f_equal.
      destruct (Nat.eq_dec o' o) as [->|]; [|now rewrite T2 by auto].
      destruct (Nat.eq_dec i' i) as [->|]; [|now rewrite T2 by auto].
      rewrite T1. apply at_mupd_other.
      destruct (Nat.eq_dec kr' kr) as [->|]; [right; intros ->; congruence|auto].
  - destruct (A4 Hb) as ((S1 & S2) & S3). cbn [conv_store]. rewrite mset_Ok by lia. cbn [bind].
    eexists. split; [reflexivity|]. split; [|split].
    + unfold conv_inv. simpl. repeat (split; auto).
    + simpl. rewrite mget_Ok by (simpl; lia). now rewrite at_mupd_same.
    + intros l' Hl' Hn.
      destruct (clocs_In l' Hl') as (o' & i' & Ho' & Hi2 & [(kr' & kc' & Hr' & Hc' & ->)|(_ & ->)]); [reflexivity|].
      simpl. rewrite !mget_Ok by (simpl; lia). rewrite at_mupd_other; auto.
      destruct (Nat.eq_dec o' o) as [->|]; [right; intros ->; congruence|auto].
Qed.

Lemma conv_layout_init s : inv s ->
  fst (initialize c s) = locs /\ length (snd (initialize c s)) = length locs.
Proof. intros H. cbn [initialize conv_class]. rewrite conv_init by auto. simpl. now rewrite !clocs_length. Qed.

Lemma conv_write s k v : inv s -> (k < K)%nat ->
  exists s', writeParam c s k v = Ok s' /\ inv s' /\
  forall k', (k' < K)%nat -> readParam c s' k' = if Nat.eqb k' k then Ok v else readParam c s k'.
Proof.
  rewrite <- (clocs_length CW CWb). apply (layout_write c inv locs cidx).
  - apply conv_layout_init.
  - apply cidx_ok.
  - apply conv_store_ok.
Qed.

Lemma conv_read_w s o i kr kc : inv s -> (o < FN)%nat -> (i < FM)%nat -> (kr < KR)%nat -> (kc < KC)%nat ->
  readParam c s (o * F + (i * B + (kr * KC + kc))) = Ok (at_ (tat (cW s) o i) kr kc).
Proof.
  intros H Ho Hi Hr Hc. unfold readParam. destruct (conv_layout_init s H) as (E & _). rewrite E.
  unfold vget. rewrite clocs_w by auto. cbn [bind]. now apply conv_load_w.
Qed.
Lemma conv_read_b s o i : inv s -> cbias g = true -> (o < FN)%nat -> (i < FM)%nat ->
  readParam c s (o * F + (i * B + KR * KC)) = Ok (at_ (cWb s) o i).
Proof.
  intros H Hb Ho Hi. unfold readParam. destruct (conv_layout_init s H) as (E & _). rewrite E.
  unfold vget. rewrite clocs_b by auto. cbn [bind].
  destruct H as (_ & _ & _ & HB & _). destruct (HB Hb) as ((S1 & S2) & _). simpl. apply mget_Ok; lia.
Qed.
Lemma conv_readDeriv_w s o i kr kc : inv s -> (o < FN)%nat -> (i < FM)%nat -> (kr < KR)%nat -> (kc < KC)%nat ->
  readDeriv c s (o * F + (i * B + (kr * KC + kc))) = Ok (at_ (tat (cWd s) o i) kr kc).
Proof.
  intros H Ho Hi Hr Hc. unfold readDeriv. cbn [initialize conv_class]. rewrite conv_init by auto. cbn [snd].
  unfold vget. rewrite clocs_w by auto. cbn [bind].
  destruct H as (_ & _ & HW & _). destruct (tget_Ok _ _ _ _ _ o i HW Ho Hi) as (E & (S1 & S2)).
  simpl. rewrite E. cbn [bind]. apply mget_Ok; lia.
Qed.
Lemma conv_readDeriv_b s o i : inv s -> cbias g = true -> (o < FN)%nat -> (i < FM)%nat ->
  readDeriv c s (o * F + (i * B + KR * KC)) = Ok (at_ (cWbd s) o i).
Proof.
  intros H Hb Ho Hi. unfold readDeriv. cbn [initialize conv_class]. rewrite conv_init by auto. cbn [snd].
  unfold vget. rewrite clocs_b by auto. cbn [bind].
  destruct H as (_ & _ & _ & HB & _). destruct (HB Hb) as (_ & (S1 & S2)). simpl. apply mget_Ok; lia.
Qed.

Lemma conv_install s p : inv s -> length p = K ->
  exists q, install c s p = Ok q /\ inv q /\
    (forall o i kr kc, (o < FN)%nat -> (i < FM)%nat -> (kr < KR)%nat -> (kc < KC)%nat ->
       at_ (tat (cW q) o i) kr kc = p.[o * F + (i * B + (kr * KC + kc))]) /\
    (cbias g = true -> forall o i, (o < FN)%nat -> (i < FM)%nat -> at_ (cWb q) o i = p.[o * F + (i * B + KR * KC)]).
Proof.
  intros H Hp. destruct (writeAll_Ok c K inv s p conv_write H Hp) as (q & E & Hq & R).
  exists q. split; [unfold install; rewrite E; auto|]. split; auto. split.
  - intros o i kr kc Ho Hi Hr Hc.
    assert (Hk : (o * F + (i * B + (kr * KC + kc)) < K)%nat).
    { apply join_index; auto. apply join_index; auto. unfold cB. pose proof (join_index KC kr kc KR Hr Hc). lia. }
    pose proof (R _ Hk) as R1. rewrite conv_read_w in R1 by auto. now injection R1.
  - intros Hb o i Ho Hi.
    assert (Hk : (o * F + (i * B + KR * KC) < K)%nat).
    { apply join_index; auto. apply join_index; auto. unfold cB, nb. rewrite Hb. lia. }
    pose proof (R _ Hk) as R1. rewrite conv_read_b in R1 by auto. now injection R1.
Qed.

(** * Forward *)
Lemma adds_madd N O r0 c0 n idx v : (n < N)%nat -> (idx < O)%nat ->
  adds (fun a => size_is a N O) (fun a => at_ a r0 c0) (fun a => madd a n idx v)
    (if (Nat.eqb r0 n && Nat.eqb c0 idx)%bool then v else 0).
Proof.
  intros Hn Hi a (S1 & S2). rewrite madd_Ok by lia. eexists. split; [reflexivity|]. split; [split; auto|].
  rewrite at_mupd. destruct (Nat.eqb_spec r0 n), (Nat.eqb_spec c0 idx); subst; simpl; ring.
Qed.

Lemma conv_activate_adds W Wb x N r0 c0 :
  tsize W FN FM KR KC -> (cbias g = true -> size_is Wb FN FM) -> size_is x N (cI g) ->
  adds (fun a => size_is a N (cO g)) (fun a => at_ a r0 c0) (conv_activate g W Wb x)
    (rsum N (fun n => rsum FN (fun o => rsum FM (fun i =>
      rsum MR (fun row => rsum MC (fun col => rsum KR (fun kr =>
        if (Nat.eqb r0 n && Nat.eqb c0 (o * FO + row * MC + col))%bool
        then rsum KC (fun kc => at_ (tat W o i) kr kc * at_ x n (i * FI + row * inCols g + col + kr * inCols g + kc)%nat)
        else 0))) +
      (if cbias g then rsum MR (fun row => rsum MC (fun col =>
        if (Nat.eqb r0 n && Nat.eqb c0 (o * FO + row * MC + col))%bool then at_ Wb o i else 0)) else 0))))).
Proof.
  intros HW HB Hx. pose proof Hx as (X1 & X2). unfold conv_activate. rewrite X1.
  apply adds_for. intros n Hn. apply adds_for. intros o Ho.
  apply (adds2_adds _ _ _ 0%nat (FM * FI)%nat).
  apply (adds2_for _ _ FM _ (fun i => i * FI)%nat); auto. intros i Hi a Ha.
  destruct (tget_Ok _ _ _ _ _ o i HW Ho Hi) as (ET & ST). rewrite ET. cbn [bind].
  match goal with |- context [scan MR MC ?f (o * FO)%nat a] => 
    destruct (adds_scan (fun a => size_is a N (cO g)) (fun a => at_ a r0 c0) MR MC f (o * FO)%nat
      (fun row col => rsum KR (fun kr =>
        if (Nat.eqb r0 n && Nat.eqb c0 (o * FO + row * MC + col))%bool
        then rsum KC (fun kc => at_ (tat W o i) kr kc * at_ x n (i * FI + row * inCols g + col + kr * inCols g + kc)%nat)
        else 0))) with (s := a) as (a1 & E1 & O1 & V1); auto end.
  { intros row col Hr Hc a0 Ha0. pose proof (out_range o row col Ho Hr Hc) as Hout.
    destruct (Nat.ltb_spec (o * FO + row * MC + col) (cols a0)) as [_|Hbad]; [|destruct Ha0; lia]. cbn [check bind].
    match goal with |- context [for_ KR ?b _] =>
      apply (adds2_adds (fun a => size_is a N (cO g)) (fun a => at_ a r0 c0) (for_ KR b)
        (i * FI + row * inCols g + col)%nat (i * FI + row * inCols g + col + KR * inCols g)%nat); auto end.
    apply (adds2_for _ _ KR _ (fun kr => i * FI + row * inCols g + col + kr * inCols g)%nat); try lia.
    intros kr Hk a2 Ha2.
    rewrite (mdotblock_Ok _ _ _ _ _ _ KR N (cI g)); auto; [|now apply in_range]. cbn [bind].
    destruct (adds_madd N (cO g) r0 c0 n (o * FO + row * MC + col)%nat
      (rsum KC (fun kc => at_ (tat W o i) kr kc * at_ x n (i * FI + row * inCols g + col + kr * inCols g + kc)%nat)) Hn Hout a2 Ha2)
      as (a3 & E3 & O3 & V3).
    exists a3. rewrite E3. cbn [bind]. split; [f_equal; f_equal; lia|]. auto. }
  rewrite E1. cbn [bind].
  match goal with |- context [if cbias g then ?m else Ok a1] => assert (Hb : exists a2, (if cbias g then m else Ok a1) = Ok a2 /\
    size_is a2 N (cO g) /\ at_ a2 r0 c0 = at_ a1 r0 c0 +
      (if cbias g then rsum MR (fun row => rsum MC (fun col =>
        if (Nat.eqb r0 n && Nat.eqb c0 (o * FO + row * MC + col))%bool then at_ Wb o i else 0)) else 0)) end.
  { destruct (cbias g) eqn:Eb.
    - apply (adds_scan (fun a => size_is a N (cO g)) (fun a => at_ a r0 c0)); auto.
      intros row col Hr Hc. destruct (HB eq_refl) as (B1 & B2). intros a2 Ha2.
      rewrite mget_Ok by lia. cbn [bind]. apply (adds_madd N (cO g)); auto. now apply out_range.
    - exists a1. split; auto. split; auto. ring. }
  destruct Hb as (a2 & E2 & O2 & V2). rewrite E2. cbn [bind]. exists a2. split; [f_equal; f_equal; simpl; lia|].
  split; auto. rewrite V2, V1. ring.
Qed.

Lemma conv_activate_ok W Wb x N :
  tsize W FN FM KR KC -> (cbias g = true -> size_is Wb FN FM) -> size_is x N (cI g) ->
  exists a, conv_activate g W Wb x (mzero N (cO g)) = Ok a /\ size_is a N (cO g) /\
    forall n o row col, (n < N)%nat -> (o < FN)%nat -> (row < MR)%nat -> (col < MC)%nat ->
      at_ a n (o * FO + row * MC + col)%nat =
      cpre g (fun o i kr kc => at_ (tat W o i) kr kc) (at_ Wb) (at_ x n) o row col.
Proof.
  intros HW HB Hx.
  destruct (conv_activate_adds W Wb x N 0 0 HW HB Hx (mzero N (cO g))) as (a & E & Sa & _); [split; auto|].
  exists a. split; auto. split; auto. intros n o row col Hn Ho Hr Hc.
  destruct (conv_activate_adds W Wb x N n (o * FO + row * MC + col)%nat HW HB Hx (mzero N (cO g))) as (a' & E' & _ & V); [split; auto|].
  assert (a' = a) by congruence. subst a'. rewrite V. simpl. rewrite Rplus_0_l.
  rewrite (rsum_single N n); auto.
  2:{ intros n' Hn' Hne. apply rsum_0. intros o' Ho'. apply rsum_0. intros i Hi.
      replace (Nat.eqb n n') with false by (symmetry; apply Nat.eqb_neq; auto). simpl.
      rewrite rsum_0 by (intros; apply rsum_0; intros; apply rsum_0; auto).
      destruct (cbias g); [rewrite rsum_0 by (intros; apply rsum_0; auto)|]; ring. }
  rewrite Nat.eqb_refl. simpl.
  rewrite (rsum_single FN o); auto.
  2:{ intros o' Ho' Hne. apply rsum_0. intros i Hi.
      assert (Z : forall row' col', (row' < MR)%nat -> (col' < MC)%nat ->
        Nat.eqb (o * FO + row * MC + col) (o' * FO + row' * MC + col') = false).
      { intros row' col' Hr' Hc'. apply Nat.eqb_neq. intros Eq. destruct (out_inj _ _ _ _ _ _ Hr Hc Hr' Hc' Eq); lia. }
      rewrite rsum_0.
      2:{ intros; apply rsum_0; intros; apply rsum_0; intros. rewrite Z; auto. }
      destruct (cbias g); [rewrite rsum_0|]; try ring. intros; apply rsum_0; intros. rewrite Z; auto. }
  unfold cpre. apply rsum_ext. intros i Hi.
  assert (Z : forall row' col', (row' < MR)%nat -> (col' < MC)%nat -> row' <> row \/ col' <> col ->
        Nat.eqb (o * FO + row * MC + col) (o * FO + row' * MC + col') = false).
  { intros row' col' Hr' Hc' Hne. apply Nat.eqb_neq. intros Eq. destruct (out_inj _ _ _ _ _ _ Hr Hc Hr' Hc' Eq); lia. }
  f_equal.
  - rewrite (rsum_single MR row); auto.
    2:{ intros row' Hr' Hne. apply rsum_0. intros; apply rsum_0; intros. rewrite Z; auto. }
    rewrite (rsum_single MC col); auto.
    2:{ intros col' Hc' Hne. apply rsum_0; intros. rewrite Z; auto. }
    rewrite Nat.eqb_refl. auto.
  - destruct (cbias g); auto. rewrite (rsum_single MR row); auto.
    2:{ intros row' Hr' Hne. apply rsum_0. intros. rewrite Z; auto. }
    rewrite (rsum_single MC col); auto.
    2:{ intros col' Hc' Hne. rewrite Z; auto. }
    rewrite Nat.eqb_refl. auto.
Qed.

Definition cregError (W : list (list mat)) : R :=
  rsum FN (fun o => rsum FM (fun i => regError (creg g) (tat W o i))).

Lemma conv_regError_ok W : tsize W FN FM KR KC -> conv_regError g W = Ok (cregError W).
Proof.
  intros HW. unfold conv_regError, cregError, regError.
  assert (G : forall (h : mat -> R) e0,
     for_ FN (fun o e => for_ FM (fun i e => m <- tget W o i ;; Ok (e + h m)) e) e0 =
     Ok (e0 + rsum FN (fun o => rsum FM (fun i => h (tat W o i))))).
  { intros h e0.
    destruct (adds_for (fun _ : R => True) (fun e => e) FN (fun o e => for_ FM (fun i e => m <- tget W o i ;; Ok (e + h m)) e)
       (fun o => rsum FM (fun i => h (tat W o i)))) with (s := e0) as (e1 & E1 & _ & V1); auto.
    - intros o Ho. apply adds_for. intros i Hi e _. destruct (tget_Ok _ _ _ _ _ o i HW Ho Hi) as (E & _).
      rewrite E. cbn [bind]. eauto.
    - rewrite E1, V1. auto. }
  destruct (Rltb 0 (l1Penalty (creg g))) eqn:E1.
  - rewrite G. cbn [bind]. destruct (Rltb 0 (l2Penalty (creg g))) eqn:E2.
    + rewrite (G (fun m => l2Penalty (creg g) * msum (mmap (fun w => w * w) m) / 2)).
      f_equal. rewrite Rplus_0_l, <- rsum_plus. apply rsum_ext. intros. now rewrite <- rsum_plus.
    + f_equal. rewrite Rplus_0_l. apply rsum_ext. intros. apply rsum_ext. intros. ring.
  - cbn [bind]. destruct (Rltb 0 (l2Penalty (creg g))) eqn:E2.
    + rewrite (G (fun m => l2Penalty (creg g) * msum (mmap (fun w => w * w) m) / 2)).
      f_equal. rewrite Rplus_0_l. apply rsum_ext. intros. apply rsum_ext. intros. ring.
    + f_equal. rewrite rsum_0; auto. intros. apply rsum_0. intros. ring.
Qed.

Lemma sizes : (fmin g * inRows g * inCols g)%nat = cI g /\ (fmout g * outRows g * outCols g)%nat = cO g.
Proof. destruct Hg as (G1 & G2 & G3 & G4 & _). unfold cI, cO. rewrite G1, G2, G3, G4. lia. Qed.

Notation pre q X n := (cpre g (fun o i kr kc => at_ (tat (cW q) o i) kr kc) (at_ (cWb q)) (at_ X n)).

Lemma conv_forward_ok q x dropout N : inv q -> size_is x N (cI g) ->
  exists q1 y, conv_forward junk q x dropout = Ok (q1, y, cregError (cW q)) /\ size_is y N (cO g) /\ inv q1 /\
    (forall n o row col, (n < N)%nat -> (o < FN)%nat -> (row < MR)%nat -> (col < MC)%nat ->
      at_ y n (o * FO + row * MC + col)%nat = act_fun (cact g) (pre q x n o row col)) /\
    cW q1 = cW q /\ cWb q1 = cWb q /\ cx q1 = x /\ rows (ca q1) = N /\ cy q1 = y.
Proof.
  intros (A1 & A2 & A3 & A4 & A5 & A6 & A7 & A8) Hx. pose proof Hx as (X1 & X2). destruct sizes as (Z1 & Z2).
  unfold conv_forward. rewrite A1, Z1, Z2, X2, A6, A5, !Nat.eqb_refl. cbn [check bind]. rewrite X1.
  destruct (conv_activate_ok (cW q) (cWb q) x N) as (a & Ea & Sa & Fa); auto; [intros Hb; now apply A4|].
  rewrite Ea. cbn [bind].
  destruct (activationFunction_Ok (cact g) a (mconsresize junk (cy q) N (cO g)) N (cO g)) as (y & Ey & Sy & Fy); auto.
  { split; auto. }
  rewrite Ey. cbn [bind]. rewrite conv_regError_ok by auto. cbn [bind].
  eexists. exists y. split; [reflexivity|]. split; auto. split; [|split].
  - unfold conv_inv. simpl. destruct Sa, Sy. auto 10.
  - intros. rewrite Fy, Fa; auto.
  - simpl. destruct Sa. auto 10.
Qed.

(** * Backward *)
Section Back.
Context (N : nat) (X' : nat -> nat -> R) (W' : nat -> nat -> nat -> nat -> R) (b' : nat -> nat -> R).

Notation bst := (mat * list (list mat) * mat)%type.
Definition bok (st : bst) : Prop :=
  let '(e, Wd, Wbd) := st in
  size_is e N (cI g) /\ tsize Wd FN FM KR KC /\ (cbias g = true -> size_is Wbd FN FM).
Definition bL (st : bst) : R :=
  let '(e, Wd, Wbd) := st in
  rsum N (fun n => rsum (cI g) (fun i => at_ e n i * X' n i)) +
  rsum FN (fun o => rsum FM (fun i => rsum KR (fun kr => rsum KC (fun kc => at_ (tat Wd o i) kr kc * W' o i kr kc)))) +
  (if cbias g then rsum FN (fun o => rsum FM (fun i => at_ Wbd o i * b' o i)) else 0).

Lemma bL_Wd e Wd Wbd Wd2 o i d : (o < FN)%nat -> (i < FM)%nat ->
  (forall o' i', (o' <> o \/ i' <> i) -> tat Wd2 o' i' = tat Wd o' i') ->
  rsum KR (fun kr => rsum KC (fun kc => at_ (tat Wd2 o i) kr kc * W' o i kr kc)) =
  rsum KR (fun kr => rsum KC (fun kc => at_ (tat Wd o i) kr kc * W' o i kr kc)) + d ->
  bL (e, Wd2, Wbd) = bL (e, Wd, Wbd) + d.
Proof.
  intros Ho Hi Ho' Hd. unfold bL.
  enough (E : rsum FN (fun o => rsum FM (fun i => rsum KR (fun kr => rsum KC (fun kc => at_ (tat Wd2 o i) kr kc * W' o i kr kc)))) =
    rsum FN (fun o => rsum FM (fun i => rsum KR (fun kr => rsum KC (fun kc => at_ (tat Wd o i) kr kc * W' o i kr kc)))) + d)
    by (rewrite E; ring).
  rewrite (rsum_change FN o _ (fun o => rsum FM (fun i => rsum KR (fun kr => rsum KC (fun kc => at_ (tat Wd o i) kr kc * W' o i kr kc))))); auto.
  2:{ intros o' Hlt Hne. apply rsum_ext. intros i' _. now rewrite Ho' by auto. }
  f_equal. rewrite (rsum_change FM i _ (fun i => rsum KR (fun kr => rsum KC (fun kc => at_ (tat Wd o i) kr kc * W' o i kr kc)))); auto.
  2:{ intros i' Hlt Hne. now rewrite Ho' by auto. }
  rewrite Hd. ring.
Qed.

Lemma conv_collect_adds W x deltas :
  tsize W FN FM KR KC -> size_is x N (cI g) -> size_is deltas N (cO g) ->
  adds bok bL (conv_collect g W x deltas N)
    (rsum N (fun n => rsum FN (fun o => rsum FM (fun i =>
      rsum MR (fun row => rsum MC (fun col => rsum KR (fun kr =>
         rsum KC (fun kc => at_ (tat W o i) kr kc * at_ deltas n (o * FO + row * MC + col)%nat *
            X' n (i * FI + row * inCols g + col + kr * inCols g + kc)%nat) +
         rsum KC (fun kc => at_ deltas n (o * FO + row * MC + col)%nat *
            at_ x n (i * FI + row * inCols g + col + kr * inCols g + kc)%nat * W' o i kr kc)))) +
      (if cbias g then rsum MR (fun row => rsum MC (fun col =>
         at_ deltas n (o * FO + row * MC + col)%nat * b' o i)) else 0))))).
Proof.
  intros HW Hx Hd. unfold conv_collect.
  apply adds_for. intros n Hn. apply adds_for. intros o Ho.
  apply (adds2_adds _ _ _ 0%nat (FM * FI)%nat).
  apply (adds2_for _ _ FM _ (fun i => i * FI)%nat); auto. intros i Hi st Hst.
  destruct (tget_Ok _ _ _ _ _ o i HW Ho Hi) as (ET & ST). rewrite ET. cbn [bind].
  match goal with |- context [scan MR MC ?f (o * FO)%nat st] => 
    destruct (adds_scan bok bL MR MC f (o * FO)%nat
      (fun row col => rsum KR (fun kr =>
         rsum KC (fun kc => at_ (tat W o i) kr kc * at_ deltas n (o * FO + row * MC + col)%nat *
            X' n (i * FI + row * inCols g + col + kr * inCols g + kc)%nat) +
         rsum KC (fun kc => at_ deltas n (o * FO + row * MC + col)%nat *
            at_ x n (i * FI + row * inCols g + col + kr * inCols g + kc)%nat * W' o i kr kc)))) with (s := st) as (st1 & E1 & O1 & V1); auto end.
  { intros row col Hr Hc st0 Hst0. pose proof (out_range o row col Ho Hr Hc) as Hout. pose proof Hd as (D1 & D2).
    destruct (Nat.ltb_spec (o * FO + row * MC + col) (cols deltas)) as [_|Hbad]; [|lia]. cbn [check bind].
    rewrite mget_Ok by lia. cbn [bind].
    match goal with |- context [for_ KR ?b _] =>
      apply (adds2_adds bok bL (for_ KR b)
        (i * FI + row * inCols g + col)%nat (i * FI + row * inCols g + col + KR * inCols g)%nat); auto end.
    apply (adds2_for bok bL KR _ (fun kr => i * FI + row * inCols g + col + kr * inCols g)%nat); try lia.
    intros kr Hk [[e Wd] Wbd] (O2 & O3 & O4). set (d := at_ deltas n (o * FO + row * MC + col)%nat).
    set (cb := (i * FI + row * inCols g + col + kr * inCols g)%nat).
    assert (Hcb : (cb + KC <= cI g)%nat) by (now apply in_range).
    rewrite (mrow_Ok _ _ _ KR) by auto. cbn [bind].
    destruct (maddblock_Ok e n cb KC (fun c0 => at_ (tat W o i) kr c0 * d) N (cI g) O2 Hn Hcb) as (e' & Ee & Se & Ve).
    rewrite Ee. cbn [bind].
    destruct (tget_Ok _ _ _ _ _ o i O3 Ho Hi) as (ED & SD). rewrite ED. cbn [bind].
    rewrite (mrowblock_Ok _ _ _ _ N (cI g)) by auto. cbn [bind].
    destruct (maddblock_Ok (tat Wd o i) kr 0 KC (fun c0 => d * at_ x n (cb + c0)%nat) KR KC SD Hk) as (m' & Em & Sm & Vm); [lia|].
    rewrite Em. cbn [bind].
    destruct (tset_Ok Wd FN FM KR KC o i m' O3 Ho Hi Sm) as (Wd2 & E2 & S2 & T1 & T2). rewrite E2. cbn [bind].
    exists (e', Wd2, Wbd). split; [f_equal; f_equal; unfold cb; lia|]. split; [simpl; auto|].
    rewrite (bL_Wd e' Wd Wbd Wd2 o i (rsum KC (fun kc => d * at_ x n (cb + kc)%nat * W' o i kr kc))); auto.
    - unfold bL. rewrite Ve. ring.
    - rewrite T1. rewrite (Vm (W' o i)). simpl. auto. }
  rewrite E1. cbn [bind].
  match goal with |- context [if cbias g then ?m else Ok st1] => assert (Hb : exists st2, (if cbias g then m else Ok st1) = Ok st2 /\
    bok st2 /\ bL st2 = bL st1 +
      (if cbias g then rsum MR (fun row => rsum MC (fun col =>
         at_ deltas n (o * FO + row * MC + col)%nat * b' o i)) else 0)) end.
  { destruct (cbias g) eqn:Eb.
    - apply (adds_scan bok bL); auto.
      intros row col Hr Hc [[e Wd] Wbd] (O2 & O3 & O4). rewrite Eb in O4. destruct (O4 eq_refl) as (B1 & B2).
      pose proof (out_range o row col Ho Hr Hc) as Hout. pose proof Hd as (D1 & D2).
      rewrite mget_Ok by lia. cbn [bind]. rewrite madd_Ok by lia. cbn [bind].
      eexists. split; [reflexivity|]. split; [simpl; rewrite Eb; repeat (split; auto)|].
      unfold bL. rewrite Eb. rewrite !Rplus_assoc. f_equal. f_equal.
      rewrite (rsum_change FN o _ (fun o => rsum FM (fun i => at_ Wbd o i * b' o i))); auto.
      2:{ intros o' Hlt Hne. apply rsum_ext. intros. now rewrite at_mupd_other by auto. }
      f_equal. rewrite (rsum_change FM i _ (fun i => at_ Wbd o i * b' o i)); auto.
      2:{ intros i' Hlt Hne. now rewrite at_mupd_other by auto. }
      rewrite at_mupd_same. ring.
    - exists st1. split; auto. split; auto. ring. }
  destruct Hb as (st2 & E2 & O2 & V2). rewrite E2. cbn [bind]. exists st2. split; [f_equal; f_equal; simpl; lia|].
  split; auto. rewrite V2, V1. ring.
Qed.
End Back.

(** derivative of the activations *)
Definition cA' (q : conv) (x : mat) (X' : nat -> nat -> R) (W' : nat -> nat -> nat -> nat -> R) (b' : nat -> nat -> R)
    (n o row col : nat) : R :=
  rsum FM (fun i =>
    rsum KR (fun kr => rsum KC (fun kc =>
      W' o i kr kc * at_ x n (i * FI + row * inCols g + col + kr * inCols g + kc)%nat +
      at_ (tat (cW q) o i) kr kc * X' n (i * FI + row * inCols g + col + kr * inCols g + kc)%nat)) +
    if cbias g then b' o i else 0).

Lemma conv_backward_ok q1 N y x ein bp : inv q1 -> cx q1 = x -> size_is x N (cI g) ->
  rows (ca q1) = N -> cy q1 = y -> size_is y N (cO g) -> size_is ein N (cO g) ->
  let d := fun n j => act_der (cact g) (at_ y n j) * at_ ein n j in
  exists q2 eout, conv_backward junk q1 ein bp = Ok (q2, eout) /\ inv q2 /\ size_is eout N (cI g) /\
    forall X' W' b',
      rsum N (fun n => rsum FN (fun o => rsum MR (fun row => rsum MC (fun col =>
        d n (o * FO + row * MC + col)%nat * cA' q1 x X' W' b' n o row col)))) +
      rsum FN (fun o => rsum FM (fun i => rsum KR (fun kr => rsum KC (fun kc =>
        regD (creg g) (at_ (tat (cW q1) o i) kr kc) * W' o i kr kc)))) =
      bL N X' W' b' (eout, cWd q2, cWbd q2).
Proof.
  intros (A1 & A2 & A3 & A4 & A5 & A6 & A7 & A8) Ex Sx Ra Ey Sy Se d.
  unfold conv_backward. rewrite A1, Ey, Ra, A7, A8, Ex.
  destruct (activationFunctionDerivative_Ok (cact g) y (mconsresize junk (cyd q1) N (cO g)) N (cO g)) as (yd & Eyd & Syd & Fyd); auto.
  { split; auto. }
  rewrite Eyd. cbn [bind]. rewrite (mmap2_Ok _ _ _ N (cO g)) by auto. cbn [bind].
  set (dm := mkMat N (cO g) (fun i j => at_ yd i j * at_ ein i j)).
  match goal with |- context [for_ FN ?b (cWd q1)] =>
    destruct (for_tensor (cWd q1) FN FM KR KC (fun o i Wd => m <- tget Wd o i ;; tset Wd o i (msetZero m)) (fun _ _ m => msetZero m) A3)
      as (Wd0 & E0 & S0 & V0) end.
  { intros o i W1 Ho Hi H1. destruct (tget_Ok _ _ _ _ _ o i H1 Ho Hi) as (E & (S1 & S2)). rewrite E. split; auto.
    split; simpl; auto. }
  rewrite E0. cbn [bind].
  assert (HB : forall X' W' b', exists st, conv_collect g (cW q1) x dm N (mzero N (cI g), Wd0, msetZero (cWbd q1)) = Ok st /\
    bok N st /\ bL N X' W' b' st = bL N X' W' b' (mzero N (cI g), Wd0, msetZero (cWbd q1)) +
    (rsum N (fun n => rsum FN (fun o => rsum FM (fun i =>
      rsum MR (fun row => rsum MC (fun col => rsum KR (fun kr =>
         rsum KC (fun kc => at_ (tat (cW q1) o i) kr kc * at_ dm n (o * FO + row * MC + col)%nat *
            X' n (i * FI + row * inCols g + col + kr * inCols g + kc)%nat) +
         rsum KC (fun kc => at_ dm n (o * FO + row * MC + col)%nat *
            at_ x n (i * FI + row * inCols g + col + kr * inCols g + kc)%nat * W' o i kr kc)))) +
      (if cbias g then rsum MR (fun row => rsum MC (fun col =>
         at_ dm n (o * FO + row * MC + col)%nat * b' o i)) else 0)))))).
  { intros X' W' b'. apply (conv_collect_adds N X' W' b' (cW q1) x dm); auto; [split; auto|].
    split; [split; auto|]. split; auto. intros Hb. destruct (A4 Hb) as (_ & (B1 & B2)). split; simpl; auto. }
  destruct (HB (fun _ _ => 0) (fun _ _ _ _ => 0) (fun _ _ => 0)) as ([[e Wd] Wbd] & Ec & (O1 & O2 & O3) & _).
  rewrite Ec. cbn [bind].
  match goal with |- context [if Rltb 0 (l1Penalty (creg g)) then ?m else Ok Wd] =>
    assert (H1 : exists Wd1, (if Rltb 0 (l1Penalty (creg g)) then m else Ok Wd) = Ok Wd1 /\ tsize Wd1 FN FM KR KC /\
      forall o i kr kc, (o < FN)%nat -> (i < FM)%nat -> at_ (tat Wd1 o i) kr kc = at_ (tat Wd o i) kr kc +
        (if Rltb 0 (l1Penalty (creg g)) then l1Penalty (creg g) * at_ (tat (cW q1) o i) kr kc / Rabs (at_ (tat (cW q1) o i) kr kc) else 0)) end.
  { destruct (Rltb 0 (l1Penalty (creg g))).
    - destruct (for_tensor Wd FN FM KR KC (fun o i Wd =>
        m <- tget Wd o i ;; w <- tget (cW q1) o i ;;
        m <- mmap2 (fun d w => d + l1Penalty (creg g) * w / Rabs w) m w ;; tset Wd o i m)
        (fun o i m => mkMat KR KC (fun kr kc => at_ m kr kc + l1Penalty (creg g) * at_ (tat (cW q1) o i) kr kc / Rabs (at_ (tat (cW q1) o i) kr kc))) O2)
        as (Wd1 & E1 & S1 & V1).
      + intros o i W1 Ho Hi HW1. destruct (tget_Ok _ _ _ _ _ o i HW1 Ho Hi) as (E & S1).
        destruct (tget_Ok _ _ _ _ _ o i A2 Ho Hi) as (E' & S1'). rewrite E, E'. cbn [bind].
        rewrite (mmap2_Ok _ _ _ KR KC) by auto. split; auto. split; auto.
      + exists Wd1. split; [exact E1|]. split; auto. intros o i kr kc Ho Hi. rewrite V1 by auto. auto.
    - exists Wd. split; auto. split; auto. intros. ring. }
  destruct H1 as (Wd1 & E1 & S1 & V1). rewrite E1. cbn [bind].
  match goal with |- context [if Rltb 0 (l2Penalty (creg g)) then ?m else Ok Wd1] =>
    assert (H1 : exists Wd2, (if Rltb 0 (l2Penalty (creg g)) then m else Ok Wd1) = Ok Wd2 /\ tsize Wd2 FN FM KR KC /\
      forall o i kr kc, (o < FN)%nat -> (i < FM)%nat -> at_ (tat Wd2 o i) kr kc = at_ (tat Wd1 o i) kr kc +
        (if Rltb 0 (l2Penalty (creg g)) then l2Penalty (creg g) * at_ (tat (cW q1) o i) kr kc else 0)) end.
  { destruct (Rltb 0 (l2Penalty (creg g))).
    - destruct (for_tensor Wd1 FN FM KR KC (fun o i Wd =>
        m <- tget Wd o i ;; w <- tget (cW q1) o i ;;
        m <- mmap2 (fun d w => d + l2Penalty (creg g) * w) m w ;; tset Wd o i m)
        (fun o i m => mkMat KR KC (fun kr kc => at_ m kr kc + l2Penalty (creg g) * at_ (tat (cW q1) o i) kr kc)) S1)
        as (Wd2 & E2 & S2 & V2).
      + intros o i W1 Ho Hi HW1. destruct (tget_Ok _ _ _ _ _ o i HW1 Ho Hi) as (E & S2).
        destruct (tget_Ok _ _ _ _ _ o i A2 Ho Hi) as (E' & S1'). rewrite E, E'. cbn [bind].
        rewrite (mmap2_Ok _ _ _ KR KC) by auto. split; auto. split; auto.
      + exists Wd2. split; [exact E2|]. split; auto. intros o i kr kc Ho Hi. rewrite V2 by auto. auto.
    - exists Wd1. split; auto. split; auto. intros. ring. }
  destruct H1 as (Wd2 & E2 & S2 & V2). rewrite E2. cbn [bind].
  eexists. exists e. split; [reflexivity|]. split; [|split; auto].
  { unfold conv_inv. simpl. destruct Syd, Sy, O1. split; auto; split; auto; split; auto; split; [intros Hb; split; [now apply A4|auto]|repeat (split; try congruence)]. }
  intros X' W' b'. cbn [cWd cWbd].
  destruct (HB X' W' b') as (st & Ec' & _ & VL). rewrite Ec in Ec'. injection Ec' as <-.
  assert (EL : bL N X' W' b' (e, Wd2, Wbd) = bL N X' W' b' (e, Wd, Wbd) +
      rsum FN (fun o => rsum FM (fun i => rsum KR (fun kr => rsum KC (fun kc =>
        regD (creg g) (at_ (tat (cW q1) o i) kr kc) * W' o i kr kc))))).
  { unfold bL. enough (E : rsum FN (fun o => rsum FM (fun i => rsum KR (fun kr => rsum KC (fun kc => at_ (tat Wd2 o i) kr kc * W' o i kr kc)))) =
      rsum FN (fun o => rsum FM (fun i => rsum KR (fun kr => rsum KC (fun kc => at_ (tat Wd o i) kr kc * W' o i kr kc)))) +
      rsum FN (fun o => rsum FM (fun i => rsum KR (fun kr => rsum KC (fun kc =>
        regD (creg g) (at_ (tat (cW q1) o i) kr kc) * W' o i kr kc))))) by (rewrite E; ring).
    rewrite <- rsum_plus. apply rsum_ext. intros o Ho. rewrite <- rsum_plus. apply rsum_ext. intros i Hi.
    rewrite <- rsum_plus. apply rsum_ext. intros kr Hr. rewrite <- rsum_plus. apply rsum_ext. intros kc Hc.
    rewrite V2, V1 by auto. unfold regD. ring. }
  rewrite EL, VL.
  replace (bL N X' W' b' (mzero N (cI g), Wd0, msetZero (cWbd q1))) with 0.
  2:{ unfold bL. rewrite (rsum_0 N). 2:{ intros. apply rsum_0. intros. simpl. ring. }
      rewrite (rsum_0 FN). 2:{ intros o Ho. apply rsum_0. intros i Hi. apply rsum_0. intros. apply rsum_0. intros.
        rewrite V0 by auto. simpl. ring. }
      destruct (cbias g); [|ring]. rewrite (rsum_0 FN); [ring|]. intros. apply rsum_0. intros. simpl. ring. }
  rewrite Rplus_0_l. f_equal. apply rsum_ext. intros n Hn. apply rsum_ext. intros o Ho.
  (* move the sum over input maps outside *)
  unfold cA'. symmetry.
  rewrite (rsum_ext MR (fun row => rsum MC (fun col => d n (o * FO + row * MC + col)%nat * rsum FM _))
    (fun row => rsum FM (fun i => rsum MC (fun col => d n (o * FO + row * MC + col)%nat *
      (rsum KR (fun kr => rsum KC (fun kc =>
        W' o i kr kc * at_ x n (i * FI + row * inCols g + col + kr * inCols g + kc)%nat +
        at_ (tat (cW q1) o i) kr kc * X' n (i * FI + row * inCols g + col + kr * inCols g + kc)%nat)) +
       if cbias g then b' o i else 0))))).
  2:{ intros row Hr. rewrite rsum_swap. apply rsum_ext. intros col Hc. now rewrite rsum_scal. }
  rewrite (rsum_swap MR FM). apply rsum_ext. intros i Hi.
  assert (Ed : forall j, at_ dm n j = d n j) by (intros; simpl; rewrite Fyd; auto).
  destruct (cbias g).
  - rewrite <- rsum_plus. apply rsum_ext. intros row Hr. rewrite <- rsum_plus. apply rsum_ext. intros col Hc.
    rewrite !Ed. rewrite Rmult_plus_distr_l. f_equal.
    rewrite <- rsum_scal. apply rsum_ext. intros kr Hk. rewrite <- rsum_scal, <- rsum_plus. apply rsum_ext. intros. ring.
  - rewrite Rplus_0_r. apply rsum_ext. intros row Hr. apply rsum_ext. intros col Hc.
    rewrite !Ed. rewrite Rplus_0_r.
    rewrite <- rsum_scal. apply rsum_ext. intros kr Hk. rewrite <- rsum_scal, <- rsum_plus. apply rsum_ext. intros. ring.
Qed.

Definition conv_smooth (q : conv) (X : mat) : Prop :=
  (forall n o row col, (n < rows X)%nat -> (o < FN)%nat -> (row < MR)%nat -> (col < MC)%nat ->
     act_smooth (cact g) (pre q X n o row col)) /\
  (0 < l1Penalty (creg g) -> forall o i kr kc, (o < FN)%nat -> (i < FM)%nat -> (kr < KR)%nat -> (kc < KC)%nat ->
     at_ (tat (cW q) o i) kr kc <> 0).

Lemma rsum_out (f : nat -> R) : rsum (cO g) f =
  rsum FN (fun o => rsum MR (fun row => rsum MC (fun col => f (o * FO + row * MC + col)%nat))).
Proof.
  destruct Hg as (_ & _ & _ & G4 & _). unfold cO. rewrite rsum_block. apply rsum_ext. intros o Ho.
  rewrite G4, rsum_block. apply rsum_ext. intros row Hr. apply rsum_ext. intros col Hc. f_equal. lia.
Qed.

Lemma rsum_params (f : nat -> R) : rsum K f =
  rsum FN (fun o => rsum FM (fun i => rsum KR (fun kr => rsum KC (fun kc => f (o * F + (i * B + (kr * KC + kc)))%nat)) +
    if cbias g then f (o * F + (i * B + KR * KC))%nat else 0)).
Proof.
  rewrite rsum_block. apply rsum_ext. intros o Ho. unfold cF at 1. rewrite rsum_block. apply rsum_ext. intros i Hi.
  unfold cB at 1. rewrite rsum_app, rsum_block. f_equal. unfold nb. destruct (cbias g); simpl; [|auto].
  rewrite Nat.add_0_r. ring.
Qed.

Lemma conv_contract : contract c (cI g) (cO g) K inv conv_smooth.
Proof.
  constructor.
  - intros s Hs. rewrite <- (clocs_length CW CWb). now apply (layout_count c inv locs conv_layout_init).
  - intros s k Hs Hk. rewrite <- (clocs_length CW CWb) in Hk.
    apply (layout_read c inv locs conv_layout_init); auto. apply conv_load_ok.
  - apply conv_write.
  - intros s Hs. exists s. auto.
  - apply (gradient_intro c (cI g) (cO g) K inv conv_smooth
      (fun s dropout N p X q q1 Y r =>
         inv q /\
         (forall o i kr kc, (o < FN)%nat -> (i < FM)%nat -> (kr < KR)%nat -> (kc < KC)%nat ->
           at_ (tat (cW q) o i) kr kc = p.[o * F + (i * B + (kr * KC + kc))]) /\
         (cbias g = true -> forall o i, (o < FN)%nat -> (i < FM)%nat -> at_ (cWb q) o i = p.[o * F + (i * B + KR * KC)]) /\
         (forall n o row col, (n < N)%nat -> (o < FN)%nat -> (row < MR)%nat -> (col < MC)%nat ->
           at_ Y n (o * FO + row * MC + col)%nat = act_fun (cact g) (pre q X n o row col)) /\
         cW q1 = cW q /\ cWb q1 = cWb q /\ cx q1 = X /\ rows (ca q1) = N /\ cy q1 = Y /\
         r = cregError (cW q))).
    + intros s dropout N p X Hs Hp HX.
      destruct (conv_install s p Hs Hp) as (q & E & Hq & R1 & R2).
      destruct (conv_forward_ok q X dropout N Hq HX) as (q1 & y & Ef & Sy & Hq1 & F1 & F2 & F3 & F4 & F5 & F6).
      exists q, q1, y, (cregError (cW q)). auto 20.
    + intros s dropout N t0 p p' X X' q q1 Y r Hs Hp HX Dp DX (Sm1 & Sm2) SY Hq1 HP.
      set (W' := fun o i kr kc => p' (o * F + (i * B + (kr * KC + kc)))%nat).
      set (b' := fun o i => p' (o * F + (i * B + KR * KC))%nat).
      assert (DW : forall o i kr kc, (o < FN)%nat -> (i < FM)%nat -> (kr < KR)%nat -> (kc < KC)%nat ->
        D (fun t => at_ (tat (cW (q t)) o i) kr kc) t0 (W' o i kr kc)).
      { intros o i kr kc Ho Hi Hr Hc. apply (D_ext (fun t => (p t).[o * F + (i * B + (kr * KC + kc))])).
        - intros t. destruct (HP t) as (_ & R1 & _). symmetry. now apply R1.
        - apply Dp. apply join_index; auto. apply join_index; auto. unfold cB. pose proof (join_index KC kr kc KR Hr Hc). lia. }
      assert (Db : cbias g = true -> forall o i, (o < FN)%nat -> (i < FM)%nat -> D (fun t => at_ (cWb (q t)) o i) t0 (b' o i)).
      { intros Hb o i Ho Hi. apply (D_ext (fun t => (p t).[o * F + (i * B + KR * KC)])).
        - intros t. destruct (HP t) as (_ & _ & R2 & _). symmetry. now apply R2.
        - apply Dp. apply join_index; auto. apply join_index; auto. unfold cB, nb. rewrite Hb. lia. }
      set (Y' := fun n j => act_der (cact g) (at_ (Y t0) n j) *
         cA' (q t0) (X t0) X' W' b' n (j / FO) ((j mod FO) / MC) ((j mod FO) mod MC)).
      assert (HY' : forall n o row col, (row < MR)%nat -> (col < MC)%nat ->
        Y' n (o * FO + row * MC + col)%nat = act_der (cact g) (at_ (Y t0) n (o * FO + row * MC + col)%nat) *
          cA' (q t0) (X t0) X' W' b' n o row col).
      { intros n o row col Hr Hc. unfold Y'. pose proof (join_index MC row col MR Hr Hc) as Hj.
        destruct Hg as (_ & _ & _ & G4 & _). rewrite <- G4 in Hj.
        replace (o * FO + row * MC + col)%nat with (o * FO + (row * MC + col))%nat by lia.
        rewrite Nat.div_add_l by lia. rewrite (Nat.div_small _ _ Hj), Nat.add_0_r.
        rewrite (Nat.add_comm (o * FO)), Nat.mod_add by lia. rewrite (Nat.mod_small _ _ Hj).
        rewrite Nat.div_add_l by lia. rewrite (Nat.div_small _ _ Hc), Nat.add_0_r.
        rewrite (Nat.add_comm (row * MC)), Nat.mod_add by lia. now rewrite (Nat.mod_small _ _ Hc). }
      exists Y', (rsum FN (fun o => rsum FM (fun i => rsum KR (fun kr => rsum KC (fun kc =>
        regD (creg g) (at_ (tat (cW (q t0)) o i) kr kc) * W' o i kr kc))))).
      split; [|split].
      * intros n j Hn Hj. destruct (out_split j Hj) as (o & row & col & Ho & Hr & Hc & ->).
        rewrite HY' by auto. destruct (HP t0) as (_ & _ & _ & Fv & _). rewrite Fv by auto.
        apply (D_ext (fun t => act_fun (cact g) (pre (q t) (X t) n o row col))).
        { intros t. destruct (HP t) as (_ & _ & _ & F' & _). symmetry. now rewrite F'. }
        apply (D_comp (fun t => pre (q t) (X t) n o row col) (act_fun (cact g))).
        2:{ apply act_derivative. apply Sm1; auto. destruct (HX t0). lia. }
        unfold cpre, cA'. apply (D_sum FM (fun i t => rsum KR (fun kr => rsum KC (fun kc =>
          at_ (tat (cW (q t)) o i) kr kc * at_ (X t) n (i * FI + row * inCols g + col + kr * inCols g + kc)%nat)) +
          if cbias g then at_ (cWb (q t)) o i else 0)). intros i Hi.
        apply (D_plus (fun t => rsum KR (fun kr => rsum KC (fun kc =>
          at_ (tat (cW (q t)) o i) kr kc * at_ (X t) n (i * FI + row * inCols g + col + kr * inCols g + kc)%nat)))
          (fun t => if cbias g then at_ (cWb (q t)) o i else 0)).
        { apply (D_sum KR (fun kr t => rsum KC (fun kc =>
          at_ (tat (cW (q t)) o i) kr kc * at_ (X t) n (i * FI + row * inCols g + col + kr * inCols g + kc)%nat))). intros kr Hk.
          apply (D_sum KC (fun kc t => 
          at_ (tat (cW (q t)) o i) kr kc * at_ (X t) n (i * FI + row * inCols g + col + kr * inCols g + kc)%nat)). intros kc Hkc.
          apply (D_mult (fun t => at_ (tat (cW (q t)) o i) kr kc)
            (fun t => at_ (X t) n (i * FI + row * inCols g + col + kr * inCols g + kc)%nat)); auto.
          apply DX; auto. pose proof (in_range i row col kr Hi Hr Hc Hk). lia. }
        { destruct (cbias g) eqn:Eb; [auto|apply D_const]. }
      * apply (D_ext (fun t => cregError (cW (q t)))).
        { intros t. destruct (HP t) as (_ & _ & _ & _ & _ & _ & _ & _ & _ & ->). auto. }
        unfold cregError. apply (D_sum FN (fun o t => rsum FM (fun i => regError (creg g) (tat (cW (q t)) o i)))). intros o Ho.
        apply (D_sum FM (fun i t => regError (creg g) (tat (cW (q t)) o i))). intros i Hi.
        apply D_regError; auto.
        { intros t. destruct (HP t) as ((_ & SW & _) & _). now apply SW. }
      * intros ein bp Hein. destruct (HP t0) as (Hq & _ & _ & Fv & E1 & E2 & E3 & E4 & E5 & _).
        destruct (conv_backward_ok (q1 t0) N (Y t0) (X t0) ein bp) as (q2 & eout & Eb & Hq2 & Se & Key); auto.
        cbv zeta in Key. specialize (Key X' W' b').
        set (gr := fun k => outOf (readDeriv c q2 k) 0).
        assert (G1 : forall o i kr kc, (o < FN)%nat -> (i < FM)%nat -> (kr < KR)%nat -> (kc < KC)%nat ->
          gr (o * F + (i * B + (kr * KC + kc)))%nat = at_ (tat (cWd q2) o i) kr kc).
        { intros. unfold gr. now rewrite conv_readDeriv_w by auto. }
        assert (G2 : cbias g = true -> forall o i, (o < FN)%nat -> (i < FM)%nat ->
          gr (o * F + (i * B + KR * KC))%nat = at_ (cWbd q2) o i).
        { intros. unfold gr. now rewrite conv_readDeriv_b by auto. }
        exists q2, eout, gr. split; auto. split; auto. split.
        { intros k Hk. destruct (cindex k Hk) as (o & i & Ho & Hi & [(kr & kc & Hr & Hc & ->)|(Hb & ->)]).
          - rewrite G1 by auto. now apply conv_readDeriv_w.
          - rewrite G2 by auto. now apply conv_readDeriv_b. }
        assert (Key2 : inner N (cO g) (at_ ein) Y' +
          rsum FN (fun o => rsum FM (fun i => rsum KR (fun kr => rsum KC (fun kc =>
            regD (creg g) (at_ (tat (cW (q t0)) o i) kr kc) * W' o i kr kc)))) =
          rsum K (fun k => gr k * p' k) + inner N (cI g) (at_ eout) X').
        { rewrite E1 in Key. unfold inner. rewrite (Rplus_comm (rsum K _)).
          rewrite (rsum_ext N (fun n => rsum (cO g) (fun j => at_ ein n j * Y' n j))
            (fun n => rsum FN (fun o => rsum MR (fun row => rsum MC (fun col =>
              act_der (cact g) (at_ (Y t0) n (o * FO + row * MC + col)%nat) * at_ ein n (o * FO + row * MC + col)%nat *
              cA' (q1 t0) (X t0) X' W' b' n o row col))))).
          2:{ intros n Hn. rewrite rsum_out. apply rsum_ext. intros o Ho. apply rsum_ext. intros row Hr.
              apply rsum_ext. intros col Hc. rewrite HY' by auto. unfold cA'. rewrite E1. ring. }
          rewrite Key. unfold bL. rewrite Rplus_assoc. f_equal. rewrite rsum_params.
          destruct (cbias g) eqn:Ebias.
          - rewrite <- rsum_plus. apply rsum_ext. intros o Ho. rewrite <- rsum_plus. apply rsum_ext. intros i Hi.
            f_equal; [|rewrite G2 by auto; auto].
            apply rsum_ext. intros kr Hr. apply rsum_ext. intros kc Hc. rewrite G1 by auto. auto.
          - rewrite Rplus_0_r. apply rsum_ext. intros o Ho. apply rsum_ext. intros i Hi. rewrite Rplus_0_r.
            apply rsum_ext. intros kr Hr. apply rsum_ext. intros kc Hc. rewrite G1 by auto. auto. }
        split; [intros _; auto|].
        intros _ HX'. rewrite Key2. unfold inner. rewrite (rsum_0 N); [ring|]. intros n Hn. apply rsum_0.
        intros i Hi. rewrite HX' by auto. ring.
Qed.
End CP.
