(** Proofs about deterministic resampling. *)
From Verif Require Import BaseFacts Weighted_Model.
Local Open Scope R_scope.

(** sum of the first [i] weights *)
Definition cum (w : list R) (i : nat) : R := fold_right Rplus 0 (firstn i w).

Lemma fold_right_Rplus_app l1 l2 :
  fold_right Rplus 0 (l1 ++ l2) = fold_right Rplus 0 l1 + fold_right Rplus 0 l2.
Proof. induction l1 as [|x l1 IH]; simpl; [lra|rewrite IH; lra]. Qed.

Lemma cum_S w i x : nth_error w i = Some x -> cum w (S i) = cum w i + x.
Proof.
  intros H. unfold cum. rewrite <- Nat.add_1_r, firstn_skipn_add, fold_right_Rplus_app. f_equal.
  apply nth_error_split in H. destruct H as (l1 & l2 & -> & <-).
  rewrite skipn_app, skipn_all2, Nat.sub_diag by lia. simpl. lra.
Qed.

Lemma cum_mono w : Forall (fun x => 0 <= x) w -> forall i j, (i <= j)%nat -> cum w i <= cum w j.
Proof.
  intros F i j L. induction L as [|j L IH]; [lra|].
  destruct (nth_error w j) as [x|] eqn:E.
  - rewrite (cum_S _ _ _ E). rewrite Forall_forall in F.
    pose proof (F x (nth_error_In _ _ E)). lra.
  - apply nth_error_None in E. unfold cum in *. rewrite (firstn_all2 (n := S j)) by lia.
    rewrite (firstn_all2 (n := j)) in IH by lia. auto.
Qed.

(** the search loop, for a positive [p]: it returns the first prefix whose sum
    reaches [p], or the whole list *)
Lemma while_search w N p : (length w = N)%nat ->
  forall f k, (k <= N)%nat -> (N - k <= f)%nat -> (forall j, (j < k)%nat -> cum w j < p) ->
  exists idx, while_ f
    (fun s : R * nat => (Rltb (fst s) p && Nat.ltb (snd s) N)%bool)
    (fun s : R * nat => x <- vget w (snd s) ;; Ok (fst s + x, S (snd s)))
    (cum w k, k) = Ok (cum w idx, idx) /\
    (k <= idx <= N)%nat /\ (forall j, (j < idx)%nat -> cum w j < p) /\
    (p <= cum w idx \/ idx = N).
Proof.
  intros L f. induction f as [|f IH]; intros k Hk Hf Hj; cbn [while_ fst snd].
  - assert (E : (k <? N) = false) by (apply Nat.ltb_ge; lia). rewrite E, andb_false_r.
    exists k. split; auto. split; [lia|]. split; auto. right. lia.
  - destruct (Rltb (cum w k) p && (k <? N))%bool eqn:E.
    + apply andb_prop in E. destruct E as [E1 E2]. apply Rltb_true in E1. apply Nat.ltb_lt in E2.
      destruct (vget_Ok w k) as (x & Ex & Nx); [lia|]. rewrite Ex. cbn [bind].
      rewrite <- (cum_S _ _ _ Nx).
      destruct (IH (S k)) as (idx & A & B & C & D); try lia.
      * intros j Hj'. destruct (Nat.eq_dec j k) as [->|]; auto. apply Hj. lia.
      * exists idx. split; auto. split; [lia|]. auto.
    + exists k. split; auto. split; [lia|]. split; auto.
      apply andb_false_iff in E. destruct E as [E|E].
      * apply Rltb_false in E. auto.
      * apply Nat.ltb_ge in E. right. lia.
Qed.

Lemma cum_0 w : cum w 0 = 0.
Proof. reflexivity. Qed.

Lemma search_spec w N p : length w = N ->
  exists idx, searchLoop w N p = Ok (cum w idx, idx) /\ (idx <= N)%nat /\
    (forall j, (j < idx)%nat -> cum w j < p) /\ (p <= cum w idx \/ idx = N).
Proof.
  intros L. unfold searchLoop.
  destruct (while_search w N p L N 0) as (idx & A & B & C & D); try lia.
  exists idx. rewrite cum_0 in A. split; [exact A|]. split; [lia|]. auto.
Qed.

Lemma search_pos w N p : length w = N -> (0 < N)%nat -> 0 < p ->
  exists idx, searchLoop w N p = Ok (cum w (S idx), S idx) /\ (idx < N)%nat /\
    cum w idx < p /\ (p <= cum w (S idx) \/ S idx = N).
Proof.
  intros L HN Hp. destruct (search_spec w N p L) as (idx & A & B & C & D).
  destruct idx as [|idx].
  - destruct D as [D|D]; [rewrite cum_0 in D; lra|lia].
  - exists idx. repeat split; auto.
Qed.

(** the outer loop, for any function giving the position [sel n] found for [n] *)
Lemma resample_map w N (det : bool) rnd (sel : nat -> nat) :
  (forall n, (n < N)%nat -> exists s,
     searchLoop w N (if det then INR (n + 1) / INR N else rnd n) = Ok (s, S (sel n))) ->
  resample w N det rnd = Ok (map (fun n => Z.of_nat (sel n)) (seq 0 N)).
Proof.
  intros H. unfold resample.
  match goal with |- for_ _ ?b _ = _ =>
    destruct (for_inv (fun i l => l = map (fun n => Z.of_nat (sel n)) (seq 0 i) ++ repeat 0%Z (N - i))
                b N (repeat 0%Z N)) as (s & E & HE)
  end.
  - simpl. now rewrite Nat.sub_0_r.
  - intros i s Hi ->. destruct (H i Hi) as (x & Ex). cbv zeta. rewrite Ex. cbn [bind].
    replace (Z.of_nat (S (sel i)) - 1)%Z with (Z.of_nat (sel i)) by lia.
    rewrite vset_Ok by (rewrite app_length, map_length, seq_length, repeat_length; lia).
    eexists; split; [reflexivity|].
    rewrite seq_S, map_app, <- app_assoc. simpl.
    replace (N - i)%nat with (S (N - S i)) by lia. simpl.
    assert (G : forall (A : Type) (l1 : list A) x y l2 k, length l1 = k ->
              upd (l1 ++ x :: l2) k y = l1 ++ y :: l2).
    { clear. induction l1 as [|a l1 IH]; intros x y l2 k <-; simpl; auto. now rewrite IH. }
    rewrite G by (now rewrite map_length, seq_length). reflexivity.
  - rewrite E, HE, Nat.sub_diag. simpl. now rewrite app_nil_r.
Qed.

Lemma sel_exists (P : nat -> nat -> Prop) N :
  (forall n, (n < N)%nat -> exists i, P n i) -> exists sel, forall n, (n < N)%nat -> P n (sel n).
Proof.
  induction N as [|N IH]; intros H.
  - exists (fun _ => 0%nat). intros; lia.
  - destruct IH as [sel Hs]; [intros; apply H; lia|].
    destruct (H N) as [i Hi]; [lia|].
    exists (fun n => if Nat.eqb n N then i else sel n). intros n Hn.
    destruct (Nat.eqb_spec n N) as [->|]; auto. apply Hs. lia.
Qed.

Lemma detp_pos N n : (n < N)%nat -> 0 < INR (n + 1) / INR N <= 1.
Proof.
  intros H. assert (0 < INR N) by (apply lt_0_INR; lia).
  assert (0 < INR (n + 1)) by (apply lt_0_INR; lia).
  assert (INR (n + 1) <= INR N) by (apply le_INR; lia).
  split; [now apply Rdiv_lt_0_compat|].
  apply Rmult_le_reg_r with (INR N); auto. unfold Rdiv.
  rewrite Rmult_assoc, Rinv_l by lra. lra.
Qed.

(** any positive thresholds give valid indices *)
Lemma resample_safe w N (det : bool) rnd :
  length w = N -> (det = true \/ forall n, (n < N)%nat -> 0 < rnd n) ->
  exists inds, resample w N det rnd = Ok inds /\ length inds = N /\
    forall n, (n < N)%nat -> exists i, instanceOf inds N n = Ok i.
Proof.
  intros L Hp.
  destruct (sel_exists (fun n i => (i < N)%nat /\ exists s,
     searchLoop w N (if det then INR (n + 1) / INR N else rnd n) = Ok (s, S i)) N) as [sel Hs].
  - intros n Hn.
    destruct (search_pos w N (if det then INR (n + 1) / INR N else rnd n) L) as (i & E & Hi & _).
    + lia.
    + destruct det; [now apply detp_pos|]. destruct Hp as [Hp|Hp]; [discriminate|auto].
    + exists i. eauto.
  - eexists. split; [apply (resample_map w N det rnd sel); intros; now apply Hs|].
    split; [now rewrite map_length, seq_length|].
    intros n Hn. exists (sel n). unfold instanceOf.
    unfold vget. rewrite nth_error_map, nth_error_nth' with (d := 0%nat) by now rewrite seq_length.
    rewrite seq_nth by auto. simpl.
    rewrite zidx_Ok by lia. simpl. rewrite Nat2Z.id.
    destruct (Hs n Hn) as [Hi _]. apply Nat.ltb_lt in Hi. now rewrite Hi.
Qed.

(** counting *)
Lemma count_interval (fa fb : nat) (sel : nat -> nat) i : (fa <= fb)%nat -> forall k,
  (forall n, (n < k)%nat -> sel n = i <-> (fa < n + 1 <= fb)%nat) ->
  count_occ Z.eq_dec (map (fun n => Z.of_nat (sel n)) (seq 0 k)) (Z.of_nat i)
  = (Nat.min k fb - Nat.min k fa)%nat.
Proof.
  intros Hab. induction k as [|k IH]; intros H; [reflexivity|].
  rewrite seq_S, map_app, count_occ_app, IH by (intros; apply H; lia). cbn [map count_occ Nat.add].
  specialize (H k ltac:(lia)).
  destruct (Z.eq_dec (Z.of_nat (sel k)) (Z.of_nat i)) as [E|E].
  - apply Nat2Z.inj in E. apply H in E. lia.
  - assert (~ (fa < k + 1 <= fb)%nat) by (intro; apply E; f_equal; now apply H). lia.
Qed.

Lemma resample_frequency w :
  let N := length w in
  Forall (fun x => 0 <= x) w -> fold_right Rplus 0 w = 1 ->
  forall rnd, exists inds, resample w N true rnd = Ok inds /\ length inds = N /\
    (forall n, (n < N)%nat -> exists i x, instanceOf inds N n = Ok i /\ nth_error w i = Some x /\ 0 < x) /\
    (forall i x, nth_error w i = Some x ->
       Rabs (INR (count_occ Z.eq_dec inds (Z.of_nat i)) - INR N * x) < 1).
Proof.
  intros N F Hsum rnd.
  assert (HcN : cum w N = 1) by (unfold cum, N; now rewrite firstn_all).
  set (P := fun n i => (i < N)%nat /\ cum w i < INR (n + 1) / INR N <= cum w (S i) /\
                exists s, searchLoop w N (INR (n + 1) / INR N) = Ok (s, S i)).
  destruct (sel_exists P N) as [sel Hs].
  - intros n Hn. destruct (detp_pos N n Hn) as [P0 P1].
    destruct (search_pos w N (INR (n + 1) / INR N) eq_refl) as (i & E & Hi & Hl & Hr); auto; [lia|].
    exists i. unfold P. repeat split; auto.
    + destruct Hr as [Hr|Hr]; auto. rewrite Hr. lra.
    + eauto.
  - exists (map (fun n => Z.of_nat (sel n)) (seq 0 N)). split; [|split; [|split]].
    + apply (resample_map w N true rnd sel). intros n Hn. apply (Hs n Hn).
    + now rewrite map_length, seq_length.
    + intros n Hn. destruct (Hs n Hn) as (Hi & Hc & _).
      destruct (nth_error w (sel n)) as [x|] eqn:Ex.
      2: { apply nth_error_None in Ex. unfold N in Hi. lia. }
      exists (sel n), x. split; [|split; auto].
      * unfold instanceOf. unfold vget.
        rewrite nth_error_map, nth_error_nth' with (d := 0%nat) by now rewrite seq_length.
        rewrite seq_nth by auto. simpl.
        rewrite zidx_Ok by lia. simpl. rewrite Nat2Z.id. apply Nat.ltb_lt in Hi. now rewrite Hi.
      * rewrite (cum_S _ _ _ Ex) in Hc. lra.
    + intros i x Hx.
      assert (Li : (i < N)%nat) by (apply nth_error_Some; congruence).
      assert (PN : 0 < INR N) by (apply lt_0_INR; lia).
      set (a := INR N * cum w i). set (b := INR N * cum w (S i)).
      assert (Ca : 0 <= cum w i) by (rewrite <- (cum_0 w); apply cum_mono; auto; lia).
      assert (Cab : cum w i <= cum w (S i)) by (apply cum_mono; auto).
      assert (Cb : cum w (S i) <= 1) by (rewrite <- HcN; apply cum_mono; auto).
      assert (Ha : 0 <= a) by (unfold a; nra).
      assert (Hab : a <= b) by (unfold a, b; nra).
      assert (HbN : b <= INR N) by (unfold b; nra).
      pose proof (Zfloor_bound a) as Ba. pose proof (Zfloor_bound b) as Bb.
      assert (Fa0 : (0 <= Zfloor a)%Z).
      { assert (-1 < IZR (Zfloor a)) by lra. apply lt_IZR in H. lia. }
      assert (Fab : (Zfloor a <= Zfloor b)%Z).
      { assert (IZR (Zfloor a) < IZR (Zfloor b) + 1) by lra.
        rewrite <- plus_IZR in H. apply lt_IZR in H. lia. }
      assert (FbN : (Zfloor b <= Z.of_nat N)%Z).
      { apply le_IZR. rewrite <- INR_IZR_INZ. lra. }
      set (fa := Z.to_nat (Zfloor a)). set (fb := Z.to_nat (Zfloor b)).
      assert (Eca : IZR (Zfloor a) = INR fa) by (unfold fa; rewrite INR_IZR_INZ, Z2Nat.id; auto).
      assert (Ecb : IZR (Zfloor b) = INR fb) by (unfold fb; rewrite INR_IZR_INZ, Z2Nat.id; auto; lia).
      assert (Hfab : (fa <= fb)%nat) by (unfold fa, fb; lia).
      assert (HfbN : (fb <= N)%nat) by (unfold fb; lia).
      (* the position found for n is i exactly when a < n + 1 <= b *)
      assert (Hsel : forall n, (n < N)%nat -> sel n = i <-> a < INR (n + 1) <= b).
      { intros n Hn. destruct (Hs n Hn) as (Hi & (Hc1 & Hc2) & _).
        assert (Hc1' : INR N * cum w (sel n) < INR (n + 1)).
        { apply (Rmult_lt_compat_l (INR N)) in Hc1; auto.
          unfold Rdiv in Hc1. rewrite (Rmult_comm (INR (n+1))), <- Rmult_assoc, Rinv_r in Hc1 by lra. lra. }
        assert (Hc2' : INR (n + 1) <= INR N * cum w (S (sel n))).
        { apply (Rmult_le_compat_l (INR N)) in Hc2; [|lra].
          unfold Rdiv in Hc2. rewrite (Rmult_comm (INR (n+1))), <- Rmult_assoc, Rinv_r in Hc2 by lra. lra. }
        split.
        - intros <-. unfold a, b. lra.
        - intros [H1 H2]. destruct (Nat.lt_trichotomy (sel n) i) as [C|[C|C]]; auto; exfalso.
          + assert (cum w (S (sel n)) <= cum w i) by (apply cum_mono; auto). unfold a in H1. nra.
          + assert (cum w (S i) <= cum w (sel n)) by (apply cum_mono; auto). unfold b in H2. nra. }
      rewrite (count_interval fa fb sel i Hfab N).
      * rewrite !Nat.min_r by lia. rewrite minus_INR by auto.
        assert (Ex : INR N * x = b - a).
        { unfold a, b. rewrite (cum_S _ _ _ Hx). ring. }
        rewrite Ex. apply Rabs_def1; lra.
      * intros n Hn. rewrite (Hsel n Hn). split; intros [H1 H2]; split.
        -- apply INR_lt. lra.
        -- apply INR_lt in H1 || idtac. assert (INR (n + 1) < INR fb + 1) by lra.
           rewrite <- S_INR in H. apply INR_lt in H. lia.
        -- apply Nat.le_succ_l in H1. apply le_INR in H1. rewrite S_INR in H1. lra.
        -- apply le_INR in H2. lra.
Qed.

(** a draw of exactly zero gives the index -1 *)
Lemma resample_zero w : (0 < length w)%nat ->
  exists inds, resample w (length w) false (fun _ => 0) = Ok inds /\
    instanceOf inds (length w) 0 = UB.
Proof.
  intros HN.
  assert (E : resample w (length w) false (fun _ => 0) = Ok (repeat (-1)%Z (length w))).
  { unfold resample.
    match goal with |- for_ _ ?b _ = _ =>
      destruct (for_inv (fun i l => l = repeat (-1)%Z i ++ repeat 0%Z (length w - i))
                b (length w) (repeat 0%Z (length w))) as (s & E & HE)
    end.
    - simpl. now rewrite Nat.sub_0_r.
    - intros i s Hi ->. destruct (search_spec w (length w) 0 eq_refl) as (idx & A & B & C & D).
      assert (idx = 0%nat).
      { destruct idx; auto. specialize (C 0%nat ltac:(lia)). rewrite cum_0 in C. lra. }
      subst. cbv zeta. rewrite A. cbn [bind].
      rewrite vset_Ok by (rewrite app_length, !repeat_length; lia).
      eexists; split; [reflexivity|].
      replace (length w - i)%nat with (S (length w - S i)) by lia. simpl.
      replace (-1 :: repeat (-1)%Z i ++ repeat 0%Z (length w - S i))%Z
        with (repeat (-1)%Z (S i) ++ repeat 0%Z (length w - S i)) by reflexivity.
      rewrite <- Nat.add_1_r, repeat_app, <- app_assoc. simpl.
      assert (G : forall (A : Type) (l1 : list A) x y l2 k, length l1 = k ->
              upd (l1 ++ x :: l2) k y = l1 ++ y :: l2).
      { clear. induction l1 as [|a l1 IH]; intros x y l2 k <-; simpl; auto. now rewrite IH. }
      rewrite G by (now rewrite repeat_length). reflexivity.
    - rewrite E, HE, Nat.sub_diag. simpl. now rewrite app_nil_r. }
  eexists. split; [exact E|]. unfold instanceOf, vget. destruct (length w); [lia|]. reflexivity.
Qed.
