(** Proofs about the max-pooling layer. *)
From Verif Require Import Base BaseFacts Matrix RSum MatOps Vec Deriv Acc Activation_Model
  Layer_Model Layer_Spec Layer_Proofs Layer_Layout FC_Model SimpleLayers_Proofs Pool_Model Pool.
Local Open Scope R_scope.

(** * Maxima *)
Fixpoint rmaxs (n : nat) (f : nat -> R) (b : R) : R :=
  match n with O => b | S n => Rmax (rmaxs n f b) (f n) end.
(** the first index of the maximum of f 0, ..., f (n - 1) *)
Fixpoint amax (n : nat) (f : nat -> R) : nat :=
  match n with O => 0%nat | S n => if Rltb (f (amax n f)) (f n) then n else amax n f end.

Lemma rmaxs_base n f b : b <= rmaxs n f b.
Proof. induction n; simpl; [lra|]. pose proof (Rmax_l (rmaxs n f b) (f n)). lra. Qed.
Lemma rmaxs_ge n f b i : (i < n)%nat -> f i <= rmaxs n f b.
Proof.
  induction n; intros H; [lia|]. simpl. destruct (Nat.eq_dec i n) as [->|].
  - apply Rmax_r.
  - pose proof (Rmax_l (rmaxs n f b) (f n)). assert (f i <= rmaxs n f b) by (apply IHn; lia). lra.
Qed.
Lemma rmaxs_attained n f b : rmaxs n f b = b \/ exists i, (i < n)%nat /\ rmaxs n f b = f i.
Proof.
  induction n; simpl; auto. unfold Rmax. destruct (Rle_dec (rmaxs n f b) (f n)); [right; eauto|].
  destruct IHn as [->|(i & Hi & E)]; auto. right. exists i. auto.
Qed.
Lemma rmaxs_ext n f h b : (forall i, (i < n)%nat -> f i = h i) -> rmaxs n f b = rmaxs n h b.
Proof. induction n; intros H; simpl; auto. rewrite IHn by auto. now rewrite H by auto. Qed.
Lemma rmaxs_unique n f b k : (k < n)%nat -> b <= f k -> (forall i, (i < n)%nat -> f i <= f k) -> rmaxs n f b = f k.
Proof.
  intros Hk Hb H. apply Rle_antisym; [|now apply rmaxs_ge].
  destruct (rmaxs_attained n f b) as [->|(i & Hi & ->)]; auto.
Qed.

Lemma amax_lt n f : (0 < n)%nat -> (amax n f < n)%nat.
Proof.
  induction n; intros H; [lia|]. simpl. destruct (Rltb (f (amax n f)) (f n)); [lia|].
  destruct n; simpl; [lia|]. assert (amax (S n) f < S n)%nat by (apply IHn; lia). simpl in H0. lia.
Qed.
Lemma amax_ge n f i : (i < n)%nat -> f i <= f (amax n f).
Proof.
  induction n; intros H; [lia|]. simpl. destruct (Rltb (f (amax n f)) (f n)) eqn:E.
  - apply Rltb_true in E. destruct (Nat.eq_dec i n) as [->|]; [lra|]. assert (f i <= f (amax n f)) by (apply IHn; lia). lra.
  - apply Rltb_false in E. destruct (Nat.eq_dec i n) as [->|]; [lra|]. apply IHn. lia.
Qed.
Lemma amax_first n f i : (i < amax n f)%nat -> f i < f (amax n f).
Proof.
  induction n; simpl; [lia|]. destruct (Rltb (f (amax n f)) (f n)) eqn:E.
  - intros Hi. apply Rltb_true in E. pose proof (amax_ge n f i Hi). lra.
  - apply IHn.
Qed.
Lemma amax_ext n f h : (forall i, (i < n)%nat -> f i = h i) -> amax n f = amax n h.
Proof.
  induction n; intros H; simpl; auto. rewrite IHn by auto. rewrite (H n) by lia.
  destruct n; [simpl; rewrite (H 0%nat) by lia; auto|].
  rewrite (H (amax (S n) h)); auto. pose proof (amax_lt (S n) h). lia.
Qed.

(** finitely many properties that hold near a point hold together near it *)
Lemma near_all n t0 (P : nat -> R -> Prop) :
  (forall i, (i < n)%nat -> exists d, 0 < d /\ forall t, Rabs (t - t0) < d -> P i t) ->
  exists d, 0 < d /\ forall t, Rabs (t - t0) < d -> forall i, (i < n)%nat -> P i t.
Proof.
  induction n as [|n IH]; intros H.
  - exists 1. split; [lra|]. intros; lia.
  - destruct IH as (d1 & H1 & P1); [intros; apply H; lia|]. destruct (H n) as (d2 & H2 & P2); [lia|].
    exists (Rmin d1 d2). split; [now apply Rmin_pos|]. intros t Ht i Hi.
    pose proof (Rmin_l d1 d2). pose proof (Rmin_r d1 d2).
    destruct (Nat.eq_dec i n) as [->|]; [apply P2; lra|apply P1; [lra|lia]].
Qed.

(** derivative of a maximum that is attained once *)
Lemma D_rmaxs n (f : R -> nat -> R) f' b t0 k : (k < n)%nat ->
  (forall i, (i < n)%nat -> D (fun t => f t i) t0 (f' i)) ->
  b < f t0 k -> (forall i, (i < n)%nat -> i <> k -> f t0 i < f t0 k) ->
  D (fun t => rmaxs n (f t) b) t0 (f' k).
Proof.
  intros Hk Df Hb Hu. apply (D_local (fun t => f t k)); [|auto].
  assert (C : forall u v u' v', D u t0 u' -> D v t0 v' -> u t0 < v t0 ->
    exists d, 0 < d /\ forall t, Rabs (t - t0) < d -> u t < v t).
  { intros u v u' v' Du Dv Hlt. set (eps := (v t0 - u t0) / 2). assert (0 < eps) by (unfold eps; lra).
    destruct (D_cont u t0 u' Du eps H) as (d1 & P1 & C1). destruct (D_cont v t0 v' Dv eps H) as (d2 & P2 & C2).
    exists (Rmin d1 d2). split; [now apply Rmin_pos|]. intros t Ht.
    pose proof (Rmin_l d1 d2). pose proof (Rmin_r d1 d2).
    assert (Q1 : Rabs (u t - u t0) < eps) by (apply C1; lra).
    assert (Q2 : Rabs (v t - v t0) < eps) by (apply C2; lra).
    apply Rabs_def2 in Q1. apply Rabs_def2 in Q2. unfold eps in *. lra. }
  destruct (near_all n t0 (fun i t => i <> k -> f t i < f t k)) as (d1 & P1 & C1).
  { intros i Hi. destruct (Nat.eq_dec i k) as [->|Hn].
    - exists 1. split; [lra|]. intros; congruence.
    - destruct (C (fun t => f t i) (fun t => f t k) (f' i) (f' k)) as (d & Pd & Cd); auto. exists d. auto. }
  destruct (C (fun _ => b) (fun t => f t k) 0 (f' k)) as (d2 & P2 & C2); auto. { apply D_const. }
  exists (Rmin d1 d2). split; [now apply Rmin_pos|]. intros t Ht.
  pose proof (Rmin_l d1 d2). pose proof (Rmin_r d1 d2). symmetry. apply rmaxs_unique; auto.
  - assert (b < f t k) by (apply C2; lra). lra.
  - intros i Hi. destruct (Nat.eq_dec i k) as [->|Hn]; [lra|]. assert (f t i < f t k) by (apply C1; auto; lra). lra.
Qed.

(** loops keep a property if all results of the body have it *)
Lemma for_pres {A} (P : A -> Prop) (body : nat -> A -> res A) n : 
  (forall i s s', body i s = Ok s' -> P s -> P s') -> forall from s s', for_from from n body s = Ok s' -> P s -> P s'.
Proof.
  intros H. induction n as [|n IH]; intros from s s' E Hs; simpl in E; [congruence|].
  destruct (body from s) as [s1| | | |] eqn:Eb; try discriminate E. cbn [bind] in E. eauto.
Qed.

Definition maxp_inv (g : pgeom) (s : maxp) : Prop := mg s = g /\ cols (my s) = pO g /\ cols (me s) = pI g.

Section MP.
Context (junk : nat -> nat -> R) (g : pgeom) (Hg : pgeom_ok g).
Notation inv := (maxp_inv g).
Notation c := (maxp_class junk).
Notation KC := (pkernelCols g).
Notation OR := (poutRows g).
Notation OC := (poutCols g).
Notation FM := (pfm g).
Notation low := (- DBL_MAX).

(** entry [k] of the first row of the region of output [j] *)
Definition entry (x : mat) (n j k : nat) : R := at_ x n (pbase g (po g j) (pro g j) (pco g j) + k)%nat.

Lemma entry_pout x n o r k i : (r < OR)%nat -> (k < OC)%nat -> entry x n (pout g o r k) i = at_ x n (pbase g o r k + i)%nat.
Proof. intros Hr Hk. unfold entry. destruct (decode g Hg o r k Hr Hk) as (-> & -> & ->). auto. Qed.

Lemma KC_pos : (0 < KC)%nat.
Proof. now destruct Hg as (_ & H & _). Qed.

(** * Forward *)
Lemma maxp_forward_ok q x dropout N : inv q -> size_is x N (pI g) ->
  exists q1 y, maxp_forward junk q x dropout = Ok (q1, y, 0) /\ size_is y N (pO g) /\ inv q1 /\
    (forall n j, (n < N)%nat -> (j < pO g)%nat -> at_ y n j = rmaxs KC (entry x n j) low) /\
    mx q1 = x /\ my q1 = y.
Proof.
  intros (A1 & A2 & A3) Hx. pose proof Hx as (X1 & X2). destruct (psizes g Hg) as (Z1 & Z2).
  unfold maxp_forward. rewrite A1, Z1, Z2, X2. cbn [mconsresize cols]. rewrite A2, !Nat.eqb_refl. cbn [check bind]. rewrite X1.
  match goal with |- context [for_ N ?b ?y0] =>
    destruct (for_inv (fun m (y : mat) => size_is y N (pO g) /\
      forall n j, (n < m)%nat -> (j < pO g)%nat -> at_ y n j = rmaxs KC (entry x n j) low) b N y0) as (y & E & Sy & Fy) end.
  - split; [split; auto|]. intros; lia.
  - intros n y0 Hn (S0 & F0).
    destruct (pool_inv g Hg (fun j (y : mat) => size_is y N (pO g) /\ (forall n' j', n' <> n -> at_ y n' j' = at_ y0 n' j') /\
       forall j', (j' < j)%nat -> at_ y n j' = rmaxs KC (entry x n j') low)
       (fun fmo ro co inputIdx outputIdx y =>
          m <- region g inputIdx (fun inputIdx m => v <- mget x n inputIdx ;; Ok (if Rltb m v then v else m)) low ;;
          mset y n outputIdx m) y0) as (y1 & E1 & S1 & G1 & F1).
    + split; auto. split; auto. intros; lia.
    + intros o r k y1 Ho Hr Hk ((S1 & S2) & G1 & F1).
      pose proof (pout_range g Hg o r k Ho Hr Hk) as Hout. pose proof (pbase_range g Hg o r k Ho Hr Hk) as Hin.
      set (f := fun i => at_ x n (pbase g o r k + i)%nat).
      destruct (region_inv g Hg (fun i (m : R) => m = rmaxs i f low) (pbase g o r k)
        (fun inputIdx m => v <- mget x n inputIdx ;; Ok (if Rltb m v then v else m)) low) as (m & Em & Fm).
      * apply KC_pos.
      * reflexivity.
      * intros i m Hi ->. rewrite mget_Ok by lia. cbn [bind]. eexists. split; [reflexivity|]. simpl. unfold f, Rmax.
        destruct (Rltb _ _) eqn:Er.
        -- apply Rltb_true in Er. destruct (Rle_dec _ _); auto. exfalso. unfold f in *. lra.
        -- apply Rltb_false in Er. destruct (Rle_dec _ _); auto. unfold f in *. apply Rle_antisym; auto.
      * intros i m Hi ->. rewrite mget_Ok by lia. cbn [bind]. eexists. split; [reflexivity|].
        pose proof (rmaxs_ge KC f low i Hi) as Hge. unfold f in Hge at 1.
        destruct (Rltb _ _) eqn:Er; auto. apply Rltb_true in Er. exfalso. unfold f in *. lra.
      * rewrite Em. cbn [bind]. rewrite mset_Ok by lia. eexists. split; [reflexivity|]. split; [split; auto|]. split.
        -- intros n' j' Hne. rewrite at_mupd_other by auto. auto.
        -- intros j' Hj'. destruct (Nat.eq_dec j' (pout g o r k)) as [->|Hne].
           ++ rewrite at_mupd_same, Fm. apply rmaxs_ext. intros i Hi. symmetry. now apply entry_pout.
           ++ rewrite at_mupd_other by auto. apply F1. lia.
    + rewrite E1. eexists. split; [reflexivity|]. split; auto. intros n' j Hn' Hj.
      destruct (Nat.eq_dec n' n) as [->|Hne]; auto. rewrite G1 by auto. apply F0; auto. lia.
  - rewrite E. cbn [bind]. eexists. exists y. split; [reflexivity|]. split; auto. split; [|split; [auto|simpl; auto]].
    destruct Sy as (Y1 & Y2). split; simpl; auto.
Qed.

(** * Backward *)
(** the input that the error of output [j] is passed to *)
Definition source (x : mat) (n j : nat) : nat :=
  pbase g (po g j) (pro g j) (pco g j) + amax KC (entry x n j).

Lemma source_pout x n o r k : (r < OR)%nat -> (k < OC)%nat ->
  source x n (pout g o r k) = (pbase g o r k + amax KC (fun i => at_ x n (pbase g o r k + i)%nat))%nat.
Proof.
  intros Hr Hk. unfold source. rewrite (amax_ext KC _ (fun i => at_ x n (pbase g o r k + i)%nat)).
  - destruct (decode g Hg o r k Hr Hk) as (-> & -> & ->). auto.
  - intros. now apply entry_pout.
Qed.

Lemma source_range x n j : (j < pO g)%nat -> (source x n j < pI g)%nat.
Proof.
  intros Hj. destruct (pout_split g Hg j Hj) as (o & r & k & Ho & Hr & Hk & ->). rewrite source_pout by auto.
  pose proof (pbase_range g Hg o r k Ho Hr Hk).
  pose proof (amax_lt KC (fun i => at_ x n (pbase g o r k + i)%nat) KC_pos). lia.
Qed.

Lemma source_inj x n j j' : (j < pO g)%nat -> (j' < pO g)%nat -> source x n j = source x n j' -> j = j'.
Proof.
  intros Hj Hj' E. destruct (pout_split g Hg j Hj) as (o & r & k & Ho & Hr & Hk & ->).
  destruct (pout_split g Hg j' Hj') as (o' & r' & k' & Ho' & Hr' & Hk' & ->). rewrite !source_pout in E by auto.
  apply (pbase_inj g Hg) in E; auto; try (apply amax_lt, KC_pos). destruct E as (-> & -> & -> & _). auto.
Qed.

Definition passed (x ein : mat) (n m i : nat) : R := rsum m (fun j => if Nat.eqb i (source x n j) then at_ ein n j else 0).

Lemma maxp_backward_ok q1 N y x ein bp : inv q1 -> mx q1 = x -> size_is x N (pI g) -> my q1 = y -> size_is y N (pO g) ->
  size_is ein N (pO g) ->
  (forall n j, (n < N)%nat -> (j < pO g)%nat -> exists k, (k < KC)%nat /\ low < entry x n j k) ->
  exists q2 eout, maxp_backward q1 ein bp = Ok (q2, eout) /\ inv q2 /\ size_is eout N (pI g) /\
    forall n i, (n < N)%nat -> at_ eout n i = passed x ein n (pO g) i.
Proof.
  intros (A1 & A2 & A3) Ex (X1 & X2) Ey (Y1 & Y2) (N1 & N2) Hlow. unfold maxp_backward. rewrite A1, Ex, Ey, Y1, A3.
  match goal with |- context [for_ N ?b ?e0] =>
    destruct (for_inv (fun m (e : mat) => size_is e N (pI g) /\
      (forall n i, (n < m)%nat -> at_ e n i = passed x ein n (pO g) i) /\
      (forall n i, (m <= n)%nat -> at_ e n i = 0)) b N e0) as (e & E & Se & Fe & _) end.
  - split; [split; auto|]. split; [intros; lia|]. auto.
  - intros n e0 Hn (S0 & F0 & Z0).
    match goal with |- context [pool g ?b e0] =>
      destruct (pool_inv g Hg (fun j (e : mat) => size_is e N (pI g) /\ (forall n' i, n' <> n -> at_ e n' i = at_ e0 n' i) /\
       forall i, at_ e n i = passed x ein n j i) b e0) as (e1 & E1 & S1 & G1 & F1) end.
    + split; auto.
    + intros o r k e1 Ho Hr Hk ((S1 & S2) & G1 & F1).
      pose proof (pout_range g Hg o r k Ho Hr Hk) as Hout. pose proof (pbase_range g Hg o r k Ho Hr Hk) as Hin.
      set (f := fun i => at_ x n (pbase g o r k + i)%nat).
      assert (Hex : exists i, (i < KC)%nat /\ low < f i).
      { destruct (Hlow n (pout g o r k) Hn Hout) as (i & Hi & Hl). exists i. split; auto.
        rewrite entry_pout in Hl by auto. exact Hl. }
      set (Q := fun i (st : R * Z) => fst st = rmaxs i f low /\
        ((low < fst st /\ (0 < i)%nat /\ snd st = Z.of_nat (pbase g o r k + amax i f) /\ f (amax i f) = fst st) \/
         (fst st = low /\ snd st = (-1)%Z /\ forall i', (i' < i)%nat -> f i' <= low))).
      match goal with |- context [region g (pbase g o r k) ?b _] =>
        destruct (region_inv g Hg Q (pbase g o r k) b (low, (-1)%Z)) as ([m idx] & Em & Fm & Hm) end.
      * apply KC_pos.
      * split; [reflexivity|]. right. split; [reflexivity|]. split; [reflexivity|]. intros; lia.
      * intros i [m idx] Hi (Q1 & Q2). simpl in Q1, Q2. rewrite mget_Ok by lia. cbn [bind].
        change (at_ x n (pbase g o r k + i)%nat) with (f i).
        destruct (Rltb m (f i)) eqn:Er; (eexists; split; [reflexivity|]); unfold Q; cbn [fst snd rmaxs amax].
        -- apply Rltb_true in Er. split.
           ++ rewrite <- Q1. unfold Rmax. destruct (Rle_dec m (f i)); auto. lra.
           ++ left. split; [pose proof (rmaxs_base i f low); lra|]. split; [lia|].
              assert (Ea : (if Rltb (f (amax i f)) (f i) then i else amax i f) = i).
              { destruct Q2 as [(_ & Hp & _ & Q4)|(Q3 & _ & Q5)].
                - rewrite Q4. rewrite (proj2 (Rltb_true m (f i))); auto.
                - destruct i as [|i]; [simpl; destruct (Rltb _ _); auto|].
                  rewrite (proj2 (Rltb_true _ _)); auto.
                  assert (f (amax (S i) f) <= low) by (apply Q5, amax_lt; lia). lra. }
              rewrite Ea. auto.
        -- apply Rltb_false in Er. split.
           ++ rewrite <- Q1. unfold Rmax. destruct (Rle_dec m (f i)); auto. apply Rle_antisym; auto.
           ++ destruct Q2 as [(Q3 & Hp & Q4 & Q5)|(Q3 & Q4 & Q5)].
              ** left. split; auto. split; [lia|].
                 assert (Ea : (if Rltb (f (amax i f)) (f i) then i else amax i f) = amax i f).
                 { rewrite (proj2 (Rltb_false _ _)); auto. lra. }
                 rewrite Ea. auto.
              ** right. split; auto. split; auto. intros i' Hi'. destruct (Nat.eq_dec i' i) as [->|]; [lra|]. apply Q5. lia.
      * intros i [m idx] Hi (Q1 & Q2). simpl in Q1. rewrite mget_Ok by lia. cbn [bind].
        pose proof (rmaxs_ge KC f low i Hi) as Hge. change (at_ x n (pbase g o r k + i)%nat) with (f i).
        rewrite (proj2 (Rltb_false m (f i))) by lra. eexists. split; [reflexivity|]. split; auto.
      * rewrite Em. cbn [bind]. rewrite mget_Ok by lia. cbn [bind]. simpl in Fm, Hm.
        destruct Hm as [(Q3 & _ & -> & _)|(Q3 & _ & Q5)].
        2:{ exfalso. destruct Hex as (i & Hi & Hl). specialize (Q5 i Hi). lra. }
        rewrite zidx_Ok by lia. rewrite Nat2Z.id. cbn [bind].
        assert (Es : source x n (pout g o r k) = (pbase g o r k + amax KC f)%nat) by (now apply source_pout).
        rewrite <- Es. pose proof (source_range x n _ Hout) as Hsr. rewrite mset_Ok by lia.
        eexists. split; [reflexivity|]. split; [split; auto|]. split.
        -- intros n' i Hne. rewrite at_mupd_other by auto. auto.
        -- intros i. unfold passed. cbn [rsum]. destruct (Nat.eqb_spec i (source x n (pout g o r k))) as [->|Hne].
           ++ rewrite at_mupd_same. rewrite rsum_0; [ring|]. intros j' Hj'.
              destruct (Nat.eqb_spec (source x n (pout g o r k)) (source x n j')) as [Eq|]; auto.
              apply source_inj in Eq; auto; lia.
           ++ rewrite at_mupd_other by auto. rewrite F1. unfold passed. ring.
    + rewrite E1. eexists. split; [reflexivity|]. split; auto. split.
      * intros n' i Hn'. destruct (Nat.eq_dec n' n) as [->|Hne]; auto. rewrite G1 by auto. apply F0. lia.
      * intros n' i Hn'. rewrite G1 by lia. apply Z0. lia.
  - rewrite E. cbn [bind]. eexists. exists e. split; [reflexivity|]. split; [|split; auto].
    destruct Se as (E1 & E2). split; simpl; auto.
Qed.

(** sizes are kept by every call that returns *)
Lemma maxp_backward_inv q ein bp q2 eout : inv q -> maxp_backward q ein bp = Ok (q2, eout) ->
  inv q2 /\ size_is eout (rows (my q)) (pI g).
Proof.
  intros (A1 & A2 & A3) E. unfold maxp_backward in E. rewrite A1 in E.
  match type of E with context [for_ ?N ?b ?e0] => destruct (for_ N b e0) as [e| | | |] eqn:El; try discriminate E;
    assert (He : size_is e (rows (my q)) (pI g)) end.
  { unfold for_ in El. refine (for_pres (fun e : mat => size_is e (rows (my q)) (pI g)) _ _ _ _ _ _ El _); [|split; auto].
    clear El E. intros n s1 s2 E Hs. rewrite (pool_for g Hg) in E.
    match type of E with context [for_ FM ?b ?e0] => destruct (for_ FM b e0) as [[e2 i2]| | | |] eqn:El; try discriminate E;
      cbn [bind] in E; assert (He : size_is e2 (rows (my q)) (pI g)) end.
    { unfold for_ at 1 in El. refine (for_pres (fun st : mat * nat => size_is (fst st) (rows (my q)) (pI g)) _ _ _ _ _ _ El _); [|exact Hs].
      clear El E. intros o st1 st2 E H1. unfold for_ at 1 in E.
      refine (for_pres (fun st : mat * nat => size_is (fst st) (rows (my q)) (pI g)) _ _ _ _ _ _ E H1).
      clear E. intros r st3 st4 E H3. unfold for_ at 1 in E.
      refine (for_pres (fun st : mat * nat => size_is (fst st) (rows (my q)) (pI g)) _ _ _ _ _ _ E H3).
      clear E. intros k [e3 i3] st5 E H4. simpl in H4.
      destruct (region g (pbase g o r k) _ _) as [[m idx]| | | |]; try discriminate E. cbn [bind] in E.
      destruct (mget ein n i3) as [d| | | |]; try discriminate E. cbn [bind] in E.
      destruct (zidx idx) as [z| | | |]; try discriminate E. cbn [bind] in E.
      destruct (mset e3 n z d) as [e4| | | |] eqn:Em; try discriminate E. cbn [bind] in E. injection E as <-. simpl.
      unfold mset in Em. destruct (inside e3 n z); try discriminate Em. injection Em as <-. simpl. auto. }
    injection E as <-. auto. }
  cbn [bind] in E. injection E as <- <-. destruct He. split; [split; auto|split; auto].
Qed.

(** the maximum of the first row of each region is attained once, and it is larger than the
    smallest double *)
Definition maxp_smooth (q : maxp) (X : mat) : Prop :=
  forall n j, (n < rows X)%nat -> (j < pO g)%nat -> exists k, (k < KC)%nat /\ low < entry X n j k /\
    forall i, (i < KC)%nat -> i <> k -> entry X n j i < entry X n j k.

Lemma maxp_contract : contract c (pI g) (pO g) 0 inv maxp_smooth.
Proof.
  constructor.
  - intros. split; reflexivity.
  - intros; lia.
  - intros; lia.
  - intros s Hs. exists s. split; [reflexivity|]. split; auto.
  - apply (gradient_intro c (pI g) (pO g) 0 inv maxp_smooth
      (fun s dropout N p X q q1 Y r => r = 0 /\
         (forall n j, (n < N)%nat -> (j < pO g)%nat -> at_ Y n j = rmaxs KC (entry X n j) low) /\
         mx q1 = X /\ my q1 = Y)).
    + intros s dropout N p X Hs Hp HX.
      destruct (maxp_forward_ok s X dropout N Hs HX) as (q1 & y & E & Sy & Hq1 & F1 & F2 & F3).
      exists s, q1, y, 0. split; [apply no_install; auto|]. auto 10.
    + intros s dropout N t0 p p' X X' q q1 Y r Hs Hp HX Dp DX Sm SY Hq1 HP.
      pose proof (HX t0) as (X1 & X2). unfold maxp_smooth in Sm. rewrite X1 in Sm.
      exists (fun n j => X' n (source (X t0) n j)), 0. split; [|split].
      * intros n j Hn Hj. apply (D_ext (fun t => rmaxs KC (entry (X t) n j) low)).
        { intros t. destruct (HP t) as (_ & F & _). now rewrite F. }
        destruct (Sm n j Hn Hj) as (k & Hk & Hl & Hu).
        assert (Ek : amax KC (entry (X t0) n j) = k).
        { destruct (Nat.eq_dec (amax KC (entry (X t0) n j)) k) as [|Hne]; auto. exfalso.
          pose proof (Hu _ (amax_lt KC (entry (X t0) n j) KC_pos) Hne). pose proof (amax_ge KC (entry (X t0) n j) k Hk). lra. }
        unfold source. rewrite Ek.
        apply (D_rmaxs KC (fun t => entry (X t) n j) (fun i => X' n (pbase g (po g j) (pro g j) (pco g j) + i)%nat)); auto.
        intros i Hi. unfold entry. apply DX; auto. destruct (pout_split g Hg j Hj) as (o & r0 & k0 & Ho & Hr & Hk0 & ->).
        destruct (decode g Hg o r0 k0 Hr Hk0) as (-> & -> & ->). pose proof (pbase_range g Hg o r0 k0 Ho Hr Hk0). lia.
      * apply (D_ext (fun _ => 0)); [|apply D_const]. intros t. now destruct (HP t) as (-> & _).
      * intros ein bp Se. destruct (HP t0) as (_ & _ & E1 & E2).
        destruct (maxp_backward_ok (q1 t0) N (Y t0) (X t0) ein bp) as (q2 & eout & E & Hq2 & So & Fo); auto.
        { intros n j Hn Hj. destruct (Sm n j Hn Hj) as (k & Hk & Hl & _). eauto. }
        assert (Key : inner N (pO g) (at_ ein) (fun n j => X' n (source (X t0) n j)) = inner N (pI g) (at_ eout) X').
        { unfold inner. apply rsum_ext. intros n Hn.
          rewrite (rsum_ext (pI g) _ (fun i => rsum (pO g) (fun j => if Nat.eqb i (source (X t0) n j) then at_ ein n j * X' n i else 0))).
          2:{ intros i Hi. rewrite Fo by auto. unfold passed. rewrite <- rsum_scal_r. apply rsum_ext. intros j Hj.
              destruct (Nat.eqb i (source (X t0) n j)); ring. }
          rewrite rsum_swap. apply rsum_ext. intros j Hj.
          rewrite (rsum_single (pI g) (source (X t0) n j)).
          - now rewrite Nat.eqb_refl.
          - now apply source_range.
          - intros i Hi Hne. destruct (Nat.eqb_spec i (source (X t0) n j)); [congruence|auto]. }
        exists q2, eout, (fun _ => 0). split; auto. split; auto. split; [intros; lia|]. simpl rsum. split.
        -- intros _. split; auto. rewrite Key. ring.
        -- intros _ HX'. rewrite Rplus_0_r. unfold inner. apply rsum_0. intros n Hn. apply rsum_0. intros j Hj.
           rewrite HX'; auto; [ring|]. now apply source_range.
Qed.

Lemma maxp_history I O s0 s : maxp_inv g s0 -> I = pI g -> O = pO g -> history c I O s0 s -> maxp_inv g s.
Proof.
  intros H0 -> ->.
  induction 1 as [|s p q Hh IH Hp E|s X dropout q Y r Hh IH HX E|s X dropout q Y r ein bp q2 eout Hh IH HX E He1 He2 Eb].
  - auto.
  - unfold paramCount in Hp. cbn [initialize maxp_class fst length] in Hp.
    rewrite no_install in E by auto. congruence.
  - destruct (maxp_forward_ok s X dropout (rows X) IH) as (q1 & y & E1 & _ & I1 & _); [split; auto|].
    cbn [forwardPropagate maxp_class] in E. congruence.
  - destruct (maxp_forward_ok s X dropout (rows X) IH) as (q1 & y & E1 & _ & I1 & _); [split; auto|].
    cbn [forwardPropagate backpropagate maxp_class] in E, Eb. assert (q1 = q) by congruence. subst q1.
    now apply (maxp_backward_inv q ein bp q2 eout).
Qed.
End MP.
