(** Proofs about FloatPool_Model. *)
From Coq Require Import Lra Lia.
From Flocq Require Import Core BinarySingleNaN.
From Verif Require Import Base BaseFacts Activation_Model Float_Model Float_Spec Float_Proofs Pool_Model Pool FloatPool_Model.
Local Open Scope R_scope.

(** * The order *)
Lemma ltb_irrefl x : dltb x x = false.
Proof. destruct x as [s|[]| |s m e B] eqn:E; try reflexivity. apply ltb_false; [reflexivity|reflexivity|apply Rle_refl]. Qed.
Lemma ltb_trans x y z : dltb x y = true -> dltb y z = true -> dltb x z = true.
Proof.
  intros H1 H2. destruct (is_finite x && is_finite y && is_finite z)%bool eqn:F.
  - apply andb_prop in F. destruct F as (F & Fz). apply andb_prop in F. destruct F as (Fx & Fy). apply ltb_true in H1; auto. apply ltb_true in H2; auto. apply ltb_true; auto. lra.
  - destruct x as [[]|[]| |[]], y as [[]|[]| |[]], z as [[]|[]| |[]]; try discriminate F; try discriminate H1; try discriminate H2; reflexivity.
Qed.
Lemma ltb_weak x y z : dltb x z = false -> dltb x y = true -> is_nan z = true \/ dltb z y = true.
Proof.
  intros H1 H2. destruct (is_nan z) eqn:Nz; auto. right. destruct (is_finite x && is_finite y && is_finite z)%bool eqn:F.
  - apply andb_prop in F. destruct F as (F & Fz). apply andb_prop in F. destruct F as (Fx & Fy). apply ltb_false in H1; auto. apply ltb_true in H2; auto. apply ltb_true; auto. lra.
  - destruct x as [[]|[]| |[]], y as [[]|[]| |[]], z as [[]|[]| |[]]; try discriminate F; try discriminate H1; try discriminate H2; try discriminate Nz; reflexivity.
Qed.

(** * Maxima *)
(** the largest of f 0, ..., f (n - 1) and its first index; [lowest] if there is no larger one *)
Fixpoint dmaxs (n : nat) (f : nat -> double) : double * option nat :=
  match n with
  | O => (lowest, None)
  | S n => let '(m, k) := dmaxs n f in if dltb m (f n) then (f n, Some n) else (m, k)
  end.
Lemma dmaxs_spec n f :
  (forall c, (c < n)%nat -> dltb (fst (dmaxs n f)) (f c) = false) /\
  match snd (dmaxs n f) with
  | None => fst (dmaxs n f) = lowest
  | Some k => (k < n)%nat /\ f k = fst (dmaxs n f) /\ dltb lowest (f k) = true /\
      forall c, (c < k)%nat -> is_nan (f c) = true \/ dltb (f c) (f k) = true
  end.
Proof.
  induction n as [|n (I1 & I2)]; cbn [dmaxs fst snd]; [split; auto; intros; lia|]. destruct (dmaxs n f) as [m o]. cbn [fst snd] in *.
  destruct (dltb m (f n)) eqn:E; cbn [fst snd].
  - split.
    + intros c Hc. destruct (Nat.eq_dec c n) as [->|]; [apply ltb_irrefl|]. destruct (dltb (f n) (f c)) eqn:E2; auto. rewrite <- (I1 c) by lia. symmetry. eapply ltb_trans; eauto.
    + split; [lia|]. split; auto. split.
      * destruct o as [k|]; [|now subst m]. destruct I2 as (_ & <- & L & _). eapply ltb_trans; eauto.
      * intros c Hc. eapply ltb_weak; eauto.
  - split.
    + intros c Hc. destruct (Nat.eq_dec c n) as [->|]; auto. apply I1. lia.
    + destruct o as [k|]; auto. destruct I2 as (H1 & H2 & H3 & H4). split; [lia|auto].
Qed.
Lemma dmaxs_ext n f h : (forall i, (i < n)%nat -> f i = h i) -> dmaxs n f = dmaxs n h.
Proof. induction n; intros H; simpl; auto. rewrite IHn by auto. now rewrite H by auto. Qed.
(** there is a larger one iff an index is found *)
Lemma dmaxs_some n f : (exists c, (c < n)%nat /\ dltb lowest (f c) = true) <-> exists k, snd (dmaxs n f) = Some k.
Proof.
  destruct (dmaxs_spec n f) as (H1 & H2). split.
  - intros (c & Hc & L). destruct (snd (dmaxs n f)) as [k|]; eauto. rewrite H2 in H1. rewrite H1 in L by auto. discriminate.
  - intros (k & E). rewrite E in H2. destruct H2 as (H3 & _ & H4 & _). eauto.
Qed.

(** * Matrices *)
Definition dsize (m : dmat) (r c : nat) : Prop := drows m = r /\ dcols m = c.
Lemma dmget_Ok m i j : (i < drows m)%nat -> (j < dcols m)%nat -> dmget m i j = Ok (dat m i j).
Proof. intros H1 H2. unfold dmget. apply Nat.ltb_lt in H1, H2. now rewrite H1, H2. Qed.
Lemma dmset_Ok m i j x r c : dsize m r c -> (i < r)%nat -> (j < c)%nat -> exists m', dmset m i j x = Ok m' /\ dsize m' r c /\ dat m' i j = x /\
  (forall a b, a <> i \/ b <> j -> dat m' a b = dat m a b).
Proof.
  intros (S1 & S2) H1 H2. unfold dmset. rewrite S1, S2. apply Nat.ltb_lt in H1, H2. rewrite H1, H2. cbn [andb]. eexists. split; [reflexivity|]. split; [split; auto|]. cbn [dat]. split.
  - now rewrite !Nat.eqb_refl.
  - intros a b Hn. destruct (Nat.eqb_spec a i), (Nat.eqb_spec b j); auto. destruct Hn; contradiction.
Qed.

(** * Loops that may be undefined *)
Definition fine {S} (Inv : S -> Prop) (r : res S) : Prop := r = UB \/ exists s, r = Ok s /\ Inv s.
Lemma for_fine {S} (Inv : S -> Prop) body n : (forall i s, (i < n)%nat -> Inv s -> fine Inv (body i s)) -> forall s, Inv s -> fine Inv (for_ n body s).
Proof.
  unfold for_. assert (G : forall k from s, (forall i s, (i < from + k)%nat -> Inv s -> fine Inv (body i s)) -> Inv s -> fine Inv (for_from from k body s)).
  { induction k as [|k IH]; intros from s H Hs; cbn [for_from]; [right; eauto|]. destruct (H from s) as [-> | (s' & -> & H')]; auto; [lia|now left|]. cbn [bind]. apply IH; auto. intros i s0 Hi. apply H. lia. }
  intros H s Hs. apply G; auto.
Qed.
Lemma for_ub {S} (Inv : S -> Prop) body n i0 : (forall i s, (i < n)%nat -> Inv s -> fine Inv (body i s)) -> (i0 < n)%nat -> (forall s, Inv s -> body i0 s = UB) -> forall s, Inv s -> for_ n body s = UB.
Proof.
  unfold for_. intros H Hi Hb. assert (G : forall k from s, (from <= i0 < from + k)%nat -> (from + k <= n)%nat -> Inv s -> for_from from k body s = UB).
  { induction k as [|k IH]; intros from s H1 H2 Hs; [lia|]. cbn [for_from]. destruct (H from s) as [-> | (s' & E & H')]; auto; [lia|]. destruct (Nat.eq_dec from i0) as [->|]; [now rewrite Hb|]. rewrite E. cbn [bind]. apply IH; auto; lia. }
  intros s Hs. apply G; auto. lia.
Qed.

Section MP.
Context (g : pgeom) (Hg : pgeom_ok g).
Notation KC := (pkernelCols g).
(** entry [k] of the first row of the region *)
Definition dentry (x : dmat) (n o r c k : nat) : double := dat x n (pbase g o r c + k).

Lemma KC_pos : (0 < KC)%nat.
Proof. now destruct Hg as (_ & H & _). Qed.

Lemma region_max x n o r c N : dsize x N (pI g) -> (n < N)%nat -> (o < pfm g)%nat -> (r < poutRows g)%nat -> (c < poutCols g)%nat ->
  region g (pbase g o r c) (fun inputIdx m => v <- dmget x n inputIdx ;; Ok (if dltb m v then v else m)) lowest = Ok (fst (dmaxs KC (dentry x n o r c))).
Proof.
  intros (X1 & X2) Hn Ho Hr Hc. pose proof (pbase_range g Hg o r c Ho Hr Hc) as Hin. destruct (dmaxs_spec KC (dentry x n o r c)) as (M & _).
  destruct (region_inv g Hg (fun i (m : double) => m = fst (dmaxs i (dentry x n o r c))) (pbase g o r c) (fun inputIdx m => v <- dmget x n inputIdx ;; Ok (if dltb m v then v else m)) lowest) as (m & Em & ->); auto using KC_pos.
  - intros i m Hi ->. rewrite dmget_Ok by lia. cbn [bind]. eexists. split; [reflexivity|]. cbn [dmaxs]. fold (dentry x n o r c i). destruct (dmaxs i (dentry x n o r c)) as [m k]. cbn [fst]. now destruct (dltb m (dentry x n o r c i)).
  - intros i m Hi ->. rewrite dmget_Ok by lia. cbn [bind]. eexists. split; [reflexivity|]. fold (dentry x n o r c i). now rewrite M.
Qed.
(** the index that backpropagate computes *)
Definition idxOf (base : nat) (k : option nat) : Z := match k with None => (-1)%Z | Some k => Z.of_nat (base + k) end.
Lemma region_argmax x n o r c N : dsize x N (pI g) -> (n < N)%nat -> (o < pfm g)%nat -> (r < poutRows g)%nat -> (c < poutCols g)%nat ->
  region g (pbase g o r c) (fun inputIdx st => let '(m, idx) := st in v <- dmget x n inputIdx ;; Ok (if dltb m v then (v, Z.of_nat inputIdx) else (m, idx))) (lowest, (-1)%Z) =
  Ok (fst (dmaxs KC (dentry x n o r c)), idxOf (pbase g o r c) (snd (dmaxs KC (dentry x n o r c)))).
Proof.
  intros (X1 & X2) Hn Ho Hr Hc. pose proof (pbase_range g Hg o r c Ho Hr Hc) as Hin. destruct (dmaxs_spec KC (dentry x n o r c)) as (M & _).
  match goal with |- region g ?base ?b ?a0 = _ => destruct (region_inv g Hg (fun i (st : double * Z) => st = (fst (dmaxs i (dentry x n o r c)), idxOf (pbase g o r c) (snd (dmaxs i (dentry x n o r c))))) base b a0) as (m & Em & ->); auto using KC_pos end.
  - intros i m Hi ->. rewrite dmget_Ok by lia. cbn [bind]. eexists. split; [reflexivity|]. cbn [dmaxs]. fold (dentry x n o r c i). destruct (dmaxs i (dentry x n o r c)) as [m k]. cbn [fst snd]. now destruct (dltb m (dentry x n o r c i)).
  - intros i m Hi ->. rewrite dmget_Ok by lia. cbn [bind]. eexists. split; [reflexivity|]. fold (dentry x n o r c i). now rewrite M.
Qed.

Lemma forward_ok y x N : dsize x N (pI g) -> dsize y N (pO g) ->
  exists Y, d_maxp_forward g y x = Ok Y /\ dsize Y N (pO g) /\
    forall n o r c, (n < N)%nat -> (o < pfm g)%nat -> (r < poutRows g)%nat -> (c < poutCols g)%nat -> dat Y n (pout g o r c) = fst (dmaxs KC (dentry x n o r c)).
Proof.
  intros Hx Hy. destruct (psizes g Hg) as (Z1 & Z2). unfold d_maxp_forward. rewrite Z1, Z2, (proj2 Hx), (proj2 Hy), !Nat.eqb_refl. cbn [check bind]. rewrite (proj1 Hx).
  match goal with |- context [for_ N ?b ?y0] => destruct (for_inv (fun m (Y : dmat) => dsize Y N (pO g) /\ forall n o r c, (n < m)%nat -> (o < pfm g)%nat -> (r < poutRows g)%nat -> (c < poutCols g)%nat ->
      dat Y n (pout g o r c) = fst (dmaxs KC (dentry x n o r c))) b N y0) as (Y & E & SY & FY) end; [split; auto; intros; lia| |eauto].
  intros n y0 Hn (S0 & F0).
  match goal with |- context [pool g ?b y0] => destruct (pool_inv g Hg (fun j (Y : dmat) => dsize Y N (pO g) /\ (forall n' j', n' <> n -> dat Y n' j' = dat y0 n' j') /\
     forall o r c, (o < pfm g)%nat -> (r < poutRows g)%nat -> (c < poutCols g)%nat -> (pout g o r c < j)%nat -> dat Y n (pout g o r c) = fst (dmaxs KC (dentry x n o r c))) b y0) as (y1 & E1 & S1 & G1 & F1) end.
  - split; auto. split; auto. intros; lia.
  - intros o r c y1 Ho Hr Hc (S1 & G1 & F1). rewrite (region_max x n o r c N) by auto. cbn [bind]. pose proof (pout_range g Hg o r c Ho Hr Hc) as Hout.
    destruct (dmset_Ok y1 n (pout g o r c) (fst (dmaxs KC (dentry x n o r c))) N (pO g) S1 Hn Hout) as (y2 & E2 & S2 & V2 & W2). exists y2. split; auto. split; auto. split.
    + intros n' j' Hne. rewrite W2 by auto. auto.
    + intros o' r' c' Ho' Hr' Hc' Hlt. destruct (Nat.eq_dec (pout g o' r' c') (pout g o r c)) as [Eq|Ne].
      * rewrite Eq, V2. apply (pout_inj g Hg) in Eq; auto. now destruct Eq as (-> & -> & ->).
      * rewrite W2 by auto. apply F1; auto. lia.
  - exists y1. split; auto. split; auto. intros n' o r c Hn' Ho Hr Hc. destruct (Nat.eq_dec n' n) as [->|Hne]; [apply F1; auto using pout_range|]. rewrite G1 by auto. apply F0; auto. lia.
Qed.

(** the index that the error of a region is passed to *)
Definition dsource (x : dmat) (n o r c i : nat) : Prop := exists k, snd (dmaxs KC (dentry x n o r c)) = Some k /\ i = (pbase g o r c + k)%nat.
Lemma some_lt x n o r c k : snd (dmaxs KC (dentry x n o r c)) = Some k -> (k < KC)%nat.
Proof. intros E. destruct (dmaxs_spec KC (dentry x n o r c)) as (_ & H). rewrite E in H. tauto. Qed.
Lemma dsource_inj x n o r c o' r' c' i : (r < poutRows g)%nat -> (c < poutCols g)%nat -> (r' < poutRows g)%nat -> (c' < poutCols g)%nat ->
  dsource x n o r c i -> dsource x n o' r' c' i -> o = o' /\ r = r' /\ c = c'.
Proof. intros H1 H2 H3 H4 (k & E & ->) (k' & E' & Eq). apply some_lt in E, E'. apply (pbase_inj g Hg) in Eq; auto. tauto. Qed.

Lemma backward_ok e x ein N : dsize x N (pI g) -> dcols e = pI g -> dsize ein N (pO g) ->
  (forall n o r c, (n < N)%nat -> (o < pfm g)%nat -> (r < poutRows g)%nat -> (c < poutCols g)%nat -> exists k, (k < KC)%nat /\ dltb lowest (dentry x n o r c k) = true) ->
  exists eout, d_maxp_backward g e x ein = Ok eout /\ dsize eout N (pI g) /\
    forall n i, (n < N)%nat ->
      (forall o r c, (o < pfm g)%nat -> (r < poutRows g)%nat -> (c < poutCols g)%nat -> dsource x n o r c i -> dat eout n i = dat ein n (pout g o r c)) /\
      ((forall o r c, (o < pfm g)%nat -> (r < poutRows g)%nat -> (c < poutCols g)%nat -> ~ dsource x n o r c i) -> dat eout n i = dint 0).
Proof.
  intros Hx He (N1 & N2) Hlow. unfold d_maxp_backward. rewrite (proj1 Hx), He. cbv zeta.
  match goal with |- context [for_ N ?b ?y0] => destruct (for_inv (fun m (E : dmat) => dsize E N (pI g) /\ (forall n i, (m <= n)%nat -> dat E n i = dint 0) /\ forall n i, (n < m)%nat ->
      (forall o r c, (o < pfm g)%nat -> (r < poutRows g)%nat -> (c < poutCols g)%nat -> dsource x n o r c i -> dat E n i = dat ein n (pout g o r c)) /\
      ((forall o r c, (o < pfm g)%nat -> (r < poutRows g)%nat -> (c < poutCols g)%nat -> ~ dsource x n o r c i) -> dat E n i = dint 0)) b N y0) as (Y & E & SY & _ & FY) end; [split; [split; auto|]; split; auto; intros; lia| |eauto].
  intros n y0 Hn (S0 & Z0 & F0).
  match goal with |- context [pool g ?b y0] => destruct (pool_inv g Hg (fun j (E : dmat) => dsize E N (pI g) /\ (forall n' j', n' <> n -> dat E n' j' = dat y0 n' j') /\ forall i,
      (forall o r c, (o < pfm g)%nat -> (r < poutRows g)%nat -> (c < poutCols g)%nat -> (pout g o r c < j)%nat -> dsource x n o r c i -> dat E n i = dat ein n (pout g o r c)) /\
      ((forall o r c, (o < pfm g)%nat -> (r < poutRows g)%nat -> (c < poutCols g)%nat -> (pout g o r c < j)%nat -> ~ dsource x n o r c i) -> dat E n i = dint 0)) b y0) as (y1 & E1 & S1 & G1 & F1) end.
  - split; auto. split; auto. intros i. split; [intros; lia|]. intros _. apply Z0. lia.
  - intros o r c y1 Ho Hr Hc (S1 & G1 & F1). rewrite (region_argmax x n o r c N) by auto. cbn [bind]. pose proof (pout_range g Hg o r c Ho Hr Hc) as Hout. pose proof (pbase_range g Hg o r c Ho Hr Hc) as Hin.
    rewrite dmget_Ok by lia. cbn [bind]. destruct (proj1 (dmaxs_some KC (dentry x n o r c)) (Hlow n o r c Hn Ho Hr Hc)) as (k & Ek). rewrite Ek. cbn [idxOf]. pose proof (some_lt _ _ _ _ _ _ Ek) as Hk.
    unfold zidx. destruct (Z.ltb_spec (Z.of_nat (pbase g o r c + k)) 0); [lia|]. rewrite Nat2Z.id. cbn [bind].
    destruct (dmset_Ok y1 n (pbase g o r c + k) (dat ein n (pout g o r c)) N (pI g) S1 Hn ltac:(lia)) as (y2 & E2 & S2 & V2 & W2). exists y2. split; auto. split; auto. split.
    + intros n' j' Hne. rewrite W2 by auto. auto.
    + intros i. destruct (F1 i) as (F2 & F3). assert (Src : dsource x n o r c (pbase g o r c + k)) by (exists k; auto). destruct (Nat.eq_dec i (pbase g o r c + k)) as [->|Ne].
      * rewrite V2. split; [|intros Hno; exfalso; apply (Hno o r c); auto]. intros o' r' c' Ho' Hr' Hc' _ Sr. destruct (dsource_inj x n o r c o' r' c' _ Hr Hc Hr' Hc' Src Sr) as (-> & -> & ->). auto.
      * rewrite W2 by auto. split.
        -- intros o' r' c' Ho' Hr' Hc' Hlt Sr. apply F2; auto. destruct (Nat.eq_dec (pout g o' r' c') (pout g o r c)) as [Eq|]; [|lia]. exfalso. apply (pout_inj g Hg) in Eq; auto. destruct Eq as (-> & -> & ->). destruct Sr as (k' & Ek' & ->). congruence.
        -- intros H'. apply F3. intros o' r' c' Ho' Hr' Hc' Hlt. apply H'; auto.
  - exists y1. split; auto. split; auto. split; [intros n' i Hn'; rewrite G1 by lia; apply Z0; lia|]. intros n' i Hn'. destruct (Nat.eq_dec n' n) as [->|Hne].
    + destruct (F1 i) as (F2 & F3). split; [intros; apply F2; auto using pout_range|]. intros H'. apply F3. intros. apply H'; auto.
    + rewrite !G1 by auto. apply F0. lia.
Qed.
(** without a number above -DBL_MAX the write is out of range *)
Lemma backward_ub e x ein N n o r c : dsize x N (pI g) -> dcols e = pI g -> (n < N)%nat -> (o < pfm g)%nat -> (r < poutRows g)%nat -> (c < poutCols g)%nat ->
  (forall k, (k < KC)%nat -> dltb lowest (dentry x n o r c k) = false) -> d_maxp_backward g e x ein = UB.
Proof.
  intros Hx He Hn Ho Hr Hc Hlow. unfold d_maxp_backward. rewrite (proj1 Hx), He. cbv zeta.
  assert (B : forall n o r c, (n < N)%nat -> (o < pfm g)%nat -> (r < poutRows g)%nat -> (c < poutCols g)%nat -> forall (st : dmat * nat), dsize (fst st) N (pI g) ->
    fine (fun st : dmat * nat => dsize (fst st) N (pI g)) (let '(a, outputIdx) := st in
      a <- (' (_, idx) <- region g (pbase g o r c) (fun inputIdx st => let '(m, idx) := st in v <- dmget x n inputIdx ;; Ok (if dltb m v then (v, Z.of_nat inputIdx) else (m, idx))) (lowest, (-1)%Z) ;;
            d <- dmget ein n outputIdx ;; idx <- zidx idx ;; dmset a n idx d) ;; Ok (a, S outputIdx))).
  { clear n o r c Hn Ho Hr Hc Hlow. intros n o r c Hn Ho Hr Hc [a j] Sa. rewrite (region_argmax x n o r c N) by auto. cbn [bind]. pose proof (pbase_range g Hg o r c Ho Hr Hc) as Hin.
    unfold dmget. destruct (Nat.ltb n (drows ein) && Nat.ltb j (dcols ein))%bool; cbn [bind]; [|now left]. destruct (snd (dmaxs KC (dentry x n o r c))) as [k|] eqn:Ek; cbn [idxOf]; [|now left].
    pose proof (some_lt _ _ _ _ _ _ Ek) as Hk. unfold zidx. destruct (Z.ltb_spec (Z.of_nat (pbase g o r c + k)) 0); [lia|]. rewrite Nat2Z.id. cbn [bind].
    destruct (dmset_Ok a n (pbase g o r c + k) (dat ein n j) N (pI g) Sa Hn ltac:(lia)) as (y2 & E2 & S2 & _). rewrite E2. cbn [bind]. right. eauto. }
  assert (F : forall n s, (n < N)%nat -> dsize s N (pI g) -> fine (fun s => dsize s N (pI g)) (pool g (fun fmo ro co inputIdx outputIdx e =>
      ' (m, idx) <- region g inputIdx (fun inputIdx st => let '(m, idx) := st in v <- dmget x n inputIdx ;; Ok (if dltb m v then (v, Z.of_nat inputIdx) else (m, idx))) (lowest, (-1)%Z) ;;
      d <- dmget ein n outputIdx ;; idx <- zidx idx ;; dmset e n idx d) s)).
  { intros n' s Hn' Ss. rewrite (pool_for g Hg). match goal with |- fine _ (bind ?l _) => assert (FF : fine (fun st : dmat * nat => dsize (fst st) N (pI g)) l) end.
    { apply for_fine; [|assumption]. intros o' s1 Ho' I1. apply for_fine; [|assumption]. intros r' s2 Hr' I2. apply for_fine; [|assumption]. intros c' s3 Hc' I3. apply B; auto. }
    destruct FF as [-> | ([a j] & -> & Sa)]; [now left|]. cbn [bind]. right. eauto. }
  apply (for_ub (fun s => dsize s N (pI g)) _ N n); auto; [|split; auto]. intros s Ss. rewrite (pool_for g Hg).
  match goal with |- bind ?l _ = _ => assert (U : l = UB) end; [|now rewrite U].
  apply (for_ub (fun st : dmat * nat => dsize (fst st) N (pI g)) _ (pfm g) o); auto.
  { intros o' s1 Ho' I1. apply for_fine; [|assumption]. intros r' s2 Hr' I2. apply for_fine; [|assumption]. intros c' s3 Hc' I3. apply B; auto. }
  intros s1 I1. apply (for_ub (fun st : dmat * nat => dsize (fst st) N (pI g)) _ (poutRows g) r); auto.
  { intros r' s2 Hr' I2. apply for_fine; [|assumption]. intros c' s3 Hc' I3. apply B; auto. }
  intros s2 I2. apply (for_ub (fun st : dmat * nat => dsize (fst st) N (pI g)) _ (poutCols g) c); auto.
  intros [a j] I3. rewrite (region_argmax x n o r c N) by auto. cbn [bind].
  destruct (snd (dmaxs KC (dentry x n o r c))) as [k|] eqn:Ek.
  { exfalso. destruct (proj2 (dmaxs_some KC (dentry x n o r c)) (ex_intro _ k Ek)) as (k' & Hk' & L). rewrite Hlow in L; auto. discriminate. }
  unfold dmget. destruct (Nat.ltb n (drows ein) && Nat.ltb j (dcols ein))%bool; reflexivity.
Qed.
End MP.
