(** Properties of local response normalization (C73, C74).  Vocabulary: LRN_Spec.v, Layer_Spec.v. *)
From Verif Require Import Base BaseFacts Matrix RSum MatOps Vec Acc Deriv Layer_Model Layer_Spec Layer_Proofs SimpleLayers_Model LRN_Model LRN_Spec LRN_Proofs.
Local Open Scope R_scope.

Lemma forward_ahead junk fm r c k alpha beta s X dropout q Y : 0 < k -> 0 <= alpha -> lrn_inv fm r c k alpha beta s -> cols X = (fm * (r * c))%nat ->
  lrn_forward junk s X dropout = Ok (q, Y, 0) -> lrn_inv fm r c k alpha beta q /\ ahead fm r c k alpha beta X q.
Proof.
  intros Hk Ha Hi HX E. destruct (forward_ok junk fm r c k alpha beta Hk Ha s X dropout Hi HX) as (q' & Y' & E' & Hq & SY & Ex & Ey & Sd & F).
  rewrite E in E'. injection E' as <- <-. split; auto. split; auto. rewrite Ey. auto.
Qed.

Lemma history_inv junk fm r c k n alpha beta s0 s : 0 < k -> 0 <= alpha ->
  lrn_new junk fm r c k n alpha beta = Ok s0 -> history (lrn_class junk) (fm * (r * c)) (fm * (r * c)) s0 s -> lrn_inv fm r c k alpha beta s.
Proof.
  intros Hk Ha E0. apply lrn_new_inv in E0.
  induction 1 as [|s p q Hh IH Hp E|s X dropout q Y rg Hh IH HX E|s X dropout q Y rg ein bp q2 eout Hh IH HX E He1 He2 Eb]; auto.
  - change (paramCount (lrn_class junk) s) with 0%nat in Hp. apply length_zero_iff_nil in Hp. subst p. injection E as <-. exact IH.
  - destruct (forward_ok junk fm r c k alpha beta Hk Ha s X dropout IH HX) as (q' & Y' & E' & Hq & _).
    change (lrn_forward junk s X dropout = Ok (q, Y, rg)) in E. rewrite E in E'. injection E' as -> -> _. auto.
  - destruct (forward_ok junk fm r c k alpha beta Hk Ha s X dropout IH HX) as (q' & Y' & E' & _).
    change (lrn_forward junk s X dropout = Ok (q, Y, rg)) in E. rewrite E in E'. injection E' as -> -> ->.
    destruct (forward_ahead junk fm r c k alpha beta s X dropout q' Y' Hk Ha IH HX E) as (Hq & Hah).
    destruct (backward_ok junk fm r c k alpha beta Hk Ha X q' ein bp Hq Hah HX (conj He1 He2)) as (q3 & eo & E3 & Hq3 & _).
    change (lrn_backward junk q' ein bp = Ok (q2, eout)) in Eb. rewrite Eb in E3. injection E3 as -> ->. auto.
Qed.

(** * C73: the output *)
(** For all sizes, settings, batches and whatever the layer was used for before.  Missing: the window should be
    given by the setting n, and should not depend on the position of an instance in the batch. *)
Theorem C73_output_partial junk fm r c k n alpha beta s0 s X dropout :
  0 < k -> 0 <= alpha ->
  lrn_new junk fm r c k n alpha beta = Ok s0 -> history (lrn_class junk) (fm * (r * c)) (fm * (r * c)) s0 s ->
  cols X = (fm * (r * c))%nat ->
  exists q Y, forwardPropagate (lrn_class junk) s X dropout = Ok (q, Y, 0) /\ rows Y = rows X /\ cols Y = cols X /\
    forall b i p, (b < rows X)%nat -> (i < fm)%nat -> (p < r * c)%nat ->
      at_ Y b (i * (r * c) + p)%nat = computed fm (r * c) k alpha beta X b i p.
Proof.
  intros Hk Ha E0 Hh HX. pose proof (history_inv _ _ _ _ _ _ _ _ _ _ Hk Ha E0 Hh) as Hi.
  destruct (forward_ok junk fm r c k alpha beta Hk Ha s X dropout Hi HX) as (q & Y & E & Hq & (S1 & S2) & _ & _ & _ & F).
  exists q, Y. split; [exact E|]. split; auto. split; [congruence|]. intros b i p Hb Hi' Hp.
  destruct (F b (i * (r * c) + p)%nat Hb ltac:(nia)) as (_ & ->). destruct (split_index (r * c) i p Hp) as (D1 & D2).
  unfold computed, normalized, denomOf. now rewrite D1, D2.
Qed.
Print Assumptions C73_output_partial.

(** With k >= 1 and non-negative beta the layer only shrinks values. *)
Theorem C73_shrinks junk fm r c k n alpha beta s0 s X dropout q Y rg :
  1 <= k -> 0 <= alpha -> 0 <= beta ->
  lrn_new junk fm r c k n alpha beta = Ok s0 -> history (lrn_class junk) (fm * (r * c)) (fm * (r * c)) s0 s ->
  cols X = (fm * (r * c))%nat -> forwardPropagate (lrn_class junk) s X dropout = Ok (q, Y, rg) ->
  forall b j, (b < rows X)%nat -> (j < cols X)%nat ->
    Rabs (at_ Y b j) <= Rabs (at_ X b j) /\ (at_ X b j = 0 -> at_ Y b j = 0) /\ (0 < at_ X b j -> 0 < at_ Y b j) /\ (at_ X b j < 0 -> at_ Y b j < 0).
Proof.
  intros Hk Ha Hbe E0 Hh HX E b j Hb Hj. pose proof (history_inv _ _ _ _ _ _ _ _ _ _ (Rlt_le_trans _ _ _ Rlt_0_1 Hk) Ha E0 Hh) as Hi.
  destruct (forward_ok junk fm r c k alpha beta ltac:(lra) Ha s X dropout Hi HX) as (q' & Y' & E' & _ & _ & _ & _ & _ & F).
  change (lrn_forward junk s X dropout = Ok (q, Y, rg)) in E. rewrite E in E'. injection E' as -> -> ->.
  destruct (F b j Hb ltac:(lia)) as (_ & ->). set (d := denomOf fm r c k alpha X b j).
  assert (Hd : 1 <= d). { unfold d, denomOf. pose proof (energy_nonneg fm (r * c) X (j / (r * c) - b / 2) (Nat.min (fm - 1) (j / (r * c) + b / 2)) b (j mod (r * c))). nra. }
  assert (P1 : 0 < Rpower d (- beta)) by apply exp_pos.
  assert (P2 : Rpower d (- beta) <= 1).
  { unfold Rpower. rewrite <- exp_0. assert (0 <= ln d) by (rewrite <- ln_1; destruct (Req_dec d 1) as [->|]; [lra|left; apply ln_increasing; lra]).
    destruct (Req_dec (- beta * ln d) 0) as [->|]; [lra|]. left. apply exp_increasing. nra. }
  set (x := at_ X b j). set (w := Rpower d (- beta)) in *. split; [|split; [|split]].
  - rewrite Rabs_mult, (Rabs_right w) by lra. pose proof (Rabs_pos x). nra.
  - intros ->. ring.
  - nra.
  - nra.
Qed.
Print Assumptions C73_shrinks.

(** The setting n has no influence at all. *)
Theorem C73_setting_n_refuted junk fm r c k n n' alpha beta s s' X dropout :
  0 < k -> 0 <= alpha ->
  lrn_new junk fm r c k n alpha beta = Ok s -> lrn_new junk fm r c k n' alpha beta = Ok s' -> cols X = (fm * (r * c))%nat ->
  exists q q' Y Y', forwardPropagate (lrn_class junk) s X dropout = Ok (q, Y, 0) /\ forwardPropagate (lrn_class junk) s' X dropout = Ok (q', Y', 0) /\
    meq Y Y'.
Proof.
  intros Hk Ha E E' HX. apply lrn_new_inv in E. apply lrn_new_inv in E'.
  destruct (forward_ok junk fm r c k alpha beta Hk Ha s X dropout E HX) as (q & Y & F & _ & (S1 & S2) & _ & _ & _ & G).
  destruct (forward_ok junk fm r c k alpha beta Hk Ha s' X dropout E' HX) as (q' & Y' & F' & _ & (S1' & S2') & _ & _ & _ & G').
  exists q, q', Y, Y'. split; [exact F|]. split; [exact F'|]. split; [congruence|]. split; [congruence|]. intros b j Hb Hj.
  destruct (G b j ltac:(lia) ltac:(lia)) as (_ & ->). destruct (G' b j ltac:(lia) ltac:(lia)) as (_ & ->). reflexivity.
Qed.
Print Assumptions C73_setting_n_refuted.

Lemma Rpower_neq a b e : 0 < a -> a < b -> 0 < e -> Rpower b (- e) < Rpower a (- e).
Proof. intros Ha Hb He. unfold Rpower. apply exp_increasing. pose proof (ln_increasing a b Ha Hb). nra. Qed.

(** It is never the documented function: for all sizes and all positive settings there is an instance with a
    different output. *)
Theorem C73_documented_refuted junk fm r c k n alpha beta s dropout :
  0 < k -> 0 < alpha -> 0 < beta -> (0 < fm)%nat ->
  lrn_new junk fm r c k n alpha beta = Ok s ->
  exists X q Y, cols X = (fm * (r * c))%nat /\ rows X = 1%nat /\ forwardPropagate (lrn_class junk) s X dropout = Ok (q, Y, 0) /\
    at_ Y 0 0 <> documented fm (r * c) k n alpha beta X 0 0 0.
Proof.
  intros Hk Ha Hb Hf E. assert (Hrc : (0 < r * c)%nat).
  { unfold lrn_new, check in E. destruct (Nat.ltb_spec 0 (r * c)); auto. discriminate. }
  apply lrn_new_inv in E. set (X := mkMat 1 (fm * (r * c)) (fun _ _ => 1)). assert (HX : cols X = (fm * (r * c))%nat) by reflexivity.
  destruct (forward_ok junk fm r c k alpha beta Hk ltac:(lra) s X dropout E HX) as (q & Y & F & _ & _ & _ & _ & _ & G).
  exists X, q, Y. split; auto. split; auto. split; [exact F|]. destruct (G 0%nat 0%nat ltac:(cbn; lia) ltac:(nia)) as (_ & ->).
  unfold documented, normalized. rewrite Nat.mul_0_l, Nat.add_0_l. apply Rgt_not_eq. unfold Rgt. change (at_ X 0 0) with 1. rewrite !Rmult_1_l.
  unfold denomOf. rewrite Nat.div_0_l, Nat.mod_0_l by lia. apply Rpower_neq; auto.
  - pose proof (energy_nonneg fm (r * c) X (0 - 0 / 2) (Nat.min (fm - 1) (0 + 0 / 2)) 0 0). nra.
  - apply Rplus_lt_compat_l. apply Rmult_lt_compat_l; auto.
    assert (Z : energy fm (r * c) X (0 - 0 / 2) (Nat.min (fm - 1) (0 + 0 / 2)) 0 0 = 0).
    { unfold energy. apply rsum_0. intros j _. change (0 / 2)%nat with 0%nat. destruct (Nat.leb_spec (0 - 0) j), (Nat.ltb_spec j (Nat.min (fm - 1) (0 + 0))); auto; lia. }
    rewrite Z. unfold energy. apply Rlt_le_trans with (1 * 1); [lra|].
    eapply Rle_trans; [|apply (rsum_ge_term fm _ 0%nat)]; [|intros j _; destruct (_ && _)%bool; [cbn; lra|lra]|lia].
    cbn beta. destruct (Nat.leb_spec (0 - n / 2) 0); [|lia]. destruct (Nat.ltb_spec 0 (Nat.min (fm - 1) (0 + n / 2) + 1)); [|lia]. cbn. lra.
Qed.
Print Assumptions C73_documented_refuted.

(** The same instance has different outputs in different rows of a batch. *)
Theorem C73_batch_position_refuted junk k n alpha beta s dropout :
  0 < k -> 0 < alpha -> 0 < beta -> lrn_new junk 2 1 1 k n alpha beta = Ok s ->
  exists X q Y, forwardPropagate (lrn_class junk) s X dropout = Ok (q, Y, 0) /\ rows X = 3%nat /\ cols X = 2%nat /\
    (forall j, at_ X 0 j = at_ X 2 j) /\ at_ Y 2 0 < at_ Y 0 0.
Proof.
  intros Hk Ha Hb E. apply lrn_new_inv in E. set (X := mkMat 3 2 (fun _ _ => 1)).
  destruct (forward_ok junk 2 1 1 k alpha beta Hk ltac:(lra) s X dropout E eq_refl) as (q & Y & F & _ & _ & _ & _ & _ & G).
  exists X, q, Y. split; [exact F|]. split; auto. split; auto. split; auto.
  destruct (G 0%nat 0%nat ltac:(cbn; lia) ltac:(cbn; lia)) as (_ & ->). destruct (G 2%nat 0%nat ltac:(cbn; lia) ltac:(cbn; lia)) as (_ & ->).
  change (at_ X 0 0) with 1. change (at_ X 2 0) with 1. rewrite !Rmult_1_l. unfold denomOf, energy. cbn. apply Rpower_neq; lra.
Qed.
Print Assumptions C73_batch_position_refuted.

Example C73_case : exists s, lrn_new (fun _ _ => 0) 2 1 1 2 5 (1/10000) (3/4) = Ok s.
Proof. eexists. reflexivity. Qed.

(** * C74: the gradient *)
(** Batches of one or two instances (for these the layer only multiplies by a constant).  Missing: larger
    batches, see below. *)
Theorem C74_gradient_partial junk fm r c k n alpha beta s0 s X dropout e bp :
  0 < k -> 0 <= alpha ->
  lrn_new junk fm r c k n alpha beta = Ok s0 -> history (lrn_class junk) (fm * (r * c)) (fm * (r * c)) s0 s ->
  cols X = (fm * (r * c))%nat -> (rows X <= 2)%nat -> rows e = rows X -> cols e = cols X ->
  partials_exact (lrn_class junk) s [] X dropout e bp.
Proof.
  intros Hk Ha E0 Hh HX HN He1 He2. pose proof (history_inv _ _ _ _ _ _ _ _ _ _ Hk Ha E0 Hh) as Hi.
  assert (Empty : forall i b f, (b < rows X)%nat -> rsum fm (fun j => if (Nat.leb (i - b / 2) j && Nat.ltb j (Nat.min (fm - 1) (i + b / 2)))%bool then f j else 0) = 0).
  { intros i b f Hb. apply rsum_0. intros j _. replace (b / 2)%nat with 0%nat by (destruct b as [|[|]]; [reflexivity|reflexivity|lia]).
    destruct (Nat.leb_spec (i - 0) j), (Nat.ltb_spec j (Nat.min (fm - 1) (i + 0))); auto; lia. }
  assert (Dn : forall X' b j, rows X' = rows X -> (b < rows X)%nat -> denomOf fm r c k alpha X' b j = k).
  { intros X' b j _ Hb. unfold denomOf, energy. rewrite Empty by auto. ring. }
  destruct (forward_ok junk fm r c k alpha beta Hk Ha s X dropout Hi HX) as (q & Y & E & Hq & SY & Ex & Ey & Sd & F).
  assert (Hah : ahead fm r c k alpha beta X q) by (split; auto; rewrite Ey; auto).
  destruct (backward_ok junk fm r c k alpha beta Hk Ha X q e bp Hq Hah HX (conj He1 (eq_trans He2 HX))) as (q2 & eout & Eb & Hq2 & (So1 & So2) & G).
  exists s, q, Y, 0, q2, eout. split; [reflexivity|]. split; [exact E|]. split; [exact Eb|]. split; [intros i Hi'; cbn in Hi'; lia|].
  intros _. split; [auto|]. split; [congruence|]. intros b i Hb Hi'.
  exists (fun v => inner (rows e) (cols e) (at_ e) (fun b' j => at_ (mupd X b i v) b' j * Rpower k (- beta))). split.
  - intros v. destruct (forward_ok junk fm r c k alpha beta Hk Ha s (mupd X b i v) dropout Hi HX) as (q' & Y' & E' & _ & (SY1 & SY2) & _ & _ & _ & F').
    exists s, q', Y', 0. split; [reflexivity|]. split; [exact E'|]. change (rows (mupd X b i v)) with (rows X) in SY1. split; [congruence|]. split; [congruence|].
    rewrite Rplus_0_r. unfold inner. apply rsum_ext. intros b' Hb'. apply rsum_ext. intros j Hj.
    destruct (F' b' j ltac:(change (rows (mupd X b i v)) with (rows X); lia) ltac:(lia)) as (_ & ->). rewrite (Dn (mupd X b i v) b' j) by (auto; lia). reflexivity.
  - rewrite G by (auto; lia). rewrite Empty by auto. rewrite (Dn X b i eq_refl Hb).
    eapply D_eq; [|apply (D_inner (rows e) (cols e) (at_ e) (fun v => mmap (fun x => x * Rpower k (- beta)) (mupd X b i v)))
      with (Y' := fun b' j => (if (Nat.eqb b' b && Nat.eqb j i)%bool then 1 else 0) * Rpower k (- beta))].
    + unfold inner. rewrite (rsum_ext _ _ (fun b' => rsum (cols e) (fun j => at_ e b' j * (if (Nat.eqb b' b && Nat.eqb j i)%bool then 1 else 0)) * Rpower k (- beta))).
      * rewrite rsum_scal_r. fold (inner (rows e) (cols e) (at_ e) (fun b' j => if (Nat.eqb b' b && Nat.eqb j i)%bool then 1 else 0)).
        rewrite inner_delta by lia. ring.
      * intros b' Hb'. rewrite <- rsum_scal_r. apply rsum_ext. intros j Hj. ring.
    + intros b' j Hb' Hj. cbn [mmap at_]. apply D_scal_r. apply D_mupd.
Qed.
Print Assumptions C74_gradient_partial.

(** With three instances the gradient is wrong, for all positive settings. *)
Theorem C74_gradient_refuted junk k n alpha beta s dropout :
  0 < k -> 0 < alpha -> 0 < beta -> lrn_new junk 2 1 1 k n alpha beta = Ok s ->
  exists X e, rows X = 3%nat /\ cols X = 2%nat /\ rows e = 3%nat /\ cols e = 2%nat /\
    ~ partials_exact (lrn_class junk) s [] X dropout e true.
Proof.
  intros Hk Ha Hb E. apply lrn_new_inv in E. set (X := mkMat 3 2 (fun _ _ => 1)).
  set (e := mkMat 3 2 (fun b j => if (Nat.eqb b 2 && Nat.eqb j 0)%bool then 1 else 0)). exists X, e. repeat split.
  intros (q & q1 & Y & reg & q2 & eout & E1 & E2 & E3 & _ & H). injection E1 as <-.
  destruct (forward_ok junk 2 1 1 k alpha beta Hk ltac:(lra) s X dropout E eq_refl) as (q' & Y' & E' & Hq & SY & Ex & Ey & Sd & F).
  change (lrn_forward junk s X dropout = Ok (q1, Y, reg)) in E2. rewrite E2 in E'. injection E' as -> -> ->.
  assert (Hah : ahead 2 1 1 k alpha beta X q') by (split; auto; rewrite Ey; auto).
  destruct (backward_ok junk 2 1 1 k alpha beta Hk ltac:(lra) X q' e true Hq Hah eq_refl (conj eq_refl eq_refl)) as (q3 & eo & E3' & _ & _ & G).
  change (lrn_backward junk q' e true = Ok (q2, eout)) in E3. rewrite E3 in E3'. injection E3' as -> ->.
  destruct (H eq_refl) as (_ & _ & Hd). destruct (Hd 2%nat 0%nat ltac:(cbn; lia) ltac:(cbn; lia)) as (f & Hf & Df).
  rewrite (G 2%nat 0%nat ltac:(cbn; lia) ltac:(cbn; lia)) in Df. clear G Hd H.
  assert (Ff : forall v, f v = v * Rpower (k + alpha * (v * v)) (- beta)).
  { intros v. destruct (Hf v) as (r0 & r1 & Yv & rg & R1 & R2 & _ & _ & ->). injection R1 as <-.
    destruct (forward_ok junk 2 1 1 k alpha beta Hk ltac:(lra) s (mupd X 2 0 v) dropout E eq_refl) as (q'' & Y'' & E'' & _ & _ & _ & _ & _ & F'').
    change (lrn_forward junk s (mupd X 2 0 v) dropout = Ok (r1, Yv, rg)) in R2. rewrite R2 in E''. injection E'' as -> -> ->.
    unfold inner. cbn [rows cols e rsum at_ Nat.eqb andb].
    destruct (F'' 2%nat 0%nat ltac:(change (rows (mupd X 2 0 v)) with 3%nat; lia) ltac:(cbn; lia)) as (_ & ->). unfold denomOf, energy. cbn. rewrite !at_mupd. cbn.
    replace (k + alpha * (0 + v * v + 0)) with (k + alpha * (v * v)) by ring. ring. }
  change (at_ X 2 0) with 1 in Df.
  assert (D0 : D f 1 (Rpower (k + alpha) (- beta) * (1 - 2 * alpha * beta / (k + alpha)))).
  { apply (D_ext (fun v => v * exp (- beta * ln (k + alpha * (v * v))))); [intros v; now rewrite Ff|].
    eapply D_eq; [|apply (D_mult (fun v => v) (fun v => exp (- beta * ln (k + alpha * (v * v))))); [apply D_id|]; apply D_exp; apply D_scal;
      apply (D_ln (fun v => k + alpha * (v * v))); [apply (D_plus (fun _ => k)); [apply D_const|]; apply D_scal; apply (D_mult (fun v => v) (fun v => v)); apply D_id|nra]].
    unfold Rpower. rewrite !Rmult_1_r. field. lra. }
  pose proof (D_unique _ _ _ _ Df D0) as Q. unfold denomOf, energy, tmpOf in Q. cbn in Q.
  replace (k + alpha * (0 + 1 * 1 + 0)) with (k + alpha) in Q by ring.
  assert (P : 0 < Rpower (k + alpha) (- beta)) by apply exp_pos. set (w := Rpower (k + alpha) (- beta)) in *. clearbody w.
  assert (P2 : 0 < 2 * alpha * beta / (k + alpha)) by (apply Rdiv_lt_0_compat; [apply Rmult_lt_0_compat; lra|lra]).
  nra.
Qed.
Print Assumptions C74_gradient_refuted.
