(** The chain rule form of the contract implies exact partial derivatives. *)
From Coq Require Import FunctionalExtensionality.
From Verif Require Import Base BaseFacts Matrix RSum MatOps Vec Deriv Layer_Model Layer_Spec.
Local Open Scope R_scope.

Lemma upd_id (p : list R) k : upd p k p.[k] = p.
Proof. revert k. induction p as [|x p IH]; intros [|k]; simpl; auto. now rewrite IH. Qed.

Lemma mupd_id X n i : mupd X n i (at_ X n i) = X.
Proof.
  destruct X as [r c f]. unfold mupd. simpl. f_equal.
  apply functional_extensionality. intros a. apply functional_extensionality. intros b.
  destruct (Nat.eqb_spec a n), (Nat.eqb_spec b i); simpl; congruence.
Qed.

Lemma D_upd (p : list R) k k' : (k < length p)%nat ->
  D (fun v => (upd p k v).[k']) p.[k] (if Nat.eqb k' k then 1 else 0).
Proof.
  intros H. destruct (Nat.eqb_spec k' k) as [->|Hn].
  - apply (D_ext (fun v => v)); [|apply D_id]. intros v. rewrite nth_upd by auto. now rewrite Nat.eqb_refl.
  - apply (D_ext (fun _ => p.[k'])); [|apply D_const]. intros v.
    rewrite nth_upd by auto. destruct (Nat.eqb_spec k k'); [congruence|auto].
Qed.

Lemma D_mupd X n i a b :
  D (fun v => at_ (mupd X n i v) a b) (at_ X n i) (if (Nat.eqb a n && Nat.eqb b i)%bool then 1 else 0).
Proof.
  apply (D_ext (fun v => if (Nat.eqb a n && Nat.eqb b i)%bool then v else at_ X a b)).
  - intros. now rewrite at_mupd.
  - destruct (_ && _)%bool; [apply D_id|apply D_const].
Qed.

Lemma inner_0_r N M a : inner N M a (fun _ _ => 0) = 0.
Proof. unfold inner. apply rsum_0. intros. apply rsum_0. intros. ring. Qed.

Lemma inner_delta N M a n i : (n < N)%nat -> (i < M)%nat ->
  inner N M a (fun x y => if (Nat.eqb x n && Nat.eqb y i)%bool then 1 else 0) = a n i.
Proof.
  intros Hn Hi. unfold inner. rewrite (rsum_single N n); auto.
  - rewrite (rsum_single M i); auto.
    + rewrite !Nat.eqb_refl. simpl. ring.
    + intros j _ Hj. rewrite (proj2 (Nat.eqb_neq j i)), andb_false_r by auto. ring.
  - intros m _ Hm. apply rsum_0. intros. rewrite (proj2 (Nat.eqb_neq m n)) by auto. simpl. ring.
Qed.

Lemma D_inner N M e (Y : R -> mat) Y' t0 :
  (forall n j, (n < N)%nat -> (j < M)%nat -> D (fun t => at_ (Y t) n j) t0 (Y' n j)) ->
  D (fun t => inner N M e (at_ (Y t))) t0 (inner N M e Y').
Proof.
  intros H. unfold inner.
  apply (D_sum N (fun n t => rsum M (fun j => e n j * at_ (Y t) n j))). intros n Hn.
  apply (D_sum M (fun j t => e n j * at_ (Y t) n j)). intros j Hj. apply D_scal. auto.
Qed.

Lemma contract_partials c I O K Inv smooth s p X dropout e bp :
  contract c I O K Inv smooth -> Inv s -> length p = K ->
  cols X = I -> rows e = rows X -> cols e = O ->
  (forall q, install c s p = Ok q -> smooth q X) ->
  partials_exact c s p X dropout e bp.
Proof.
  intros C HI Hp HX He HO HS.
  set (N := rows X).
  assert (SX : size_is X N I) by (split; auto).
  assert (Se : size_is e N O) by (split; auto).
  (* the run at the given point *)
  destruct (ct_gradient _ _ _ _ _ _ C s dropout N 0 (fun _ => p) (fun _ => 0) (fun _ => X) (fun _ _ => 0))
    as (q1 & Y & reg & Y' & reg' & HF & HY & HI1 & _ & _ & HB); auto.
  { intros. apply D_const. }
  { intros. apply D_const. }
  destruct (HF 0) as (q & Hq & HFq).
  destruct (HB e bp Se) as (q2 & eout & g & HBq & HI2 & Hg & HBt & _).
  exists q, (q1 0), (Y 0), (reg 0), q2, eout. split; auto. split; auto. split; auto. split.
  - intros k Hk. rewrite Hp in Hk.
    destruct (ct_gradient _ _ _ _ _ _ C s dropout N p.[k] (fun v => upd p k v)
       (fun k' => if Nat.eqb k' k then 1 else 0) (fun _ => X) (fun _ _ => 0))
      as (r1 & Z & rg & Z' & rg' & KF & KY & KI1 & KD & Kr & KB); auto.
    { intros. now rewrite upd_length. }
    { intros k' Hk'. apply D_upd. lia. }
    { intros. apply D_const. }
    { intros q' Hq'. rewrite upd_id in Hq'. auto. }
    destruct (KF p.[k]) as (r & Hr & KFr). rewrite upd_id in Hr.
    assert (r = q) by congruence. subst r.
    assert (r1 p.[k] = q1 0) as E1 by congruence.
    destruct (KB e bp Se) as (r2 & eo & h & KBq & _ & Kh & Kt & Kf).
    rewrite E1 in KBq. assert (r2 = q2 /\ eo = eout) as (-> & ->) by (split; congruence).
    assert (G : inner N O (at_ e) Z' + rg' = h k).
    { assert (HS' : rsum K (fun k0 => h k0 * (if Nat.eqb k0 k then 1 else 0)) = h k).
      { rewrite (rsum_ext K _ (fun i => (if Nat.eqb i k then 1 else 0) * h i)) by (intros; ring).
        rewrite rsum_delta by auto. ring. }
      destruct bp.
      - destruct (Kt eq_refl) as (_ & Q). rewrite Q, HS', inner_0_r. ring.
      - rewrite Kf; auto. }
    exists (fun v => inner N O (at_ e) (at_ (Z v)) + rg v), (h k). split; [|split].
    + intros v. destruct (KF v) as (r & Hr' & KFr'). exists r, (r1 v), (Z v), (rg v).
      destruct (KY v) as (Y1 & Y2). destruct Se as (S1 & S2).
      rewrite Y1, Y2, S1, S2. auto.
    + auto.
    + rewrite <- G. apply D_plus; auto. now apply D_inner.
  - intros ->. destruct (HBt eq_refl) as ((E1 & E2) & _). split; [exact E1|]. split; [congruence|].
    intros n i Hn Hi. fold N in Hn. rewrite HX in Hi.
    destruct (ct_gradient _ _ _ _ _ _ C s dropout N (at_ X n i) (fun _ => p)
       (fun _ => 0) (fun v => mupd X n i v) (fun a b => if (Nat.eqb a n && Nat.eqb b i)%bool then 1 else 0))
      as (r1 & Z & rg & Z' & rg' & KF & KY & KI1 & KD & Kr & KB); auto.
    { intros. apply D_const. }
    { intros. apply D_mupd. }
    { intros q' Hq'. rewrite mupd_id. auto. }
    destruct (KF (at_ X n i)) as (r & Hr & KFr). rewrite mupd_id in KFr.
    assert (r = q) by congruence. subst r.
    assert (r1 (at_ X n i) = q1 0) as Eq by congruence.
    destruct (KB e true Se) as (r2 & eo & h & KBq & _ & Kh & Kt & Kf).
    rewrite Eq in KBq. assert (r2 = q2 /\ eo = eout) as (-> & ->) by (split; congruence).
    destruct (Kt eq_refl) as (_ & G). rewrite inner_delta in G by auto.
    rewrite rsum_0 in G by (intros; ring). rewrite Rplus_0_l in G.
    exists (fun v => inner N O (at_ e) (at_ (Z v)) + rg v). split.
    + intros v. destruct (KF v) as (r & Hr' & KFr'). exists r, (r1 v), (Z v), (rg v).
      destruct (KY v) as (Y1 & Y2). destruct Se as (S1 & S2).
      rewrite Y1, Y2, S1, S2. auto.
    + rewrite <- G. apply D_plus; auto. now apply D_inner.
Qed.
