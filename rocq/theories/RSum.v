(** Finite sums of reals.  No OpenANN content. *)
From Verif Require Import Base BaseFacts.
Local Open Scope R_scope.

(** f 0 + ... + f (n-1) *)
Fixpoint rsum (n : nat) (f : nat -> R) : R :=
  match n with O => 0 | S n' => rsum n' f + f n' end.

Lemma rsum_ext n f g : (forall i, (i < n)%nat -> f i = g i) -> rsum n f = rsum n g.
Proof.
  induction n as [|n IH]; simpl; intros H; auto. rewrite IH, H by (intros; try apply H; lia). auto.
Qed.

Lemma rsum_0 n f : (forall i, (i < n)%nat -> f i = 0) -> rsum n f = 0.
Proof.
  induction n as [|n IH]; simpl; intros H; auto. rewrite IH, H by (intros; try apply H; lia). ring.
Qed.

Lemma rsum_plus n f g : rsum n (fun i => f i + g i) = rsum n f + rsum n g.
Proof. induction n as [|n IH]; simpl; [ring|]. rewrite IH. ring. Qed.

Lemma rsum_minus n f g : rsum n (fun i => f i - g i) = rsum n f - rsum n g.
Proof. induction n as [|n IH]; simpl; [ring|]. rewrite IH. ring. Qed.

Lemma rsum_scal n c f : rsum n (fun i => c * f i) = c * rsum n f.
Proof. induction n as [|n IH]; simpl; [ring|]. rewrite IH. ring. Qed.

Lemma rsum_scal_r n c f : rsum n (fun i => f i * c) = rsum n f * c.
Proof. induction n as [|n IH]; simpl; [ring|]. rewrite IH. ring. Qed.

Lemma rsum_opp n f : rsum n (fun i => - f i) = - rsum n f.
Proof. induction n as [|n IH]; simpl; [ring|]. rewrite IH. ring. Qed.

Lemma rsum_const n c : rsum n (fun _ => c) = INR n * c.
Proof. induction n as [|n IH]; [simpl; ring|]. rewrite S_INR. simpl rsum. rewrite IH. ring. Qed.

Lemma rsum_swap n m f :
  rsum n (fun i => rsum m (fun j => f i j)) = rsum m (fun j => rsum n (fun i => f i j)).
Proof.
  induction n as [|n IH]; simpl.
  - symmetry. apply rsum_0. auto.
  - rewrite IH. symmetry. apply rsum_plus.
Qed.

(** one summand *)
Lemma rsum_single n k f : (k < n)%nat -> (forall i, (i < n)%nat -> i <> k -> f i = 0) -> rsum n f = f k.
Proof.
  induction n as [|n IH]; intros Hk H; [lia|]. simpl. destruct (Nat.eq_dec k n) as [->|Hn].
  - rewrite rsum_0; [ring|]. intros. apply H; lia.
  - rewrite IH, (H n) by (intros; try apply H; lia). ring.
Qed.

Lemma rsum_delta n k (c : R) f : (k < n)%nat ->
  rsum n (fun i => (if Nat.eqb i k then c else 0) * f i) = c * f k.
Proof.
  intros H. rewrite (rsum_single n k); auto.
  - now rewrite Nat.eqb_refl.
  - intros i _ Hi. rewrite (proj2 (Nat.eqb_neq i k)) by auto. ring.
Qed.

Lemma rsum_app n m f : rsum (n + m) f = rsum n f + rsum m (fun i => f (n + i)%nat).
Proof.
  induction m as [|m IH].
  - rewrite Nat.add_0_r. simpl. ring.
  - rewrite Nat.add_succ_r. simpl. rewrite IH. ring.
Qed.

(** sums over blocks *)
Lemma rsum_block n m f :
  rsum (n * m) f = rsum n (fun i => rsum m (fun j => f (i * m + j)%nat)).
Proof.
  induction n as [|n IH]; simpl; auto.
  rewrite Nat.add_comm, rsum_app, IH. reflexivity.
Qed.

Lemma rsum_nonneg n f : (forall i, (i < n)%nat -> 0 <= f i) -> 0 <= rsum n f.
Proof.
  induction n as [|n IH]; simpl; intros H; [lra|].
  assert (0 <= rsum n f) by (apply IH; intros; apply H; lia). specialize (H n ltac:(lia)). lra.
Qed.

Lemma rsum_pos n f : (0 < n)%nat -> (forall i, (i < n)%nat -> 0 < f i) -> 0 < rsum n f.
Proof.
  intros Hn H. destruct n; [lia|]. simpl.
  assert (0 <= rsum n f) by (apply rsum_nonneg; intros i Hi; specialize (H i ltac:(lia)); lra).
  specialize (H n ltac:(lia)). lra.
Qed.

Lemma rsum_le n f g : (forall i, (i < n)%nat -> f i <= g i) -> rsum n f <= rsum n g.
Proof.
  induction n as [|n IH]; simpl; intros H; [lra|].
  assert (rsum n f <= rsum n g) by (apply IH; intros; apply H; lia). specialize (H n ltac:(lia)). lra.
Qed.

Lemma rsum_nonneg_0 n f : (forall i, (i < n)%nat -> 0 <= f i) -> rsum n f = 0 ->
  forall i, (i < n)%nat -> f i = 0.
Proof.
  induction n as [|n IH]; simpl; intros H E i Hi; [lia|].
  assert (0 <= rsum n f) by (apply rsum_nonneg; intros; apply H; lia).
  assert (0 <= f n) by (apply H; lia).
  destruct (Nat.eq_dec i n) as [->|]; [lra|]. apply IH; try lia; [|lra]. intros; apply H; lia.
Qed.

Lemma rsum_ge_term n f k : (forall i, (i < n)%nat -> 0 <= f i) -> (k < n)%nat -> f k <= rsum n f.
Proof.
  induction n as [|n IH]; intros H Hk; [lia|]. simpl.
  assert (0 <= f n) by (apply H; lia).
  assert (0 <= rsum n f) by (apply rsum_nonneg; intros; apply H; lia).
  destruct (Nat.eq_dec k n) as [->|]; [lra|].
  assert (f k <= rsum n f) by (apply IH; try lia; intros; apply H; lia). lra.
Qed.

(** a sum of a list *)
Definition lsum (l : list R) : R := fold_right Rplus 0 l.

Lemma lsum_app a b : lsum (a ++ b) = lsum a + lsum b.
Proof. unfold lsum. induction a as [|x a IH]; simpl; [ring|]. rewrite IH. ring. Qed.

Lemma lsum_map_seq f n : lsum (map f (seq 0 n)) = rsum n f.
Proof.
  induction n as [|n IH]; auto. rewrite seq_S, map_app, lsum_app, IH. simpl. ring.
Qed.

Lemma lsum_rsum l : lsum l = rsum (length l) (fun i => nth i l 0).
Proof.
  rewrite <- lsum_map_seq. f_equal. induction l as [|a l IH]; auto.
  simpl. f_equal. rewrite IH at 1. rewrite <- seq_shift, map_map. reflexivity.
Qed.
