(** The derivative of the objective of a sparse auto-encoder along a curve of parameters. *)
From Verif Require Import Base BaseFacts Matrix RSum MatOps Vec Deriv Activation_Model
  Activation_Proofs Layer_Layout SAE_Spec.
Local Open Scope R_scope.

Section Grad.
Context (M H N : nat) (beta rho lambda : R) (act : ActivationFunction) (x : nat -> nat -> R).
Context (W1 W2 : R -> nat -> nat -> R) (b1 b2 : R -> nat -> R) (t0 : R).
Context (W1' W2' : nat -> nat -> R) (b1' b2' : nat -> R).
Hypothesis DW1 : forall h d, (h < H)%nat -> (d < M)%nat -> D (fun t => W1 t h d) t0 (W1' h d).
Hypothesis DW2 : forall d h, (d < M)%nat -> (h < H)%nat -> D (fun t => W2 t d h) t0 (W2' d h).
Hypothesis Db1 : forall h, (h < H)%nat -> D (fun t => b1 t h) t0 (b1' h).
Hypothesis Db2 : forall d, (d < M)%nat -> D (fun t => b2 t d) t0 (b2' d).

Definition gA1 t n h := rsum M (fun d => x n d * W1 t h d) + b1 t h.
Definition gZ1 t n h := act_fun act (gA1 t n h).
Definition gA2 t n d := rsum H (fun h => gZ1 t n h * W2 t d h) + b2 t d.
Definition gZ2 t n d := act_fun act (gA2 t n d).
Definition gm t h := rsum N (fun n => gZ1 t n h) / INR N.

Definition gE t : R :=
  rsum N (fun n => rsum M (fun d => (gZ2 t n d - x n d) ^ 2)) / (2 * INR N) +
  lambda / 2 * (rsum H (fun h => rsum M (fun d => W1 t h d ^ 2)) +
                rsum M (fun d => rsum H (fun h => W2 t d h ^ 2))) +
  beta * rsum H (fun h => KL rho (gm t h)).

(** what errorGradient computes *)
Definition del2 n d := (gZ2 t0 n d - x n d) * act_der act (gZ2 t0 n d).
Definition klD h := - rho * / gm t0 h + (1 - rho) * / (1 - gm t0 h).
Definition del1 n h :=
  (rsum M (fun d => del2 n d * W2 t0 d h) + beta * klD h) * act_der act (gZ1 t0 n h).
Definition gW1 h d := rsum N (fun n => del1 n h * x n d) / INR N + lambda * W1 t0 h d.
Definition gb1 h := rsum N (fun n => del1 n h) / INR N.
Definition gW2 d h := rsum N (fun n => del2 n d * gZ1 t0 n h) / INR N + lambda * W2 t0 d h.
Definition gb2 d := rsum N (fun n => del2 n d) / INR N.

Hypothesis N0 : (0 < N)%nat.
Hypothesis rho01 : 0 < rho < 1.
Hypothesis m01 : forall h, (h < H)%nat -> 0 < gm t0 h < 1.
Hypothesis smooth1 : forall n h, (n < N)%nat -> (h < H)%nat -> act_smooth act (gA1 t0 n h).
Hypothesis smooth2 : forall n d, (n < N)%nat -> (d < M)%nat -> act_smooth act (gA2 t0 n d).

Lemma D_KL (f : R -> R) f' : 0 < f t0 < 1 -> D f t0 f' ->
  D (fun t => KL rho (f t)) t0 ((- rho * / f t0 + (1 - rho) * / (1 - f t0)) * f').
Proof.
  intros Hf Df. unfold KL.
  assert (A : D (fun t => ln (rho / f t)) t0 (- / f t0 * f')).
  { eapply D_eq; [|apply (D_ln (fun t => rho / f t))].
    2:{ apply (D_div (fun _ => rho) f); [apply D_const|exact Df|lra]. }
    - unfold Rsqr. field. lra.
    - apply Rdiv_lt_0_compat; lra. }
  assert (B : D (fun t => ln ((1 - rho) / (1 - f t))) t0 (/ (1 - f t0) * f')).
  { eapply D_eq; [|apply (D_ln (fun t => (1 - rho) / (1 - f t)))].
    2:{ apply (D_div (fun _ => 1 - rho) (fun t => 1 - f t)); [apply D_const| |lra].
        apply (D_minus (fun _ => 1) f); [apply D_const|exact Df]. }
    - unfold Rsqr. field. lra.
    - apply Rdiv_lt_0_compat; lra. }
  eapply D_eq; [|apply (D_plus (fun t => rho * ln (rho / f t)) (fun t => (1 - rho) * ln ((1 - rho) / (1 - f t))));
    apply D_scal; [exact A|exact B]].
  ring.
Qed.

Lemma D_sq (f : R -> R) f' : D f t0 f' -> D (fun t => f t ^ 2) t0 (2 * f t0 * f').
Proof.
  intros Df. apply (D_ext (fun t => f t * f t)); [intros; ring|].
  eapply D_eq; [|apply (D_mult f f); exact Df]. ring.
Qed.

Let A1' n h := rsum M (fun d => 0 * W1 t0 h d + x n d * W1' h d) + b1' h.
Let Z1' n h := act_der act (gZ1 t0 n h) * A1' n h.
Let A2' n d := rsum H (fun h => Z1' n h * W2 t0 d h + gZ1 t0 n h * W2' d h) + b2' d.
Let Z2' n d := act_der act (gZ2 t0 n d) * A2' n d.

Lemma D_Z1 n h : (n < N)%nat -> (h < H)%nat -> D (fun t => gZ1 t n h) t0 (Z1' n h).
Proof.
  intros Hn Hh. apply (D_comp (fun t => gA1 t n h) (act_fun act)).
  - apply (D_affine M (fun _ d => x n d) (fun t d => W1 t h d) (fun t => b1 t h) (fun _ => 0) (W1' h)); auto.
    intros. apply D_const.
  - now apply act_derivative, smooth1.
Qed.

Lemma D_Z2 n d : (n < N)%nat -> (d < M)%nat -> D (fun t => gZ2 t n d) t0 (Z2' n d).
Proof.
  intros Hn Hd. apply (D_comp (fun t => gA2 t n d) (act_fun act)).
  - apply (D_affine H (fun t h => gZ1 t n h) (fun t h => W2 t d h) (fun t => b2 t d) (Z1' n) (W2' d)); auto.
    intros. now apply D_Z1.
  - now apply act_derivative, smooth2.
Qed.

Lemma gE_derivative : D gE t0
  (rsum H (fun h => rsum M (fun d => gW1 h d * W1' h d)) + rsum M (fun d => rsum H (fun h => gW2 d h * W2' d h)) +
   rsum H (fun h => gb1 h * b1' h) + rsum M (fun d => gb2 d * b2' d)).
Proof.
  assert (HN : INR N <> 0) by (apply not_0_INR; lia).
  assert (E1 : D (fun t => rsum N (fun n => rsum M (fun d => (gZ2 t n d - x n d) ^ 2)) / (2 * INR N)) t0
     (rsum N (fun n => rsum M (fun d => (gZ2 t0 n d - x n d) * Z2' n d)) / INR N)).
  { eapply D_eq; [|apply (D_scal_r (/ (2 * INR N)) (fun t => rsum N (fun n => rsum M (fun d => (gZ2 t n d - x n d) ^ 2))));
      apply (D_sum N (fun n t => rsum M (fun d => (gZ2 t n d - x n d) ^ 2))); intros n Hn;
      apply (D_sum M (fun d t => (gZ2 t n d - x n d) ^ 2)); intros d Hd;
      apply (D_sq (fun t => gZ2 t n d - x n d));
      apply (D_minus (fun t => gZ2 t n d) (fun _ => x n d)); [now apply D_Z2|apply D_const]].
    rewrite (rsum_ext N _ (fun n => 2 * rsum M (fun d => (gZ2 t0 n d - x n d) * Z2' n d))).
    - rewrite rsum_scal. field. auto.
    - intros n Hn. rewrite <- rsum_scal. apply rsum_ext. intros. ring. }
  assert (E2 : D (fun t => lambda / 2 * (rsum H (fun h => rsum M (fun d => W1 t h d ^ 2)) +
                rsum M (fun d => rsum H (fun h => W2 t d h ^ 2)))) t0
     (rsum H (fun h => rsum M (fun d => lambda * W1 t0 h d * W1' h d)) +
      rsum M (fun d => rsum H (fun h => lambda * W2 t0 d h * W2' d h)))).
  { eapply D_eq; [|apply D_scal;
      apply (D_plus (fun t => rsum H (fun h => rsum M (fun d => W1 t h d ^ 2)))
                    (fun t => rsum M (fun d => rsum H (fun h => W2 t d h ^ 2))));
      [apply (D_sum H (fun h t => rsum M (fun d => W1 t h d ^ 2))); intros h Hh;
       apply (D_sum M (fun d t => W1 t h d ^ 2)); intros d Hd; apply (D_sq (fun t => W1 t h d)); now apply DW1|
       apply (D_sum M (fun d t => rsum H (fun h => W2 t d h ^ 2))); intros d Hd;
       apply (D_sum H (fun h t => W2 t d h ^ 2)); intros h Hh; apply (D_sq (fun t => W2 t d h)); now apply DW2]].
    rewrite Rmult_plus_distr_l, <- !rsum_scal. f_equal; apply rsum_ext; intros; rewrite <- rsum_scal;
      apply rsum_ext; intros; field. }
  assert (E3 : D (fun t => beta * rsum H (fun h => KL rho (gm t h))) t0
     (rsum N (fun n => rsum H (fun h => beta * klD h * Z1' n h)) / INR N)).
  { eapply D_eq; [|apply D_scal; apply (D_sum H (fun h t => KL rho (gm t h))); intros h Hh;
      apply (D_KL (fun t => gm t h)); [now apply m01|];
      apply (D_scal_r (/ INR N) (fun t => rsum N (fun n => gZ1 t n h)));
      apply (D_sum N (fun n t => gZ1 t n h)); intros n Hn; now apply D_Z1].
    rewrite rsum_swap. unfold Rdiv. rewrite <- rsum_scal_r, <- rsum_scal. apply rsum_ext. intros h Hh.
    rewrite rsum_scal. unfold klD. ring. }
  eapply D_eq; [|apply (D_plus _ _ _ _ _ (D_plus _ _ _ _ _ E1 E2) E3)].
  assert (C2 := affine_chain N H M del2 (gZ1 t0) Z1' (W2 t0) W2' b2').
  assert (C1 := affine_chain N M H del1 x (fun _ _ => 0) (W1 t0) W1' b1').
  rewrite (rsum_ext N _ (fun n => rsum M (fun d => del2 n d * A2' n d))).
  2:{ intros n Hn. apply rsum_ext. intros d Hd. unfold Z2', del2. ring. }
  unfold A2' at 1. rewrite C2.
  assert (C3 : rsum N (fun n => rsum H (fun h => rsum M (fun d => del2 n d * W2 t0 d h) * Z1' n h)) +
               rsum N (fun n => rsum H (fun h => beta * klD h * Z1' n h)) =
               rsum N (fun n => rsum H (fun h => del1 n h * A1' n h))).
  { rewrite <- rsum_plus. apply rsum_ext. intros n Hn. rewrite <- rsum_plus. apply rsum_ext. intros h Hh.
    unfold Z1', del1. ring. }
  set (RR := rsum N (fun n => rsum H (fun h => del1 n h * A1' n h))) in C3. unfold A1' in RR. unfold RR in C3. rewrite C1 in C3. clear RR.
  rewrite (rsum_0 N (fun n => rsum M (fun i => rsum H (fun j => del1 n j * W1 t0 j i) * 0))) in C3.
  2:{ intros. apply rsum_0. intros. ring. }
  rewrite (rsum_plus H) in C3. rewrite (rsum_plus M).
  set (S1 := rsum N (fun n => rsum H (fun h => rsum M (fun d => del2 n d * W2 t0 d h) * Z1' n h))) in *.
  set (S2 := rsum N (fun n => rsum H (fun h => beta * klD h * Z1' n h))) in *.
  assert (F1 : rsum H (fun h => rsum M (fun d => gW1 h d * W1' h d)) =
     rsum H (fun j => rsum M (fun i => rsum N (fun n => del1 n j * x n i) * W1' j i)) / INR N +
     rsum H (fun h => rsum M (fun d => lambda * W1 t0 h d * W1' h d))).
  { unfold Rdiv. rewrite <- rsum_scal_r, <- rsum_plus. apply rsum_ext. intros h Hh.
    rewrite <- rsum_scal_r, <- rsum_plus. apply rsum_ext. intros d Hd. unfold gW1, Rdiv. ring. }
  assert (F2 : rsum M (fun d => rsum H (fun h => gW2 d h * W2' d h)) =
     rsum M (fun d => rsum H (fun h => rsum N (fun n => del2 n d * gZ1 t0 n h) * W2' d h)) / INR N +
     rsum M (fun d => rsum H (fun h => lambda * W2 t0 d h * W2' d h))).
  { unfold Rdiv. rewrite <- rsum_scal_r, <- rsum_plus. apply rsum_ext. intros h Hh.
    rewrite <- rsum_scal_r, <- rsum_plus. apply rsum_ext. intros d Hd. unfold gW2, Rdiv. ring. }
  assert (F3 : rsum H (fun h => gb1 h * b1' h) = rsum H (fun j => rsum N (fun n => del1 n j) * b1' j) / INR N).
  { unfold Rdiv. rewrite <- rsum_scal_r. apply rsum_ext. intros. unfold gb1, Rdiv. ring. }
  assert (F4 : rsum M (fun d => gb2 d * b2' d) = rsum M (fun j => rsum N (fun n => del2 n j) * b2' j) / INR N).
  { unfold Rdiv. rewrite <- rsum_scal_r. apply rsum_ext. intros. unfold gb2, Rdiv. ring. }
  rewrite F1, F2, F3, F4. unfold Rdiv in *.
  replace (S2 * / INR N) with ((S1 + S2) * / INR N - S1 * / INR N) by ring. rewrite C3. ring.
Qed.
End Grad.
