(** Derivatives of functions of one real variable, on top of the standard library's
    [derivable_pt_lim].  No OpenANN content. *)
From Verif Require Import Base BaseFacts RSum.
Local Open Scope R_scope.

(** [D f t l]: f has derivative l at t *)
Notation D f t l := (derivable_pt_lim f t l).

Lemma D_const c t : D (fun _ => c) t 0.
Proof. apply derivable_pt_lim_const. Qed.

Lemma D_id t : D (fun x => x) t 1.
Proof. apply derivable_pt_lim_id. Qed.

Lemma D_ext f g t l : (forall x, f x = g x) -> D f t l -> D g t l.
Proof. intros H Hf eps He. destruct (Hf eps He) as (d & Hd). exists d. intros h. rewrite <- !H. auto. Qed.

Lemma D_local f g t l : (exists d, 0 < d /\ forall x, Rabs (x - t) < d -> f x = g x) -> D f t l -> D g t l.
Proof.
  intros (d & Hd & H) Hf eps He. destruct (Hf eps He) as (d' & Hd').
  assert (Hm : 0 < Rmin d d') by (apply Rmin_pos; [auto|apply cond_pos]).
  exists (mkposreal _ Hm). simpl. intros h Hh Ha.
  pose proof (Rmin_l d d'). pose proof (Rmin_r d d').
  rewrite <- !H.
  - apply Hd'; auto. lra.
  - replace (t - t) with 0 by ring. rewrite Rabs_R0. auto.
  - replace (t + h - t) with h by ring. lra.
Qed.

Lemma D_eq f t l l' : l = l' -> D f t l -> D f t l'.
Proof. now intros ->. Qed.

Lemma D_plus f g t a b : D f t a -> D g t b -> D (fun x => f x + g x) t (a + b).
Proof. intros. now apply (derivable_pt_lim_plus f g). Qed.

Lemma D_minus f g t a b : D f t a -> D g t b -> D (fun x => f x - g x) t (a - b).
Proof. intros. now apply (derivable_pt_lim_minus f g). Qed.

Lemma D_opp f t a : D f t a -> D (fun x => - f x) t (- a).
Proof. intros. now apply (derivable_pt_lim_opp f). Qed.

Lemma D_mult f g t a b : D f t a -> D g t b -> D (fun x => f x * g x) t (a * g t + f t * b).
Proof. intros. now apply (derivable_pt_lim_mult f g). Qed.

Lemma D_scal c f t a : D f t a -> D (fun x => c * f x) t (c * a).
Proof. intros. now apply (derivable_pt_lim_scal f c). Qed.

Lemma D_scal_r c f t a : D f t a -> D (fun x => f x * c) t (a * c).
Proof.
  intros H. apply (D_ext (fun x => c * f x)); [intros; ring|]. rewrite Rmult_comm. now apply D_scal.
Qed.

Lemma D_div f g t a b : D f t a -> D g t b -> g t <> 0 ->
  D (fun x => f x / g x) t ((a * g t - b * f t) / Rsqr (g t)).
Proof. intros. now apply (derivable_pt_lim_div f g). Qed.

Lemma D_comp f g t a b : D f t a -> D g (f t) b -> D (fun x => g (f x)) t (b * a).
Proof. intros. now apply (derivable_pt_lim_comp f g). Qed.

Lemma D_sum n f t l : (forall i, (i < n)%nat -> D (f i) t (l i)) ->
  D (fun x => rsum n (fun i => f i x)) t (rsum n l).
Proof.
  induction n as [|n IH]; simpl; intros H.
  - apply D_const.
  - apply (D_plus (fun x => rsum n (fun i => f i x)) (f n)); auto.
Qed.

Lemma D_unique f t a b : D f t a -> D f t b -> a = b.
Proof. apply uniqueness_limite. Qed.

Lemma D_exp f t a : D f t a -> D (fun x => exp (f x)) t (exp (f t) * a).
Proof. intros H. apply (D_comp f exp); auto. apply derivable_pt_lim_exp. Qed.

Lemma D_ln f t a : D f t a -> 0 < f t -> D (fun x => ln (f x)) t (/ f t * a).
Proof. intros H P. apply (D_comp f ln); auto. now apply derivable_pt_lim_ln. Qed.

Lemma D_cont f t a : D f t a -> forall eps, 0 < eps ->
  exists d, 0 < d /\ forall x, Rabs (x - t) < d -> Rabs (f x - f t) < eps.
Proof.
  intros H eps He.
  assert (C : continuity_pt f t) by (apply derivable_continuous_pt; exists a; exact H).
  destruct (C eps He) as (d & Hd & Hc). exists d. split; auto. intros x Hx.
  destruct (Req_dec x t) as [->|Hn].
  - replace (f t - f t) with 0 by ring. rewrite Rabs_R0. auto.
  - apply Hc. split; [|exact Hx]. split; [exact I|]. auto.
Qed.

(** tanh *)
Lemma cosh_pos x : 0 < cosh x.
Proof. unfold cosh. pose proof (exp_pos x). pose proof (exp_pos (- x)). lra. Qed.

Lemma cosh_sinh x : cosh x * cosh x - sinh x * sinh x = 1.
Proof.
  unfold cosh, sinh. assert (E : exp x * exp (- x) = 1) by (rewrite <- exp_plus, Rplus_opp_r; apply exp_0).
  replace ((exp x + exp (- x)) / 2 * ((exp x + exp (- x)) / 2) -
           (exp x - exp (- x)) / 2 * ((exp x - exp (- x)) / 2)) with (exp x * exp (- x)) by field. auto.
Qed.

Lemma D_tanh t : D tanh t (1 - tanh t * tanh t).
Proof.
  pose proof (cosh_pos t) as P. unfold tanh.
  eapply D_eq; [|apply (D_div sinh cosh); [apply derivable_pt_lim_sinh|apply derivable_pt_lim_cosh|lra]].
  pose proof (cosh_sinh t). unfold Rsqr. field. lra.
Qed.

Lemma tanh_range x : -1 < tanh x < 1.
Proof.
  pose proof (cosh_pos x) as P. unfold tanh. split.
  - apply Rmult_lt_reg_r with (cosh x); auto. unfold Rdiv. rewrite Rmult_assoc, Rinv_l by lra.
    unfold sinh, cosh. pose proof (exp_pos x). lra.
  - apply Rmult_lt_reg_r with (cosh x); auto. unfold Rdiv. rewrite Rmult_assoc, Rinv_l by lra.
    unfold sinh, cosh. pose proof (exp_pos (- x)). lra.
Qed.

Lemma tanh_le x y : x <= y -> tanh x <= tanh y.
Proof.
  intros H. pose proof (cosh_pos x) as P. pose proof (cosh_pos y) as Q. unfold tanh.
  apply Rmult_le_reg_r with (cosh x * cosh y); [nra|].
  replace (sinh x / cosh x * (cosh x * cosh y)) with (sinh x * cosh y) by (field; lra).
  replace (sinh y / cosh y * (cosh x * cosh y)) with (sinh y * cosh x) by (field; lra).
  assert (E : sinh y * cosh x - sinh x * cosh y = (exp (y - x) - exp (x - y)) / 2).
  { unfold sinh, cosh, Rminus. rewrite !exp_plus.
    replace ((exp y + - exp (- y)) / 2 * ((exp x + exp (- x)) / 2)
       + - ((exp x + - exp (- x)) / 2 * ((exp y + exp (- y)) / 2)))
      with ((exp y * exp (- x) - exp (- y) * exp x) / 2) by field.
    lra. }
  assert (exp (x - y) <= exp (y - x)).
  { destruct (Req_dec x y) as [->|]; [lra|]. left. apply exp_increasing. lra. }
  lra.
Qed.
