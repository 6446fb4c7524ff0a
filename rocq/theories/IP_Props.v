(** Theorems about IntrinsicPlasticity as a Learner (C53). *)
From Verif Require Import Base BaseFacts Matrix Vec RSum Deriv MatOps Activation_Model
  Activation_Proofs Layer_Proofs IP_Model.
Local Open Scope R_scope.

(** dimensions *)
Definition ip_ok (n : nat) (l : ip) : Prop :=
  nodes l = n /\ length (ipsv l) = n /\ length (ipbv l) = n /\ length (ipparams l) = (2 * n)%nat.

(** a loop that writes [f i] to position [o + i] *)
Lemma fill_loop (o n : nat) (f : nat -> R) (body : nat -> list R -> res (list R)) (l : list R) :
  (o + n <= length l)%nat ->
  (forall i v, (i < n)%nat -> length v = length l -> body i v = Ok (upd v (o + i) (f i))) ->
  exists v, for_ n body l = Ok v /\ length v = length l /\
    (forall i, (i < n)%nat -> v.[o + i] = f i) /\
    (forall i, (i < o \/ o + n <= i)%nat -> v.[i] = l.[i]).
Proof.
  intros Hl Hb.
  destruct (for_inv (fun k (v : list R) => length v = length l /\
      (forall i, (i < k)%nat -> v.[o + i] = f i) /\
      (forall i, (i < o \/ o + k <= i)%nat -> v.[i] = l.[i])) body n l) as (v & E & L & F & G).
  - split; auto. split; auto. intros; lia.
  - intros k v Hk (L & F & G). rewrite Hb by auto. eexists. split; [reflexivity|].
    split; [now rewrite upd_length|]. split.
    + intros i Hi. rewrite nth_upd by lia. destruct (Nat.eqb_spec (o + k) (o + i)).
      * f_equal. lia.
      * apply F. lia.
    + intros i Hi. rewrite nth_upd by lia. destruct (Nat.eqb_spec (o + k) i); [lia|]. apply G. lia.
  - exists v. auto.
Qed.

Lemma ip_set_ok n l p : ip_ok n l -> length p = (2 * n)%nat ->
  exists l', ip_setParameters l p = Ok l' /\ ip_ok n l' /\ mu l' = mu l /\
    (forall i, (i < n)%nat -> (ipsv l').[i] = p.[i]) /\ (forall i, (i < n)%nat -> (ipbv l').[i] = p.[n + i]).
Proof.
  intros (H1 & H2 & H3 & H4) Hp. unfold ip_setParameters. rewrite H1.
  destruct (fill_loop 0 n (fun i => p.[i]) (fun i s => v <- vget p i ;; vset s i v) (ipsv l)) as (s & Es & Ls & Fs & _); [lia| |].
  { intros i v Hi Hv. rewrite (vget_nth p i 0) by lia. cbn [bind]. apply vset_Ok. lia. }
  rewrite Es. cbn [bind].
  destruct (fill_loop 0 n (fun i => p.[n + i]) (fun j b => v <- vget p (n + j) ;; vset b j v) (ipbv l)) as (b & Eb & Lb & Fb & _); [lia| |].
  { intros i v Hi Hv. rewrite (vget_nth p (n + i) 0) by lia. cbn [bind]. apply vset_Ok. lia. }
  rewrite Eb. cbn [bind]. eexists. split; [reflexivity|]. simpl. repeat (split; simpl; auto); lia.
Qed.

(** ** C53: setParameters followed by currentParameters returns the same vector. *)
Theorem C53_ip_parameters n l p : ip_ok n l -> length p = (2 * n)%nat ->
  exists l' l'', ip_setParameters l p = Ok l' /\ ip_currentParameters l' = Ok (l'', p).
Proof.
  intros H Hp. destruct (ip_set_ok n l p H Hp) as (l' & E & (H1 & H2 & H3 & H4) & _ & Fs & Fb).
  exists l'. unfold ip_currentParameters. rewrite H1.
  destruct (fill_loop 0 n (fun i => (ipsv l').[i]) (fun i q => v <- vget (ipsv l') i ;; vset q i v) (ipparams l')) as (q & Eq & Lq & Fq & Gq); [lia| |].
  { intros i v Hi Hv. rewrite (vget_nth (ipsv l') i 0) by lia. cbn [bind]. apply vset_Ok. lia. }
  rewrite Eq. cbn [bind].
  destruct (fill_loop n n (fun i => (ipbv l').[i]) (fun j q => v <- vget (ipbv l') j ;; vset q (n + j) v) q) as (q2 & Eq2 & Lq2 & Fq2 & Gq2); [lia| |].
  { intros i v Hi Hv. rewrite (vget_nth (ipbv l') i 0) by lia. cbn [bind]. apply vset_Ok. lia. }
  rewrite Eq2. cbn [bind]. eexists. split; [auto|]. f_equal. f_equal.
  apply vec_ext; [lia|]. intros i Hi.
  destruct (Nat.lt_ge_cases i n) as [Hn|Hn].
  - rewrite Gq2 by lia. pose proof (Fq i Hn) as F. simpl in F. rewrite F. auto.
  - replace i with (n + (i - n))%nat by lia. rewrite Fq2 by lia. apply Fb. lia.
Qed.

(** output of node i for the parameters [p] = (s, b) and the instance [a] *)
Definition node (n : nat) (p a : list R) (i : nat) : R :=
  act_fun LOGISTIC (a.[i] * p.[i] + p.[n + i]).

Lemma ip_output_ok n l p a : ip_ok n l -> length p = (2 * n)%nat -> length a = n ->
  exists l' y, ip_setParameters l p = Ok l' /\ mu l' = mu l /\ ip_ok n l' /\ ip_output l' a = Ok y /\ length y = n /\
    (forall i, (i < n)%nat -> (ipsv l').[i] = p.[i]) /\
    forall i, (i < n)%nat -> y.[i] = node n p a i.
Proof.
  intros H Hp Ha. destruct (ip_set_ok n l p H Hp) as (l' & E & Hl' & Hmu & Fs & Fb).
  pose proof Hl' as (H1 & H2 & H3 & H4).
  unfold ip_output. destruct (vmap2_Ok Rmult a (ipsv l')) as (z & Ez & Lz & Fz); [lia|].
  destruct (vmap2_Ok Rplus z (ipbv l')) as (z2 & Ez2 & Lz2 & Fz2); [lia|].
  exists l', (map (act_fun LOGISTIC) z2). split; auto. split; auto. split; auto. rewrite Ez. cbn [bind]. rewrite Ez2.
  split; auto. split; [rewrite map_length; lia|]. split; auto.
  intros i Hi. rewrite (nth_indep _ 0 (act_fun LOGISTIC 0)) by (rewrite map_length; lia).
  rewrite map_nth. unfold node. rewrite Fz2 by lia. rewrite Fz by lia. rewrite Fs, Fb by auto. auto.
Qed.

(** The objective of Triesch's rule for one instance: up to a constant, the
    Kullback-Leibler divergence of the output from an exponential distribution with mean
    mu.  dy/da of node i is s * y * (1 - y). *)
Definition divergence (n : nat) (mu : R) (a : list R) (p : list R) : R :=
  rsum n (fun i => - ln (p.[i] * (node n p a i * (1 - node n p a i))) + node n p a i / mu).

Lemma D_node n p a k i (t0 : R) : (k < length p)%nat -> t0 = p.[k] ->
  -45 < a.[i] * p.[i] + p.[n + i] < 45 ->
  D (fun v => node n (upd p k v) a i) t0
    (node n p a i * (1 - node n p a i) *
     (a.[i] * (if Nat.eqb i k then 1 else 0) + (if Nat.eqb (n + i) k then 1 else 0))).
Proof.
  intros Hk -> Hr. unfold node.
  eapply D_eq; [|apply (D_comp (fun v => a.[i] * (upd p k v).[i] + (upd p k v).[n + i]) (act_fun LOGISTIC)
     p.[k] (a.[i] * (if Nat.eqb i k then 1 else 0) + (if Nat.eqb (n + i) k then 1 else 0)))].
  2:{ apply (D_plus (fun v => a.[i] * (upd p k v).[i]) (fun v => (upd p k v).[n + i])).
      - apply (D_scal a.[i] (fun v => (upd p k v).[i])). now apply D_upd.
      - now apply D_upd. }
  2:{ apply act_derivative. rewrite upd_id. simpl. lra. }
  rewrite upd_id. simpl. reflexivity.
Qed.

(** ** C53: gradient(n) is the exact gradient of that objective. *)
Theorem C53_ip_gradient n l p a : ip_ok n l -> (0 < n)%nat -> length p = (2 * n)%nat -> length a = n ->
  mu l <> 0 ->
  (forall i, (i < n)%nat -> 0 < p.[i]) ->
  (forall i, (i < n)%nat -> -45 < a.[i] * p.[i] + p.[n + i] < 45) ->
  exists l' g, ip_setParameters l p = Ok l' /\ ip_gradient l' a = Ok g /\ length g = (2 * n)%nat /\
  forall k, (k < 2 * n)%nat ->
    derivable_pt_lim (fun v => divergence n (mu l) a (upd p k v)) p.[k] g.[k].
Proof.
  intros H Hn Hp Ha Hmu Hs Hr.
  destruct (ip_output_ok n l p a H Hp Ha) as (l' & y & E & Emu & (H1 & H2 & H3 & H4) & Ey & Ly & Fs & Fy).
  exists l'. unfold ip_gradient. rewrite Ey, H1, Emu. cbn [bind].
  rewrite (vget_nth (ipsv l') 0 0) by lia. cbn [bind].
  replace (Reqb (ipsv l').[0] 0) with false.
  2:{ symmetry. apply Reqb_false. rewrite Fs by auto. specialize (Hs 0%nat Hn). lra. }
  cbn [check negb bind].
  set (tmp := 2 + 1 / mu l).
  match goal with |- context [for_ n ?b (repeat 0 (2 * n))] => set (body1 := b) end.
  destruct (fill_loop 0 n (fun i => 1 / p.[i] + a.[i] - tmp * a.[i] * node n p a i + a.[i] * node n p a i * node n p a i / mu l)
    body1 (repeat 0 (2 * n))) as (g1 & E1 & L1 & F1 & G1).
  { rewrite repeat_length. lia. }
  { intros i v Hi Hv. rewrite repeat_length in Hv. unfold body1.
    rewrite (vget_nth (ipsv l') i 0), (vget_nth a i 0), (vget_nth y i 0) by lia. cbn [bind].
    rewrite vset_Ok by lia. rewrite Fs, Fy by auto. auto. }
  rewrite E1. cbn [bind].
  match goal with |- context [for_ n ?b g1] => set (body2 := b) end.
  rewrite repeat_length in L1.
  destruct (fill_loop n n (fun i => 1 - tmp * node n p a i + node n p a i * node n p a i / mu l) body2 g1) as (g2 & E2 & L2 & F2 & G2).
  { lia. }
  { intros i v Hi Hv. unfold body2. rewrite (vget_nth y i 0) by lia. cbn [bind].
    rewrite vset_Ok by lia. rewrite Fy by auto. auto. }
  rewrite E2. cbn [bind]. exists (map Ropp g2). split; auto. split; auto. split; [rewrite map_length; lia|].
  intros k Hk.
  assert (Eg : (map Ropp g2).[k] = - g2.[k]).
  { rewrite (nth_indep _ 0 (- 0)) by (rewrite map_length; lia). now rewrite map_nth. }
  rewrite Eg. clear Eg.
  (* derivative of the term of node i *)
  set (y' := fun i => node n p a i * (1 - node n p a i) *
     (a.[i] * (if Nat.eqb i k then 1 else 0) + (if Nat.eqb (n + i) k then 1 else 0))).
  assert (Dn : forall i, (i < n)%nat -> D (fun v => node n (upd p k v) a i) p.[k] (y' i)).
  { intros i Hi. apply D_node; auto. lia. }
  assert (Rn : forall i, (i < n)%nat -> 0 < node n p a i < 1).
  { intros i Hi. unfold node. simpl. specialize (Hr i Hi).
    destruct (Rltb _ (-45)) eqn:Ea; [apply Rltb_true in Ea; lra|].
    destruct (Rltb 45 _) eqn:Eb; [apply Rltb_true in Eb; lra|]. apply logistic_bounds. }
  set (term' := fun i => - (/ (p.[i] * (node n p a i * (1 - node n p a i))) *
      ((if Nat.eqb i k then 1 else 0) * (node n p a i * (1 - node n p a i)) +
       p.[i] * (y' i * (1 - node n p a i) + node n p a i * (0 - y' i)))) + y' i * / mu l).
  apply (D_eq _ _ (rsum n term')).
  2:{ unfold divergence. apply (D_sum n (fun i v => - ln ((upd p k v).[i] * (node n (upd p k v) a i * (1 - node n (upd p k v) a i))) +
         node n (upd p k v) a i / mu l)). intros i Hi. unfold term'.
      apply (D_plus (fun v => - ln ((upd p k v).[i] * (node n (upd p k v) a i * (1 - node n (upd p k v) a i))))
                    (fun v => node n (upd p k v) a i / mu l)).
      - apply (D_opp (fun v => ln ((upd p k v).[i] * (node n (upd p k v) a i * (1 - node n (upd p k v) a i))))).
        eapply D_eq; [|apply (D_ln (fun v => (upd p k v).[i] * (node n (upd p k v) a i * (1 - node n (upd p k v) a i))))].
        + rewrite upd_id. reflexivity.
        + eapply D_eq; [|apply (D_mult (fun v => (upd p k v).[i]) (fun v => node n (upd p k v) a i * (1 - node n (upd p k v) a i)))].
          * rewrite !upd_id. reflexivity.
          * apply D_upd. lia.
          * eapply D_eq; [|apply (D_mult (fun v => node n (upd p k v) a i) (fun v => 1 - node n (upd p k v) a i)); [apply Dn; auto|]].
            -- rewrite !upd_id. reflexivity.
            -- apply (D_minus (fun _ => 1) (fun v => node n (upd p k v) a i)); [apply D_const|auto].
        + rewrite upd_id. specialize (Rn i Hi). specialize (Hs i Hi).
          apply Rmult_lt_0_compat; [auto|]. apply Rmult_lt_0_compat; lra.
      - apply (D_scal_r (/ mu l) (fun v => node n (upd p k v) a i)). auto. }
  (* compare *)
  destruct (Nat.lt_ge_cases k n) as [Hkn|Hkn].
  - rewrite (rsum_single n k); auto.
    + rewrite G2 by lia. pose proof (F1 k Hkn) as F. simpl in F. rewrite F. unfold term', y', tmp.
      rewrite Nat.eqb_refl. destruct (Nat.eqb_spec (n + k) k); [lia|].
      specialize (Rn k Hkn). specialize (Hs k Hkn). field. repeat split; try lra.
    + intros i Hi Hik. unfold term', y'. destruct (Nat.eqb_spec i k); [lia|]. destruct (Nat.eqb_spec (n + i) k); [lia|].
      specialize (Rn i Hi). specialize (Hs i Hi). field. repeat split; try lra.
  - rewrite (rsum_single n (k - n)); [|lia|].
    + replace g2.[k] with g2.[n + (k - n)] by (f_equal; lia). rewrite F2 by lia. unfold term', y', tmp.
      destruct (Nat.eqb_spec (k - n) k); [lia|]. destruct (Nat.eqb_spec (n + (k - n)) k); [|lia].
      specialize (Rn (k - n)%nat ltac:(lia)). specialize (Hs (k - n)%nat ltac:(lia)). field. repeat split; try lra.
    + intros i Hi Hik. unfold term', y'. destruct (Nat.eqb_spec i k); [lia|]. destruct (Nat.eqb_spec (n + i) k); [lia|].
      specialize (Rn i Hi). specialize (Hs i Hi). field. repeat split; try lra.
Qed.

(** The constructor establishes the dimensions. *)
Lemma ip_learner_ok n mu b : length b = n -> ip_ok n (ip_learner n mu b).
Proof. intros H. unfold ip_ok, ip_learner. simpl. rewrite !repeat_length. auto. Qed.
(** C53.  A new object with the random offsets [b] reports slopes of 1 and these offsets, and computes sigma(a_i + b_i). *)
Theorem C53_new_learner n mu b a : length b = n -> length a = n ->
  (exists l', ip_currentParameters (ip_learner n mu b) = Ok (l', repeat 1 n ++ b)) /\
  exists y, ip_output (ip_learner n mu b) a = Ok y /\ length y = n /\
    forall i, (i < n)%nat -> y.[i] = act_fun LOGISTIC (a.[i] + b.[i]).
Proof.
  intros Hb Ha. assert (N1 : forall i, (i < n)%nat -> (repeat 1 n).[i] = 1) by (intros i Hi; apply nth_repeat_lt; auto).
  pose proof (repeat_length 1 n) as L1. split.
  - set (l := ip_learner n mu b). unfold ip_currentParameters. change (nodes l) with n. change (ipsv l) with (repeat 1 n). change (ipbv l) with b. change (ipparams l) with (repeat 0 (2 * n)).
    pose proof (repeat_length 0 (2 * n)) as L0.
    destruct (fill_loop 0 n (fun i => (repeat 1 n).[i]) (fun i q => v <- vget (repeat 1 n) i ;; vset q i v) (repeat 0 (2 * n))) as (q & Eq & Lq & Fq & Gq); [lia| |].
    { intros i v Hi Hv. rewrite (vget_nth (repeat 1 n) i 0) by lia. cbn [bind]. apply vset_Ok. lia. }
    rewrite Eq. cbn [bind].
    destruct (fill_loop n n (fun i => b.[i]) (fun j q => v <- vget b j ;; vset q (n + j) v) q) as (q2 & Eq2 & Lq2 & Fq2 & Gq2); [lia| |].
    { intros i v Hi Hv. rewrite (vget_nth b i 0) by lia. cbn [bind]. apply vset_Ok. lia. }
    rewrite Eq2. cbn [bind]. eexists. f_equal. f_equal. apply vec_ext; [rewrite app_length; lia|]. intros i Hi.
    destruct (Nat.lt_ge_cases i n) as [Hn|Hn].
    + rewrite Gq2 by lia. pose proof (Fq i Hn) as F. simpl in F. rewrite F, app_nth1 by lia. reflexivity.
    + replace i with (n + (i - n))%nat by lia. rewrite Fq2 by lia. rewrite app_nth2 by lia. f_equal. lia.
  - unfold ip_output. cbn [ip_learner ipsv ipbv]. destruct (vmap2_Ok Rmult a (repeat 1 n)) as (z & Ez & Lz & Fz); [lia|].
    destruct (vmap2_Ok Rplus z b) as (z2 & Ez2 & Lz2 & Fz2); [lia|]. rewrite Ez. cbn [bind]. rewrite Ez2. cbn [bind]. eexists. split; [reflexivity|]. split; [rewrite map_length; lia|].
    intros i Hi. rewrite (nth_indep _ 0 (act_fun LOGISTIC 0)) by (rewrite map_length; lia). rewrite map_nth. rewrite Fz2, Fz, N1 by lia. f_equal. ring.
Qed.
Print Assumptions C53_new_learner.

Example ip_gradient_example : exists l' g,
  ip_setParameters (ip_learner 2 (1/5) [0; 1]) [1; 2; 0; 3] = Ok l' /\ ip_gradient l' [1; -1] = Ok g /\
  derivable_pt_lim (fun v => divergence 2 (1/5) [1; -1] [1; v; 0; 3]) 2 g.[1].
Proof.
  destruct (C53_ip_gradient 2 (ip_learner 2 (1/5) [0; 1]) [1; 2; 0; 3] [1; -1]) as (l' & g & E1 & E2 & L & H); auto.
  - now apply ip_learner_ok.
  - simpl. lra.
  - intros [|[|i]] Hi; simpl; try lra. lia.
  - intros [|[|i]] Hi; simpl; try lra. lia.
  - exists l', g. split; auto. split; auto. apply (H 1%nat). lia.
Qed.

(** ** C53: but it is not the gradient of error(n), which the optimizers minimise and
    report: there is a network where error does not depend on a parameter to first order
    and the gradient component is not zero. *)
Lemma ip_error_ok n l p a : ip_ok n l -> length p = (2 * n)%nat -> length a = n ->
  exists l', ip_setParameters l p = Ok l' /\
    ip_error l' a = Ok (rsum n (fun i => (node n p a i - mu l) * (node n p a i - mu l))).
Proof.
  intros H Hp Ha. destruct (ip_output_ok n l p a H Hp Ha) as (l' & y & E & Emu & (H1 & H2 & H3 & H4) & Ey & Ly & Fs & Fy).
  exists l'. split; auto. unfold ip_error. rewrite Ey, H1, Emu. cbn [bind].
  destruct (for_inv (fun k e => e = rsum k (fun i => (node n p a i - mu l) * (node n p a i - mu l)))
    (fun i e => v <- vget y i ;; Ok (e + (v - mu l) * (v - mu l))) n 0) as (e & Ee & Fe); auto.
  - intros i e Hi ->. rewrite (vget_nth y i 0) by lia. cbn [bind]. rewrite Fy by auto. eexists. split; [reflexivity|]. reflexivity.
  - rewrite Ee, Fe. auto.
Qed.

Theorem C53_ip_error_gradient_refuted : exists l p a l' g k d (err : R -> R),
  ip_ok 1 l /\ ip_setParameters l p = Ok l' /\ ip_gradient l' a = Ok g /\ (k < 2)%nat /\
  (forall v, exists lv, ip_setParameters l (upd p k v) = Ok lv /\ ip_error lv a = Ok (err v)) /\
  derivable_pt_lim err p.[k] d /\ g.[k] <> d.
Proof.
  set (l := ip_learner 1 (1/2) [0]). set (p := [1; 0]). set (a := [0]).
  assert (Hl : ip_ok 1 l) by (now apply ip_learner_ok).
  destruct (C53_ip_gradient 1 l p a Hl) as (l' & g & E1 & E2 & Lg & Hg); auto.
  { simpl. lra. }
  { intros [|i] Hi; simpl; [lra|lia]. }
  { intros [|i] Hi; simpl; [lra|lia]. }
  assert (Eg : g.[0] = -1).
  { apply (D_unique (fun v => divergence 1 (mu l) a (upd p 0 v)) 1); [apply (Hg 0%nat); lia|].
    apply (D_local (fun v => - ln (v * (node 1 p a 0 * (1 - node 1 p a 0))) + node 1 p a 0 / (1/2))).
    - exists 1. split; [lra|]. intros x Hx. unfold divergence, p, a, node. simpl.
      rewrite !Rmult_0_l. ring.
    - assert (E0 : node 1 p a 0 = 1/2).
      { unfold node, p, a. simpl. rewrite Rmult_0_l, Rplus_0_l.
        destruct (Rltb 0 (-45)) eqn:E; [apply Rltb_true in E; lra|].
        destruct (Rltb 45 0) eqn:E'; [apply Rltb_true in E'; lra|].
        rewrite Ropp_0, exp_0. lra. }
      rewrite E0. replace (-1) with (- (/ (1 * (1/2 * (1 - 1/2))) * (1 * (1/2 * (1 - 1/2)))) + 0) by field.
      apply (D_plus (fun v => - ln (v * (1/2 * (1 - 1/2)))) (fun _ => 1/2/(1/2))); [|apply D_const].
      apply (D_opp (fun v => ln (v * (1/2 * (1 - 1/2))))).
      apply (D_ln (fun v => v * (1/2 * (1 - 1/2)))); [|lra].
      apply (D_scal_r _ (fun v => v)). apply D_id. }
  exists l, p, a, l', g, 0%nat, 0, (fun v => rsum 1 (fun i => (node 1 (upd p 0 v) a i - mu l) * (node 1 (upd p 0 v) a i - mu l))).
  split; auto. split; auto. split; auto. split; [lia|]. split; [|split].
  - intros v. apply ip_error_ok; auto.
  - apply (D_ext (fun _ => rsum 1 (fun i => (node 1 p a i - mu l) * (node 1 p a i - mu l)))); [|apply D_const].
    intros v. unfold node, p, a. simpl. rewrite !Rmult_0_l. auto.
  - rewrite Eg. lra.
Qed.

Print Assumptions C53_ip_parameters.
Print Assumptions C53_ip_gradient.
Print Assumptions C53_ip_error_gradient_refuted.
