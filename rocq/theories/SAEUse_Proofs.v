(** Reachable states of sparse auto-encoders. *)
From Verif Require Import Base BaseFacts Matrix RSum MatOps Vec Deriv Activation_Model
  Activation_Proofs Layer_Model Layer_Layout Layer_Proofs IO_Model IO_Proofs SAE_Model SAE_Spec SAEGrad_Proofs SAE_Proofs
  SAEUse_Spec.
Local Open Scope R_scope.

Section Use.
Context (junk : nat -> nat -> R) (M H : nat) (beta rho lambda : R) (act : ActivationFunction).
Notation inv := (sae_inv M H beta rho lambda act).

Definition ready (p : list R) (data : list (list R)) (s : sae) : Prop :=
  inv s /\ flat (spar s) = p /\ sparameters s = p /\ rows (sX s) = length data /\
  (data <> [] -> cols (sX s) = M) /\
  (forall n d, (n < length data)%nat -> (d < M)%nat -> at_ (sX s) n d = (nth n data []).[d]).

Lemma encode_kept s X q Z : sae_encode junk s X = Ok (q, Z) -> kept s q.
Proof.
  unfold sae_encode. intros E. destruct (propagate _ _ _ _ _ _) as [(A & Z0)| | | |]; try discriminate E.
  cbn [bind] in E. injection E as <- <-. unfold kept. cbn. auto 8.
Qed.
Lemma decode_kept s q Z : sae_decode junk s = Ok (q, Z) -> kept s q.
Proof.
  unfold sae_decode. intros E. destruct (propagate _ _ _ _ _ _) as [(A & Z0)| | | |]; try discriminate E.
  cbn [bind] in E. injection E as <- <-. unfold kept. cbn. auto 8.
Qed.
Lemma apply_kept s x q y : sae_apply junk s x = Ok (q, y) -> kept s q.
Proof.
  unfold sae_apply. intros E. destruct (sae_encode junk s (rowOf x)) as [(s1 & Z)| | | |] eqn:E1; try discriminate E.
  cbn [bind] in E. destruct (vecOf Z); try discriminate E. cbn [bind] in E. injection E as <- _. eapply encode_kept; eauto.
Qed.
Lemma reconstruct_kept s x q y : sae_reconstruct junk s x = Ok (q, y) -> kept s q.
Proof.
  unfold sae_reconstruct. intros E. destruct (sae_apply junk s x) as [(s1 & Z)| | | |] eqn:E1; try discriminate E.
  cbn [bind] in E. destruct (sae_decode junk s1) as [(s2 & Z2)| | | |] eqn:E2; try discriminate E.
  cbn [bind] in E. destruct (vecOf Z2); try discriminate E. cbn [bind] in E. injection E as <- _.
  eapply kept_trans; [eapply apply_kept; eauto|eapply decode_kept; eauto].
Qed.
Lemma error_kept s q e : sae_error junk s = Ok (q, e) -> kept s q.
Proof.
  unfold sae_error. intros E. destruct (sae_encode junk s (sX s)) as [(s1 & Z)| | | |] eqn:E1; try discriminate E.
  cbn [bind] in E. destruct (sae_decode junk s1) as [(s2 & Z2)| | | |] eqn:E2; try discriminate E.
  cbn [bind] in E. destruct (mmap2 Rminus Z2 (sX s2)); try discriminate E. cbn [bind] in E. injection E as <- _.
  apply (kept_trans _ s1); [eapply encode_kept; eauto|].
  destruct (decode_kept _ _ _ E2) as (A1 & A2 & A3 & A4 & A5 & A6). unfold kept. cbn. auto 8.
Qed.

Lemma ready_kept p data s q : kept s q -> ready p data s -> ready p data q.
Proof.
  intros Kq (I & R). pose proof (kept_inv _ _ _ _ _ _ _ _ Kq I) as Iq. destruct Kq as (K1 & K2 & K3 & K4 & K5 & K6).
  unfold ready. rewrite K2, K3, K5. auto.
Qed.

(** if error succeeds, the training data have the right size *)
Lemma error_cols s q e : inv s -> sae_error junk s = Ok (q, e) -> cols (sX s) = M.
Proof.
  intros (C & ((W1 & W2) & _) & _) E. unfold sae_error, sae_encode, propagate, mmul in E.
  cbn [rows mtrans] in E. rewrite W2 in E. destruct (Nat.eqb_spec (cols (sX s)) M); [auto|discriminate E].
Qed.

Lemma trainingSet_ok p data s data' : ready p data s -> (forall v, In v data' -> length v = M) ->
  exists q, sae_trainingSet junk s M data' = Ok q /\ ready p data' q.
Proof.
  intros (I & R1 & R2 & _) Hd. unfold sae_trainingSet.
  match goal with |- context [for_ (length data') ?b ?x] => set (body := b); set (X0 := x) end.
  destruct (for_inv (fun k (X : mat) => size_is X (length data') M /\
      forall n d, (n < k)%nat -> (d < M)%nat -> at_ X n d = (nth n data' []).[d]) body (length data') X0) as (X & E & (SX1 & SX2) & FX).
  - split; [split; reflexivity|]. intros; lia.
  - intros n X Hn ((S1 & S2) & F). unfold body. rewrite (vget_nth data' n []) by auto. cbn [bind]. rewrite S2.
    rewrite (Hd (nth n data' [])) by (apply nth_In; auto). rewrite Nat.eqb_refl. eexists. split; [reflexivity|].
    split; [split; auto|]. intros i d Hi Hdd. cbn [at_]. destruct (Nat.eqb_spec i n) as [->|]; auto. apply F; lia.
  - rewrite E. cbn [bind]. eexists. split; [reflexivity|]. unfold ready. cbn [sX spar sparameters].
    split; [exact I|]. auto 8.
Qed.

Lemma use_ready s0 p data s : ready (sae_currentParameters s0) [] s0 -> sae_use junk s0 M p data s -> ready p data s.
Proof.
  intros H0. induction 1 as [|p data s p' q U IH L E|p data s data' q U IH L E|p data s X q Z U IH E|p data s x q y U IH E|
    p data s x q y U IH E|p data s q e U IH E|p data s q g U IH E|p data s g q e g' U IH L E].
  - exact H0.
  - destruct IH as (I & _ & _ & R). assert (L' : length p' = dim M H) by (unfold sae_dimension in L; destruct I as (C & _); rewrite C in L; exact L).
    destruct (setParameters_ok M H beta rho lambda act s p' I L') as (q' & E' & I' & F & Q & X).
    assert (q' = q) by congruence. subst q'. unfold ready. rewrite X. auto 12.
  - destruct (trainingSet_ok p data s data' IH L) as (q' & E' & R). congruence.
  - eapply ready_kept; eauto. eapply encode_kept; eauto.
  - eapply ready_kept; eauto. eapply apply_kept; eauto.
  - eapply ready_kept; eauto. eapply reconstruct_kept; eauto.
  - eapply ready_kept; eauto. eapply error_kept; eauto.
  - pose proof IH as (I & F & Q & RX & CX & X). assert (EC : exists s1 e1, sae_error junk s = Ok (s1, e1)).
    { unfold sae_gradient, sae_errorGradient in E. destruct (sae_error junk s) as [(s1 & e1)| | | |]; try discriminate E. eauto. }
    destruct EC as (s1 & e1 & EC). pose proof (error_cols s s1 e1 I EC) as CM.
    destruct (gradient_ok junk M H beta rho lambda act s (length data) I) as (q' & g' & E' & I' & A & B & C & _); [split; auto|].
    assert (q' = q) by congruence. subst q'. unfold ready. rewrite A, B, C. auto 12.
  - pose proof IH as (I & F & Q & RX & CX & X). assert (EC : exists s1 e1, sae_error junk s = Ok (s1, e1)).
    { unfold sae_errorGradient in E. destruct (sae_error junk s) as [(s1 & e1)| | | |]; try discriminate E. eauto. }
    destruct EC as (s1 & e1 & EC). pose proof (error_cols s s1 e1 I EC) as CM.
    assert (L' : length g = dim M H) by (unfold sae_dimension in L; pose proof I as (C & _); rewrite C in L; exact L).
    destruct (errorGradient_ok junk M H beta rho lambda act s (length data) g I) as (q' & E' & I' & A & B & C & _); [split; auto|auto|].
    assert (q' = q) by congruence. subst q'. unfold ready. rewrite A, B, C. auto 12.
Qed.

(** ** Construction *)
Lemma new_ready u : (forall k, 0 <= u k <= 1) ->
  exists s0, sae_new junk M H beta rho lambda act u = Ok s0 /\ ready (sae_currentParameters s0) [] s0 /\
    let r := sqrt 6 / sqrt (INR H + INR M + 1) in
    (forall h d, (h < H)%nat -> (d < M)%nat ->
       - r <= at_ (pW1 (spar s0)) h d <= r /\ - r <= at_ (pW2 (spar s0)) d h <= r) /\
    (forall h, at_ (pb1 (spar s0)) h 0 = 0) /\ (forall d, at_ (pb2 (spar s0)) d 0 = 0).
Proof.
  intros Hu. set (r := sqrt 6 / sqrt (INR H + INR M + 1)).
  assert (Hr : 0 <= r).
  { unfold r. apply Rmult_le_pos; [apply sqrt_pos|]. left. apply Rinv_0_lt_compat, sqrt_lt_R0.
    pose proof (pos_INR H). pose proof (pos_INR M). lra. }
  assert (Hb : forall k, - r <= u k * (2 * r) + - r <= r).
  { intros k. specialize (Hu k). nra. }
  unfold sae_new, sae_initialize, sae_initializeParameters. cbn [scfg spar cD cH pW1 pW2 pb1 pb2 sX sder stmp sgrad sparameters bind].
  fold r.
  match goal with |- context [for_ H ?b ?w] => set (body := b); set (w0 := w) end.
  destruct (for_inv (fun k (w : mat * mat) => size_is (fst w) H M /\ size_is (snd w) M H /\
      forall h d, (h < k)%nat -> (d < M)%nat -> - r <= at_ (fst w) h d <= r /\ - r <= at_ (snd w) d h <= r) body H w0)
    as ((W1 & W2) & E & S1 & S2 & F).
  - cbn. split; [split; auto|]. split; [split; auto|]. intros; lia.
  - intros j w Hj (S1 & S2 & F). unfold body. clear body w0.
    match goal with |- context [for_ M ?b w] => set (body := b) end.
    destruct (for_inv (fun k (w : mat * mat) => size_is (fst w) H M /\ size_is (snd w) M H /\
      (forall h d, (h < j)%nat -> (d < M)%nat -> - r <= at_ (fst w) h d <= r /\ - r <= at_ (snd w) d h <= r) /\
      (forall d, (d < k)%nat -> - r <= at_ (fst w) j d <= r /\ - r <= at_ (snd w) d j <= r)) body M w)
      as (w' & E & S1' & S2' & F' & G').
    + split; auto. split; auto. split; auto. intros; lia.
    + intros i (V1 & V2) Hi ((A1 & A2) & (B1 & B2) & F1 & G1). cbn [fst snd] in *. unfold body.
      rewrite mset_Ok by lia. cbn [bind]. rewrite mset_Ok by lia. cbn [bind]. eexists. split; [reflexivity|]. cbn [fst snd].
      split; [split; auto|]. split; [split; auto|]. split.
      * intros h d Hh Hd. rewrite !at_mupd_other by lia. auto.
      * intros d Hd. rewrite !at_mupd, !Nat.eqb_refl, andb_true_r. cbn [andb].
        destruct (Nat.eqb_spec d i) as [->|Hn]; [split; apply Hb|]. apply G1. lia.
    + exists w'. split; auto. split; auto. split; auto. intros h d Hh Hd.
      destruct (Nat.eq_dec h j) as [->|]; [now apply G'|apply F'; lia].
  - rewrite E. cbn [bind fst snd] in *.
    match goal with |- context [arrays ?d] => set (P := d) end.
    assert (SP : psize M H P) by (split; [auto|split; [auto|split; split; reflexivity]]).
    cbn [sparameters].
    rewrite (pack_ok (arrays P)).
    2:{ change (concat (arrays P)) with (flat P). rewrite (flat_length M H P SP), map_length, seq_length. unfold sae_dimension. cbn [scfg cD cH]. unfold dim. lia. }
    change (concat (arrays P)) with (flat P).
    rewrite skipn_all2, app_nil_r.
    2:{ rewrite (flat_length M H P SP), map_length, seq_length. unfold sae_dimension. cbn [scfg cD cH]. unfold dim. lia. }
    cbn [bind]. eexists. split; [reflexivity|]. cbn [spar]. split; [|split; [|split]].
    + unfold ready, sae_currentParameters. cbn [spar sparameters sX rows].
      split; [|split; [auto|split; [auto|split; [auto|split; [intros Q; contradiction|intros; simpl in *; lia]]]]].
      split; [reflexivity|]. split; [exact SP|]. split; [repeat split; reflexivity|].
      cbn [sgrad]. rewrite map_length, seq_length. reflexivity.
    + intros h d Hh Hd. apply F; auto.
    + intros h. reflexivity.
    + intros d. reflexivity.
Qed.
End Use.
