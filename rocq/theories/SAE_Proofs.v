(** Proofs about sparse auto-encoders: parameters, error and gradient. *)
From Verif Require Import Base BaseFacts Matrix RSum MatOps Vec Deriv Activation_Model
  Activation_Proofs Layer_Model Layer_Layout Layer_Proofs IO_Model IO_Proofs SAE_Model SAE_Spec SAEGrad_Proofs.
Local Open Scope R_scope.

(** ** Storage *)
Lemma mdata_length m : length (mdata m) = (cols m * rows m)%nat.
Proof. apply flat_map_length_const. intros. now rewrite map_length, seq_length. Qed.

Lemma mdata_nth m i j : (i < rows m)%nat -> (j < cols m)%nat -> (mdata m).[j * rows m + i] = at_ m i j.
Proof.
  intros Hi Hj. apply nth_error_nth. unfold mdata.
  rewrite (nth_error_blocks _ (rows m) (cols m) 0); auto.
  - rewrite Nat.add_0_l. apply (map_nth_error (fun i => at_ m i j)).
    rewrite (nth_error_nth' _ 0%nat) by (rewrite seq_length; auto). now rewrite seq_nth.
  - intros. now rewrite map_length, seq_length.
Qed.

Lemma mdata_msetdata m l : length l = (cols m * rows m)%nat -> mdata (msetdata m l) = l.
Proof.
  intros H. apply vec_ext; rewrite mdata_length; [auto|]. cbn [rows cols msetdata]. intros k Hk.
  destruct (split_index (rows m) k (cols m) Hk) as (j & i & Hj & Hi & ->).
  change (rows m) with (rows (msetdata m l)) at 1. rewrite mdata_nth; auto.
Qed.

Definition psize (M H : nat) (P : saePar) : Prop :=
  size_is (pW1 P) H M /\ size_is (pW2 P) M H /\ size_is (pb1 P) H 1 /\ size_is (pb2 P) M 1.

Definition dim (M H : nat) : nat := (2 * M * H + M + H)%nat.

(** all parameters as one vector *)
Definition flat (P : saePar) : list R := concat (arrays P).

Section Flat.
Context (M H : nat) (P : saePar).
Hypothesis SP : psize M H P.

Lemma part_lengths : length (mdata (pW1 P)) = (M * H)%nat /\ length (mdata (pW2 P)) = (H * M)%nat /\
  length (mdata (pb1 P)) = H /\ length (mdata (pb2 P)) = M.
Proof.
  destruct SP as ((A1 & A2) & (B1 & B2) & (C1 & C2) & (E1 & E2)).
  rewrite !mdata_length, A1, A2, B1, B2, C1, C2, E1, E2. repeat split; lia.
Qed.

Lemma flat_eq : flat P = mdata (pW1 P) ++ mdata (pW2 P) ++ mdata (pb1 P) ++ mdata (pb2 P).
Proof. unfold flat, arrays. simpl. now rewrite app_nil_r. Qed.

Lemma flat_length : length (flat P) = dim M H.
Proof.
  destruct part_lengths as (L1 & L2 & L3 & L4). rewrite flat_eq, !app_length, L1, L2, L3, L4. unfold dim. nia.
Qed.

Lemma flat_w1 h d : (h < H)%nat -> (d < M)%nat -> w1 H (flat P) h d = at_ (pW1 P) h d.
Proof.
  intros Hh Hd. destruct part_lengths as (L1 & _). unfold w1. rewrite flat_eq.
  destruct SP as ((A1 & A2) & _). rewrite app_nth1 by (rewrite L1; nia).
  rewrite <- A1 at 1. apply mdata_nth; lia.
Qed.

Lemma flat_w2 d h : (d < M)%nat -> (h < H)%nat -> w2 M H (flat P) d h = at_ (pW2 P) d h.
Proof.
  intros Hd Hh. destruct part_lengths as (L1 & L2 & _). unfold w2. rewrite flat_eq.
  destruct SP as (_ & (A1 & A2) & _). rewrite app_nth2 by (rewrite L1; nia).
  replace (H * M + (h * M + d) - length (mdata (pW1 P)))%nat with (h * M + d)%nat by (rewrite L1; nia).
  rewrite app_nth1 by (rewrite L2; nia). rewrite <- A1 at 1. apply mdata_nth; lia.
Qed.

Lemma flat_b1 h : (h < H)%nat -> bias1 M H (flat P) h = at_ (pb1 P) h 0.
Proof.
  intros Hh. destruct part_lengths as (L1 & L2 & L3 & _). unfold bias1. rewrite flat_eq.
  destruct SP as (_ & _ & (A1 & A2) & _). rewrite app_nth2 by (rewrite L1; nia). rewrite app_nth2 by (rewrite L1, L2; nia).
  replace (2 * M * H + h - length (mdata (pW1 P)) - length (mdata (pW2 P)))%nat with (0 * H + h)%nat by (rewrite L1, L2; nia).
  rewrite app_nth1 by (rewrite L3; nia). rewrite <- A1 at 1. apply mdata_nth; lia.
Qed.

Lemma flat_b2 d : (d < M)%nat -> bias2 M H (flat P) d = at_ (pb2 P) d 0.
Proof.
  intros Hd. destruct part_lengths as (L1 & L2 & L3 & L4). unfold bias2. rewrite flat_eq.
  destruct SP as (_ & _ & _ & (A1 & A2)). rewrite app_nth2 by (rewrite L1; nia).
  rewrite app_nth2 by (rewrite L1, L2; nia). rewrite app_nth2 by (rewrite L1, L2, L3; nia).
  replace (2 * M * H + H + d - length (mdata (pW1 P)) - length (mdata (pW2 P)) - length (mdata (pb1 P)))%nat
    with (0 * M + d)%nat by (rewrite L1, L2, L3; nia).
  rewrite <- A1 at 1. apply mdata_nth; lia.
Qed.
End Flat.

(** every index of a parameter vector belongs to one of the four groups *)
Lemma dim_split M H k : (k < dim M H)%nat ->
  (exists h d, (h < H)%nat /\ (d < M)%nat /\ k = (d * H + h)%nat) \/
  (exists d h, (d < M)%nat /\ (h < H)%nat /\ k = (H * M + (h * M + d))%nat) \/
  (exists h, (h < H)%nat /\ k = (2 * M * H + h)%nat) \/
  (exists d, (d < M)%nat /\ k = (2 * M * H + H + d)%nat).
Proof.
  unfold dim. intros Hk. destruct (Nat.lt_ge_cases k (M * H)) as [L|L].
  - left. destruct (split_index H k M L) as (d & h & Hd & Hh & ->). exists h, d. auto.
  - right. destruct (Nat.lt_ge_cases k (2 * M * H)) as [L2|L2].
    + left. destruct (split_index M (k - M * H) H) as (h & d & Hh & Hd & E); [nia|]. exists d, h. repeat split; auto. nia.
    + right. destruct (Nat.lt_ge_cases k (2 * M * H + H)) as [L3|L3].
      * left. exists (k - 2 * M * H)%nat. split; lia.
      * right. exists (k - 2 * M * H - H)%nat. split; lia.
Qed.

(** ** Invariant *)
Section State.
Context (junk : nat -> nat -> R) (M H : nat) (beta rho lambda : R) (act : ActivationFunction).
Notation cfg := (mkCfg M H beta rho lambda act).

Definition sae_inv (s : sae) : Prop :=
  scfg s = cfg /\ psize M H (spar s) /\ psize M H (sder s) /\ length (sgrad s) = dim M H.

Lemma setParameters_ok s p : sae_inv s -> length p = dim M H ->
  exists q, sae_setParameters s p = Ok q /\ sae_inv q /\ flat (spar q) = p /\
    sparameters q = p /\ sX q = sX s.
Proof.
  intros (C & SP & SD & G) Hp. pose proof (part_lengths M H _ SP) as (L1 & L2 & L3 & L4).
  set (a1 := firstn (M * H) p). set (r1 := skipn (M * H) p).
  set (a2 := firstn (H * M) r1). set (r2 := skipn (H * M) r1).
  set (a3 := firstn H r2). set (a4 := skipn H r2).
  assert (E : p = concat [a1; a2; a3; a4] ++ []).
  { simpl. rewrite !app_nil_r. unfold a3, a4. rewrite firstn_skipn. unfold a2, r2. rewrite firstn_skipn.
    unfold a1, r1. now rewrite firstn_skipn. }
  assert (K1 : length a1 = (M * H)%nat) by (unfold a1; rewrite firstn_length, Hp; unfold dim; nia).
  assert (K2 : length a2 = (H * M)%nat) by (unfold a2, r1; rewrite firstn_length, skipn_length, Hp; unfold dim; nia).
  assert (K3 : length a3 = H) by (unfold a3, r2, r1; rewrite firstn_length, !skipn_length, Hp; unfold dim; nia).
  assert (K4 : length a4 = M) by (unfold a4, r2, r1; rewrite !skipn_length, Hp; unfold dim; nia).
  assert (U : unpack p (arrays (spar s)) = Ok [a1; a2; a3; a4]).
  { rewrite E. apply unpack_ok. unfold arrays. repeat constructor; lia. }
  unfold sae_setParameters. rewrite U. cbn [bind]. eexists. split; [reflexivity|].
  pose proof SP as ((A1 & A2) & (B1 & B2) & (C1 & C2) & (E1 & E2)).
  split; [|split; [|split]]; auto.
  - split; auto.
  - rewrite flat_eq. cbn [pW1 pW2 pb1 pb2 spar]. rewrite !mdata_msetdata by lia.
    rewrite E at 1. simpl. now rewrite !app_nil_r.
Qed.

(** ** Forward pass *)
Lemma propagate_ok N I J X W b Zold : size_is X N I -> size_is W J I -> size_is b J 1 ->
  exists A Z, propagate junk act X W b Zold = Ok (A, Z) /\ size_is Z N J /\
    forall n j, at_ Z n j = act_fun act (rsum I (fun i => at_ X n i * at_ W j i) + at_ b j 0).
Proof.
  intros SX (W1 & W2) (b1 & b2). unfold propagate.
  rewrite (mmul_Ok _ _ N I J); [|auto|split; auto]. cbn [bind]. rewrite b1.
  rewrite (maddrow_Ok _ _ N J) by (split; auto). cbn [bind].
  match goal with |- context [activationFunction act ?a ?z] =>
    destruct (activationFunction_Ok act a z N J) as (Z & E & SZ & FZ) end; [split; auto|split; auto|].
  rewrite E. cbn [bind]. eexists _, Z. split; [reflexivity|]. split; auto.
Qed.

Notation cW1 P := (fun _ : R => at_ (pW1 P)).
Notation cW2 P := (fun _ : R => at_ (pW2 P)).
Notation cb1 P := (fun (_ : R) (h : nat) => at_ (pb1 P) h 0%nat).
Notation cb2 P := (fun (_ : R) (d : nat) => at_ (pb2 P) d 0%nat).
Notation Z1of P X := (gZ1 M act (at_ X) (cW1 P) (cb1 P) 0).
Notation Z2of P X := (gZ2 M H act (at_ X) (cW1 P) (cW2 P) (cb1 P) (cb2 P) 0).
Notation mof P X N := (gm M N act (at_ X) (cW1 P) (cb1 P) 0).

(** everything but intermediate results is the same *)
Definition kept (s s' : sae) : Prop :=
  scfg s' = scfg s /\ sX s' = sX s /\ spar s' = spar s /\ sder s' = sder s /\
  sparameters s' = sparameters s /\ sgrad s' = sgrad s.

Lemma kept_inv s s' : kept s s' -> sae_inv s -> sae_inv s'.
Proof. intros (E1 & E2 & E3 & E4 & E5 & E6) (A1 & A2 & A3 & A4). unfold sae_inv. rewrite E1, E3, E4, E6. auto. Qed.

Lemma kept_trans a b c : kept a b -> kept b c -> kept a c.
Proof.
  intros (E1 & E2 & E3 & E4 & E5 & E6) (F1 & F2 & F3 & F4 & F5 & F6). unfold kept.
  rewrite F1, F2, F3, F4, F5, F6. auto 8.
Qed.

Lemma encode_ok s X N : sae_inv s -> size_is X N M ->
  exists s' Z, sae_encode junk s X = Ok (s', Z) /\ kept s s' /\ tZ1 (stmp s') = Z /\ size_is Z N H /\
    forall n h, at_ Z n h = Z1of (spar s) X n h.
Proof.
  intros (C & SP & _) SX. unfold sae_encode. rewrite C. cbn [cact].
  destruct (propagate_ok N M H X (pW1 (spar s)) (pb1 (spar s)) (tZ1 (stmp s)) SX) as (A & Z & E & SZ & FZ);
    [apply SP|apply SP|].
  rewrite E. cbn [bind]. eexists _, Z. split; [reflexivity|]. cbn. split; [|split; [|split]]; auto.
  unfold kept. cbn. auto 8.
Qed.

Lemma decode_ok s X N : sae_inv s -> size_is (tZ1 (stmp s)) N H ->
  (forall n h, at_ (tZ1 (stmp s)) n h = Z1of (spar s) X n h) ->
  exists s' Z, sae_decode junk s = Ok (s', Z) /\ kept s s' /\ tZ1 (stmp s') = tZ1 (stmp s) /\
    tZ2 (stmp s') = Z /\ size_is Z N M /\
    forall n d, at_ Z n d = Z2of (spar s) X n d.
Proof.
  intros (C & SP & _) SZ FZ. unfold sae_decode. rewrite C. cbn [cact].
  destruct (propagate_ok N H M (tZ1 (stmp s)) (pW2 (spar s)) (pb2 (spar s)) (tZ2 (stmp s)) SZ) as (A & Z & E & SZ2 & FZ2);
    [apply SP|apply SP|].
  rewrite E. cbn [bind]. eexists _, Z. split; [reflexivity|]. cbn. split; [|split; [|split; [|split]]]; auto.
  - unfold kept. cbn. auto 8.
  - intros n d. rewrite FZ2. unfold gZ2, gA2. f_equal. f_equal. apply rsum_ext. intros. now rewrite FZ.
Qed.

(** the value of error in a state with parameters [P] *)
Definition errValue (P : saePar) (X : mat) (N : nat) : option R :=
  if Nat.eqb N 0 then None
  else match osum (map (fun h => klTerm rho (mof P X N h)) (seq 0 H)) with
       | Some k => Some (rsum N (fun n => rsum M (fun d => (Z2of P X n d - at_ X n d) ^ 2)) / (2 * INR N) +
           lambda / 2 * (rsum H (fun h => rsum M (fun d => at_ (pW1 P) h d ^ 2)) +
                         rsum M (fun d => rsum H (fun h => at_ (pW2 P) d h ^ 2))) + beta * k)
       | None => None
       end.

Lemma msum_sq a r c : size_is a r c -> msum (mmap (fun v => v * v) a) = rsum r (fun i => rsum c (fun j => at_ a i j ^ 2)).
Proof.
  intros (A & B). unfold msum, mmap. cbn. rewrite A, B. apply rsum_ext. intros. apply rsum_ext. intros. ring.
Qed.

Lemma error_ok s N : sae_inv s -> size_is (sX s) N M ->
  exists s', sae_error junk s = Ok (s', errValue (spar s) (sX s) N) /\ kept s s' /\
    size_is (tZ1 (stmp s')) N H /\ size_is (tZ2 (stmp s')) N M /\ size_is (tdEdZ2 (stmp s')) N M /\
    rows (tmean (stmp s')) = H /\
    (forall n h, at_ (tZ1 (stmp s')) n h = Z1of (spar s) (sX s) n h) /\
    (forall n d, at_ (tZ2 (stmp s')) n d = Z2of (spar s) (sX s) n d) /\
    (forall n d, at_ (tdEdZ2 (stmp s')) n d = Z2of (spar s) (sX s) n d - at_ (sX s) n d) /\
    (forall h, at_ (tmean (stmp s')) h 0 = mof (spar s) (sX s) N h).
Proof.
  intros I SX. pose proof SX as (RX & CX). unfold sae_error. rewrite RX.
  destruct (encode_ok s (sX s) N I SX) as (s1 & Z1 & E1 & K1 & T1 & S1 & F1). rewrite E1. cbn [bind].
  pose proof (kept_inv _ _ K1 I) as I1. pose proof K1 as (_ & KX & KP & _).
  rewrite <- T1 in S1, F1. clear T1 Z1 E1.
  destruct (decode_ok s1 (sX s) N I1 S1) as (s2 & Z2 & E2 & K2 & T1 & T2 & S2 & F2).
  { intros. rewrite F1, KP. reflexivity. }
  rewrite E2. cbn [bind]. rewrite <- T2 in *. clear T2 Z2 E2. rewrite KP in F2.
  pose proof (kept_trans _ _ _ K1 K2) as K. pose proof K as (Kc & KX2 & KP2 & Kd & Kp & Kg).
  rewrite <- T1 in S1, F1. rewrite KX2, Kc, KP2.
  rewrite (mmap2_Ok _ _ _ N M) by auto. cbn [bind]. eexists. split.
  - pose proof I as (C & SP & _). rewrite C. cbn [crho clambda cbeta rows at_]. destruct S1 as (R1 & C1). rewrite C1.
    rewrite (msum_sq (pW1 (spar s)) H M), (msum_sq (pW2 (spar s)) M H) by apply SP.
    rewrite (msum_sq _ N M) by (split; auto). cbn [at_]. unfold errValue.
    rewrite (map_ext (fun j => klTerm rho (colsum (tZ1 (stmp s2)) j / INR N)) (fun h => klTerm rho (mof (spar s) (sX s) N h))).
    2:{ intros h. f_equal. unfold gm, colsum. rewrite R1. f_equal. apply rsum_ext. intros. apply F1. }
    rewrite (rsum_ext N (fun i => rsum M (fun j => (at_ (tZ2 (stmp s2)) i j - at_ (sX s) i j) ^ 2))
       (fun n => rsum M (fun d => (Z2of (spar s) (sX s) n d - at_ (sX s) n d) ^ 2))).
    2:{ intros. apply rsum_ext. intros. now rewrite F2. }
    reflexivity.
  - cbn. split; [unfold kept; cbn; destruct I as (C & _); rewrite C; auto 8|]. split; auto. split; auto. split; [split; auto|].
    destruct S1 as (R1 & C1). split; auto. split; auto. split; auto. split; [intros; now rewrite F2|].
    intros h. unfold gm, colsum. rewrite R1. f_equal. apply rsum_ext. intros. apply F1.
Qed.

Notation gW1of P X N := (gW1 M H N beta rho lambda act (at_ X) (cW1 P) (cW2 P) (cb1 P) (cb2 P) 0).
Notation gW2of P X N := (gW2 M H N lambda act (at_ X) (cW1 P) (cW2 P) (cb1 P) (cb2 P) 0).
Notation gb1of P X N := (gb1 M H N beta rho act (at_ X) (cW1 P) (cW2 P) (cb1 P) (cb2 P) 0).
Notation gb2of P X N := (gb2 M H N act (at_ X) (cW1 P) (cW2 P) (cb1 P) (cb2 P) 0).

Lemma errorGradient_ok s N g : sae_inv s -> size_is (sX s) N M -> length g = dim M H ->
  exists s', sae_errorGradient junk s g = Ok (s', errValue (spar s) (sX s) N, flat (sder s')) /\
    sae_inv s' /\ spar s' = spar s /\ sX s' = sX s /\ sparameters s' = sparameters s /\
    (forall h d, at_ (pW1 (sder s')) h d = gW1of (spar s) (sX s) N h d) /\
    (forall d h, at_ (pW2 (sder s')) d h = gW2of (spar s) (sX s) N d h) /\
    (forall h, at_ (pb1 (sder s')) h 0 = gb1of (spar s) (sX s) N h) /\
    (forall d, at_ (pb2 (sder s')) d 0 = gb2of (spar s) (sX s) N d).
Proof.
  intros I SX Hg. pose proof SX as (RX & CX). unfold sae_errorGradient. rewrite RX.
  destruct (error_ok s N I SX) as (s1 & E & K & S1 & S2 & S3 & S4 & F1 & F2 & F3 & F4). rewrite E. cbn [bind].
  pose proof K as (Kc & KX & KP & Kd & Kp & Kg). pose proof I as (C & SP & SD & G).
  rewrite KX, KP, Kc, C. cbn [cact clambda crho cbeta].
  destruct S1 as (R1 & C1), S2 as (R2 & C2). rewrite R1, C1, R2, C2.
  destruct (activationFunctionDerivative_Ok act (tZ2 (stmp s1)) (mconsresize junk (tG2D (stmp s1)) N M) N M)
    as (G2 & EG2 & SG2 & FG2); [split; auto|split; auto|]. rewrite EG2. cbn [bind].
  rewrite (mmap2_Ok _ _ _ N M) by auto. cbn [bind].
  rewrite (mmul_Ok _ _ M N H); [|split; auto|split; auto]. cbn [bind].
  rewrite (mmap2_Ok _ _ _ M H); [|split; auto|apply SP]. cbn [bind].
  rewrite (mmul_Ok _ _ N M H); [|split; auto|apply SP]. cbn [bind]. rewrite S4.
  rewrite (maddrow_Ok _ _ N H) by (split; auto). cbn [bind].
  destruct (activationFunctionDerivative_Ok act (tZ1 (stmp s1)) (mconsresize junk (tG1D (stmp s1)) N H) N H)
    as (G1 & EG1 & SG1 & FG1); [split; auto|split; auto|]. rewrite EG1. cbn [bind].
  rewrite (mmap2_Ok _ _ _ N H); [|split; auto|auto]. cbn [bind].
  rewrite (mmul_Ok _ _ H N M); [|split; auto|auto]. cbn [bind].
  rewrite (mmap2_Ok _ _ _ H M); [|split; auto|apply SP]. cbn [bind].
  match goal with |- context [pack g (arrays ?d)] => set (P' := d) end.
  assert (SP' : psize M H P') by (split; [|split; [|split]]; split; reflexivity).
  rewrite (pack_ok (arrays P') g) by (change (concat (arrays P')) with (flat P'); rewrite (flat_length M H P' SP'); lia).
  change (concat (arrays P')) with (flat P'). rewrite (flat_length M H P' SP'), skipn_all2, app_nil_r by lia.
  cbn [bind]. match goal with |- context [Ok (?st, errValue _ _ _, flat P')] => exists st end.
  split; [reflexivity|]. cbn [sder spar sX scfg sgrad sparameters].
  assert (X2 : forall n d, at_ (tdEdZ2 (stmp s1)) n d * at_ G2 n d =
     del2 M H act (at_ (sX s)) (cW1 (spar s)) (cW2 (spar s)) (cb1 (spar s)) (cb2 (spar s)) 0 n d).
  { intros. rewrite F3, FG2, F2. reflexivity. }
  assert (X1 : forall n h,
     (rsum M (fun l => at_ (tdEdZ2 (stmp s1)) n l * at_ G2 n l * at_ (pW2 (spar s)) l h) +
        beta * (- rho * / at_ (tmean (stmp s1)) h 0 + (1 - rho) * / (1 - at_ (tmean (stmp s1)) h 0))) * at_ G1 n h =
     del1 M H N beta rho act (at_ (sX s)) (cW1 (spar s)) (cW2 (spar s)) (cb1 (spar s)) (cb2 (spar s)) 0 n h).
  { intros. rewrite F4, FG1, F1. unfold del1, klD. f_equal. f_equal. apply rsum_ext. intros. now rewrite X2. }
  split; [|split; [|split; [|split; [|split; [|split; [|split]]]]]]; auto.
  - split; [auto|]. split; auto. split; auto. rewrite Kg. auto.
  - intros h d. unfold P'. cbn [pW1 at_ mtrans]. unfold gW1. f_equal. f_equal. apply rsum_ext. intros n Hn. f_equal. apply X1.
  - intros d h. unfold P'. cbn [pW2 at_ mtrans]. unfold gW2. f_equal. f_equal. apply rsum_ext. intros n Hn.
    rewrite X2, F1. reflexivity.
  - intros h. unfold P'. cbn [pb1 at_ mmap mcolsum]. unfold colsum, gb1. cbn [rows at_]. f_equal. apply rsum_ext. intros n Hn. apply X1.
  - intros d. unfold P'. cbn [pb2 at_ mmap mcolsum]. unfold colsum, gb2. cbn [rows at_]. f_equal. apply rsum_ext. intros n Hn. apply X2.
Qed.

Lemma gradient_ok s N : sae_inv s -> size_is (sX s) N M ->
  exists s' g, sae_gradient junk s = Ok (s', g) /\ sae_inv s' /\ spar s' = spar s /\ sX s' = sX s /\
    sparameters s' = sparameters s /\
    exists s1, sae_errorGradient junk s (sgrad s) = Ok (s1, errValue (spar s) (sX s) N, g).
Proof.
  intros I SX. destruct (errorGradient_ok s N (sgrad s) I SX) as (s1 & E & I1 & KP & KX & Kp & _); [apply I|].
  unfold sae_gradient. rewrite E. cbn [bind]. eexists _, _. split; [reflexivity|].
  cbn [spar sX sparameters]. pose proof I1 as (A1 & A2 & A3 & A4). split; [|split; [|split; [|split; [|eauto]]]]; auto.
  split; auto. split; auto. split; auto. cbn. now apply flat_length.
Qed.

(** ** The same in terms of the parameter vector *)
Section Vector.
Context (P : saePar) (SP : psize M H P).

Lemma Z1_vec X n h : (h < H)%nat -> Z1of P X n h = hidden M H act (flat P) (at_ X n) h.
Proof.
  intros Hh. unfold gZ1, gA1, hidden, hiddenIn. f_equal. f_equal.
  - apply rsum_ext. intros d Hd. rewrite (flat_w1 M H P SP) by auto. reflexivity.
  - now rewrite (flat_b1 M H P SP).
Qed.
Lemma Z2_vec X n d : (d < M)%nat -> Z2of P X n d = reconstruction M H act (flat P) (at_ X n) d.
Proof.
  intros Hd. unfold gZ2, gA2, reconstruction, outIn. f_equal. f_equal.
  - apply rsum_ext. intros h Hh. rewrite Z1_vec by auto. rewrite (flat_w2 M H P SP) by auto. reflexivity.
  - now rewrite (flat_b2 M H P SP).
Qed.
Lemma m_vec X h : (h < H)%nat -> mof P X (rows X) h = meanActivation M H act (flat P) X h.
Proof. intros Hh. unfold gm, meanActivation. f_equal. apply rsum_ext. intros. now apply Z1_vec. Qed.
End Vector.

Lemma klTerm_proper m : 0 < rho < 1 -> 0 < m < 1 -> klTerm rho m = Some (KL rho m).
Proof.
  intros Hr Hm. unfold klTerm, finv, flog, KL.
  rewrite (proj2 (Reqb_false m 0)) by lra. rewrite (proj2 (Reqb_false (1 - m) 0)) by lra.
  rewrite (proj2 (Rltb_true 0 (rho * / m))) by (apply Rdiv_lt_0_compat; lra).
  rewrite (proj2 (Rltb_true 0 ((1 - rho) * / (1 - m)))) by (apply Rdiv_lt_0_compat; lra). reflexivity.
Qed.

Lemma klTerm_improper m : 0 < rho < 1 -> ~ 0 < m < 1 -> klTerm rho m = None.
Proof.
  intros Hr Hm. unfold klTerm, finv, flog.
  destruct (Reqb m 0) eqn:E0; [auto|]. apply Reqb_false in E0.
  destruct (Reqb (1 - m) 0) eqn:E1; [auto|]. apply Reqb_false in E1.
  destruct (Rltb 0 (rho * / m)) eqn:E2; [|auto].
  destruct (Rltb 0 ((1 - rho) * / (1 - m))) eqn:E3; [|auto]. exfalso. apply Hm.
  apply Rltb_true in E2, E3. split.
  - apply Rnot_le_lt. intros L. assert (/ m < 0) by (apply Rinv_lt_0_compat; lra). nra.
  - apply Rnot_le_lt. intros L. assert (/ (1 - m) < 0) by (apply Rinv_lt_0_compat; lra). nra.
Qed.

Lemma osum_Some n (f : nat -> R) g : (forall h, (h < n)%nat -> g h = Some (f h)) ->
  osum (map g (seq 0 n)) = Some (rsum n f).
Proof.
  intros Hf. rewrite <- lsum_map_seq.
  assert (G : forall l, (forall h, In h l -> g h = Some (f h)) -> osum (map g l) = Some (lsum (map f l))).
  { induction l as [|a l IH]; intros Hl; auto. cbn [map osum fold_right]. rewrite Hl by (left; auto).
    fold (osum (map g l)). rewrite IH by (intros; apply Hl; right; auto). reflexivity. }
  apply G. intros h Hh. apply in_seq in Hh. apply Hf. lia.
Qed.

Lemma osum_None n (g : nat -> option R) h : (h < n)%nat -> g h = None -> osum (map g (seq 0 n)) = None.
Proof.
  intros Hh Hg.
  assert (G : forall l, In h l -> osum (map g l) = None).
  { induction l as [|a l IH]; intros Hl; [contradiction|]. cbn [map osum fold_right].
    fold (osum (map g l)). destruct Hl as [->|Hl].
    - rewrite Hg. auto.
    - rewrite IH by auto. destruct (g a); auto. }
  apply G, in_seq. lia.
Qed.

Lemma errValue_proper P X : psize M H P -> (0 < rows X)%nat -> 0 < rho < 1 ->
  meansProper M H act (flat P) X ->
  errValue P X (rows X) = Some (saeObjective M H beta rho lambda act (flat P) X).
Proof.
  intros SP N0 Hr Hm. unfold errValue. destruct (Nat.eqb_spec (rows X) 0) as [E|_]; [lia|].
  rewrite (osum_Some H (fun h => KL rho (meanActivation M H act (flat P) X h))).
  - unfold saeObjective. do 2 f_equal. f_equal.
    + f_equal. apply rsum_ext. intros n Hn. apply rsum_ext. intros d Hd. rewrite (Z2_vec P SP) by auto. reflexivity.
    + f_equal. f_equal; apply rsum_ext; intros; apply rsum_ext; intros.
      * rewrite (flat_w1 M H P SP) by auto. reflexivity.
      * rewrite (flat_w2 M H P SP) by auto. reflexivity.
  - intros h Hh. rewrite (m_vec P SP) by auto. apply klTerm_proper; auto.
Qed.

Lemma errValue_improper P X : psize M H P -> 0 < rho < 1 ->
  ~ meansProper M H act (flat P) X -> errValue P X (rows X) = None.
Proof.
  intros SP Hr Hm. unfold errValue. destruct (Nat.eqb_spec (rows X) 0) as [E|_]; auto.
  match goal with |- context [osum ?l] => destruct (osum l) eqn:Eo end; auto. exfalso. apply Hm. intros h Hh.
  destruct (Rlt_dec 0 (meanActivation M H act (flat P) X h)) as [A|A];
    destruct (Rlt_dec (meanActivation M H act (flat P) X h) 1) as [B|B]; auto; exfalso;
    rewrite (osum_None H _ h Hh) in Eo; try discriminate; rewrite (m_vec P SP) by auto; apply klTerm_improper; auto; lra.
Qed.

(** the derivative with respect to one entry of the parameter vector *)
Lemma objective_derivative P X k : psize M H P -> (0 < rows X)%nat -> 0 < rho < 1 ->
  meansProper M H act (flat P) X ->
  (forall n h, (n < rows X)%nat -> (h < H)%nat -> act_smooth act (hiddenIn M H (flat P) (at_ X n) h)) ->
  (forall n d, (n < rows X)%nat -> (d < M)%nat -> act_smooth act (outIn M H act (flat P) (at_ X n) d)) ->
  (k < dim M H)%nat ->
  forall P', psize M H P' ->
    (forall h d, at_ (pW1 P') h d = gW1of P X (rows X) h d) ->
    (forall d h, at_ (pW2 P') d h = gW2of P X (rows X) d h) ->
    (forall h, at_ (pb1 P') h 0 = gb1of P X (rows X) h) ->
    (forall d, at_ (pb2 P') d 0 = gb2of P X (rows X) d) ->
  D (fun t => saeObjective M H beta rho lambda act (upd (flat P) k t) X) (flat P).[k] (flat P').[k].
Proof.
  intros SP N0 Hr Hm Sm1 Sm2 Hk P' SP' F1 F2 F3 F4. set (p := flat P) in *.
  assert (Lp : length p = dim M H) by (apply flat_length; auto).
  set (t0 := p.[k]). set (N := rows X) in *. set (x := at_ X) in *.
  set (V1 := fun t => w1 H (upd p k t)). set (V2 := fun t => w2 M H (upd p k t)).
  set (c1 := fun t => bias1 M H (upd p k t)). set (c2 := fun t => bias2 M H (upd p k t)).
  set (dl := fun i => if Nat.eqb i k then 1 else 0).
  assert (DD : forall i, D (fun t => (upd p k t).[i]) t0 (dl i)) by (intros; apply D_upd; rewrite Lp; auto).
  assert (U0 : upd p k t0 = p) by apply upd_id.
  (* values at t0 agree with those computed from P *)
  assert (VZ1 : forall n h, (h < H)%nat -> gZ1 M act x V1 c1 t0 n h = Z1of P X n h).
  { intros n h Hh. rewrite (Z1_vec P SP X n h Hh). unfold gZ1, gA1, hidden, hiddenIn, V1, c1. rewrite U0. reflexivity. }
  assert (VZ2 : forall n d, (d < M)%nat -> gZ2 M H act x V1 V2 c1 c2 t0 n d = Z2of P X n d).
  { intros n d Hd. rewrite (Z2_vec P SP X n d Hd). unfold gZ2, gA2, reconstruction, outIn, V2, c2. rewrite U0. f_equal. f_equal.
    apply rsum_ext. intros h Hh. rewrite VZ1, (Z1_vec P SP) by auto. reflexivity. }
  assert (Vm : forall h, (h < H)%nat -> gm M N act x V1 c1 t0 h = mof P X N h).
  { intros h Hh. unfold gm. f_equal. apply rsum_ext. intros. now apply VZ1. }
  assert (VW1 : forall h d, (h < H)%nat -> (d < M)%nat -> V1 t0 h d = at_ (pW1 P) h d).
  { intros. unfold V1. rewrite U0. now apply (flat_w1 M H P SP). }
  assert (VW2 : forall d h, (d < M)%nat -> (h < H)%nat -> V2 t0 d h = at_ (pW2 P) d h).
  { intros. unfold V2. rewrite U0. now apply (flat_w2 M H P SP). }
  assert (Vd2 : forall n d, (d < M)%nat -> del2 M H act x V1 V2 c1 c2 t0 n d =
     del2 M H act x (cW1 P) (cW2 P) (cb1 P) (cb2 P) 0 n d).
  { intros n d Hd. unfold del2. rewrite VZ2 by auto. reflexivity. }
  assert (Vd1 : forall n h, (h < H)%nat -> del1 M H N beta rho act x V1 V2 c1 c2 t0 n h =
     del1 M H N beta rho act x (cW1 P) (cW2 P) (cb1 P) (cb2 P) 0 n h).
  { intros n h Hh. unfold del1, klD. rewrite Vm, VZ1 by auto. f_equal. f_equal. apply rsum_ext. intros d Hd.
    rewrite Vd2, VW2 by auto. reflexivity. }
  assert (G := gE_derivative M H N beta rho lambda act x V1 V2 c1 c2 t0
    (fun h d => dl (d * H + h)%nat) (fun d h => dl (H * M + (h * M + d))%nat)
    (fun h => dl (2 * M * H + h)%nat) (fun d => dl (2 * M * H + H + d)%nat)).
  eapply D_eq; [|apply (D_ext (gE M H N beta rho lambda act x V1 V2 c1 c2)); [reflexivity|apply G]];
    clear G; auto; try (intros; apply DD).
  - (* the gradient is a sum with one non-zero term *)
    rewrite (rsum_ext H _ (fun h => rsum M (fun d => (flat P').[d * H + h] * dl (d * H + h)%nat))).
    2:{ intros h Hh. apply rsum_ext. intros d Hd. f_equal. fold (w1 H (flat P') h d). rewrite (flat_w1 M H P' SP') by auto.
        rewrite F1. unfold gW1. rewrite VW1 by auto. f_equal. f_equal. apply rsum_ext. intros. now rewrite Vd1. }
    rewrite (rsum_ext M (fun d => rsum H (fun h => _ * dl (H * M + (h * M + d))%nat))
       (fun d => rsum H (fun h => (flat P').[H * M + (h * M + d)] * dl (H * M + (h * M + d))%nat))).
    2:{ intros d Hd. apply rsum_ext. intros h Hh. f_equal. fold (w2 M H (flat P') d h). rewrite (flat_w2 M H P' SP') by auto.
        rewrite F2. unfold gW2. rewrite VW2 by auto. f_equal. f_equal. apply rsum_ext. intros. now rewrite Vd2, VZ1. }
    rewrite (rsum_ext H (fun h => _ * dl (2 * M * H + h)%nat) (fun h => (flat P').[2 * M * H + h] * dl (2 * M * H + h)%nat)).
    2:{ intros h Hh. f_equal. fold (bias1 M H (flat P') h). rewrite (flat_b1 M H P' SP') by auto.
        rewrite F3. unfold gb1. f_equal. apply rsum_ext. intros. now rewrite Vd1. }
    rewrite (rsum_ext M (fun d => _ * dl (2 * M * H + H + d)%nat) (fun d => (flat P').[2 * M * H + H + d] * dl (2 * M * H + H + d)%nat)).
    2:{ intros d Hd. f_equal. fold (bias2 M H (flat P') d). rewrite (flat_b2 M H P' SP') by auto.
        rewrite F4. unfold gb2. f_equal. apply rsum_ext. intros. now rewrite Vd2. }
    set (g := flat P'). clearbody g.
    assert (Z : forall i, i <> k -> g.[i] * dl i = 0).
    { intros i Hi. unfold dl. destruct (Nat.eqb_spec i k); [contradiction|]. ring. }
    assert (O : g.[k] * dl k = g.[k]) by (unfold dl; rewrite Nat.eqb_refl; ring).
    destruct (dim_split M H k Hk) as [(h & d & Hh & Hd & E)|[(d & h & Hd & Hh & E)|[(h & Hh & E)|(d & Hd & E)]]].
    + rewrite (rsum_single H h), (rsum_single M d); auto.
      2:{ intros i Hi Hn. apply Z. rewrite E. intros Q. apply Hn. nia. }
      2:{ intros i Hi Hn. apply rsum_0. intros j Hj. apply Z. rewrite E. intros Q. apply Hn.
          destruct (split_index_inj H j i d h); auto. }
      rewrite (rsum_0 M (fun d0 => rsum H _)).
      2:{ intros j Hj. apply rsum_0. intros i Hi. apply Z. rewrite E. nia. }
      rewrite (rsum_0 H). 2:{ intros j Hj. apply Z. rewrite E. nia. }
      rewrite (rsum_0 M). 2:{ intros j Hj. apply Z. rewrite E. nia. }
      rewrite <- E, O. ring.
    + rewrite (rsum_0 H (fun h0 => rsum M _)).
      2:{ intros j Hj. apply rsum_0. intros i Hi. apply Z. rewrite E. nia. }
      rewrite (rsum_single M d), (rsum_single H h); auto.
      2:{ intros i Hi Hn. apply Z. rewrite E. intros Q. apply Hn. nia. }
      2:{ intros i Hi Hn. apply rsum_0. intros j Hj. apply Z. rewrite E. intros Q. apply Hn.
          destruct (split_index_inj M j i h d); auto. lia. }
      rewrite (rsum_0 H). 2:{ intros j Hj. apply Z. rewrite E. nia. }
      rewrite (rsum_0 M). 2:{ intros j Hj. apply Z. rewrite E. nia. }
      rewrite <- E, O. ring.
    + rewrite (rsum_0 H (fun h0 => rsum M _)).
      2:{ intros j Hj. apply rsum_0. intros i Hi. apply Z. rewrite E. nia. }
      rewrite (rsum_0 M (fun d0 => rsum H _)).
      2:{ intros j Hj. apply rsum_0. intros i Hi. apply Z. rewrite E. nia. }
      rewrite (rsum_single H h); auto.
      2:{ intros i Hi Hn. apply Z. lia. }
      rewrite (rsum_0 M). 2:{ intros j Hj. apply Z. lia. }
      rewrite <- E, O. ring.
    + rewrite (rsum_0 H (fun h0 => rsum M _)).
      2:{ intros j Hj. apply rsum_0. intros i Hi. apply Z. rewrite E. nia. }
      rewrite (rsum_0 M (fun d0 => rsum H _)).
      2:{ intros j Hj. apply rsum_0. intros i Hi. apply Z. rewrite E. nia. }
      rewrite (rsum_0 H). 2:{ intros j Hj. apply Z. lia. }
      rewrite (rsum_single M d); auto.
      2:{ intros i Hi Hn. apply Z. lia. }
      rewrite <- E, O. ring.
  - intros h Hh. rewrite Vm by auto. unfold N, x. rewrite (m_vec P SP X h Hh). now apply Hm.
  - intros n h Hn Hh. unfold gA1, V1, c1. rewrite U0. now apply Sm1.
  - intros n d Hn Hd. replace (gA2 M H act x V1 V2 c1 c2 t0 n d) with (outIn M H act p (at_ X n) d); [now apply Sm2|].
    unfold gA2, outIn, V2, c2. rewrite U0. f_equal. apply rsum_ext. intros h Hh. rewrite VZ1, (Z1_vec P SP) by auto. reflexivity.
Qed.

Lemma objective_ext X Y p : rows X = rows Y -> (forall n d, (n < rows X)%nat -> (d < M)%nat -> at_ X n d = at_ Y n d) ->
  saeObjective M H beta rho lambda act p X = saeObjective M H beta rho lambda act p Y.
Proof.
  intros E HXY.
  assert (H1 : forall n h, (n < rows X)%nat -> hidden M H act p (at_ X n) h = hidden M H act p (at_ Y n) h).
  { intros n h Hn. unfold hidden, hiddenIn. f_equal. f_equal. apply rsum_ext. intros d Hd. now rewrite HXY. }
  assert (H2 : forall n d, (n < rows X)%nat -> reconstruction M H act p (at_ X n) d = reconstruction M H act p (at_ Y n) d).
  { intros n d Hn. unfold reconstruction, outIn. f_equal. f_equal. apply rsum_ext. intros h Hh. now rewrite H1. }
  unfold saeObjective, meanActivation. rewrite <- E. f_equal; [f_equal; f_equal|f_equal].
  - apply rsum_ext. intros n Hn. apply rsum_ext. intros d Hd. now rewrite H2, HXY.
  - apply rsum_ext. intros h Hh. f_equal. f_equal. apply rsum_ext. intros. now apply H1.
Qed.

Lemma meansProper_ext X Y p : rows X = rows Y -> (forall n d, (n < rows X)%nat -> (d < M)%nat -> at_ X n d = at_ Y n d) ->
  meansProper M H act p X -> meansProper M H act p Y.
Proof.
  intros E HXY Hm h Hh. specialize (Hm h Hh). unfold meanActivation in *. rewrite <- E.
  rewrite (rsum_ext (rows X) _ (fun n => hidden M H act p (at_ X n) h)); auto.
  intros n Hn. unfold hidden, hiddenIn. f_equal. f_equal. apply rsum_ext. intros d Hd. now rewrite HXY.
Qed.
End State.
