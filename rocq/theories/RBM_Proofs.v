(** Proofs about restricted Boltzmann machines: parameters, sampling and the gradient. *)
From Verif Require Import Base BaseFacts Matrix RSum MatOps Vec Activation_Model
  Activation_Proofs Layer_Layout FC_Model IO_Model IO_Proofs SAE_Model SAE_Proofs RBM_Model RBM_Spec.
Local Open Scope R_scope.

Definition rsize (M H : nat) (P : rbmPar) : Prop :=
  size_is (qW P) H M /\ size_is (qbv P) M 1 /\ size_is (qbh P) H 1.
Definition rdim (M H : nat) : nat := (M * H + M + H)%nat.
(** all parameters as one vector *)
Definition rflat (P : rbmPar) : list R := concat (rarrays P).

Section Flat.
Context (M H : nat) (P : rbmPar).
Hypothesis SP : rsize M H P.

Lemma rpart_lengths : length (mdata (qW P)) = (M * H)%nat /\ length (mdata (qbv P)) = M /\ length (mdata (qbh P)) = H.
Proof.
  destruct SP as ((A1 & A2) & (B1 & B2) & (C1 & C2)). rewrite !mdata_length, A1, A2, B1, B2, C1, C2. repeat split; lia.
Qed.

Lemma rflat_eq : rflat P = mdata (qW P) ++ mdata (qbv P) ++ mdata (qbh P).
Proof. unfold rflat, rarrays. simpl. now rewrite app_nil_r. Qed.

Lemma rflat_length : length (rflat P) = rdim M H.
Proof. destruct rpart_lengths as (L1 & L2 & L3). rewrite rflat_eq, !app_length, L1, L2, L3. unfold rdim. nia. Qed.

Lemma rflat_w j i : (j < H)%nat -> (i < M)%nat -> rw H (rflat P) j i = at_ (qW P) j i.
Proof.
  intros Hh Hd. destruct rpart_lengths as (L1 & _). unfold rw. rewrite rflat_eq.
  destruct SP as ((A1 & A2) & _). rewrite app_nth1 by (rewrite L1; nia).
  rewrite <- A1 at 1. apply mdata_nth; lia.
Qed.

Lemma rflat_bv i : (i < M)%nat -> biasV M H (rflat P) i = at_ (qbv P) i 0.
Proof.
  intros Hd. destruct rpart_lengths as (L1 & L2 & _). unfold biasV. rewrite rflat_eq.
  destruct SP as (_ & (A1 & A2) & _). rewrite app_nth2 by (rewrite L1; nia).
  replace (M * H + i - length (mdata (qW P)))%nat with (0 * M + i)%nat by (rewrite L1; nia).
  rewrite app_nth1 by (rewrite L2; nia). rewrite <- A1 at 1. apply mdata_nth; lia.
Qed.

Lemma rflat_bh j : (j < H)%nat -> biasH M H (rflat P) j = at_ (qbh P) j 0.
Proof.
  intros Hh. destruct rpart_lengths as (L1 & L2 & L3). unfold biasH. rewrite rflat_eq.
  destruct SP as (_ & _ & (A1 & A2)). rewrite app_nth2 by (rewrite L1; nia). rewrite app_nth2 by (rewrite L1, L2; nia).
  replace (M * H + M + j - length (mdata (qW P)) - length (mdata (qbv P)))%nat with (0 * H + j)%nat by (rewrite L1, L2; nia).
  rewrite <- A1 at 1. apply mdata_nth; lia.
Qed.
End Flat.

Lemma rdim_split M H k : (k < rdim M H)%nat ->
  (exists j i, (j < H)%nat /\ (i < M)%nat /\ k = (i * H + j)%nat) \/
  (exists i, (i < M)%nat /\ k = (M * H + i)%nat) \/
  (exists j, (j < H)%nat /\ k = (M * H + M + j)%nat).
Proof.
  unfold rdim. intros Hk. destruct (Nat.lt_ge_cases k (M * H)) as [L|L].
  - left. destruct (split_index H k M L) as (i & j & Hi & Hj & ->). exists j, i. auto.
  - right. destruct (Nat.lt_ge_cases k (M * H + M)) as [L2|L2].
    + left. exists (k - M * H)%nat. split; lia.
    + right. exists (k - M * H - M)%nat. split; lia.
Qed.

(** two parameter vectors with equal groups are equal *)
Lemma rvec_ext M H (a b : list R) : length a = rdim M H -> length b = rdim M H ->
  (forall j i, (j < H)%nat -> (i < M)%nat -> rw H a j i = rw H b j i) ->
  (forall i, (i < M)%nat -> biasV M H a i = biasV M H b i) ->
  (forall j, (j < H)%nat -> biasH M H a j = biasH M H b j) -> a = b.
Proof.
  intros La Lb Ew Ev Eh. apply vec_ext; [congruence|]. intros k Hk. rewrite La in Hk.
  destruct (rdim_split M H k Hk) as [(j & i & Hj & Hi & ->)|[(i & Hi & ->)|(j & Hj & ->)]].
  - now apply Ew.
  - now apply Ev.
  - now apply Eh.
Qed.

(** ** The probabilities depend on the units only *)
Lemma probH_ext M H p v v' j : (forall i, (i < M)%nat -> v i = v' i) -> probH M H p v j = probH M H p v' j.
Proof. intros E. unfold probH, inputH. do 2 f_equal. apply rsum_ext. intros. now rewrite E. Qed.
Lemma probV_ext M H p h h' i : (forall j, (j < H)%nat -> h j = h' j) -> probV M H p h i = probV M H p h' i.
Proof. intros E. unfold probV. do 2 f_equal. apply rsum_ext. intros. now rewrite E. Qed.

Lemma visibleAt_S M H p draw k N v t n i :
  visibleAt M H p draw k N v (S t) n i =
  bernoulli (probVAt M H p draw k N v t n i) (draw (k + t * (N * H + N * M) + N * H + n * M + i)%nat).
Proof. reflexivity. Qed.

Lemma visibleAt_ext M H p draw k N v v' t n : (forall i, (i < M)%nat -> v n i = v' n i) ->
  forall i, (i < M)%nat -> visibleAt M H p draw k N v t n i = visibleAt M H p draw k N v' t n i.
Proof.
  intros E. induction t as [|t IH]; intros i Hi; [now apply E|]. rewrite !visibleAt_S. f_equal.
  unfold probVAt. apply probV_ext. intros j Hj. unfold hiddenAt. f_equal. now apply probH_ext.
Qed.

(** ** Sampling *)
Section Sampling.
Context (junk : nat -> nat -> R) (u : nat -> R).

Lemma sampleLoop_ok N C prob x k : size_is prob N C -> size_is x N C ->
  exists x', sampleLoop u N C prob (x, k) = Ok (x', (k + N * C)%nat) /\ size_is x' N C /\
    forall n j, (n < N)%nat -> (j < C)%nat -> at_ x' n j = bernoulli (at_ prob n j) (u (k + n * C + j)%nat).
Proof.
  intros (P1 & P2) Sx. unfold sampleLoop.
  destruct (for_inv (fun n (st : mat * nat) => size_is (fst st) N C /\ snd st = (k + n * C)%nat /\
    forall n' j, (n' < n)%nat -> (j < C)%nat -> at_ (fst st) n' j = bernoulli (at_ prob n' j) (u (k + n' * C + j)%nat))
    (fun n st => for_ C (fun j st =>
      let '(x, k) := st in
      p <- mget prob n j ;;
      x <- mset x n j (if Rltb (u k) p then 1 else 0) ;;
      Ok (x, S k)) st) N (x, k)) as ((x' & k') & E & S' & K' & F').
  - cbn. split; [auto|split; [lia|]]. intros; lia.
  - intros n (y & ky) Hn (Sy & Ky & Fy). cbn [fst snd] in *.
    destruct (for_inv (fun j (st : mat * nat) => size_is (fst st) N C /\ snd st = (k + n * C + j)%nat /\
      (forall n' j', (n' < n)%nat -> (j' < C)%nat -> at_ (fst st) n' j' = bernoulli (at_ prob n' j') (u (k + n' * C + j')%nat)) /\
      (forall j', (j' < j)%nat -> at_ (fst st) n j' = bernoulli (at_ prob n j') (u (k + n * C + j')%nat)))
      (fun j st =>
        let '(x, k) := st in
        p <- mget prob n j ;;
        x <- mset x n j (if Rltb (u k) p then 1 else 0) ;;
        Ok (x, S k)) C (y, ky)) as ((y' & ky') & E & S' & K' & F' & G').
    + cbn. split; [auto|split; [lia|split; [auto|]]]. intros; lia.
    + intros j (z & kz) Hj (Sz & Kz & Fz & Gz). cbn [fst snd] in *. destruct Sz as (z1 & z2).
      rewrite mget_Ok by lia. cbn [bind]. rewrite mset_Ok by lia. cbn [bind].
      eexists. split; [reflexivity|]. cbn [fst snd]. split; [split; auto|]. split; [lia|].
      split; intros.
      * rewrite at_mupd_other by lia. now apply Fz.
      * destruct (Nat.eq_dec j' j) as [->|Nj].
        { rewrite at_mupd_same. unfold bernoulli, Rltb. rewrite Kz. now destruct (Rlt_dec _ _). }
        rewrite at_mupd_other by lia. apply Gz. lia.
    + exists (y', ky'). split; [exact E|]. cbn [fst snd] in *. split; [auto|]. split; [nia|].
      intros n' j Hn' Hj. destruct (Nat.eq_dec n' n) as [->|]; [now apply G'|]. apply F'; lia.
  - cbn [fst snd] in *. exists x'. split; [rewrite E; now subst k'|]. auto.
Qed.

Context (M H : nat) (c : rbmCfg) (P : rbmPar).
Hypothesis Hc : rD c = M /\ rH c = H.
Hypothesis SP : rsize M H P.
Notation p := (rflat P).

Lemma sampleH_ok N m : size_is (mv m) N M -> cols (mh m) = H ->
  exists ph h, sampleHgivenV junk u c P m = Ok (mkRS (mpv m) (mv m) ph h (mk m + N * H)) /\
    size_is ph N H /\ size_is h N H /\
    (forall n j, (j < H)%nat -> at_ ph n j = probH M H p (at_ (mv m) n) j) /\
    (forall n j, (n < N)%nat -> (j < H)%nat ->
       at_ h n j = bernoulli (probH M H p (at_ (mv m) n) j) (u (mk m + n * H + j)%nat)).
Proof.
  intros Sv Ch. destruct Hc as (C1 & C2). pose proof SP as ((W1 & W2) & (B1 & B2) & (D1 & D2)). unfold sampleHgivenV.
  rewrite (mmul_Ok _ _ N M H); [|auto|split; auto]. cbn [bind]. rewrite D1.
  rewrite (maddrow_Ok _ _ N H) by (split; auto). cbn [bind].
  match goal with |- context [activationFunction _ ?a ?z] =>
    destruct (activationFunction_Ok LOGISTIC a z N H) as (ph & E & Sph & Fph) end; [split; auto|split; auto|].
  rewrite E. cbn [bind]. destruct Sv as (V1 & V2). rewrite V1, C2, Ch.
  destruct (sampleLoop_ok N H ph (mconsresize junk (mh m) N H) (mk m) Sph) as (h & E2 & Sh & Fh); [split; auto|].
  rewrite E2. cbn [bind]. exists ph, h. split; [reflexivity|]. split; [auto|]. split; [auto|].
  assert (Q : forall n j, (j < H)%nat -> at_ ph n j = probH M H p (at_ (mv m) n) j).
  { intros n j Hj. rewrite Fph. cbn [at_ mtrans]. unfold probH, inputH, sigma.
    rewrite (rflat_bh M H P SP) by auto. do 2 f_equal. apply rsum_ext. intros i Hi. now rewrite (rflat_w M H P SP). }
  split; [auto|]. intros n j Hn Hj. rewrite Fh by auto. now rewrite Q.
Qed.

Lemma sampleV_ok N m : size_is (mh m) N H -> size_is (mv m) N M ->
  exists pv v, sampleVgivenH u c P m = Ok (mkRS pv v (mph m) (mh m) (mk m + N * M)) /\
    size_is pv N M /\ size_is v N M /\
    (forall n i, (i < M)%nat -> at_ pv n i = probV M H p (at_ (mh m) n) i) /\
    (forall n i, (n < N)%nat -> (i < M)%nat ->
       at_ v n i = bernoulli (probV M H p (at_ (mh m) n) i) (u (mk m + n * M + i)%nat)).
Proof.
  intros Sh Sv. destruct Hc as (C1 & C2). pose proof SP as ((W1 & W2) & (B1 & B2) & (D1 & D2)). unfold sampleVgivenH.
  rewrite (mmul_Ok _ _ N H M); [|auto|split; auto]. cbn [bind]. rewrite B1.
  rewrite (maddrow_Ok _ _ N M) by (split; auto). cbn [bind].
  match goal with |- context [activationFunction _ ?a ?z] =>
    destruct (activationFunction_Ok LOGISTIC a z N M) as (pv & E & Spv & Fpv) end; [split; auto|split; auto|].
  rewrite E. cbn [bind]. destruct Sh as (V1 & V2). rewrite V1, C1.
  destruct (sampleLoop_ok N M pv (mv m) (mk m) Spv Sv) as (v & E2 & Sv' & Fv).
  rewrite E2. cbn [bind]. exists pv, v. split; [reflexivity|]. split; [auto|]. split; [auto|].
  assert (Q : forall n i, (i < M)%nat -> at_ pv n i = probV M H p (at_ (mh m) n) i).
  { intros n i Hi. rewrite Fpv. cbn [at_]. unfold probV, sigma.
    rewrite (rflat_bv M H P SP) by auto. do 2 f_equal. apply rsum_ext. intros j Hj. now rewrite (rflat_w M H P SP). }
  split; [auto|]. intros n i Hn Hi. rewrite Fv by auto. now rewrite Q.
Qed.
End Sampling.

(** ** Invariant *)
Section State.
Context (junk : nat -> nat -> R) (u : nat -> R) (M H cdN : nat) (backprop : bool) (reg : Regularization).
Notation cfg := (mkRC M H cdN backprop reg).

Definition rbm_inv (s : rbm) : Prop :=
  rcfg s = cfg /\ rsize M H (rpar s) /\ cols (mh (rsmp s)) = H /\
  size_is (lWd (rlay s)) H M /\ size_is (lbhd (rlay s)) H 1 /\ cols (lphd (rlay s)) = H /\
  length (rgrad s) = rdim M H.

(** everything but random samples and temporary results is the same *)
Definition rsame (s s' : rbm) : Prop :=
  rcfg s' = rcfg s /\ rpar s' = rpar s /\ rlay s' = rlay s /\ rparams s' = rparams s /\ rdata s' = rdata s /\
  cols (mh (rsmp s')) = H /\ length (rgrad s') = length (rgrad s).

Lemma rsame_inv s s' : rsame s s' -> rbm_inv s -> rbm_inv s'.
Proof.
  intros (E1 & E2 & E3 & E4 & E5 & E6 & E7) (A1 & A2 & A3 & A4 & A5 & A6 & A7). unfold rbm_inv.
  rewrite E1, E2, E3, E6, E7. auto 12.
Qed.
Lemma rsame_trans a b c : rsame a b -> rsame b c -> rsame a c.
Proof.
  intros (E1 & E2 & E3 & E4 & E5 & E6 & E7) (F1 & F2 & F3 & F4 & F5 & F6 & F7). unfold rsame.
  rewrite F1, F2, F3, F4, F5, F6, F7. auto 12.
Qed.
Lemma rsame_refl s : rbm_inv s -> rsame s s.
Proof. intros (_ & _ & E & _). unfold rsame. auto 12. Qed.

Lemma setV_same s X : rbm_inv s -> rsame s (setV s X).
Proof. intros (_ & _ & E & _). unfold rsame, setV, setSmp. cbn. auto 12. Qed.

Lemma rbm_setParameters_ok s l : rbm_inv s -> length l = rdim M H ->
  exists q, rbm_setParameters s l = Ok q /\ rbm_inv q /\ rflat (rpar q) = l /\ rparams q = l /\
    rdata q = rdata s /\ rsmp q = rsmp s.
Proof.
  intros (C & SP & I1 & I2 & I3 & I4 & I5) Hp. pose proof (rpart_lengths M H _ SP) as (L1 & L2 & L3).
  set (a1 := firstn (M * H) l). set (r1 := skipn (M * H) l).
  set (a2 := firstn M r1). set (a3 := skipn M r1).
  assert (E : l = concat [a1; a2; a3] ++ []).
  { simpl. rewrite !app_nil_r. unfold a2, a3. rewrite firstn_skipn. unfold a1, r1. now rewrite firstn_skipn. }
  assert (K1 : length a1 = (M * H)%nat) by (unfold a1; rewrite firstn_length, Hp; unfold rdim; nia).
  assert (K2 : length a2 = M) by (unfold a2, r1; rewrite firstn_length, skipn_length, Hp; unfold rdim; nia).
  assert (K3 : length a3 = H) by (unfold a3, r1; rewrite !skipn_length, Hp; unfold rdim; nia).
  assert (U : unpack l (rarrays (rpar s)) = Ok [a1; a2; a3]).
  { rewrite E. apply unpack_ok. unfold rarrays. repeat constructor; lia. }
  unfold rbm_setParameters. rewrite U. cbn [bind]. eexists. split; [reflexivity|].
  pose proof SP as ((A1 & A2) & (B1 & B2) & (C1 & C2)).
  split; [|split; [|split; [|split]]]; auto.
  - unfold rbm_inv, setPar. cbn. unfold rsize, size_is. cbn. auto 15.
  - rewrite rflat_eq. cbn [qW qbv qbh rpar setPar]. rewrite !mdata_msetdata by lia.
    rewrite E at 1. simpl. now rewrite !app_nil_r.
Qed.

Lemma withH_ok N s : rbm_inv s -> size_is (mv (rsmp s)) N M ->
  exists s', withSmp s (sampleHgivenV junk u) = Ok s' /\ rsame s s' /\
    mpv (rsmp s') = mpv (rsmp s) /\ mv (rsmp s') = mv (rsmp s) /\ mk (rsmp s') = (mk (rsmp s) + N * H)%nat /\
    size_is (mph (rsmp s')) N H /\ size_is (mh (rsmp s')) N H /\
    (forall n j, (j < H)%nat -> at_ (mph (rsmp s')) n j = probH M H (rflat (rpar s)) (at_ (mv (rsmp s)) n) j) /\
    (forall n j, (n < N)%nat -> (j < H)%nat -> at_ (mh (rsmp s')) n j =
       bernoulli (probH M H (rflat (rpar s)) (at_ (mv (rsmp s)) n) j) (u (mk (rsmp s) + n * H + j)%nat)).
Proof.
  intros (C & SP & Ch & _) Sv. unfold withSmp. rewrite C.
  destruct (sampleH_ok junk u M H cfg (rpar s) (conj eq_refl eq_refl) SP N (rsmp s) Sv Ch)
    as (ph & h & E & S1 & S2 & F1 & F2).
  rewrite E. cbn [bind]. eexists. split; [reflexivity|]. cbn. unfold rsame. cbn. destruct S2 as (S3 & S4). unfold size_is. auto 20.
Qed.

Lemma withV_ok N s : rbm_inv s -> size_is (mv (rsmp s)) N M -> size_is (mh (rsmp s)) N H ->
  exists s', withSmp s (sampleVgivenH u) = Ok s' /\ rsame s s' /\
    mph (rsmp s') = mph (rsmp s) /\ mh (rsmp s') = mh (rsmp s) /\ mk (rsmp s') = (mk (rsmp s) + N * M)%nat /\
    size_is (mpv (rsmp s')) N M /\ size_is (mv (rsmp s')) N M /\
    (forall n i, (i < M)%nat -> at_ (mpv (rsmp s')) n i = probV M H (rflat (rpar s)) (at_ (mh (rsmp s)) n) i) /\
    (forall n i, (n < N)%nat -> (i < M)%nat -> at_ (mv (rsmp s')) n i =
       bernoulli (probV M H (rflat (rpar s)) (at_ (mh (rsmp s)) n) i) (u (mk (rsmp s) + n * M + i)%nat)).
Proof.
  intros (C & SP & Ch & _) Sv Sh. unfold withSmp. rewrite C.
  destruct (sampleV_ok u M H cfg (rpar s) (conj eq_refl eq_refl) SP N (rsmp s) Sh Sv)
    as (pv & v & E & S1 & S2 & F1 & F2).
  rewrite E. cbn [bind]. eexists. split; [reflexivity|]. cbn. unfold rsame. cbn. auto 20.
Qed.

(** ** Gibbs chain *)
Section Chain.
Context (p : list R) (k N : nat) (v0 : nat -> nat -> R).
Notation vis := (visibleAt M H p u k N v0).
Notation hid := (hiddenAt M H p u k N v0).

(** after [t] rounds and one more step to the hidden units *)
Definition atChain (t : nat) (m : rbmSmp) : Prop :=
  size_is (mv m) N M /\ size_is (mph m) N H /\ size_is (mh m) N H /\
  mk m = (k + t * (N * H + N * M) + N * H)%nat /\
  (forall n i, (n < N)%nat -> (i < M)%nat -> at_ (mv m) n i = vis t n i) /\
  (forall n j, (n < N)%nat -> (j < H)%nat -> at_ (mph m) n j = probH M H p (vis t n) j) /\
  (forall n j, (n < N)%nat -> (j < H)%nat -> at_ (mh m) n j = hid t n j).

(** the visible probabilities after [t] rounds *)
Definition pvAt (t : nat) (m : rbmSmp) : Prop :=
  size_is (mpv m) N M /\
  (forall n i, (n < N)%nat -> (i < M)%nat -> at_ (mpv m) n i = probVAt M H p u k N v0 t n i).

Lemma chain_start s : rbm_inv s -> rflat (rpar s) = p -> size_is (mv (rsmp s)) N M -> mk (rsmp s) = k ->
  (forall n i, (n < N)%nat -> (i < M)%nat -> at_ (mv (rsmp s)) n i = v0 n i) ->
  exists s', withSmp s (sampleHgivenV junk u) = Ok s' /\ rsame s s' /\ atChain 0 (rsmp s').
Proof.
  intros I Ep Sv Ek Ev. destruct (withH_ok N s I Sv) as (s' & E & K & E1 & E2 & E3 & S1 & S2 & F1 & F2).
  exists s'. split; [auto|]. split; [auto|]. unfold atChain. rewrite E2.
  split; [auto|]. split; [auto|]. split; [auto|]. split; [lia|]. rewrite Ep in *. split; [auto|].
  split; intros n j Hn Hj.
  - rewrite F1 by auto. apply probH_ext. intros. now apply Ev.
  - rewrite F2 by auto. unfold hiddenAt. f_equal.
    + apply probH_ext. intros. now apply Ev.
    + f_equal. lia.
Qed.

Lemma chain_step t s : rbm_inv s -> rflat (rpar s) = p -> atChain t (rsmp s) ->
  exists s', (s1 <- withSmp s (sampleVgivenH u) ;; withSmp s1 (sampleHgivenV junk u)) = Ok s' /\
    rsame s s' /\ atChain (S t) (rsmp s') /\ pvAt t (rsmp s').
Proof.
  intros I Ep (Sv & Sph & Sh & Ek & Fv & Fph & Fh).
  destruct (withV_ok N s I Sv Sh) as (s1 & E1 & K1 & V1 & V2 & V3 & S1 & S2 & F1 & F2).
  rewrite E1. cbn [bind].
  destruct (withH_ok N s1 (rsame_inv _ _ K1 I) S2) as (s2 & E2 & K2 & W1 & W2 & W3 & S3 & S4 & G1 & G2).
  exists s2. split; [auto|]. split; [first [exact (rsame_trans _ _ _ K0 K)|eapply rsame_trans; eassumption]|].
  assert (Ep1 : rflat (rpar s1) = p) by (destruct K1 as (_ & Q & _); now rewrite Q).
  rewrite Ep in *. rewrite Ep1 in *.
  assert (Fv1 : forall n i, (n < N)%nat -> (i < M)%nat -> at_ (mv (rsmp s1)) n i = vis (S t) n i).
  { intros n i Hn Hi. rewrite F2 by auto. rewrite visibleAt_S. f_equal.
    - unfold probVAt. apply probV_ext. intros. now apply Fh.
    - f_equal. lia. }
  split.
  - unfold atChain. rewrite W2. split; [auto|]. split; [auto|]. split; [auto|]. split; [rewrite W3, V3, Ek; lia|].
    split; [auto|]. split; intros n j Hn Hj.
    + rewrite G1 by auto. apply probH_ext. intros. now apply Fv1.
    + rewrite G2 by auto. unfold hiddenAt. f_equal.
      * apply probH_ext. intros. now apply Fv1.
      * f_equal. lia.
  - unfold pvAt. rewrite W1. split; [auto|]. intros n i Hn Hi. rewrite F1 by auto. unfold probVAt.
    apply probV_ext. intros. now apply Fh.
Qed.
End Chain.

(** ** Loops that fill the gradient *)
Definition stepper (st : list R * nat -> R -> res (list R * nat)) (op : R -> R -> R) : Prop :=
  forall g idx f, (idx < length g)%nat -> st (g, idx) f = Ok (upd g idx (op g.[idx] f), S idx).

Lemma put_stepper : stepper put (fun _ f => f).
Proof. intros g idx f L. unfold put. rewrite vset_Ok by auto. reflexivity. Qed.
Lemma sub_stepper : stepper sub (fun x f => x - f).
Proof.
  intros g idx f L. unfold sub. destruct (vget_Ok g idx L) as (a & E & N). rewrite E. cbn [bind].
  rewrite vset_Ok by auto. cbn [bind]. now rewrite (nth_error_nth g idx 0 N).
Qed.

Lemma fill1 st op (F : nat -> R) body n g idx : stepper st op -> (idx + n <= length g)%nat ->
  (forall j gi, (j < n)%nat -> body j gi = st gi (F j)) ->
  exists g', for_ n body (g, idx) = Ok (g', (idx + n)%nat) /\ length g' = length g /\
    (forall j, (j < n)%nat -> g'.[idx + j] = op g.[idx + j] (F j)) /\
    (forall k, (k < idx \/ idx + n <= k)%nat -> g'.[k] = g.[k]).
Proof.
  intros St L B.
  destruct (for_inv (fun i (gi : list R * nat) => length (fst gi) = length g /\ snd gi = (idx + i)%nat /\
    (forall j, (j < i)%nat -> (fst gi).[idx + j] = op g.[idx + j] (F j)) /\
    (forall k, (k < idx \/ idx + i <= k)%nat -> (fst gi).[k] = g.[k])) body n (g, idx))
    as ((g' & i') & E & L' & I' & F1 & F2).
  - cbn. split; [auto|split; [lia|split; [intros; lia|auto]]].
  - intros i (h & ih) Hi (Lh & Ih & F1 & F2). cbn [fst snd] in *. rewrite B by auto. rewrite St by lia.
    eexists. split; [reflexivity|]. cbn [fst snd]. rewrite upd_length. split; [auto|]. split; [lia|].
    split; intros j Hj.
    + rewrite nth_upd by lia. destruct (Nat.eqb_spec ih (idx + j)) as [Q|Q].
      * assert (j = i) by lia. subst j. rewrite Ih. rewrite F2 by lia. reflexivity.
      * apply F1. lia.
    + rewrite nth_upd by lia. destruct (Nat.eqb_spec ih j) as [Q|Q]; [lia|]. apply F2. lia.
  - cbn [fst snd] in *. exists g'. split; [rewrite E; now subst|]. auto.
Qed.

Lemma fill2 st op (F : nat -> nat -> R) body A B g idx : stepper st op -> (idx + A * B <= length g)%nat ->
  (forall i j gi, (i < A)%nat -> (j < B)%nat -> body i j gi = st gi (F i j)) ->
  exists g', for_ A (fun i gi => for_ B (body i) gi) (g, idx) = Ok (g', (idx + A * B)%nat) /\ length g' = length g /\
    (forall i j, (i < A)%nat -> (j < B)%nat -> g'.[idx + (i * B + j)] = op g.[idx + (i * B + j)] (F i j)) /\
    (forall k, (k < idx \/ idx + A * B <= k)%nat -> g'.[k] = g.[k]).
Proof.
  intros St L Bo.
  destruct (for_inv (fun a (gi : list R * nat) => length (fst gi) = length g /\ snd gi = (idx + a * B)%nat /\
    (forall i j, (i < a)%nat -> (j < B)%nat -> (fst gi).[idx + (i * B + j)] = op g.[idx + (i * B + j)] (F i j)) /\
    (forall k, (k < idx \/ idx + a * B <= k)%nat -> (fst gi).[k] = g.[k])) (fun i gi => for_ B (body i) gi) A (g, idx))
    as ((g' & i') & E & L' & I' & F1 & F2).
  - cbn. split; [auto|split; [lia|split; [intros; lia|auto]]].
  - intros a (h & ih) Ha (Lh & Ih & F1 & F2). cbn [fst snd] in *. subst ih.
    assert (Q : (a * B + B <= A * B)%nat) by nia.
    destruct (fill1 st op (F a) (body a) B h (idx + a * B) St) as (h' & E & Lh' & G1 & G2); [lia|auto|].
    eexists. split; [exact E|]. cbn [fst snd]. split; [lia|]. split; [lia|]. split.
    + intros i j Hi Hj. destruct (Nat.eq_dec i a) as [->|Ni].
      * rewrite Nat.add_assoc. rewrite G1 by auto. rewrite F2 by lia. reflexivity.
      * rewrite G2 by nia. apply F1; lia.
    + intros k Hk. rewrite G2 by lia. apply F2. lia.
  - cbn [fst snd] in *. exists g'. split; [rewrite E; now subst|]. auto.
Qed.

(** penalties of a weight *)
Definition penalty (w : R) : R :=
  (if Rltb 0 (l1Penalty reg) then l1Penalty reg * w / Rabs w else 0) +
  (if Rltb 0 (l2Penalty reg) then l2Penalty reg * w else 0).

Lemma fillGradient_ok s : rbm_inv s -> rsize M H (rpos s) -> rsize M H (rneg s) ->
  exists s', fillGradient s = Ok s' /\ rsame s s' /\ rsmp s' = rsmp s /\
    (forall j i, (j < H)%nat -> (i < M)%nat -> rw H (rgrad s') j i =
       - rw H (rflat (rpos s)) j i + rw H (rflat (rneg s)) j i - penalty (rw H (rflat (rpar s)) j i)) /\
    (forall i, (i < M)%nat -> biasV M H (rgrad s') i = - biasV M H (rflat (rpos s)) i + biasV M H (rflat (rneg s)) i) /\
    (forall j, (j < H)%nat -> biasH M H (rgrad s') j = - biasH M H (rflat (rpos s)) j + biasH M H (rflat (rneg s)) j).
Proof.
  intros (C & SP & Ch & I2 & I3 & I4 & Lg) Sp Sn. unfold fillGradient. rewrite C. cbn [rD rH rreg].
  pose proof Sp as ((p1 & p2) & (p3 & p4) & (p5 & p6)). pose proof Sn as ((n1 & n2) & (n3 & n4) & (n5 & n6)).
  pose proof SP as ((w1 & w2) & _). unfold rdim in Lg.
  match goal with |- context [for_ M (fun i gi => for_ H (@?b i) gi) (rgrad s, 0%nat)] =>
    destruct (fill2 put (fun _ f => f) (fun i j => - at_ (qW (rpos s)) j i + at_ (qW (rneg s)) j i)
      b M H (rgrad s) 0 put_stepper) as (g1 & E1 & L1 & F1 & O1) end.
  { lia. }
  { intros i j gi Hi Hj. rewrite !mget_Ok by lia. reflexivity. }
  rewrite E1. cbn [bind]. clear E1.
  match goal with |- context [for_ M ?b (g1, ?k)] =>
    destruct (fill1 put (fun _ f => f) (fun i => - at_ (qbv (rpos s)) i 0 + at_ (qbv (rneg s)) i 0)
      b M g1 k put_stepper) as (g2 & E2 & L2 & F2 & O2) end.
  { lia. }
  { intros i gi Hi. rewrite !mget_Ok by lia. reflexivity. }
  rewrite E2. cbn [bind]. clear E2.
  match goal with |- context [for_ H ?b (g2, ?k)] =>
    destruct (fill1 put (fun _ f => f) (fun j => - at_ (qbh (rpos s)) j 0 + at_ (qbh (rneg s)) j 0)
      b H g2 k put_stepper) as (g3 & E3 & L3 & F3 & O3) end.
  { lia. }
  { intros i gi Hi. rewrite !mget_Ok by lia. reflexivity. }
  rewrite E3. cbn [bind]. clear E3. cbn [fst].
  set (f1 := fun w => if Rltb 0 (l1Penalty reg) then l1Penalty reg * w / Rabs w else 0).
  set (f2 := fun w => if Rltb 0 (l2Penalty reg) then l2Penalty reg * w else 0).
  match goal with |- context [bind ?X _] =>
    assert (E4 : exists g4 k4, X = Ok (g4, k4) /\ length g4 = length g3 /\
      (forall i j, (i < M)%nat -> (j < H)%nat -> g4.[i * H + j] = g3.[i * H + j] - f1 (at_ (qW (rpar s)) j i)) /\
      (forall k, (M * H <= k)%nat -> g4.[k] = g3.[k])) end.
  { unfold f1. destruct (Rltb 0 (l1Penalty reg)).
    - match goal with |- context [for_ M (fun i gi => for_ H (@?b i) gi) (g3, 0%nat)] =>
        destruct (fill2 sub (fun x f => x - f) (fun i j => l1Penalty reg * at_ (qW (rpar s)) j i / Rabs (at_ (qW (rpar s)) j i))
          b M H g3 0 sub_stepper) as (g4 & E4 & L4 & F4 & O4) end.
      { lia. }
      { intros i j gi Hi Hj. rewrite !mget_Ok by lia. reflexivity. }
      exists g4, (0 + M * H)%nat. split; [exact E4|]. split; [auto|]. split; [exact F4|]. intros. apply O4. lia.
    - eexists g3, _. split; [reflexivity|]. split; [auto|]. split; [|auto]. intros. lra. }
  destruct E4 as (g4 & k4 & E4 & L4 & F4 & O4). rewrite E4. cbn [bind fst]. clear E4.
  match goal with |- context [bind ?X _] =>
    assert (E5 : exists g5 k5, X = Ok (g5, k5) /\ length g5 = length g4 /\
      (forall i j, (i < M)%nat -> (j < H)%nat -> g5.[i * H + j] = g4.[i * H + j] - f2 (at_ (qW (rpar s)) j i)) /\
      (forall k, (M * H <= k)%nat -> g5.[k] = g4.[k])) end.
  { unfold f2. destruct (Rltb 0 (l2Penalty reg)).
    - match goal with |- context [for_ M (fun i gi => for_ H (@?b i) gi) (g4, 0%nat)] =>
        destruct (fill2 sub (fun x f => x - f) (fun i j => l2Penalty reg * at_ (qW (rpar s)) j i)
          b M H g4 0 sub_stepper) as (g5 & E5 & L5 & F5 & O5) end.
      { lia. }
      { intros i j gi Hi Hj. rewrite !mget_Ok by lia. reflexivity. }
      exists g5, (0 + M * H)%nat. split; [exact E5|]. split; [auto|]. split; [exact F5|]. intros. apply O5. lia.
    - eexists g4, _. split; [reflexivity|]. split; [auto|]. split; [|auto]. intros. lra. }
  destruct E5 as (g5 & k5 & E5 & L5 & F5 & O5). rewrite E5. cbn [bind fst]. clear E5.
  eexists. split; [reflexivity|]. split; [|split; [reflexivity|]].
  { unfold rsame, setGrad. cbn. repeat (split; [auto|]). congruence. }
  cbn [rgrad setGrad]. split; [|split].
  - intros j i Hj Hi. assert (Q : (i * H + j < M * H)%nat) by nia. unfold rw at 1. rewrite F5, F4 by auto.
    rewrite O3 by lia. rewrite O2 by lia. specialize (F1 i j Hi Hj). rewrite Nat.add_0_l in F1. rewrite F1.
    rewrite !(rflat_w M H) by auto. unfold penalty, f1, f2. lra.
  - intros i Hi. unfold biasV at 1. rewrite O5, O4 by lia. rewrite O3 by lia.
    rewrite <- (Nat.add_0_l (M * H)) at 1. rewrite F2 by auto. now rewrite !(rflat_bv M H) by auto.
  - intros j Hj. unfold biasH at 1. rewrite O5, O4 by lia.
    rewrite <- (Nat.add_0_l (M * H)) at 1. rewrite F3 by auto. now rewrite !(rflat_bh M H) by auto.
Qed.

(** ** Statistics *)
Lemma rstatistics N V h P : size_is V N M -> size_is h N H ->
  qW P = mkMat H M (fun a b => rsum N (fun n => at_ h n a * at_ V n b)) ->
  qbv P = mcolsum V -> qbh P = mcolsum h ->
  rsize M H P /\ statistics M H N (at_ V) (at_ h) (rflat P).
Proof.
  intros (V1 & V2) (h1 & h2) EW Ev Eh.
  assert (SP : rsize M H P).
  { unfold rsize. rewrite EW, Ev, Eh. unfold size_is, mcolsum. cbn. auto. }
  split; [auto|]. unfold statistics. split; [|split; [|split]].
  - now apply rflat_length.
  - intros j i Hj Hi. rewrite (rflat_w M H P SP) by auto. rewrite EW. reflexivity.
  - intros i Hi. rewrite (rflat_bv M H P SP) by auto. rewrite Ev. cbn [mcolsum at_]. unfold colsum. now rewrite V1.
  - intros j Hj. rewrite (rflat_bh M H P SP) by auto. rewrite Eh. cbn [mcolsum at_]. unfold colsum. now rewrite h1.
Qed.

Lemma statistics_ext N v h v' h' g : (forall n i, (n < N)%nat -> (i < M)%nat -> v n i = v' n i) ->
  (forall n j, (n < N)%nat -> (j < H)%nat -> h n j = h' n j) ->
  statistics M H N v h g -> statistics M H N v' h' g.
Proof.
  intros Ev Eh (L & A & B & C). split; [auto|]. split; [|split].
  - intros. rewrite A by auto. apply rsum_ext. intros. now rewrite Ev, Eh.
  - intros. rewrite B by auto. apply rsum_ext. intros. now rewrite Ev.
  - intros. rewrite C by auto. apply rsum_ext. intros. now rewrite Eh.
Qed.

(** ** Contrastive divergence *)

Lemma reality_ok p k N v0 s : rbm_inv s -> rflat (rpar s) = p -> size_is (mv (rsmp s)) N M -> mk (rsmp s) = k ->
  (forall n i, (n < N)%nat -> (i < M)%nat -> at_ (mv (rsmp s)) n i = v0 n i) ->
  exists s', reality junk u s = Ok s' /\ rsame s s' /\ atChain p k N v0 0 (rsmp s') /\
    rsize M H (rpos s') /\ statistics M H N v0 (fun n => probH M H p (v0 n)) (rflat (rpos s')).
Proof.
  intros I Ep Sv Ek Ev. destruct (chain_start p k N v0 s I Ep Sv Ek Ev) as (s1 & E & K & Ch).
  unfold reality. rewrite E. cbn [bind]. pose proof Ch as (S1 & S2 & S3 & _ & F1 & F2 & _).
  rewrite (mmul_Ok _ _ H N M); [|destruct S2; split; auto|auto]. cbn [bind]. cbn [at_ mtrans].
  match goal with |- context [Ok ?st] => exists st end. split; [reflexivity|].
  split; [exact K|]. split; [exact Ch|]. cbn [rpos setPos].
  match goal with |- context [mkRP ?a ?b ?c] => destruct (rstatistics N (mv (rsmp s1)) (mph (rsmp s1)) (mkRP a b c)) as (G1 & G2) end;
    auto.
  split; [auto|]. eapply statistics_ext; [| |exact G2]; cbn; auto.
Qed.

Lemma daydream_ok p k N v0 s : rbm_inv s -> rflat (rpar s) = p -> atChain p k N v0 0 (rsmp s) -> (0 < cdN)%nat ->
  exists s', daydream junk u s = Ok s' /\ rsame s s' /\ rpos s' = rpos s /\
    atChain p k N v0 cdN (rsmp s') /\ pvAt p k N v0 (cdN - 1) (rsmp s') /\ rsize M H (rneg s') /\
    statistics M H N (probVAt M H p u k N v0 (cdN - 1)) (fun n => probH M H p (visibleAt M H p u k N v0 cdN n))
      (rflat (rneg s')).
Proof.
  intros I Ep Ch Hcd. unfold daydream. replace (rcd (rcfg s)) with cdN by (destruct I as (C & _); now rewrite C).
  match goal with |- context [for_ cdN ?b s] =>
    destruct (for_inv (fun t (q : rbm) => rsame s q /\ rpos q = rpos s /\ atChain p k N v0 t (rsmp q) /\
      ((0 < t)%nat -> pvAt p k N v0 (t - 1) (rsmp q))) b cdN s) as (s1 & E & K & Q & Ch1 & Pv) end.
  - split; [now apply rsame_refl|]. split; [auto|]. split; [auto|]. intros; lia.
  - intros t q Ht (K & Q & Cq & _).
    destruct (chain_step p k N v0 t q (rsame_inv _ _ K I)) as (q' & E & K' & C' & P'); auto.
    { destruct K as (_ & E & _). now rewrite E. }
    exists q'. split; [exact E|]. split; [first [exact (rsame_trans _ _ _ K0 K)|eapply rsame_trans; eassumption]|].
    split; [|split; [auto|]].
    + rewrite <- Q. clear - E. unfold withSmp in E.
      destruct (sampleVgivenH u (rcfg q) (rpar q) (rsmp q)) as [m| | | |]; try discriminate. cbn [bind] in E.
      destruct (sampleHgivenV junk u (rcfg (setSmp q m)) (rpar (setSmp q m)) (rsmp (setSmp q m))) as [m2| | | |]; try discriminate.
      cbn [bind] in E. injection E as <-. reflexivity.
    + intros _. replace (S t - 1)%nat with t by lia. auto.
  - rewrite E. cbn [bind]. specialize (Pv Hcd). pose proof Ch1 as (S1 & S2 & S3 & _ & F1 & F2 & _). pose proof Pv as (T1 & T2).
    rewrite (mmul_Ok _ _ H N M); [|destruct S2; split; auto|auto]. cbn [bind]. cbn [at_ mtrans].
    match goal with |- context [Ok ?st] => exists st end. split; [reflexivity|].
    split; [exact K|]. split; [exact Q|]. split; [exact Ch1|]. split; [exact Pv|]. cbn [rneg setNeg].
    match goal with |- context [mkRP ?a ?b ?c] => destruct (rstatistics N (mpv (rsmp s1)) (mph (rsmp s1)) (mkRP a b c)) as (G1 & G2) end;
      auto.
    split; [auto|]. eapply statistics_ext; [| |exact G2]; cbn; auto.
Qed.

(** the gradient made from the training instances [v0] *)
Definition cdGradient (p : list R) (k N : nat) (v0 : nat -> nat -> R) (g : list R) : Prop :=
  exists gpos gneg,
    statistics M H N v0 (fun n => probH M H p (v0 n)) gpos /\
    statistics M H N (probVAt M H p u k N v0 (cdN - 1)) (fun n => probH M H p (visibleAt M H p u k N v0 cdN n)) gneg /\
    length g = rdim M H /\
    (forall j i, (j < H)%nat -> (i < M)%nat -> rw H g j i = - rw H gpos j i + rw H gneg j i - penalty (rw H p j i)) /\
    (forall i, (i < M)%nat -> biasV M H g i = - biasV M H gpos i + biasV M H gneg i) /\
    (forall j, (j < H)%nat -> biasH M H g j = - biasH M H gpos j + biasH M H gneg j).

Lemma cd_ok p k N v0 s : rbm_inv s -> rflat (rpar s) = p -> size_is (mv (rsmp s)) N M -> mk (rsmp s) = k ->
  (0 < cdN)%nat -> (forall n i, (n < N)%nat -> (i < M)%nat -> at_ (mv (rsmp s)) n i = v0 n i) ->
  exists s', (s <- reality junk u s ;; s <- daydream junk u s ;; fillGradient s) = Ok s' /\ rsame s s' /\
    cdGradient p k N v0 (rgrad s') /\ pvAt p k N v0 (cdN - 1) (rsmp s') /\ atChain p k N v0 cdN (rsmp s').
Proof.
  intros I Ep Sv Ek Hcd Ev. destruct (reality_ok p k N v0 s I Ep Sv Ek Ev) as (s1 & E1 & K1 & C1 & S1 & G1).
  rewrite E1. cbn [bind]. pose proof (rsame_inv _ _ K1 I) as I1.
  assert (P1 : rflat (rpar s1) = p) by (destruct K1 as (_ & E & _); now rewrite E).
  destruct (daydream_ok p k N v0 s1 I1 P1 C1 Hcd) as (s2 & E2 & K2 & Q2 & C2 & V2 & S2 & G2).
  rewrite E2. cbn [bind]. pose proof (rsame_inv _ _ K2 I1) as I2.
  assert (P2 : rflat (rpar s2) = p) by (destruct K2 as (_ & E & _); now rewrite E).
  rewrite <- Q2 in S1, G1.
  destruct (fillGradient_ok s2 I2 S1 S2) as (s3 & E3 & K3 & Q3 & Fw & Fv & Fh).
  exists s3. split; [exact E3|]. pose proof (rsame_trans _ _ _ (rsame_trans _ _ _ K1 K2) K3) as K.
  split; [exact K|]. rewrite Q3. split; [|auto]. exists (rflat (rpos s2)), (rflat (rneg s2)).
  rewrite P2 in Fw. split; [auto|]. split; [auto|]. split; [|auto]. now destruct (rsame_inv _ _ K I) as (_ & _ & _ & _ & _ & _ & L).
Qed.

Lemma rowOf_size x N : length x = N -> size_is (rowOf x) 1 N.
Proof. intros <-. split; auto. Qed.

Lemma gradientN_ok s m data n x : rbm_inv s -> rdata s = Some (m, data) -> nth_error data n = Some x -> length x = M ->
  (0 < cdN)%nat ->
  exists s' , rbm_gradientN junk u s n = Ok (s', rgrad s') /\ rsame s s' /\
    cdGradient (rflat (rpar s)) (mk (rsmp s)) 1 (fun _ i => x.[i]) (rgrad s') /\
    mk (rsmp s') = (mk (rsmp s) + cdN * (H + M) + H)%nat.
Proof.
  intros I Ed En Lx Hcd. unfold rbm_gradientN, getInst, theData. rewrite Ed. cbn [bind snd].
  unfold vget. rewrite En. cbn [bind].
  pose proof (setV_same s (rowOf x) I) as K0.
  destruct (cd_ok (rflat (rpar s)) (mk (rsmp s)) 1 (fun _ i => x.[i]) (setV s (rowOf x)) (rsame_inv _ _ K0 I) eq_refl)
    as (s' & E & K & G & _ & C); auto.
  { now apply rowOf_size. }
  exists s'. destruct (reality junk u (setV s (rowOf x))) as [s1| | | |]; try discriminate. cbn [bind] in *.
  destruct (daydream junk u s1) as [s2| | | |]; try discriminate. cbn [bind] in *. rewrite E. cbn [bind].
  split; [reflexivity|]. split; [first [exact (rsame_trans _ _ _ K0 K)|eapply rsame_trans; eassumption]|]. split; [auto|].
  destruct C as (_ & _ & _ & C & _). rewrite C. lia.
Qed.

Lemma fillRows (data : list (list R)) ns V :
  size_is V (length ns) M -> (forall n, In n ns -> exists x, nth_error data n = Some x /\ length x = M) ->
  exists V', for_ (length ns) (fun n v =>
    it <- vget ns n ;;
    x <- vget data it ;;
    if Nat.eqb (length x) (cols v)
    then Ok (mkMat (rows v) (cols v) (fun i j => if Nat.eqb i n then x.[j] else at_ v i j))
    else Abort) V = Ok V' /\ size_is V' (length ns) M /\
    forall n i, (n < length ns)%nat -> at_ V' n i = (nth (nth n ns 0%nat) data []).[i].
Proof.
  intros SV Hin.
  match goal with |- context [for_ _ ?b V] =>
    destruct (for_inv (fun t (W : mat) => size_is W (length ns) M /\
      forall n i, (n < t)%nat -> at_ W n i = (nth (nth n ns 0%nat) data []).[i]) b (length ns) V) as (W & E & SW & F) end.
  - split; [auto|]. intros; lia.
  - intros t W Ht ((W1 & W2) & F). destruct (vget_Ok ns t Ht) as (it & E1 & N1). rewrite E1. cbn [bind].
    destruct (Hin it (nth_error_In _ _ N1)) as (x & N2 & Lx). unfold vget. rewrite N2. cbn [bind].
    rewrite W2, Lx, Nat.eqb_refl. eexists. split; [reflexivity|]. split; [split; auto|].
    intros n i Hn. cbn [at_]. destruct (Nat.eqb_spec n t) as [->|].
    + rewrite (nth_error_nth ns t 0%nat N1). now rewrite (nth_error_nth data it [] N2).
    + apply F. lia.
  - exists W. auto.
Qed.

Lemma errorGradient_ok s data ns : rbm_inv s -> rdata s = Some (M, data) ->
  (forall n, In n ns -> exists x, nth_error data n = Some x /\ length x = M) -> (0 < cdN)%nat ->
  exists s' e, rbm_errorGradient junk u s ns = Ok (s', e, rgrad s') /\ rsame s s' /\
    mk (rsmp s') = (mk (rsmp s) + cdN * (length ns * H + length ns * M) + length ns * H)%nat /\
    let v0 n i := (nth (nth n ns 0%nat) data []).[i] in
    cdGradient (rflat (rpar s)) (mk (rsmp s)) (length ns) v0 (rgrad s') /\
    e = rsum (length ns) (fun n => rsum M (fun i =>
          (v0 n i - probVAt M H (rflat (rpar s)) u (mk (rsmp s)) (length ns) v0 (cdN - 1) n i) ^ 2)).
Proof.
  intros I Ed Hin Hcd. unfold rbm_errorGradient, theData. rewrite Ed. cbn [bind fst snd].
  destruct (fillRows data ns (mconsresize junk (mv (rsmp s)) (length ns) M)) as (V & EV & SV & FV); [split; auto|auto|].
  rewrite EV. cbn [bind]. clear EV. set (N := length ns) in *. set (v0 n i := (nth (nth n ns 0%nat) data []).[i]).
  pose proof (setV_same s V I) as K0.
  destruct (cd_ok (rflat (rpar s)) (mk (rsmp s)) N v0 (setV s V) (rsame_inv _ _ K0 I) eq_refl SV eq_refl Hcd)
    as (s' & E & K & G & Pv & C).
  { intros n i Hn _. cbn. unfold v0. now apply FV. }
  destruct (reality junk u (setV s V)) as [s1| | | |]; try discriminate. cbn [bind] in *.
  destruct (daydream junk u s1) as [s2| | | |]; try discriminate. cbn [bind] in *. rewrite E. cbn [bind].
  match goal with |- context [for_ N ?b 0] =>
    destruct (for_inv (fun t (x : R) => x = rsum t (fun n => rsum M (fun i =>
          (v0 n i - probVAt M H (rflat (rpar s)) u (mk (rsmp s)) N v0 (cdN - 1) n i) ^ 2))) b N 0) as (e & Ee & Fe) end.
  - reflexivity.
  - intros t x Ht ->. destruct (vget_Ok ns t Ht) as (it & E1 & N1). rewrite E1. cbn [bind].
    destruct (Hin it (nth_error_In _ _ N1)) as (x & N2 & Lx). unfold vget. rewrite N2. cbn [bind].
    destruct Pv as ((P1 & P2) & P3). rewrite P2, P1, Lx, Nat.eqb_refl. apply Nat.ltb_lt in Ht as Ht'. rewrite Ht'. cbn [andb].
    eexists. split; [reflexivity|]. cbn [rsum]. f_equal. apply rsum_ext. intros i Hi. rewrite P3 by auto.
    unfold v0. rewrite (nth_error_nth ns t 0%nat N1), (nth_error_nth data it [] N2). ring.
  - exists s', e. rewrite Ee. cbn [bind]. split; [reflexivity|]. split; [first [exact (rsame_trans _ _ _ K0 K)|eapply rsame_trans; eassumption]|].
    destruct C as (_ & _ & _ & C & _). split; [rewrite C; reflexivity|]. split; [auto|]. exact Fe.
Qed.
End State.
