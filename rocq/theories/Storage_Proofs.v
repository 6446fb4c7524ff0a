(** Proofs about DirectStorageDataSet, DataStream and the random helpers. *)
From Verif Require Import BaseFacts Storage_Model DataSet_Model DataSet_Proofs.

Section Direct.
Context {V : Type}.

Lemma getInstance_value (ins : list V) (outs : option (list V)) t i :
  i < length ins ->
  exists r t' x, access ins outs t (GetInstance i) = Ok (r, t') /\ nth_error ins i = Some x /\
    forall later t'', Forall (fun a => match a with GetTarget _ => True | GetInstance j => j = i end) later ->
      accesses ins outs later t' = Ok t'' -> deref r t'' = x.
Proof.
  intros Hi. simpl. unfold getInstanceRef.
  rewrite check_true by (now apply Nat.ltb_lt). simpl.
  destruct (vget_Ok ins i Hi) as (x & E & Nx). rewrite E. simpl.
  do 3 eexists. split; [reflexivity|]. split; [exact Nx|].
  assert (G : forall later t0 t'',
    Forall (fun a => match a with GetTarget _ => True | GetInstance j => j = i end) later ->
    temporaryInput t0 = x -> accesses ins outs later t0 = Ok t'' -> temporaryInput t'' = x).
  { unfold accesses. induction later as [|a later IH]; intros t0 t'' F H0 H; simpl in H.
    - inversion H; subst; auto.
    - inversion F as [|a' l' Ha Hl]; subst a' l'. apply bind_Ok in H. destruct H as (t1 & E1 & E2).
      apply bind_Ok in E1. destruct E1 as ([r t2] & E1 & E3). inversion E3; subst t2.
      eapply IH; [exact Hl| |exact E2]. clear IH E2 E3.
      destruct a as [j|j]; simpl in E1.
      + subst j. unfold getInstanceRef in E1. apply bind_Ok in E1. destruct E1 as (_ & _ & E1).
        apply bind_Ok in E1. destruct E1 as (y & Ey & E1). inversion E1; subst. simpl. congruence.
      + unfold getTargetRef in E1. destruct outs as [outs|]; [|discriminate].
        apply bind_Ok in E1. destruct E1 as (_ & _ & E1).
        apply bind_Ok in E1. destruct E1 as (y & Ey & E1). inversion E1; subst. simpl. auto. }
  intros later t'' F H. refine (G later _ t'' F _ H). reflexivity.
Qed.

Lemma getTarget_value (ins outs : list V) t i :
  i < length outs ->
  exists r t' x, access ins (Some outs) t (GetTarget i) = Ok (r, t') /\ nth_error outs i = Some x /\
    forall later t'', Forall (fun a => match a with GetInstance _ => True | GetTarget j => j = i end) later ->
      accesses ins (Some outs) later t' = Ok t'' -> deref r t'' = x.
Proof.
  intros Hi. simpl.
  rewrite check_true by (now apply Nat.ltb_lt). simpl.
  destruct (vget_Ok outs i Hi) as (x & E & Nx). rewrite E. simpl.
  do 3 eexists. split; [reflexivity|]. split; [exact Nx|].
  assert (G : forall later t0 t'',
    Forall (fun a => match a with GetInstance _ => True | GetTarget j => j = i end) later ->
    temporaryOutput t0 = x -> accesses ins (Some outs) later t0 = Ok t'' -> temporaryOutput t'' = x).
  { unfold accesses. induction later as [|a later IH]; intros t0 t'' F H0 H; simpl in H.
    - inversion H; subst; auto.
    - inversion F as [|a' l' Ha Hl]; subst a' l'. apply bind_Ok in H. destruct H as (t1 & E1 & E2).
      apply bind_Ok in E1. destruct E1 as ([r t2] & E1 & E3). inversion E3; subst t2.
      eapply IH; [exact Hl| |exact E2]. clear IH E2 E3.
      destruct a as [j|j]; simpl in E1.
      + unfold getInstanceRef in E1. apply bind_Ok in E1. destruct E1 as (_ & _ & E1).
        apply bind_Ok in E1. destruct E1 as (y & Ey & E1). inversion E1; subst. simpl. auto.
      + subst j.
        apply bind_Ok in E1. destruct E1 as (_ & _ & E1).
        apply bind_Ok in E1. destruct E1 as (y & Ey & E1). inversion E1; subst. simpl. congruence. }
  intros later t'' F H. refine (G later _ t'' F _ H). reflexivity.
Qed.

(** Every reference to an instance changes as soon as a different instance is read. *)
Lemma reference_overwritten (ins : list V) outs t i j x y :
  nth_error ins i = Some x -> nth_error ins j = Some y -> x <> y ->
  exists r t' t'', access ins outs t (GetInstance i) = Ok (r, t') /\
    accesses ins outs [GetInstance j] t' = Ok t'' /\ deref r t'' <> x.
Proof.
  intros Hx Hy Ne. simpl. unfold accesses, getInstanceRef. simpl. unfold getInstanceRef.
  assert (Li : i < length ins) by (apply nth_error_Some; congruence).
  assert (Lj : j < length ins) by (apply nth_error_Some; congruence).
  rewrite (check_true (i <? _)) by (now apply Nat.ltb_lt). simpl.
  rewrite (check_true (j <? _)) by (now apply Nat.ltb_lt). simpl.
  unfold vget. rewrite Hx, Hy. simpl. do 3 eexists. split; [reflexivity|]. split; [reflexivity|].
  simpl. congruence.
Qed.
End Direct.

Section Stream.
Context {V : Type}.

Definition ready (c : nat) : stream V := setOptimizer (setLearner (newStream c)).

(** consecutive complete groups of [c] elements *)
Definition group {A} (c j : nat) (l : list A) : list A := firstn c (skipn (j * c) l).

Lemma upd_app {A} (l1 : list A) x y l2 k : length l1 = k -> upd (l1 ++ x :: l2) k y = l1 ++ y :: l2.
Proof. revert k. induction l1 as [|a l1 IH]; intros k <-; simpl; auto. now rewrite IH. Qed.

(** the target column of the samples, empty for unsupervised learning *)
Definition tgt (b : bool) (l : list (V * V)) : list (option V) :=
  if b then map (fun p => Some (snd p)) l else [].
Definition give (b : bool) (p : V * V) : V * option V := (fst p, if b then Some (snd p) else None).

(** Invariant after the samples [done]:
    the rows collected so far are the last [k mod c] samples. *)
Definition SInv (b : bool) (c : nat) (done : list (V * V)) (s : stream V) : Prop :=
  cacheSize s = c /\ haveLearner s = true /\ haveOptimizer s = true /\
  length (steps s) = length done / c /\ collected s = length done mod c /\
  (cache s = false -> done = [] /\ T s = []) /\
  (cache s = true -> length (X s) = c /\ length (T s) = (if b then c else 0) /\
     firstn (collected s) (X s) = map (fun p => Some (fst p)) (skipn (length done / c * c) done) /\
     firstn (collected s) (T s) = tgt b (skipn (length done / c * c) done)) /\
  (forall j, j < length done / c ->
     nth_error (steps s) j = Some (map (fun p => Some (fst p)) (group c j done),
                                   tgt b (group c j done))).

Lemma firstn_upd_S {A} (l : list A) k a : k < length l -> firstn (S k) (upd l k a) = firstn k l ++ [a].
Proof.
  revert k; induction l as [|x l IH]; intros [|k] H; simpl in *; try lia; auto.
  f_equal. apply IH. lia.
Qed.

Lemma stream_step b c done s x t : 0 < c -> SInv b c done s ->
  exists s', addSample s x (if b then Some t else None) = Ok s' /\ SInv b c (done ++ [(x, t)]) s'.
Proof.
  intros Hc (Ec & Hl & Ho & Ls & Co & Cf & Ct & St). unfold addSample.
  rewrite Hl, Ho. simpl.
  (* after the possible initialization *)
  assert (exists s1, (if cache s then Ok s else initialize s
      (match (if b then Some t else None) with Some _ => true | None => false end)) = Ok s1 /\
    cacheSize s1 = c /\ haveLearner s1 = true /\ haveOptimizer s1 = true /\ steps s1 = steps s /\
    collected s1 = collected s /\ cache s1 = true /\ length (X s1) = c /\
    length (T s1) = (if b then c else 0) /\
    firstn (collected s) (X s1) = map (fun p => Some (fst p)) (skipn (length done / c * c) done) /\
    firstn (collected s) (T s1) = tgt b (skipn (length done / c * c) done))
    as (s1 & E1 & A1 & A2 & A3 & A4 & A5 & A6 & A7 & A8 & A9 & A10).
  { destruct (cache s) eqn:Ecache.
    - exists s. destruct (Ct eq_refl) as (B1 & B2 & B3 & B4). repeat split; auto.
    - unfold initialize. rewrite Hl, Ho. simpl. eexists. split; [reflexivity|]. simpl.
      destruct (Cf eq_refl) as [-> HT]. simpl in *. rewrite Nat.div_0_l, Nat.mod_0_l in * by lia.
      rewrite repeat_length, Co, HT. simpl. repeat split; auto.
      + destruct b; auto. now rewrite repeat_length.
      + destruct b; reflexivity. }
  rewrite E1. simpl. rewrite A5.
  assert (Lc : collected s < c) by (rewrite Co; apply Nat.mod_upper_bound; lia).
  rewrite vset_Ok by lia. simpl.
  set (T' := if b then upd (T s1) (collected s) (Some t) else T s1).
  assert (ET : match (if b then Some t else None) with
               | Some v => vset (T s1) (collected s) (Some v) | None => Ok (T s1) end = Ok T').
  { unfold T'. destruct b; auto. rewrite vset_Ok by lia. reflexivity. }
  rewrite ET. simpl.
  assert (LT : length T' = if b then c else 0).
  { unfold T'. destruct b; auto. rewrite upd_length. auto. }
  eexists. split; [reflexivity|].
  assert (Hd : length (done ++ [(x, t)]) = S (length done)) by (rewrite app_length; simpl; lia).
  pose proof (Nat.div_mod (length done) c ltac:(lia)) as DM.
  rewrite A1. set (q := length done / c) in *. set (m := length done mod c) in *.
  assert (Lsk : length (skipn (q * c) done) = m) by (rewrite skipn_length; lia).
  assert (FT : firstn (S (collected s)) T' = tgt b (skipn (q * c) (done ++ [(x, t)]))).
  { unfold T'. destruct b.
    - rewrite firstn_upd_S by lia. rewrite A10, skipn_app.
      replace (q * c - length done) with 0 by lia. simpl. now rewrite map_app.
    - destruct (T s1); [reflexivity|discriminate]. }
  assert (FX : firstn (S (collected s)) (upd (X s1) (collected s) (Some x)) =
        map (fun p => Some (fst p)) (skipn (q * c) (done ++ [(x, t)]))).
  { rewrite firstn_upd_S by lia. rewrite A9, skipn_app.
    replace (q * c - length done) with 0 by lia. simpl. now rewrite map_app. }
  destruct (Nat.leb_spec c (S (collected s))) as [Lfull|Lpart].
  - (* the cache is full now *)
    assert (m = c - 1) by lia.
    assert (Q : S (length done) / c = S q).
    { symmetry. apply Nat.div_unique with (r := 0); [lia|]. nia. }
    assert (M : S (length done) mod c = 0).
    { symmetry. apply Nat.mod_unique with (q := S q); [lia|]. nia. }
    unfold SInv. simpl. rewrite Hd, Q, M, A2, A3, A4, A6.
    assert (Gq : group c q (done ++ [(x, t)]) = skipn (q * c) (done ++ [(x, t)])).
    { unfold group. apply firstn_all2. rewrite skipn_length, app_length. simpl. lia. }
    assert (GX : upd (X s1) (collected s) (Some x) =
                 map (fun p => Some (fst p)) (group c q (done ++ [(x, t)]))).
    { rewrite Gq, <- FX. rewrite firstn_all2; auto. rewrite upd_length. lia. }
    assert (GT : T' = tgt b (group c q (done ++ [(x, t)]))).
    { rewrite Gq, <- FT. rewrite firstn_all2; auto. rewrite LT. destruct b; lia. }
    repeat split; auto.
    + rewrite app_length. simpl. lia.
    + destruct done; discriminate.
    + discriminate.
    + rewrite upd_length; auto.
    + rewrite skipn_all2; auto. lia.
    + rewrite skipn_all2 by lia. destruct b; reflexivity.
    + intros j Hj. destruct (Nat.eq_dec j q) as [->|Nj].
      * rewrite nth_error_app2 by lia. rewrite Ls, Nat.sub_diag. simpl. now rewrite GX, GT.
      * rewrite nth_error_app1 by lia. rewrite St by lia.
        assert (G : group c j (done ++ [(x, t)]) = group c j done).
        { unfold group. assert (j * c + c <= length done) by nia.
          rewrite skipn_app, firstn_app, skipn_length.
          replace (c - (length done - j * c)) with 0 by lia. simpl. now rewrite app_nil_r. }
        now rewrite G.
  - assert (m < c - 1) by lia.
    assert (Q : S (length done) / c = q).
    { symmetry. apply Nat.div_unique with (r := S m); [lia|]. lia. }
    assert (M : S (length done) mod c = S m).
    { symmetry. apply Nat.mod_unique with (q := q); [lia|]. lia. }
    unfold SInv. simpl. rewrite Hd, Q, M, A2, A3, A4, A6.
    repeat split; auto.
    + destruct done; discriminate.
    + discriminate.
    + rewrite upd_length; auto.
    + intros j Hj. rewrite St by lia.
      assert (G : group c j (done ++ [(x, t)]) = group c j done).
      { unfold group. assert (j * c + c <= length done) by nia.
        rewrite skipn_app, firstn_app, skipn_length.
        replace (c - (length done - j * c)) with 0 by lia. simpl. now rewrite app_nil_r. }
      now rewrite G.
Qed.

Lemma stream_run b c (samples : list (V * V)) : 0 < c ->
  exists s, feed (map (give b) samples) (ready c) = Ok s /\ SInv b c samples s.
Proof.
  intros Hc. unfold feed.
  assert (I0 : SInv b c [] (ready c)).
  { unfold SInv, ready. simpl. rewrite Nat.div_0_l, Nat.mod_0_l by lia. repeat split; auto; try discriminate.
    intros; lia. }
  assert (G : forall rest done s, SInv b c done s ->
    exists s', for_each (map (give b) rest)
         (fun p s => addSample s (fst p) (snd p)) s = Ok s' /\ SInv b c (done ++ rest) s').
  { induction rest as [|[x t] rest IH]; intros done s I; simpl.
    - exists s. rewrite app_nil_r. auto.
    - destruct (stream_step b c done s x t Hc I) as (s1 & E1 & I1). rewrite E1. simpl.
      destruct (IH _ _ I1) as (s2 & E2 & I2). exists s2. split; auto.
      rewrite <- app_assoc in I2. exact I2. }
  apply (G samples [] (ready c) I0).
Qed.

Lemma stream_ok c (samples : list (V * V)) : 0 < c ->
  exists s, feed (map (fun p => (fst p, Some (snd p))) samples) (ready c) = Ok s /\
    length (steps s) = length samples / c /\
    forall j, j < length samples / c ->
      nth_error (steps s) j =
        Some (map (fun p => Some (fst p)) (firstn c (skipn (j * c) samples)),
              map (fun p => Some (snd p)) (firstn c (skipn (j * c) samples))).
Proof.
  intros Hc. destruct (stream_run true c samples Hc) as (s & E & (_ & _ & _ & L & _ & _ & _ & St)).
  exists s. auto.
Qed.

Lemma stream_ok_unsupervised c (xs : list V) : 0 < c ->
  exists s, feed (map (fun x => (x, None)) xs) (ready c) = Ok s /\
    length (steps s) = length xs / c /\
    forall j, j < length xs / c ->
      nth_error (steps s) j = Some (map Some (firstn c (skipn (j * c) xs)), []).
Proof.
  intros Hc.
  destruct (stream_run false c (map (fun x => (x, x)) xs) Hc) as (s & E & (_ & _ & _ & L & _ & _ & _ & St)).
  rewrite map_map in E. rewrite map_length in *. exists s. split; [exact E|]. split; auto.
  intros j Hj. rewrite St by auto. unfold group, tgt.
  rewrite skipn_map, firstn_map, map_map. reflexivity.
Qed.
End Stream.

Section Random.
Local Open Scope Z_scope.

Lemma generateInt_range r min range : 0 <= r -> 0 <= range ->
  exists v, generateInt r min range = Ok v /\
    (range = 0 -> v = min) /\ (0 < range -> min <= v < min + range).
Proof.
  intros Hr Hg. unfold generateInt. rewrite check_true by (now apply Z.leb_le). simpl.
  eexists. split; [reflexivity|]. destruct (Z.eqb_spec range 0) as [->|Ne].
  - split; auto; lia.
  - split; [lia|]. intros Hp. pose proof (Z.rem_bound_pos r range Hr Hp). lia.
Qed.

(** every value of the interval is produced by some value of rand() *)
Lemma generateInt_onto min range v : min <= v < min + range ->
  exists r, 0 <= r < range /\ generateInt r min range = Ok v.
Proof.
  intros H. exists (v - min). split; [lia|]. unfold generateInt.
  rewrite check_true by (apply Z.leb_le; lia). simpl.
  destruct (Z.eqb_spec range 0); [lia|]. rewrite Z.rem_small by lia. f_equal. lia.
Qed.

Lemma generateReal_range r RAND_MAX min range : 0 <= r <= RAND_MAX -> 0 < RAND_MAX -> (0 <= range)%R ->
  exists v, generateReal r RAND_MAX min range = Ok v /\ (min <= v <= min + range)%R.
Proof.
  intros Hr Hm Hg. unfold generateReal. rewrite check_true by (now apply Rleb_true). simpl.
  eexists. split; [reflexivity|]. destruct (Reqb range 0) eqn:E.
  - apply Reqb_true in E. lra.
  - assert (A : (0 <= IZR r / IZR RAND_MAX <= 1)%R).
    { assert (P : (0 < IZR RAND_MAX)%R) by (apply IZR_lt; lia).
      assert (Q : (0 <= IZR r <= IZR RAND_MAX)%R) by (split; apply IZR_le; lia).
      split.
      - apply Rmult_le_pos; [lra|]. left. now apply Rinv_0_lt_compat.
      - apply Rmult_le_reg_r with (IZR RAND_MAX); auto. unfold Rdiv.
        rewrite Rmult_assoc, Rinv_l by lra. lra. }
    nra.
Qed.

Lemma generateReal_end RAND_MAX min range : 0 < RAND_MAX -> (0 < range)%R ->
  generateReal RAND_MAX RAND_MAX min range = Ok (min + range)%R.
Proof.
  intros Hm Hg. unfold generateReal. rewrite check_true by (apply Rleb_true; lra). simpl.
  destruct (Reqb range 0) eqn:E; [apply Reqb_true in E; lra|].
  f_equal. unfold Rdiv. rewrite Rinv_r; [lra|]. apply not_0_IZR. lia.
Qed.
End Random.

Lemma generateIndices_fresh n shuf : (forall l, Permutation l (shuf l)) ->
  exists l, generateIndices n [] false shuf = Ok l /\ Permutation l (seq 0 n).
Proof.
  intros H. unfold generateIndices. simpl. rewrite fillIndices_spec. simpl.
  eexists. split; [reflexivity|]. apply Permutation_sym, H.
Qed.

Lemma generateIndices_again n old shuf : (forall l, Permutation l (shuf l)) ->
  Permutation old (seq 0 n) ->
  exists l, generateIndices n old true shuf = Ok l /\ Permutation l (seq 0 n).
Proof.
  intros H Ho. unfold generateIndices.
  assert (E : length old = n) by (rewrite (Permutation_length Ho); apply seq_length).
  rewrite check_true by (now apply Nat.eqb_eq). simpl. eexists. split; [reflexivity|].
  eapply Permutation_trans; [apply Permutation_sym, H|exact Ho].
Qed.
