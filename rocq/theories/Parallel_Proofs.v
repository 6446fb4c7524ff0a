(** Programs that write to disjoint parts of the memory do not interfere. *)
From Coq Require Import Permutation FunctionalExtensionality Lia.
From Verif Require Import Base BaseFacts Matrix Parallel_Model Parallel_Spec.
Local Close Scope R_scope.

Lemma nodup_app {A} (a b : list A) : NoDup (a ++ b) ->
  NoDup a /\ NoDup b /\ forall x, In x a -> In x b -> False.
Proof.
  induction a as [|x a IH]; simpl; intros H; [repeat split; auto; constructor|].
  inversion H as [|? ? N D]; subst. destruct (IH D) as (A1 & A2 & A3). repeat split; auto.
  - constructor; auto. intros K. apply N, in_or_app. auto.
  - intros y [->|K] L; [apply N, in_or_app; auto|eauto].
Qed.

(** * Sequential execution *)
Fixpoint run {A} (p : prog A) (m : memory) : res (A * memory) :=
  match p with
  | Ret a => Ok (a, m)
  | Read l k => v <- load m l ;; run (k v) m
  | Write l v k => m <- store m l v ;; run k m
  | Stop => UB
  end.

Fixpoint cost {A} (p : prog A) (m : memory) : nat :=
  match p with
  | Ret a => 0
  | Read l k => match load m l with Ok v => S (cost (k v) m) | _ => 0 end
  | Write l v k => match store m l v with Ok m => S (cost k m) | _ => 0 end
  | Stop => 0
  end.

Lemma run_bind {A B} (p : prog A) (f : A -> prog B) m :
  run (pbind p f) m = (' (a, m) <- run p m ;; run (f a) m).
Proof.
  revert m. induction p as [a|l k IH|l v k IH|]; intros m; simpl; auto.
  - destruct (load m l); simpl; auto.
  - destruct (store m l v); simpl; auto.
Qed.

Definition loc_dec (l l' : location) : {l = l'} + {l <> l'}.
Proof. decide equality; [apply Nat.eq_dec|]. decide equality; [apply Nat.eq_dec|apply array_dec]. Qed.

Lemma mem_set_same m b a : mem_set m b a b = Some a.
Proof. unfold mem_set. destruct (array_dec b b); congruence. Qed.
Lemma mem_set_other m b a c : c <> b -> mem_set m b a c = m c.
Proof. intros H. unfold mem_set. destruct (array_dec c b); congruence. Qed.

Lemma load_store m l v m' l' : store m l v = Ok m' ->
  load m' l' = if loc_dec l l' then Ok v else load m l'.
Proof.
  destruct l as [[b i] j], l' as [[b' i'] j']. unfold store, load.
  destruct (m b) as [a|] eqn:E; [|discriminate].
  unfold mset. destruct (inside a i j) eqn:I; simpl; [|discriminate]. intros H. injection H as <-.
  destruct (array_dec b' b) as [->|N].
  - rewrite mem_set_same, E. unfold mget. change (inside (mupd a i j v) i' j') with (inside a i' j').
    destruct (loc_dec (b, i, j) (b, i', j')) as [Q|Q].
    + injection Q as <- <-. rewrite I, at_mupd_same. auto.
    + destruct (inside a i' j'); auto. rewrite at_mupd_other; auto.
      destruct (Nat.eq_dec i' i); [subst|auto]. destruct (Nat.eq_dec j' j); [subst; congruence|auto].
  - rewrite mem_set_other by auto. destruct (loc_dec (b, i, j) (b', i', j')) as [Q|Q]; auto. congruence.
Qed.

Lemma store_iff_load m l v : (exists m', store m l v = Ok m') <-> (exists w, load m l = Ok w).
Proof.
  destruct l as [[b i] j]. unfold store, load, mset, mget.
  destruct (m b) as [a|]; [|split; intros [x H]; discriminate].
  destruct (inside a i j); simpl; split; intros [x H]; try discriminate; eauto.
Qed.

(** * Shapes *)
Definition shape (m m' : memory) : Prop :=
  forall b, match m b, m' b with
  | None, None => True
  | Some a, Some a' => rows a = rows a' /\ cols a = cols a' /\
      forall i j, inside a i j = false -> at_ a i j = at_ a' i j
  | _, _ => False
  end.

Lemma shape_refl m : shape m m.
Proof. intros b. destruct (m b); auto. Qed.
Lemma shape_sym m m' : shape m m' -> shape m' m.
Proof.
  intros H b. specialize (H b). destruct (m b), (m' b); auto. destruct H as (A & B & C).
  repeat split; auto. intros i j I. symmetry. apply C. unfold inside in *. now rewrite A, B.
Qed.
Lemma shape_trans a b c : shape a b -> shape b c -> shape a c.
Proof.
  intros H K x. specialize (H x). specialize (K x). destruct (a x), (b x), (c x); auto; try contradiction.
  destruct H as (A & B & C), K as (A' & B' & C'). repeat split; try congruence.
  intros i j I. rewrite C by auto. apply C'. unfold inside in *. now rewrite <- A, <- B.
Qed.
Lemma shape_store m l v m' : store m l v = Ok m' -> shape m m'.
Proof.
  destruct l as [[b i] j]. unfold store. destruct (m b) as [a|] eqn:E; [|discriminate].
  unfold mset. destruct (inside a i j) eqn:I; simpl; [|discriminate]. intros H. injection H as <-.
  intros c. destruct (array_dec c b) as [->|N].
  - rewrite mem_set_same, E. repeat split; auto. intros i' j' I'.
    rewrite at_mupd_other; auto. destruct (Nat.eq_dec i' i); [subst|auto].
    destruct (Nat.eq_dec j' j); [subst; congruence|auto].
  - rewrite mem_set_other by auto. destruct (m c); auto.
Qed.

Lemma memory_eq m m' : shape m m' -> (forall l, load m l = load m' l) -> m = m'.
Proof.
  intros S L. apply functional_extensionality. intros b. specialize (S b).
  assert (Lb : forall i j, load m (b, i, j) = load m' (b, i, j)) by auto. unfold load in Lb.
  destruct (m b) as [a|], (m' b) as [a'|]; auto; try contradiction.
  destruct S as (A & B & C). f_equal. destruct a as [r c f], a' as [r' c' f']. simpl in *. subst.
  f_equal. apply functional_extensionality. intros i. apply functional_extensionality. intros j.
  specialize (Lb i j). unfold mget in Lb.
  change (inside (mkMat r' c' f') i j) with (inside (mkMat r' c' f) i j) in Lb.
  destruct (inside (mkMat r' c' f) i j) eqn:I; [|now apply C]. simpl in Lb. congruence.
Qed.

(** * Confined programs: each element belongs to at most one iteration *)
Section OWN.
Variable own : location -> option nat.

Definition may_read (P : nat -> Prop) (l : location) : Prop :=
  match own l with None => True | Some i => P i end.
Definition may_write (P : nat -> Prop) (l : location) : Prop :=
  match own l with None => False | Some i => P i end.

Fixpoint confined {A} (P : nat -> Prop) (p : prog A) : Prop :=
  match p with
  | Ret _ | Stop => True
  | Read l k => may_read P l /\ forall v, confined P (k v)
  | Write l _ k => may_write P l /\ confined P k
  end.

Lemma may_write_read P l : may_write P l -> may_read P l.
Proof. unfold may_write, may_read. destruct (own l); tauto. Qed.

Lemma confined_mono {A} (P Q : nat -> Prop) (p : prog A) :
  (forall i, P i -> Q i) -> confined P p -> confined Q p.
Proof.
  intros H. induction p as [a|l k IH|l v k IH|]; simpl; auto.
  - intros [A1 A2]. split; auto. unfold may_read in *. destruct (own l); auto.
  - intros [A1 A2]. split; auto. unfold may_write in *. destruct (own l); auto.
Qed.

Lemma confined_bind {A B} P (p : prog A) (f : A -> prog B) :
  confined P p -> (forall a, confined P (f a)) -> confined P (pbind p f).
Proof.
  intros H K. induction p as [a|l k IH|l v k IH|]; simpl in *; auto.
  - destruct H; auto.
  - destruct H; auto.
Qed.

Lemma confined_for_from {St} P n : forall from (body : nat -> St -> prog St) s,
  (forall i s, from <= i < from + n -> confined P (body i s)) -> confined P (pfor_from from n body s).
Proof.
  induction n as [|n IH]; intros from body s H; simpl; auto.
  apply confined_bind. { apply H. lia. }
  intros s'. apply IH. intros i t Hi. apply H. lia.
Qed.
Lemma confined_for {St} P n (body : nat -> St -> prog St) s :
  (forall i s, i < n -> confined P (body i s)) -> confined P (pfor n body s).
Proof. intros H. apply confined_for_from. intros i t Hi. apply H. lia. Qed.
Lemma confined_for_each {A St} P (l : list A) (body : A -> St -> prog St) : forall s,
  (forall a s, confined P (body a s)) -> confined P (pfor_each l body s).
Proof.
  induction l as [|a l IH]; intros s H; simpl; auto. apply confined_bind; auto.
Qed.
Lemma confined_local {A} P (r : res A) : confined P (local r).
Proof. destruct r; simpl; auto. Qed.
Lemma confined_get P b i j : may_read P (b, i, j) -> confined P (get b i j).
Proof. simpl. auto. Qed.
Lemma confined_put P b i j v : may_write P (b, i, j) -> confined P (put b i j v).
Proof. simpl. auto. Qed.
Lemma confined_add P b i j v : may_write P (b, i, j) -> confined P (add b i j v).
Proof. intros H. simpl. split; [now apply may_write_read|auto]. Qed.

Lemma confined_pseq (p : nat -> prog unit) (P : nat -> Prop) its :
  (forall i, In i its -> confined P (p i)) -> confined P (pseq (map p its)).
Proof.
  induction its as [|i its IH]; simpl; auto. intros H. apply confined_bind; [apply H; auto|].
  intros _. apply IH. auto.
Qed.

(** a program behaves the same on memories that look the same to it *)
Lemma run_frame {A} P (p : prog A) : forall m m' a m1,
  confined P p -> run p m = Ok (a, m1) -> (forall l, may_read P l -> load m l = load m' l) ->
  exists m1', run p m' = Ok (a, m1') /\ cost p m' = cost p m /\ shape m' m1' /\
    (forall l, may_read P l -> load m1 l = load m1' l) /\
    (forall l, ~ may_write P l -> load m1' l = load m' l).
Proof.
  induction p as [b|l k IH|l v k IH|]; intros m m' a m1 C R L; simpl in *.
  - injection R as <- <-. exists m'. repeat split; auto. apply shape_refl.
  - destruct C as [C1 C2]. rewrite <- (L l C1). destruct (load m l) as [v| | | |]; try discriminate.
    simpl in *. destruct (IH v m m' a m1 (C2 v) R L) as (m1' & Q1 & Q2 & Q3). exists m1'.
    repeat split; auto; apply Q3.
  - destruct C as [C1 C2]. destruct (store m l v) as [m2| | | |] eqn:S; try discriminate. simpl in R.
    assert (exists m2', store m' l v = Ok m2') as [m2' S'].
    { apply store_iff_load. rewrite <- (L l) by now apply may_write_read.
      apply (proj1 (store_iff_load m l v)). eauto. }
    rewrite S'. simpl.
    destruct (IH m2 m2' a m1 C2 R) as (m1' & Q1 & Q2 & Q3 & Q4 & Q5).
    { intros l' Hl. rewrite (load_store _ _ _ _ _ S), (load_store _ _ _ _ _ S').
      destruct (loc_dec l l'); auto. }
    exists m1'. repeat split; auto.
    + apply shape_trans with m2'; auto. now apply shape_store with l v.
    + intros l' Hl. rewrite Q5 by auto. rewrite (load_store _ _ _ _ _ S').
      destruct (loc_dec l l'); [subst; contradiction|auto].
  - discriminate.
Qed.

Lemma run_own {A} P (p : prog A) m a m1 : confined P p -> run p m = Ok (a, m1) ->
  shape m m1 /\ forall l, ~ may_write P l -> load m1 l = load m l.
Proof.
  intros C R. destruct (run_frame P p m m a m1 C R) as (m1' & Q1 & Q2 & Q3 & Q4 & Q5); auto.
  rewrite R in Q1. injection Q1 as <-. auto.
Qed.

(** * Iterations *)
Variable p : nat -> prog unit.
Variable N : nat.
Hypothesis conf : forall i, i < N -> confined (eq i) (p i).

Lemma may_write_eq i l : may_write (eq i) l <-> own l = Some i.
Proof. unfold may_write. destruct (own l); split; intros H; try congruence; contradiction. Qed.

Lemma seq_split its : forall m m', NoDup its -> (forall i, In i its -> i < N) ->
  run (pseq (map p its)) m = Ok (tt, m') ->
  (forall i, In i its -> exists mi, run (p i) m = Ok (tt, mi) /\
     forall l, own l = Some i -> load m' l = load mi l) /\
  (forall l, ~ may_write (fun i => In i its) l -> load m' l = load m l) /\ shape m m'.
Proof.
  induction its as [|i its IH]; intros m m' ND B R; simpl in R.
  - injection R as <-. split; [simpl; tauto|]. split; auto. apply shape_refl.
  - rewrite run_bind in R. destruct (run (p i) m) as [[[] mi]| | | |] eqn:Ri; try discriminate. simpl in R.
    inversion ND as [|? ? Ni ND']; subst.
    destruct (run_own (eq i) (p i) m tt mi (conf i (B i (or_introl eq_refl))) Ri) as [S1 W1].
    destruct (IH mi m' ND' (fun j Hj => B j (or_intror Hj)) R) as (I1 & I2 & I3).
    split; [|split].
    + intros j [->|Hj].
      * exists mi. split; auto. intros l Hl. apply I2. unfold may_write. now rewrite Hl.
      * destruct (I1 j Hj) as (mj & Rj & Lj).
        assert (Nij : i <> j) by (intros ->; contradiction).
        destruct (run_frame (eq j) (p j) mi m tt mj (conf j (B j (or_intror Hj))) Rj)
          as (mj' & Q1 & Q2 & Q3 & Q4 & Q5).
        { intros l Hl. apply W1. intros Hw. apply may_write_eq in Hw. unfold may_read in Hl.
          rewrite Hw in Hl. congruence. }
        exists mj'. split; auto. intros l Hl. rewrite Lj by auto. apply Q4. unfold may_read. now rewrite Hl.
    + intros l Hl. rewrite I2.
      * apply W1. intros Hw. apply Hl. apply may_write_eq in Hw. unfold may_write. rewrite Hw. now left.
      * intros Hw. apply Hl. unfold may_write in *. destruct (own l); auto. now right.
    + now apply shape_trans with mi.
Qed.

Lemma seq_build its : forall m, NoDup its -> (forall i, In i its -> i < N) ->
  (forall i, In i its -> exists mi, run (p i) m = Ok (tt, mi)) ->
  exists m', run (pseq (map p its)) m = Ok (tt, m').
Proof.
  induction its as [|i its IH]; intros m ND B R; simpl; eauto.
  inversion ND as [|? ? Ni ND']; subst.
  destruct (R i (or_introl eq_refl)) as (mi & Ri). rewrite run_bind, Ri. simpl.
  destruct (run_own (eq i) (p i) m tt mi (conf i (B i (or_introl eq_refl))) Ri) as [S1 W1].
  apply IH; auto. { intros j Hj. apply B. now right. }
  intros j Hj. destruct (R j (or_intror Hj)) as (mj & Rj).
  assert (Nij : i <> j) by (intros ->; contradiction).
  destruct (run_frame (eq j) (p j) m mi tt mj (conf j (B j (or_intror Hj))) Rj) as (mj' & Q1 & Q2); eauto.
  intros l Hl. symmetry. apply W1. intros Hw. apply may_write_eq in Hw. unfold may_read in Hl.
  rewrite Hw in Hl. congruence.
Qed.

(** * Threads *)
Section TEAM.
Variable threads : list (list nat).
Hypothesis dist : distribution N threads.
Variables before after : memory.
Hypothesis sequential : run (pseq (map p (seq 0 N))) before = Ok (tt, after).

Definition mine (t : nat) : nat -> Prop := fun i => In i (nth t threads []).

Lemma concat_nodup : NoDup (concat threads).
Proof. apply (Permutation_NoDup (l := seq 0 N)); [now apply Permutation_sym|apply seq_NoDup]. Qed.

Lemma mine_lt t i : mine t i -> i < N.
Proof.
  intros H. assert (In i (seq 0 N)) as K; [|now apply in_seq in K].
  apply (Permutation_in (l := concat threads)); auto. apply in_concat.
  exists (nth t threads []). split; auto. destruct (Nat.lt_ge_cases t (length threads)) as [L|L].
  - now apply nth_In.
  - unfold mine in H. rewrite nth_overflow in H by auto. contradiction.
Qed.

Lemma nodup_concat_nth : forall (l : list (list nat)) t, NoDup (concat l) -> NoDup (nth t l []).
Proof.
  induction l as [|a l IH]; intros [|t] H; simpl in *; try constructor.
  - now apply nodup_app in H.
  - apply IH. now apply nodup_app in H.
Qed.

Lemma nodup_concat_disjoint : forall (l : list (list nat)) t u i, NoDup (concat l) ->
  In i (nth t l []) -> In i (nth u l []) -> t = u.
Proof.
  induction l as [|a l IH]; intros [|t] [|u] i H A B; simpl in *; auto; try contradiction.
  - exfalso. assert (In i (concat l)) as K.
    { apply in_concat. exists (nth u l []). split; auto.
      destruct (Nat.lt_ge_cases u (length l)) as [L|L]; [now apply nth_In|].
      rewrite nth_overflow in B by auto. contradiction. }
    apply (proj2 (proj2 (nodup_app _ _ H)) i); auto.
  - exfalso. assert (In i (concat l)) as K.
    { apply in_concat. exists (nth t l []). split; auto.
      destruct (Nat.lt_ge_cases t (length l)) as [L|L]; [now apply nth_In|].
      rewrite nth_overflow in A by auto. contradiction. }
    apply (proj2 (proj2 (nodup_app _ _ H)) i); auto.
  - f_equal. apply IH with i; auto. now apply nodup_app in H.
Qed.

Lemma mine_disjoint t u i : mine t i -> mine u i -> t = u.
Proof. apply nodup_concat_disjoint. apply concat_nodup. Qed.

Lemma mine_ex i : i < N -> exists t, t < length threads /\ mine t i.
Proof.
  intros H. assert (In i (concat threads)) as K.
  { apply (Permutation_in (l := seq 0 N)); [now apply Permutation_sym|]. apply in_seq. lia. }
  apply in_concat in K. destruct K as (its & A & B). apply (In_nth _ _ []) in A. destruct A as (t & T & E).
  exists t. split; auto. unfold mine. now rewrite E.
Qed.

(** what is left to do leads to the contents of [after] *)
Definition inv (c : config) : Prop :=
  length (fst c) = length threads /\ shape (snd c) after /\
  (forall l, ~ may_write (fun i => i < N) l -> load (snd c) l = load after l) /\
  forall t q, nth_error (fst c) t = Some q -> confined (mine t) q /\
    exists m', run q (snd c) = Ok (tt, m') /\
      forall l, may_write (mine t) l -> load m' l = load after l.

Definition total (c : config) : nat := fold_right (fun q n => cost q (snd c) + n) 0 (fst c).

Lemma inv_start : inv (team p threads, before).
Proof.
  destruct (seq_split (seq 0 N) before after (seq_NoDup N 0)) as (S1 & S2 & S3); auto.
  { intros i Hi. apply in_seq in Hi. lia. }
  unfold inv, team. simpl. rewrite map_length. split; auto. split; auto. split.
  - intros l Hl. symmetry. apply S2. intros Hw. apply Hl. unfold may_write in *. destruct (own l); auto.
    apply in_seq in Hw. lia.
  - intros t q Hq. rewrite nth_error_map in Hq. destruct (nth_error threads t) as [its|] eqn:E; [|discriminate].
    simpl in Hq. injection Hq as <-. pose proof (nth_error_nth _ _ [] E) as En.
    assert (B : forall i, In i its -> i < N) by (intros i Hi; apply (mine_lt t); unfold mine; now rewrite En).
    assert (ND : NoDup its) by (rewrite <- En; apply nodup_concat_nth, concat_nodup).
    split.
    + apply confined_pseq. intros i Hi. apply confined_mono with (eq i); [|now apply conf, B].
      intros j <-. unfold mine. now rewrite En.
    + destruct (seq_build its before ND B) as (m' & Rm).
      { intros i Hi. destruct (S1 i) as (mi & Ri & _); eauto. apply in_seq. specialize (B i Hi). lia. }
      exists m'. split; auto. intros l Hl. unfold may_write in Hl. destruct (own l) as [i|] eqn:O; [|contradiction].
      unfold mine in Hl. rewrite En in Hl.
      destruct (seq_split its before m' ND B Rm) as (T1 & _ & _).
      destruct (T1 i Hl) as (mi & Ri & Li). rewrite Li by auto.
      destruct (S1 i) as (mi' & Ri' & Li'). { apply in_seq. specialize (B i Hl). lia. }
      rewrite Ri in Ri'. injection Ri' as <-. symmetry. now apply Li'.
Qed.

Lemma fold_upd (f f' : prog unit -> nat) : forall ps t q q',
  nth_error ps t = Some q -> f q = S (f' q') ->
  (forall u r, u <> t -> nth_error ps u = Some r -> f' r = f r) ->
  fold_right (fun q n => f q + n) 0 ps = S (fold_right (fun q n => f' q + n) 0 (upd ps t q')).
Proof.
  induction ps as [|a ps IH]; intros [|t] q q' E F G; simpl in *; try discriminate.
  - injection E as ->. rewrite F. simpl. do 2 f_equal.
    assert (H : forall u r, nth_error ps u = Some r -> f' r = f r) by (intros u r; apply (G (S u)); lia).
    clear -H. induction ps as [|b ps IH]; simpl; auto. rewrite (H 0 b eq_refl), IH; auto.
    intros u r. apply (H (S u)).
  - rewrite (G 0 a) by (auto; lia). rewrite (IH t q q' E F). lia.
    intros u r Hu. apply (G (S u)). lia.
Qed.

Lemma nth_error_upd_cases (ps : list (prog unit)) t q u r :
  nth_error (upd ps t q) u = Some r -> (u = t /\ r = q) \/ (u <> t /\ nth_error ps u = Some r).
Proof.
  revert t u. induction ps as [|a ps IH]; intros [|t] [|u] H; simpl in *; try discriminate; auto.
  - injection H as <-. auto.
  - destruct (IH t u H) as [[-> ->]|[A B]]; auto.
Qed.

Lemma step_inv t c c' : inv c -> step t c c' -> inv c' /\ total c = S (total c').
Proof.
  intros (I1 & I2 & I3 & I4) St. destruct St as [ps m l k v E L|ps m l v k m' E L]; simpl in *.
  - destruct (I4 t _ E) as (C & m' & Rm & Lm). simpl in C, Rm. rewrite L in Rm. simpl in Rm. split.
    + unfold inv. simpl. rewrite upd_length. repeat split; auto; intros; apply nth_error_upd_cases in H;
        destruct H as [[-> ->]|[A B]].
      * apply C.
      * now apply I4.
      * eauto.
      * now apply I4.
    + unfold total. simpl. apply (fold_upd (fun q => cost q m) (fun q => cost q m) ps t (Read l k)); auto.
      simpl. now rewrite L.
  - destruct (I4 t _ E) as (C & m1 & Rm & Lm). simpl in C, Rm. rewrite L in Rm. simpl in Rm.
    assert (Fr : forall u r, u <> t -> nth_error ps u = Some r ->
      exists m2, run r m' = Ok (tt, m2) /\ cost r m' = cost r m /\
        forall l, may_write (mine u) l -> load m2 l = load after l).
    { intros u r Hu Hr. destruct (I4 u r Hr) as (Cr & mr & Rr & Lr).
      destruct (run_frame (mine u) r m m' tt mr Cr Rr) as (m2 & Q1 & Q2 & Q3 & Q4 & Q5).
      - intros l' Hl'. rewrite (load_store _ _ _ _ _ L). destruct (loc_dec l l') as [<-|]; auto.
        exfalso. apply Hu. destruct C as [C _]. unfold may_write in C. unfold may_read in Hl'.
        destruct (own l) as [i|]; [|contradiction]. apply (mine_disjoint u t i); auto.
      - exists m2. repeat split; auto. intros l' Hl'. rewrite <- Q4 by now apply may_write_read. auto. }
    split.
    + unfold inv. simpl. rewrite upd_length. split; auto. split.
      { apply shape_trans with m; auto. apply shape_sym. now apply shape_store with l v. }
      split.
      { intros l' Hl'. rewrite (load_store _ _ _ _ _ L). destruct (loc_dec l l') as [<-|]; auto.
        exfalso. apply Hl'. destruct C as [C _]. unfold may_write in *. destruct (own l); auto.
        now apply (mine_lt t). }
      intros u r Hr. apply nth_error_upd_cases in Hr. destruct Hr as [[-> ->]|[A B]].
      * split; [apply C|]. eauto.
      * split; [now apply I4|]. destruct (Fr u r A B) as (m2 & Q1 & Q2 & Q3). eauto.
    + unfold total. simpl. apply (fold_upd (fun q => cost q m) (fun q => cost q m') ps t (Write l v k)); auto.
      * simpl. now rewrite L.
      * intros u r Hu Hr. destruct (Fr u r Hu Hr) as (m2 & Q1 & Q2 & Q3). auto.
Qed.

Lemma steps_inv n c c' : steps n c c' -> inv c -> inv c' /\ n + total c' = total c.
Proof.
  induction 1 as [c|n t c c1 c2 S1 S2 IH]; intros I; auto.
  destruct (step_inv t c c1 I S1) as [I1 T1]. destruct (IH I1) as [I2 T2]. split; auto. lia.
Qed.

Theorem team_correct :
  (exists bound, forall n c, steps n (team p threads, before) c -> n <= bound) /\
  forall n c, steps n (team p threads, before) c ->
    ~ race c /\
    (forall t, t < length threads -> done c t \/ exists c', step t c c') /\
    ((forall t, t < length threads -> done c t) -> snd c = after).
Proof.
  split.
  { exists (total (team p threads, before)). intros n c St.
    destruct (steps_inv _ _ _ St inv_start) as [_ T]. lia. }
  intros n c St. destruct (steps_inv _ _ _ St inv_start) as [(I1 & I2 & I3 & I4) _].
  split; [|split].
  - intros (t & u & q & r & l & b & b' & Ntu & Et & Eu & At & Au & Wr). apply Ntu.
    destruct (I4 t q Et) as [Ct _], (I4 u r Eu) as [Cu _].
    assert (G : forall P q b, confined P q -> next_access q = Some (l, b) ->
              may_read P l /\ (b = true -> may_write P l)).
    { intros P q0 b0 C0 A0. destruct q0; simpl in *; try discriminate; injection A0 as -> <-.
      - split; [apply C0|discriminate].
      - split; [apply may_write_read; apply C0|intros _; apply C0]. }
    destruct (G _ _ _ Ct At) as [R1 W1], (G _ _ _ Cu Au) as [R2 W2].
    unfold may_read, may_write in *. destruct (own l) as [i|].
    + now apply (mine_disjoint t u i).
    + destruct Wr; exfalso; auto.
  - intros t Ht. destruct (nth_error (fst c) t) as [q|] eqn:E.
    2: { apply nth_error_None in E. lia. }
    destruct (I4 t q E) as (Cq & m' & Rq & _). destruct c as [ps m]. simpl in *.
    destruct q as [[]|l k|l v k|]; simpl in Rq.
    + left. exact E.
    + right. destruct (load m l) as [v| | | |] eqn:L; try discriminate. eexists. eapply step_read; eauto.
    + right. destruct (store m l v) as [m2| | | |] eqn:L; try discriminate. eexists. eapply step_write; eauto.
    + discriminate.
  - intros Dn. apply memory_eq; auto. intros l.
    destruct (own l) as [i|] eqn:O.
    + destruct (Nat.lt_ge_cases i N) as [Hi|Hi].
      * destruct (mine_ex i Hi) as (t & Ht & Mt). specialize (Dn t Ht). unfold done in Dn.
        destruct (I4 t _ Dn) as (_ & m' & Rq & Lq). simpl in Rq. injection Rq as <-. apply Lq.
        unfold may_write. now rewrite O.
      * apply I3. unfold may_write. rewrite O. lia.
    + apply I3. unfold may_write. rewrite O. auto.
Qed.
End TEAM.

Lemma same_memory_refl m : same_memory m m.
Proof. intros b. destruct (m b); auto. apply meq_refl. Qed.

Theorem parallel_correct before m after :
  run (pseq (map p (seq 0 N))) before = Ok (tt, m) -> same_memory m after -> parallel_loop N p before after.
Proof.
  intros R S threads D. destruct (team_correct threads D before m R) as [T1 T2]. split; auto.
  intros n c St. destruct (T2 n c St) as (U1 & U2 & U3). repeat split; auto. intros Dn. now rewrite (U3 Dn).
Qed.
End OWN.

(** * Simulation: programs do what the functions of the sequential model do *)

(** [view s] are the local variables and the memory of the program in state [s] of the model; [Inv] is an
    invariant of the model *)
Definition simulates {S L} (Inv : S -> Prop) (view : S -> L * memory) (p : L -> prog L) (f : S -> res S) : Prop :=
  forall s s', Inv s -> f s = Ok s' -> run (p (fst (view s))) (snd (view s)) = Ok (view s') /\ Inv s'.

Lemma sim_for_from {S L} Inv (view : S -> L * memory) n :
  forall from (p : nat -> L -> prog L) (f : nat -> S -> res S),
  (forall i, from <= i < from + n -> simulates Inv view (p i) (f i)) ->
  simulates Inv view (pfor_from from n p) (for_from from n f).
Proof.
  induction n as [|n IH]; intros from p f H s s' Is E; simpl in *.
  - injection E as <-. now destruct (view s).
  - destruct (f from s) as [s1| | | |] eqn:E1; try discriminate. simpl in E.
    destruct (H from ltac:(lia) s s1 Is E1) as [K1 I1]. rewrite run_bind, K1.
    pose proof (IH (Datatypes.S from) p f (fun i Hi => H i ltac:(lia)) s1 s' I1 E) as K.
    destruct (view s1). exact K.
Qed.
Lemma sim_for {S L} Inv (view : S -> L * memory) n (p : nat -> L -> prog L) (f : nat -> S -> res S) :
  (forall i, i < n -> simulates Inv view (p i) (f i)) -> simulates Inv view (pfor n p) (for_ n f).
Proof. intros H. apply sim_for_from. intros i Hi. apply H. lia. Qed.
Lemma sim_for_each {A S L} Inv (view : S -> L * memory) (l : list A) (p : A -> L -> prog L) (f : A -> S -> res S) :
  (forall a, In a l -> simulates Inv view (p a) (f a)) -> simulates Inv view (pfor_each l p) (for_each l f).
Proof.
  induction l as [|a l IH]; intros H s s' Is E; simpl in *.
  - injection E as <-. now destruct (view s).
  - destruct (f a s) as [s1| | | |] eqn:E1; try discriminate. simpl in E.
    destruct (H a (or_introl eq_refl) s s1 Is E1) as [K1 I1]. rewrite run_bind, K1.
    pose proof (IH (fun b Hb => H b (or_intror Hb)) s1 s' I1 E) as K. destruct (view s1). exact K.
Qed.

(** the sequential loop of the model gives the result of the iterations in order *)
Lemma sim_seq {S} (Inv : S -> Prop) (mem : S -> memory) N (p : nat -> prog unit) (f : nat -> S -> res S) s s' :
  (forall i, i < N -> simulates Inv (fun s => (tt, mem s)) (fun _ => p i) (f i)) ->
  Inv s -> for_ N f s = Ok s' -> run (pseq (map p (seq 0 N))) (mem s) = Ok (tt, mem s').
Proof.
  unfold for_. intros H. assert (G : forall n from s, from + n <= N -> Inv s -> for_from from n f s = Ok s' ->
    run (pseq (map p (seq from n))) (mem s) = Ok (tt, mem s')).
  { induction n as [|n IH]; intros from t B It E; simpl in *; [congruence|].
    destruct (f from t) as [t1| | | |] eqn:E1; try discriminate. simpl in E.
    destruct (H from ltac:(lia) t t1 It E1) as [K I1]. cbn [fst snd] in K. rewrite run_bind, K. simpl.
    apply IH; auto. lia. }
  apply G. lia.
Qed.
