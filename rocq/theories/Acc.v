(** Loops that only add to accumulators.  No OpenANN content. *)
From Verif Require Import Base BaseFacts Matrix RSum MatOps.
Local Open Scope R_scope.

Section Acc.
Context {S : Type} (ok : S -> Prop) (L : S -> R).

(** [f] succeeds in every state that satisfies [ok], keeps [ok] and adds [d] to [L] *)
Definition adds (f : S -> res S) (d : R) : Prop :=
  forall s, ok s -> exists s', f s = Ok s' /\ ok s' /\ L s' = L s + d.

(** the same for a state with a running index that goes from [t] to [t'] *)
Definition adds2 {T} (f : S * T -> res (S * T)) (t t' : T) (d : R) : Prop :=
  forall s, ok s -> exists s', f (s, t) = Ok (s', t') /\ ok s' /\ L s' = L s + d.

Lemma adds_for n (body : nat -> S -> res S) (d : nat -> R) :
  (forall i, (i < n)%nat -> adds (body i) (d i)) -> adds (for_ n body) (rsum n d).
Proof.
  intros H s Hs.
  destruct (for_inv (fun k (s' : S) => ok s' /\ L s' = L s + rsum k d) body n s) as (s' & E & O & V).
  - split; auto. simpl. ring.
  - intros i s1 Hi (O1 & V1). destruct (H i Hi s1 O1) as (s2 & E2 & O2 & V2).
    exists s2. split; auto. split; auto. rewrite V2, V1. simpl. ring.
  - exists s'. auto.
Qed.

Lemma adds2_for {T} n (body : nat -> S * T -> res (S * T)) (ix : nat -> T) t t' (d : nat -> R) :
  (forall i, (i < n)%nat -> adds2 (body i) (ix i) (ix (Datatypes.S i)) (d i)) ->
  ix 0%nat = t -> ix n = t' ->
  adds2 (for_ n body) t t' (rsum n d).
Proof.
  intros H <- <- s Hs.
  destruct (for_inv (fun k (st : S * T) => snd st = ix k /\ ok (fst st) /\ L (fst st) = L s + rsum k d)
              body n (s, ix 0%nat)) as (st & E & T1 & O & V).
  - simpl. split; auto. split; auto. ring.
  - intros i [s1 t1] Hi (T1 & O1 & V1). simpl in T1, O1, V1. subst t1.
    destruct (H i Hi s1 O1) as (s2 & E2 & O2 & V2).
    exists (s2, ix (Datatypes.S i)). split; auto. simpl. split; auto. split; auto. rewrite V2, V1. simpl. ring.
  - destruct st as [s' t']. simpl in *. subst t'. exists s'. auto.
Qed.

Lemma adds2_adds {T} (f : S * T -> res (S * T)) t t' d : adds2 f t t' d ->
  adds (fun s => ' (s', _) <- f (s, t) ;; Ok s') d.
Proof. intros H s Hs. destruct (H s Hs) as (s' & E & O & V). exists s'. rewrite E. auto. Qed.

Lemma adds_seq f g d d' : adds f d -> adds g d' -> adds (fun s => s' <- f s ;; g s') (d + d').
Proof.
  intros F G s Hs. destruct (F s Hs) as (s1 & E1 & O1 & V1). destruct (G s1 O1) as (s2 & E2 & O2 & V2).
  exists s2. rewrite E1. cbn [bind]. split; auto. split; auto. rewrite V2, V1. ring.
Qed.

Lemma adds_eq f d d' : d = d' -> adds f d -> adds f d'.
Proof. now intros ->. Qed.

Lemma adds_id : adds (fun s => Ok s) 0.
Proof. intros s Hs. exists s. split; auto. split; auto. ring. Qed.
End Acc.

(** changing one summand *)
Lemma rsum_change n k (f g : nat -> R) : (k < n)%nat ->
  (forall i, (i < n)%nat -> i <> k -> f i = g i) -> rsum n f = rsum n g + (f k - g k).
Proof.
  intros Hk H. enough (E : rsum n (fun i => f i - g i) = f k - g k) by (rewrite rsum_minus in E; lra).
  apply (rsum_single n k (fun i => f i - g i)); auto. intros i Hi Hn. rewrite H by auto. ring.
Qed.

(** a sum over a window *)
Lemma rsum_window n c0 k (f : nat -> R) : (c0 + k <= n)%nat ->
  rsum n (fun i => if (Nat.leb c0 i && Nat.ltb i (c0 + k))%bool then f (i - c0)%nat else 0) = rsum k f.
Proof.
  intros H. replace n with (c0 + (k + (n - (c0 + k))))%nat by lia. rewrite rsum_app, rsum_app.
  rewrite (rsum_0 c0). 2:{ intros i Hi. destruct (Nat.leb_spec c0 i); simpl; auto; lia. }
  rewrite (rsum_ext k _ f).
  2:{ intros i Hi. destruct (Nat.leb_spec c0 (c0 + i)); [|lia]. destruct (Nat.ltb_spec (c0 + i) (c0 + k)); [|lia].
      simpl. f_equal. lia. }
  rewrite (rsum_0 (n - (c0 + k))); [ring|]. intros i Hi.
  destruct (Nat.ltb_spec (c0 + (k + i)) (c0 + k)); [lia|]. rewrite andb_false_r. auto.
Qed.

(** [m.block(n, c0, 1, k) += row] for a row of size [k] with entries [f] *)
Definition maddblock (m : mat) (n c0 k : nat) (f : nat -> R) : res mat :=
  if (Nat.ltb n (rows m) && Nat.leb (c0 + k) (cols m))%bool
  then Ok (mkMat (rows m) (cols m) (fun a b =>
         at_ m a b + if (Nat.eqb a n && (Nat.leb c0 b && Nat.ltb b (c0 + k)))%bool then f (b - c0)%nat else 0))
  else Abort.
(** [(u.row(r).array() * m.block(n, c0, 1, k).array()).sum()] *)
Definition mdotblock (u : mat) (r : nat) (m : mat) (n c0 k : nat) : res R :=
  if (Nat.ltb r (rows u) && Nat.eqb (cols u) k && Nat.ltb n (rows m) && Nat.leb (c0 + k) (cols m))%bool
  then Ok (rsum k (fun c => at_ u r c * at_ m n (c0 + c)%nat)) else Abort.

(** [u.row(r)] of size [k], and [m.block(n, c0, 1, k)] *)
Definition mrow (u : mat) (r k : nat) : res (nat -> R) :=
  if (Nat.ltb r (rows u) && Nat.eqb (cols u) k)%bool then Ok (fun c => at_ u r c) else Abort.
Definition mrowblock (m : mat) (n c0 k : nat) : res (nat -> R) :=
  if (Nat.ltb n (rows m) && Nat.leb (c0 + k) (cols m))%bool
  then Ok (fun c => at_ m n (c0 + c)%nat) else Abort.

Lemma mrow_Ok u r k ru : size_is u ru k -> (r < ru)%nat -> mrow u r k = Ok (fun c => at_ u r c).
Proof.
  intros (A & B) H. unfold mrow. rewrite A, B, Nat.eqb_refl. destruct (Nat.ltb_spec r ru); [auto|lia].
Qed.
Lemma mrowblock_Ok m n c0 k r c : size_is m r c -> (n < r)%nat -> (c0 + k <= c)%nat ->
  mrowblock m n c0 k = Ok (fun j => at_ m n (c0 + j)%nat).
Proof.
  intros (A & B) H1 H2. unfold mrowblock. rewrite A, B.
  destruct (Nat.ltb_spec n r); [|lia]. destruct (Nat.leb_spec (c0 + k) c); [auto|lia].
Qed.

Lemma maddblock_Ok m n c0 k f r c : size_is m r c -> (n < r)%nat -> (c0 + k <= c)%nat ->
  exists m', maddblock m n c0 k f = Ok m' /\ size_is m' r c /\
  forall x', rsum r (fun a => rsum c (fun b => at_ m' a b * x' a b)) =
    rsum r (fun a => rsum c (fun b => at_ m a b * x' a b)) + rsum k (fun i => f i * x' n (c0 + i)%nat).
Proof.
  intros (A & B) Hn Hc. unfold maddblock. rewrite A, B.
  destruct (Nat.ltb_spec n r); [|lia]. destruct (Nat.leb_spec (c0 + k) c); [|lia]. simpl.
  eexists. split; [reflexivity|]. split; [split; auto|]. intros x'. simpl.
  rewrite (rsum_change r n _ (fun a => rsum c (fun b => at_ m a b * x' a b))); auto.
  - f_equal. rewrite Nat.eqb_refl. simpl.
    rewrite <- rsum_minus. rewrite <- (rsum_window c c0 k (fun i => f i * x' n (c0 + i)%nat)) by auto.
    apply rsum_ext. intros i Hi. destruct (Nat.leb_spec c0 i); simpl; [|ring].
    destruct (Nat.ltb_spec i (c0 + k)); simpl; [|ring].
    replace (c0 + (i - c0))%nat with i by lia. ring.
  - intros a Ha Hna. apply rsum_ext. intros b Hb. destruct (Nat.eqb_spec a n); [lia|]. simpl. ring.
Qed.

Lemma mdotblock_Ok u r m n c0 k ru rm cm : size_is u ru k -> size_is m rm cm -> (r < ru)%nat -> (n < rm)%nat ->
  (c0 + k <= cm)%nat -> mdotblock u r m n c0 k = Ok (rsum k (fun c => at_ u r c * at_ m n (c0 + c)%nat)).
Proof.
  intros (A & B) (C & D) H1 H2 H3. unfold mdotblock. rewrite A, B, C, D, Nat.eqb_refl.
  destruct (Nat.ltb_spec r ru); [|lia]. destruct (Nat.ltb_spec n rm); [|lia].
  destruct (Nat.leb_spec (c0 + k) cm); [|lia]. auto.
Qed.

(** * std::vector<std::vector<Eigen::MatrixXd>> *)
Definition tget {A} (W : list (list A)) (o i : nat) : res A := r <- vget W o ;; vget r i.
Definition tset {A} (W : list (list A)) (o i : nat) (m : A) : res (list (list A)) :=
  r <- vget W o ;; r <- vset r i m ;; vset W o r.

Definition no_mat : mat := mkMat 0 0 (fun _ _ => 0).
(** element (o, i) of a vector of vectors whose size is known *)
Definition tat (W : list (list mat)) (o i : nat) : mat := nth i (nth o W []) no_mat.

Definition tsize (W : list (list mat)) (O I r c : nat) : Prop :=
  length W = O /\ forall o, (o < O)%nat -> length (nth o W []) = I /\
    forall i, (i < I)%nat -> size_is (tat W o i) r c.

Lemma tget_Ok W O I r c o i : tsize W O I r c -> (o < O)%nat -> (i < I)%nat ->
  tget W o i = Ok (tat W o i) /\ size_is (tat W o i) r c.
Proof.
  intros (H1 & H2) Ho Hi. destruct (H2 o Ho) as (H3 & H4). split; [|auto].
  unfold tget. rewrite (vget_nth W o []) by lia. cbn [bind]. unfold tat. apply vget_nth. lia.
Qed.

Lemma nth_updA {A} (l : list A) i j a d : (i < length l)%nat ->
  nth j (upd l i a) d = if Nat.eqb i j then a else nth j l d.
Proof.
  revert i j. induction l as [|x l IH]; intros i j H; simpl in H; [lia|].
  destruct i, j; simpl; auto. apply IH. lia.
Qed.

Lemma tset_Ok W O I r c o i m : tsize W O I r c -> (o < O)%nat -> (i < I)%nat -> size_is m r c ->
  exists W', tset W o i m = Ok W' /\ tsize W' O I r c /\ tat W' o i = m /\
    forall o' i', (o' <> o \/ i' <> i) -> tat W' o' i' = tat W o' i'.
Proof.
  intros (H1 & H2) Ho Hi Hm. destruct (H2 o Ho) as (H3 & H4).
  unfold tset. rewrite (vget_nth W o []) by lia. cbn [bind]. rewrite vset_Ok by lia. cbn [bind].
  rewrite vset_Ok by lia.
  assert (V : forall o' i', tat (upd W o (upd (nth o W []) i m)) o' i' =
     if (Nat.eqb o o' && Nat.eqb i i')%bool then m else tat W o' i').
  { intros o' i'. unfold tat. rewrite nth_updA by lia. destruct (Nat.eqb_spec o o') as [<-|]; simpl; auto.
    now rewrite nth_updA by lia. }
  eexists. split; [reflexivity|]. split; [|split].
  - split; [now rewrite upd_length|]. intros o' Ho'. split.
    + rewrite nth_updA by lia. destruct (Nat.eqb_spec o o') as [<-|]; [rewrite upd_length; auto|]. now apply H2.
    + intros i' Hi'. rewrite V. destruct (Nat.eqb o o' && Nat.eqb i i')%bool; auto. now apply H2.
  - rewrite V, !Nat.eqb_refl. auto.
  - intros o' i' Hn. rewrite V. destruct (Nat.eqb_spec o o'), (Nat.eqb_spec i i'); simpl; auto. lia.
Qed.

(** [Wd[o][i].setZero()] and so on for all elements *)
Lemma nth_map_seq {A} (f : nat -> A) n k d : (k < n)%nat -> nth k (map f (seq 0 n)) d = f k.
Proof.
  intros H. rewrite (nth_indep _ d (f 0%nat)) by (now rewrite map_length, seq_length).
  rewrite map_nth, seq_nth by auto. reflexivity.
Qed.
Lemma tsize_map O I (f : nat -> nat -> mat) r c : (forall o i, size_is (f o i) r c) ->
  tsize (map (fun o => map (f o) (seq 0 I)) (seq 0 O)) O I r c.
Proof.
  intros H. split; [now rewrite map_length, seq_length|]. intros o Ho. unfold tat.
  rewrite nth_map_seq by auto. split; [now rewrite map_length, seq_length|]. intros i Hi.
  rewrite nth_map_seq by auto. auto.
Qed.

(** a loop over all elements that replaces each one *)
Lemma for_tensor W O I r c (body : nat -> nat -> list (list mat) -> res (list (list mat)))
    (new : nat -> nat -> mat -> mat) :
  tsize W O I r c ->
  (forall o i W1, (o < O)%nat -> (i < I)%nat -> tsize W1 O I r c ->
     body o i W1 = tset W1 o i (new o i (tat W1 o i)) /\ size_is (new o i (tat W1 o i)) r c) ->
  exists W', for_ O (fun o W => for_ I (fun i W => body o i W) W) W = Ok W' /\ tsize W' O I r c /\
    forall o i, (o < O)%nat -> (i < I)%nat -> tat W' o i = new o i (tat W o i).
Proof.
  intros HW Hb.
  destruct (for_inv (fun k (W1 : list (list mat)) => tsize W1 O I r c /\
     (forall o i, (o < k)%nat -> (i < I)%nat -> tat W1 o i = new o i (tat W o i)) /\
     (forall o i, (k <= o)%nat -> tat W1 o i = tat W o i))
     (fun o W => for_ I (fun i W => body o i W) W) O W) as (W' & E & S' & V' & _).
  - split; auto. split; auto. intros; lia.
  - intros o W1 Ho (S1 & V1 & V2).
    destruct (for_inv (fun k (W2 : list (list mat)) => tsize W2 O I r c /\
     (forall i, (i < k)%nat -> tat W2 o i = new o i (tat W o i)) /\
     (forall o' i, (o' <> o \/ k <= i)%nat -> tat W2 o' i = tat W1 o' i))
     (fun i W => body o i W) I W1) as (W2 & E2 & S2 & V3 & V4).
    + split; auto. split; auto. intros; lia.
    + intros i W2 Hi (S2 & V3 & V4). destruct (Hb o i W2 Ho Hi S2) as (Eb & Sb).
      destruct (tset_Ok W2 O I r c o i _ S2 Ho Hi Sb) as (W3 & E3 & S3 & T1 & T2).
      exists W3. rewrite Eb, E3. split; auto. split; auto. split.
      * intros i' Hi'. destruct (Nat.eq_dec i' i) as [->|Hn].
        -- rewrite T1. rewrite V4 by lia. rewrite V2 by lia. auto.
        -- rewrite T2 by lia. apply V3. lia.
      * intros o' i' H. rewrite T2 by lia. apply V4. lia.
    + exists W2. split; auto. split; auto. split.
      * intros o' i Ho' Hi. destruct (Nat.eq_dec o' o) as [->|Hn]; [auto|].
        rewrite V4 by auto. apply V1; auto. lia.
      * intros o' i Ho'. rewrite V4 by lia. apply V2. lia.
  - exists W'. split; auto.
Qed.
