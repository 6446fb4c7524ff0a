(** Proofs about packing and file formats. *)
From Verif Require Import BaseFacts Matrix IO_Model IO_Spec.

(** ** pack / unpack *)
Definition total (arrays : list (list R)) : nat := length (concat arrays).

Lemma pack_loop arrays : forall done vec,
  length done + total arrays <= length done + length vec ->
  for_each arrays (fun a s => let '(vec, offset) := s in
      vec' <- memcpy vec offset a ;; Ok (vec', offset + length a)) (done ++ vec, length done) =
  Ok (done ++ concat arrays ++ skipn (total arrays) vec, length done + total arrays).
Proof.
  unfold total. induction arrays as [|a arrays IH]; intros done vec H; simpl in *.
  - rewrite Nat.add_0_r. reflexivity.
  - rewrite app_length in H. unfold memcpy at 1. rewrite app_length.
    rewrite (proj2 (Nat.leb_le _ _)) by lia. simpl.
    rewrite firstn_app, firstn_all, Nat.sub_diag. simpl. rewrite app_nil_r.
    rewrite skipn_app. rewrite skipn_all2 by lia.
    replace (length done + length a - length done) with (length a) by lia. simpl.
    specialize (IH (done ++ a) (skipn (length a) vec)). rewrite !app_length, skipn_length in IH.
    rewrite <- app_assoc in IH. rewrite IH by lia.
    rewrite <- app_assoc, app_length, <- app_assoc. f_equal. f_equal; [|lia]. do 3 f_equal.
    rewrite skipn_add. reflexivity.
Qed.

Lemma pack_ok arrays vec : length (concat arrays) <= length vec ->
  pack vec arrays = Ok (concat arrays ++ skipn (length (concat arrays)) vec).
Proof.
  intros H. unfold pack. pose proof (pack_loop arrays [] vec) as P. simpl in P.
  rewrite P by auto. reflexivity.
Qed.

Lemma pack_too_small arrays vec : length vec < length (concat arrays) -> pack vec arrays = UB.
Proof.
  intros H. unfold pack.
  assert (G : forall arrays done vec, length vec < length (concat arrays) ->
    for_each arrays (fun a s => let '(vec, offset) := s in
      vec' <- memcpy vec offset a ;; Ok (vec', offset + length a)) (done ++ vec, length done) = UB).
  { clear. induction arrays as [|a arrays IH]; intros done vec H; simpl in *; [lia|].
    rewrite app_length in H. unfold memcpy at 1. rewrite app_length.
    destruct (Nat.leb_spec (length done + length a) (length done + length vec)) as [L|L]; [|reflexivity].
    simpl. rewrite firstn_app, firstn_all, Nat.sub_diag. simpl. rewrite app_nil_r.
    rewrite skipn_app. rewrite skipn_all2 by lia.
    replace (length done + length a - length done) with (length a) by lia. simpl.
    specialize (IH (done ++ a) (skipn (length a) vec)). rewrite !app_length, skipn_length in IH.
    rewrite <- app_assoc in IH. apply IH. lia. }
  specialize (G arrays [] vec H). simpl in G. now rewrite G.
Qed.

Lemma unpack_loop olds : forall arrays pre out rest V,
  Forall2 (fun (o a : list R) => length o = length a) olds arrays ->
  V = pre ++ concat arrays ++ rest ->
  for_each olds (fun a s => let '(out, offset) := s in
      a' <- (if Nat.leb (offset + length a) (length V)
             then Ok (firstn (length a) (skipn offset V)) else UB) ;;
      Ok (out ++ [a'], offset + length a)) (out, length pre) =
  Ok (out ++ arrays, length pre + length (concat arrays)).
Proof.
  induction olds as [|o olds IH]; intros arrays pre out rest V F HV; inversion F as [|o' a os as' Hl F']; subst; simpl.
  - now rewrite app_nil_r, Nat.add_0_r.
  - rewrite !app_length. rewrite (proj2 (Nat.leb_le _ _)) by lia. cbn [bind].
    rewrite skipn_app, skipn_all2, Nat.sub_diag by lia. simpl.
    rewrite <- app_assoc, firstn_app. rewrite Hl, firstn_all, Nat.sub_diag. simpl. rewrite app_nil_r.
    specialize (IH as' (pre ++ a) (out ++ [a]) rest (pre ++ a ++ concat as' ++ rest) F').
    assert (L : length (pre ++ a) = length pre + length a) by apply app_length.
    rewrite L in IH.
    etransitivity; [|etransitivity; [apply IH; now rewrite <- app_assoc|]].
    + apply for_each_ext. intros x [o1 n1]. rewrite !app_length, <- !Nat.add_assoc. reflexivity.
    + rewrite <- app_assoc. simpl. f_equal. f_equal. lia.
Qed.

Lemma unpack_ok olds arrays rest :
  Forall2 (fun (o a : list R) => length o = length a) olds arrays ->
  unpack (concat arrays ++ rest) olds = Ok arrays.
Proof.
  intros F. unfold unpack. pose proof (unpack_loop olds arrays [] [] rest _ F eq_refl) as P. simpl in P.
  rewrite P. reflexivity.
Qed.

(** ** FANN *)
Section FANN.
Variable prt : R -> R.

Definition rowToks (m : mat) (n : nat) : list token :=
  map (fun j => TReal (prt (at_ m n j))) (seq 0 (cols m)).

Lemma printRow_ok m n : n < rows m -> printRow prt m n = Ok (rowToks m n).
Proof.
  intros H. unfold printRow, rowToks.
  destruct (for_inv (fun j s => s = map (fun j => TReal (prt (at_ m n j))) (seq 0 j))
    (fun j s => x <- mget m n j ;; Ok (s ++ [TReal (prt x)])) (cols m) []) as (s & E & ->); auto.
  intros j s Hj ->. rewrite mget_Ok by auto. cbn [bind]. eexists. split; [reflexivity|].
  rewrite seq_S, map_app. reflexivity.
Qed.

Lemma fannSave_ok inp out : rows inp = rows out ->
  fannSave prt inp out = Ok ([TInt (rows inp); TInt (cols inp); TInt (cols out)] ++
    flat_map (fun n => rowToks inp n ++ rowToks out n) (seq 0 (rows inp))).
Proof.
  intros H. unfold fannSave. rewrite H, Nat.eqb_refl. simpl check. cbn [bind]. rewrite <- H.
  destruct (for_inv (fun n s => s = [TInt (rows inp); TInt (cols inp); TInt (cols out)] ++
     flat_map (fun n => rowToks inp n ++ rowToks out n) (seq 0 n))
    (fun n s => r1 <- printRow prt inp n ;; r2 <- printRow prt out n ;; Ok (s ++ r1 ++ r2))
    (rows inp) [TInt (rows inp); TInt (cols inp); TInt (cols out)]) as (s & E & Hs); auto.
  - intros n s Hn ->. rewrite !printRow_ok by lia. cbn [bind]. eexists. split; [reflexivity|].
    rewrite seq_S, flat_map_app. simpl. now rewrite !app_nil_r.
  - now rewrite E, Hs.
Qed.

(** reading a row *)
Lemma readRow_ok (f : nat -> R) n m rest : n < rows m ->
  exists m', for_ (cols m) (fun d st => let '(m, s) := st in
      ' (x, s) <- readReal s ;; m <- mset m n d x ;; Ok (m, s))
      (m, map (fun j => TReal (f j)) (seq 0 (cols m)) ++ rest) = Ok (m', rest) /\
    rows m' = rows m /\ cols m' = cols m /\
    forall i j, at_ m' i j = if (Nat.eqb i n && Nat.ltb j (cols m))%bool then f j else at_ m i j.
Proof.
  intros Hn.
  destruct (for_inv (fun d (st : mat * list token) => rows (fst st) = rows m /\ cols (fst st) = cols m /\
      snd st = map (fun j => TReal (f j)) (seq d (cols m - d)) ++ rest /\
      forall i j, at_ (fst st) i j = if (Nat.eqb i n && Nat.ltb j d)%bool then f j else at_ m i j)
    (fun d st => let '(m, s) := st in
      ' (x, s) <- readReal s ;; m <- mset m n d x ;; Ok (m, s)) (cols m)
      (m, map (fun j => TReal (f j)) (seq 0 (cols m)) ++ rest)) as ([m' s] & E & R1 & R2 & R3 & R4).
  - simpl. rewrite Nat.sub_0_r. repeat split; auto. intros. now rewrite andb_false_r.
  - intros d [m1 s] Hd (R1 & R2 & R3 & R4). simpl in *. subst s.
    replace (cols m - d) with (S (cols m - S d)) by lia. simpl.
    rewrite mset_Ok by lia. simpl. eexists. split; [reflexivity|]. simpl. repeat split; auto.
    intros i j. rewrite R4.
    destruct (Nat.eqb_spec i n) as [->|]; simpl; auto.
    destruct (Nat.eqb_spec j d) as [->|Nj].
    + assert (X : d <? S d = true) by (apply Nat.ltb_lt; lia). now rewrite X.
    + destruct (Nat.ltb_spec j d), (Nat.ltb_spec j (S d)); auto; lia.
  - simpl in *. rewrite Nat.sub_diag in R3. simpl in R3. subst s. exists m'. repeat split; auto.
Qed.

Lemma flat_map_seq_shift {A} (g : nat -> list A) n k :
  flat_map g (seq n (S k)) = g n ++ flat_map g (seq (S n) k).
Proof. reflexivity. Qed.

Lemma fann_roundtrip junk inp out rest : rows inp = rows out ->
  exists s inp' out', fannSave prt inp out = Ok s /\
    fannLoad junk (s ++ rest) = Ok (rows inp, inp', out', rest) /\
    meq inp' (mmap prt inp) /\ meq out' (mmap prt out).
Proof.
  intros H. rewrite fannSave_ok by auto.
  enough (X : exists inp' out', fannLoad junk (([TInt (rows inp); TInt (cols inp); TInt (cols out)] ++
    flat_map (fun n => rowToks inp n ++ rowToks out n) (seq 0 (rows inp))) ++ rest) =
    Ok (rows inp, inp', out', rest) /\ meq inp' (mmap prt inp) /\ meq out' (mmap prt out)).
  { destruct X as (i' & o' & X). eauto. }
  unfold fannLoad. cbn [app readInt bind].
  set (N := rows inp). set (D := cols inp). set (F := cols out).
  set (body := fun n st => let '(inp, out, s) := st in
      ' (inp, s) <- for_ D (fun d st => let '(inp, s) := st in
          ' (x, s) <- readReal s ;; inp <- mset inp n d x ;; Ok (inp, s)) (inp, s) ;;
      ' (out, s) <- for_ F (fun f st => let '(out, s) := st in
          ' (x, s) <- readReal s ;; out <- mset out n f x ;; Ok (out, s)) (out, s) ;;
      Ok (inp, out, s)).
  destruct (for_inv (fun n (st : mat * mat * list token) =>
      let '(i', o', s) := st in
      rows i' = N /\ cols i' = D /\ rows o' = N /\ cols o' = F /\
      s = flat_map (fun n => rowToks inp n ++ rowToks out n) (seq n (N - n)) ++ rest /\
      (forall a b, a < n -> b < D -> at_ i' a b = prt (at_ inp a b)) /\
      (forall a b, a < n -> b < F -> at_ o' a b = prt (at_ out a b)))
    body N (mresize junk N D, mresize junk N F,
            flat_map (fun n => rowToks inp n ++ rowToks out n) (seq 0 N) ++ rest))
    as ([[i' o'] s] & E & I).
  - simpl. rewrite Nat.sub_0_r. repeat split; auto; intros; lia.
  - intros n [[i1 o1] s] Hn (A1 & A2 & A3 & A4 & -> & A6 & A7). unfold body.
    replace (N - n) with (S (N - S n)) by lia. rewrite flat_map_seq_shift.
    rewrite <- !app_assoc. unfold rowToks at 1. fold D. rewrite <- A2.
    destruct (readRow_ok (fun j => prt (at_ inp n j)) n i1
      (rowToks out n ++ flat_map (fun n0 => rowToks inp n0 ++ rowToks out n0) (seq (S n) (N - S n)) ++ rest))
      as (i2 & E2 & B1 & B2 & B3); [lia|]. rewrite E2. cbn [bind].
    unfold rowToks at 1. fold F. rewrite <- A4.
    destruct (readRow_ok (fun j => prt (at_ out n j)) n o1
      (flat_map (fun n0 => rowToks inp n0 ++ rowToks out n0) (seq (S n) (N - S n)) ++ rest))
      as (o2 & E3 & C1 & C2 & C3); [lia|]. rewrite E3. cbn [bind].
    eexists. split; [reflexivity|]. repeat split; try congruence.
    + intros a b Ha Hb. rewrite B3. destruct (Nat.eqb_spec a n) as [->|Na].
      * rewrite A2. rewrite (proj2 (Nat.ltb_lt _ _)) by lia. reflexivity.
      * simpl. apply A6; lia.
    + intros a b Ha Hb. rewrite C3. destruct (Nat.eqb_spec a n) as [->|Na].
      * rewrite A4. rewrite (proj2 (Nat.ltb_lt _ _)) by lia. reflexivity.
      * simpl. apply A7; lia.
  - fold body. rewrite E. destruct I as (I1 & I2 & I3 & I4 & -> & I6 & I7). cbn [bind].
    rewrite Nat.sub_diag. simpl. exists i', o'. split; [reflexivity|]. split.
    + split; [exact I1|]. split; [exact I2|]. intros i j Hi Hj. apply I6; congruence || lia.
    + split; [simpl; unfold N in *; lia|]. split; [exact I4|]. intros i j Hi Hj. apply I7; congruence || lia.
Qed.
End FANN.
