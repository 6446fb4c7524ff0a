(** Lemmas about the infrastructure in [Base.v]. *)
From Coq Require Export Lia Lra Permutation.
From Verif Require Export Base.

Lemma bind_Ok {A B} (m : res A) (f : A -> res B) b :
  bind m f = Ok b -> exists a, m = Ok a /\ f a = Ok b.
Proof. destruct m; simpl; intros H; try discriminate. eauto. Qed.

Lemma vget_Ok {A} (l : list A) i : i < length l -> exists a, vget l i = Ok a /\ nth_error l i = Some a.
Proof.
  intros H. unfold vget. destruct (nth_error l i) eqn:E; eauto.
  apply nth_error_None in E. lia.
Qed.

Lemma vget_nth {A} (l : list A) i d : i < length l -> vget l i = Ok (nth i l d).
Proof. intros H. unfold vget. rewrite (nth_error_nth' l d H). reflexivity. Qed.

Lemma vget_Some {A} (l : list A) i a : vget l i = Ok a <-> nth_error l i = Some a.
Proof. unfold vget. destruct (nth_error l i); split; congruence. Qed.

Lemma upd_length {A} (l : list A) i a : length (upd l i a) = length l.
Proof. revert i; induction l as [|x l IH]; intros [|i]; simpl; auto. Qed.

Lemma nth_error_upd {A} (l : list A) i a j :
  nth_error (upd l i a) j =
  if Nat.eqb i j then (if Nat.ltb i (length l) then Some a else None) else nth_error l j.
Proof.
  revert i j; induction l as [|x l IH]; intros [|i] [|j]; simpl; auto.
  - destruct (Nat.eqb i j); auto.
  - rewrite IH. destruct (Nat.eqb i j); auto.
Qed.

Lemma nth_upd {A} (l : list A) i a j d :
  i < length l -> nth j (upd l i a) d = if Nat.eqb i j then a else nth j l d.
Proof.
  revert i j; induction l as [|x l IH]; intros [|i] [|j]; simpl; intros H; auto; try lia.
  apply IH; lia.
Qed.

Lemma vset_Ok {A} (l : list A) i a : i < length l -> vset l i a = Ok (upd l i a).
Proof. intros H. unfold vset. apply Nat.ltb_lt in H. rewrite H. reflexivity. Qed.

(** loop rule *)
Lemma for_from_inv {St} (Inv : nat -> St -> Prop) (body : nat -> St -> res St) n :
  forall from s,
    Inv from s ->
    (forall i s, from <= i < from + n -> Inv i s -> exists s', body i s = Ok s' /\ Inv (S i) s') ->
    exists s', for_from from n body s = Ok s' /\ Inv (from + n) s'.
Proof.
  induction n as [|n IH]; intros from s H0 Hs; simpl.
  - exists s. rewrite Nat.add_0_r. auto.
  - destruct (Hs from s) as (s1 & E1 & H1); [lia|auto|].
    rewrite E1; simpl.
    destruct (IH (S from) s1 H1) as (s2 & E2 & H2).
    + intros i s' Hi. apply Hs. lia.
    + exists s2. split; auto. replace (from + S n) with (S from + n) by lia. auto.
Qed.

Lemma for_inv {St} (Inv : nat -> St -> Prop) (body : nat -> St -> res St) n s :
  Inv 0 s ->
  (forall i s, i < n -> Inv i s -> exists s', body i s = Ok s' /\ Inv (S i) s') ->
  exists s', for_ n body s = Ok s' /\ Inv n s'.
Proof.
  intros H0 Hs. apply (for_from_inv Inv body n 0 s H0).
  intros i s' Hi. apply Hs. lia.
Qed.

Lemma for_each_inv {A St} (Inv : list A -> St -> Prop) (body : A -> St -> res St) l s :
  Inv [] s ->
  (forall done a rest s, l = done ++ a :: rest -> Inv done s ->
     exists s', body a s = Ok s' /\ Inv (done ++ [a]) s') ->
  exists s', for_each l body s = Ok s' /\ Inv l s'.
Proof.
  intros H0 Hs.
  assert (G : forall rest done s, l = done ++ rest -> Inv done s ->
            exists s', for_each rest body s = Ok s' /\ Inv l s').
  { induction rest as [|a rest IH]; intros done s0 El Hi; simpl.
    - rewrite app_nil_r in El. subst. eauto.
    - destruct (Hs done a rest s0 El Hi) as (s1 & E1 & H1).
      rewrite E1; simpl. apply (IH (done ++ [a])); auto.
      rewrite <- app_assoc. auto. }
  apply (G l [] s); auto.
Qed.

Lemma for_from_app {St} (body : nat -> St -> res St) m : forall n from s,
  for_from from (m + n) body s =
  (s' <- for_from from m body s ;; for_from (from + m) n body s').
Proof.
  induction m as [|m IH]; intros n from s; simpl.
  - rewrite Nat.add_0_r. reflexivity.
  - destruct (body from s) as [s1| | | |]; simpl; auto.
    rewrite IH. replace (S from + m) with (from + S m) by lia. reflexivity.
Qed.

Lemma for_S {St} (body : nat -> St -> res St) n s :
  for_ (S n) body s = (s' <- for_ n body s ;; body n s').
Proof.
  unfold for_. rewrite <- Nat.add_1_r, for_from_app. simpl.
  destruct (for_from 0 n body s) as [s1| | | |]; simpl; auto.
  destruct (body n s1); auto.
Qed.

Lemma for_from_ext {St} (b1 b2 : nat -> St -> res St) n : forall from s,
  (forall i s, from <= i < from + n -> b1 i s = b2 i s) ->
  for_from from n b1 s = for_from from n b2 s.
Proof.
  induction n as [|n IH]; intros from s H; simpl; auto.
  rewrite H by lia. destruct (b2 from s); simpl; auto.
  apply IH. intros i s' Hi. apply H. lia.
Qed.

(** integer parts *)
Lemma Int_part_spec (x : R) (z : Z) : (IZR z <= x < IZR z + 1)%R -> Int_part x = z.
Proof.
  intros [H1 H2]. destruct (base_Int_part x) as [H3 H4].
  assert (IZR (Int_part x) < IZR z + 1)%R by lra.
  assert (IZR z < IZR (Int_part x) + 1)%R by lra.
  rewrite <- plus_IZR in *. apply lt_IZR in H. apply lt_IZR in H0. lia.
Qed.

Lemma Zfloor_bound (x : R) : (IZR (Zfloor x) <= x < IZR (Zfloor x) + 1)%R.
Proof. unfold Zfloor. destruct (base_Int_part x). lra. Qed.

Lemma Zceil_bound (x : R) : (IZR (Zceil x) - 1 < x <= IZR (Zceil x))%R.
Proof. unfold Zceil. rewrite opp_IZR. destruct (base_Int_part (- x)). lra. Qed.

Lemma Zceil_spec (x : R) z : (IZR z - 1 < x <= IZR z)%R -> Zceil x = z.
Proof.
  intros H. unfold Zceil. rewrite (Int_part_spec (-x) (-z)); [lia|].
  rewrite opp_IZR. lra.
Qed.

Lemma Zfloor_half (k : nat) : Zfloor (INR k + /2) = Z.of_nat k.
Proof. apply Int_part_spec. rewrite <- INR_IZR_INZ. lra. Qed.

Lemma Rltb_true x y : Rltb x y = true <-> (x < y)%R.
Proof. unfold Rltb. destruct (Rlt_dec x y); split; congruence || tauto. Qed.
Lemma Rltb_false x y : Rltb x y = false <-> (y <= x)%R.
Proof. unfold Rltb. destruct (Rlt_dec x y); split; intros; try congruence; lra. Qed.
Lemma Rleb_true x y : Rleb x y = true <-> (x <= y)%R.
Proof. unfold Rleb. destruct (Rle_dec x y); split; congruence || tauto. Qed.
Lemma Rleb_false x y : Rleb x y = false <-> (y < x)%R.
Proof. unfold Rleb. destruct (Rle_dec x y); split; intros; try congruence; lra. Qed.
Lemma Reqb_true x y : Reqb x y = true <-> x = y.
Proof. unfold Reqb. destruct (Req_EM_T x y); split; congruence || tauto. Qed.
Lemma Reqb_false x y : Reqb x y = false <-> x <> y.
Proof. unfold Reqb. destruct (Req_EM_T x y); split; congruence || tauto. Qed.

(** list facts *)
Lemma firstn_skipn_add {A} (l : list A) a b :
  firstn (a + b) l = firstn a l ++ firstn b (skipn a l).
Proof.
  revert l; induction a as [|a IH]; intros l; simpl; auto.
  destruct l; simpl; auto. - now rewrite firstn_nil. - now rewrite IH.
Qed.

Lemma Permutation_seq_NoDup l n : Permutation l (seq 0 n) -> NoDup l.
Proof. intros H. apply (Permutation_NoDup (Permutation_sym H)). apply seq_NoDup. Qed.

Lemma map_nth_seq {A} (l : list A) d : map (fun i => nth i l d) (seq 0 (length l)) = l.
Proof.
  apply nth_ext with (d := d) (d' := d).
  - now rewrite map_length, seq_length.
  - intros i Hi. rewrite map_length, seq_length in Hi.
    rewrite nth_indep with (d' := nth 0 l d) by now rewrite map_length, seq_length.
    change (nth 0 l d) with ((fun i => nth i l d) 0) at 1.
    rewrite map_nth, seq_nth; auto.
Qed.

Lemma Forall2_length {A B} {P : A -> B -> Prop} l l' : Forall2 P l l' -> length l = length l'.
Proof. induction 1; simpl; auto. Qed.

Lemma Zceil_le (x : R) z : (x <= IZR z)%R -> (Zceil x <= z)%Z.
Proof.
  intros H. pose proof (Zceil_bound x) as [B _].
  assert (L : (IZR (Zceil x) < IZR z + 1)%R) by lra.
  rewrite <- plus_IZR in L. apply lt_IZR in L. lia.
Qed.

Lemma Zceil_nonneg (x : R) : (0 <= x)%R -> (0 <= Zceil x)%Z.
Proof.
  intros H. pose proof (Zceil_bound x) as [_ B].
  assert (L : (0 <= IZR (Zceil x))%R) by lra. apply le_IZR in L. auto.
Qed.

Lemma zidx_Ok z : (0 <= z)%Z -> zidx z = Ok (Z.to_nat z).
Proof. intros H. unfold zidx. destruct (Z.ltb_spec z 0); [lia|reflexivity]. Qed.

Lemma check_true b : b = true -> check b = Ok tt.
Proof. intros ->. reflexivity. Qed.

Lemma skipn_add {A} a b (l : list A) : skipn a (skipn b l) = skipn (b + a) l.
Proof.
  revert a l. induction b as [|b IH]; intros a l; simpl; auto.
  destruct l; auto. now rewrite skipn_nil.
Qed.

Lemma nth_error_lt {A} (l : list A) i : i < length l -> exists a, nth_error l i = Some a.
Proof.
  intros H. destruct (nth_error l i) eqn:E; eauto. apply nth_error_None in E. lia.
Qed.

Lemma for_each_ext {A B} (l : list A) (f g : A -> B -> res B) s :
  (forall a s, f a s = g a s) -> for_each l f s = for_each l g s.
Proof.
  intros H. revert s. induction l as [|a l IH]; intros s; simpl; auto.
  rewrite H. destruct (g a s); simpl; auto.
Qed.

Lemma for_each_app {A B} (l1 l2 : list A) (f : A -> B -> res B) s :
  for_each (l1 ++ l2) f s = (s' <- for_each l1 f s ;; for_each l2 f s').
Proof.
  revert s. induction l1 as [|a l1 IH]; intros s; simpl; auto.
  destruct (f a s); simpl; auto.
Qed.

Lemma Zfloor_IZR z : Zfloor (IZR z) = z.
Proof.
  destruct (Zfloor_bound (IZR z)) as [A B].
  apply le_IZR in A. rewrite <- plus_IZR in B. apply lt_IZR in B. lia.
Qed.

Lemma NoDup_app_l {A} (a b : list A) : NoDup (a ++ b) -> NoDup a.
Proof.
  induction a as [|x a IH]; simpl; intros H; [constructor|].
  inversion H; subst. constructor; auto. intros Hin. apply H2. apply in_or_app. now left.
Qed.

Lemma while_inv {St} (Inv : St -> Prop) (cond : St -> bool) (body : St -> res St) :
  (forall s, Inv s -> cond s = true -> exists s', body s = Ok s' /\ Inv s') ->
  forall fuel s, Inv s ->
  while_ fuel cond body s = Fuel \/
  exists s', while_ fuel cond body s = Ok s' /\ Inv s' /\ cond s' = false.
Proof.
  intros HB. induction fuel as [|fuel IH]; intros s Hs; simpl; destruct (cond s) eqn:E.
  - now left.
  - right. eauto.
  - destruct (HB s Hs E) as (s' & E' & Hs'). rewrite E'. cbn [bind]. auto.
  - right. eauto.
Qed.

Lemma while_total {St} (Inv : St -> Prop) (m : St -> nat) (cond : St -> bool) (body : St -> res St) :
  (forall s, Inv s -> cond s = true -> exists s', body s = Ok s' /\ Inv s' /\ (m s' < m s)%nat) ->
  forall fuel s, Inv s -> (m s <= fuel)%nat ->
  exists s', while_ fuel cond body s = Ok s' /\ Inv s' /\ cond s' = false.
Proof.
  intros HB. induction fuel as [|fuel IH]; intros s Hs Hm; simpl; destruct (cond s) eqn:E; eauto.
  - destruct (HB s Hs E) as (s' & _ & _ & H). lia.
  - destruct (HB s Hs E) as (s' & E' & Hs' & H). rewrite E'. cbn [bind]. apply IH; auto. lia.
Qed.
