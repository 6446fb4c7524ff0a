(** Proofs about data set views. *)
From Verif Require Import BaseFacts DataSet_Model DataSet_Spec.

Section Proofs.
Context {V : Type}.
Implicit Types (h : heap V) (rows : list (V * V)).

(** the rows of [l] at the positions [idx] *)
Definition pick (l : list (V * V)) (idx : list nat) l' : Prop :=
  Forall2 (fun j r => nth_error l j = Some r) idx l'.

Lemma pick_exists l idx : Forall (fun j => j < length l) idx -> exists l', pick l idx l'.
Proof.
  induction 1 as [|j idx Hj H [l' IH]].
  - exists []. constructor.
  - destruct (nth_error l j) as [r|] eqn:E.
    + exists (r :: l'). constructor; auto.
    + apply nth_error_None in E. lia.
Qed.

Lemma pick_range l idx l' : pick l idx l' -> Forall (fun j => j < length l) idx.
Proof.
  induction 1 as [|j r idx l' Hj H IH]; constructor; auto.
  apply nth_error_Some. congruence.
Qed.

Lemma pick_length l idx l' : pick l idx l' -> length l' = length idx.
Proof. intros H. symmetry. eapply Forall2_length; eauto. Qed.

Lemma pick_fun l idx l1 l2 : pick l idx l1 -> pick l idx l2 -> l1 = l2.
Proof.
  intros H. revert l2. induction H as [|j r idx l' Hj H IH]; intros l2 H2; inversion H2; subst; auto.
  f_equal; [congruence|auto].
Qed.

Lemma pick_app l i1 i2 l1 l2 : pick l i1 l1 -> pick l i2 l2 -> pick l (i1 ++ i2) (l1 ++ l2).
Proof. intros. apply Forall2_app; auto. Qed.

Lemma pick_incl l idx l' : pick l idx l' -> incl l' l.
Proof.
  induction 1 as [|j r idx l' Hj H IH]; intros x Hx; destruct Hx.
  - subst. eapply nth_error_In; eauto.
  - auto.
Qed.

Lemma pick_seq_gen l : forall l0, pick (l0 ++ l) (seq (length l0) (length l)) l.
Proof.
  induction l as [|x l IH]; intros l0; simpl; constructor.
  - rewrite nth_error_app2, Nat.sub_diag; auto.
  - specialize (IH (l0 ++ [x])). rewrite app_length in IH. simpl in IH.
    rewrite <- app_assoc in IH. simpl in IH. rewrite Nat.add_1_r in IH. auto.
Qed.

Lemma pick_seq l : pick l (seq 0 (length l)) l.
Proof. exact (pick_seq_gen l []). Qed.

Lemma pick_perm l i1 i2 l1 : Permutation i1 i2 -> pick l i1 l1 ->
  exists l2, pick l i2 l2 /\ Permutation l1 l2.
Proof.
  intros P. revert l1. induction P as [|x i1 i2 P IH|x y i|i1 i2 i3 P1 IH1 P2 IH2]; intros l1 H.
  - inversion H; subst. exists []. split; constructor.
  - inversion H as [|a b c d Hx Ht]; subst. destruct (IH _ Ht) as (l2 & Hp & Hq).
    exists (b :: l2). split; constructor; auto.
  - inversion H as [|a b c d Hx Ht]; subst. inversion Ht as [|a' b' c' d' Hy Ht']; subst.
    exists (b' :: b :: d'). split.
    + repeat (constructor; auto).
    + apply perm_swap.
  - destruct (IH1 _ H) as (l2 & H2 & Q2). destruct (IH2 _ H2) as (l3 & H3 & Q3).
    exists l3. split; auto. eapply Permutation_trans; eauto.
Qed.

Lemma pick_nth l idx l' i : pick l idx l' -> forall r, nth_error l' i = Some r ->
  exists j, nth_error idx i = Some j /\ nth_error l j = Some r.
Proof.
  intros H. revert i. induction H as [|j r idx l' Hj H IH]; intros i r' Hr.
  - destruct i; discriminate.
  - destruct i; simpl in *.
    + inversion Hr; subst. eauto.
    + auto.
Qed.

Lemma lists_fun h a l1 l2 : lists h a l1 -> lists h a l2 -> l1 = l2.
Proof.
  intros [S1 R1] [S2 R2]. assert (L : length l1 = length l2) by congruence.
  clear S1 S2. revert l2 L R1 R2.
  assert (G : forall l1 l2 : list (V * V), length l1 = length l2 ->
     (forall i r1 r2, nth_error l1 i = Some r1 -> nth_error l2 i = Some r2 -> r1 = r2) -> l1 = l2).
  { clear. induction l1 as [|x l1 IH]; intros [|y l2] L H; simpl in L; try discriminate; auto.
    f_equal. - apply (H 0); auto. - apply IH; auto. intros i r1 r2 A B. apply (H (S i)); auto. }
  intros l2 L R1 R2. apply G; auto. intros i r1 r2 A B.
  destruct (R1 _ _ A) as [A1 A2]. destruct (R2 _ _ B) as [B1 B2].
  destruct r1, r2; simpl in *; congruence.
Qed.

Lemma read_eq f t h a i :
  read f t h a i =
  (o <- vget h a ;;
   match o with
   | Direct rows => r <- vget rows i ;; Ok (if t then snd r else fst r)
   | View b idx =>
      _ <- check (Nat.ltb i (length idx)) ;;
      j <- vget idx i ;;
      match f with 0 => Fuel | S f => read f t h b j end
   end).
Proof. destruct f; reflexivity. Qed.

Lemma read_fuel f : forall t h a i v k, read f t h a i = Ok v -> read (f + k) t h a i = Ok v.
Proof.
  induction f as [|f IH]; intros t h a i v k H; rewrite read_eq in H; rewrite read_eq;
    destruct (vget h a) as [o| | | |]; simpl in *; try discriminate;
    (destruct o as [rows|b idx]; [exact H|]);
    destruct (check (i <? length idx)); simpl in *; try discriminate;
    destruct (vget idx i); simpl in *; try discriminate; auto.
Qed.

Lemma read_fuel_le f f' t h a i v : f <= f' -> read f t h a i = Ok v -> read f' t h a i = Ok v.
Proof. intros L H. replace f' with (f + (f' - f)) by lia. now apply read_fuel. Qed.

Lemma lists_view h a b idx l l' :
  nth_error h a = Some (View b idx) -> b < a -> lists h b l -> pick l idx l' -> lists h a l'.
Proof.
  intros Ha Lt [HS R] P. split.
  - unfold samples, vget. rewrite Ha. simpl. now rewrite (pick_length _ _ _ P).
  - intros i r Hi. destruct (pick_nth _ _ _ _ P _ Hi) as (j & Hj & Hr).
    assert (Li : i < length idx) by (apply nth_error_Some; congruence).
    destruct (R _ _ Hr) as [R1 R2].
    assert (C : check (i <? length idx) = Ok tt).
    { apply Nat.ltb_lt in Li. unfold check. now rewrite Li. }
    unfold getInstance, getTarget in *.
    split.
    + simpl. unfold vget at 1. rewrite Ha. simpl.
      rewrite C. simpl. unfold vget. rewrite Hj. simpl. apply (read_fuel_le (S b)); auto.
    + simpl. unfold vget at 1. rewrite Ha. simpl.
      rewrite C. simpl. unfold vget. rewrite Hj. simpl. apply (read_fuel_le (S b)); auto.
Qed.

Lemma lists_direct h a rows : nth_error h a = Some (Direct rows) -> lists h a rows.
Proof.
  intros H. split.
  - unfold samples, vget. now rewrite H.
  - intros i r Hr. unfold getInstance, getTarget. simpl. unfold vget.
    rewrite H. simpl. rewrite Hr. simpl. auto.
Qed.

(** heap extension *)
Lemma vget_app {A} (l l' : list A) i a : vget l i = Ok a -> vget (l ++ l') i = Ok a.
Proof.
  rewrite !vget_Some. intros H. rewrite nth_error_app1; auto.
  apply nth_error_Some. congruence.
Qed.

Lemma read_app f : forall t h h' a i v, read f t h a i = Ok v -> read f t (h ++ h') a i = Ok v.
Proof.
  induction f as [|f IH]; intros t h h' a i v H; simpl in *;
    destruct (vget h a) as [o| | | |] eqn:E; simpl in H; try discriminate;
    rewrite (vget_app _ h' _ _ E); simpl;
    destruct o as [rows|b idx]; auto;
    destruct (check (i <? length idx)); simpl in *; try discriminate;
    destruct (vget idx i); simpl in *; try discriminate; auto.
Qed.

Lemma samples_app h h' a n : samples h a = Ok n -> samples (h ++ h') a = Ok n.
Proof.
  unfold samples. destruct (vget h a) eqn:E; simpl; try discriminate.
  intros H. rewrite (vget_app _ h' _ _ E). exact H.
Qed.

Lemma lists_app h h' a l : lists h a l -> lists (h ++ h') a l.
Proof.
  intros [S R]. split; [now apply samples_app|].
  intros i r Hr. destruct (R i r Hr). split; apply read_app; auto.
Qed.

Lemma samples_lt h a n : samples h a = Ok n -> a < length h.
Proof.
  unfold samples, vget. intros H. apply nth_error_Some. destruct (nth_error h a); simpl in *; congruence.
Qed.

Lemma lists_lt h a l : lists h a l -> a < length h.
Proof. intros [S _]. eapply samples_lt; eauto. Qed.

(** well-formed memory *)
Definition view_ok h a b (idx : list nat) : Prop :=
  b < a /\ exists n, samples h b = Ok n /\ Forall (fun j => j < n) idx.

Definition wf h : Prop := forall a b idx, nth_error h a = Some (View b idx) -> view_ok h a b idx.

Lemma wf_lists h : wf h -> forall a, a < length h ->
  exists root rows l, nth_error h root = Some (Direct rows) /\ lists h a l /\ incl l rows.
Proof.
  intros W a. induction a as [a IH] using lt_wf_ind. intros La.
  destruct (nth_error h a) as [o|] eqn:E; [|apply nth_error_None in E; lia].
  destruct o as [rows|b idx].
  - exists a, rows, rows. split; [|split]; auto using lists_direct, incl_refl.
  - destruct (W _ _ _ E) as (Lb & n & Sn & F).
    destruct (IH b Lb) as (root & rows & l & H1 & H2 & H3); [lia|].
    assert (length l = n) by (destruct H2; congruence).
    destruct (pick_exists l idx) as [l' P]; [subst; auto|].
    exists root, rows, l'. split; [|split]; auto.
    + eapply lists_view; eauto.
    + eapply incl_tran; [eapply pick_incl|]; eauto.
Qed.

(** appending views with valid indices keeps memory well formed *)
Definition good_view h (o : obj V) : Prop :=
  exists b idx n, o = View b idx /\ samples h b = Ok n /\ Forall (fun j => j < n) idx.

Lemma wf_extend h vs : wf h -> Forall (good_view h) vs -> wf (h ++ vs).
Proof.
  intros W F a b idx Ha.
  destruct (Nat.lt_ge_cases a (length h)) as [L|L].
  - rewrite nth_error_app1 in Ha by auto. destruct (W _ _ _ Ha) as (Lb & n & Sn & Fi).
    split; auto. exists n. split; auto using samples_app.
  - rewrite nth_error_app2 in Ha by auto. apply nth_error_In in Ha.
    rewrite Forall_forall in F. destruct (F _ Ha) as (b' & idx' & n & E & Sn & Fi).
    inversion E; subst. split.
    + apply samples_lt in Sn. lia.
    + exists n. split; auto using samples_app.
Qed.

(** creating index lists *)
Lemma fillIndices_spec n : forall l : list nat, fillIndices n l = Ok (l ++ seq 0 n).
Proof.
  intros l. unfold fillIndices.
  destruct (for_inv (fun i l' => l' = l ++ seq 0 i) (fun i l => Ok (l ++ [i])) n l) as (s & E & H).
  - simpl. now rewrite app_nil_r.
  - intros i s Hi ->. eexists; split; [reflexivity|].
    rewrite seq_S. simpl. now rewrite app_assoc.
  - now rewrite E, H.
Qed.

Lemma mkView_Ok ds indices b e : b <= e -> e <= length indices ->
  mkView ds indices b e = Ok (View ds (firstn (e - b) (skipn b indices)) : obj V).
Proof.
  intros H1 H2. unfold mkView.
  apply Nat.leb_le in H1. apply Nat.leb_le in H2. now rewrite H1, H2.
Qed.

Definition idx_of (o : obj V) : list nat := match o with View _ i => i | Direct _ => [] end.

(** what splitGroups creates, in terms of indices *)
Lemma splitGroups_idx h ds n (sh : bool) (shuf : list nat -> list nat) groups N :
  samples h ds = Ok N -> 1 < n -> (forall l, Permutation l (shuf l)) ->
  let indices := if sh then shuf (seq 0 N) else seq 0 N in
  exists vs, splitGroups h ds n sh shuf groups = Ok (groups ++ vs) /\
    length vs = n /\ concat (map idx_of vs) = indices /\
    (forall o, In o vs -> exists idx, o = View ds idx) /\
    (forall k, k < n - 1 -> exists idx, nth_error vs k = Some (View ds idx) /\ length idx = N / n).
Proof.
  intros HS Hn Hsh indices. unfold splitGroups.
  assert (C : check (1 <? n) = Ok tt) by (apply Nat.ltb_lt in Hn; unfold check; now rewrite Hn).
  rewrite C. simpl. rewrite HS. simpl. rewrite fillIndices_spec. simpl.
  rewrite Zfloor_half. unfold zidx.
  destruct (Z.ltb_spec (Z.of_nat (N / n)) 0) as [Hneg|_]; [lia|]. simpl. rewrite Nat2Z.id.
  fold indices.
  assert (Ll : length indices = N).
  { unfold indices. destruct sh.
    - rewrite <- (Permutation_length (Hsh _)). apply seq_length.
    - apply seq_length. }
  set (spg := N / n). assert (Hspg : n * spg <= N) by (apply Nat.mul_div_le; lia).
  destruct (for_inv (fun i g => exists vs, g = groups ++ vs /\ length vs = i /\
     concat (map idx_of vs) = (if Nat.ltb i n then firstn (i * spg) indices else indices) /\
     (forall o, In o vs -> exists idx, o = View ds idx) /\
     (forall k, k < n - 1 -> k < i -> exists idx, nth_error vs k = Some (View ds idx) /\ length idx = spg))
     (fun (i : nat) (groups : list (obj V)) =>
     v <- (if i <? n - 1 then mkView ds indices (i * spg) (i * spg + spg)
           else mkView ds indices (i * spg) (length indices));; Ok (groups ++ [v])) n groups)
     as (g & E & H).
  - exists []. rewrite app_nil_r. simpl.
    assert (E : (0 <? n) = true) by (apply Nat.ltb_lt; lia). rewrite E. repeat split; auto.
    + intros o [].
    + intros; lia.
  - intros i g Hi (vs & -> & Lvs & Hc & Hv & Hk).
    assert (E : (i <? n) = true) by (apply Nat.ltb_lt; lia). rewrite E in Hc. clear E.
    destruct (Nat.ltb_spec i (n - 1)) as [Hl|Hl].
    + assert (i * spg + spg <= N) by nia.
      rewrite mkView_Ok by lia. simpl. eexists; split; [reflexivity|].
      exists (vs ++ [View ds (firstn (i * spg + spg - i * spg) (skipn (i * spg) indices))]).
      replace (i * spg + spg - i * spg) with spg by lia.
      rewrite app_assoc. split; auto. rewrite app_length, map_app, concat_app, Hc. simpl.
      split; [lia|]. split.
      * assert (E : (S i <? n) = true) by (apply Nat.ltb_lt; lia). rewrite E, app_nil_r.
        rewrite (Nat.add_comm spg). now rewrite firstn_skipn_add.
      * split.
        -- intros o Ho. apply in_app_iff in Ho. destruct Ho as [Ho|[<-|[]]]; eauto.
        -- intros k Hk1 Hk2. destruct (Nat.eq_dec k i) as [->|Ne].
           ++ rewrite nth_error_app2, Lvs, Nat.sub_diag by lia. eexists. split; [reflexivity|].
              rewrite firstn_length, skipn_length. lia.
           ++ rewrite nth_error_app1 by lia. apply Hk; lia.
    + assert (i = n - 1) by lia. assert (i * spg <= N) by nia.
      rewrite mkView_Ok by lia. simpl. eexists; split; [reflexivity|].
      exists (vs ++ [View ds (firstn (length indices - i * spg) (skipn (i * spg) indices))]). rewrite app_assoc. split; [reflexivity|].
      rewrite app_length, map_app, concat_app, Hc. simpl. split; [lia|]. split.
      * assert (E : (S i <? n) = false) by (apply Nat.ltb_ge; lia). rewrite E, app_nil_r.
        rewrite firstn_all2 with (n := length indices - i * spg) by (rewrite skipn_length; lia).
        apply firstn_skipn.
      * split.
        -- intros o Ho. apply in_app_iff in Ho. destruct Ho as [Ho|[<-|[]]]; eauto.
        -- intros k Hk1 Hk2. rewrite nth_error_app1 by lia. apply Hk; lia.
  - destruct H as (vs & -> & Lvs & Hc & Hv & Hk). exists vs. rewrite Nat.ltb_irrefl in Hc.
    repeat split; auto. intros k Hk1. apply Hk; lia.
Qed.

Lemma splitRatio_idx h ds r (sh : bool) (shuf : list nat -> list nat) groups N :
  samples h ds = Ok N -> (0 <= r <= 1)%R -> (forall l, Permutation l (shuf l)) ->
  let indices := if sh then shuf (seq 0 N) else seq 0 N in
  exists k, (IZR (Z.of_nat k) - 1 < r * INR N <= IZR (Z.of_nat k))%R /\ k <= N /\
    splitRatio h ds r sh shuf groups =
      Ok (groups ++ [View ds (firstn k indices); View ds (skipn k indices)]).
Proof.
  intros HS Hr Hsh indices. unfold splitRatio.
  assert (C : check (Rleb 0 r && Rleb r 1) = Ok tt).
  { unfold check. assert (A : Rleb 0 r = true) by (apply Rleb_true; lra).
    assert (B : Rleb r 1 = true) by (apply Rleb_true; lra). now rewrite A, B. }
  rewrite C. simpl. rewrite HS. simpl. rewrite fillIndices_spec. simpl. fold indices.
  assert (Ll : length indices = N).
  { unfold indices. destruct sh.
    - rewrite <- (Permutation_length (Hsh _)). apply seq_length.
    - apply seq_length. }
  pose proof (Zceil_bound (r * INR N)) as B.
  pose proof (pos_INR N) as PN.
  assert (Z0 : (0 <= Zceil (r * INR N))%Z) by (apply Zceil_nonneg; nra).
  assert (ZN : (Zceil (r * INR N) <= Z.of_nat N)%Z).
  { apply Zceil_le. rewrite <- INR_IZR_INZ. nra. }
  exists (Z.to_nat (Zceil (r * INR N))). rewrite Z2Nat.id by auto. split; auto. split; [lia|].
  unfold zidx. destruct (Z.ltb_spec (Zceil (r * INR N)) 0); [lia|]. simpl.
  set (k := Z.to_nat (Zceil (r * INR N))). assert (Hk : k <= N) by lia. clearbody k.
  rewrite (mkView_Ok ds indices 0 k) by lia. simpl. rewrite mkView_Ok by lia. simpl. rewrite Nat.sub_0_r.
  rewrite firstn_all2 with (n := length indices - k) by (rewrite skipn_length; lia).
  reflexivity.
Qed.

(** reading the views that were appended *)
Lemma lists_new h ds l idx l' vs k :
  lists h ds l -> nth_error vs k = Some (View ds idx) -> pick l idx l' ->
  lists (h ++ vs) (length h + k) l'.
Proof.
  intros L H P. apply (lists_view _ _ ds idx l); auto.
  - rewrite nth_error_app2 by lia. replace (length h + k - length h) with k by lia. auto.
  - pose proof (lists_lt _ _ _ L). lia.
  - now apply lists_app.
Qed.

Lemma pick_concat l : forall idxs l', pick l (concat idxs) l' ->
  exists parts, Forall2 (pick l) idxs parts /\ concat parts = l'.
Proof.
  induction idxs as [|i idxs IH]; intros l' P; simpl in *.
  - inversion P; subst. exists []. split; constructor.
  - apply Forall2_app_inv_l in P. destruct P as (l1 & l2 & P1 & P2 & ->).
    destruct (IH _ P2) as (parts & F & E). exists (l1 :: parts). split; [constructor; auto|].
    simpl. now rewrite E.
Qed.

Lemma indices_pick l (sh : bool) shuf :
  (forall x, Permutation x (shuf x)) ->
  exists l', pick l (if sh then shuf (seq 0 (length l)) else seq 0 (length l)) l' /\
    (if sh then Permutation l' l else l' = l).
Proof.
  intros Hsh. destruct sh.
  - destruct (pick_perm l _ _ l (Hsh (seq 0 (length l))) (pick_seq l)) as (l' & P & Q).
    exists l'. split; auto. now apply Permutation_sym.
  - exists l. split; auto. apply pick_seq.
Qed.

Lemma Forall2_nth {A B} (R : A -> B -> Prop) la lb k a :
  Forall2 R la lb -> nth_error la k = Some a -> exists b, nth_error lb k = Some b /\ R a b.
Proof.
  intros F. revert k. induction F as [|x y la lb HR F IH]; intros [|k] H; simpl in *; try discriminate.
  - inversion H; subst. eauto.
  - eauto.
Qed.

Lemma split_groups_ok h ds n sh shuf l :
  lists h ds l -> 1 < n -> shuffles shuf ->
  exists vs parts,
    splitGroups h ds n sh shuf [] = Ok vs /\ length vs = n /\ length parts = n /\
    (forall k part, nth_error parts k = Some part -> lists (h ++ vs) (length h + k) part) /\
    (if sh then Permutation (concat parts) l else concat parts = l) /\
    (forall k part, k < n - 1 -> nth_error parts k = Some part -> length part = length l / n).
Proof.
  intros L Hn Hsh. pose proof L as [HS _].
  destruct (splitGroups_idx h ds n sh shuf [] _ HS Hn Hsh) as (vs & E & Lv & Hc & Hv & Hk).
  simpl in E.
  destruct (indices_pick l sh shuf Hsh) as (l' & P & Q).
  rewrite <- Hc in P. destruct (pick_concat _ _ _ P) as (parts & F & Ec).
  assert (Lp : length parts = n).
  { rewrite <- (Forall2_length _ _ F), map_length. auto. }
  assert (X : forall k part, nth_error parts k = Some part ->
             exists idx, nth_error vs k = Some (View ds idx) /\ pick l idx part).
  { intros k part Hp. assert (k < length vs) by (rewrite Lv, <- Lp; apply nth_error_Some; congruence).
    destruct (nth_error vs k) as [o|] eqn:Eo; [|apply nth_error_None in Eo; lia].
    destruct (Hv o) as [idx ->]; [eapply nth_error_In; eauto|].
    exists idx. split; auto.
    destruct (Forall2_nth _ _ _ k idx F) as (part' & H1 & H2).
    - rewrite nth_error_map, Eo. reflexivity.
    - congruence. }
  exists vs, parts. split; [exact E|]. split; [exact Lv|]. split; [exact Lp|]. split; [|split].
  - intros k part Hp. destruct (X _ _ Hp) as (idx & H1 & H2).
    exact (lists_new h ds l idx part vs k L H1 H2).
  - subst l'. destruct sh; auto.
  - intros k part Hk1 Hp. destruct (X _ _ Hp) as (idx & H1 & H2).
    destruct (Hk k Hk1) as (idx' & H3 & H4). rewrite H1 in H3. inversion H3; subst.
    now rewrite (pick_length _ _ _ H2).
Qed.

Lemma split_ratio_ok h ds r (sh : bool) shuf l :
  lists h ds l -> (0 <= r <= 1)%R -> shuffles shuf ->
  exists v1 v2 part1 part2,
    splitRatio h ds r sh shuf [] = Ok [v1; v2] /\
    lists (h ++ [v1; v2]) (length h) part1 /\
    lists (h ++ [v1; v2]) (length h + 1) part2 /\
    (if sh then Permutation (part1 ++ part2) l else part1 ++ part2 = l) /\
    (INR (length part1) - 1 < r * INR (length l) <= INR (length part1))%R.
Proof.
  intros L Hr Hsh. pose proof L as [HS _].
  destruct (splitRatio_idx h ds r sh shuf [] _ HS Hr Hsh) as (k & B & Hk & E). simpl in E.
  destruct (indices_pick l sh shuf Hsh) as (l' & P & Q).
  set (indices := if sh then shuf (seq 0 (length l)) else seq 0 (length l)) in *.
  assert (Li : length indices = length l).
  { rewrite <- (pick_length _ _ _ P). destruct sh; [now apply Permutation_length|now subst]. }
  pose proof P as P'. rewrite <- (firstn_skipn k indices) in P'.
  apply Forall2_app_inv_l in P'. destruct P' as (p1 & p2 & P1 & P2 & ->).
  exists (View ds (firstn k indices)), (View ds (skipn k indices)), p1, p2.
  split; [exact E|]. split; [|split; [|split]].
  - rewrite <- (Nat.add_0_r (length h)).
    apply (lists_new h ds l (firstn k indices)); auto.
  - apply (lists_new h ds l (skipn k indices)); auto.
  - destruct sh; auto.
  - rewrite (pick_length _ _ _ P1), firstn_length, Li, Nat.min_l by auto.
    now rewrite INR_IZR_INZ.
Qed.

(** changing the indices of a view *)
Lemma samples_upd h a b idx idx' c n :
  nth_error h a = Some (View b idx) -> length idx <= length idx' ->
  samples h c = Ok n -> exists n', samples (upd h a (View b idx')) c = Ok n' /\ n <= n'.
Proof.
  intros Ha Le. unfold samples, vget. rewrite nth_error_upd.
  destruct (Nat.eqb_spec a c) as [->|Ne].
  - rewrite Ha. simpl. intros E. inversion E; subst.
    assert (La : c <? length h = true) by (apply Nat.ltb_lt, nth_error_Some; congruence).
    rewrite La. simpl. eauto.
  - intros E. destruct (nth_error h c); simpl in *; eauto.
Qed.

Lemma wf_upd h a b idx idx' :
  wf h -> nth_error h a = Some (View b idx) -> length idx <= length idx' ->
  (forall n, samples h b = Ok n -> Forall (fun j => j < n) idx') ->
  wf (upd h a (View b idx')).
Proof.
  intros W Ha Le Hi c d idx0 Hc. rewrite nth_error_upd in Hc.
  destruct (Nat.eqb_spec a c) as [->|Ne].
  - assert (La : c <? length h = true) by (apply Nat.ltb_lt, nth_error_Some; congruence).
    rewrite La in Hc. inversion Hc; subst. destruct (W _ _ _ Ha) as (Lb & n & Sn & F).
    split; auto. destruct (samples_upd _ _ _ _ _ _ _ Ha Le Sn) as (n' & E & Ln).
    exists n'. split; auto. eapply Forall_impl; [|apply (Hi n Sn)]. simpl. intros; lia.
  - destruct (W _ _ _ Hc) as (Lb & n & Sn & F). split; auto.
    destruct (samples_upd _ _ _ _ _ _ _ Ha Le Sn) as (n' & E & Ln).
    exists n'. split; auto. eapply Forall_impl; [|apply F]. simpl. intros; lia.
Qed.

(** reading below a changed view is not affected *)
Lemma read_below h a o : wf h -> forall f c i t, c < a -> read f t (upd h a o) c i = read f t h c i.
Proof.
  intros W f. induction f as [|f IH]; intros c i t Hc; rewrite !read_eq; unfold vget at 1 4;
    rewrite nth_error_upd; destruct (Nat.eqb_spec a c); try lia;
    destruct (nth_error h c) as [ob|] eqn:E; simpl; auto; destruct ob as [rows|b idx]; auto.
  destruct (W _ _ _ E) as (Lb & _). destruct (check _); simpl; auto.
  destruct (vget idx i); simpl; auto. apply IH. lia.
Qed.

Lemma lists_below h a o c l : wf h -> c < a -> lists h c l -> lists (upd h a o) c l.
Proof.
  intros W Hc [HS R]. split.
  - unfold samples, vget in *. rewrite nth_error_upd. destruct (Nat.eqb_spec a c); [lia|auto].
  - intros i r Hr. unfold getInstance, getTarget. rewrite !read_below by auto. apply (R i r Hr).
Qed.

(** the direct data sets never change *)
Definition same_direct h h' : Prop :=
  (forall a rows, nth_error h' a = Some (Direct rows) -> nth_error h a = Some (Direct rows)).

Lemma same_direct_refl h : same_direct h h.
Proof. intros a rows H. exact H. Qed.

Lemma same_direct_trans h1 h2 h3 : same_direct h1 h2 -> same_direct h2 h3 -> same_direct h1 h3.
Proof. intros H1 H2 a rows H. auto. Qed.

Lemma same_direct_upd h a b idx : same_direct h (upd h a (View b idx)).
Proof.
  intros c rows H. rewrite nth_error_upd in H. destruct (Nat.eqb_spec a c); auto.
  destruct (a <? length h); discriminate.
Qed.

Lemma same_direct_extend h vs : Forall (good_view h) vs -> same_direct h (h ++ vs).
Proof.
  intros F a rows H. destruct (Nat.lt_ge_cases a (length h)) as [L|L].
  - now rewrite nth_error_app1 in H by auto.
  - rewrite nth_error_app2 in H by auto. apply nth_error_In in H.
    rewrite Forall_forall in F. destruct (F _ H) as (b & i & n & E & _). discriminate.
Qed.

Lemma mkView_inv ds indices b e (o : obj V) : mkView ds indices b e = Ok o ->
  o = View ds (firstn (e - b) (skipn b indices)).
Proof. unfold mkView. destruct (_ && _); congruence. Qed.

Lemma Forall_firstn_skipn {A} (P : A -> Prop) k m l :
  Forall P l -> Forall P (firstn k (skipn m l)).
Proof.
  rewrite !Forall_forall. intros H x Hx. apply H.
  rewrite <- (firstn_skipn m l). apply in_app_iff. right.
  rewrite <- (firstn_skipn k (skipn m l)). apply in_app_iff. auto.
Qed.

Lemma legal_indices shuf N : shuffles shuf -> Forall (fun j => j < N) (shuf (seq 0 N)).
Proof.
  intros Hs. apply (Permutation_Forall (Hs _)). apply Forall_forall. intros j Hj.
  apply in_seq in Hj. lia.
Qed.

Lemma for_from_inv_Ok {St} (Inv : St -> Prop) (body : nat -> St -> res St) n :
  (forall i s s', Inv s -> body i s = Ok s' -> Inv s') ->
  forall from s s', Inv s -> for_from from n body s = Ok s' -> Inv s'.
Proof.
  intros Hb. induction n as [|n IH]; intros from s s' Hi E; simpl in E.
  - inversion E; subst; auto.
  - apply bind_Ok in E. destruct E as (s1 & E1 & E2). eapply IH; [|exact E2]. eauto.
Qed.

Lemma for_each_inv_Ok {A St} (Inv : St -> Prop) (body : A -> St -> res St) l :
  (forall a s s', In a l -> Inv s -> body a s = Ok s' -> Inv s') ->
  forall s s', Inv s -> for_each l body s = Ok s' -> Inv s'.
Proof.
  induction l as [|a l IH]; intros Hb s s' Hi E; simpl in E.
  - inversion E; subst; auto.
  - apply bind_Ok in E. destruct E as (s1 & E1 & E2).
    apply IH with (s := s1); auto.
    + intros; eapply Hb; eauto. now right.
    + eapply Hb; eauto. now left.
Qed.

Lemma splitGroups_good h ds n sh shuf vs :
  shuffles shuf -> splitGroups h ds n sh shuf [] = Ok vs -> Forall (good_view h) vs.
Proof.
  intros Hs E. unfold splitGroups in E.
  apply bind_Ok in E. destruct E as ([] & _ & E).
  apply bind_Ok in E. destruct E as (N & EN & E).
  rewrite fillIndices_spec in E. simpl in E.
  apply bind_Ok in E. destruct E as (spg & _ & E).
  assert (FI : Forall (fun j => j < N) (if sh then shuf (seq 0 N) else seq 0 N)).
  { destruct sh; [now apply legal_indices|].
    apply Forall_forall. intros j Hj. apply in_seq in Hj. lia. }
  revert E. apply (for_from_inv_Ok (Forall (good_view h))); [|constructor].
  intros i g g' Hg Eb. apply bind_Ok in Eb. destruct Eb as (v & Ev & Eb).
  inversion Eb; subst. apply Forall_app. split; auto. constructor; auto.
  destruct (i <? n - 1); apply mkView_inv in Ev; subst;
    (eexists ds, _, N; split; [reflexivity|]; split; auto; apply Forall_firstn_skipn; auto).
Qed.

Lemma splitRatio_good h ds r sh shuf vs :
  shuffles shuf -> splitRatio h ds r sh shuf [] = Ok vs -> Forall (good_view h) vs.
Proof.
  intros Hs E. unfold splitRatio in E.
  apply bind_Ok in E. destruct E as ([] & _ & E).
  apply bind_Ok in E. destruct E as (N & EN & E).
  rewrite fillIndices_spec in E. simpl in E.
  apply bind_Ok in E. destruct E as (k & _ & E).
  assert (FI : Forall (fun j => j < N) (if sh then shuf (seq 0 N) else seq 0 N)).
  { destruct sh; [now apply legal_indices|].
    apply Forall_forall. intros j Hj. apply in_seq in Hj. lia. }
  apply bind_Ok in E. destruct E as (v1 & E1 & E).
  apply bind_Ok in E. destruct E as (v2 & E2 & E).
  apply mkView_inv in E1. apply mkView_inv in E2. inversion E; subst.
  repeat constructor; (eexists ds, _, N; split; [reflexivity|]; split; auto; apply Forall_firstn_skipn; auto).
Qed.

Lemma for_vset_nil k idx (l : list nat) :
  for_ k (fun n l => vset l n (idx n)) [] = Ok l -> k = 0 /\ l = [].
Proof. destruct k; simpl; unfold for_; simpl; intros E; [inversion E; auto|discriminate]. Qed.

Lemma sample_good h ds f r idx shuf v :
  shuffles shuf -> sample h ds f r idx shuf = Ok v -> good_view h v.
Proof.
  intros Hs E. unfold sample in E.
  apply bind_Ok in E. destruct E as (N & EN & E).
  apply bind_Ok in E. destruct E as (k & _ & E).
  apply bind_Ok in E. destruct E as (ind & EI & E).
  apply mkView_inv in E. subst. eexists ds, _, N. split; [reflexivity|]. split; auto.
  apply Forall_firstn_skipn. destruct r.
  - apply for_vset_nil in EI. destruct EI as [_ ->]. constructor.
  - unfold generateIndices in EI. simpl in EI. rewrite fillIndices_spec in EI. simpl in EI.
    inversion EI; subst. now apply legal_indices.
Qed.

Lemma merge_wf h m gs h' : wf h -> merge h m gs = Ok h' -> wf h' /\ same_direct h h' /\ length h' = length h.
Proof.
  intros W E. unfold merge in E. apply bind_Ok in E. destruct E as ([] & _ & E).
  revert E. apply (for_each_inv_Ok (fun x => wf x /\ same_direct h x /\ length x = length h)).
  2: { auto using same_direct_refl. }
  intros g s s' _ (Ws & Ds & Ls) Eb.
  apply bind_Ok in Eb. destruct Eb as (om & E1 & Eb).
  apply bind_Ok in Eb. destruct Eb as (og & E2 & Eb).
  destruct om as [|bm im]; [discriminate|]. destruct og as [|bg ig]; [discriminate|].
  apply bind_Ok in Eb. destruct Eb as ([] & Ec & Eb).
  unfold check in Ec. destruct (Nat.eqb_spec bm bg); [subst|discriminate].
  destruct (_ && _); [discriminate|].
  unfold vset in Eb. destruct (m <? length s); inversion Eb; subst. clear Eb.
  apply vget_Some in E1. apply vget_Some in E2.
  split; [|split].
  - apply (wf_upd s m bg im); auto.
    + rewrite app_length. lia.
    + intros n Sn. destruct (Ws _ _ _ E1) as (_ & n1 & S1 & F1).
      destruct (Ws _ _ _ E2) as (_ & n2 & S2 & F2).
      apply Forall_app. split; congruence || (replace n with n1 by congruence; auto; fail)
        || (replace n with n2 by congruence; auto).
  - eapply same_direct_trans; [exact Ds|]. apply same_direct_upd.
  - now rewrite upd_length.
Qed.

Lemma vstep_wf h o h' : wf h -> legal o -> vstep h o = Ok h' -> wf h' /\ same_direct h h'.
Proof.
  intros W Lg E. destruct o as [ds n sh shuf|ds r sh shuf|ds|v|m gs|ds f r idx shuf|v shuf]; simpl in *.
  - apply bind_Ok in E. destruct E as (vs & Ev & E). inversion E; subst.
    apply splitGroups_good in Ev; auto. split; [now apply wf_extend|now apply same_direct_extend].
  - apply bind_Ok in E. destruct E as (vs & Ev & E). inversion E; subst.
    apply splitRatio_good in Ev; auto. split; [now apply wf_extend|now apply same_direct_extend].
  - apply bind_Ok in E. destruct E as (o & Eo & E). inversion E; subst.
    assert (G : Forall (good_view h) [View ds []]).
    { constructor; auto.
      assert (exists n, samples h ds = Ok n) as [n Sn].
      { unfold samples. rewrite Eo. destruct o; simpl; eauto. }
      exists ds, [], n. repeat split; auto. }
    split; [now apply wf_extend|now apply same_direct_extend].
  - apply bind_Ok in E. destruct E as (o & Eo & E). destruct o as [|b idx]; [discriminate|].
    inversion E; subst. apply vget_Some in Eo. destruct (W _ _ _ Eo) as (_ & n & Sn & F).
    assert (G : Forall (good_view h) [View b idx]).
    { constructor; auto. exists b, idx, n. auto. }
    split; [now apply wf_extend|now apply same_direct_extend].
  - destruct (merge_wf _ _ _ _ W E) as (A & B & _). auto.
  - apply bind_Ok in E. destruct E as (v & Ev & E). inversion E; subst.
    apply sample_good in Ev; auto.
    split; [apply wf_extend|apply same_direct_extend]; auto.
  - unfold shuffle in E. apply bind_Ok in E. destruct E as (o & Eo & E).
    destruct o as [|b idx]; [discriminate|]. unfold vset in E.
    destruct (v <? length h); inversion E; subst. apply vget_Some in Eo.
    split; [|apply same_direct_upd].
    apply (wf_upd h v b idx); auto.
    + now rewrite <- (Permutation_length (Lg idx)).
    + intros n Sn. destruct (W _ _ _ Eo) as (_ & n1 & S1 & F1).
      apply (Permutation_Forall (Lg idx)). replace n with n1 by congruence. auto.
Qed.

Lemma only_direct_wf h : only_direct h -> wf h.
Proof. intros H a b idx Ha. apply nth_error_In in Ha. destruct (H _ Ha). discriminate. Qed.

Lemma vrun_wf ops : forall h h', wf h -> Forall legal ops -> vrun ops h = Ok h' ->
  wf h' /\ same_direct h h'.
Proof.
  unfold vrun. induction ops as [|o ops IH]; intros h h' W F E; simpl in E.
  - inversion E; subst. auto using same_direct_refl.
  - apply bind_Ok in E. destruct E as (h1 & E1 & E2). inversion F; subst.
    destruct (vstep_wf _ _ _ W H1 E1) as (W1 & D1).
    destruct (IH _ _ W1 H2 E2) as (W2 & D2). split; auto.
    eapply same_direct_trans; eauto.
Qed.

Lemma reachable_wf h : reachable h -> wf h.
Proof.
  intros (h0 & ops & D & F & E). eapply vrun_wf; eauto using only_direct_wf.
Qed.

Lemma views_ok h0 ops h :
  only_direct h0 -> Forall legal ops -> vrun ops h0 = Ok h ->
  forall a, a < length h ->
  exists root rows l, nth_error h0 root = Some (Direct rows) /\ lists h a l /\ incl l rows.
Proof.
  intros D F E a La. destruct (vrun_wf _ _ _ (only_direct_wf _ D) F E) as (W & Sd).
  destruct (wf_lists h W a La) as (root & rows & l & H1 & H2 & H3).
  exists root, rows, l. auto.
Qed.

Lemma reachable_lists h a : reachable h -> a < length h -> exists l, lists h a l.
Proof.
  intros Hr La. destruct (wf_lists h (reachable_wf h Hr) a La) as (_ & _ & l & _ & H & _). eauto.
Qed.

(** merge *)
Lemma merge_ok h m gs b l im :
  wf h -> nth_error h m = Some (View b im) -> gs <> [] -> ~ In m gs -> lists h m l ->
  forall parts,
  Forall2 (fun g part => (exists ig, nth_error h g = Some (View b ig)) /\ lists h g part) gs parts ->
  exists h', merge h m gs = Ok h' /\ lists h' m (l ++ concat parts) /\
    (forall a, a < m -> forall la, lists h a la -> lists h' a la).
Proof.
  intros W Hm Ne Nin Ll parts F. unfold merge.
  rewrite check_true.
  2: { destruct gs; [congruence|reflexivity]. }
  simpl.
  destruct (W _ _ _ Hm) as (Lb & n & Sn & Fi).
  destruct (wf_lists h W b) as (_ & _ & lb & _ & Hlb & _).
  { apply samples_lt in Sn. auto. }
  assert (Hn : length lb = n) by (destruct Hlb; congruence). subst n.
  assert (G : forall rest restp h1 i1 l1,
    Forall2 (fun g part => (exists ig, nth_error h g = Some (View b ig)) /\ lists h g part) rest restp ->
    ~ In m rest -> h1 = upd h m (View b i1) -> pick lb i1 l1 ->
    exists h', for_each rest (fun g h =>
      om <- vget h m ;; og <- vget h g ;;
      match om, og with
      | View bm im, View bg ig =>
        _ <- check (Nat.eqb bm bg) ;;
        if (Nat.eqb m g && Nat.ltb 0 (length ig))%bool then UB
        else vset h m (View bm (im ++ ig))
      | _, _ => UB
      end) h1 = Ok h' /\ exists i2, h' = upd h m (View b i2) /\ pick lb i2 (l1 ++ concat restp)).
  { assert (Lm : m < length h) by (apply nth_error_Some; congruence).
    induction rest as [|g rest IH]; intros restp h1 i1 l1 F1 Hni E1 P1;
      inversion F1 as [|g' part rest' restp' [(ig & Hg) Lg] F2]; subst; simpl.
    - eexists. split; [reflexivity|]. exists i1. rewrite app_nil_r. auto.
    - assert (m <> g) by (intro; subst; apply Hni; now left).
      unfold vget at 1. rewrite nth_error_upd, Nat.eqb_refl.
      apply Nat.ltb_lt in Lm as Lm'. rewrite Lm'. simpl.
      unfold vget at 1. rewrite nth_error_upd. destruct (Nat.eqb_spec m g); [congruence|].
      rewrite Hg. simpl. rewrite Nat.eqb_refl. simpl.
      unfold vset. rewrite upd_length, Lm'. simpl.
      assert (Eu : upd (upd h m (View b i1)) m (View b (i1 ++ ig)) = upd h m (View b (i1 ++ ig))).
      { clear. revert m. induction h as [|x h IHh]; intros [|m]; simpl; auto. now rewrite IHh. }
      rewrite Eu.
      destruct (W _ _ _ Hg) as (Lbg & ng & Sg & Fg).
      destruct (pick_exists lb ig) as [pg Pg].
      { destruct Hlb as [Sb _]. replace (length lb) with ng by congruence. auto. }
      assert (part = pg).
      { apply (lists_fun h g); auto. eapply lists_view; eauto. }
      subst pg.
      destruct (IH restp' (upd h m (View b (i1 ++ ig))) (i1 ++ ig) (l1 ++ part) F2) as (h' & E' & i2 & E2 & P2).
      + intro; apply Hni; now right.
      + reflexivity.
      + now apply pick_app.
      + exists h'. split; auto. exists i2. split; auto. rewrite <- app_assoc in P2. exact P2. }
  destruct (pick_exists lb im Fi) as [l0 P0].
  assert (l0 = l) by (apply (lists_fun h m); auto; eapply lists_view; eauto). subst l0.
  assert (Eh : h = upd h m (View b im)).
  { clear - Hm. revert m Hm. induction h as [|x h IHh]; intros [|m] Hm; simpl in *; try discriminate.
    - inversion Hm; auto. - now rewrite <- IHh. }
  destruct (G gs parts h im l F Nin Eh P0) as (h' & E' & i2 & E2 & P2).
  exists h'. split; [exact E'|].
  assert (Lm : m < length h) by (apply nth_error_Some; congruence).
  split.
  - subst h'. apply (lists_view _ m b i2 lb); auto.
    + rewrite nth_error_upd, Nat.eqb_refl. apply Nat.ltb_lt in Lm. now rewrite Lm.
    + apply lists_below; auto.
  - intros a La la Hla. subst h'. apply lists_below; auto.
Qed.

(** sample *)
Lemma sample_ok h ds f idx shuf l :
  lists h ds l -> (0 <= f <= 1)%R -> shuffles shuf ->
  exists v part rest,
    sample h ds f false idx shuf = Ok v /\
    lists (h ++ [v]) (length h) part /\
    Permutation (part ++ rest) l /\
    (INR (length part) - 1 < INR (length l) * f <= INR (length part))%R.
Proof.
  intros L Hf Hs. pose proof L as [HS _]. unfold sample. rewrite HS. simpl.
  pose proof (Zceil_bound (INR (length l) * f)) as B.
  pose proof (pos_INR (length l)) as PN.
  assert (Z0 : (0 <= Zceil (INR (length l) * f))%Z) by (apply Zceil_nonneg; nra).
  assert (ZN : (Zceil (INR (length l) * f) <= Z.of_nat (length l))%Z).
  { apply Zceil_le. rewrite <- INR_IZR_INZ. nra. }
  rewrite zidx_Ok by auto. simpl.
  set (k := Z.to_nat (Zceil (INR (length l) * f))).
  assert (Hk : k <= length l) by lia.
  unfold generateIndices. simpl. rewrite fillIndices_spec. simpl.
  destruct (indices_pick l true shuf Hs) as (l' & P & Q).
  set (indices := shuf (seq 0 (length l))) in *.
  assert (Li : length indices = length l).
  { rewrite <- (pick_length _ _ _ P). now apply Permutation_length. }
  rewrite mkView_Ok by lia. simpl. rewrite Nat.sub_0_r.
  pose proof P as P'. rewrite <- (firstn_skipn k indices) in P'.
  apply Forall2_app_inv_l in P'. destruct P' as (p1 & p2 & P1 & P2 & ->).
  exists (View ds (firstn k indices)), p1, p2. split; auto. split; [|split; auto].
  - rewrite <- (Nat.add_0_r (length h)). apply (lists_new h ds l (firstn k indices)); auto.
  - rewrite (pick_length _ _ _ P1), firstn_length, Li, Nat.min_l by auto.
    unfold k. rewrite INR_IZR_INZ, Z2Nat.id by auto. lra.
Qed.

Lemma sample_replacement_ub h ds f idx shuf l :
  lists h ds l -> l <> [] -> (0 < f <= 1)%R -> sample h ds f true idx shuf = UB.
Proof.
  intros L Ne Hf. pose proof L as [HS _]. unfold sample. rewrite HS. simpl.
  assert (PN : (0 < INR (length l))%R) by (apply lt_0_INR; destruct l; [congruence|simpl; lia]).
  pose proof (Zceil_bound (INR (length l) * f)) as B.
  assert (Z0 : (0 < Zceil (INR (length l) * f))%Z).
  { apply lt_IZR. assert (0 < INR (length l) * f)%R by (apply Rmult_lt_0_compat; lra). lra. }
  rewrite zidx_Ok by lia. simpl.
  destruct (Z.to_nat (Zceil (INR (length l) * f))) eqn:E; [lia|]. reflexivity.
Qed.

(** every documented use of an operation succeeds *)
Lemma vstep_progress h o : reachable h -> legal o -> permitted h o -> exists h', vstep h o = Ok h'.
Proof.
  intros Hr Lg Pm. pose proof (reachable_wf h Hr) as W.
  destruct o as [ds n sh shuf|ds r sh shuf|ds|v|m gs|ds f r idx shuf|v shuf]; simpl in *.
  - destruct Pm as [Ld Hn]. destruct (reachable_lists h ds Hr Ld) as [l L].
    destruct (split_groups_ok h ds n sh shuf l L Hn Lg) as (vs & _ & E & _). rewrite E. simpl. eauto.
  - destruct Pm as [Ld Hn]. destruct (reachable_lists h ds Hr Ld) as [l L].
    destruct (split_ratio_ok h ds r sh shuf l L Hn Lg) as (v1 & v2 & _ & _ & E & _). rewrite E. simpl. eauto.
  - destruct (vget_Ok h ds Pm) as (o & E & _). rewrite E. simpl. eauto.
  - destruct Pm as (b & i & E). unfold vget. rewrite E. simpl. eauto.
  - destruct Pm as (b & (im & Hm) & Ne & Nin & Hg).
    assert (Lm : m < length h) by (apply nth_error_Some; congruence).
    destruct (reachable_lists h m Hr Lm) as [l L].
    assert (exists parts, Forall2 (fun g part => (exists ig, nth_error h g = Some (View b ig)) /\ lists h g part) gs parts) as [parts F].
    { clear - Hg Hr. induction gs as [|g gs IH].
      - exists []. constructor.
      - destruct IH as [parts F]; [intros; apply Hg; now right|].
        destruct (Hg g) as (ig & Eg); [now left|].
        destruct (reachable_lists h g Hr) as [lg Lg]; [apply nth_error_Some; congruence|].
        exists (lg :: parts). constructor; eauto. }
    destruct (merge_ok h m gs b l im W Hm Ne Nin L parts F) as (h' & E & _). eauto.
  - destruct Pm as (Ld & -> & Hf). destruct (reachable_lists h ds Hr Ld) as [l L].
    destruct (sample_ok h ds f idx shuf l L Hf Lg) as (v & _ & _ & E & _). rewrite E. simpl. eauto.
  - destruct Pm as (b & i & E). unfold shuffle, vget. rewrite E. simpl.
    rewrite vset_Ok; eauto. apply nth_error_Some. congruence.
Qed.

End Proofs.
