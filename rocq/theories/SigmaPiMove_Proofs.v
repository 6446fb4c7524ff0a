(** Moving an image permutes the products that a higher-order neuron sums. *)
From Verif Require Import Base BaseFacts Matrix RSum MatOps Vec Activation_Model Layer_Model Layer_Spec
  SigmaPi_Model SigmaPi_Spec SigmaPi_Proofs SigmaPiPass_Proofs.
Local Open Scope R_scope.

Lemma lsum_perm l l' : Permutation l l' -> lsum l = lsum l'.
Proof. unfold lsum. induction 1; cbn in *; lra. Qed.

Lemma lsum_nonzero {A} (f : A -> R) l :
  lsum (map f l) = lsum (map f (filter (fun p => negb (Reqb (f p) 0)) l)).
Proof.
  unfold lsum. induction l as [|p l IH]; cbn [map filter fold_right]; auto.
  unfold Reqb at 1. destruct (Req_EM_T (f p) 0) as [E|E]; cbn [negb map fold_right]; rewrite IH; lra.
Qed.

Lemma nonzero_In {A} (f : A -> R) l p : In p (filter (fun p => negb (Reqb (f p) 0)) l) <-> In p l /\ f p <> 0.
Proof.
  rewrite filter_In. unfold Reqb. destruct (Req_EM_T (f p) 0); cbn; intuition congruence.
Qed.

Lemma lsum_match {A} (L : list A) (f f' : A -> R) (g : A -> A) : NoDup L ->
  (forall p, In p L -> f p <> 0 -> In (g p) L /\ f' (g p) = f p) ->
  (forall p q, In p L -> In q L -> f p <> 0 -> f q <> 0 -> g p = g q -> p = q) ->
  (forall q, In q L -> f' q <> 0 -> exists p, In p L /\ g p = q /\ f p = f' q) ->
  lsum (map f L) = lsum (map f' L).
Proof.
  intros Hd H1 Hi H2. rewrite (lsum_nonzero f), (lsum_nonzero f').
  set (L1 := filter (fun p => negb (Reqb (f p) 0)) L). set (L2 := filter (fun p => negb (Reqb (f' p) 0)) L).
  assert (E : map f L1 = map f' (map g L1)).
  { rewrite map_map. apply map_ext_in. intros p Hp. apply nonzero_In in Hp. destruct Hp as (Hp & Hz). symmetry. now apply H1. }
  rewrite E. apply lsum_perm, Permutation_map, NoDup_Permutation.
  - assert (Hd1 : NoDup L1) by now apply NoDup_filter.
    assert (Hs : forall p, In p L1 -> In p L /\ f p <> 0) by (intros p; apply nonzero_In).
    revert Hd1 Hs. generalize L1 as L3. clear -Hi. induction L3 as [|p l IH]; intros Hd Hs; cbn [map]; constructor.
    + inversion_clear Hd as [|? ? Hn Hd']. intros Hin. apply in_map_iff in Hin. destruct Hin as (q & Hq & Hin).
      apply Hn. destruct (Hs p ltac:(now left)). destruct (Hs q ltac:(now right)). rewrite (Hi p q); auto.
    + inversion_clear Hd. apply IH; auto. intros q Hq. apply Hs. now right.
  - now apply NoDup_filter.
  - intros q. rewrite in_map_iff. unfold L2. rewrite nonzero_In. split.
    + intros (p & <- & Hp). apply nonzero_In in Hp. destruct Hp as (Hp & Hz). destruct (H1 p Hp Hz) as (A1 & A2). split; auto. congruence.
    + intros (Hq & Hz). destruct (H2 q Hq Hz) as (p & Hp & Eg & Ef). exists p. split; auto. apply nonzero_In. split; auto. congruence.
Qed.

Section MOVE.
Context (W H : nat) (z dx dy : Z).
Hypothesis Hz : (1 <= z)%Z.
Notation px i := (Z.of_nat (i mod W)).
Notation py i := (Z.of_nat (i / W)).
Definition mv (i : nat) : nat := Z.to_nat ((z * py i + dy) * Z.of_nat W + (z * px i + dx)).
Definition onT (i : nat) : Prop := (i < W * H)%nat /\ onImage W H (z * px i + dx) (z * py i + dy).

Lemma pixel_on i : (i < W * H)%nat -> onImage W H (px i) (py i).
Proof.
  intros Hi. assert (HW : (W <> 0)%nat) by (intros ->; lia). unfold onImage.
  pose proof (Nat.mod_upper_bound i W HW). assert (i / W < H)%nat by (apply Nat.div_lt_upper_bound; auto). lia.
Qed.
Lemma pixel_index i : (W <> 0)%nat -> Z.to_nat (py i * Z.of_nat W + px i) = i.
Proof. intros HW. pose proof (Nat.div_mod i W HW). nia. Qed.
Lemma index_pixel x y : onImage W H x y ->
  let k := Z.to_nat (y * Z.of_nat W + x) in (k < W * H)%nat /\ px k = x /\ py k = y.
Proof.
  intros (Hx & Hy) k. assert (HW : (W <> 0)%nat) by lia.
  assert (E : k = (Z.to_nat x + Z.to_nat y * W)%nat) by (subst k; nia). clearbody k. subst k.
  split; [nia|]. rewrite Nat.mod_add, Nat.div_add by auto. rewrite Nat.mod_small, Nat.div_small by lia. lia.
Qed.
Lemma mv_pixel i : onT i -> (mv i < W * H)%nat /\ px (mv i) = (z * px i + dx)%Z /\ py (mv i) = (z * py i + dy)%Z.
Proof. intros (_ & Hi). apply (index_pixel _ _ Hi). Qed.
Lemma mv_mono a b : onT a -> onT b -> (a < b)%nat -> (mv a < mv b)%nat.
Proof.
  intros Ha Hb Hab. destruct (mv_pixel a Ha) as (A1 & A2 & A3). destruct (mv_pixel b Hb) as (B1 & B2 & B3).
  destruct Ha as (_ & Ax & Ay). destruct Hb as (_ & Bx & By). assert (HW : (W <> 0)%nat) by lia.
  pose proof (Nat.div_mod a W HW). pose proof (Nat.div_mod b W HW).
  pose proof (Nat.mod_upper_bound a W HW). pose proof (Nat.mod_upper_bound b W HW).
  unfold mv.
  assert (C : (a / W < b / W \/ a / W = b / W /\ a mod W < b mod W)%nat).
  { destruct (Nat.lt_trichotomy (a / W) (b / W)) as [?|[?|?]]; [now left|right; split; auto; nia|nia]. }
  apply Z2Nat.inj_lt; [nia|nia|]. destruct C as [C|(C1 & C2)].
  - assert (z * py a + dy + 1 <= z * py b + dy)%Z by nia. nia.
  - rewrite C1. nia.
Qed.
Lemma mv_reflect a b : onT a -> onT b -> (mv a < mv b)%nat -> (a < b)%nat.
Proof.
  intros Ha Hb Hab. destruct (Nat.lt_trichotomy a b) as [?|[->|C]]; auto; [lia|].
  pose proof (mv_mono b a Hb Ha C). lia.
Qed.

Lemma move_increasing p : forall lo l, increasing lo (W * H) p -> Forall onT p ->
  (forall a, onT a -> (lo <= a)%nat -> (l <= mv a)%nat) -> increasing l (W * H) (map mv p).
Proof.
  induction p as [|a p IH]; intros lo l Hi Ht Hl; cbn [map increasing] in *; auto.
  inversion_clear Ht as [|? ? Ha Hp]. destruct Hi as (Hi1 & Hi2). split.
  - pose proof (Hl a Ha ltac:(lia)). destruct (mv_pixel a Ha). lia.
  - apply (IH (a + 1)%nat); auto. intros b Hb Hlt. pose proof (mv_mono a b Ha Hb ltac:(lia)). lia.
Qed.
Lemma unmove_increasing q : forall l lo, increasing l (W * H) q -> (forall k, In k q -> exists a, onT a /\ mv a = k) ->
  (forall a, onT a -> (l <= mv a)%nat -> (lo <= a)%nat) ->
  exists p, map mv p = q /\ increasing lo (W * H) p /\ Forall onT p.
Proof.
  induction q as [|k q IH]; intros l lo Hi Hs Hl; cbn [increasing] in *.
  - exists []. cbn. auto.
  - destruct Hi as (Hi1 & Hi2). destruct (Hs k ltac:(now left)) as (a & Ha & <-).
    destruct (IH (mv a + 1)%nat (a + 1)%nat Hi2) as (p & E & Hp1 & Hp2).
    + intros; apply Hs; now right.
    + intros b Hb Hlt. pose proof (mv_reflect a b Ha Hb ltac:(lia)). lia.
    + exists (a :: p). cbn [map increasing]. split; [congruence|]. split; auto. split; auto.
      split; [apply Hl; auto; lia|destruct Ha; auto].
Qed.

Lemma monomial_nonzero X n p : monomial X n p <> 0 -> forall i, In i p -> at_ X n i <> 0.
Proof.
  unfold monomial. induction p as [|a p IH]; cbn [fold_right]; intros Hn i Hin; [destruct Hin|].
  destruct Hin as [<-|Hin]; [|apply IH; auto]; intros E; apply Hn; [rewrite E; ring|].
  rewrite E. ring.
Qed.
Lemma increasing_In p : forall lo hi, increasing lo hi p -> forall i, In i p -> (lo <= i < hi)%nat.
Proof.
  induction p as [|a p IH]; intros lo hi Hi i Hin; [destruct Hin|]. destruct Hi as (H1 & H2). destruct Hin as [<-|Hin]; auto.
  specialize (IH _ _ H2 i Hin). lia.
Qed.

Lemma mv_inj p : forall q, Forall onT p -> Forall onT q -> map mv p = map mv q -> p = q.
Proof.
  induction p as [|a p IH]; intros [|b q] Hp Hq E; try discriminate; auto.
  inversion_clear Hp as [|? ? Ha Hp']. inversion_clear Hq as [|? ? Hb Hq']. cbn [map] in E. injection E as E1 E2.
  f_equal; [|auto]. destruct (Nat.lt_trichotomy a b) as [C|[C|C]]; auto.
  - pose proof (mv_mono a b Ha Hb C). lia.
  - pose proof (mv_mono b a Hb Ha C). lia.
Qed.

Lemma spread_sum d wt X n X' n' : spread W H z dx dy X n X' n' ->
  (forall p, In p (tuples d 0 (W * H)) -> Forall onT p -> wt (map mv p) = wt p) ->
  higherOrderSum (W * H) d wt X n = higherOrderSum (W * H) d wt X' n'.
Proof.
  intros (S1 & S2 & S3) Hw. unfold higherOrderSum.
  assert (PX : forall X n i, (i < W * H)%nat -> pixelAt W X n (px i) (py i) = at_ X n i).
  { intros X0 n0 i Hi. unfold pixelAt. rewrite pixel_index; auto. intros E; rewrite E in Hi; lia. }
  assert (T : forall i, (i < W * H)%nat -> at_ X n i <> 0 -> onT i).
  { intros i Hi Hx. split; auto. apply S1; [now apply pixel_on|]. now rewrite PX. }
  assert (V : forall i, onT i -> at_ X' n' (mv i) = at_ X n i).
  { intros i Hi. pose proof Hi as (L & O). destruct (mv_pixel i Hi) as (M1 & M2 & M3).
    rewrite <- (PX X' n' (mv i) M1), M2, M3. rewrite (S2 _ _ (pixel_on i L) O). now apply PX. }
  assert (B : forall k, (k < W * H)%nat -> at_ X' n' k <> 0 -> exists a, onT a /\ mv a = k).
  { intros k Hk Hx. destruct (S3 (px k) (py k)) as (x & y & O & Ex & Ey); [now apply pixel_on|now rewrite PX|].
    destruct (index_pixel x y O) as (K1 & K2 & K3). exists (Z.to_nat (y * Z.of_nat W + x)). split.
    - split; auto. rewrite K2, K3, <- Ex, <- Ey. now apply pixel_on.
    - unfold mv. rewrite K2, K3, <- Ex, <- Ey. apply pixel_index. intros E; rewrite E in Hk; lia. }
  assert (MV : forall p, Forall onT p -> monomial X' n' (map mv p) = monomial X n p).
  { unfold monomial. induction 1 as [|a p Ha Hp IH]; cbn [map fold_right]; auto. now rewrite IH, V. }
  assert (FT : forall p, In p (tuples d 0 (W * H)) -> wt p * monomial X n p <> 0 -> Forall onT p).
  { intros p Hp Hn. apply tuples_In in Hp. destruct Hp as (_ & Hp). apply Forall_forall. intros i Hi.
    apply T; [eapply increasing_In; eauto|]. eapply monomial_nonzero; eauto. intros E. apply Hn. rewrite E. ring. }
  apply (lsum_match _ (fun pos => wt pos * monomial X n pos) (fun pos => wt pos * monomial X' n' pos) (map mv)).
  - apply tuples_NoDup.
  - intros p Hp Hn. pose proof (FT p Hp Hn) as Ht. rewrite Hw, MV by auto. split; auto.
    apply tuples_In in Hp. destruct Hp as (L & Hp). apply tuples_In. split; [now rewrite map_length|].
    apply (move_increasing p 0); auto. intros; lia.
  - intros p q Hp Hq Hn Hn' E. eapply mv_inj; eauto.
  - intros q Hq Hn. pose proof Hq as Hq'. apply tuples_In in Hq. destruct Hq as (L & Hq).
    destruct (unmove_increasing q 0 0 Hq) as (p & E & Hp & Ht).
    + intros k Hk. apply B; [eapply increasing_In; eauto|]. eapply monomial_nonzero; eauto. intros E. apply Hn. rewrite E. ring.
    + intros; lia.
    + assert (Hp' : In p (tuples d 0 (W * H))) by (apply tuples_In; split; auto; rewrite <- E in L; now rewrite map_length in L).
      exists p. split; auto. split; auto. rewrite <- E. rewrite MV, Hw by auto. reflexivity.
Qed.
End MOVE.
