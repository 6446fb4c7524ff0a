(** Angles of triangles of pixels. *)
From Verif Require Import Base BaseFacts Matrix RSum MatOps SigmaPi_Model SigmaPi_Spec SigmaPi_Proofs SigmaPiMove_Proofs
  Triangle_Model Triangle_Spec Triangle_Proofs.
Local Open Scope R_scope.

(** * Multiples of a quarter of pi *)
Definition iangle (num n : Z) : Z :=
  let q := (num * num)%Z in
  if (num <? 0)%Z then if (2 * n <? q)%Z then 0 else 1
  else if (num =? 0)%Z then 2
  else if (q <? 2 * n)%Z then 2
  else if (q <? 4 * n)%Z then 3 else 4.

Lemma acos_ge c t : -1 <= c <= 1 -> 0 <= t <= PI -> c <= cos t -> t <= acos c.
Proof.
  intros Hc Ht H. destruct (Rle_or_lt t (acos c)) as [|C]; auto. exfalso. destruct (acos_bound c).
  assert (cos t < cos (acos c)) by (apply cos_decreasing_1; lra). rewrite cos_acos in *; lra.
Qed.
Lemma acos_lt c t : -1 <= c <= 1 -> 0 <= t <= PI -> cos t < c -> acos c < t.
Proof.
  intros Hc Ht H. destruct (Rle_or_lt t (acos c)) as [C|]; auto. exfalso. destruct (acos_bound c).
  destruct C as [C| ->].
  - assert (cos (acos c) < cos t) by (apply cos_decreasing_1; lra). rewrite cos_acos in *; lra.
  - rewrite cos_acos in *; lra.
Qed.
Lemma floor_unique x k : IZR k <= x < IZR k + 1 -> Zfloor x = k.
Proof.
  intros (A & B). destruct (Zfloor_bound x) as (C & D).
  assert (E1 : IZR (Zfloor x) < IZR (k + 1)) by (rewrite plus_IZR; lra).
  assert (E2 : IZR k < IZR (Zfloor x + 1)) by (rewrite plus_IZR; lra).
  apply lt_IZR in E1, E2. lia.
Qed.
Lemma floor_quarter a k : IZR k * (PI / 4) <= a < (IZR k + 1) * (PI / 4) -> Zfloor (a / (PI / 4)) = k.
Proof.
  intros (A & B). pose proof PI_RGT_0. apply floor_unique. split.
  - apply (Rmult_le_reg_r (PI / 4)); [lra|]. replace (a / (PI / 4) * (PI / 4)) with a by (field; lra). auto.
  - apply (Rmult_lt_reg_r (PI / 4)); [lra|]. replace (a / (PI / 4) * (PI / 4)) with a by (field; lra). auto.
Qed.

Lemma half_sqr : (/ sqrt 2) * (/ sqrt 2) = / 2.
Proof. rewrite <- Rinv_mult, sqrt_sqrt by lra. auto. Qed.
Lemma half_pos : 0 < / sqrt 2.
Proof. apply Rinv_0_lt_compat, sqrt_lt_R0. lra. Qed.
Lemma sqr_lt a b : 0 <= b -> a * a < b * b -> a < b.
Proof. intros. nra. Qed.
Lemma sqr_le a b : 0 <= b -> a * a <= b * b -> a <= b.
Proof. intros. nra. Qed.

Lemma cos_3PI4' : cos (3 * (PI / 4)) = - / sqrt 2.
Proof. rewrite cos_3PI4. field. pose proof half_pos. intros E. rewrite E in *. rewrite Rinv_0 in *. lra. Qed.
Lemma cos_PI4' : cos (PI / 4) = / sqrt 2.
Proof. rewrite cos_PI4. field. pose proof half_pos. intros E. rewrite E in *. rewrite Rinv_0 in *. lra. Qed.

Lemma angle_quarter num n : (0 < n)%Z -> (num * num <= 4 * n)%Z -> angle (PI / 4) num n = iangle num n.
Proof.
  intros Hn Hq. unfold angle. set (c := IZR num / (-2 * sqrt (IZR n))).
  assert (Hn' : 0 < IZR n) by now apply IZR_lt.
  assert (Hr : 0 < sqrt (IZR n)) by now apply sqrt_lt_R0.
  assert (Hrr : sqrt (IZR n) * sqrt (IZR n) = IZR n) by (apply sqrt_sqrt; lra).
  assert (Cc : c * c * (4 * IZR n) = IZR (num * num)).
  { unfold c. rewrite mult_IZR. set (r := sqrt (IZR n)) in *. rewrite <- Hrr. field. lra. }
  assert (Cn : IZR num = c * (-2 * sqrt (IZR n))) by (unfold c; field; lra).
  clearbody c. apply IZR_le in Hq. rewrite <- Cc, mult_IZR in Hq.
  assert (Hc2 : c * c <= 1) by nra. assert (Hc : -1 <= c <= 1) by nra.
  pose proof half_pos as Hh. pose proof half_sqr as Hhs. pose proof PI_RGT_0 as HP. pose proof (acos_bound c) as HB.
  unfold iangle. destruct (Z.ltb_spec num 0) as [Lt|Ge].
  - apply IZR_lt in Lt. assert (0 < c) by nra. destruct (Z.ltb_spec (2 * n) (num * num)) as [A|A].
    + apply IZR_lt in A. rewrite <- Cc, mult_IZR in A. assert (1 / 2 < c * c) by nra.
      apply floor_quarter. assert (acos c < PI / 4); [|lra]. apply acos_lt; auto; [lra|]. rewrite cos_PI4'. apply sqr_lt; lra.
    + apply IZR_le in A. rewrite <- Cc, mult_IZR in A. assert (c * c <= 1 / 2) by nra.
      apply floor_quarter. assert (PI / 4 <= acos c). { apply acos_ge; auto; [lra|]. rewrite cos_PI4'. apply sqr_le; lra. }
      assert (acos c < PI / 2). { apply acos_lt; auto; [lra|]. rewrite cos_PI2. auto. } lra.
  - apply IZR_le in Ge. destruct (Z.eqb_spec num 0) as [E|E].
    + assert (c = 0). { rewrite E in Cn. nra. } subst c. rewrite acos_0. apply floor_quarter. lra.
    + assert (0 < IZR num) by (apply IZR_lt; lia || (apply le_IZR in Ge; lia)). assert (c < 0) by nra.
      destruct (Z.ltb_spec (num * num) (2 * n)) as [A|A].
      * apply IZR_lt in A. rewrite <- Cc, mult_IZR in A. assert (c * c < 1 / 2) by nra.
        apply floor_quarter. assert (PI / 2 <= acos c). { apply acos_ge; auto; [lra|]. rewrite cos_PI2. lra. }
        assert (acos c < 3 * (PI / 4)). { apply acos_lt; auto; [lra|]. rewrite cos_3PI4'. assert (- c < / sqrt 2) by (apply sqr_lt; lra). lra. } lra.
      * apply IZR_le in A. rewrite <- Cc, mult_IZR in A. assert (1 / 2 <= c * c) by nra.
        assert (B3 : 3 * (PI / 4) <= acos c). { apply acos_ge; auto; [lra|]. rewrite cos_3PI4'. assert (/ sqrt 2 <= - c) by (apply sqr_le; lra). lra. }
        destruct (Z.ltb_spec (num * num) (4 * n)) as [A4|A4].
        -- apply IZR_lt in A4. rewrite <- Cc, mult_IZR in A4. assert (c * c < 1) by nra.
           apply floor_quarter. assert (acos c < PI). { apply acos_lt; auto; [lra|]. rewrite cos_PI. nra. } lra.
        -- apply IZR_le in A4. rewrite <- Cc, mult_IZR in A4. assert (1 <= c * c) by nra. assert (c = -1) by nra.
           assert (PI <= acos c). { apply acos_ge; auto; [lra|]. rewrite cos_PI. lra. } apply floor_quarter. lra.
Qed.

(** * Sides *)
Definition dist2 (w p q : nat) : Z :=
  let d := (Z.of_nat (p mod w) - Z.of_nat (q mod w))%Z in let e := (Z.of_nat (p / w) - Z.of_nat (q / w))%Z in
  (d * d + e * e)%Z.
Lemma dist2_sym w p q : dist2 w p q = dist2 w q p.
Proof. unfold dist2. ring. Qed.
Lemma dist2_pos w p q : w <> 0%nat -> p <> q -> (0 < dist2 w p q)%Z.
Proof.
  intros W H. unfold dist2. set (d := (_ - _)%Z). set (e := (Z.of_nat (p / w) - _)%Z).
  assert (d <> 0 \/ e <> 0)%Z; [|nia]. destruct (Z.eq_dec d 0); [right|now left]. intros E. apply H.
  pose proof (Nat.div_mod p w W) as Dp. pose proof (Nat.div_mod q w W) as Dq.
  assert (E1 : (p mod w = q mod w)%nat) by lia. assert (E2 : (p / w = q / w)%nat) by lia. rewrite E1, E2 in Dp. lia.
Qed.
Lemma heron w p q r : let a := dist2 w q r in let b := dist2 w p q in let c := dist2 w p r in
  ((a - b - c) * (a - b - c) <= 4 * (b * c))%Z.
Proof.
  unfold dist2. cbn zeta. set (x1 := Z.of_nat (p mod w)). set (x2 := Z.of_nat (q mod w)). set (x3 := Z.of_nat (r mod w)).
  set (y1 := Z.of_nat (p / w)). set (y2 := Z.of_nat (q / w)). set (y3 := Z.of_nat (r / w)).
  pose proof (Z.square_nonneg ((x2 - x1) * (y3 - y1) - (x3 - x1) * (y2 - y1))) as Hs.
  match goal with |- (?l <= ?r)%Z => assert (E : (r - l = 4 * (((x2 - x1) * (y3 - y1) - (x3 - x1) * (y2 - y1)) * ((x2 - x1) * (y3 - y1) - (x3 - x1) * (y2 - y1))))%Z) by ring end.
  lia.
Qed.
Lemma sides_dist w p1 p2 p3 :
  sides w p1 p2 p3 = if Z.ltb (Z.of_nat (p2 mod w)) (Z.of_nat (p3 mod w))
    then (dist2 w p3 p2, dist2 w p1 p3, dist2 w p1 p2) else (dist2 w p2 p3, dist2 w p1 p2, dist2 w p1 p3).
Proof. unfold sides, dist2. destruct (Z.ltb _ _); reflexivity. Qed.

Definition ikey (w p1 p2 p3 : nat) : key :=
  let '(a, b, c) := sides w p1 p2 p3 in
  (iangle (a - b - c) (b * c), iangle (b - c - a) (c * a), iangle (c - a - b) (a * b)).

Lemma triangleKey_quarter w p1 p2 p3 : w <> 0%nat -> p1 <> p2 -> p2 <> p3 -> p1 <> p3 ->
  triangleKey w (PI / 4) p1 p2 p3 = ikey w p1 p2 p3.
Proof.
  intros W H1 H2 H3. unfold triangleKey, ikey. rewrite sides_dist.
  assert (G : forall p q r, p <> q -> q <> r -> p <> r ->
    angle (PI / 4) (dist2 w q r - dist2 w p q - dist2 w p r) (dist2 w p q * dist2 w p r) =
    iangle (dist2 w q r - dist2 w p q - dist2 w p r) (dist2 w p q * dist2 w p r)).
  { intros p q r A B C. apply angle_quarter; [|apply heron].
    pose proof (dist2_pos w p q W A). pose proof (dist2_pos w p r W C). nia. }
  assert (T : forall p q r, p <> q -> q <> r -> p <> r ->
    let a := dist2 w q r in let b := dist2 w p q in let c := dist2 w p r in
    (angle (PI / 4) (a - b - c) (b * c), angle (PI / 4) (b - c - a) (c * a), angle (PI / 4) (c - a - b) (a * b)) =
    (iangle (a - b - c) (b * c), iangle (b - c - a) (c * a), iangle (c - a - b) (a * b))).
  { intros p q r A B C a b c. f_equal; [f_equal|].
    - apply G; auto.
    - pose proof (G r p q (not_eq_sym C) A (not_eq_sym B)) as X. rewrite (dist2_sym w r p), (dist2_sym w r q) in X. exact X.
    - pose proof (G q r p B (not_eq_sym C) (not_eq_sym A)) as X. rewrite (dist2_sym w r p), (dist2_sym w q p) in X. exact X. }
  destruct (Z.ltb _ _).
  - apply (T p1 p3 p2); auto.
  - apply (T p1 p2 p3); auto.
Qed.

(** * Moved triangles *)
Lemma angle_scale res z num n : (0 < z)%Z -> (0 <= n)%Z -> angle res (z * z * num) (z * z * (z * z) * n) = angle res num n.
Proof.
  intros Hz Hn. unfold angle. f_equal. f_equal. f_equal. apply IZR_lt in Hz. apply IZR_le in Hn. rewrite !mult_IZR.
  rewrite sqrt_mult by nra. rewrite sqrt_square by nra.
  destruct (Req_dec (sqrt (IZR n)) 0) as [E|E].
  - rewrite E. rewrite !Rmult_0_r. unfold Rdiv. rewrite Rinv_0. ring.
  - field. lra.
Qed.
Lemma dist2_move W H z dx dy p q : onT W H z dx dy p -> onT W H z dx dy q ->
  dist2 W (mv W z dx dy p) (mv W z dx dy q) = (z * z * dist2 W p q)%Z.
Proof.
  intros Hp Hq. destruct (mv_pixel W H z dx dy p Hp) as (_ & A2 & A3). destruct (mv_pixel W H z dx dy q Hq) as (_ & B2 & B3).
  unfold dist2. rewrite A2, A3, B2, B3. ring.
Qed.
Lemma dist2_nonneg w p q : (0 <= dist2 w p q)%Z.
Proof. unfold dist2. cbn zeta. apply Z.add_nonneg_nonneg; apply Z.square_nonneg. Qed.

Lemma triangleKey_move W H z dx dy res p1 p2 p3 : (1 <= z)%Z ->
  onT W H z dx dy p1 -> onT W H z dx dy p2 -> onT W H z dx dy p3 ->
  triangleKey W res (mv W z dx dy p1) (mv W z dx dy p2) (mv W z dx dy p3) = triangleKey W res p1 p2 p3.
Proof.
  intros Hz H1 H2 H3. unfold triangleKey. rewrite !sides_dist.
  destruct (mv_pixel W H z dx dy p2 H2) as (_ & A2 & _). destruct (mv_pixel W H z dx dy p3 H3) as (_ & A3 & _). rewrite A2, A3.
  assert (E : (z * Z.of_nat (p2 mod W) + dx <? z * Z.of_nat (p3 mod W) + dx)%Z = (Z.of_nat (p2 mod W) <? Z.of_nat (p3 mod W))%Z).
  { destruct (Z.ltb_spec (Z.of_nat (p2 mod W)) (Z.of_nat (p3 mod W))); [apply Z.ltb_lt; nia|apply Z.ltb_ge; nia]. }
  rewrite E. clear E.
  assert (T : forall a b c, (0 <= a)%Z -> (0 <= b)%Z -> (0 <= c)%Z ->
    (angle res (z * z * a - z * z * b - z * z * c) (z * z * b * (z * z * c)),
     angle res (z * z * b - z * z * c - z * z * a) (z * z * c * (z * z * a)),
     angle res (z * z * c - z * z * a - z * z * b) (z * z * a * (z * z * b))) =
    (angle res (a - b - c) (b * c), angle res (b - c - a) (c * a), angle res (c - a - b) (a * b))).
  { intros a b c Ha Hb Hc.
    assert (U : forall x y v, (0 <= y)%Z -> (0 <= v)%Z -> angle res (z * z * x - z * z * y - z * z * v) (z * z * y * (z * z * v)) = angle res (x - y - v) (y * v)).
    { intros x y v Hy Hv. rewrite <- (angle_scale res z (x - y - v) (y * v)) by nia. f_equal; ring. }
    now rewrite !U. }
  destruct (Z.ltb _ _); rewrite !(dist2_move W H z dx dy) by auto; apply T; apply dist2_nonneg.
Qed.
