(** Theorems about ratios in double precision (C107).  [lists h a rows] (DataSet_Spec): the data set at address [a] shows the instances
    [rows]. *)
From Coq Require Import Permutation Lra Lia Psatz.
From Flocq Require Import Core BinarySingleNaN.
From Verif Require Import Base BaseFacts Activation_Model Float_Model Float_Spec Float_Proofs DataSet_Model DataSet_Spec DataSet_Proofs FloatSplit_Model FloatSplit_Proofs.
Local Open Scope R_scope.

Section Props.
Context {V : Type}.

(** For every ratio between 0 and 1, a split divides the data set in two parts.  The size of the first part is that of C02 up to a rounding
    error. *)
Theorem C107_split_partition (h : heap V) ds (ratio : double) (shuffling : bool) shuf rows :
  lists h ds rows -> (Z.of_nat (length rows) < 2 ^ 31)%Z -> finite ratio -> 0 <= val ratio <= 1 -> shuffles shuf ->
  exists v1 v2 part1 part2,
    d_splitRatio h ds ratio shuffling shuf [] = Ok [v1; v2] /\
    lists (h ++ [v1; v2]) (length h) part1 /\
    lists (h ++ [v1; v2]) (length h + 1) part2 /\
    (if shuffling then Permutation (part1 ++ part2) rows else part1 ++ part2 = rows) /\
    exists product, faithful product (val ratio * INR (length rows)) /\
      INR (length part1) - 1 < val product <= INR (length part1).
Proof.
  intros L HN F B Hs. pose proof L as [HS _]. destruct (product_ok ratio (length rows) F B HN) as (P & Pb & _).
  destruct (ceil_ok _ (length rows) (proj1 P) Pb HN) as (k & Ek & Hk & Bk). destruct (ratio_of k (length rows) Hk) as (r & Br & Er).
  destruct (split_ratio_ok h ds r shuffling shuf rows L Br Hs) as (v1 & v2 & p1 & p2 & E & L1 & L2 & Q & S1). exists v1, v2, p1, p2.
  rewrite (split_same h ds ratio shuffling shuf (length rows) r k HS F B Br Ek Er). repeat (split; [assumption|]). eexists. split; [exact P|].
  rewrite Er in S1. assert (EL : length p1 = k). { assert (A1 : INR (length p1) < INR (k + 1)) by (rewrite plus_INR; cbn; lra). apply INR_lt in A1. assert (A2 : INR k <= INR (length p1)) by lra. apply INR_le in A2. lia. }
  rewrite EL. exact Bk.
Qed.
(** The ratio p / q, written as a quotient or as a decimal number ([nearest]): the number k of instances in the first part is the documented
    one, p N / q rounded up, if p N / q is not an integer; otherwise it may be one more. *)
Theorem C107_split_size_partial (h : heap V) ds (ratio : double) (shuffling : bool) shuf rows p q :
  lists h ds rows -> (Z.of_nat (length rows) < 2 ^ 31)%Z -> (0 <= p <= q)%Z -> (0 < q <= 2 ^ 19)%Z -> nearest ratio (IZR p / IZR q) -> shuffles shuf ->
  exists v1 v2 part1 part2,
    d_splitRatio h ds ratio shuffling shuf [] = Ok [v1; v2] /\
    lists (h ++ [v1; v2]) (length h) part1 /\ lists (h ++ [v1; v2]) (length h + 1) part2 /\
    let k := Z.of_nat (length part1) in let n := Z.of_nat (length rows) in
    (~ (q | p * n) -> q * (k - 1) < p * n < q * k)%Z /\
    ((q | p * n) -> q * k = p * n \/ q * k = p * n + q)%Z.
Proof.
  intros L HN Hp Hq Hr Hs. pose proof L as [HS _]. assert (F : finite ratio) by apply Hr.
  assert (B : 0 <= val ratio <= 1) by (apply (nearest_unit ratio p q Hp (proj1 Hq) Hr)).
  destruct (product_ok ratio (length rows) F B HN) as (P & Pb & _).
  destruct (ceil_ok _ (length rows) (proj1 P) Pb HN) as (k & Ek & Hk & Bk). destruct (ratio_of k (length rows) Hk) as (r & Br & Er).
  destruct (split_ratio_ok h ds r shuffling shuf rows L Br Hs) as (v1 & v2 & p1 & p2 & E & L1 & L2 & Q & S1). exists v1, v2, p1, p2.
  rewrite (split_same h ds ratio shuffling shuf (length rows) r k HS F B Br Ek Er). do 3 (split; [assumption|]). cbv zeta.
  rewrite Er in S1. assert (EL : length p1 = k). { assert (A1 : INR (length p1) < INR (k + 1)) by (rewrite plus_INR; cbn; lra). apply INR_lt in A1. assert (A2 : INR k <= INR (length p1)) by lra. apply INR_le in A2. lia. }
  rewrite EL. pose proof (product_near ratio (length rows) p q HN Hp (proj1 Hq) F B Hr) as A. pose proof (near_ceil _ k (length rows) p q Hq A Bk) as C. exact (size_cases _ _ _ _ (proj1 Hq) C).
Qed.
(** Ratios like 0.5 or 0.75, whose binary representation is exact and short: the number of instances is always the documented one. *)
Theorem C107_split_size_dyadic (h : heap V) ds (ratio : double) (shuffling : bool) shuf rows p b :
  lists h ds rows -> (Z.of_nat (length rows) < 2 ^ 31)%Z -> (0 <= p <= 2 ^ Z.of_nat b)%Z -> (b <= 19)%nat -> finite ratio -> val ratio = IZR p / 2 ^ b -> shuffles shuf ->
  exists v1 v2 part1 part2,
    d_splitRatio h ds ratio shuffling shuf [] = Ok [v1; v2] /\
    lists (h ++ [v1; v2]) (length h) part1 /\ lists (h ++ [v1; v2]) (length h + 1) part2 /\
    (2 ^ Z.of_nat b * (Z.of_nat (length part1) - 1) < p * Z.of_nat (length rows) <= 2 ^ Z.of_nat b * Z.of_nat (length part1))%Z.
Proof.
  intros L HN Hp Hb F Vr Hs. assert (Pb0 : 0 < 2 ^ b) by (apply pow_lt; lra). assert (Eb : 2 ^ b = IZR (2 ^ Z.of_nat b)) by apply pow_IZR.
  assert (B : 0 <= val ratio <= 1).
  { rewrite Vr. assert (0 <= IZR p) by (apply IZR_le; lia). assert (IZR p <= 2 ^ b) by (rewrite Eb; apply IZR_le; lia). split.
    - unfold Rdiv. apply Rmult_le_pos; [lra|]. left. now apply Rinv_0_lt_compat.
    - apply Rmult_le_reg_r with (2 ^ b); auto. unfold Rdiv. rewrite Rmult_assoc, Rinv_l by lra. lra. }
  destruct (C107_split_partition h ds ratio shuffling shuf rows L HN F B Hs) as (v1 & v2 & p1 & p2 & E & L1 & L2 & _ & f & P & S1).
  exists v1, v2, p1, p2. repeat (split; [assumption|]).
  assert (B19 : (2 ^ Z.of_nat b <= 2 ^ 19)%Z) by (apply Z.pow_le_mono_r; lia).
  assert (EX : val f = val ratio * INR (length rows)).
  { destruct (product_ok ratio (length rows) F B HN) as (_ & _ & M). destruct (double_of_fmt (val ratio * INR (length rows)) M) as (D1 & D2).
    - change fexp64 with (FLT_exp (-1074) 53). apply generic_format_FLT. exists (Float radix2 (p * Z.of_nat (length rows)) (- Z.of_nat b)); cbn [Fnum Fexp].
      + unfold F2R. cbn [Fnum Fexp]. rewrite Vr, mult_IZR, <- INR_IZR_INZ, bpow_opp, bpow_pow. field. lra.
      + rewrite Z.abs_eq by nia. apply Z.le_lt_trans with (2 ^ 19 * 2 ^ 31)%Z; [nia|]. reflexivity.
      + lia.
    - apply (faithful_exact _ _ _ P D1 D2). }
  rewrite EX, Vr in S1. rewrite !INR_IZR_INZ in S1. assert (W : IZR p / 2 ^ b * IZR (Z.of_nat (length rows)) * 2 ^ b = IZR (p * Z.of_nat (length rows))) by (rewrite mult_IZR; field; lra).
  set (w := IZR p / 2 ^ b * IZR (Z.of_nat (length rows))) in *. split.
  - apply lt_IZR. rewrite mult_IZR, minus_IZR, <- Eb, <- W. nra.
  - apply le_IZR. rewrite (mult_IZR (2 ^ Z.of_nat b)), <- Eb, <- W. nra.
Qed.
(** The same for samples without replacement. *)
Theorem C107_sample_size_partial (h : heap V) ds (fraction : double) idx shuf rows p q :
  lists h ds rows -> (Z.of_nat (length rows) < 2 ^ 31)%Z -> (0 <= p <= q)%Z -> (0 < q <= 2 ^ 19)%Z -> nearest fraction (IZR p / IZR q) ->
  shuffles shuf ->
  exists v part rest,
    d_sample h ds fraction false idx shuf = Ok v /\ lists (h ++ [v]) (length h) part /\ Permutation (part ++ rest) rows /\
    let k := Z.of_nat (length part) in let n := Z.of_nat (length rows) in
    (~ (q | p * n) -> q * (k - 1) < p * n < q * k)%Z /\
    ((q | p * n) -> q * k = p * n \/ q * k = p * n + q)%Z.
Proof.
  intros L HN Hp Hq Hr Hs. pose proof L as [HS _]. assert (F : finite fraction) by apply Hr.
  assert (B : 0 <= val fraction <= 1) by (apply (nearest_unit fraction p q Hp (proj1 Hq) Hr)).
  destruct (product_ok fraction (length rows) F B HN) as (P & Pb & _).
  destruct (ceil_ok _ (length rows) (proj1 P) Pb HN) as (k & Ek & Hk & Bk). destruct (ratio_of k (length rows) Hk) as (r & Br & Er).
  assert (Ek' : d_ceil (dmult (dint (Z.of_nat (length rows))) fraction) = Ok (Z.of_nat k)) by (now rewrite mult_comm).
  destruct (sample_ok h ds r idx shuf rows L Br Hs) as (v & part & rest & E & L1 & Q & S1). exists v, part, rest.
  rewrite (sample_same h ds fraction idx false shuf (length rows) r k HS Ek' Er). do 3 (split; [assumption|]). cbv zeta.
  rewrite Rmult_comm, Er in S1. assert (EL : length part = k). { assert (A1 : INR (length part) < INR (k + 1)) by (rewrite plus_INR; cbn; lra). apply INR_lt in A1. assert (A2 : INR k <= INR (length part)) by lra. apply INR_le in A2. lia. }
  rewrite EL. pose proof (product_near fraction (length rows) p q HN Hp (proj1 Hq) F B Hr) as A. pose proof (near_ceil _ k (length rows) p q Hq A Bk) as C. exact (size_cases _ _ _ _ (proj1 Hq) C).
Qed.
(** Any other ratio, also NaN and infinity, is rejected (in debug builds). *)
Theorem C107_split_rejects (h : heap V) ds (ratio : double) (shuffling : bool) shuf :
  ~ (finite ratio /\ 0 <= val ratio <= 1) -> d_splitRatio h ds ratio shuffling shuf [] = Abort.
Proof.
  intros N. unfold d_splitRatio. destruct (dleb (dint 0) ratio && dleb ratio (dint 1))%bool eqn:E; [exfalso|reflexivity]. apply andb_prop in E. destruct E as (E1 & E2).
  assert (F : finite ratio). { destruct ratio as [|[]| |]; try reflexivity; discriminate. }
  destruct (int_ok 0) as (F0 & V0); [lia|]. destruct (int_ok 1) as (F1 & V1); [lia|]. apply leb_ok in E1; auto. apply leb_ok in E2; auto. rewrite V0 in E1. rewrite V1 in E2. now apply N.
Qed.
(** The size is not always the documented one: of 100 instances, 7 percent are 8 instances. *)
Theorem C107_seven_percent_refuted (h : heap V) ds (shuffling : bool) shuf rows :
  lists h ds rows -> length rows = 100%nat -> shuffles shuf ->
  nearest (literal 7 2) (7 / 100) /\
  exists v1 v2 part1,
    d_splitRatio h ds (literal 7 2) shuffling shuf [] = Ok [v1; v2] /\ lists (h ++ [v1; v2]) (length h) part1 /\ length part1 = 8%nat.
Proof.
  intros L HL Hs. pose proof (quotient_nearest 7 100 ltac:(lia) ltac:(lia)) as Q. change (nearest (literal 7 2) (7 / 100)) in Q. split; auto.
  pose proof L as [HS _]. assert (F : finite (literal 7 2)) by apply Q. assert (B : 0 <= val (literal 7 2) <= 1) by (apply (nearest_unit _ 7 100); auto; lia).
  destruct (product_ok (literal 7 2) 100 F B ltac:(lia)) as (P & Pb & _). change (Z.of_nat 100) with 100%Z in *.
  destruct (ceil_ok _ 100 (proj1 P) Pb ltac:(lia)) as (k & Ek & Hk & Bk). rewrite seven_percent in Bk.
  assert (K : k = 8%nat). { assert (A : 0 < / 2 ^ 50) by (apply Rinv_0_lt_compat, pow_lt; lra). assert (A' : / 2 ^ 50 < 1) by (rewrite <- Rinv_1; apply Rinv_lt_contravar; [rewrite Rmult_1_l; apply pow_lt; lra|apply Rlt_pow_R1; [lra|lia]]).
    assert (A1 : INR 7 < INR k) by (replace (INR 7) with 7 by (cbn; lra); lra). assert (A2 : INR k < INR 9) by (replace (INR 9) with 9 by (cbn; lra); lra). apply INR_lt in A1, A2. lia. }
  subst k. destruct (ratio_of 8 100 ltac:(lia)) as (r & Br & Er). destruct (split_ratio_ok h ds r shuffling shuf rows L Br Hs) as (v1 & v2 & p1 & p2 & E & L1 & L2 & _ & S1).
  exists v1, v2, p1. rewrite HL in HS, S1. rewrite (split_same h ds (literal 7 2) shuffling shuf 100 r 8 HS F B Br Ek Er). do 2 (split; [assumption|]).
  rewrite Er in S1. assert (A1 : INR (length p1) < INR 9) by (replace (INR 9) with (INR 8 + 1) by (rewrite <- S_INR; reflexivity); lra). assert (A2 : INR 8 <= INR (length p1)) by lra. apply INR_lt in A1. apply INR_le in A2. lia.
Qed.
End Props.
Print Assumptions C107_split_partition.
Print Assumptions C107_split_size_partial.
Print Assumptions C107_split_size_dyadic.
Print Assumptions C107_sample_size_partial.
Print Assumptions C107_split_rejects.
Print Assumptions C107_seven_percent_refuted.

(** The hypotheses can be met: 100 instances, the ratios 0.07, 1 / 3 and 0.75. *)
Definition hundred : list (nat * nat) := map (fun i => (i, i + 1))%nat (seq 0 100).
Example ex_hundred : lists [Direct hundred] 0 hundred /\ length hundred = 100%nat.
Proof. split; [now apply lists_direct|reflexivity]. Qed.
Example ex_ratios : nearest (literal 7 2) (IZR 7 / IZR 100) /\ nearest (ddiv (dint 1) (dint 3)) (IZR 1 / IZR 3).
Proof. split; apply (quotient_nearest 7 100) || apply (quotient_nearest 1 3); lia. Qed.
Example ex_dyadic : finite (literal 75 2) /\ val (literal 75 2) = IZR 3 / 2 ^ 2.
Proof. split; [vm_compute; reflexivity|]. unfold val. rewrite <- SF2R_B2SF. set (s := B2SF _). vm_compute in s. subst s. cbn [SF2R]. unfold F2R. cbn [Fnum Fexp cond_Zopp]. change (bpow radix2 (-53)) with (/ IZR (2 ^ 53)). change (2 ^ 53)%Z with (6755399441055744 / 3 * 4)%Z. change 6755399441055744%Z with (3 * 2251799813685248)%Z. change (3 * 2251799813685248 / 3 * 4)%Z with (2251799813685248 * 4)%Z. rewrite !mult_IZR. field. Qed.
(** the sizes: 34 of 100 for 1 / 3, 75 of 100 for 0.75, and NaN is not a ratio *)
Example ex_third shuf : shuffles shuf -> exists v1 v2 part1 part2, d_splitRatio [Direct hundred] 0 (ddiv (dint 1) (dint 3)) true shuf [] = Ok [v1; v2] /\
  lists ([Direct hundred] ++ [v1; v2]) 1 part1 /\ lists ([Direct hundred] ++ [v1; v2]) 2 part2 /\ length part1 = 34%nat.
Proof.
  intros Hs. destruct (C107_split_size_partial [Direct hundred] 0 (ddiv (dint 1) (dint 3)) true shuf hundred 1 3 (proj1 ex_hundred) ltac:(now vm_compute) ltac:(lia) ltac:(lia) (proj2 ex_ratios) Hs) as (v1 & v2 & p1 & p2 & E & L1 & L2 & S1 & _).
  exists v1, v2, p1, p2. do 3 (split; [assumption|]). change (length hundred) with 100%nat in S1. assert (N : ~ (3 | 1 * Z.of_nat 100)%Z) by (intros (c & Ec); lia). specialize (S1 N). lia.
Qed.
Example ex_nan : ~ (finite B754_nan /\ 0 <= val B754_nan <= 1).
Proof. intros (F & _). discriminate. Qed.
