(** Theorems about MaxPooling (C35). *)
From Verif Require Import Base BaseFacts Matrix RSum MatOps Vec Deriv Acc Activation_Model
  Layer_Model Layer_Spec Layer_Proofs Layer_Layout FC_Model SimpleLayers_Proofs Image_Spec Pool_Model Pool MaxPool_Proofs.
Local Open Scope R_scope.

(** ** Specification *)
(** [m] is the maximum of [f] on a kr x kc rectangle *)
Definition is_max (kr kc : nat) (f : nat -> nat -> R) (m : R) : Prop :=
  (forall r c, (r < kr)%nat -> (c < kc)%nat -> f r c <= m) /\
  exists r c, (r < kr)%nat /\ (c < kc)%nat /\ f r c = m.
(** the region of map [o] that belongs to output (ro, co) *)
Definition regionOf (R C kr kc : nat) (X : mat) (n o ro co r c : nat) : Rdefinitions.R :=
  pixel R C X n o (ro * kr + r) (co * kc + c).

(** the largest double, (2 ^ 53 - 1) * 2 ^ 971 *)
Definition largestDouble : R := 2 ^ 1024 - 2 ^ 971.
Lemma dbl_max : DBL_MAX = largestDouble.
Proof.
  unfold DBL_MAX, largestDouble. replace (2 ^ 1024) with (2 * 2 ^ 1023) by (rewrite tech_pow_Rmult; reflexivity).
  replace (2 ^ 1023) with (2 ^ 52 * 2 ^ 971) by (rewrite <- pow_add; reflexivity). field.
Qed.

(** initialize succeeds exactly if there is a map and the kernel fits *)
Theorem C35_maxp_initialize junk fm R C kr kc :
  (exists s, maxp_new junk fm R C kr kc = Ok s) <-> (0 < fm /\ 0 < kr <= R /\ 0 < kc <= C)%nat.
Proof.
  rewrite <- pgeom_new_iff. unfold maxp_new. split.
  - intros (s & E). destruct (pgeom_new fm R C kr kc) as [g| | | |]; try discriminate E. eauto.
  - intros (g & E). rewrite E. cbn [bind]. eauto.
Qed.

Lemma maxp_new_inv junk fm R C kr kc s : maxp_new junk fm R C kr kc = Ok s ->
  pgeom_ok (pgeom_of fm R C kr kc) /\ maxp_inv (pgeom_of fm R C kr kc) s.
Proof.
  unfold maxp_new. intros E. destruct (pgeom_new fm R C kr kc) as [g| | | |] eqn:Eg; try discriminate E.
  destruct (pgeom_new_ok _ _ _ _ _ _ Eg) as (E1 & Hg & _). rewrite <- E1. split; auto. cbn [bind] in E.
  assert (E2 : forall a b : maxp, Ok a = Ok b -> b = a) by congruence. apply E2 in E. rewrite E. clear E E2.
  destruct (psizes g Hg) as (Z1 & Z2). assert (Ef : pfm g = fm) by (rewrite E1; auto).
  assert (Er : pinRows g = R) by (rewrite E1; auto). assert (Ec : pinCols g = C) by (rewrite E1; auto).
  rewrite Ef in Z1, Z2. rewrite Er, Ec in Z1. split; auto.
Qed.

Section Link.
Context (junk : nat -> nat -> Rdefinitions.R) (fm R C kr kc : nat).
Notation g := (pgeom_of fm R C kr kc).
Notation I := (fm * (R * C))%nat.
Notation O := (fm * (R / kr * (C / kc)))%nat.

Lemma pout_pixel Y n o ro co : pixel (R / kr) (C / kc) Y n o ro co = at_ Y n (pout g o ro co).
Proof.
  unfold pixel, pout. f_equal. change (pfmOutSize g) with (R / kr * (C / kc))%nat. change (poutCols g) with (C / kc)%nat. lia.
Qed.
Lemma pbase_index o ro co c : (pbase g o ro co + c)%nat = (o * (R * C) + ((ro * kr + 0) * C + (co * kc + c)))%nat.
Proof.
  unfold pbase. change (pfmInSize g) with (R * C)%nat. change (pinCols g) with C.
  change (pkernelRows g) with kr. change (pkernelCols g) with kc. lia.
Qed.
Lemma entry_region (Hg : pgeom_ok g) X n o ro co c : (ro < R / kr)%nat -> (co < C / kc)%nat ->
  entry g X n (pout g o ro co) c = regionOf R C kr kc X n o ro co 0 c.
Proof.
  intros Hr Hc. rewrite (entry_pout g Hg) by auto. unfold regionOf, pixel. now rewrite pbase_index.
Qed.

(** ** C35: the forward pass at any time in the life of the layer.  Only the first row of
    each region is read.  If its entries are doubles (none smaller than -largestDouble), the output
    is their maximum. *)
Theorem C35_maxp_forward s0 s X dropout :
  maxp_new junk fm R C kr kc = Ok s0 -> history (maxp_class junk) I O s0 s -> cols X = I ->
  exists q Y, maxp_forward junk s X dropout = Ok (q, Y, 0) /\ rows Y = rows X /\ cols Y = O /\
    forall n o ro co, (n < rows X)%nat -> (o < fm)%nat -> (ro < R / kr)%nat -> (co < C / kc)%nat ->
      (forall c, (c < kc)%nat -> - largestDouble <= regionOf R C kr kc X n o ro co 0 c) ->
      is_max 1 kc (regionOf R C kr kc X n o ro co) (pixel (R / kr) (C / kc) Y n o ro co).
Proof.
  rewrite <- dbl_max.
  intros E0 Hh HX. destruct (maxp_new_inv _ _ _ _ _ _ _ E0) as (Hg & Hi0).
  apply (maxp_history junk g Hg _ _ s0 s Hi0) in Hh; auto.
  destruct (maxp_forward_ok junk g Hg s X dropout (rows X) Hh) as (q & Y & Ef & (S1 & S2) & _ & F & _); [split; auto|].
  exists q, Y. split; auto. split; auto. split; auto. intros n o ro co Hn Ho Hr Hc Hlow.
  assert (Hj : (pout g o ro co < pO g)%nat) by (apply (pout_range g Hg); auto).
  rewrite pout_pixel, F by auto. change (pkernelCols g) with kc.
  rewrite (rmaxs_ext kc _ (fun c => regionOf R C kr kc X n o ro co 0 c)) by (intros; now apply entry_region).
  set (f := fun c => regionOf R C kr kc X n o ro co 0 c) in *.
  assert (Hk : (0 < kc)%nat) by (destruct Hg as (_ & H & _); exact H). split.
  - intros r c Hr0 Hc0. assert (r = 0%nat) by lia. subst r. now apply (rmaxs_ge kc f).
  - destruct (rmaxs_attained kc f (- DBL_MAX)) as [E|(i & Hi & E)].
    + exists 0%nat, 0%nat. split; [lia|]. split; auto. rewrite E.
      apply Rle_antisym; [|apply Hlow; auto]. rewrite <- E. now apply (rmaxs_ge kc f).
    + exists 0%nat, i. auto.
Qed.

(** ** C35: the documented forward pass, for kernels with one row *)
Theorem C35_maxp_maximum_partial s0 s X dropout :
  kr = 1%nat ->
  maxp_new junk fm R C kr kc = Ok s0 -> history (maxp_class junk) I O s0 s -> cols X = I ->
  exists q Y, maxp_forward junk s X dropout = Ok (q, Y, 0) /\ rows Y = rows X /\ cols Y = O /\
    forall n o ro co, (n < rows X)%nat -> (o < fm)%nat -> (ro < R / kr)%nat -> (co < C / kc)%nat ->
      (forall r c, (r < kr)%nat -> (c < kc)%nat -> - largestDouble <= regionOf R C kr kc X n o ro co r c) ->
      is_max kr kc (regionOf R C kr kc X n o ro co) (pixel (R / kr) (C / kc) Y n o ro co).
Proof.
  intros Hk E0 Hh HX. destruct (C35_maxp_forward s0 s X dropout E0 Hh HX) as (q & Y & E1 & E2 & E3 & F).
  exists q, Y. repeat (split; auto). 
  - destruct (F n o ro co) as (F1 & _); auto. { intros. apply H3; auto. lia. } intros r c Hr Hc. apply F1; auto. lia.
  - destruct (F n o ro co) as (_ & (r & c & F2 & F3 & F4)); auto. { intros. apply H3; auto. lia. }
    exists r, c. split; [lia|auto].
Qed.

(** ** C35: the backward pass.  If the first row of each region has an entry larger than
    -DBL_MAX, then the error of each output arrives at the first maximum of that row, and all
    other entries are 0. *)
Theorem C35_maxp_backward s0 s X dropout q Y r0 ein bp :
  maxp_new junk fm R C kr kc = Ok s0 -> history (maxp_class junk) I O s0 s -> cols X = I ->
  maxp_forward junk s X dropout = Ok (q, Y, r0) -> rows ein = rows X -> cols ein = O ->
  (forall n o ro co, (n < rows X)%nat -> (o < fm)%nat -> (ro < R / kr)%nat -> (co < C / kc)%nat ->
     exists c, (c < kc)%nat /\ - largestDouble < regionOf R C kr kc X n o ro co 0 c) ->
  exists q2 eout, maxp_backward q ein bp = Ok (q2, eout) /\ rows eout = rows X /\ cols eout = I /\
    (forall n o ro co, (n < rows X)%nat -> (o < fm)%nat -> (ro < R / kr)%nat -> (co < C / kc)%nat ->
       exists k, (k < kc)%nat /\
         (forall c, (c < kc)%nat -> regionOf R C kr kc X n o ro co 0 c <= regionOf R C kr kc X n o ro co 0 k) /\
         (forall c, (c < k)%nat -> regionOf R C kr kc X n o ro co 0 c < regionOf R C kr kc X n o ro co 0 k) /\
         (forall c, (c < kc)%nat -> regionOf R C kr kc eout n o ro co 0 c =
            if Nat.eqb c k then pixel (R / kr) (C / kc) ein n o ro co else 0)) /\
    (forall n i, (n < rows X)%nat ->
       (forall o ro co c, (o < fm)%nat -> (ro < R / kr)%nat -> (co < C / kc)%nat -> (c < kc)%nat ->
          i <> (o * (R * C) + ((ro * kr) * C + (co * kc + c)))%nat) -> at_ eout n i = 0).
Proof.
  rewrite <- dbl_max.
  intros E0 Hh HX Ef He1 He2 Hlow. destruct (maxp_new_inv _ _ _ _ _ _ _ E0) as (Hg & Hi0).
  apply (maxp_history junk g Hg _ _ s0 s Hi0) in Hh; auto.
  destruct (maxp_forward_ok junk g Hg s X dropout (rows X) Hh) as (q1 & Y1 & Ef1 & SY & Hq1 & _ & M1 & M2); [split; auto|].
  assert (q1 = q) by congruence. subst q1.
  destruct (maxp_backward_ok g Hg q (rows X) Y1 X ein bp) as (q2 & eout & Eb & _ & (So1 & So2) & Fo); auto; try (split; auto; fail).
  { intros n j Hn Hj. destruct (pout_split g Hg j Hj) as (o & ro & co & Ho & Hr & Hc & ->).
    destruct (Hlow n o ro co Hn Ho Hr Hc) as (c & Hc0 & Hl). exists c. split; auto. rewrite entry_region; auto. }
  assert (Hk : (0 < kc)%nat) by (destruct Hg as (_ & H & _); exact H).
  exists q2, eout. split; auto. split; auto. split; auto. split.
  - intros n o ro co Hn Ho Hr Hc. set (f := fun c => regionOf R C kr kc X n o ro co 0 c).
    assert (Hj : (pout g o ro co < pO g)%nat) by (apply (pout_range g Hg); auto).
    assert (Es : source g X n (pout g o ro co) = (pbase g o ro co + amax kc f)%nat).
    { rewrite (source_pout g Hg) by auto. f_equal. apply amax_ext. intros i Hi. unfold f.
      rewrite <- entry_region by auto. now rewrite entry_pout by auto. }
    exists (amax kc f). split; [now apply amax_lt|]. split; [intros c Hc0; now apply (amax_ge kc f)|].
    split; [intros c Hc0; now apply (amax_first kc f)|].
    intros c Hc0. unfold regionOf at 1, pixel at 1. rewrite <- pbase_index. rewrite Fo by auto. unfold passed.
    rewrite pout_pixel. destruct (Nat.eqb_spec c (amax kc f)) as [->|Hne].
    + rewrite (rsum_single (pO g) (pout g o ro co)); auto.
      * now rewrite Es, Nat.eqb_refl.
      * intros j Hj' Hne. destruct (Nat.eqb_spec (pbase g o ro co + amax kc f) (source g X n j)) as [E|]; auto.
        rewrite <- Es in E. apply (source_inj g Hg) in E; auto. congruence.
    + apply rsum_0. intros j Hj'. destruct (Nat.eqb_spec (pbase g o ro co + c) (source g X n j)) as [E|]; auto.
      exfalso. destruct (pout_split g Hg j Hj') as (o' & ro' & co' & Ho' & Hr' & Hc' & ->).
      rewrite (source_pout g Hg) in E by auto. apply (pbase_inj g Hg) in E; auto.
      * destruct E as (-> & -> & -> & E). apply Hne. rewrite E. apply amax_ext. intros i Hi. unfold f.
        rewrite <- entry_region by auto. now rewrite entry_pout by auto.
      * now apply amax_lt.
  - intros n i Hn Hi. rewrite Fo by auto. apply rsum_0. intros j Hj.
    destruct (Nat.eqb_spec i (source g X n j)) as [E|]; auto. exfalso.
    destruct (pout_split g Hg j Hj) as (o & ro & co & Ho & Hr & Hc & ->). rewrite (source_pout g Hg) in E by auto.
    rewrite pbase_index in E. apply (Hi o ro co (amax kc (fun i => at_ X n (pbase g o ro co + i)%nat))); auto.
    { now apply amax_lt. }
    rewrite E. change (pkernelCols g) with kc. lia.
Qed.

(** ** C35: where the maximum of the first row of each region is attained once, the error that
    is passed back is the exact derivative. *)
Theorem C35_maxp_gradient s0 s X dropout e bp :
  maxp_new junk fm R C kr kc = Ok s0 -> history (maxp_class junk) I O s0 s -> cols X = I ->
  rows e = rows X -> cols e = O ->
  (forall n o ro co, (n < rows X)%nat -> (o < fm)%nat -> (ro < R / kr)%nat -> (co < C / kc)%nat ->
     exists k, (k < kc)%nat /\ - largestDouble < regionOf R C kr kc X n o ro co 0 k /\
       forall c, (c < kc)%nat -> c <> k -> regionOf R C kr kc X n o ro co 0 c < regionOf R C kr kc X n o ro co 0 k) ->
  partials_exact (maxp_class junk) s [] X dropout e bp.
Proof.
  rewrite <- dbl_max.
  intros E0 Hh HX He1 He2 Sm. destruct (maxp_new_inv _ _ _ _ _ _ _ E0) as (Hg & Hi0).
  apply (maxp_history junk g Hg _ _ s0 s Hi0) in Hh; auto.
  apply (contract_partials (maxp_class junk) (pI g) (pO g) 0 (maxp_inv g) (maxp_smooth g)); auto.
  { apply (maxp_contract junk g Hg). }
  intros q E n j Hn Hj. destruct (pout_split g Hg j Hj) as (o & ro & co & Ho & Hr & Hc & ->).
  destruct (Sm n o ro co Hn Ho Hr Hc) as (k & Hk & Hl & Hu). exists k. split; auto. rewrite !entry_region by auto.
  split; auto. intros i Hi Hne. rewrite !entry_region by auto. auto.
Qed.
End Link.

(** ** C35 is false for kernels with two or more rows: for every such kernel there is an image
    for which an output is not the maximum of its region. *)
Theorem C35_maxp_maximum_refuted junk fm R C kr kc :
  (0 < fm)%nat -> (2 <= kr <= R)%nat -> (0 < kc <= C)%nat ->
  exists s X q Y,
    maxp_new junk fm R C kr kc = Ok s /\ rows X = 1%nat /\ cols X = (fm * (R * C))%nat /\
    (forall i, - largestDouble <= at_ X 0 i) /\ maxp_forward junk s X false = Ok (q, Y, 0) /\
    ~ is_max kr kc (regionOf R C kr kc X 0 0 0 0) (pixel (R / kr) (C / kc) Y 0 0 0 0).
Proof.
  intros Hf Hk Hc.
  destruct (proj2 (C35_maxp_initialize junk fm R C kr kc)) as (s & E); [lia|].
  set (X := mkMat 1 (fm * (R * C)) (fun _ i => if Nat.eqb i C then 1 else 0)).
  assert (P1 : (0 < R / kr)%nat) by (apply Nat.div_str_pos; lia).
  assert (P2 : (0 < C / kc)%nat) by (apply Nat.div_str_pos; lia).
  assert (Hd : - largestDouble <= 0).
  { rewrite <- dbl_max. unfold DBL_MAX. assert (0 < 2 ^ 1023) by (apply pow_lt; lra). assert (0 < / 2 ^ 52 < 1).
    { split; [apply Rinv_0_lt_compat, pow_lt; lra|]. rewrite <- Rinv_1. apply Rinv_1_lt_contravar; [lra|].
      apply Rlt_pow_R1; [lra|lia]. }
    nra. }
  assert (Hz : forall c, (c < kc)%nat -> regionOf R C kr kc X 0 0 0 0 0 c = 0).
  { intros c Hc'. unfold regionOf, pixel, X. cbn [at_].
    destruct (Nat.eqb_spec (0 * (R * C) + ((0 * kr + 0) * C + (0 * kc + c))) C); auto. lia. }
  destruct (C35_maxp_forward junk fm R C kr kc s s X false E) as (q & Y & E1 & E2 & E3 & F); auto.
  { constructor. }
  exists s, X, q, Y. split; auto. split; auto. split; auto. split.
  { intros i. unfold X. cbn [at_]. destruct (Nat.eqb i C); lra. }
  split; auto. intros (M1 & _).
  destruct (F 0%nat 0%nat 0%nat 0%nat) as (_ & (r & c & Hr & Hc' & E4)); auto.
  { intros c Hc'. rewrite Hz; auto. }
  assert (r = 0%nat) by lia. subst r. rewrite Hz in E4 by auto.
  assert (M2 : regionOf R C kr kc X 0 0 0 0 1 0 <= pixel (R / kr) (C / kc) Y 0 0 0 0) by (apply M1; lia).
  rewrite <- E4 in M2. unfold regionOf, pixel, X in M2. cbn [at_] in M2.
  destruct (Nat.eqb_spec (0 * (R * C) + ((0 * kr + 1) * C + (0 * kc + 0))) C); [lra|lia].
Qed.

(** ** Two regions of a 1 x 4 image: 1, 3 and 5, 2 *)
Example maxp_example : forall junk, exists s0,
  maxp_new junk 1 1 4 1 2 = Ok s0 /\
  let X := mkMat 1 4 (fun _ i => nth i [1; 3; 5; 2] 0) in
  (exists q Y, maxp_forward junk s0 X false = Ok (q, Y, 0) /\ at_ Y 0 0 = 3 /\ at_ Y 0 1 = 5) /\
  forall e, rows e = 1%nat -> cols e = 2%nat -> partials_exact (maxp_class junk) s0 [] X false e true.
Proof.
  intros junk. destruct (proj2 (C35_maxp_initialize junk 1 1 4 1 2)) as (s0 & E); [lia|].
  assert (Hd : - largestDouble < 0).
  { rewrite <- dbl_max. unfold DBL_MAX. assert (0 < 2 ^ 1023) by (apply pow_lt; lra). assert (0 < / 2 ^ 52 < 1).
    { split; [apply Rinv_0_lt_compat, pow_lt; lra|]. rewrite <- Rinv_1. apply Rinv_1_lt_contravar; [lra|].
      apply Rlt_pow_R1; [lra|lia]. }
    nra. }
  exists s0. split; auto. intros X. split.
  - destruct (C35_maxp_forward junk 1 1 4 1 2 s0 s0 X false E) as (q & Y & E1 & E2 & E3 & F); auto.
    { constructor. }
    exists q, Y. split; auto. split.
    + destruct (F 0%nat 0%nat 0%nat 0%nat) as (M1 & (r & c & Hr & Hc & M2)); auto; try (simpl; lia).
      { intros [|[|c]] Hc; unfold regionOf, pixel, X; simpl; try lra; lia. }
      specialize (M1 0%nat 1%nat ltac:(lia) ltac:(lia)). destruct r; [|lia]. destruct c as [|[|c]]; [| |lia];
        unfold regionOf, pixel, X in *; simpl in *; lra.
    + destruct (F 0%nat 0%nat 0%nat 1%nat) as (M1 & (r & c & Hr & Hc & M2)); auto; try (simpl; lia).
      { intros [|[|c]] Hc; unfold regionOf, pixel, X; simpl; try lra; lia. }
      specialize (M1 0%nat 0%nat ltac:(lia) ltac:(lia)). destruct r; [|lia]. destruct c as [|[|c]]; [| |lia];
        unfold regionOf, pixel, X in *; simpl in *; lra.
  - intros e He1 He2. apply (C35_maxp_gradient junk 1 1 4 1 2 s0); auto.
    + constructor.
    + intros n o ro co Hn Ho Hr Hc. simpl in Hr, Hc, Hn. assert (n = 0%nat) by lia. assert (o = 0%nat) by lia.
      assert (ro = 0%nat) by lia. subst n o ro. destruct co as [|[|co]]; [| |lia].
      * exists 1%nat. split; [lia|]. split; [unfold regionOf, pixel, X; simpl; lra|].
        intros [|[|c]] Hc0 Hne; try lia. unfold regionOf, pixel, X; simpl; lra.
      * exists 0%nat. split; [lia|]. split; [unfold regionOf, pixel, X; simpl; lra|].
        intros [|[|c]] Hc0 Hne; try lia. unfold regionOf, pixel, X; simpl; lra.
Qed.

Print Assumptions C35_maxp_initialize.
Print Assumptions C35_maxp_forward.
Print Assumptions C35_maxp_maximum_partial.
Print Assumptions C35_maxp_backward.
Print Assumptions C35_maxp_gradient.
Print Assumptions C35_maxp_maximum_refuted.
