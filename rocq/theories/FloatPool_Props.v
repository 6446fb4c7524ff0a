(** Theorems about max-pooling of doubles (C108).  [dltb a b] is the C++ comparison a < b, which is false if a or b is NaN.
    As C35 shows, only the first row of each region is read. *)
From Coq Require Import Lra Lia.
From Flocq Require Import Core BinarySingleNaN.
From Verif Require Import Base BaseFacts Activation_Model Float_Model Float_Spec Float_Proofs Pool_Model Pool FloatPool_Model FloatPool_Proofs.

(** ** Specification *)
(** pixel (r, c) of map [i] of instance [n] for maps of [R] rows and [C] columns (as in Image_Spec) *)
Definition dpixel (R C : nat) (X : dmat) (n i r c : nat) : double := dat X n (i * (R * C) + (r * C + c)).
(** entry [c] of the first row of the region that belongs to output (ro, co) of map [o] *)
Definition firstRow (R C kr kc : nat) (X : dmat) (n o ro co c : nat) : double := dpixel R C X n o (ro * kr) (co * kc + c).
(** a number larger than -DBL_MAX *)
Definition aboveMin (x : double) : Prop := x = B754_infinity false \/ finite x /\ (- maxDouble < val x)%R.
(** -DBL_MAX *)
Definition isMin (x : double) : Prop := finite x /\ val x = (- maxDouble)%R.

Lemma lowest_min : isMin lowest.
Proof. split; [reflexivity|]. rewrite <- largest_val. unfold val, lowest, largest, B2R, cond_Zopp, F2R. cbn [Fnum Fexp]. change (- Z.pos 9007199254740991)%Z with (Z.opp (Z.pos 9007199254740991)). rewrite opp_IZR. lra. Qed.
Lemma above_iff x : dltb lowest x = true <-> aboveMin x.
Proof.
  destruct lowest_min as (F & V). unfold aboveMin. destruct (is_finite x) eqn:Fx.
  - rewrite (ltb_true lowest x F Fx), V. split; [auto|]. intros [-> | (_ & H)]; [discriminate|auto].
  - destruct x as [|[]| |]; try discriminate Fx; split; auto; try discriminate; intros [H | (H & _)]; discriminate.
Qed.
Lemma above_not x : dltb lowest x = false <-> ~ aboveMin x.
Proof. rewrite <- above_iff. destruct (dltb lowest x); split; intros H; congruence. Qed.

Section Link.
Context (fm R C kr kc : nat) (g : pgeom) (Hn : pgeom_new fm R C kr kc = Ok g).
Notation I := (fm * (R * C))%nat.
Notation O := (fm * (R / kr * (C / kc)))%nat.

Lemma geom : g = pgeom_of fm R C kr kc /\ pgeom_ok g.
Proof. destruct (pgeom_new_ok _ _ _ _ _ _ Hn) as (E & H & _). auto. Qed.
Lemma entry_first X n o ro co c : dentry g X n o ro co c = firstRow R C kr kc X n o ro co c.
Proof. destruct geom as (E & _). unfold dentry, firstRow, dpixel, pbase. rewrite E. cbn [pgeom_of pfmInSize pkernelRows pinCols pkernelCols]. f_equal. lia. Qed.
Lemma out_pixel Y n o ro co : dpixel (R / kr) (C / kc) Y n o ro co = dat Y n (pout g o ro co).
Proof. destruct geom as (E & _). unfold dpixel, pout. rewrite E. cbn [pgeom_of pfmOutSize poutCols]. f_equal. lia. Qed.

(** Each output is one of the numbers that is read and none of them is larger; NaN is ignored.  If there is no number larger than -DBL_MAX,
    in particular if all are NaN, then the output is -DBL_MAX.  It is never NaN. *)
Theorem C108_forward y X N :
  drows X = N -> dcols X = I -> drows y = N -> dcols y = O ->
  exists Y, d_maxp_forward g y X = Ok Y /\ drows Y = N /\ dcols Y = O /\
    forall n o ro co, n < N -> o < fm -> ro < R / kr -> co < C / kc ->
      let entry := firstRow R C kr kc X n o ro co in
      let out := dpixel (R / kr) (C / kc) Y n o ro co in
      (forall c, c < kc -> dltb out (entry c) = false) /\
      ((exists c, c < kc /\ aboveMin (entry c)) -> exists c, c < kc /\ out = entry c) /\
      ((forall c, c < kc -> ~ aboveMin (entry c)) -> isMin out) /\
      is_nan out = false.
Proof.
  destruct geom as (E & Hg). intros X1 X2 Y1 Y2. assert (EI : pI g = I) by (rewrite E; reflexivity). assert (EO : pO g = O) by (rewrite E; reflexivity).
  destruct (forward_ok g Hg y X N) as (Y & EY & (S1 & S2) & F); [split; congruence|split; congruence|]. exists Y. split; auto. split; auto. split; [congruence|].
  intros n o ro co H1 H2 H3 H4 entry out. assert (Ee : forall c, dentry g X n o ro co c = entry c) by (intros; apply entry_first).
  assert (Eo : out = fst (dmaxs kc entry)).
  { unfold out. rewrite out_pixel, F; try (rewrite E; assumption); auto. replace (pkernelCols g) with kc by (rewrite E; reflexivity). f_equal. apply dmaxs_ext. intros; apply Ee. }
  destruct (dmaxs_spec kc entry) as (M1 & M2). rewrite <- Eo in M1, M2. split; auto. split; [|split].
  - intros (c0 & Hc0 & H0). apply above_iff in H0. destruct (proj1 (dmaxs_some kc entry) (ex_intro _ c0 (conj Hc0 H0))) as (k & Ek). rewrite Ek in M2. exists k. split; [tauto|]. symmetry. tauto.
  - intros H. destruct (snd (dmaxs kc entry)) as [k|] eqn:Ek; [|rewrite M2; exact lowest_min]. exfalso. destruct (proj2 (dmaxs_some kc entry) (ex_intro _ k Ek)) as (c & Hc & L). apply (H c Hc). now apply above_iff.
  - destruct (snd (dmaxs kc entry)) as [k|]; [|rewrite M2; reflexivity]. destruct M2 as (_ & <- & L & _). destruct (entry k); auto; discriminate.
Qed.

(** If the first row of each region has a number larger than -DBL_MAX, then the error of each output arrives at the first largest number of
    that row, and all other errors are 0. *)
Theorem C108_backward_partial e X ein N :
  drows X = N -> dcols X = I -> dcols e = I -> drows ein = N -> dcols ein = O ->
  (forall n o ro co, n < N -> o < fm -> ro < R / kr -> co < C / kc -> exists c, c < kc /\ aboveMin (firstRow R C kr kc X n o ro co c)) ->
  exists eout, d_maxp_backward g e X ein = Ok eout /\ drows eout = N /\ dcols eout = I /\
    (forall n o ro co, n < N -> o < fm -> ro < R / kr -> co < C / kc ->
      let entry := firstRow R C kr kc X n o ro co in
      exists k, k < kc /\
        (forall c, c < kc -> dltb (entry k) (entry c) = false) /\
        (forall c, c < k -> is_nan (entry c) = true \/ dltb (entry c) (entry k) = true) /\
        is_nan (entry k) = false /\
        (forall c, c < kc -> firstRow R C kr kc eout n o ro co c = if Nat.eqb c k then dpixel (R / kr) (C / kc) ein n o ro co else dint 0)) /\
    (forall n i, n < N ->
      (forall o ro co c, o < fm -> ro < R / kr -> co < C / kc -> c < kc -> i <> o * (R * C) + (ro * kr * C + (co * kc + c))) ->
      dat eout n i = dint 0).
Proof.
  destruct geom as (E & Hg). intros X1 X2 He N1 N2 Hlow0.
  assert (Hlow : forall n o ro co, n < N -> o < fm -> ro < R / kr -> co < C / kc -> exists c, c < kc /\ dltb lowest (firstRow R C kr kc X n o ro co c) = true).
  { intros n o ro co H1 H2 H3 H4. destruct (Hlow0 n o ro co H1 H2 H3 H4) as (c & Hc & H). exists c. split; auto. now apply above_iff. }
  assert (EI : pI g = I) by (rewrite E; reflexivity). assert (EO : pO g = O) by (rewrite E; reflexivity).
  assert (Ek : pkernelCols g = kc) by (rewrite E; reflexivity). assert (Ef : pfm g = fm) by (rewrite E; reflexivity). assert (Er : poutRows g = R / kr) by (rewrite E; reflexivity). assert (Ec : poutCols g = C / kc) by (rewrite E; reflexivity).
  destruct (backward_ok g Hg e X ein N) as (eout & EE & (S1 & S2) & F); [split; congruence|congruence|split; congruence| |].
  { rewrite Ek, Ef, Er, Ec. intros n o r c H1 H2 H3 H4. destruct (Hlow n o r c) as (k & Hk & L); auto. exists k. rewrite entry_first. auto. }
  exists eout. split; auto. split; auto. split; [congruence|]. rewrite Ef, Er, Ec in F. split.
  - intros n o ro co H1 H2 H3 H4 entry. destruct (proj1 (dmaxs_some kc entry) (Hlow n o ro co H1 H2 H3 H4)) as (k & EK). destruct (dmaxs_spec kc entry) as (M1 & M2). rewrite EK in M2. destruct M2 as (M2 & M3 & M4 & M5).
    exists k. rewrite <- M3 in M1. split; auto. split; auto. split; auto. split; [destruct (entry k); auto; discriminate|].
    assert (ED : dmaxs (pkernelCols g) (dentry g X n o ro co) = dmaxs kc entry) by (rewrite Ek; apply dmaxs_ext; intros; apply entry_first).
    intros c Hc. rewrite out_pixel, <- entry_first. unfold dentry. destruct (Nat.eqb_spec c k) as [->|Ne].
    + apply (F n _ H1); auto. exists k. rewrite ED. auto.
    + apply (F n _ H1). intros o' r' c' Ho' Hr' Hc' (k' & EK' & Eq). pose proof (some_lt g X n o' r' c' k' EK') as Hk'. apply (pbase_inj g Hg) in Eq; try congruence; try lia. destruct Eq as (-> & -> & -> & ->). rewrite ED in EK'. congruence.
  - intros n i H1 H. apply (F n i H1). intros o r c Ho Hr Hc (k & EK & ->). pose proof (some_lt g X n o r c k EK) as Hk. rewrite Ek in Hk. apply (H o r c k Ho Hr Hc Hk). unfold pbase. rewrite E. cbn [pgeom_of pfmInSize pkernelRows pinCols pkernelCols]. lia.
Qed.

(** Otherwise it writes to a negative index. *)
Theorem C108_backward_refuted e X ein N n o ro co :
  drows X = N -> dcols X = I -> dcols e = I -> n < N -> o < fm -> ro < R / kr -> co < C / kc ->
  (forall c, c < kc -> ~ aboveMin (firstRow R C kr kc X n o ro co c)) ->
  d_maxp_backward g e X ein = UB.
Proof.
  destruct geom as (E & Hg). intros X1 X2 He H1 H2 H3 H4 Hlow. assert (EI : pI g = I) by (rewrite E; reflexivity).
  assert (Ek : pkernelCols g = kc) by (rewrite E; reflexivity). assert (Ef : pfm g = fm) by (rewrite E; reflexivity). assert (Er : poutRows g = R / kr) by (rewrite E; reflexivity). assert (Ec : poutCols g = C / kc) by (rewrite E; reflexivity).
  assert (SX : dsize X N (pI g)) by (split; congruence). assert (Se : dcols e = pI g) by congruence. rewrite <- Ef in H2. rewrite <- Er in H3. rewrite <- Ec in H4.
  apply (backward_ub g Hg e X ein N n o ro co SX Se H1 H2 H3 H4). intros k Hk. rewrite entry_first. apply above_not, Hlow. congruence.
Qed.

(** In particular for images whose pixels are all NaN or -infinity, as they occur if training diverges: the forward pass succeeds and its
    outputs look like numbers, the backward pass is undefined. *)
Theorem C108_diverged_refuted X ein N :
  0 < N -> drows X = N -> dcols X = I -> (forall n i, dat X n i = B754_nan \/ dat X n i = B754_infinity true) ->
  exists Y, d_maxp_forward g (mkDmat N O (fun _ _ => dint 0)) X = Ok Y /\
    (forall n o ro co, n < N -> o < fm -> ro < R / kr -> co < C / kc -> isMin (dpixel (R / kr) (C / kc) Y n o ro co)) /\
    d_maxp_backward g (mkDmat N I (fun _ _ => dint 0)) X ein = UB.
Proof.
  intros HN X1 X2 Hall. assert (L : forall n i, ~ aboveMin (dat X n i)) by (intros n i; apply above_not; destruct (Hall n i) as [-> | ->]; reflexivity).
  destruct (C108_forward (mkDmat N O (fun _ _ => dint 0)) X N) as (Y & EY & _ & _ & F); auto. exists Y. split; auto. split.
  - intros n o ro co H1 H2 H3 H4. destruct (F n o ro co) as (_ & _ & F1 & _); auto. apply F1. intros. apply L.
  - destruct (proj1 (pgeom_new_iff fm R C kr kc) (ex_intro _ g Hn)) as (G1 & G2 & G3).
    apply (C108_backward_refuted _ X ein N 0 0 0 0); auto; try (apply Nat.div_str_pos; lia). intros. apply L.
Qed.
End Link.
Print Assumptions C108_forward.
Print Assumptions C108_backward_partial.
Print Assumptions C108_backward_refuted.
Print Assumptions C108_diverged_refuted.

(** The hypotheses can be met: two regions of a 1 x 4 image: NaN, 3 and 5, +infinity. *)
Definition exImage : dmat := mkDmat 1 4 (fun _ i => nth i [B754_nan; dint 3; dint 5; B754_infinity false] (dint 0)).
Example ex_geom : pgeom_new 1 1 4 1 2 = Ok (pgeom_of 1 1 4 1 2).
Proof. reflexivity. Qed.
Example ex_image n o ro co : n < 1 -> o < 1 -> ro < 1 / 1 -> co < 4 / 2 -> exists c, c < 2 /\ aboveMin (firstRow 1 4 1 2 exImage n o ro co c).
Proof.
  intros Hn Ho Hr Hc. change (1 / 1) with 1 in Hr. change (4 / 2) with 2 in Hc. assert (n = 0) by lia. assert (o = 0) by lia. assert (ro = 0) by lia. subst. exists 1. split; [lia|]. apply above_iff.
  destruct co as [|[|co]]; [vm_compute; reflexivity|vm_compute; reflexivity|lia].
Qed.
Example ex_result : exists Y, d_maxp_forward (pgeom_of 1 1 4 1 2) (mkDmat 1 2 (fun _ _ => dint 0)) exImage = Ok Y /\
  B2SF (dpixel 1 2 Y 0 0 0 0) = B2SF (dint 3) /\ dpixel 1 2 Y 0 0 0 1 = B754_infinity false.
Proof. eexists. split; [reflexivity|]. split; vm_compute; reflexivity. Qed.
Example ex_diverged : forall n i, dat (mkDmat 1 4 (fun _ _ => B754_nan)) n i = B754_nan \/ dat (mkDmat 1 4 (fun _ _ => B754_nan)) n i = B754_infinity true.
Proof. now left. Qed.
