(** C46: k-means clustering. *)
From Verif Require Import Base BaseFacts Matrix RSum MatOps DataSet_Model KMeans_Model KMeans_Spec KMeans_Proofs.
From Coq Require Import Lia Lra Permutation.
Local Open Scope R_scope.

(** After any sequence of calls of fit each centre is the mean of all points that have been assigned to it so far; a centre
    to which no point has been assigned is one of the points of the first call. *)
Theorem C46_centres_are_means DBL_MAX D K s log first : (0 < K)%nat -> fitted DBL_MAX D K s log first -> first <> [] ->
  rows (getCenters s) = K /\ cols (getCenters s) = D /\
  forall k, (k < K)%nat ->
    (pointsOf k log <> [] -> forall d, at_ (getCenters s) k d = meanOf (pointsOf k log) d) /\
    (pointsOf k log = [] -> exists x, In x first /\ forall d, at_ (getCenters s) k d = x d).
Proof.
  intros HK HF Hf. pose proof (fitted_inv DBL_MAX D K s log first HK HF) as HI.
  assert (Ei : kmInit s = true). { destruct (kmInit s) eqn:E; auto. now destruct (i_new _ _ _ _ _ HI E). }
  destruct (i_shape _ _ _ _ _ HI) as [H1 H2 H3 H4 H5 H6]. unfold getCenters. split; auto. split; auto. intros k Hk. split.
  - now apply (i_means _ _ _ _ _ HI Ei).
  - now apply (i_init _ _ _ _ _ HI Ei).
Qed.
Print Assumptions C46_centres_are_means.

(** The first call of fit succeeds when there are at least as many points as centres; it assigns each point to the first of
    the centres that are nearest to it, where the centres are rows of X. *)
Theorem C46_first_fit DBL_MAX D K junkC junkV X shuf : (0 < K)%nat -> (K <= rows X)%nat -> cols X = D ->
  (forall l, Permutation l (shuf l)) ->
  (forall n n', (n < rows X)%nat -> (n' < rows X)%nat -> sqDist D (at_ X n) (at_ X n') < DBL_MAX) ->
  exists C s', km_fit DBL_MAX shuf (km_new D K junkC junkV) X = Ok s' /\
    (forall k, (k < K)%nat -> exists n, (n < rows X)%nat /\ forall d, at_ C k d = at_ X n d) /\
    length (clusterIndices s') = rows X /\
    forall n, (n < rows X)%nat -> nearest D K C (at_ X n) (nth n (clusterIndices s') 0%nat) /\
      forall k, (k < nth n (clusterIndices s') 0)%nat -> ~ nearest D K C (at_ X n) k.
Proof.
  intros HK HN HX Hsh HM. set (s := km_new D K junkC junkV). pose proof (inv_new D K junkC junkV) as HI. fold s in HI.
  destruct (start_ok D K s [] [] X shuf HI HX Hsh (fun _ => HN) ltac:(discriminate)) as (s0 & E0 & I0 & T0 & L0 & _).
  destruct (fit_ok DBL_MAX D K s [] [] X shuf HK HI HX Hsh (fun _ => HN) ltac:(discriminate)) as
    (s0' & s' & E0' & E & _ & _ & L & F).
  assert (s0' = s0) by congruence. subst s0'.
  assert (G : forall k, (k < K)%nat -> exists n, (n < rows X)%nat /\ forall d, at_ (kmC s0) k d = at_ X n d).
  { intros k Hk. destruct (i_init _ _ _ _ _ I0 T0 k Hk eq_refl) as (x & Hin & Hx). cbn in Hin. unfold fitX in Hin.
    apply in_map_iff in Hin as (n & <- & Hn). apply in_seq in Hn. exists n. split; [lia|auto]. }
  exists (kmC s0), s'. split; auto. split; auto. split; auto. intros n Hn.
  assert (Hc : close DBL_MAX D K (kmC s0) X).
  { intros k n' Hk Hn'. destruct (G k Hk) as (n0 & Hn0 & F0).
    replace (sqDist D (at_ (kmC s0) k) (at_ X n')) with (sqDist D (at_ X n0) (at_ X n')); [now apply HM|].
    unfold sqDist. apply rsum_ext. intros. now rewrite F0. }
  destruct (F Hc n Hn) as [F1 F2].
  split; auto. intros k Hk [_ N]. specialize (F2 k Hk). specialize (N (nth n (clusterIndices s') 0%nat) (proj1 F1)). lra.
Qed.
Print Assumptions C46_first_fit.

(** Every later call needs as many points as the first one and assigns them to the centres as they were before the call. *)
Theorem C46_next_fit DBL_MAX D K s log first X shuf : (0 < K)%nat -> fitted DBL_MAX D K s log first -> first <> [] ->
  rows X = length first -> cols X = D -> (forall l, Permutation l (shuf l)) ->
  (forall k n, (k < K)%nat -> (n < rows X)%nat -> sqDist D (at_ (getCenters s) k) (at_ X n) < DBL_MAX) ->
  exists s', km_fit DBL_MAX shuf s X = Ok s' /\ length (clusterIndices s') = rows X /\
    forall n, (n < rows X)%nat -> nearest D K (getCenters s) (at_ X n) (nth n (clusterIndices s') 0%nat) /\
      forall k, (k < nth n (clusterIndices s') 0)%nat -> ~ nearest D K (getCenters s) (at_ X n) k.
Proof.
  intros HK HF Hf HN HX Hsh HM. pose proof (fitted_inv DBL_MAX D K s log first HK HF) as HI.
  assert (Ei : kmInit s = true). { destruct (kmInit s) eqn:E; auto. now destruct (i_new _ _ _ _ _ HI E). }
  destruct (fit_ok DBL_MAX D K s log first X shuf HK HI HX Hsh) as (s0 & s' & E0 & E & _ & _ & L & F); auto; try congruence.
  rewrite Ei in E0. assert (s0 = s) by congruence. subst s0. exists s'. split; auto. split; auto. intros n Hn.
  destruct (F HM n Hn) as [F1 F2].
  split; auto. intros k Hk [_ N]. specialize (F2 k Hk). specialize (N (nth n (clusterIndices s') 0%nat) (proj1 F1)).
  unfold getCenters in N. lra.
Qed.
Print Assumptions C46_next_fit.

(** operator() returns the Euclidean distances of all points to all centres. *)
Theorem C46_distances DBL_MAX D K s log first X junk : (0 < K)%nat -> fitted DBL_MAX D K s log first -> cols X = D ->
  exists Y, km_apply junk s X = Ok Y /\ rows Y = rows X /\ cols Y = K /\
    forall n k, (n < rows X)%nat -> (k < K)%nat -> at_ Y n k = sqrt (sqDist D (at_ X n) (at_ (getCenters s) k)).
Proof.
  intros HK HF HX. apply apply_ok; auto. apply (i_shape _ _ _ _ _ (fitted_inv DBL_MAX D K s log first HK HF)).
Qed.
Print Assumptions C46_distances.

(** Finding: with fewer points than centres fit never succeeds (it reads behind the end of the list of indices). *)
Theorem C46_fewer_points_than_centres_refuted DBL_MAX D K junkC junkV X shuf s' : (rows X < K)%nat ->
  (forall l, Permutation l (shuf l)) -> km_fit DBL_MAX shuf (km_new D K junkC junkV) X <> Ok s'.
Proof.
  intros HN Hsh E.
  destruct (fit_needs DBL_MAX D K (km_new D K junkC junkV) X shuf s' (i_shape _ _ _ _ _ (inv_new D K junkC junkV)) E Hsh) as (_ & H & _).
  specialize (H eq_refl). lia.
Qed.
Print Assumptions C46_fewer_points_than_centres_refuted.
Theorem C46_fewer_points_than_centres_ub_refuted :
  km_fit 1000 (fun l => l) (km_new 1 2 (fun _ _ => 0) (fun _ => 0%nat)) (mkMat 1 1 (fun _ _ => 5)) = UB.
Proof. reflexivity. Qed.

(** Two centres, four points, two calls: an execution that the theorems are about. *)
Definition exX := mkMat 4 1 (fun n _ => match n with 0%nat => 0 | 1%nat => 10 | 2%nat => 2 | _ => 12 end).
Example ex_kmeans : exists s log first, fitted 1000 1 2 s log first /\ first <> [] /\ length log = 8%nat.
Proof.
  destruct (C46_first_fit 1000 1 2 (fun _ _ => 7) (fun _ => 3%nat) exX (fun l => l)) as (C & s & E & _); try (cbn; lia); auto.
  { intros [|[|[|[|n]]]] [|[|[|[|n']]]]; unfold sqDist; cbn; intros; try lia; lra. }
  pose proof (fitted_fit 1000 1 2 _ _ _ exX (fun l => l) s (fitted_new 1000 1 2 (fun _ _ => 7) (fun _ => 3%nat)) (fun l => Permutation_refl l) E) as F.
  cbn [kmInit km_new] in F. pose proof (fitted_inv 1000 1 2 _ _ _ ltac:(lia) F) as HI.
  assert (Ei : kmInit s = true). { destruct (kmInit s) eqn:Ei; auto. now destruct (i_new _ _ _ _ _ HI Ei). }
  destruct (fit_ok 1000 1 2 s _ _ exX (fun l => l) ltac:(lia) HI eq_refl (fun l => Permutation_refl l)) as (_ & s' & _ & E' & _);
    try congruence; auto.
  pose proof (fitted_fit 1000 1 2 _ _ _ exX (fun l => l) s' F (fun l => Permutation_refl l) E') as F'. rewrite Ei in F'.
  do 3 eexists. split; [exact F'|]. split; [easy|]. rewrite app_length, !app_length, !map_length. reflexivity.
Qed.
