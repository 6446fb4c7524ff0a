(** Properties C01-C05: data set views.
    Vocabulary: [lists h a rows] (DataSet_Spec.v) says that through samples(),
    getInstance() and getTarget() the data set at address [a] shows exactly the
    list [rows] of (input, target) pairs. *)
From Verif Require Import BaseFacts DataSet_Model DataSet_Spec DataSet_Proofs.

Section Props.
Context {V : Type}.

(** C01.  Splitting into [n] groups is a partition; all groups but the last have
    floor(N/n) instances.  The new views live behind the old memory. *)
Theorem C01_split_groups_partition :
  forall (h : heap V) ds n shuffling shuf rows,
  lists h ds rows -> 1 < n -> shuffles shuf ->
  exists views parts,
    splitGroups h ds n shuffling shuf [] = Ok views /\
    length views = n /\ length parts = n /\
    (forall k part, nth_error parts k = Some part ->
       lists (h ++ views) (length h + k) part) /\
    (if shuffling then Permutation (concat parts) rows else concat parts = rows) /\
    (forall k part, k < n - 1 -> nth_error parts k = Some part ->
       length part = length rows / n).
Proof. exact split_groups_ok. Qed.

(** C01.  A number of groups below two is rejected. *)
Theorem C01_split_groups_rejects :
  forall (h : heap V) ds n shuffling shuf groups, n <= 1 ->
  splitGroups h ds n shuffling shuf groups = Abort.
Proof.
  intros h ds n sh shuf g H. unfold splitGroups.
  destruct (Nat.ltb_spec 1 n); [lia|reflexivity].
Qed.

(** C02.  Splitting by ratio: ceil(ratio*N) instances, then the others. *)
Theorem C02_split_ratio_partition :
  forall (h : heap V) ds ratio (shuffling : bool) shuf rows,
  lists h ds rows -> (0 <= ratio <= 1)%R -> shuffles shuf ->
  exists v1 v2 part1 part2,
    splitRatio h ds ratio shuffling shuf [] = Ok [v1; v2] /\
    lists (h ++ [v1; v2]) (length h) part1 /\
    lists (h ++ [v1; v2]) (length h + 1) part2 /\
    (if shuffling then Permutation (part1 ++ part2) rows else part1 ++ part2 = rows) /\
    (INR (length part1) - 1 < ratio * INR (length rows) <= INR (length part1))%R.
Proof. exact split_ratio_ok. Qed.

(** C03.  Merging appends the groups in order, and leaves every data set that is
    older than the merged view as it was. *)
Theorem C03_merge_appends :
  forall (h : heap V) m groups b rows im,
  reachable h -> nth_error h m = Some (View b im) -> groups <> [] -> ~ In m groups ->
  lists h m rows ->
  forall parts,
  Forall2 (fun g part => (exists ig, nth_error h g = Some (View b ig)) /\ lists h g part)
          groups parts ->
  exists h', merge h m groups = Ok h' /\ lists h' m (rows ++ concat parts) /\
    (forall a, a < m -> forall la, lists h a la -> lists h' a la).
Proof. intros h m gs b rows im Hr. apply merge_ok. apply (reachable_wf h Hr). Qed.

(** C04.  After any program of view operations, every data set shows only pairs of
    one original data set: input and target stay together and no read fails. *)
Theorem C04_views_keep_pairs :
  forall (h0 : heap V) ops h,
  only_direct h0 -> Forall legal ops -> vrun ops h0 = Ok h ->
  forall a, a < length h ->
  exists root rows l,
    nth_error h0 root = Some (Direct rows) /\ lists h a l /\ incl l rows.
Proof. exact views_ok. Qed.

(** C04.  Every operation used as documented succeeds in every reachable state. *)
Theorem C04_operations_succeed :
  forall (h : heap V) o, reachable h -> legal o -> permitted h o ->
  exists h', vstep h o = Ok h'.
Proof. exact vstep_progress. Qed.

(** C05.  Sampling without replacement: ceil(fraction*N) different instances
    ([part] together with [rest] is a rearrangement of the data set). *)
Theorem C05_sample_without_replacement_partial :
  forall (h : heap V) ds fraction idx shuf rows,
  lists h ds rows -> (0 <= fraction <= 1)%R -> shuffles shuf ->
  exists v part rest,
    sample h ds fraction false idx shuf = Ok v /\
    lists (h ++ [v]) (length h) part /\
    Permutation (part ++ rest) rows /\
    (INR (length part) - 1 < INR (length rows) * fraction <= INR (length part))%R.
Proof. exact sample_ok. Qed.

(** C05 is false for sampling with replacement: whatever the random numbers, every
    such call on a non-empty data set writes past the end of a vector. *)
Theorem C05_sample_with_replacement_refuted :
  forall (h : heap V) ds fraction idx shuf rows,
  lists h ds rows -> rows <> [] -> (0 < fraction <= 1)%R ->
  sample h ds fraction true idx shuf = UB.
Proof. exact sample_replacement_ub. Qed.

End Props.

Print Assumptions C01_split_groups_partition.
Print Assumptions C01_split_groups_rejects.
Print Assumptions C02_split_ratio_partition.
Print Assumptions C03_merge_appends.
Print Assumptions C04_views_keep_pairs.
Print Assumptions C04_operations_succeed.
Print Assumptions C05_sample_without_replacement_partial.
Print Assumptions C05_sample_with_replacement_refuted.

(** The hypotheses can be met: a data set with five samples. *)
Definition ex_rows : list (nat * nat) := [(10, 0); (11, 1); (12, 0); (13, 1); (14, 1)].
Definition ex_heap : heap nat := [Direct ex_rows].

Example ex_lists : lists ex_heap 0 ex_rows.
Proof. now apply lists_direct. Qed.

Example ex_shuffles : shuffles (@rev nat) /\ shuffles (fun l => l).
Proof. split; intros l; [apply Permutation_rev|apply Permutation_refl]. Qed.

(** split into 2 groups, merge the second group into an empty view, shuffle it *)
Definition ex_ops : list vop :=
  [OSplitGroups 0 2 true (@rev nat); OEmptyView 0; OMerge 3 [2; 1]; OShuffle 3 (@rev nat)].

Example ex_run : vrun ex_ops ex_heap =
  Ok [Direct ex_rows; View 0 [4; 3]; View 0 [2; 1; 0]; View 0 [3; 4; 0; 1; 2]].
Proof.
  unfold vrun, ex_ops. simpl. unfold splitGroups. simpl.
  replace (Zfloor (1 + 1 + / 2)) with 2%Z.
  2: { symmetry. replace (1 + 1)%R with (INR 2) by (simpl; lra). apply Zfloor_half. }
  reflexivity.
Qed.

Example ex_legal : Forall legal ex_ops /\ only_direct ex_heap.
Proof.
  split.
  - repeat constructor; simpl; auto; intros l; apply Permutation_rev.
  - intros o [<-|[]]. eexists; reflexivity.
Qed.

Example ex_reachable : reachable
  [Direct ex_rows; View 0 [4; 3]; View 0 [2; 1; 0]; View 0 [3; 4; 0; 1; 2]].
Proof.
  exists ex_heap, ex_ops. destruct ex_legal. split; auto. split; auto. apply ex_run.
Qed.

(** merging view 1 into view 3 is permitted there *)
Example ex_permitted : permitted
  [Direct ex_rows; View 0 [4; 3]; View 0 [2; 1; 0]; View 0 [3; 4; 0; 1; 2]] (OMerge 3 [1]).
Proof.
  exists 0. split; [eexists; reflexivity|]. split; [discriminate|]. split.
  - intros [H|[]]; discriminate.
  - intros g [<-|[]]. eexists; reflexivity.
Qed.
