(** Properties C18 (FANN files), C19 (LibSVM files), C20 (pack and unpack). *)
From Verif Require Import Base BaseFacts Matrix IO_Model IO_Spec IO_Proofs SVM_Proofs.

(** C20.  pack works exactly if the vector is long enough. *)
Theorem C20_pack_defined :
  forall vec arrays,
  (length (concat arrays) <= length vec <-> exists vec', pack vec arrays = Ok vec') /\
  (length vec < length (concat arrays) <-> pack vec arrays = UB).
Proof.
  intros vec arrays.
  destruct (Nat.le_gt_cases (length (concat arrays)) (length vec)) as [H|H].
  - rewrite pack_ok by auto. split; split; intros; eauto; try discriminate; lia.
  - rewrite pack_too_small by auto. split; split; intros; auto; try lia.
    destruct H0 as [v E]. discriminate.
Qed.

(** C20.  Every array has its own range, directly behind the range of the array before
    it; nothing behind the last range changes. *)
Theorem C20_pack_ranges :
  forall vec arrays vec', pack vec arrays = Ok vec' ->
  length vec' = length vec /\
  (forall before a after j x, arrays = before ++ a :: after -> nth_error a j = Some x ->
     nth_error vec' (length (concat before) + j) = Some x) /\
  (forall k, length (concat arrays) <= k -> nth_error vec' k = nth_error vec k).
Proof.
  intros vec arrays vec' H.
  destruct (Nat.le_gt_cases (length (concat arrays)) (length vec)) as [L|L];
    [|rewrite pack_too_small in H by auto; discriminate].
  rewrite pack_ok in H by auto. inversion H; subst. clear H. split; [|split].
  - rewrite app_length, skipn_length. lia.
  - intros before a after j x -> Hj. assert (j < length a) by (apply nth_error_Some; congruence).
    rewrite concat_app. simpl concat. rewrite <- !app_assoc.
    rewrite nth_error_app2 by lia. rewrite nth_error_app1 by lia. rewrite <- Hj. f_equal. lia.
  - intros k Hk. rewrite nth_error_app2 by auto.
    rewrite <- (firstn_skipn (length (concat arrays)) vec) at 2.
    rewrite nth_error_app2; rewrite firstn_length_le by auto; auto.
Qed.

(** C20.  unpack of what pack wrote restores every array, whatever the arrays
    contained in between. *)
Theorem C20_unpack_after_pack :
  forall vec arrays vec' current, pack vec arrays = Ok vec' ->
  Forall2 (fun (c a : list R) => length c = length a) current arrays ->
  unpack vec' current = Ok arrays.
Proof.
  intros vec arrays vec' current H F.
  destruct (Nat.le_gt_cases (length (concat arrays)) (length vec)) as [L|L];
    [|rewrite pack_too_small in H by auto; discriminate].
  rewrite pack_ok in H by auto. inversion H; subst. now apply unpack_ok.
Qed.

(** C18.  For all matrices with the same number of rows (instances): saving works, and
    loading what was saved gives the same dimensions and the printed value of every
    entry; whatever follows in the stream is not touched. *)
Theorem C18_fann_round_trip :
  forall (prt : R -> R) junk inp out rest, rows inp = rows out ->
  exists s inp' out',
    fannSave prt inp out = Ok s /\
    fannLoad junk (s ++ rest) = Ok (rows inp, inp', out', rest) /\
    meq inp' (mmap prt inp) /\ meq out' (mmap prt out).
Proof. exact fann_roundtrip. Qed.

(** C19.  Meaning of a file with exactly two labels: loaded as one output, with the
    smallest width that fits, every feature in its column and zero elsewhere.  (A line
    without features is only understood if its label is not larger than the given
    number of columns.) *)
Theorem C19_load_two_classes :
  forall file c W ls,
  (forall r, In r file -> well_formed r) ->
  (forall r, In r file -> snd r = [] -> (fst r <= Z.of_nat c)%Z) ->
  width file c W -> labels file ls -> length ls = 2 ->
  exists inp out, svmLoad (map line_of file) c = Ok (length file, inp, out) /\
    rows inp = length file /\ cols inp = W /\ rows out = length file /\ cols out = 1 /\
    forall i r, nth_error file i = Some r ->
      at_ out i 0 = IZR (fst r) /\
      forall j x, feature (snd r) (S j) x -> at_ inp i j = x.
Proof. exact svmLoad_binary. Qed.

(** C19.  Files with labels 1..C, C > 2, are loaded with one-of-C outputs. *)
Theorem C19_load_many_classes :
  forall file c W ls,
  (forall r, In r file -> well_formed r) ->
  (forall r, In r file -> snd r = [] -> (fst r <= Z.of_nat c)%Z) ->
  width file c W -> labels file ls -> 2 < length ls ->
  (forall z, In z ls -> (1 <= z <= Z.of_nat (length ls))%Z) ->
  exists inp out, svmLoad (map line_of file) c = Ok (length file, inp, out) /\
    rows inp = length file /\ cols inp = W /\ rows out = length file /\ cols out = length ls /\
    forall i r, nth_error file i = Some r ->
      (forall j, j < length ls -> at_ out i j = if Z.eqb (fst r) (Z.of_nat j + 1) then 1%R else 0%R) /\
      forall j x, feature (snd r) (S j) x -> at_ inp i j = x.
Proof. exact svmLoad_multi. Qed.

(** C19 (partial): the round trip for one output with exactly two integer labels, the
    number of columns given to load, and no line without features whose label exceeds
    the number of columns.  Missing: everything else; the next two theorems show that
    it fails there. *)
Theorem C19_round_trip_partial :
  forall (prt : R -> R) inp out (z : nat -> Z) a b,
  rows inp = rows out -> cols out = 1 ->
  (forall i, i < rows out -> prt (at_ out i 0) = IZR (z i)) ->
  a <> b -> (forall i, i < rows out -> z i = a \/ z i = b) ->
  (exists i, i < rows out /\ z i = a) -> (exists i, i < rows out /\ z i = b) ->
  (forall i, i < rows inp ->
     (exists j, j < cols inp /\ at_ inp i j <> 0%R) \/ (z i <= Z.of_nat (cols inp))%Z) ->
  exists s inp' out',
    svmSave prt inp out = Ok s /\
    svmLoad s (cols inp) = Ok (rows inp, inp', out') /\
    meq inp' (mmap (fun x => if Reqb x 0 then 0%R else prt x) inp) /\
    meq out' (mmap prt out).
Proof. exact svm_roundtrip. Qed.

(** C19 is false: outputs that encode more than two classes, class 0 among them, are
    saved in a form that load answers with an access outside the output matrix. *)
Theorem C19_round_trip_many_classes_refuted :
  forall (prt : R -> R) inp out c ls,
  rows inp = rows out -> 1 < cols out ->
  NoDup ls -> 2 < length ls ->
  (forall k, In k ls <-> exists i, i < rows out /\ k < cols out /\
     (forall j, j < cols out -> (at_ out i j <= at_ out i k)%R) /\
     (forall j, j < k -> (at_ out i j < at_ out i k)%R)) ->
  In 0 ls ->
  exists s, svmSave prt inp out = Ok s /\ svmLoad s c = UB.
Proof. exact svm_multi_refuted. Qed.

(** C19 is false: data with only one label and a nonzero entry in the last column are
    saved in a form that load answers with an access outside the input matrix. *)
Theorem C19_round_trip_one_class_refuted :
  forall (prt : R -> R) inp out a i,
  rows inp = rows out -> cols out = 1 -> 1 <= cols inp ->
  (forall i, i < rows out -> prt (at_ out i 0) = IZR a) ->
  (forall i, i < rows inp ->
     (exists j, j < cols inp /\ at_ inp i j <> 0%R) \/ (a <= Z.of_nat (cols inp))%Z) ->
  i < rows inp -> at_ inp i (cols inp - 1) <> 0%R ->
  exists s, svmSave prt inp out = Ok s /\ svmLoad s (cols inp) = UB.
Proof. exact svm_single_refuted. Qed.

Print Assumptions C20_pack_defined.
Print Assumptions C20_pack_ranges.
Print Assumptions C20_unpack_after_pack.
Print Assumptions C18_fann_round_trip.
Print Assumptions C19_load_two_classes.
Print Assumptions C19_load_many_classes.
Print Assumptions C19_round_trip_partial.
Print Assumptions C19_round_trip_many_classes_refuted.
Print Assumptions C19_round_trip_one_class_refuted.

Local Open Scope R_scope.
(** two arrays into a vector with one spare place *)
Example ex_pack : pack [9;9;9;9] [[1;2];[];[3]] = Ok [1;2;3;9].
Proof. reflexivity. Qed.
Example ex_unpack : unpack [1;2;3;9] [[0;0];[];[0]] = Ok [[1;2];[];[3]].
Proof. reflexivity. Qed.
Example ex_pack_short : pack [9;9] [[1;2];[3]] = UB.
Proof. reflexivity. Qed.

(** three instances, labels -1 and 1, a zero row, a trailing zero column *)
Definition exIn : mat := mkMat 3 2 (fun i j => match i, j with O, O => 5 | S O, S O => 2 | _, _ => 0 end).
Definition exOut : mat := mkMat 3 1 (fun i _ => match i with O => 1 | _ => -1 end).
Example ex_svm_hypotheses :
  let z := fun i => match i with O => 1%Z | _ => (-1)%Z end in
  (forall i, (i < rows exOut)%nat -> at_ exOut i 0 = IZR (z i)) /\
  (forall i, (i < rows exOut)%nat -> z i = 1%Z \/ z i = (-1)%Z) /\
  (exists i, (i < rows exOut)%nat /\ z i = 1%Z) /\ (exists i, (i < rows exOut)%nat /\ z i = (-1)%Z) /\
  (forall i, (i < rows exIn)%nat ->
     (exists j, (j < cols exIn)%nat /\ at_ exIn i j <> 0) \/ (z i <= Z.of_nat (cols exIn))%Z).
Proof.
  simpl. repeat split.
  - intros [|i] H; simpl; lra.
  - intros [|i] H; auto.
  - exists 0%nat. split; auto; lia.
  - exists 1%nat. split; auto; lia.
  - intros [|i] H; right; simpl; lia.
Qed.

(** three classes, one instance of each *)
Definition exOneOfC : mat := mkMat 3 3 (fun i j => if Nat.eqb i j then 1 else 0).
Example ex_many_classes :
  NoDup [0; 1; 2]%nat /\ (2 < length [0; 1; 2])%nat /\
  forall k, In k [0; 1; 2]%nat <-> exists i, (i < rows exOneOfC)%nat /\ (k < cols exOneOfC)%nat /\
     (forall j, (j < cols exOneOfC)%nat -> at_ exOneOfC i j <= at_ exOneOfC i k) /\
     (forall j, (j < k)%nat -> at_ exOneOfC i j < at_ exOneOfC i k).
Proof.
  split; [|split].
  - repeat constructor; simpl; intuition lia.
  - simpl. lia.
  - intros k. split.
    + intros H. exists k. simpl in *. assert (k < 3)%nat by intuition lia. repeat split; auto.
      * intros j _. rewrite Nat.eqb_refl. destruct (Nat.eqb k j); lra.
      * intros j Hj. rewrite Nat.eqb_refl. rewrite (proj2 (Nat.eqb_neq k j)) by lia. lra.
    + intros (i & _ & H & _). simpl in *. lia.
Qed.

(** a standard file: labels 1 and 2, feature 3 only in the first line *)
Example ex_file :
  let file := [(1%Z, [(1%nat, 5); (3%nat, 7)]); (2%Z, [(2%nat, 4)])] in
  (forall r, In r file -> well_formed r) /\
  (forall r, In r file -> snd r = [] -> (fst r <= Z.of_nat 0)%Z) /\
  width file 0 3 /\ labels file [1%Z; 2%Z].
Proof.
  simpl. split; [|split; [|split]].
  - intros r [<-|[<-|[]]]; unfold well_formed; simpl; repeat split; lia.
  - intros r [<-|[<-|[]]]; simpl; discriminate.
  - repeat split.
    + lia.
    + intros r k x [<-|[<-|[]]] H; simpl in H; destruct H as [H|H]; inversion H; try lia;
        destruct H; inversion H0; lia.
    + right. eexists. exists 7. split; [left; reflexivity|]. simpl. auto.
  - split; [repeat constructor; simpl; intuition lia|]. intros z. simpl. tauto.
Qed.
