(** Property C28: default batch errors and gradients. *)
From Verif Require Import Base BaseFacts Vec Optimizable_Model.
Local Open Scope R_scope.

(** sum of [f] over a list of indices *)
Definition sum_over (l : list nat) (f : nat -> R) : R := fold_right (fun i s => f i + s) 0 l.

Lemma sum_over_snoc l a f : sum_over (l ++ [a]) f = sum_over l f + f a.
Proof. unfold sum_over. induction l as [|b l IH]; simpl; [ring|]. rewrite IH. ring. Qed.

Lemma zeros_nth (g : list R) j : (map (fun _ => 0) g).[j] = 0.
Proof. revert j. induction g; intros [|j]; simpl; auto. Qed.

Lemma batch_ok dimension examples error gradient batch grad0 :
  (forall n, length (gradient n) = dimension) -> length grad0 = dimension ->
  (forall i, In i batch -> (i < examples)%nat) ->
  exists g, errorGradientBatch examples error gradient batch grad0 = Ok (sum_over batch error, g) /\
    length g = dimension /\
    forall j, (j < dimension)%nat -> g.[j] = sum_over batch (fun n => (gradient n).[j]).
Proof.
  intros HG H0 HB. unfold errorGradientBatch.
  match goal with |- context [for_each batch ?b _] => set (body := b) end.
  destruct (for_each_inv (fun done (st : R * list R) => fst st = sum_over done error /\
      length (snd st) = dimension /\
      forall j, (j < dimension)%nat -> (snd st).[j] = sum_over done (fun n => (gradient n).[j]))
    body batch (0, map (fun _ => 0) grad0)) as ([v g] & E & A & B & C).
  - simpl. rewrite map_length. repeat split; auto. intros. apply zeros_nth.
  - intros done a rest [v g] El (A & B & C). simpl in *. unfold body.
    rewrite check_true.
    2:{ apply Nat.leb_le. assert (a < examples)%nat; [|lia]. apply HB. rewrite El. apply in_or_app. right. now left. }
    cbn [bind]. destruct (vmap2_Ok Rplus g (gradient a)) as (g' & E & L & V); [rewrite HG; auto|].
    unfold vadd. rewrite E. cbn [bind]. eexists. split; [reflexivity|]. simpl.
    rewrite sum_over_snoc. repeat split; [congruence|congruence|].
    intros j Hj. rewrite V by lia. rewrite C, sum_over_snoc by auto. reflexivity.
  - simpl in *. subst v. exists g. auto.
Qed.

(** C28.  errorGradient over a range of indices returns the sum of the errors and the
    sum of the gradients of these instances (with multiplicity). *)
Theorem C28_batch_is_sum :
  forall dimension examples error gradient batch grad0,
  (forall n, length (gradient n) = dimension) -> length grad0 = dimension ->
  (forall i, In i batch -> (i < examples)%nat) ->
  exists g, errorGradientBatch examples error gradient batch grad0 = Ok (sum_over batch error, g) /\
    length g = dimension /\
    forall j, (j < dimension)%nat -> g.[j] = sum_over batch (fun n => (gradient n).[j]).
Proof. exact batch_ok. Qed.

(** C28.  errorGradient without a range sums over all instances. *)
Theorem C28_all_is_sum :
  forall dimension examples error gradient grad0,
  (forall n, length (gradient n) = dimension) -> length grad0 = dimension ->
  exists g, errorGradientAll examples error gradient grad0 = Ok (sum_over (seq 0 examples) error, g) /\
    length g = dimension /\
    forall j, (j < dimension)%nat -> g.[j] = sum_over (seq 0 examples) (fun n => (gradient n).[j]).
Proof.
  intros dimension examples error gradient grad0 HG H0. unfold errorGradientAll.
  match goal with |- context [for_ examples ?b _] => set (body := b) end.
  destruct (for_inv (fun n (st : R * list R) => fst st = sum_over (seq 0 n) error /\
      length (snd st) = dimension /\
      forall j, (j < dimension)%nat -> (snd st).[j] = sum_over (seq 0 n) (fun n => (gradient n).[j]))
    body examples (0, map (fun _ => 0) grad0)) as ([v g] & E & A & B & C).
  - simpl. rewrite map_length. repeat split; auto. intros. apply zeros_nth.
  - intros n [v g] Hn (A & B & C). cbn [fst snd] in *. unfold body, errorGradient1.
    destruct (vmap2_Ok Rplus g (gradient n)) as (g' & E & L & V); [rewrite HG; auto|].
    unfold vadd. rewrite E. cbn [bind]. eexists. split; [reflexivity|]. cbn [fst snd].
    rewrite seq_S, sum_over_snoc, Nat.add_0_l. repeat split; [congruence|congruence|].
    intros j Hj. rewrite V by lia. rewrite C, sum_over_snoc by auto. reflexivity.
  - simpl in *. subst v. exists g. auto.
Qed.

(** C28.  error(range) lists the errors of the instances, gradient(range) is the sum of
    their gradients, errorGradient(n) is the pair for one instance. *)
Theorem C28_errors_and_gradient :
  forall dimension error gradient batch,
  (forall n, length (gradient n) = dimension) ->
  errors error batch = Ok (map error batch) /\
  (exists g, gradientSum dimension gradient batch = Ok g /\ length g = dimension /\
     forall j, (j < dimension)%nat -> g.[j] = sum_over batch (fun n => (gradient n).[j])) /\
  forall n, errorGradient1 error gradient n = (error n, gradient n).
Proof.
  intros dimension error gradient batch HG. split; [|split; [|reflexivity]].
  - unfold errors.
    match goal with |- context [for_each batch ?b _] => set (body := b) end.
    destruct (for_each_inv (fun done (st : list R * nat) => snd st = length done /\
        fst st = map error done ++ repeat 0 (length batch - length done)) body batch
        (repeat 0 (length batch), 0%nat)) as ([errs n] & E & A & B).
    + simpl. now rewrite Nat.sub_0_r.
    + intros done a rest [errs n] El (A & B). simpl in *. subst n errs. unfold body.
      assert (L : (length batch - length done = S (length batch - length (done ++ [a])))%nat).
      { rewrite El, !app_length. simpl. lia. }
      rewrite L. simpl repeat. rewrite vset_Ok by (rewrite app_length, map_length; simpl; lia). cbn [bind].
      eexists. split; [reflexivity|]. simpl. split; [rewrite app_length; simpl; lia|].
      rewrite map_app. simpl. rewrite <- app_assoc. simpl.
      clear. rewrite <- (map_length error done).
      induction (map error done) as [|x l IH]; simpl; auto. now rewrite IH.
    + rewrite E. cbn [bind]. simpl in *. rewrite B, Nat.sub_diag. simpl. now rewrite app_nil_r.
  - unfold gradientSum.
    match goal with |- context [for_each batch ?b _] => set (body := b) end.
    destruct (for_each_inv (fun done (g : list R) => length g = dimension /\
      forall j, (j < dimension)%nat -> g.[j] = sum_over done (fun n => (gradient n).[j]))
      body batch (repeat 0 dimension)) as (g & E & A & B).
    + rewrite repeat_length. split; auto. intros. now rewrite nth_repeat_lt.
    + intros done a rest g El (A & B). unfold body.
      destruct (vmap2_Ok Rplus g (gradient a)) as (g' & E & L & V); [rewrite HG; auto|].
      exists g'. split; [exact E|]. split; [congruence|].
      intros j Hj. rewrite V by lia. rewrite B, sum_over_snoc by auto. reflexivity.
    + exists g. auto.
Qed.

Print Assumptions C28_batch_is_sum.
Print Assumptions C28_all_is_sum.
Print Assumptions C28_errors_and_gradient.

(** three instances, batch with a repeated index *)
Example ex_batch :
  exists g, errorGradientBatch 3 (fun n => INR n) (fun n => [1; INR n]) [2; 0; 2]%nat [7; 7]
            = Ok (sum_over [2; 0; 2]%nat (fun n => INR n), g) /\
    g.[0] = 3 /\ g.[1] = 4.
Proof.
  destruct (C28_batch_is_sum 2 3 (fun n => INR n) (fun n => [1; INR n]) [2; 0; 2]%nat [7; 7]) as (g & E & _ & V).
  - reflexivity.
  - reflexivity.
  - simpl. intros i [<-|[<-|[<-|[]]]]; lia.
  - exists g. split; [exact E|]. rewrite !V by lia. unfold sum_over. simpl. split; ring.
Qed.
