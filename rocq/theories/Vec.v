(** Vectors of reals with checked binary operations.  No OpenANN content. *)
From Verif Require Import Base BaseFacts.
Local Open Scope R_scope.

(** entry [j] of a vector; only used for [j < length v] *)
Notation "v .[ j ]" := (nth j v 0%R) (at level 2, left associativity, format "v .[ j ]").

(** coefficient-wise binary operation; Eigen asserts equal sizes *)
Definition vmap2 (f : R -> R -> R) (a b : list R) : res (list R) :=
  if Nat.eqb (length a) (length b)
  then Ok (map (fun p => f (fst p) (snd p)) (combine a b)) else Abort.
Definition vadd (a b : list R) : res (list R) := vmap2 Rplus a b.
Definition vminus (a b : list R) : res (list R) := vmap2 Rminus a b.
Definition vscale (c : R) (a : list R) : list R := map (Rmult c) a.
(** [norm()] *)
Definition norm (a : list R) : R := sqrt (fold_right (fun x s => x * x + s) 0 a).

Lemma vmap2_Ok f a b : length a = length b ->
  exists c, vmap2 f a b = Ok c /\ length c = length a /\
    forall j, (j < length a)%nat -> c.[j] = f a.[j] b.[j].
Proof.
  intros H. unfold vmap2. rewrite H, Nat.eqb_refl. eexists. split; [reflexivity|].
  assert (L : length (map (fun p => f (fst p) (snd p)) (combine a b)) = length b).
  { rewrite map_length, combine_length. lia. }
  split; auto. intros j Hj.
  rewrite nth_indep with (d' := f 0 0) by lia.
  change (f 0 0) with ((fun p => f (fst p) (snd p)) (0, 0)).
  rewrite map_nth, combine_nth by auto. reflexivity.
Qed.

Lemma vscale_length c a : length (vscale c a) = length a.
Proof. apply map_length. Qed.

Lemma vscale_nth c a j : (vscale c a).[j] = c * a.[j].
Proof.
  unfold vscale. replace 0 with (c * 0) at 1 by ring. apply (map_nth (Rmult c)).
Qed.

Lemma vec_ext (a b : list R) : length a = length b ->
  (forall j, (j < length a)%nat -> a.[j] = b.[j]) -> a = b.
Proof. intros L H. apply (nth_ext a b 0 0); auto. Qed.

Lemma nth_repeat_lt (x d : R) n j : (j < n)%nat -> nth j (repeat x n) d = x.
Proof. revert j. induction n as [|n IH]; intros [|j] H; simpl; auto; try lia. apply IH. lia. Qed.
