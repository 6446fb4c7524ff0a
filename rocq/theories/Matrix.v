(** Matrices with checked element access.  No OpenANN content. *)
From Verif Require Import Base BaseFacts.

(** Eigen::MatrixXd: dimensions and entries.  Entries outside the dimensions are
    junk that no operation returns. *)
Record mat := mkMat { rows : nat; cols : nat; at_ : nat -> nat -> R }.

(** same dimensions and same entries *)
Definition meq (a b : mat) : Prop :=
  rows a = rows b /\ cols a = cols b /\
  forall i j, i < rows a -> j < cols a -> at_ a i j = at_ b i j.

Definition inside (m : mat) (i j : nat) : bool := (Nat.ltb i (rows m) && Nat.ltb j (cols m))%bool.

(** [m(i, j)] *)
Definition mget (m : mat) (i j : nat) : res R :=
  if inside m i j then Ok (at_ m i j) else UB.

(** [m(i, j) = x] *)
Definition mupd (m : mat) (i j : nat) (x : R) : mat :=
  mkMat (rows m) (cols m)
    (fun a b => if (Nat.eqb a i && Nat.eqb b j)%bool then x else at_ m a b).
Definition mset (m : mat) (i j : nat) (x : R) : res mat :=
  if inside m i j then Ok (mupd m i j x) else UB.

(** [m(i, j) += x] *)
Definition madd (m : mat) (i j : nat) (x : R) : res mat :=
  y <- mget m i j ;; mset m i j (y + x)%R.

(** [Eigen::MatrixXd::Zero(r, c)], also after [resize; setZero] *)
Definition mzero (r c : nat) : mat := mkMat r c (fun _ _ => 0%R).

(** [setZero()] *)
Definition msetZero (m : mat) : mat := mzero (rows m) (cols m).

(** [resize(r, c)]: contents become indeterminate; [junk] stands for them *)
Definition mresize (junk : nat -> nat -> R) (r c : nat) : mat := mkMat r c junk.

Lemma inside_true m i j : i < rows m -> j < cols m -> inside m i j = true.
Proof. intros. unfold inside. apply andb_true_intro. split; now apply Nat.ltb_lt. Qed.

Lemma inside_iff m i j : inside m i j = true <-> i < rows m /\ j < cols m.
Proof. unfold inside. rewrite andb_true_iff, !Nat.ltb_lt. tauto. Qed.

Lemma mget_Ok m i j : i < rows m -> j < cols m -> mget m i j = Ok (at_ m i j).
Proof. intros. unfold mget. now rewrite inside_true. Qed.

Lemma mset_Ok m i j x : i < rows m -> j < cols m -> mset m i j x = Ok (mupd m i j x).
Proof. intros. unfold mset. now rewrite inside_true. Qed.

Lemma madd_Ok m i j x : i < rows m -> j < cols m ->
  madd m i j x = Ok (mupd m i j (at_ m i j + x)%R).
Proof. intros. unfold madd. rewrite mget_Ok by auto. simpl. now rewrite mset_Ok. Qed.

Lemma at_mupd m i j x a b :
  at_ (mupd m i j x) a b = if (Nat.eqb a i && Nat.eqb b j)%bool then x else at_ m a b.
Proof. reflexivity. Qed.

Lemma at_mupd_same m i j x : at_ (mupd m i j x) i j = x.
Proof. rewrite at_mupd, !Nat.eqb_refl. reflexivity. Qed.

Lemma at_mupd_other m i j x a b : a <> i \/ b <> j -> at_ (mupd m i j x) a b = at_ m a b.
Proof.
  intros H. rewrite at_mupd. destruct (Nat.eqb_spec a i), (Nat.eqb_spec b j); simpl; auto. lia.
Qed.

Lemma meq_refl a : meq a a.
Proof. repeat split; auto. Qed.
Lemma meq_sym a b : meq a b -> meq b a.
Proof. intros (H1 & H2 & H3). repeat split; auto. intros. symmetry. apply H3; lia. Qed.
Lemma meq_trans a b c : meq a b -> meq b c -> meq a c.
Proof.
  intros (H1 & H2 & H3) (K1 & K2 & K3). repeat split; try lia. intros.
  rewrite H3 by auto. apply K3; lia.
Qed.

Global Arguments mupd : simpl never.
Global Arguments mget : simpl never.
Global Arguments mset : simpl never.
Global Arguments madd : simpl never.
