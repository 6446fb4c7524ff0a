(** Matrix operations of Eigen that are used by several layers.  No OpenANN content. *)
From Verif Require Import Base BaseFacts Matrix RSum.
Local Open Scope R_scope.

(** coefficient-wise operations *)
Definition mmap (f : R -> R) (a : mat) : mat :=
  mkMat (rows a) (cols a) (fun i j => f (at_ a i j)).

Definition same_size (a b : mat) : bool :=
  (Nat.eqb (rows a) (rows b) && Nat.eqb (cols a) (cols b))%bool.

(** Eigen asserts equal sizes *)
Definition mmap2 (f : R -> R -> R) (a b : mat) : res mat :=
  if same_size a b then Ok (mkMat (rows a) (cols a) (fun i j => f (at_ a i j) (at_ b i j)))
  else Abort.

(** [a.transpose()] *)
Definition mtrans (a : mat) : mat := mkMat (cols a) (rows a) (fun i j => at_ a j i).

(** [a * b] *)
Definition mmul (a b : mat) : res mat :=
  if Nat.eqb (cols a) (rows b)
  then Ok (mkMat (rows a) (cols b) (fun i j => rsum (cols a) (fun k => at_ a i k * at_ b k j)))
  else Abort.

(** [a.rowwise() += b.transpose()] for a vector of size [m] with entries [b] *)
Definition maddrow (a : mat) (m : nat) (b : nat -> R) : res mat :=
  if Nat.eqb (cols a) m
  then Ok (mkMat (rows a) (cols a) (fun i j => at_ a i j + b j)) else Abort.

(** [a.colwise().sum()]: entry j *)
Definition colsum (a : mat) (j : nat) : R := rsum (rows a) (fun i => at_ a i j).

(** sum of all coefficients *)
Definition msum (a : mat) : R := rsum (rows a) (fun i => rsum (cols a) (fun j => at_ a i j)).

(** [conservativeResize(r, NoChange)] and [conservativeResize(r, c)]: old entries are
    kept, new ones are indeterminate ([junk]) *)
Definition mconsresize (junk : nat -> nat -> R) (a : mat) (r c : nat) : mat :=
  mkMat r c (fun i j => if inside a i j then at_ a i j else junk i j).

Definition size_is (a : mat) (r c : nat) : Prop := rows a = r /\ cols a = c.

Lemma same_size_true a b r c : size_is a r c -> size_is b r c -> same_size a b = true.
Proof.
  intros (A & B) (A' & B'). unfold same_size. rewrite A, B, A', B', !Nat.eqb_refl. auto.
Qed.

Lemma mmap2_Ok f a b r c : size_is a r c -> size_is b r c ->
  mmap2 f a b = Ok (mkMat r c (fun i j => f (at_ a i j) (at_ b i j))).
Proof.
  intros Ha Hb. unfold mmap2. rewrite (same_size_true a b r c) by auto.
  destruct Ha as (A & B). rewrite A, B. reflexivity.
Qed.

Lemma mmul_Ok a b r k c : size_is a r k -> size_is b k c ->
  mmul a b = Ok (mkMat r c (fun i j => rsum k (fun l => at_ a i l * at_ b l j))).
Proof.
  intros (A & B) (A' & B'). unfold mmul. rewrite A, B, A', B', Nat.eqb_refl. auto.
Qed.

Lemma maddrow_Ok a b r c : size_is a r c ->
  maddrow a c b = Ok (mkMat r c (fun i j => at_ a i j + b j)).
Proof. intros (A & B). unfold maddrow. rewrite A, B, Nat.eqb_refl. auto. Qed.

(** [a.leftCols(k)] and [a.block(0, 0, r, c)]; Eigen asserts that they lie inside *)
Definition mleftCols (a : mat) (k : nat) : res mat :=
  if Nat.leb k (cols a) then Ok (mkMat (rows a) k (at_ a)) else Abort.
Definition mblock (a : mat) (r c : nat) : res mat :=
  if (Nat.leb r (rows a) && Nat.leb c (cols a))%bool then Ok (mkMat r c (at_ a)) else Abort.
(** [a.col(k)], as a matrix with one column *)
Definition mcol (a : mat) (k : nat) : res mat :=
  if Nat.ltb k (cols a) then Ok (mkMat (rows a) 1 (fun i _ => at_ a i k)) else Abort.
(** [a.leftCols(k) = b] *)
Definition msetLeftCols (a : mat) (k : nat) (b : mat) : res mat :=
  if (Nat.leb k (cols a) && Nat.eqb (cols b) k && Nat.eqb (rows b) (rows a))%bool
  then Ok (mkMat (rows a) (cols a) (fun i j => if Nat.ltb j k then at_ b i j else at_ a i j))
  else Abort.
(** [a.col(k) = b] for a vector [b] *)
Definition msetCol (a : mat) (k : nat) (b : mat) : res mat :=
  if (Nat.ltb k (cols a) && Nat.eqb (cols b) 1 && Nat.eqb (rows b) (rows a))%bool
  then Ok (mkMat (rows a) (cols a) (fun i j => if Nat.eqb j k then at_ b i 0%nat else at_ a i j))
  else Abort.
(** [a.colwise().sum().transpose()] *)
Definition mcolsum (a : mat) : mat := mkMat (cols a) 1 (fun j _ => colsum a j).

Lemma mleftCols_Ok a k r c : size_is a r c -> (k <= c)%nat -> mleftCols a k = Ok (mkMat r k (at_ a)).
Proof. intros (A & B) H. unfold mleftCols. rewrite A, B. apply Nat.leb_le in H. now rewrite H. Qed.
Lemma mblock_Ok a r c r' c' : size_is a r' c' -> (r <= r')%nat -> (c <= c')%nat ->
  mblock a r c = Ok (mkMat r c (at_ a)).
Proof.
  intros (A & B) H H'. unfold mblock. rewrite A, B. apply Nat.leb_le in H, H'. now rewrite H, H'.
Qed.
Lemma mcol_Ok a k r c : size_is a r c -> (k < c)%nat -> mcol a k = Ok (mkMat r 1 (fun i _ => at_ a i k)).
Proof. intros (A & B) H. unfold mcol. rewrite A, B. apply Nat.ltb_lt in H. now rewrite H. Qed.
Lemma msetLeftCols_Ok a k b r c : size_is a r c -> size_is b r k -> (k <= c)%nat ->
  msetLeftCols a k b = Ok (mkMat r c (fun i j => if Nat.ltb j k then at_ b i j else at_ a i j)).
Proof.
  intros (A & B) (C & D) H. unfold msetLeftCols. rewrite A, B, C, D, !Nat.eqb_refl.
  apply Nat.leb_le in H. now rewrite H.
Qed.
Lemma msetCol_Ok a k b r c : size_is a r c -> size_is b r 1 -> (k < c)%nat ->
  msetCol a k b = Ok (mkMat r c (fun i j => if Nat.eqb j k then at_ b i 0%nat else at_ a i j)).
Proof.
  intros (A & B) (C & D) H. unfold msetCol. rewrite A, B, C, D, !Nat.eqb_refl.
  apply Nat.ltb_lt in H. now rewrite H.
Qed.
