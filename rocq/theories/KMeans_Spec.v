(** What k-means clustering should do. *)
From Verif Require Import Base Matrix RSum KMeans_Model.
Local Open Scope R_scope.

(** squared Euclidean distance of vectors with D components *)
Definition sqDist (D : nat) (x y : nat -> R) : R := rsum D (fun d => (x d - y d) ^ 2).

(** centre [k] is a nearest one of the K rows of [C] *)
Definition nearest (D K : nat) (C : mat) (x : nat -> R) (k : nat) : Prop :=
  (k < K)%nat /\ forall k', (k' < K)%nat -> sqDist D (at_ C k) x <= sqDist D (at_ C k') x.

(** mean of the vectors in a list *)
Definition meanOf (l : list (nat -> R)) (d : nat) : R := lsum (map (fun x => x d) l) / INR (length l).

(** A KMeans object after any sequence of calls of fit.  [log] are all points of the calls with the centres
    they have been assigned to; [first] are the points of the first call. *)
Inductive fitted (DBL_MAX : R) (D K : nat) : kmeans -> list (nat * (nat -> R)) -> list (nat -> R) -> Prop :=
| fitted_new junkC junkV : fitted DBL_MAX D K (km_new D K junkC junkV) [] []
| fitted_fit s log first X shuf s' : fitted DBL_MAX D K s log first ->
    (forall l, Permutation.Permutation l (shuf l)) -> km_fit DBL_MAX shuf s X = Ok s' ->
    fitted DBL_MAX D K s' (log ++ map (fun n => (nth n (clusterIndices s') 0%nat, at_ X n)) (seq 0 (rows X)))
      (if kmInit s then first else map (at_ X) (seq 0 (rows X))).

(** the points that have been assigned to centre [k] *)
Definition pointsOf (k : nat) (log : list (nat * (nat -> R))) : list (nat -> R) :=
  map snd (filter (fun p => Nat.eqb (fst p) k) log).
