(** Model of data set views and of the functions that create them.
    /repo/src/DataSetView.cpp, /repo/OpenANN/io/DataSetView.h,
    /repo/OpenANN/util/Random.h. *)
From Verif Require Import Base.

Section DataSets.
(** [V] is the type of input and target vectors ([Eigen::VectorXd]). *)
Context {V : Type}.

(** A data set object.  [Direct] stands for a data set that stores its samples
    (a list of pairs input/target, e.g. DirectStorageDataSet); [View] for a
    DataSetView, which holds the address of another data set and indices into it
    (DataSetView.h 94-99). *)
Inductive obj :=
| Direct (rows : list (V * V))
| View (base : nat) (indices : list nat).

(** Memory: the object at address [a] is element [a].  Objects are referenced by
    address, so changing a view changes every view that is based on it.
    Simplification: objects do not move (a view stored in a [std::vector] keeps
    its address) and are not destroyed while referenced. *)
Definition heap := list obj.

(** /repo/src/DataSetView.cpp 23-26, samples *)
Definition samples (h : heap) (a : nat) : res nat :=
  o <- vget h a ;;
  match o with
  | Direct rows => Ok (length rows)
  | View _ idx => Ok (length idx)
  end.

(** /repo/src/DataSetView.cpp 38-42 and 44-48, getInstance ([target = false]) and
    getTarget ([target = true]); virtual dispatch on the object at [a].
    [fuel] bounds the depth of nested views. *)
Fixpoint read (fuel : nat) (target : bool) (h : heap) (a i : nat) : res V :=
  o <- vget h a ;;
  match o with
  | Direct rows => r <- vget rows i ;; Ok (if target then snd r else fst r)
  | View b idx =>
      _ <- check (Nat.ltb i (length idx)) ;;   (* OPENANN_CHECK_WITHIN *)
      j <- vget idx i ;;
      match fuel with
      | 0 => Fuel
      | S f => read f target h b j
      end
  end.

Definition getInstance (h : heap) (a i : nat) : res V := read (S a) false h a i.
Definition getTarget (h : heap) (a i : nat) : res V := read (S a) true h a i.

(** DataSetView(dataset, begin, end), DataSetView.h 51-54, with iterators
    [indices.begin() + b] and [indices.begin() + e]. *)
Definition mkView (ds : nat) (indices : list nat) (b e : nat) : res obj :=
  if (Nat.leb b e && Nat.leb e (length indices))%bool
  then Ok (View ds (firstn (e - b) (skipn b indices)))
  else UB.

(** the loop [for(i = 0; i < n; ++i) indices.push_back(i)],
    DataSetView.cpp 70-71, 99-100, Random.h 107-108 *)
Definition fillIndices (n : nat) (indices : list nat) : res (list nat) :=
  for_ n (fun i l => Ok (l ++ [i])) indices.

(** /repo/src/DataSetView.cpp 61-88.  [shuf] is the effect of [std::shuffle];
    the theorems allow any permutation.  Simplification: the new views are
    returned instead of being written into [groups], which is appended to. *)
Definition splitGroups (h : heap) (ds n : nat) (shuffling : bool)
           (shuf : list nat -> list nat) (groups : list obj) : res (list obj) :=
  _ <- check (Nat.ltb 1 n) ;;
  N <- samples h ds ;;
  indices <- fillIndices N [] ;;
  samplesPerGroup <- zidx (Zfloor (INR (N / n) + / 2)) ;;
  let indices := if shuffling then shuf indices else indices in
  for_ n (fun i groups =>
            let it := i * samplesPerGroup in
            v <- (if Nat.ltb i (n - 1)
                  then mkView ds indices it (it + samplesPerGroup)
                  else mkView ds indices it (length indices)) ;;
            Ok (groups ++ [v])) groups.

(** /repo/src/DataSetView.cpp 90-110 *)
Definition splitRatio (h : heap) (ds : nat) (ratio : R) (shuffling : bool)
           (shuf : list nat -> list nat) (groups : list obj) : res (list obj) :=
  _ <- check (Rleb 0 ratio && Rleb ratio 1)%bool ;;
  N <- samples h ds ;;
  indices <- fillIndices N [] ;;
  k <- zidx (Zceil (ratio * INR N)) ;;
  let indices := if shuffling then shuf indices else indices in
  v1 <- mkView ds indices 0 k ;;
  v2 <- mkView ds indices k (length indices) ;;
  Ok (groups ++ [v1] ++ [v2]).

(** /repo/src/DataSetView.cpp 112-123.  [m] is the address of the view to extend
    and [groups] the addresses of the views to append.  Appending a non-empty
    vector to itself through a back inserter invalidates the source iterators. *)
Definition merge (h : heap) (m : nat) (groups : list nat) : res heap :=
  _ <- check (Nat.ltb 0 (length groups)) ;;
  for_each groups (fun g h =>
    om <- vget h m ;; og <- vget h g ;;
    match om, og with
    | View bm im, View bg ig =>
        _ <- check (Nat.eqb bm bg) ;;
        if (Nat.eqb m g && Nat.ltb 0 (length ig))%bool then UB
        else vset h m (View bm (im ++ ig))
    | _, _ => UB   (* not views: does not compile in C++ *)
    end) h.

(** /repo/OpenANN/util/Random.h 101-115, generateIndices *)
Definition generateIndices (n : nat) (result : list nat) (initialized : bool)
           (shuf : list nat -> list nat) : res (list nat) :=
  result <- (if initialized
             then _ <- check (Nat.eqb (length result) n) ;; Ok result
             else _ <- check (Nat.eqb (length result) 0) ;; fillIndices n result) ;;
  Ok (shuf result).

(** /repo/src/DataSetView.cpp 125-139.  [indices] is only reserved, its size
    stays 0: with replacement the element writes are out of range.  [idx n] is the
    n-th value of [rng.generateIndex]. *)
Definition sample (h : heap) (ds : nat) (fraction : R) (replacement : bool)
           (idx : nat -> nat) (shuf : list nat -> list nat) : res obj :=
  N <- samples h ds ;;
  k <- zidx (Zceil (INR N * fraction)) ;;
  indices <- (if replacement
              then for_ k (fun n l => vset l n (idx n)) []
              else generateIndices N [] false shuf) ;;
  mkView ds indices 0 k.

(** /repo/src/DataSetView.cpp 55-59 *)
Definition shuffle (h : heap) (a : nat) (shuf : list nat -> list nat) : res heap :=
  o <- vget h a ;;
  match o with
  | View b idx => vset h a (View b (shuf idx))
  | Direct _ => UB
  end.

(** A program that builds views: every public way to create or change one. *)
Inductive vop :=
| OSplitGroups (ds n : nat) (shuffling : bool) (shuf : list nat -> list nat)
| OSplitRatio (ds : nat) (ratio : R) (shuffling : bool) (shuf : list nat -> list nat)
| OEmptyView (ds : nat)             (* DataSetView(DataSet&), DataSetView.h 40-41 *)
| OCopyView (v : nat)               (* copy constructor, DataSetView.cpp 18-21 *)
| OMerge (m : nat) (groups : list nat)
| OSample (ds : nat) (fraction : R) (replacement : bool) (idx : nat -> nat)
          (shuf : list nat -> list nat)
| OShuffle (v : nat) (shuf : list nat -> list nat).

Definition vstep (h : heap) (o : vop) : res heap :=
  match o with
  | OSplitGroups ds n sh shuf => vs <- splitGroups h ds n sh shuf [] ;; Ok (h ++ vs)
  | OSplitRatio ds r sh shuf => vs <- splitRatio h ds r sh shuf [] ;; Ok (h ++ vs)
  | OEmptyView ds => _ <- vget h ds ;; Ok (h ++ [View ds []])
  | OCopyView v =>
      o <- vget h v ;;
      match o with View b idx => Ok (h ++ [View b idx]) | Direct _ => UB end
  | OMerge m gs => merge h m gs
  | OSample ds f r idx shuf => v <- sample h ds f r idx shuf ;; Ok (h ++ [v])
  | OShuffle v shuf => shuffle h v shuf
  end.

Definition vrun (ops : list vop) (h : heap) : res heap := for_each ops (fun o h => vstep h o) h.

End DataSets.
Arguments obj V : clear implicits.
Arguments heap V : clear implicits.
