(** Model of class KMeans, /repo/src/KMeans.cpp and /repo/OpenANN/KMeans.h 28-37. *)
From Verif Require Import Base BaseFacts Matrix RSum MatOps DataSet_Model.
Local Open Scope R_scope.

Record kmeans := mkKMeans {
  kmD : nat; kmK : nat; kmC : mat; kmV : list nat; kmInit : bool; clusterIndices : list nat }.

(** [row(i)] of two matrices: squared distance; Eigen asserts equal numbers of columns and that the
    rows exist *)
Definition rowDistance (a : mat) (i : nat) (b : mat) (j : nat) : res R :=
  _ <- check (Nat.ltb i (rows a) && Nat.ltb j (rows b) && Nat.eqb (cols a) (cols b))%bool ;;
  Ok (rsum (cols a) (fun d => (at_ a i d - at_ b j d) * (at_ a i d - at_ b j d))).
(** [a.row(i) = f] with coefficients computed from row [j] of [b] and row [i] of [a] *)
Definition assignRow (a : mat) (i : nat) (b : mat) (j : nat) (f : R -> R -> R) : res mat :=
  _ <- check (Nat.ltb i (rows a) && Nat.ltb j (rows b) && Nat.eqb (cols a) (cols b))%bool ;;
  Ok (mkMat (rows a) (cols a) (fun i' d => if Nat.eqb i' i then f (at_ a i d) (at_ b j d) else at_ a i' d)).

(** KMeans.cpp 7-10; [junkC] and [junkV] are the entries of the new matrix and vector *)
Definition km_new (D K : nat) (junkC : nat -> nat -> R) (junkV : nat -> nat) : kmeans :=
  mkKMeans D K (mkMat K D junkC) (map junkV (seq 0 K)) false [].

(** initialize, lines 41-48; [shuf] is the shuffling in generateIndices *)
Definition km_initialize (shuf : list nat -> list nat) (s : kmeans) (X : mat) : res kmeans :=
  idx <- generateIndices (rows X) (clusterIndices s) false shuf ;;
  C <- for_ (kmK s) (fun k C => i <- vget idx k ;; assignRow C k X i (fun _ x => x)) (kmC s) ;;
  Ok (mkKMeans (kmD s) (kmK s) C (map (fun _ => 0%nat) (kmV s)) true idx).

Section FindClusters.
(** std::numeric_limits<double>::max() *)
Variable DBL_MAX : R.

(** findClusters, lines 50-68 *)
Definition findClusters (s : kmeans) (X : mat) : res kmeans :=
  idx <- for_ (rows X) (fun n idx =>
      ' (cluster, _) <- for_ (kmK s) (fun k '(cluster, shortedDistance) =>
          distance <- rowDistance (kmC s) k X n ;;
          Ok (if Rltb distance shortedDistance then (k, distance) else (cluster, shortedDistance))) (0%nat, DBL_MAX) ;;
      vset idx n cluster) (clusterIndices s) ;;
  Ok (mkKMeans (kmD s) (kmK s) (kmC s) (kmV s) (kmInit s) idx).

(** updateCenters, lines 70-80 *)
Definition updateCenters (s : kmeans) (X : mat) : res kmeans :=
  ' (C, v) <- for_ (rows X) (fun n '(C, v) =>
      cluster <- vget (clusterIndices s) n ;;
      c <- vget v cluster ;;
      v <- vset v cluster (c + 1)%nat ;;
      let eta := 1 / INR (c + 1) in
      C <- assignRow C cluster X n (fun c x => c + eta * (x - c)) ;;
      Ok (C, v)) (kmC s, kmV s) ;;
  Ok (mkKMeans (kmD s) (kmK s) C v (kmInit s) (clusterIndices s)).

(** fit, lines 12-24 *)
Definition km_fit (shuf : list nat -> list nat) (s : kmeans) (X : mat) : res kmeans :=
  _ <- check (Nat.eqb (cols X) (kmD s)) ;;
  s <- (if kmInit s then Ok s else km_initialize shuf s X) ;;
  _ <- check (Nat.eqb (rows X) (length (clusterIndices s))) ;;
  s <- findClusters s X ;;
  updateCenters s X.
End FindClusters.

(** operator(), lines 26-34; [junk] are the entries of the new matrix *)
Definition km_apply (junk : nat -> nat -> R) (s : kmeans) (X : mat) : res mat :=
  for_ (rows X) (fun n Y =>
    for_ (kmK s) (fun k Y => d <- rowDistance X n (kmC s) k ;; mset Y n k (sqrt d)) Y)
    (mkMat (rows X) (kmK s) junk).

(** getCenters, lines 36-39 *)
Definition getCenters (s : kmeans) : mat := kmC s.
