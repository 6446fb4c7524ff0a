(** Model of /repo/src/AlphaBetaFilter.cpp. *)
From Verif Require Import Base BaseFacts Matrix RSum MatOps Vec Layer_Model.
Local Open Scope R_scope.

(** class AlphaBetaFilter, members of AlphaBetaFilter.h; J is 2 * I *)
Record abf := mkAbf {
  fI : nat; fdeltaT : R; fgamma : list R; fgammad : list R; falpha : list R; fbeta : list R; ffirst : bool; fx : mat; fy : mat }.

Definition abf_with (s : abf) (gamma gammad alpha beta : list R) (first : bool) (x y : mat) : abf :=
  mkAbf (fI s) (fdeltaT s) gamma gammad alpha beta first x y.

(** addresses of the coefficients of gamma and gammad *)
Inductive floc := Gamma (i : nat) | Gammad (i : nat).
Definition abf_load (s : abf) (l : floc) : res R :=
  match l with Gamma i => vget (fgamma s) i | Gammad i => vget (fgammad s) i end.
Definition abf_store (s : abf) (l : floc) (v : R) : res abf :=
  match l with
  | Gamma i => g <- vset (fgamma s) i v ;; Ok (abf_with s g (fgammad s) (falpha s) (fbeta s) (ffirst s) (fx s) (fy s))
  | Gammad i => g <- vset (fgammad s) i v ;; Ok (abf_with s (fgamma s) g (falpha s) (fbeta s) (ffirst s) (fx s) (fy s))
  end.
(** initialize, lines 13-24: the pointers *)
Definition abf_initialize (s : abf) : list floc * list floc :=
  (map Gamma (seq 0 (fI s)), map Gammad (seq 0 (fI s))).

(** constructor, lines 7-11, and initializeParameters, lines 33-38.  [junk] stands for indeterminate values and
    for the random numbers of gamma. *)
Definition abf_new (junk : nat -> nat -> R) (I : nat) (deltaT : R) : abf :=
  mkAbf I deltaT (map (junk 0%nat) (seq 0 I)) (repeat 0 I) (map (junk 1%nat) (seq 0 I)) (map (junk 2%nat) (seq 0 I)) true
    (mkMat 0 0 junk) (mkMat 1 (2 * I) junk).

(** reset, lines 53-57 *)
Definition abf_reset (s : abf) : abf :=
  abf_with s (fgamma s) (fgammad s) (falpha s) (fbeta s) true (fx s) (msetZero (fy s)).

(** updatedParameters, lines 40-51 *)
Definition abf_updated (s : abf) : res abf :=
  s <- for_ (fI s) (fun i s =>
    g <- vget (fgamma s) i ;;
    gamma <- vset (fgamma s) i (Rabs g) ;;
    g <- vget gamma i ;;
    let r := (4 + g - sqrt (8 * g + g * g)) / 4 in
    alpha <- vset (falpha s) i (1 - r * r) ;;
    let rr := 1 - r in
    beta <- vset (fbeta s) i (2 * rr * rr) ;;
    Ok (abf_with s gamma (fgammad s) alpha beta (ffirst s) (fx s) (fy s))) s ;;
  Ok (abf_reset s).

(** forwardPropagate, lines 59-82; [j] is [2 * i].  Simplification: [deltaT = 0] counts as undefined. *)
Definition abf_forward (s : abf) (x : mat) (dropout : bool) : res (abf * mat * R) :=
  y <- (if ffirst s
        then for_ (fI s) (fun i y => z <- mget x 0 i ;; mset y 0 (2 * i) z) (fy s)
        else Ok (fy s)) ;;
  y <- for_ (fI s) (fun i y =>
      z <- mget x 0 i ;;
      p <- mget y 0 (2 * i) ;;
      let diff := z - p in
      b <- vget (fbeta s) i ;;
      if Reqb (fdeltaT s) 0 then UB else
      y <- madd y 0 (2 * i + 1) (b / fdeltaT s * diff) ;;
      a <- vget (falpha s) i ;;
      v <- mget y 0 (2 * i + 1) ;;
      madd y 0 (2 * i) (a * diff + fdeltaT s * v)) y ;;
  Ok (abf_with s (fgamma s) (fgammad s) (falpha s) (fbeta s) false x y, y, 0).

(** backpropagate, lines 84-89, does nothing.  [eout] keeps its value, which is the same pointer as [ein] in
    Net::backpropagate. *)
Definition abf_backward (s : abf) (ein : mat) (bp : bool) : res (abf * mat) := Ok (s, ein).

Definition abf_class : LayerClass :=
  mkClass abf floc abf_initialize abf_load abf_store abf_updated abf_forward abf_backward.
