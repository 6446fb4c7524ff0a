(** Model of /repo/src/IntrinsicPlasticity.cpp as a Learner. *)
From Verif Require Import Base BaseFacts Matrix Vec RSum MatOps Activation_Model SimpleLayers_Model.
Local Open Scope R_scope.

(** the members that the functions below use *)
Record ip := mkIPL { nodes : nat; mu : R; ipsv : list R; ipbv : list R; ipparams : list R }.

(** setParameters, lines 70-77 *)
Definition ip_setParameters (l : ip) (parameters : list R) : res ip :=
  s <- for_ (nodes l) (fun i s => v <- vget parameters i ;; vset s i v) (ipsv l) ;;
  b <- for_ (nodes l) (fun j b => v <- vget parameters (nodes l + j) ;; vset b j v) (ipbv l) ;;
  Ok (mkIPL (nodes l) (mu l) s b (ipparams l)).

(** currentParameters, lines 60-68 *)
Definition ip_currentParameters (l : ip) : res (ip * list R) :=
  p <- for_ (nodes l) (fun i p => v <- vget (ipsv l) i ;; vset p i v) (ipparams l) ;;
  p <- for_ (nodes l) (fun j p => v <- vget (ipbv l) j ;; vset p (nodes l + j) v) p ;;
  Ok (mkIPL (nodes l) (mu l) (ipsv l) (ipbv l) p, p).

(** operator()(a), lines 110-123, for one instance: cwiseProduct and + assert equal sizes *)
Definition ip_output (l : ip) (a : list R) : res (list R) :=
  z <- vmap2 Rmult a (ipsv l) ;;
  z <- vmap2 Rplus z (ipbv l) ;;
  Ok (map (act_fun LOGISTIC) z).

(** error(n), lines 48-58, for the instance [a] *)
Definition ip_error (l : ip) (a : list R) : res R :=
  y <- ip_output l a ;;
  for_ (nodes l) (fun i e => v <- vget y i ;; Ok (e + (v - mu l) * (v - mu l))) 0.

(** gradient(n), lines 92-108, for the instance [a] *)
Definition ip_gradient (l : ip) (a : list R) : res (list R) :=
  y <- ip_output l a ;;
  let tmp := 2 + 1 / mu l in
  s0 <- vget (ipsv l) 0 ;;
  _ <- check (negb (Reqb s0 0)) ;;
  g <- for_ (nodes l) (fun i g =>
         si <- vget (ipsv l) i ;; ai <- vget a i ;; yi <- vget y i ;;
         vset g i (1 / si + ai - tmp * ai * yi + ai * yi * yi / mu l)) (repeat 0 (2 * nodes l)) ;;
  g <- for_ (nodes l) (fun j g =>
         yj <- vget y j ;; vset g (nodes l + j) (1 - tmp * yj + yj * yj / mu l)) g ;;
  Ok (map Ropp g).

(** constructor, lines 10-15 and 32-37; [b] is random *)
Definition ip_learner (n : nat) (mu : R) (b : list R) : ip :=
  mkIPL n mu (repeat 1 n) b (repeat 0 (2 * n)).
