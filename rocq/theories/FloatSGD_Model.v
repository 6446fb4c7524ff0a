(** Double precision: mini-batch stochastic gradient descent, /repo/src/MBSGD.cpp.  (MBSGD_Model models the same functions with real numbers,
    and moreover the order of the instances, the calls of the problem and the stopping criteria.)  Doubles as in Float_Model. *)
From Coq Require Import ZArith List.
From Flocq Require Import Core BinarySingleNaN.
From Verif Require Import Base Activation_Model Float_Model FloatSplit_Model.

(** std::max(a, b) and std::min(a, b): they return the first argument if the comparison fails *)
Definition dmax (a b : double) : double := if dltb a b then b else a.
Definition dmin (a b : double) : double := if dltb b a then b else a.

(** hyper-parameters that do not change, and members that do *)
Record dsgd := mkDsgd {
  sNesterov : bool; sDecay : double; sMinAlpha : double; sEtaGain : double; sMaxEta : double; sMinGain : double; sMaxGain : double }.
Record dstate := mkDstate {
  sAlpha : double; sEta : double; sParameters : list double; sMomentum : list double; sGains : list double }.

(** [useGain(minGain != 1.0 || maxGain != 1.0)], MBSGD.cpp 25; NaN differs from 1 *)
Definition d_useGain (c : dsgd) : bool := negb (Beqb (sMinGain c) (dint 1) && Beqb (sMaxGain c) (dint 1)).

(** constructor, lines 17-42: the members, learning rate and momentum.  A comparison with NaN is false. *)
Definition d_newMBSGD (lr mo : double) (batchSize : Z) (nesterov : bool) (decay minLR momGain maxMom minG maxG : double)
    : res (dsgd * double * double) :=
  if (dleb lr (dint 0) || dltb (dint 1) lr)%bool then Throw else
  if (dltb mo (dint 0) || dleb (dint 1) mo)%bool then Throw else
  if Z.ltb batchSize 1 then Throw else
  if (dleb decay (dint 0) || dltb (dint 1) decay)%bool then Throw else
  if (dltb minLR (dint 0) || dltb (dint 1) minLR)%bool then Throw else
  if (dltb momGain (dint 0) || dleb (dint 1) momGain)%bool then Throw else
  if (dltb maxMom (dint 0) || dltb (dint 1) maxMom)%bool then Throw else
  Ok (mkDsgd nesterov decay minLR momGain maxMom minG maxG, lr, mo).

(** initialize, lines 183-186: the state of a new run from the parameters [p] of the problem *)
Definition d_start (alpha eta : double) (p : list double) : dstate :=
  mkDstate alpha eta p (repeat (dint 0) (length p)) (repeat (dint 1) (length p)).

(** OPENANN_CHECK_MATRIX_BROKEN and OPENANN_CHECK_INF_AND_NAN, EigenWrapper.h 28-57 and AssertionMacros.h 56-70 *)
Definition d_unbroken (l : list double) : bool := forallb is_finite l.

(** [zip f a b]: coefficient-wise expressions of Eigen, which asserts that the sizes are equal *)
Definition zip (f : double -> double -> double) (a b : list double) : res (list double) :=
  _ <- check (Nat.eqb (length a) (length b)) ;;
  Ok (map (fun p => f (fst p) (snd p)) (combine a b)).

(** lines 110-114: the new gain of a parameter; [mg] is momentum times gradient, [k] the old gain *)
Definition d_gain (c : dsgd) (mg k : double) : double :=
  let k := if dleb (dint 0) mg then dplus k (literal 5 2) else dmult k (literal 95 2) in
  dmin (sMaxGain c) (dmax (sMinGain c) k).

(** One round of the loop over the batches, lines 98-132.  [answer] is the gradient that the problem returns for this batch, given its
    parameters; without Nesterov momentum these are the parameters that the last round installed. *)
Definition d_round (c : dsgd) (answer : list double -> list double) (s : dstate) : res dstate :=
  let eta := sEta s in
  let alpha := sAlpha s in
  at_ <- (if sNesterov c then zip (fun p m => dplus p (dmult eta m)) (sParameters s) (sMomentum s) else Ok (sParameters s)) ;;
  let g := answer at_ in
  _ <- check (d_unbroken g) ;;
  gains <- (if d_useGain c
            then mg <- zip dmult (sMomentum s) g ;; zip (d_gain c) mg (sGains s)
            else Ok (sGains s)) ;;
  g <- (if d_useGain c then zip dmult g gains else Ok g) ;;
  m <- zip (fun m g => dminus (dmult eta m) (dmult alpha g)) (sMomentum s) g ;;
  _ <- check (d_unbroken m) ;;
  p <- zip dplus (sParameters s) m ;;
  _ <- check (d_unbroken p) ;;
  let alpha := dmax (dmult alpha (sDecay c)) (sMinAlpha c) in
  _ <- check (is_finite alpha) ;;
  let eta := dmin (dplus eta (sEtaGain c)) (sMaxEta c) in
  _ <- check (is_finite eta) ;;
  Ok (mkDstate alpha eta p m gains).

(** the rounds of the loop over the batches, of any number of epochs *)
Fixpoint d_rounds (c : dsgd) (answers : list (list double -> list double)) (s : dstate) : res dstate :=
  match answers with
  | [] => Ok s
  | a :: l => s <- d_round c a s ;; d_rounds c l s
  end.
