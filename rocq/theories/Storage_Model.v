(** Models of DirectStorageDataSet (shared result vectors), DataStream and the
    random number helpers. *)
From Verif Require Import Base.

(* ------------------------------------------------------------------------- *)
(** * DirectStorageDataSet, /repo/src/DirectStorageDataSet.cpp *)
Section Direct.
Context {V : Type}.

(** the two temporaries of the object, DirectStorageDataSet.h 27-28 *)
Record temps := mkTemps { temporaryInput : V; temporaryOutput : V }.

(** what getInstance / getTarget return: a reference to a temporary *)
Inductive ref := RefInput | RefOutput.

(** lines 20-25 *)
Definition getInstanceRef (ins : list V) (t : temps) (i : nat) : res (ref * temps) :=
  _ <- check (Nat.ltb i (length ins)) ;;
  x <- vget ins i ;;
  Ok (RefInput, mkTemps x (temporaryOutput t)).

(** lines 27-33; [outs = None] is a data set without targets *)
Definition getTargetRef (outs : option (list V)) (t : temps) (i : nat) : res (ref * temps) :=
  match outs with
  | None => Abort
  | Some outs =>
      _ <- check (Nat.ltb i (length outs)) ;;
      x <- vget outs i ;;
      Ok (RefOutput, mkTemps (temporaryInput t) x)
  end.

(** reading through a reference *)
Definition deref (r : ref) (t : temps) : V :=
  match r with RefInput => temporaryInput t | RefOutput => temporaryOutput t end.

Inductive acc := GetInstance (i : nat) | GetTarget (i : nat).

Definition access (ins : list V) (outs : option (list V)) (t : temps) (a : acc) : res (ref * temps) :=
  match a with
  | GetInstance i => getInstanceRef ins t i
  | GetTarget i => getTargetRef outs t i
  end.

(** a sequence of calls whose results are not looked at *)
Definition accesses (ins : list V) (outs : option (list V)) (l : list acc) (t : temps) : res temps :=
  for_each l (fun a t => ' (_, t') <- access ins outs t a ;; Ok t') t.
End Direct.
Arguments temps V : clear implicits.

(* ------------------------------------------------------------------------- *)
(** * DataStream, /repo/src/DataStream.cpp *)
Section Stream.
Context {V : Type}.

(** [X] and [T] are the matrices behind the cache, a row is [None] until written.
    [cache] tells whether [initialize] ran.  [steps] logs, for every call of
    opt->step(), the contents of [X] and [T] the optimizer works on (newest last). *)
Record stream := mkStream {
  cacheSize : nat;
  collected : nat;
  cache : bool;
  haveLearner : bool;
  haveOptimizer : bool;
  X : list (option V);
  T : list (option V);
  steps : list (list (option V) * list (option V))
}.

(** lines 12-15 *)
Definition newStream (cs : nat) : stream := mkStream cs 0 false false false [] [] [].

(** lines 23-27 *)
Definition setLearner (s : stream) : stream :=
  mkStream (cacheSize s) (collected s) (cache s) true (haveOptimizer s) (X s) (T s) (steps s).
(** lines 29-35; resetting the stop criteria of the optimizer is not modelled *)
Definition setOptimizer (s : stream) : stream :=
  mkStream (cacheSize s) (collected s) (cache s) (haveLearner s) true (X s) (T s) (steps s).

(** lines 54-71: fresh matrices with [cacheSize] rows, [T] only with targets.
    Simplification: a sample is one abstract value, its length is not modelled. *)
Definition initialize (s : stream) (targets : bool) : res stream :=
  _ <- check (haveLearner s) ;; _ <- check (haveOptimizer s) ;;
  Ok (mkStream (cacheSize s) (collected s) true (haveLearner s) (haveOptimizer s)
        (repeat None (cacheSize s))
        (if targets then repeat None (cacheSize s) else T s) (steps s)).

(** lines 37-52 *)
Definition addSample (s : stream) (x : V) (t : option V) : res stream :=
  _ <- check (haveLearner s) ;; _ <- check (haveOptimizer s) ;;
  s <- (if cache s then Ok s else initialize s (match t with Some _ => true | None => false end)) ;;
  X' <- vset (X s) (collected s) (Some x) ;;
  T' <- (match t with Some v => vset (T s) (collected s) (Some v) | None => Ok (T s) end) ;;
  let c := S (collected s) in
  Ok (if Nat.leb (cacheSize s) c
      then mkStream (cacheSize s) 0 (cache s) (haveLearner s) (haveOptimizer s) X' T'
             (steps s ++ [(X', T')])
      else mkStream (cacheSize s) c (cache s) (haveLearner s) (haveOptimizer s) X' T' (steps s)).

Definition feed (samples : list (V * option V)) (s : stream) : res stream :=
  for_each samples (fun p s => addSample s (fst p) (snd p)) s.
End Stream.
Arguments stream V : clear implicits.

(* ------------------------------------------------------------------------- *)
(** * Random numbers, /repo/src/Random.cpp and /repo/OpenANN/util/Random.h.
    [r] is the value returned by rand(), [0 <= r <= RAND_MAX]. *)
Local Open Scope Z_scope.

(** Random.cpp 24-31; C++ [%] truncates, which [Z.rem] does *)
Definition generateInt (r min range : Z) : res Z :=
  _ <- check (Z.leb 0 range) ;;
  Ok (if Z.eqb range 0 then min else Z.rem r range + min).

(** Random.cpp 33-36.  Simplification: no conversion overflow of [size]. *)
Definition generateIndex (r size : Z) : res Z := generateInt r 0 size.

(** Random.h 62-70, generate<double> *)
Definition generateReal (r RAND_MAX : Z) (min range : R) : res R :=
  _ <- check (Rleb 0 range) ;;
  Ok (if Reqb range 0 then min else (IZR r / IZR RAND_MAX * range + min)%R).
