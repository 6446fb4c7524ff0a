(** Infrastructure shared by all model files: outcomes of C++ code, checked
    array access, loops, integer parts of reals.  No OpenANN content. *)
From Coq Require Export List Arith ZArith Reals Bool.
Export ListNotations.

(** Outcome of running a piece of C++ code.
    [UB]    undefined behaviour (out-of-range access, dangling pointer, ...)
    [Throw] an exception left the function
    [Abort] a failed [OPENANN_CHECK] (assert, /repo/OpenANN/util/AssertionMacros.h 36-56;
            active unless NDEBUG is defined)
    [Fuel]  a loop without a syntactic bound ran longer than the model allows
            (never part of a result claimed by a theorem) *)
Inductive res (A : Type) : Type :=
| Ok (a : A)
| UB
| Throw
| Abort
| Fuel.
Arguments Ok {A} a.
Arguments UB {A}.
Arguments Throw {A}.
Arguments Abort {A}.
Arguments Fuel {A}.

Definition bind {A B} (m : res A) (f : A -> res B) : res B :=
  match m with
  | Ok a => f a
  | UB => UB
  | Throw => Throw
  | Abort => Abort
  | Fuel => Fuel
  end.

Declare Scope res_scope.
Delimit Scope res_scope with res.
Notation "x <- m ;; k" := (bind m (fun x => k))
  (at level 61, m at next level, right associativity) : res_scope.
Notation "' p <- m ;; k" := (bind m (fun p => k))
  (at level 61, p pattern, m at next level, right associativity) : res_scope.
Open Scope res_scope.

(** [assert(b)] of a debug build *)
Definition check (b : bool) : res unit := if b then Ok tt else Abort.

(** element access of an array: out of range is undefined behaviour *)
Definition vget {A} (l : list A) (i : nat) : res A :=
  match nth_error l i with Some a => Ok a | None => UB end.

Fixpoint upd {A} (l : list A) (i : nat) (a : A) : list A :=
  match l, i with
  | [], _ => []
  | _ :: t, 0 => a :: t
  | x :: t, S j => x :: upd t j a
  end.

Definition vset {A} (l : list A) (i : nat) (a : A) : res (list A) :=
  if Nat.ltb i (length l) then Ok (upd l i a) else UB.

(** a C++ [int] used as an index: negative values are out of range *)
Definition zidx (z : Z) : res nat :=
  if Z.ltb z 0 then UB else Ok (Z.to_nat z).

(** [for(i = from; i < from + n; i++) s = body(i, s)] *)
Fixpoint for_from {St} (from n : nat) (body : nat -> St -> res St) (s : St) : res St :=
  match n with
  | 0 => Ok s
  | S n' => s' <- body from s ;; for_from (S from) n' body s'
  end.

Definition for_ {St} (n : nat) (body : nat -> St -> res St) (s : St) : res St :=
  for_from 0 n body s.

(** [for(it : l) s = body(it, s)] *)
Fixpoint for_each {A St} (l : list A) (body : A -> St -> res St) (s : St) : res St :=
  match l with
  | [] => Ok s
  | a :: l' => s' <- body a s ;; for_each l' body s'
  end.

(** [while(cond(s)) s = body(s)], at most [fuel] rounds *)
Fixpoint while_ {St} (fuel : nat) (cond : St -> bool) (body : St -> res St) (s : St) : res St :=
  if cond s then
    match fuel with
    | 0 => Fuel
    | S f => s' <- body s ;; while_ f cond body s'
    end
  else Ok s.

(** [std::floor] and [std::ceil], converted to an integer *)
Definition Zfloor (x : R) : Z := Int_part x.
Definition Zceil (x : R) : Z := (- Int_part (- x))%Z.

(** comparisons of [double]s as booleans *)
Definition Rltb (x y : R) : bool := if Rlt_dec x y then true else false.
Definition Rleb (x y : R) : bool := if Rle_dec x y then true else false.
Definition Reqb (x y : R) : bool := if Req_EM_T x y then true else false.
