(** Model of /repo/src/StoppingInterrupt.cpp. *)
From Verif Require Import Base.

(** static members [stoppingInterruptSignal] and [observers], and the disposition of
    SIGINT: [true] if the handler of the class is installed, [false] if SIG_DFL.
    Simplification: nobody else calls std::signal; a signal arrives between two
    calls. *)
Record world := mkWorld { flag : bool; observers : nat; installed : bool }.

Definition start : world := mkWorld false 0 false.

(** constructor, lines 13-21 *)
Definition construct (w : world) : res world :=
  _ <- check (negb (flag w)) ;;
  let inst := if Nat.eqb (observers w) 0 then true else installed w in
  Ok (mkWorld (flag w) (S (observers w)) inst).

(** destructor, lines 23-32 (only for an existing object, so [observers] is positive) *)
Definition destruct_ (w : world) : world :=
  let o := observers w - 1 in
  if Nat.eqb o 0 then mkWorld false o false else mkWorld (flag w) o (installed w).

(** SIGINT arrives: the handler of lines 35-38, or the default action, which ends the
    process *)
Definition sigint (w : world) : option world :=
  if installed w then Some (mkWorld true (observers w) (installed w)) else None.

(** isSignaled, lines 41-45 *)
Definition isSignaled (w : world) : res bool :=
  _ <- check (Nat.ltb 0 (observers w)) ;; Ok (flag w).
