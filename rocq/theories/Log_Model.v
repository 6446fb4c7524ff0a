(** Model of the global logger and of Logger objects, /repo/src/Logger.cpp and /repo/OpenANN/io/Logger.h. *)
From Verif Require Import Base BaseFacts.

(** Logger.h 78-84 (Log::LogLevel) *)
Inductive logLevel := DISABLED | ERROR | INFO | DEBUG.
Definition levelNumber (l : logLevel) : nat :=
  match l with DISABLED => 0 | ERROR => 1 | INFO => 2 | DEBUG => 3 end.

Section Log.
(** messages, and names of output streams *)
Context {msg stream : Type}.

(** static state of class Log and everything written to the streams so far.
    Simplification: a line consists of level and message; the time stamp, the name space and the formatting are not modelled. *)
Record logState := mkLog { curLevel : logLevel; curStream : stream; written : list (stream * (logLevel * msg)) }.

(** Logger.cpp 68 and 116-120 *)
Definition log_init (cout : stream) : logState := mkLog DEBUG cout [].

Inductive logOp :=
| OpDisabled | OpError | OpInfo | OpDebug   (* Logger.cpp 122-140 *)
| OpLevel (l : logLevel)                   (* assignment to getLevel(), 116-120 *)
| OpStream (s : stream)                    (* setStream, 106-109 *)
| OpMessage (l : logLevel) (m : msg).      (* OPENANN_LOG(l) << m, Logger.h 40-43 *)

(** [compiled] is OPENANN_LOGLEVEL *)
Definition log_op (compiled : logLevel) (o : logOp) (s : logState) : res logState :=
  match o with
  | OpDisabled => Ok (mkLog DISABLED (curStream s) (written s))
  | OpError => Ok (mkLog ERROR (curStream s) (written s))
  | OpInfo => Ok (mkLog INFO (curStream s) (written s))
  | OpDebug => Ok (mkLog DEBUG (curStream s) (written s))
  | OpLevel l => Ok (mkLog l (curStream s) (written s))
  | OpStream st => Ok (mkLog (curLevel s) st (written s))
  | OpMessage l m =>
      if Nat.ltb (levelNumber compiled) (levelNumber l) then Ok s
      else if Nat.ltb (levelNumber (curLevel s)) (levelNumber l) then Ok s
      else
        (* Log::get, 81-104: OPENANN_CHECK(level != DISABLED); the destructor, 75-78, writes the line *)
        match l with
        | DISABLED => Abort
        | _ => Ok (mkLog (curLevel s) (curStream s) (written s ++ [(curStream s, (l, m))]))
        end
  end.
Definition log_run (compiled : logLevel) (l : list logOp) (s : logState) : res logState := for_each l (log_op compiled) s.

(** Logger objects.  Logger.h 118-124 *)
Inductive target := NONE | CONSOLE | FILE | APPEND_FILE.

(** [deactivate], and the Logger objects that have been made, each with its target and what it has written to it *)
Record loggers := mkLoggers { deactivate : bool; objects : list (target * list msg) }.
Definition loggers_init : loggers := mkLoggers false [].

Inductive loggerOp :=
| LSetDeactivate (b : bool)          (* assignment to Logger::deactivate *)
| LNew (t : target)                  (* constructor, Logger.cpp 19-41; files that cannot be opened are not modelled *)
| LWrite (i : nat) (m : msg).        (* logger << m, Logger.h 141-158 *)

Definition logger_op (o : loggerOp) (s : loggers) : res loggers :=
  match o with
  | LSetDeactivate b => Ok (mkLoggers b (objects s))
  | LNew t => Ok (mkLoggers (deactivate s) (objects s ++ [(if deactivate s then NONE else t, [])]))
  | LWrite i m =>
      o <- vget (objects s) i ;;
      match fst o with
      | NONE => Ok s
      | t => os <- vset (objects s) i (t, snd o ++ [m]) ;; Ok (mkLoggers (deactivate s) os)
      end
  end.
Definition logger_run (l : list loggerOp) (s : loggers) : res loggers := for_each l logger_op s.

(** isActive, Logger.cpp 49-52 *)
Definition isActive (s : loggers) (i : nat) : res bool :=
  o <- vget (objects s) i ;;
  Ok (match fst o with NONE => false | _ => negb (deactivate s) end).
End Log.
Arguments logState : clear implicits.
Arguments logOp : clear implicits.
Arguments loggers : clear implicits.
Arguments loggerOp : clear implicits.
