(** Model of the optimizers that drive ALGLIB: /repo/src/CG.cpp, /repo/src/LBFGS.cpp and /repo/src/LMA.cpp.
    ALGLIB is not part of the repository; it enters as an arbitrary reverse communication solver. *)
From Verif Require Import Base BaseFacts Evaluation_Model.
Local Open Scope R_scope.

(** What the solver asks for after an iteration call returned true: the flags needf, needfg (needfi, needfij for
    minlm) and xupdated, with the point [state.x] *)
Inductive request := NeedValue (x : vec) | NeedDerivative (x : vec) | Updated | Nothing.

(** The solver.  [value] and [derivative] are what it gets: state.f and state.g for mincg and minlbfgs, state.fi and
    state.j for minlm.  Only minlbfgs uses the number m of corrections.  Simplification: errors inside of ALGLIB (ae_error_type) only occur as [None] of [iterate]. *)
Record solver (value derivative : Type) := mkSolver {
  SState : Type;
  create : Z -> vec -> R -> R -> R -> Z -> SState;            (* create and setcond: m, start, epsg, epsf, epsx, maxits *)
  iterate : SState -> option (bool * SState);                 (* mincgiteration, minlbfgsiteration, minlmiteration *)
  asks : SState -> request;
  repiterationscount : SState -> Z;
  giveValue : value -> SState -> SState;
  giveDerivative : value -> derivative -> SState -> SState;
  results : SState -> vec }.                                  (* mincgresults, ...: the point *)
Arguments SState {value derivative}. Arguments create {value derivative}. Arguments iterate {value derivative}.
Arguments asks {value derivative}. Arguments repiterationscount {value derivative}. Arguments giveValue {value derivative}.
Arguments giveDerivative {value derivative}. Arguments results {value derivative}.

(** The objective (class Optimizable): an object with a state.  All functions may change the state and may fail.
    errorGradient returns the vector [grad] that it fills. *)
Record objective := mkObjective {
  PState : Type;
  dimension : PState -> nat;
  examples : PState -> nat;
  setParameters : vec -> PState -> res PState;
  currentParameters : PState -> vec;
  error : PState -> res (R * PState);
  errorGradient : PState -> res (R * vec * PState);
  errorN : nat -> PState -> res (R * PState);
  errorGradientN : nat -> PState -> res (R * vec * PState);
  finishedIteration : PState -> res PState }.

(** StoppingCriteria.cpp 9-16: the default values are 0, 0 and -1; CG.cpp 134-145, LBFGS.cpp 124-134, LMA.cpp 142-152 *)
Record stopping := mkStopping { minimalSearchSpaceStep : R; minimalValueDifferences : R; maximalIterations : Z }.
Definition created {value derivative} (S : solver value derivative) (stop : stopping) (m : Z) (x : vec) : SState S :=
  let epsg := if Reqb (minimalSearchSpaceStep stop) 0 then 0 else minimalSearchSpaceStep stop in
  let epsf := if Reqb (minimalValueDifferences stop) 0 then 0 else minimalValueDifferences stop in
  let maxits := if Z.eqb (maximalIterations stop) (-1) then 0%Z else maximalIterations stop in
  create S m x epsg epsf 0 maxits.

(** the members of CG and LBFGS, and of LMA; [state] is None before the first initialize.
    [memory] is the member m of LBFGS; CG and LMA have no such member, their solvers ignore it.
    The members parameters, gradient, error and errorValues only pass values on and are not kept. *)
Record optimizer {value derivative} (S : solver value derivative) := mkOptimizer {
  iteration : Z; n : Z; memory : Z; state : option (SState S); optimum : vec }.
Arguments mkOptimizer {value derivative S}. Arguments memory {value derivative S}. Arguments iteration {value derivative S}. Arguments n {value derivative S}.
Arguments state {value derivative S}. Arguments optimum {value derivative S}.
(** CG.cpp 16-19, LBFGS.cpp 13-16, LMA.cpp 15-18 *)
Definition optimizer_new {value derivative} (S : solver value derivative) (m : Z) : optimizer S := mkOptimizer (-1) (-1) m None [].

(** the first [k] elements: [for(i = 0; i < n; i++) parameters(i) = state.x[i]] *)
Definition copied (k : Z) (x : vec) : res vec :=
  if Nat.ltb (length x) (Z.to_nat k) then UB else Ok (firstn (Z.to_nat k) x).

(** * CG.cpp; LBFGS.cpp is the same with another solver *)
Section CG.
Variable S : solver R vec.
Variable P : objective.
Variable stop : stopping.

(** initialize, CG.cpp 121-151, LBFGS.cpp 103-140 *)
Definition cg_initialize (o : optimizer S) (p : PState P) : optimizer S :=
  let m := Z.min (memory o) (Z.of_nat (dimension P p)) in
  mkOptimizer 0 (Z.of_nat (dimension P p)) m (Some (created S stop m (currentParameters P p))) (optimum o).

(** reset, CG.cpp 153-193, LBFGS.cpp 142-186; without the log *)
Definition cg_reset (o : optimizer S) (l : SState S) : res (optimizer S) :=
  x <- copied (n o) (results S l) ;; Ok (mkOptimizer (-1) (n o) (memory o) (Some l) x).

(** lines 53-58 and 70-75: a new iteration has begun *)
Definition cg_continue (o : optimizer S) (l : SState S) (p : PState P) : res (bool * optimizer S * PState P) :=
  if Z.eqb (iteration o) (repiterationscount S l) then Ok (false, mkOptimizer (iteration o) (n o) (memory o) (Some l) (optimum o), p)
  else p <- finishedIteration P p ;; Ok (true, mkOptimizer (repiterationscount S l) (n o) (memory o) (Some l) (optimum o), p).

(** the loop in step, CG.cpp 44-90, LBFGS.cpp 53-100 *)
Fixpoint cg_loop (fuel : nat) (o : optimizer S) (p : PState P) : res (bool * optimizer S * PState P) :=
  match fuel with
  | 0%nat => Fuel
  | Datatypes.S fuel' =>
      match state o with
      | None => UB
      | Some l =>
          match iterate S l with
          | None => Throw
          | Some (false, l) => o <- cg_reset o l ;; Ok (false, o, p)
          | Some (true, l) =>
              match asks S l with
              | NeedValue x =>
                  parameters <- copied (n o) x ;;
                  p <- setParameters P parameters p ;;
                  ' (e, p) <- error P p ;;
                  let l := giveValue S e l in
                  ' (ret, o, p) <- cg_continue o l p ;;
                  if (ret : bool) then Ok (true, o, p) else cg_loop fuel' o p
              | NeedDerivative x =>
                  parameters <- copied (n o) x ;;
                  p <- setParameters P parameters p ;;
                  ' (e, gradient, p) <- errorGradient P p ;;
                  g <- copied (n o) gradient ;;
                  let l := giveDerivative S e g l in
                  ' (ret, o, p) <- cg_continue o l p ;;
                  if (ret : bool) then Ok (true, o, p) else cg_loop fuel' o p
              | Updated => cg_loop fuel' (mkOptimizer (iteration o) (n o) (memory o) (Some l) (optimum o)) p
              | Nothing => Throw
              end
          end
      end
  end.

(** step, CG.cpp 35-91, LBFGS.cpp 44-101; the null pointer [opt] is not modelled *)
Definition cg_step (fuel : nat) (o : optimizer S) (p : PState P) : res (bool * optimizer S * PState P) :=
  let o := if Z.ltb (iteration o) 0 then cg_initialize o p else o in
  _ <- check (Z.ltb 0 (n o)) ;;
  cg_loop fuel o p.

(** optimize, CG.cpp 93-107, LBFGS.cpp 28-42; [signaled k] tells whether the user has interrupted before the k-th check *)
Fixpoint cg_optimize_from (signaled : nat -> bool) (k fuel : nat) (o : optimizer S) (p : PState P) : res (optimizer S * PState P) :=
  match fuel with
  | 0%nat => Fuel
  | Datatypes.S fuel' =>
      ' (running, o, p) <- cg_step fuel o p ;;
      if (running : bool) then
        if signaled k then match state o with None => UB | Some l => o <- cg_reset o l ;; Ok (o, p) end
        else cg_optimize_from signaled (Datatypes.S k) fuel' o p
      else Ok (o, p)
  end.
Definition cg_optimize (signaled : nat -> bool) (fuel : nat) := cg_optimize_from signaled 0 fuel.

(** result, CG.cpp 109-114, LBFGS.cpp 188-193 *)
Definition cg_result (o : optimizer S) (p : PState P) : res (vec * PState P) := p <- setParameters P (optimum o) p ;; Ok (optimum o, p).
End CG.

(** * LMA.cpp *)
Section LMA.
Variable S : solver vec (list vec).
Variable P : objective.
Variable stop : stopping.

(** initialize, LMA.cpp 127-156.  [iteration] is not changed.  Simplification: the solver does not get the number of
    examples; it has to be the same in all calls *)
Definition lma_initialize (o : optimizer S) (p : PState P) : optimizer S :=
  mkOptimizer (iteration o) (Z.of_nat (dimension P p)) (memory o) (Some (created S stop (memory o) (currentParameters P p))) (optimum o).

(** reset, LMA.cpp 158-200; line 175 evaluates the error for the log *)
Definition lma_reset (o : optimizer S) (l : SState S) (p : PState P) : res (optimizer S * PState P) :=
  x <- copied (n o) (results S l) ;;
  p <- setParameters P x p ;;
  ' (_, p) <- error P p ;;
  Ok (mkOptimizer (-1) (n o) (memory o) (Some l) x, p).

(** LMA.cpp 67-68 *)
Fixpoint lma_values (k m : nat) (p : PState P) : res (vec * PState P) :=
  match m with
  | 0%nat => Ok ([], p)
  | Datatypes.S m' => ' (e, p) <- errorN P k p ;; ' (es, p) <- lma_values (Datatypes.S k) m' p ;; Ok (e :: es, p)
  end.
(** LMA.cpp 82-88 *)
Fixpoint lma_derivatives (d k m : nat) (p : PState P) : res (vec * list vec * PState P) :=
  match m with
  | 0%nat => Ok ([], [], p)
  | Datatypes.S m' =>
      ' (e, gradient, p) <- errorGradientN P k p ;;
      g <- copied (Z.of_nat d) gradient ;;
      ' (es, gs, p) <- lma_derivatives d (Datatypes.S k) m' p ;;
      Ok (e :: es, g :: gs, p)
  end.

Definition lma_continue (o : optimizer S) (l : SState S) (p : PState P) : res (bool * optimizer S * PState P) :=
  if Z.eqb (iteration o) (repiterationscount S l) then Ok (false, mkOptimizer (iteration o) (n o) (memory o) (Some l) (optimum o), p)
  else p <- finishedIteration P p ;; Ok (true, mkOptimizer (repiterationscount S l) (n o) (memory o) (Some l) (optimum o), p).

(** the loop in step, LMA.cpp 60-110 *)
Fixpoint lma_loop (fuel : nat) (o : optimizer S) (p : PState P) : res (bool * optimizer S * PState P) :=
  match fuel with
  | 0%nat => Fuel
  | Datatypes.S fuel' =>
      match state o with
      | None => UB
      | Some l =>
          match iterate S l with
          | None => Throw
          | Some (false, l) => ' (o, p) <- lma_reset o l p ;; Ok (false, o, p)
          | Some (true, l) =>
              match asks S l with
              | NeedValue x =>
                  parameters <- copied (n o) x ;;
                  p <- setParameters P parameters p ;;
                  ' (es, p) <- lma_values 0 (examples P p) p ;;
                  let l := giveValue S es l in
                  ' (ret, o, p) <- lma_continue o l p ;;
                  if (ret : bool) then Ok (true, o, p) else lma_loop fuel' o p
              | NeedDerivative x =>
                  parameters <- copied (n o) x ;;
                  p <- setParameters P parameters p ;;
                  ' (es, gs, p) <- lma_derivatives (dimension P p) 0 (examples P p) p ;;
                  let l := giveDerivative S es gs l in
                  ' (ret, o, p) <- lma_continue o l p ;;
                  if (ret : bool) then Ok (true, o, p) else lma_loop fuel' o p
              | Updated => lma_loop fuel' (mkOptimizer (iteration o) (n o) (memory o) (Some l) (optimum o)) p
              | Nothing => Throw
              end
          end
      end
  end.

(** step, LMA.cpp 51-111 *)
Definition lma_step (fuel : nat) (o : optimizer S) (p : PState P) : res (bool * optimizer S * PState P) :=
  let o := if Z.ltb (iteration o) 0 then lma_initialize o p else o in
  _ <- check (Z.ltb 0 (n o)) ;;
  lma_loop fuel o p.

(** optimize, LMA.cpp 34-49 *)
Fixpoint lma_optimize_from (signaled : nat -> bool) (k fuel : nat) (o : optimizer S) (p : PState P) : res (optimizer S * PState P) :=
  match fuel with
  | 0%nat => Fuel
  | Datatypes.S fuel' =>
      ' (running, o, p) <- lma_step fuel o p ;;
      if (running : bool) then
        if signaled k then match state o with None => UB | Some l => lma_reset o l p end
        else lma_optimize_from signaled (Datatypes.S k) fuel' o p
      else Ok (o, p)
  end.
Definition lma_optimize (signaled : nat -> bool) (fuel : nat) := lma_optimize_from signaled 0 fuel.

(** result, LMA.cpp 113-118 *)
Definition lma_result (o : optimizer S) (p : PState P) : res (vec * PState P) := p <- setParameters P (optimum o) p ;; Ok (optimum o, p).
End LMA.
