(** What a user expects of an optimizer that drives a reverse communication solver. *)
From Verif Require Import Base BaseFacts Evaluation_Model Alglib_Model.
Local Open Scope R_scope.

(** The run of a solver on a function with given values and derivatives: each request is answered with the value (and
    derivative) of the function at the requested point; [r] is the result; [k] counts the calls of [iterate].
    All points have [d] components. *)
Inductive solves {value derivative} (S : solver value derivative) (d : nat) (f : vec -> value) (f' : vec -> derivative)
  : nat -> SState S -> vec -> Prop :=
| solved l l1 : iterate S l = Some (false, l1) -> length (results S l1) = d -> solves S d f f' 0 l (results S l1)
| solve_value k l l1 x r : iterate S l = Some (true, l1) -> asks S l1 = NeedValue x -> length x = d ->
    solves S d f f' k (giveValue S (f x) l1) r -> solves S d f f' (Datatypes.S k) l r
| solve_derivative k l l1 x r : iterate S l = Some (true, l1) -> asks S l1 = NeedDerivative x -> length x = d ->
    solves S d f f' k (giveDerivative S (f x) (f' x) l1) r -> solves S d f f' (Datatypes.S k) l r
| solve_update k l l1 r : iterate S l = Some (true, l1) -> asks S l1 = Updated ->
    solves S d f f' k l1 r -> solves S d f f' (Datatypes.S k) l r.

(** The states of the solver in this run *)
Inductive visits {value derivative} (S : solver value derivative) (d : nat) (f : vec -> value) (f' : vec -> derivative)
  : SState S -> SState S -> Prop :=
| visit_here l : visits S d f f' l l
| visit_value l l1 x l2 : iterate S l = Some (true, l1) -> asks S l1 = NeedValue x -> length x = d ->
    visits S d f f' (giveValue S (f x) l1) l2 -> visits S d f f' l l2
| visit_derivative l l1 x l2 : iterate S l = Some (true, l1) -> asks S l1 = NeedDerivative x -> length x = d ->
    visits S d f f' (giveDerivative S (f x) (f' x) l1) l2 -> visits S d f f' l l2
| visit_update l l1 l2 : iterate S l = Some (true, l1) -> asks S l1 = Updated ->
    visits S d f f' l1 l2 -> visits S d f f' l l2.

(** A problem: the error of the parameters and its gradient, and those of [N] examples.
    Its answers only depend on the parameters set last, not on what happened before.  [usable] are the states in
    which it can be used. *)
Definition behaves (P : objective) (usable : PState P -> Prop) (d N : nat)
    (e : vec -> R) (g : vec -> vec) (eN : nat -> vec -> R) (gN : nat -> vec -> vec) : Prop :=
  (forall x, length x = d -> length (g x) = d /\ forall i, (i < N)%nat -> length (gN i x) = d) /\
  exists has : vec -> PState P -> Prop,
    (forall q, usable q -> dimension P q = d /\ examples P q = N /\
       forall x, length x = d -> exists q', setParameters P x q = Ok q' /\ has x q') /\
    (forall x q, has x q -> usable q /\ currentParameters P q = x /\
       (exists q', finishedIteration P q = Ok q' /\ has x q') /\
       (exists q', error P q = Ok (e x, q') /\ has x q') /\
       (exists q', errorGradient P q = Ok (e x, g x, q') /\ has x q') /\
       (forall i, (i < N)%nat -> (exists q', errorN P i q = Ok (eN i x, q') /\ has x q') /\
                                (exists q', errorGradientN P i q = Ok (eN i x, gN i x, q') /\ has x q'))).

(** what LMA reports to its solver *)
Definition allErrors (N : nat) (eN : nat -> vec -> R) (x : vec) : vec := map (fun i => eN i x) (seq 0 N).
Definition allGradients (N : nat) (gN : nat -> vec -> vec) (x : vec) : list vec := map (fun i => gN i x) (seq 0 N).

(** Stepwise use: the optimizer after some calls of step that returned true; between the calls the problem may
    have been used and changed in any way, as long as it stays usable.  [p0] is the problem at the first call. *)
Inductive stepped {value derivative} {S : solver value derivative} {P : objective}
    (step : nat -> optimizer S -> PState P -> res (bool * optimizer S * PState P))
    (usable : PState P -> Prop) (o0 : optimizer S) (p0 : PState P) : optimizer S -> Prop :=
| step_first fuel o p : step fuel o0 p0 = Ok (true, o, p) -> stepped step usable o0 p0 o
| step_next fuel o q o' p : stepped step usable o0 p0 o -> usable q -> step fuel o q = Ok (true, o', p) -> stepped step usable o0 p0 o'.
