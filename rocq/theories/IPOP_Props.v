(** Property C29: IPOPCMAES. *)
From Verif Require Import Base BaseFacts Vec Evaluation_Model IPOP_Model IPOP_Spec IPOP_Proofs.
Local Open Scope R_scope.

(** C29.  When optimize() returns, result() is a point that was evaluated, and no point
    evaluated in any run has a smaller error.  This holds for every behaviour of the
    CMA-ES library allowed by [library_ok] and every error function below the largest
    double. *)
Theorem C29_result_is_best_point :
  forall dimension error dblmax sample testTerm maxEvals maxRestarts minimalValue lambda0 fuel s,
  library_ok dimension lambda0 sample testTerm ->
  (forall x, length x = dimension -> error x < dblmax) ->
  maxEvals = (-1)%Z \/ (1 <= maxEvals)%Z -> (0 <= maxRestarts)%Z ->
  optimize dimension error sample testTerm maxEvals maxRestarts minimalValue fuel
    (ipop_init dblmax lambda0) = Ok s ->
  exists x, result s = Ok x /\ length x = dimension /\
    In x (evaluated (trace s)) /\
    forall y, In y (evaluated (trace s)) -> error x <= error y.
Proof.
  intros D error dblmax sample testTerm M MR mv lambda0 fuel s Lib Sm HM HMR E.
  destruct (optimize_partial D error dblmax sample testTerm M MR mv lambda0 Lib Sm HM HMR
              fuel 0 _ (between_init D error dblmax M lambda0)) as [F|(s' & F & A & B & C & H & _)]; [lia|congruence|].
  assert (s' = s) by congruence. subst s'. exists (optimum s). unfold result.
  destruct (cmaes s); [auto|congruence].
Qed.

(** C29.  At most [maximalRestarts] restarts are made (fewer only if the best error is
    below minimalValue), and each restart doubles the population. *)
Theorem C29_restarts_bounded :
  forall dimension error dblmax sample testTerm maxEvals maxRestarts minimalValue lambda0 fuel s,
  library_ok dimension lambda0 sample testTerm ->
  (forall x, length x = dimension -> error x < dblmax) ->
  maxEvals = (-1)%Z \/ (1 <= maxEvals)%Z -> (0 <= maxRestarts)%Z ->
  optimize dimension error sample testTerm maxEvals maxRestarts minimalValue fuel
    (ipop_init dblmax lambda0) = Ok s ->
  exists restarts_made : nat,
    (Z.of_nat restarts_made <= maxRestarts)%Z /\
    run_sizes (trace s) = map (fun r => lambda0 * 2 ^ r)%nat (seq 0 (S restarts_made)) /\
    ((Z.of_nat restarts_made < maxRestarts)%Z ->
     exists x, result s = Ok x /\ error x < minimalValue).
Proof.
  intros D error dblmax sample testTerm M MR mv lambda0 fuel s Lib Sm HM HMR E.
  destruct (optimize_partial D error dblmax sample testTerm M MR mv lambda0 Lib Sm HM HMR
              fuel 0 _ (between_init D error dblmax M lambda0))
    as [F|(s' & F & A & B & C & H & (r & R1 & R2 & R3) & _)]; [lia|congruence|].
  assert (s' = s) by congruence. subst s'. exists (r - 1)%nat. split; [lia|].
  replace (S (r - 1)) with r by lia. split; auto.
  intros Hlt. exists (optimum s). unfold result. destruct (cmaes s); [|congruence]. split; auto. apply R3. lia.
Qed.

(** C29, partial: the limit of function evaluations.  The full claim (the number of
    evaluations never exceeds the maximum) is false, see below.  What holds: the limit is
    applied to each run separately, and a run exceeds it by at most its population size
    (the last generation is completed, and the best point may be evaluated once more). *)
Theorem C29_evaluation_limit_partial :
  forall dimension error dblmax sample testTerm maxEvals maxRestarts minimalValue lambda0 fuel s,
  library_ok dimension lambda0 sample testTerm ->
  (forall x, length x = dimension -> error x < dblmax) ->
  (1 <= maxEvals)%Z -> (0 <= maxRestarts)%Z ->
  optimize dimension error sample testTerm maxEvals maxRestarts minimalValue fuel
    (ipop_init dblmax lambda0) = Ok s ->
  forall lambda evals, In (lambda, evals) (runs (trace s)) ->
  (Z.of_nat evals <= maxEvals + Z.of_nat lambda)%Z.
Proof.
  intros D error dblmax sample testTerm M MR mv lambda0 fuel s Lib Sm HM HMR E l n Hin.
  destruct (optimize_partial D error dblmax sample testTerm M MR mv lambda0 Lib Sm (or_intror HM) HMR
              fuel 0 _ (between_init D error dblmax M lambda0))
    as [F|(s' & F & A & B & C & H & _ & RB)]; [lia|congruence|].
  assert (s' = s) by congruence. subst s'. apply RB in Hin. destruct Hin as (_ & Hin). apply Hin. lia.
Qed.

(** C29, refutation: whenever the population is larger than the limit, the limit is
    exceeded. *)
Theorem C29_evaluation_limit_refuted :
  forall dimension error dblmax sample testTerm maxEvals maxRestarts minimalValue lambda0 fuel s,
  library_ok dimension lambda0 sample testTerm ->
  (forall x, length x = dimension -> error x < dblmax) ->
  (1 <= maxEvals)%Z -> (0 <= maxRestarts)%Z ->
  optimize dimension error sample testTerm maxEvals maxRestarts minimalValue fuel
    (ipop_init dblmax lambda0) = Ok s ->
  (maxEvals < Z.of_nat lambda0)%Z ->
  (maxEvals < Z.of_nat (length (evaluated (trace s))))%Z.
Proof.
  intros D error dblmax sample testTerm M MR mv lambda0 fuel s Lib Sm HM HMR E Hlt.
  destruct (optimize_partial D error dblmax sample testTerm M MR mv lambda0 Lib Sm (or_intror HM) HMR
              fuel 0 _ (between_init D error dblmax M lambda0))
    as [F|(s' & F & A & B & C & H & (r & R1 & R2 & _) & RB)]; [lia|congruence|].
  assert (s' = s) by congruence. subst s'.
  enough (lambda0 <= length (evaluated (trace s)))%nat by lia.
  assert (G : forall tr l, In l (run_sizes tr) -> exists n, In (l, n) (runs tr) /\ (n <= length (evaluated tr))%nat).
  { clear. assert (Q : forall tr, (leading tr <= length (evaluated tr))%nat).
    { induction tr as [|[|] tr IH]; simpl; lia. }
    induction tr as [|[m|x] tr IH]; simpl; intros l Hl; [contradiction| |].
    - destruct Hl as [<-|Hl]; [exists (leading tr); auto|]. destruct (IH l Hl) as (n & A & B). eauto.
    - destruct (IH l Hl) as (n & A & B). exists n. split; [auto|fold (evaluated tr); lia]. }
  destruct (G (trace s) lambda0) as (n & Hn & Hle).
  { rewrite R2. destruct r as [|r]; [lia|]. simpl. left. lia. }
  apply RB in Hn. lia.
Qed.

(** C29.  With a limit of function evaluations, optimize() terminates. *)
Theorem C29_optimize_terminates :
  forall dimension error dblmax sample testTerm maxEvals maxRestarts minimalValue lambda0,
  library_ok dimension lambda0 sample testTerm ->
  (forall x, length x = dimension -> error x < dblmax) ->
  (1 <= maxEvals)%Z -> (0 <= maxRestarts)%Z ->
  exists fuel0, forall fuel, (fuel0 <= fuel)%nat -> exists s,
  optimize dimension error sample testTerm maxEvals maxRestarts minimalValue fuel
    (ipop_init dblmax lambda0) = Ok s.
Proof.
  intros D error dblmax sample testTerm M MR mv lambda0 Lib Sm HM HMR.
  exists (S (Z.to_nat (MR + 1) + Z.to_nat M)). intros fuel Hf.
  destruct (optimize_partial D error dblmax sample testTerm M MR mv lambda0 Lib Sm (or_intror HM) HMR
              fuel 0 _ (between_init D error dblmax M lambda0)) as [F|(s' & F & _)]; [lia| |eauto].
  exfalso. revert F. apply (optimize_total D error dblmax sample testTerm M MR mv lambda0 Lib Sm (or_intror HM) HM
    (Z.to_nat (MR + 1)) fuel 0%nat); [apply between_init|f_equal; lia|lia].
Qed.

Print Assumptions C29_result_is_best_point.
Print Assumptions C29_restarts_bounded.
Print Assumptions C29_evaluation_limit_partial.
Print Assumptions C29_evaluation_limit_refuted.
Print Assumptions C29_optimize_terminates.

(** a library with populations 4, 8, 16, ... whose points depend on the number of
    generations, the error x^2 capped at 100, one evaluation allowed, two restarts *)
Definition ex_sample (r : nat) (h : list generation) : list vec :=
  map (fun i => [INR i - INR (length h)]) (seq 0 (4 * 2 ^ r)).

Example ex_library : library_ok 1 4 ex_sample (fun _ _ => false).
Proof.
  unfold ex_sample. repeat split; [lia| |].
  - intros r h. now rewrite map_length, seq_length.
  - intros r h x Hx. apply in_map_iff in Hx. destruct Hx as (i & <- & _). reflexivity.
Qed.

Example ex_limit_exceeded : exists fuel s,
  optimize 1 (fun x => Rmin 100 (x.[0] * x.[0])) ex_sample (fun _ _ => false) 1 2 0 fuel
    (ipop_init 1000 4) = Ok s /\ (1 < Z.of_nat (length (evaluated (trace s))))%Z.
Proof.
  assert (Sm : forall x : vec, length x = 1%nat -> Rmin 100 (x.[0] * x.[0]) < 1000).
  { intros x _. pose proof (Rmin_l 100 (x.[0] * x.[0])). lra. }
  destruct (C29_optimize_terminates 1 _ 1000 ex_sample (fun _ _ => false) 1 2 0 4 ex_library Sm) as (f & Hf); try lia.
  destruct (Hf f) as (s & E); auto. exists f, s. split; [exact E|].
  apply (C29_evaluation_limit_refuted 1 _ 1000 ex_sample (fun _ _ => false) 1 2 0 4 f s ex_library Sm); auto; lia.
Qed.
