(** C104: the step-wise use of IPOPCMAES and its memory. *)
From Coq Require Import Lia Lra.
From Verif Require Import Base BaseFacts Evaluation_Model Ask_Model Ask_Spec Ask_Proofs.
Local Open Scope nat_scope.

Section Stepwise.
(* the library, the stopping criteria, the dimension of the problem and the first population size *)
Variable sample : nat -> nat -> nat -> list generation -> list vec.
Variable testForTermination : list generation -> bool.
Variables (maxEvaluations maxRestarts : Z) (d lambda0 : nat).
Let perform := perform sample testForTermination maxEvaluations maxRestarts.
Let session := session sample testForTermination maxEvaluations maxRestarts.

(** a new optimizer is used for a problem with d parameters, as intended, with these answers *)
Definition usedAsIntended (cs : list call) (ans : list answer) (ph : phase) (s : opt) : Prop :=
  session (SetOptimizable d :: cs) (construct lambda0 []) = Ok (Nothing :: ans, s) /\ phaseAfter Begin (combine cs ans) = Some ph.
(** the population size after so many successful restarts *)
Definition populationSize (runs : nat) : nat := lambda0 * 2 ^ (runs - 1).

Lemma used_legal cs ans ph s : sampleOk sample -> (0 <= maxRestarts)%Z -> 1 <= lambda0 -> usedAsIntended cs ans ph s ->
  length ans = length cs /\ exists last, legal sample d lambda0 ph last (told (combine cs ans)) (runsStarted (combine cs ans)) s.
Proof.
  intros SO MR L0 (E & F). unfold session in E. cbn [Ask_Model.session Ask_Model.perform bind] in E. destruct (Ask_Model.session _ _ _ _ cs _) as [(l & s')| | | |] eqn:Q; try discriminate. cbn [bind] in E. injection E as -> ->.
  destruct (session_legal sample testForTermination maxEvaluations maxRestarts SO MR d lambda0 L0 cs Begin [] [] 0 _ ans s (legal_start sample d lambda0) Q ph F) as (LE & L). split; eauto.
Qed.

(** C104: used as intended, no call fails. *)
Theorem C104_no_failure : sampleOk sample -> (0 <= maxRestarts)%Z -> 1 <= lambda0 -> forall cs ans ph s, usedAsIntended cs ans ph s ->
  forall c, permitted ph c = true -> exists a s', perform c s = Ok (a, s').
Proof.
  intros SO MR L0 cs ans ph s U c P. destruct (used_legal cs ans ph s SO MR L0 U) as (_ & last & L).
  destruct (step_legal sample testForTermination maxEvaluations maxRestarts SO MR d lambda0 L0 _ _ _ _ _ c L P) as (a & s' & E & _). eauto.
Qed.
(** C104: The next point is the next one of a population that the library has sampled knowing all complete generations, i.e. points with
    the errors that were reported for them; the points for which errors have been reported since belong to the same population. *)
Theorem C104_points : sampleOk sample -> (0 <= maxRestarts)%Z -> 1 <= lambda0 -> forall cs ans ph s, usedAsIntended cs ans ph s ->
  forall x s', perform GetNext s = Ok (Point x, s') -> permitted ph GetNext = true ->
  let l := populationSize (runsStarted (combine cs ans)) in
  length x = d /\
  exists k complete rest, told (combine cs ans) = concat complete ++ rest /\ Forall (fun g => length g = l) complete /\ length rest < l /\
    let population := sample k l d complete in
    nth_error population (length rest) = Some x /\ map fst rest = firstn (length rest) population.
Proof.
  intros SO MR L0 cs ans ph s U x s' E P l. destruct (used_legal cs ans ph s SO MR L0 U) as (_ & last & L).
  destruct (step_legal sample testForTermination maxEvaluations maxRestarts SO MR d lambda0 L0 _ _ _ _ _ GetNext L P) as (a & s1 & E' & L'). unfold perform in E. rewrite E in E'. injection E' as <- <-.
  cbn [after hear fst snd] in L'. destruct L' as (_ & _ & _ & r & c & k & rest & RE & R0). change (runsStarted [(GetNext, Point x)]) with 0 in RE. rewrite Nat.add_0_r in RE.
  assert (EL : lambda s' = l) by (unfold l, populationSize; rewrite RE, (R_lambda _ _ _ _ _ _ _ _ _ _ _ R0); cbn; rewrite Nat.sub_0_r; auto).
  pose proof (R_last _ _ _ _ _ _ _ _ _ _ _ R0 eq_refl) as LA. destruct (R_pop _ _ _ _ _ _ _ _ _ _ _ R0 (or_intror eq_refl)) as (_ & _ & P3). pose proof (R_rest _ _ _ _ _ _ _ _ _ _ _ R0) as LR.
  rewrite EL in *. split. { destruct (SO k l d (gens s')) as (_ & S2). apply S2. apply (nth_error_In _ _ LA). }
  exists k, (gens s'), rest. split; [apply (R_told _ _ _ _ _ _ _ _ _ _ _ R0)|]. split; [rewrite <- EL; apply (R_gens _ _ _ _ _ _ _ _ _ _ _ R0)|]. split; [rewrite LR, <- EL; apply (R_cur _ _ _ _ _ _ _ _ _ _ _ R0)|]. rewrite LR. auto.
Qed.
(** C104: terminated() says yes exactly if a generation is complete and the library wants to stop or there were enough evaluations. *)
Theorem C104_terminated : sampleOk sample -> (0 <= maxRestarts)%Z -> 1 <= lambda0 -> forall cs ans ph s, usedAsIntended cs ans ph s -> ph <> Begin ->
  let l := populationSize (runsStarted (combine cs ans)) in
  exists b complete rest, perform Terminated s = Ok (Bool b, s) /\
    told (combine cs ans) = concat complete ++ rest /\ Forall (fun g => length g = l) complete /\ length rest < l /\
    (b = true <-> rest = [] /\ (testForTermination complete = true \/ (maxEvaluations <> -1 /\ maxEvaluations <= Z.of_nat (length (told (combine cs ans))))%Z)).
Proof.
  intros SO MR L0 cs ans ph s U NB l. destruct (used_legal cs ans ph s SO MR L0 U) as (_ & last & _ & _ & _ & G).
  assert (G' : exists r c k rest, runsStarted (combine cs ans) = S r /\ running sample d lambda0 ph last (told (combine cs ans)) r s c k rest) by (destruct ph; auto; congruence). destruct G' as (r & c & k & rest & RE & R0).
  destruct (terminated_answer sample testForTermination maxEvaluations d lambda0 L0 _ _ _ _ _ _ _ _ R0) as (b & E & B). exists b, (gens s), rest.
  assert (EL : lambda s = l) by (unfold l, populationSize; rewrite RE, (R_lambda _ _ _ _ _ _ _ _ _ _ _ R0); cbn; rewrite Nat.sub_0_r; auto).
  unfold perform. cbn [Ask_Model.perform]. rewrite E. cbn [bind]. split; auto. split; [apply (R_told _ _ _ _ _ _ _ _ _ _ _ R0)|]. rewrite <- EL. split; [apply (R_gens _ _ _ _ _ _ _ _ _ _ _ R0)|].
  split; [rewrite (R_rest _ _ _ _ _ _ _ _ _ _ _ R0); apply (R_cur _ _ _ _ _ _ _ _ _ _ _ R0)|exact B].
Qed.
(** C104: Whatever is called, the destructor does not fail and in the end each block of memory was deleted exactly once. *)
Theorem C104_memory : forall cs ans s, session cs (construct lambda0 []) = Ok (ans, s) -> exists h, destroy s (heap s) = Ok h /\ freedOnce h.
Proof.
  intros cs ans s E. destruct (destroy_mem s) as (h & F & K). { apply (session_mem sample testForTermination maxEvaluations maxRestarts cs _ _ _ (construct_mem lambda0) E). }
  exists h. split; auto. now apply heapOk_done.
Qed.

(** Refuted: "result() returns the best point": after step-wise use it returns an empty vector. *)
Theorem C104_result_refuted : sampleOk sample -> (0 <= maxRestarts)%Z -> 1 <= lambda0 -> forall cs ans ph s, usedAsIntended cs ans ph s -> ph <> Begin ->
  perform Result s = Ok (Point [], s).
Proof.
  intros SO MR L0 cs ans ph s U NB. destruct (used_legal cs ans ph s SO MR L0 U) as (_ & last & _ & P & O & G).
  assert (G' : exists r c k rest, runsStarted (combine cs ans) = S r /\ running sample d lambda0 ph last (told (combine cs ans)) r s c k rest) by (destruct ph; auto; congruence). destruct G' as (r & c & k & rest & RE & R0).
  unfold perform. cbn [Ask_Model.perform]. unfold result. rewrite P, (R_cmaes _ _ _ _ _ _ _ _ _ _ _ R0). cbn [bind]. congruence.
Qed.
(** Refuted: "restart() can be called at any time": in the middle of a generation the next call of getNext() reads deleted memory. *)
Theorem C104_restart_in_generation_refuted : sampleOk sample -> (1 <= maxRestarts)%Z -> 2 <= lambda0 -> forall f,
  session [SetOptimizable d; Restart; GetNext; SetError f; Restart; GetNext] (construct lambda0 []) = UB.
Proof.
  intros SO MR L0 f. set (cs := [Restart; GetNext; SetError f]).
  assert (U : exists ans s, usedAsIntended cs ans Ready s /\ currentIndividual s = 1 /\ restarts s = 0%Z /\ lambda s = lambda0 /\ exists c, cmaes s = Some c /\ exists pop, population s = Some (c, pop)).
  { unfold usedAsIntended, session, cs. cbn [Ask_Model.session Ask_Model.perform bind]. destruct (restart_ok maxRestarts (setOptimizable d (construct lambda0 [])) d) as (b & s1 & E & _ & B0 & B1); auto. { apply (same_mem (construct lambda0 [])); auto. apply construct_mem. }
    cbn in B0, B1. rewrite E. cbn [bind]. destruct b; [|destruct (B0 eq_refl); lia]. clear B0. destruct (B1 eq_refl) as (_ & c & x & y & h & -> & _). clear B1.
    assert (AL : alive c h = true). { unfold restart in E. cbn [problem setOptimizable construct restarts heap cmaes initialX initialStdDev free_opt bind alloc] in E. cbn in E. destruct (Z.gtb_spec 0 maxRestarts); [lia|]. injection E as <- <- <- <-. reflexivity. }
    unfold getNext. cbn [cmaes problem currentIndividual lambda]. rewrite (proj2 (Nat.ltb_lt 0 lambda0)) by lia. cbn [check bind Nat.eqb]. unfold readPopulation. cbn [population heap draws size gens lambda]. rewrite AL. cbn [bind].
    destruct (SO 0 lambda0 d []) as (S1 & S2). destruct (vget_Ok (sample 0 lambda0 d []) 0) as (p & EP & NP); [lia|]. cbn [currentIndividual]. rewrite EP. cbn [bind]. rewrite (S2 p (nth_error_In _ _ NP)), Nat.ltb_irrefl. cbn [bind].
    unfold setError. cbn [cmaes problem currentIndividual lambda fitnessValues]. rewrite (proj2 (Nat.ltb_lt 0 lambda0)) by lia. cbn [check bind]. rewrite vset_Ok by (rewrite repeat_length; lia). cbn [bind].
    destruct (Nat.eqb_spec 1 lambda0) as [F|F]; [lia|]. cbn [bind]. eexists _, _. split; [split; [reflexivity|reflexivity]|]. cbn. eauto 10. }
  destruct U as (ans & s & U & CU & RE & LA & c & C & pop & PO). destruct (used_legal cs ans Ready s SO ltac:(lia) ltac:(lia) U) as (_ & last & K & P & _). destruct U as (E & _).
  assert (SP : forall cs1 cs2 s0, session (cs1 ++ cs2) s0 = (' (a, s1) <- session cs1 s0 ;; ' (b, s2) <- session cs2 s1 ;; Ok (a ++ b, s2))).
  { unfold session. induction cs1 as [|c1 cs1 IH]; intros cs2 s0; cbn [app Ask_Model.session bind]. - destruct (Ask_Model.session _ _ _ _ cs2 s0) as [(? & ?)| | | |]; reflexivity.
    - destruct (Ask_Model.perform _ _ _ _ c1 s0) as [(? & s1)| | | |]; cbn [bind]; auto. rewrite IH. destruct (Ask_Model.session _ _ _ _ cs1 s1) as [(? & s2)| | | |]; cbn [bind]; auto. destruct (Ask_Model.session _ _ _ _ cs2 s2) as [(? & ?)| | | |]; reflexivity. }
  change [SetOptimizable d; Restart; GetNext; SetError f; Restart; GetNext] with ((SetOptimizable d :: cs) ++ [Restart; GetNext]). rewrite SP, E. cbn [bind].
  unfold session. cbn [Ask_Model.session Ask_Model.perform]. destruct (restart_ok maxRestarts s d K P) as (b & s1 & E1 & _ & B0 & B1). rewrite E1. cbn [bind]. destruct b; [|destruct (B0 eq_refl); lia]. destruct (B1 eq_refl) as (_ & c' & x & y & h & -> & DE). clear B0 B1 E1.
  unfold getNext. cbn [cmaes problem currentIndividual lambda]. rewrite P, CU, RE, LA. cbn [Z.gtb Z.add Z.compare]. rewrite (proj2 (Nat.ltb_lt 1 (lambda0 * 2))) by lia. cbn [check bind Nat.eqb]. unfold readPopulation. cbn [population heap]. rewrite PO, (DE c C). reflexivity.
Qed.
(** Refuted: terminated() may be called before restart(); another problem may be set at any time; optimizers can be copied. *)
Theorem C104_terminated_before_restart_refuted : session [SetOptimizable d; Terminated] (construct lambda0 []) = UB.
Proof. reflexivity. Qed.
Theorem C104_larger_problem_refuted : sampleOk sample -> (0 <= maxRestarts)%Z -> 1 <= lambda0 -> forall n, d < n ->
  session [SetOptimizable d; Restart; SetOptimizable n; GetNext] (construct lambda0 []) = UB.
Proof.
  intros SO MR L0 n LT. unfold session. cbn [Ask_Model.session Ask_Model.perform bind]. destruct (restart_ok maxRestarts (setOptimizable d (construct lambda0 [])) d) as (b & s1 & E & K & B0 & B1); auto. { apply (same_mem (construct lambda0 [])); auto. apply construct_mem. }
  cbn in B0, B1. rewrite E. cbn [bind]. destruct b; [|destruct (B0 eq_refl); lia]. clear B0. destruct (B1 eq_refl) as (_ & c & x & y & h & -> & _). clear B1.
  pose proof (alive_cmaes _ c K eq_refl) as AL. cbn in AL. unfold setOptimizable, getNext. cbn [cmaes problem currentIndividual lambda]. rewrite (proj2 (Nat.ltb_lt 0 lambda0)) by lia. cbn [check bind Nat.eqb]. unfold readPopulation. cbn [population heap draws size gens lambda]. rewrite AL. cbn [bind].
  destruct (SO 0 lambda0 d []) as (S1 & S2). destruct (vget_Ok (sample 0 lambda0 d []) 0) as (p & EP & NP); [lia|]. cbn [currentIndividual]. rewrite EP. cbn [bind]. rewrite (S2 p (nth_error_In _ _ NP)), (proj2 (Nat.ltb_lt d n)) by lia. reflexivity.
Qed.
Theorem C104_copy_refuted : forall cs ans s, session cs (construct lambda0 []) = Ok (ans, s) ->
  (h <- destroy s (heap s) ;; destroy s h) = UB.
Proof.
  intros cs ans s E. pose proof (session_mem sample testForTermination maxEvaluations maxRestarts cs _ _ _ (construct_mem lambda0) E) as M.
  destruct (destroy_mem s M) as (h & -> & K). cbn [bind]. assert (F : forall p, free p h = UB). { intros p. unfold free. destruct (alive p h) eqn:A; auto. apply (heapOk_alive _ _ _ K) in A. contradiction. }
  destruct M as (_ & p & P). unfold destroy. rewrite P. cbn [free_opt]. destruct (cmaes s); cbn [free_opt bind]; rewrite F; reflexivity.
Qed.
End Stepwise.
Print Assumptions C104_no_failure.
Print Assumptions C104_points.
Print Assumptions C104_terminated.
Print Assumptions C104_memory.
Print Assumptions C104_result_refuted.
Print Assumptions C104_restart_in_generation_refuted.
Print Assumptions C104_terminated_before_restart_refuted.
Print Assumptions C104_larger_problem_refuted.
Print Assumptions C104_copy_refuted.

(** e.g. a library that proposes the points (k, ..., k) in its k-th population and stops after two generations; two points per
    generation, two dimensions, one restart *)
Definition toySample (k l n : nat) (_ : list generation) : list vec := repeat (repeat (INR k) n) l.
Definition toyStop (g : list generation) : bool := Nat.leb 2 (length g).
Example toy_ok : sampleOk toySample.
Proof. intros k l n g. unfold toySample. split; [apply repeat_length|]. intros x I1. apply repeat_spec in I1. subst x. apply repeat_length. Qed.
Definition toyCalls : list call := [Restart; GetNext; SetError 5; GetNext; GetNext; SetError 4; Terminated; GetNext; SetError 3; GetNext; SetError 2; Terminated; Restart; GetNext; SetError 1].
Example C104_case : exists s, usedAsIntended toySample toyStop (-1) 1 2 2 toyCalls
  [Bool true; Point [0; 0]; Nothing; Point [0; 0]; Point [0; 0]; Nothing; Bool false; Point [1; 1]; Nothing; Point [1; 1]; Nothing; Bool true; Bool true; Point [2; 2]; Nothing]%R Ready s /\
  told (combine toyCalls [Bool true; Point [0; 0]; Nothing; Point [0; 0]; Point [0; 0]; Nothing; Bool false; Point [1; 1]; Nothing; Point [1; 1]; Nothing; Bool true; Bool true; Point [2; 2]; Nothing]%R) = [([2; 2], 1)]%R.
Proof. eexists. split; [|reflexivity]. split; [|reflexivity]. cbv -[IZR Rplus]. replace (1 + 1)%R with 2%R by lra. reflexivity. Qed.
