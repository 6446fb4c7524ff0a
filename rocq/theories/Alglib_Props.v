(** Properties C81-C85: the optimizers that drive ALGLIB. *)
From Verif Require Import Base BaseFacts RSum Evaluation_Model Alglib_Model Alglib_Spec Alglib_Proofs.
From Coq Require Import Lra Psatz.
Local Open Scope R_scope.

(** * Example: a problem with one parameter and two examples, and a solver that probes a point *)
Definition x1 (x : vec) : R := nth 0 x 0.
Definition twoErrors (i : nat) (x : vec) : R := match i with 0%nat => 8 * (x1 x)^2 | _ => (x1 x - 1)^2 end.
Definition twoGradients (i : nat) (x : vec) : vec := match i with 0%nat => [16 * x1 x] | _ => [2 * (x1 x - 1)] end.
Definition sumError (x : vec) : R := rsum 2 (fun i => twoErrors i x).
Definition sumGradient (x : vec) : vec := [16 * x1 x + 2 * (x1 x - 1)].
Definition twoExamples : objective :=
  mkObjective vec (fun _ => 1%nat) (fun _ => 2%nat) (fun x _ => Ok x) (fun q => q) (fun q => Ok (sumError q, q)) (fun q => Ok (sumError q, sumGradient q, q))
    (fun i q => Ok (twoErrors i q, q)) (fun i q => Ok (twoErrors i q, twoGradients i q, q)) (fun q => Ok q).
Lemma twoExamples_behave : behaves twoExamples (fun _ => True) 1 2 sumError sumGradient twoErrors twoGradients.
Proof.
  split.
  - intros x _. split; [reflexivity|]. intros i _. destruct i; reflexivity.
  - exists (fun x q => q = x). split.
    + intros q _. split; [reflexivity|]. split; [reflexivity|]. intros x _. exists x. split; reflexivity.
    + intros x q ->. split; [exact I|]. split; [reflexivity|]. do 3 (split; [eexists; split; reflexivity|]). intros i _. split; eexists; split; reflexivity.
Qed.

Definition probing {value derivative} (probe target : vec) : solver value derivative :=
  mkSolver value derivative (nat * vec) (fun _ x _ _ _ _ => (0%nat, x))
    (fun l => match l with (0%nat, x) => Some (true, (1%nat, x)) | (1%nat, x) => Some (true, (2%nat, x)) | (2%nat, x) => Some (true, (3%nat, x)) | (k, x) => Some (false, (k, x)) end)
    (fun l => match l with (1%nat, x) => NeedDerivative x | (2%nat, x) => NeedValue probe | (3%nat, x) => Updated | _ => Nothing end)
    (fun l => Z.of_nat (fst l - 1)) (fun _ l => l) (fun _ _ l => l) (fun _ => target).
Lemma probing_solves {value derivative} probe target d (f : vec -> value) (f' : vec -> derivative) x :
  length probe = d -> length target = d -> length x = d -> solves (probing probe target) d f f' 3 (0%nat, x) target.
Proof.
  intros Hp Ht Hx. eapply solve_derivative with (l1 := (1%nat, x)) (x := x); try reflexivity; auto.
  eapply solve_value with (l1 := (2%nat, x)) (x := probe); try reflexivity; auto.
  eapply solve_update with (l1 := (3%nat, x)); try reflexivity.
  apply (solved (probing probe target) d f f' _ (3%nat, x)); [reflexivity|exact Ht].
Qed.

(** * C81: each request of the solver is answered with the error and gradient at the requested point *)
Lemma solves_length {value derivative} (S : solver value derivative) d f f' k l r : solves S d f f' k l r -> length r = d.
Proof. induction 1; auto. Qed.

Theorem C81_gradient_optimize S P stop usable d N e g eN gN : behaves P usable d N e g eN gN -> (0 < d)%nat -> (forall l, (0 <= repiterationscount S l)%Z) ->
  forall o p k r fuel, usable p -> (iteration o < 0)%Z ->
  let start := created S stop (Z.min (memory o) (Z.of_nat d)) (currentParameters P p) in
  solves S d e g k start r -> (forall l, visits S d e g start l -> length (results S l) = d) -> (k < fuel)%nat ->
  exists o' p' q, cg_optimize S P stop (fun _ => false) fuel o p = Ok (o', p') /\ iteration o' = (-1)%Z /\
    cg_result S P o' p' = Ok (r, q) /\ currentParameters P q = r.
Proof.
  intros HP Hd Hrep o p k r fuel Hu Hi start Hs Hl Hk.
  destruct (cg_optimize_ok S P stop d N usable e g eN gN HP Hrep (fun _ => false) k o p r fuel Hu Hi Hd Hs Hl Hk) as (o' & p' & E & Hu' & [(Ho & Hit)|((i & F) & _)]); [|discriminate].
  destruct HP as (_ & has & Hset & Hhas). destruct (Hset p' Hu') as (_ & _ & Hset'). destruct (Hset' r (solves_length S d e g k start r Hs)) as (q & Eq & Hq).
  exists o', p', q. split; [exact E|]. split; [exact Hit|]. unfold cg_result. rewrite Ho, Eq. split; [reflexivity|]. apply (Hhas r q Hq).
Qed.

Theorem C81_leastSquares_optimize S P stop usable d N e g eN gN : behaves P usable d N e g eN gN -> (0 < d)%nat -> (forall l, (0 <= repiterationscount S l)%Z) ->
  forall o p k r fuel, usable p -> (iteration o < 0)%Z ->
  let start := created S stop (memory o) (currentParameters P p) in
  solves S d (allErrors N eN) (allGradients N gN) k start r ->
  (forall l, visits S d (allErrors N eN) (allGradients N gN) start l -> length (results S l) = d) -> (k < fuel)%nat ->
  exists o' p' q, lma_optimize S P stop (fun _ => false) fuel o p = Ok (o', p') /\ iteration o' = (-1)%Z /\
    lma_result S P o' p' = Ok (r, q) /\ currentParameters P q = r.
Proof.
  intros HP Hd Hrep o p k r fuel Hu Hi start Hs Hl Hk.
  destruct (lma_optimize_ok S P stop d N usable e g eN gN HP Hrep (fun _ => false) k o p r fuel Hu Hi Hd Hs Hl Hk) as (o' & p' & E & Hu' & [(Ho & Hit & _)|((i & F) & _)]); [|discriminate].
  destruct HP as (_ & has & Hset & Hhas). destruct (Hset p' Hu') as (_ & _ & Hset'). destruct (Hset' r (solves_length S _ _ _ k start r Hs)) as (q & Eq & Hq).
  exists o', p', q. split; [exact E|]. split; [exact Hit|]. unfold lma_result. rewrite Ho, Eq. split; [reflexivity|]. apply (Hhas r q Hq).
Qed.

(** interrupted by the user: the result is what the solver reports in one of the states of the same run *)
Theorem C81_interrupted_gradient S P stop usable d N e g eN gN : behaves P usable d N e g eN gN -> (0 < d)%nat -> (forall l, (0 <= repiterationscount S l)%Z) ->
  forall signaled o p k r fuel, usable p -> (iteration o < 0)%Z ->
  let start := created S stop (Z.min (memory o) (Z.of_nat d)) (currentParameters P p) in
  solves S d e g k start r -> (forall l, visits S d e g start l -> length (results S l) = d) -> (k < fuel)%nat ->
  exists o' p', cg_optimize S P stop signaled fuel o p = Ok (o', p') /\ iteration o' = (-1)%Z /\
    (optimum o' = r \/ (exists i, signaled i = true) /\ exists l, visits S d e g start l /\ optimum o' = results S l).
Proof.
  intros HP Hd Hrep signaled o p k r fuel Hu Hi start Hs Hl Hk.
  destruct (cg_optimize_ok S P stop d N usable e g eN gN HP Hrep signaled k o p r fuel Hu Hi Hd Hs Hl Hk) as (o' & p' & E & Hu' & [(Ho & Hit)|(F & l & Hv & Ho & Hit)]);
    exists o', p'; split; auto; split; auto. right. split; [exact F|]. exists l. auto.
Qed.

Theorem C81_interrupted_leastSquares S P stop usable d N e g eN gN : behaves P usable d N e g eN gN -> (0 < d)%nat -> (forall l, (0 <= repiterationscount S l)%Z) ->
  forall signaled o p k r fuel, usable p -> (iteration o < 0)%Z ->
  let start := created S stop (memory o) (currentParameters P p) in
  let f := allErrors N eN in let f' := allGradients N gN in
  solves S d f f' k start r -> (forall l, visits S d f f' start l -> length (results S l) = d) -> (k < fuel)%nat ->
  exists o' p', lma_optimize S P stop signaled fuel o p = Ok (o', p') /\ iteration o' = (-1)%Z /\
    (optimum o' = r \/ (exists i, signaled i = true) /\ exists l, visits S d f f' start l /\ optimum o' = results S l).
Proof.
  intros HP Hd Hrep signaled o p k r fuel Hu Hi start f f' Hs Hl Hk.
  destruct (lma_optimize_ok S P stop d N usable e g eN gN HP Hrep signaled k o p r fuel Hu Hi Hd Hs Hl Hk) as (o' & p' & E & Hu' & [(Ho & Hit & _)|(F & l & Hv & Ho & Hit & _)]);
    exists o', p'; split; auto; split; auto. right. split; [exact F|]. exists l. auto.
Qed.

(** stepwise use, whatever happens to the problem between the steps *)
Theorem C81_steps_gradient S P stop usable d N e g eN gN : behaves P usable d N e g eN gN -> (0 < d)%nat -> (forall l, (0 <= repiterationscount S l)%Z) ->
  forall o0 p0 k r, usable p0 -> (iteration o0 < 0)%Z ->
  solves S d e g k (created S stop (Z.min (memory o0) (Z.of_nat d)) (currentParameters P p0)) r ->
  forall o, stepped (cg_step S P stop) usable o0 p0 o -> forall q fuel, usable q ->
  (forall o' p', cg_step S P stop fuel o q = Ok (false, o', p') -> optimum o' = r) /\
  ((k <= fuel)%nat -> exists b o' p', cg_step S P stop fuel o q = Ok (b, o', p')).
Proof.
  intros HP Hd Hrep o0 p0 k r Hu0 Hi Hs o Ho q fuel Hq. split.
  - intros o' p' E. exact (proj1 (cg_stepped_result S P stop d N usable e g eN gN HP Hrep k o0 p0 o r fuel q false o' p' Hu0 Hq Hi Hd Hs Ho E)).
  - intros Hf. exact (cg_stepped_progress S P stop d N usable e g eN gN HP Hrep k o0 p0 o r fuel q Hu0 Hq Hi Hd Hs Ho Hf).
Qed.

Theorem C81_steps_leastSquares S P stop usable d N e g eN gN : behaves P usable d N e g eN gN -> (0 < d)%nat -> (forall l, (0 <= repiterationscount S l)%Z) ->
  forall o0 p0 k r, usable p0 -> (iteration o0 < 0)%Z ->
  solves S d (allErrors N eN) (allGradients N gN) k (created S stop (memory o0) (currentParameters P p0)) r ->
  forall o, stepped (lma_step S P stop) usable o0 p0 o -> forall q fuel, usable q ->
  (forall o' p', lma_step S P stop fuel o q = Ok (false, o', p') -> optimum o' = r) /\
  ((k <= fuel)%nat -> exists b o' p', lma_step S P stop fuel o q = Ok (b, o', p')).
Proof.
  intros HP Hd Hrep o0 p0 k r Hu0 Hi Hs o Ho q fuel Hq. split.
  - intros o' p' E. exact (proj1 (lma_stepped_result S P stop d N usable e g eN gN HP Hrep k o0 p0 o r fuel q false o' p' Hu0 Hq Hi Hd Hs Ho E)).
  - intros Hf. exact (lma_stepped_progress S P stop d N usable e g eN gN HP Hrep k o0 p0 o r fuel q Hu0 Hq Hi Hd Hs Ho Hf).
Qed.

Example C81_nonvacuous stop : exists o' p', cg_optimize (probing [5] [1/9]) twoExamples stop (fun _ => false) 4 (optimizer_new _ 10) [3] = Ok (o', p') /\ optimum o' = [1/9].
Proof.
  destruct (C81_gradient_optimize (probing [5] [1/9]) twoExamples stop (fun _ => True) 1 2 sumError sumGradient twoErrors twoGradients twoExamples_behave ltac:(lia)
    ltac:(intros l; apply Zle_0_nat) (optimizer_new _ 10) [3] 3 [1/9] 4) as (o' & p' & q & E & _ & R & _); try reflexivity; try lia.
  - apply probing_solves; reflexivity.
  - exists o', p'. split; [exact E|]. unfold cg_result in R. cbn in R. congruence.
Qed.

(** a stepwise run, the problem is set to 77 after the first step *)
Example C81_steps_nonvacuous stop : let S := probing [5] [1/9] in let o0 := optimizer_new S 10 in
  exists o1 o2 p1 p2, cg_step S twoExamples stop 5 o0 [3] = Ok (true, o1, p1) /\ stepped (cg_step S twoExamples stop) (fun _ => True) o0 ([3] : PState twoExamples) o1 /\
    cg_step S twoExamples stop 5 o1 [77] = Ok (false, o2, p2) /\ optimum o2 = [1/9].
Proof. eexists _, _, _, _. split; [reflexivity|]. split; [eapply step_first with (fuel := 5%nat); reflexivity|]. split; reflexivity. Qed.

(** * C82: progress is reported once per iteration *)
Theorem C82_progress_gradient S P stop usable d N e g eN gN : behaves P usable d N e g eN gN -> (0 < d)%nat -> (forall l, (0 <= repiterationscount S l)%Z) ->
  forall o0 p0 k r, usable p0 -> (iteration o0 < 0)%Z ->
  solves S d e g k (created S stop (Z.min (memory o0) (Z.of_nat d)) (currentParameters P p0)) r ->
  forall o, stepped (cg_step S P stop) usable o0 p0 o -> (exists l, state o = Some l /\ iteration o = repiterationscount S l) /\
  forall q fuel o' p', usable q -> cg_step S P stop fuel o q = Ok (true, o', p') -> iteration o' <> iteration o /\ exists q', finishedIteration P q' = Ok p'.
Proof.
  intros HP Hd Hrep o0 p0 k r Hu0 Hi Hs o Ho. split.
  - destruct (cg_stepped_running S P stop d N usable e g eN gN HP Hrep k o0 p0 o r Hu0 Hi Hd Hs Ho) as (k' & _ & l & Es & _ & _ & _ & E & _). eauto.
  - intros q fuel o' p' Hq E. exact (cg_stepped_result S P stop d N usable e g eN gN HP Hrep k o0 p0 o r fuel q true o' p' Hu0 Hq Hi Hd Hs Ho E).
Qed.

Theorem C82_progress_leastSquares S P stop usable d N e g eN gN : behaves P usable d N e g eN gN -> (0 < d)%nat -> (forall l, (0 <= repiterationscount S l)%Z) ->
  forall o0 p0 k r, usable p0 -> (iteration o0 < 0)%Z ->
  solves S d (allErrors N eN) (allGradients N gN) k (created S stop (memory o0) (currentParameters P p0)) r ->
  forall o, stepped (lma_step S P stop) usable o0 p0 o -> (exists l, state o = Some l /\ iteration o = repiterationscount S l) /\
  forall q fuel o' p', usable q -> lma_step S P stop fuel o q = Ok (true, o', p') -> iteration o' <> iteration o /\ exists q', finishedIteration P q' = Ok p'.
Proof.
  intros HP Hd Hrep o0 p0 k r Hu0 Hi Hs o Ho. split.
  - destruct (lma_stepped_running S P stop d N usable e g eN gN HP Hrep k o0 p0 o r Hu0 Hi Hd Hs Ho) as (k' & _ & l & Es & _ & _ & _ & E & _). eauto.
  - intros q fuel o' p' Hq E. exact (lma_stepped_result S P stop d N usable e g eN gN HP Hrep k o0 p0 o r fuel q true o' p' Hu0 Hq Hi Hd Hs Ho E).
Qed.

(** A first step of CG and L-BFGS that returns true has done an iteration: the counter of the solver, which starts with 0, has changed. *)
Theorem C82_first_step_gradient S P stop fuel o p o' p' : (iteration o < 0)%Z -> (0 < dimension P p)%nat ->
  cg_step S P stop fuel o p = Ok (true, o', p') -> iteration o' <> 0%Z.
Proof.
  intros Hi Hd. unfold cg_step. rewrite (proj2 (Z.ltb_lt _ _) Hi).
  assert (H0 : iteration (cg_initialize S P stop o p) = 0%Z) by reflexivity.
  revert H0. generalize (cg_initialize S P stop o p). intros o1 H0. destruct (check (0 <? n o1)%Z); try discriminate. cbn [bind].
  clear Hd. revert o1 p H0. induction fuel as [|fuel IH]; intros o1 p H0; [discriminate|]. cbn [cg_loop].
  assert (Cont : forall l p1, (' (ret, o2, p2) <- cg_continue S P o1 l p1 ;; if (ret : bool) then Ok (true, o2, p2) else cg_loop S P fuel o2 p2) = Ok (true, o', p') -> iteration o' <> 0%Z).
  { intros l p1. unfold cg_continue. destruct (Z.eqb_spec (iteration o1) (repiterationscount S l)) as [Hq|Hq].
    - cbn [bind]. apply IH. exact H0.
    - destruct (finishedIteration P p1); try discriminate. cbn [bind]. intros E. injection E as <- _. cbn [iteration]. congruence. }
  destruct (state o1) as [l|]; [|discriminate]. destruct (iterate S l) as [[[|] l1]|]; try discriminate.
  - destruct (asks S l1) as [x|x| |]; try discriminate.
    + destruct (copied (n o1) x) as [y| | | |]; try discriminate. cbn [bind].
      destruct (setParameters P _ _) as [p1| | | |]; try discriminate. cbn [bind]. destruct (error P p1) as [[e q]| | | |]; try discriminate. cbn [bind]. apply Cont.
    + destruct (copied (n o1) x) as [y| | | |]; try discriminate. cbn [bind].
      destruct (setParameters P _ _) as [p1| | | |]; try discriminate. cbn [bind]. destruct (errorGradient P p1) as [[[e h] q]| | | |]; try discriminate. cbn [bind].
      destruct (copied (n o1) h) as [z| | | |]; try discriminate. cbn [bind]. apply Cont.
    + apply IH. exact H0.
  - destruct (cg_reset S o1 l1); discriminate.
Qed.

(** LMA: the first step returns true and tells the problem that an iteration is finished before the solver has done one. *)
Theorem C82_first_step_leastSquares_refuted : ~ (forall S P stop fuel o p o' p', (iteration o < 0)%Z -> (0 < dimension P p)%nat ->
  lma_step S P stop fuel o p = Ok (true, o', p') -> iteration o' <> 0%Z).
Proof.
  intros H.
  assert (E : exists o' p', lma_step (probing [5] [1/9]) twoExamples (mkStopping 0 0 (-1)) 5 (optimizer_new _ 10) ([3] : PState twoExamples) = Ok (true, o', p') /\ iteration o' = 0%Z)
    by (eexists _, _; split; reflexivity).
  destruct E as (o' & p' & E & E0). refine (H _ _ _ _ _ _ _ _ _ _ E E0); [reflexivity|cbn; lia].
Qed.

(** * C83: the parameters of the problem after optimize() *)
Theorem C83_installed_leastSquares S P stop usable d N e g eN gN : behaves P usable d N e g eN gN -> (0 < d)%nat -> (forall l, (0 <= repiterationscount S l)%Z) ->
  forall signaled o p k r fuel, usable p -> (iteration o < 0)%Z ->
  let start := created S stop (memory o) (currentParameters P p) in
  let f := allErrors N eN in let f' := allGradients N gN in
  solves S d f f' k start r -> (forall l, visits S d f f' start l -> length (results S l) = d) -> (k < fuel)%nat ->
  exists o' p', lma_optimize S P stop signaled fuel o p = Ok (o', p') /\ currentParameters P p' = optimum o'.
Proof.
  intros HP Hd Hrep signaled o p k r fuel Hu Hi start f f' Hs Hl Hk.
  destruct (lma_optimize_ok S P stop d N usable e g eN gN HP Hrep signaled k o p r fuel Hu Hi Hd Hs Hl Hk) as (o' & p' & E & Hu' & [(Ho & _ & Hc)|(_ & l & _ & Ho & _ & Hc)]);
    exists o', p'; split; auto; congruence.
Qed.

(** CG and L-BFGS leave the problem at the point that was evaluated last, here the rejected point 5. *)
Theorem C83_installed_gradient_refuted : ~ (forall S P stop usable d N e g eN gN, behaves P usable d N e g eN gN -> (0 < d)%nat -> (forall l, (0 <= repiterationscount S l)%Z) ->
  forall o p k r fuel o' p', usable p -> (iteration o < 0)%Z ->
  solves S d e g k (created S stop (Z.min (memory o) (Z.of_nat d)) (currentParameters P p)) r ->
  cg_optimize S P stop (fun _ => false) fuel o p = Ok (o', p') -> currentParameters P p' = optimum o').
Proof.
  intros H. assert (F : [5] = [1/9]).
  { refine (H (probing [5] [1/9]) twoExamples (mkStopping 0 0 (-1)) (fun _ => True) 1%nat 2%nat sumError sumGradient twoErrors twoGradients twoExamples_behave _ _
      (optimizer_new _ 10) ([3] : PState twoExamples) 3%nat [1/9] 5%nat (@mkOptimizer R vec (probing [5] [1/9]) (-1) 1 1 (Some (3%nat, [3])) [1/9]) ([5] : PState twoExamples) I _ _ _).
    - lia.
    - intros l. apply Zle_0_nat.
    - reflexivity.
    - apply probing_solves; reflexivity.
    - reflexivity. }
  injection F. lra.
Qed.

(** result() without a finished optimization empties the parameters of the problem. *)
Theorem C83_result_without_optimize S P p m : cg_result S P (optimizer_new S m) p = (p' <- setParameters P [] p ;; Ok ([], p')).
Proof. reflexivity. Qed.

(** * C84: what LMA minimizes *)
Definition sumOfSquares (f : vec) : R := rsum (length f) (fun i => (nth i f 0)^2).

Lemma allErrors_squares N eN x : sumOfSquares (allErrors N eN x) = rsum N (fun i => (eN i x)^2).
Proof.
  unfold sumOfSquares, allErrors. rewrite map_length, seq_length. apply rsum_ext. intros i Hi.
  f_equal. rewrite (nth_indep _ 0 (eN 0%nat x)) by (rewrite map_length, seq_length; exact Hi).
  rewrite (map_nth (fun i => eN i x)), seq_nth by exact Hi. reflexivity.
Qed.

(** If the errors are not negative and parameters without any error exist, a minimum of the sum of squares is a minimum of the error. *)
Theorem C84_leastSquares_zero_partial N eN (x r : vec) : (forall i y, (i < N)%nat -> 0 <= eN i y) -> (forall i, (i < N)%nat -> eN i x = 0) ->
  (forall y, length y = length r -> sumOfSquares (allErrors N eN r) <= sumOfSquares (allErrors N eN y)) -> length x = length r ->
  forall y, rsum N (fun i => eN i r) <= rsum N (fun i => eN i y).
Proof.
  intros Hpos Hx Hmin Hlen y. specialize (Hmin x Hlen). rewrite !allErrors_squares in Hmin.
  assert (H0 : rsum N (fun i => (eN i x)^2) = 0). { apply rsum_0. intros i Hi. rewrite (Hx i Hi). ring. }
  rewrite H0 in Hmin.
  assert (Hz : forall i, (i < N)%nat -> eN i r = 0).
  { intros i Hi. pose proof (rsum_ge_term N (fun i => (eN i r)^2) i (fun i _ => pow2_ge_0 _) Hi) as Ht. cbv beta in Ht.
    assert (Hsq : (eN i r)^2 <= 0) by lra. nra. }
  rewrite (rsum_0 N (fun i => eN i r) Hz). apply rsum_nonneg. intros; apply Hpos; auto.
Qed.

Lemma squares_minimum t : 64 * (1/5)^4 + (1/5 - 1)^4 <= 64 * t^4 + (t - 1)^4.
Proof.
  assert (E : 64 * t^4 + (t - 1)^4 - (64 * (1/5)^4 + (1/5 - 1)^4) = (t - 1/5)^2 * (65 * (t + 11/65)^2 + 672/65)) by field.
  assert (0 <= (t - 1/5)^2 * (65 * (t + 11/65)^2 + 672/65)); [|lra].
  apply Rmult_le_pos; [apply pow2_ge_0|]. pose proof (pow2_ge_0 (t + 11/65)). lra.
Qed.
Lemma errors_minimum t : t <> 1/9 -> 8 * (1/9)^2 + (1/9 - 1)^2 < 8 * t^2 + (t - 1)^2.
Proof.
  intros Ht. assert (E : 8 * t^2 + (t - 1)^2 - (8 * (1/9)^2 + (1/9 - 1)^2) = 9 * (t - 1/9)^2) by field.
  assert (0 < (t - 1/9)^2) by (rewrite <- Rsqr_pow2; apply Rsqr_pos_lt; lra). lra.
Qed.

(** Otherwise LMA does not minimize the error: whatever solver finds the minimum of the sum of squares of what it is told, the result is no minimum of the error. *)
Theorem C84_leastSquares_refuted : exists P eN gN g, let error x := rsum 2 (fun i => eN i x) in
  behaves P (fun _ => True) 1 2 error g eN gN /\ (forall i x, 0 <= eN i x) /\
  (exists r, length r = 1%nat /\ forall y, sumOfSquares (allErrors 2 eN r) <= sumOfSquares (allErrors 2 eN y)) /\
  forall S stop o p k r fuel, (forall l, (0 <= repiterationscount S l)%Z) -> (iteration o < 0)%Z ->
    let start := created S stop (memory o) (currentParameters P p) in
    let f := allErrors 2 eN in let f' := allGradients 2 gN in
    solves S 1 f f' k start r -> (forall l, visits S 1 f f' start l -> length (results S l) = 1%nat) -> (k < fuel)%nat ->
    (forall y, length y = 1%nat -> sumOfSquares (f r) <= sumOfSquares (f y)) ->
    exists o' p', lma_optimize S P stop (fun _ => false) fuel o p = Ok (o', p') /\ optimum o' = r /\
      exists y, length y = 1%nat /\ error y < error (optimum o').
Proof.
  exists twoExamples, twoErrors, twoGradients, sumGradient. intros error. split; [exact twoExamples_behave|]. split.
  { intros [|i] x; cbn [twoErrors]; [pose proof (pow2_ge_0 (x1 x)); lra|apply pow2_ge_0]. }
  split.
  { exists [1/5]. split; [reflexivity|]. intros y. rewrite !allErrors_squares. cbn [rsum twoErrors x1 nth]. unfold x1. set (t := nth 0 y 0).
    pose proof (squares_minimum t) as Hm. ring_simplify in Hm. ring_simplify. lra. }
  intros S stop o p k r fuel Hrep Hi start f f' Hs Hl Hk Hmin.
  destruct (C81_leastSquares_optimize S twoExamples stop (fun _ => True) 1 2 sumError sumGradient twoErrors twoGradients twoExamples_behave ltac:(lia) Hrep o p k r fuel I Hi Hs Hl Hk)
    as (o' & p' & q & E & _ & Hr & _). exists o', p'. split; [exact E|]. unfold lma_result in Hr. assert (Ho : optimum o' = r) by (cbn in Hr; congruence).
  split; [exact Ho|]. exists [1/9]. split; [reflexivity|]. rewrite Ho. unfold error. cbn [rsum twoErrors]. unfold x1.
  specialize (Hmin [1/5] eq_refl). unfold f in Hmin. rewrite !allErrors_squares in Hmin. cbn [rsum twoErrors] in Hmin. unfold x1 in Hmin. cbn [nth] in *.
  set (t := nth 0 r 0) in *. assert (Ht : t <> 1/9). { intros Et. rewrite Et in Hmin. lra. }
  pose proof (errors_minimum t Ht). lra.
Qed.

(** * C85: the settings given to the solver *)
Theorem C85_settings {value derivative} (S : solver value derivative) stop m x :
  created S stop m x = create S m x (minimalSearchSpaceStep stop) (minimalValueDifferences stop) 0
    (if Z.eqb (maximalIterations stop) (-1) then 0%Z else maximalIterations stop).
Proof.
  unfold created. destruct (Reqb (minimalSearchSpaceStep stop) 0) eqn:E1; destruct (Reqb (minimalValueDifferences stop) 0) eqn:E2; try reflexivity;
    repeat match goal with H : Reqb _ _ = true |- _ => apply Reqb_true in H; rewrite H; clear H end; reflexivity.
Qed.

(** No solver can tell a limit of 0 iterations from no limit. *)
Theorem C85_zero_iterations_refuted {value derivative} (S : solver value derivative) a b m x :
  created S (mkStopping a b 0) m x = created S (mkStopping a b (-1)) m x.
Proof. reflexivity. Qed.

(** An optimizer that has finished works like a new one with the same number of corrections (which CG does not use). *)
Theorem C85_reused S P stop signaled fuel o m p : (forall l, (0 <= repiterationscount S l)%Z) -> (iteration o < 0)%Z ->
  (forall x a b c i, create S (Z.min (memory o) (Z.of_nat (dimension P p))) x a b c i = create S (Z.min m (Z.of_nat (dimension P p))) x a b c i) ->
  forall o' p', cg_optimize S P stop signaled fuel (optimizer_new S m) p = Ok (o', p') ->
  exists o'', cg_optimize S P stop signaled fuel o p = Ok (o'', p') /\ iteration o'' = iteration o' /\ optimum o'' = optimum o'.
Proof. intros. eapply cg_optimize_same; eauto. Qed.

Theorem C85_reused_leastSquares S P stop signaled fuel o m p : (forall l, (0 <= repiterationscount S l)%Z) ->
  (forall m m' x a b c i, create S m x a b c i = create S m' x a b c i) -> iteration o = (-1)%Z ->
  forall o' p', lma_optimize S P stop signaled fuel (optimizer_new S m) p = Ok (o', p') ->
  exists o'', lma_optimize S P stop signaled fuel o p = Ok (o'', p') /\ iteration o'' = iteration o' /\ optimum o'' = optimum o'.
Proof. intros. eapply lma_optimize_same; eauto. lia. Qed.

(** L-BFGS keeps the smaller number of corrections after a problem with fewer parameters. *)
Definition anyDimension : objective :=
  mkObjective vec (@length R) (fun _ => 0%nat) (fun x _ => Ok x) (fun q => q) (fun q => Ok (0, q)) (fun q => Ok (0, q, q)) (fun _ q => Ok (0, q)) (fun _ q => Ok (0, q, q)) (fun q => Ok q).
Definition reportsMemory : solver R vec :=
  mkSolver R vec (Z * vec) (fun m x _ _ _ _ => (m, x)) (fun l => Some (false, l)) (fun _ => Nothing) (fun _ => 0%Z) (fun _ l => l) (fun _ _ l => l)
    (fun l => repeat (IZR (fst l)) (length (snd l))).
Theorem C85_reused_corrections_refuted : exists S P stop p1 p2 o1 q1 o2 q2 o2' q2',
  cg_optimize S P stop (fun _ => false) 1 (optimizer_new S 10) p1 = Ok (o1, q1) /\
  cg_optimize S P stop (fun _ => false) 1 o1 p2 = Ok (o2, q2) /\
  cg_optimize S P stop (fun _ => false) 1 (optimizer_new S 10) p2 = Ok (o2', q2') /\ optimum o2 <> optimum o2'.
Proof.
  exists reportsMemory, anyDimension, (mkStopping 0 0 (-1)), ([0] : vec), ([0; 0] : vec). eexists _, _, _, _, _, _.
  split; [reflexivity|]. split; [reflexivity|]. split; [reflexivity|]. cbn. intros H. injection H. lra.
Qed.

(** L-BFGS with 2 corrections, used for 3 parameters first, works like new for 2 parameters. *)
Example C85_reused_nonvacuous : exists o1 q1 o2, cg_optimize reportsMemory anyDimension (mkStopping 0 0 (-1)) (fun _ => false) 1 (optimizer_new _ 2) ([0; 0; 0] : PState anyDimension) = Ok (o1, q1) /\
  cg_optimize reportsMemory anyDimension (mkStopping 0 0 (-1)) (fun _ => false) 1 o1 ([0; 0] : PState anyDimension) = Ok (o2, [0; 0]) /\ optimum o2 = [2; 2].
Proof.
  eexists _, _. 
  destruct (C85_reused reportsMemory anyDimension (mkStopping 0 0 (-1)) (fun _ => false) 1 (mkOptimizer (-1) 3 2 (Some ((2%Z, [0; 0; 0]) : SState reportsMemory)) [2; 2; 2]) 2 ([0; 0] : PState anyDimension))
    with (o' := @mkOptimizer R vec reportsMemory (-1) 2 2 (Some (2%Z, [0; 0])) [2; 2]) (p' := [0; 0] : PState anyDimension) as (o2 & E & _ & Ho); try reflexivity.
  exists o2. split; [reflexivity|]. split; [exact E|exact Ho].
Qed.

(** a least squares solver that finds the minimum of the sum of squares: the hypotheses of the refutation can be met *)
Example C84_nonvacuous stop : exists o' p', lma_optimize (probing [5] [1/5]) twoExamples stop (fun _ => false) 4 (optimizer_new _ 0) ([3] : PState twoExamples) = Ok (o', p') /\
  optimum o' = [1/5] /\ currentParameters twoExamples p' = [1/5] /\ sumError [1/9] < sumError [1/5].
Proof.
  destruct (C83_installed_leastSquares (probing [5] [1/5]) twoExamples stop (fun _ => True) 1 2 sumError sumGradient twoErrors twoGradients twoExamples_behave ltac:(lia)
    ltac:(intros l; apply Zle_0_nat) (fun _ => false) (optimizer_new _ 0) ([3] : PState twoExamples) 3 [1/5] 4) as (o' & p' & E & Hc); try reflexivity; try lia.
  - apply probing_solves; reflexivity.
  - destruct (C81_leastSquares_optimize (probing [5] [1/5]) twoExamples stop (fun _ => True) 1 2 sumError sumGradient twoErrors twoGradients twoExamples_behave ltac:(lia)
      ltac:(intros l; apply Zle_0_nat) (optimizer_new _ 0) ([3] : PState twoExamples) 3 [1/5] 4) as (o2 & p2 & q & E2 & _ & R & _); try reflexivity; try lia.
    + apply probing_solves; reflexivity.
    + rewrite E in E2. injection E2 as <- <-. unfold lma_result in R. cbn in R. exists o', p'. split; [exact E|]. split; [congruence|]. split; [congruence|].
      unfold sumError. cbn. lra.
Qed.

Print Assumptions C81_gradient_optimize.
Print Assumptions C84_leastSquares_refuted.
Print Assumptions C85_reused.
