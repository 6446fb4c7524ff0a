(** Proofs about the optimizers that drive ALGLIB. *)
From Verif Require Import Base BaseFacts Evaluation_Model Alglib_Model Alglib_Spec.
Local Open Scope R_scope.

Lemma solves_unique {value derivative} (S : solver value derivative) d f f' k l r : solves S d f f' k l r ->
  forall k' r', solves S d f f' k' l r' -> k = k' /\ r = r'.
Proof.
  induction 1 as [l l1 Ei Hr|k l l1 x r Ei Ea Hx Hs IH|k l l1 x r Ei Ea Hx Hs IH|k l l1 r Ei Ea Hs IH]; intros k' r' H';
    inversion H' as [l' l2 Ei' Hr'|k2 l' l2 x2 r2 Ei' Ea' Hx' Hs'|k2 l' l2 x2 r2 Ei' Ea' Hx' Hs'|k2 l' l2 r2 Ei' Ea' Hs']; subst; try congruence.
  - split; congruence.
  - assert (l2 = l1) by congruence. subst l2. assert (x2 = x) by congruence. subst x2. destruct (IH _ _ Hs'); subst; auto.
  - assert (l2 = l1) by congruence. subst l2. assert (x2 = x) by congruence. subst x2. destruct (IH _ _ Hs'); subst; auto.
  - assert (l2 = l1) by congruence. subst l2. destruct (IH _ _ Hs'); subst; auto.
Qed.

Lemma copied_ok d x : length x = d -> copied (Z.of_nat d) x = Ok x.
Proof.
  intros H. unfold copied. rewrite Nat2Z.id, H, Nat.ltb_irrefl. f_equal. rewrite <- H. apply firstn_all.
Qed.


Local Hint Constructors visits : core.
Lemma visits_trans {value derivative} (S : solver value derivative) d f f' a b c :
  visits S d f f' a b -> visits S d f f' b c -> visits S d f f' a c.
Proof. intros H H2. induction H; eauto. Qed.

Section CG.
Variables (S : solver R vec) (P : objective) (stop : stopping) (d N : nat).
Variable usable : PState P -> Prop.
Variables (e : vec -> R) (g : vec -> vec) (eN : nat -> vec -> R) (gN : nat -> vec -> vec).
Hypothesis HP : behaves P usable d N e g eN gN.
Hypothesis Hrep : forall l, (0 <= repiterationscount S l)%Z.

Notation solves' := (solves S d e g).
Notation visits' := (visits S d e g).

(** after a step that returned true, begun in the state [l0] of the solver *)
Definition cg_running (k : nat) (l0 : SState S) (o : optimizer S) (r : vec) : Prop :=
  exists l, state o = Some l /\ n o = Z.of_nat d /\ solves' k l r /\ visits' l0 l /\ iteration o = repiterationscount S l /\ (0 <= iteration o)%Z.
(** after a step that returned false *)
Definition cg_done (o : optimizer S) (p : PState P) (r : vec) : Prop := optimum o = r /\ iteration o = (-1)%Z .

Lemma cg_loop_ok fuel : forall k o p l r, usable p -> state o = Some l -> n o = Z.of_nat d -> solves' k l r ->
  (cg_loop S P fuel o p = Fuel /\ (fuel <= k)%nat) \/
  exists o' p', memory o' = memory o /\ usable p' /\
    (cg_loop S P fuel o p = Ok (false, o', p') /\ cg_done o' p' r \/
     exists k', (k' < k)%nat /\ cg_loop S P fuel o p = Ok (true, o', p') /\ cg_running k' l o' r /\ iteration o' <> iteration o /\
      exists q, finishedIteration P q = Ok p').
Proof.
  pose proof HP as (Hlen & has & Hset & Hhas).
  induction fuel as [|fuel IH]; intros k o p l r Hu Es En Hs; [left; split; [reflexivity|lia]|].
  cbn [cg_loop]. rewrite Es. inversion Hs as [l0 l1 Ei Hr|k0 l0 l1 x r0 Ei Ea Hx Hs'|k0 l0 l1 x r0 Ei Ea Hx Hs'|k0 l0 l1 r0 Ei Ea Hs']; subst; rewrite Ei.
  - right. unfold cg_reset. rewrite En, (copied_ok _ _ Hr). cbn [bind]. 
    eexists _, _. split; [|split; [|left; split; [reflexivity|repeat split; auto]]]; [reflexivity|auto].
  - rewrite Ea, En, (copied_ok _ _ Hx). cbn [bind].
    destruct (Hset p Hu) as (Hdim & Hex & Hset'). destruct (Hset' x Hx) as (q0 & E0 & H0). rewrite E0. cbn [bind].
    destruct (Hhas x _ H0) as (_ & _ & _ & (q' & Eq & Hq') & _). rewrite Eq. cbn [bind].
    unfold cg_continue. destruct (Z.eqb_spec (iteration o) (repiterationscount S (giveValue S (e x) l1))) as [Hi|Hi].
    + destruct (IH k0 (mkOptimizer (iteration o) (n o) (memory o) (Some (giveValue S (e x) l1)) (optimum o)) q' _ r (proj1 (Hhas x q' Hq')) eq_refl En Hs') as [[Hf Hk]|(o' & p' & Hm & Hu' & H)].
      * left. split; [exact Hf|lia].
      * right. exists o', p'. split; [exact Hm|]. split; [exact Hu'|]. destruct H as [(E & H)|(k' & Hk' & E & (l' & A & B & C & V & I) & H)]; [left; split; auto|right; exists k'; split; [lia|split; auto]].
        split; [|exact H]. exists l'. split; [exact A|split; [exact B|split; [exact C|split; [eauto|exact I]]]].
    + destruct (Hhas x q' Hq') as (_ & _ & (q2 & E2 & H2) & _). rewrite E2. cbn [bind].
      right. eexists _, q2. split; [|split; [apply (Hhas x q2 H2)|right; exists k0; split; [lia|]; split; [reflexivity|]; split; [|split; [cbn; congruence|eexists; exact E2]]]]; [reflexivity|].
      eexists. cbn [state n iteration]. split; [reflexivity|]. split; [auto|]. split; [eauto|]. split; [eapply visit_value; eauto|auto].
  - rewrite Ea, En, (copied_ok _ _ Hx). cbn [bind].
    destruct (Hset p Hu) as (Hdim & Hex & Hset'). destruct (Hset' x Hx) as (q0 & E0 & H0). rewrite E0. cbn [bind].
    destruct (Hhas x _ H0) as (_ & _ & _ & _ & (q' & Eq & Hq') & _). rewrite Eq. cbn [bind]. destruct (Hlen x Hx) as (Hg & _). rewrite (copied_ok _ _ Hg). cbn [bind].
    unfold cg_continue. destruct (Z.eqb_spec (iteration o) (repiterationscount S (giveDerivative S (e x) (g x) l1))) as [Hi|Hi].
    + destruct (IH k0 (mkOptimizer (iteration o) (n o) (memory o) (Some (giveDerivative S (e x) (g x) l1)) (optimum o)) q' _ r (proj1 (Hhas x q' Hq')) eq_refl En Hs') as [[Hf Hk]|(o' & p' & Hm & Hu' & H)].
      * left. split; [exact Hf|lia].
      * right. exists o', p'. split; [exact Hm|]. split; [exact Hu'|]. destruct H as [(E & H)|(k' & Hk' & E & (l' & A & B & C & V & I) & H)]; [left; split; auto|right; exists k'; split; [lia|split; auto]].
        split; [|exact H]. exists l'. split; [exact A|split; [exact B|split; [exact C|split; [eauto|exact I]]]].
    + destruct (Hhas x q' Hq') as (_ & _ & (q2 & E2 & H2) & _). rewrite E2. cbn [bind].
      right. eexists _, q2. split; [|split; [apply (Hhas x q2 H2)|right; exists k0; split; [lia|]; split; [reflexivity|]; split; [|split; [cbn; congruence|eexists; exact E2]]]]; [reflexivity|].
      eexists. cbn [state n iteration]. split; [reflexivity|]. split; [auto|]. split; [eauto|]. split; [eapply visit_derivative; eauto|auto].
  - rewrite Ea.
    destruct (IH k0 (mkOptimizer (iteration o) (n o) (memory o) (Some l1) (optimum o)) p _ r Hu eq_refl En Hs') as [[Hf Hk]|(o' & p' & Hm & Hu' & H)].
    + left. split; [exact Hf|lia].
    + right. exists o', p'. split; [exact Hm|]. split; [exact Hu'|]. destruct H as [(E & H)|(k' & Hk' & E & (l' & A & B & C & V & I) & H)]; [left; split; auto|right; exists k'; split; [lia|split; auto]].
      split; [|exact H]. exists l'. split; [exact A|split; [exact B|split; [exact C|split; [eauto|exact I]]]].
Qed.

(** the first step *)
Definition cg_start (o : optimizer S) (p : PState P) : SState S := created S stop (Z.min (memory o) (Z.of_nat d)) (currentParameters P p).

Lemma cg_first_ok fuel k o p r : usable p -> (iteration o < 0)%Z -> (0 < d)%nat -> solves' k (cg_start o p) r ->
  (cg_step S P stop fuel o p = Fuel /\ (fuel <= k)%nat) \/
  exists o' p', usable p' /\ (cg_step S P stop fuel o p = Ok (false, o', p') /\ cg_done o' p' r \/
     exists k', (k' < k)%nat /\ cg_step S P stop fuel o p = Ok (true, o', p') /\ cg_running k' (cg_start o p) o' r /\
      exists q, finishedIteration P q = Ok p').
Proof.
  intros Hu Hi Hd Hs. pose proof HP as (Hlen & has & Hset & _). destruct (Hset p Hu) as (Hdim & _). unfold cg_step. rewrite (proj2 (Z.ltb_lt _ _) Hi).
  assert (En : n (cg_initialize S P stop o p) = Z.of_nat d) by (unfold cg_initialize; cbn [n]; rewrite Hdim; reflexivity).
  rewrite En, (proj2 (Z.ltb_lt 0 (Z.of_nat d))) by lia. cbn [check bind].
  assert (Es : state (cg_initialize S P stop o p) = Some (cg_start o p)) by (unfold cg_initialize, cg_start; try rewrite Hdim; reflexivity).
  destruct (cg_loop_ok fuel k _ p _ r Hu Es En Hs) as [H|(o' & p' & _ & Hu' & H)]; [left; exact H|right; exists o', p'; split; [exact Hu'|]].
  destruct H as [H|(k' & Hk & E & Hr & _ & Hq)]; [left; exact H|right; exists k'; auto].
Qed.

Lemma cg_next_ok fuel k l0 o p r : usable p -> (0 < d)%nat -> cg_running k l0 o r ->
  (cg_step S P stop fuel o p = Fuel /\ (fuel <= k)%nat) \/
  exists o' p', usable p' /\ (cg_step S P stop fuel o p = Ok (false, o', p') /\ cg_done o' p' r \/
     exists k', (k' < k)%nat /\ cg_step S P stop fuel o p = Ok (true, o', p') /\ cg_running k' l0 o' r /\ iteration o' <> iteration o /\
      exists q, finishedIteration P q = Ok p').
Proof.
  intros Hu Hd (l & Es & En & Hs & Hv & Hi & Hge). unfold cg_step. rewrite (proj2 (Z.ltb_ge (iteration o) 0)) by lia.
  rewrite En, (proj2 (Z.ltb_lt 0 (Z.of_nat d))) by lia. cbn [check bind].
  destruct (cg_loop_ok fuel k o p l r Hu Es En Hs) as [H|(o' & p' & _ & Hu' & H)]; [left; exact H|right; exists o', p'; split; [exact Hu'|]].
  destruct H as [H|(k' & Hk & E & (l' & A & B & C & V & I) & Hne & Hq)]; [left; exact H|right; exists k'].
  split; [exact Hk|]. split; [exact E|]. split; [|auto]. exists l'. split; [exact A|split; [exact B|split; [exact C|split; [eapply visits_trans; eauto|exact I]]]].
Qed.

(** stepwise use *)
Lemma cg_stepped_running k o0 p0 o r : usable p0 -> (iteration o0 < 0)%Z -> (0 < d)%nat -> solves' k (cg_start o0 p0) r ->
  stepped (cg_step S P stop) usable o0 p0 o -> exists k', (k' < k)%nat /\ cg_running k' (cg_start o0 p0) o r.
Proof.
  intros Hu0 Hi Hd Hs H. induction H as [fuel o p E|fuel o q o' p H (k1 & Hk1 & IH) Hq E].
  - destruct (cg_first_ok fuel k o0 p0 r Hu0 Hi Hd Hs) as [[F _]|(o' & p' & _ & [(F & _)|(k' & Hk & F & Hr & _)])]; rewrite E in F; try discriminate.
    injection F as <- <-. exists k'; auto.
  - destruct (cg_next_ok fuel k1 _ o q r Hq Hd IH) as [[F _]|(o1 & p' & _ & [(F & _)|(k' & Hk & F & Hr & _)])]; rewrite E in F; try discriminate.
    injection F as <- <-. exists k'; split; [lia|auto].
Qed.

Lemma cg_stepped_result k o0 p0 o r fuel q b o' p' : usable p0 -> usable q -> (iteration o0 < 0)%Z -> (0 < d)%nat -> solves' k (cg_start o0 p0) r ->
  stepped (cg_step S P stop) usable o0 p0 o -> cg_step S P stop fuel o q = Ok (b, o', p') ->
  if b then iteration o' <> iteration o /\ exists q', finishedIteration P q' = Ok p' else cg_done o' p' r.
Proof.
  intros Hu0 Hq Hi Hd Hs H E. destruct (cg_stepped_running k o0 p0 o r Hu0 Hi Hd Hs H) as (k1 & Hk1 & Hr).
  destruct (cg_next_ok fuel k1 _ o q r Hq Hd Hr) as [[F _]|(o1 & p1 & _ & [(F & Hdn)|(k' & Hk & F & _ & Hne & Hq')])]; rewrite E in F; try discriminate;
    injection F as -> <- <-; auto.
Qed.

Lemma cg_stepped_progress k o0 p0 o r fuel q : usable p0 -> usable q -> (iteration o0 < 0)%Z -> (0 < d)%nat -> solves' k (cg_start o0 p0) r ->
  stepped (cg_step S P stop) usable o0 p0 o -> (k <= fuel)%nat -> exists b o' p', cg_step S P stop fuel o q = Ok (b, o', p').
Proof.
  intros Hu0 Hq Hi Hd Hs H Hf. destruct (cg_stepped_running k o0 p0 o r Hu0 Hi Hd Hs H) as (k1 & Hk1 & Hr).
  destruct (cg_next_ok fuel k1 _ o q r Hq Hd Hr) as [[F ?]|(o1 & p1 & _ & [(F & _)|(k' & Hk & F & _)])]; [lia| |]; eexists _, _, _; exact F.
Qed.

(** optimize *)
Definition cg_finished (l0 : SState S) (signaled : nat -> bool) (o : optimizer S) (p : PState P) (r : vec) : Prop :=
  cg_done o p r \/ ((exists i, signaled i = true) /\ exists l, visits' l0 l /\ cg_done o p (results S l)).

Lemma cg_reset_ok o p l : usable p -> n o = Z.of_nat d -> length (results S l) = d -> exists o', cg_reset S o l = Ok o' /\ cg_done o' p (results S l).
Proof.
  intros Hu En Hr. pose proof HP as (Hlen & has & Hset & Hhas). unfold cg_reset. rewrite En, (copied_ok _ _ Hr). cbn [bind].
  eexists. split; [reflexivity|]. repeat split; auto.
Qed.

Lemma cg_optimize_next signaled l0 r : (0 < d)%nat -> (forall l, visits' l0 l -> length (results S l) = d) ->
  forall fuel k i o p, usable p -> cg_running k l0 o r -> (k < fuel)%nat ->
  exists o' p', cg_optimize_from S P stop signaled i fuel o p = Ok (o', p') /\ usable p' /\ cg_finished l0 signaled o' p' r.
Proof.
  intros Hd Hl. induction fuel as [|fuel IH]; intros k i o p Hu Hr Hk; [lia|]. cbn [cg_optimize_from].
  destruct (cg_next_ok (Datatypes.S fuel) k l0 o p r Hu Hd Hr) as [[F ?]|(o1 & p1 & Hu1 & [(F & Hdn)|(k' & Hk' & F & Hr' & _)])]; [lia| |]; rewrite F; cbn [bind].
  - exists o1, p1. split; [reflexivity|split; [exact Hu1|left; exact Hdn]].
  - destruct (signaled i) eqn:Ei; [|apply (IH k'); [exact Hu1|exact Hr'|lia]].
    destruct Hr' as (l & Es & En & _ & Hv & _). rewrite Es.
    destruct (cg_reset_ok o1 p1 l Hu1 En (Hl l Hv)) as (o2 & E2 & Hdn). rewrite E2. cbn [bind]. exists o2, p1. split; [reflexivity|]. split; [exact Hu1|]. right. eauto.
Qed.

Lemma cg_optimize_ok signaled k o p r fuel : usable p -> (iteration o < 0)%Z -> (0 < d)%nat -> solves' k (cg_start o p) r ->
  (forall l, visits' (cg_start o p) l -> length (results S l) = d) -> (k < fuel)%nat ->
  exists o' p', cg_optimize S P stop signaled fuel o p = Ok (o', p') /\ usable p' /\ cg_finished (cg_start o p) signaled o' p' r.
Proof.
  intros Hu Hi Hd Hs Hl Hk. unfold cg_optimize. destruct fuel as [|fuel]; [lia|]. cbn [cg_optimize_from].
  destruct (cg_first_ok (Datatypes.S fuel) k o p r Hu Hi Hd Hs) as [[F ?]|(o1 & p1 & Hu1 & [(F & Hdn)|(k' & Hk' & F & Hr' & _)])]; [lia| |]; rewrite F; cbn [bind].
  - exists o1, p1. split; [reflexivity|split; [exact Hu1|left; exact Hdn]].
  - destruct (signaled 0%nat) eqn:Ei; [|apply (cg_optimize_next signaled _ r Hd Hl fuel k' 1); [exact Hu1|exact Hr'|lia]].
    destruct Hr' as (l & Es & En & _ & Hv & _). rewrite Es.
    destruct (cg_reset_ok o1 p1 l Hu1 En (Hl l Hv)) as (o2 & E2 & Hdn). rewrite E2. cbn [bind]. exists o2, p1. split; [reflexivity|]. split; [exact Hu1|]. right. eauto.
Qed.
End CG.

Section LMA.
Variables (S : solver vec (list vec)) (P : objective) (stop : stopping) (d N : nat).
Variable usable : PState P -> Prop.
Variables (e : vec -> R) (g : vec -> vec) (eN : nat -> vec -> R) (gN : nat -> vec -> vec).
Hypothesis HP : behaves P usable d N e g eN gN.
Hypothesis Hrep : forall l, (0 <= repiterationscount S l)%Z.

Lemma lma_values_ok : forall m k x q (has : vec -> PState P -> Prop),
  (forall i q, (i < k + m)%nat -> has x q -> exists q', errorN P i q = Ok (eN i x, q') /\ has x q') -> has x q ->
  exists q', lma_values P k m q = Ok (map (fun i => eN i x) (seq k m), q') /\ has x q'.
Proof.
  induction m as [|m IH]; intros k x q has H Hq; [exists q; auto|]. cbn [lma_values seq map].
  destruct (H k q) as (q1 & E1 & H1); [lia|auto|]. rewrite E1. cbn [bind].
  destruct (IH (Datatypes.S k) x q1 has) as (q2 & E2 & H2); [intros; apply H; [lia|auto]|auto|]. rewrite E2. cbn [bind]. exists q2. auto.
Qed.

Lemma lma_derivatives_ok : forall m k x q (has : vec -> PState P -> Prop),
  (forall i q, (i < k + m)%nat -> has x q -> exists q', errorGradientN P i q = Ok (eN i x, gN i x, q') /\ has x q') ->
  (forall i, (i < k + m)%nat -> length (gN i x) = d) -> has x q ->
  exists q', lma_derivatives P d k m q = Ok (map (fun i => eN i x) (seq k m), map (fun i => gN i x) (seq k m), q') /\ has x q'.
Proof.
  induction m as [|m IH]; intros k x q has H Hl Hq; [exists q; auto|]. cbn [lma_derivatives seq map].
  destruct (H k q) as (q1 & E1 & H1); [lia|auto|]. rewrite E1. cbn [bind]. rewrite (copied_ok d) by (apply Hl; lia). cbn [bind].
  destruct (IH (Datatypes.S k) x q1 has) as (q2 & E2 & H2); [intros; apply H; [lia|auto]|intros; apply Hl; lia|auto|]. rewrite E2. cbn [bind]. exists q2. auto.
Qed.

Notation solves' := (solves S d (allErrors N eN) (allGradients N gN)).
Notation visits' := (visits S d (allErrors N eN) (allGradients N gN)).

(** after a step that returned true, begun in the state [l0] of the solver *)
Definition lma_running (k : nat) (l0 : SState S) (o : optimizer S) (r : vec) : Prop :=
  exists l, state o = Some l /\ n o = Z.of_nat d /\ solves' k l r /\ visits' l0 l /\ iteration o = repiterationscount S l /\ (0 <= iteration o)%Z.
(** after a step that returned false *)
Definition lma_done (o : optimizer S) (p : PState P) (r : vec) : Prop := optimum o = r /\ iteration o = (-1)%Z /\ currentParameters P p = r.

Lemma lma_loop_ok fuel : forall k o p l r, usable p -> state o = Some l -> n o = Z.of_nat d -> solves' k l r ->
  (lma_loop S P fuel o p = Fuel /\ (fuel <= k)%nat) \/
  exists o' p', memory o' = memory o /\ usable p' /\
    (lma_loop S P fuel o p = Ok (false, o', p') /\ lma_done o' p' r \/
     exists k', (k' < k)%nat /\ lma_loop S P fuel o p = Ok (true, o', p') /\ lma_running k' l o' r /\ iteration o' <> iteration o /\
      exists q, finishedIteration P q = Ok p').
Proof.
  pose proof HP as (Hlen & has & Hset & Hhas).
  induction fuel as [|fuel IH]; intros k o p l r Hu Es En Hs; [left; split; [reflexivity|lia]|].
  cbn [lma_loop]. rewrite Es. inversion Hs as [l0 l1 Ei Hr|k0 l0 l1 x r0 Ei Ea Hx Hs'|k0 l0 l1 x r0 Ei Ea Hx Hs'|k0 l0 l1 r0 Ei Ea Hs']; subst; rewrite Ei.
  - right. unfold lma_reset. rewrite En, (copied_ok _ _ Hr). cbn [bind]. destruct (Hset p Hu) as (Hdim & Hex & Hset'). destruct (Hset' _ Hr) as (q0 & E0 & H0). rewrite E0. cbn [bind].
    destruct (Hhas _ _ H0) as (_ & _ & _ & (q' & Eq & Hq') & _). rewrite Eq. destruct (Hhas _ _ Hq') as (Hu1 & Hc1 & _). cbn [bind].
    eexists _, _. split; [|split; [|left; split; [reflexivity|repeat split; auto]]]; [reflexivity|auto].
  - rewrite Ea, En, (copied_ok _ _ Hx). cbn [bind].
    destruct (Hset p Hu) as (Hdim & Hex & Hset'). destruct (Hset' x Hx) as (q0 & E0 & H0). rewrite E0. cbn [bind].
    rewrite (proj1 (proj2 (Hset q0 (proj1 (Hhas x q0 H0))))). destruct (lma_values_ok N 0 x q0 has) as (q' & Eq & Hq'); [intros i q Hi Hq; apply (Hhas x q Hq); exact Hi|auto|]. rewrite Eq. cbn [bind]. fold (allErrors N eN x).
    unfold lma_continue. destruct (Z.eqb_spec (iteration o) (repiterationscount S (giveValue S ((allErrors N eN) x) l1))) as [Hi|Hi].
    + destruct (IH k0 (mkOptimizer (iteration o) (n o) (memory o) (Some (giveValue S ((allErrors N eN) x) l1)) (optimum o)) q' _ r (proj1 (Hhas x q' Hq')) eq_refl En Hs') as [[Hf Hk]|(o' & p' & Hm & Hu' & H)].
      * left. split; [exact Hf|lia].
      * right. exists o', p'. split; [exact Hm|]. split; [exact Hu'|]. destruct H as [(E & H)|(k' & Hk' & E & (l' & A & B & C & V & I) & H)]; [left; split; auto|right; exists k'; split; [lia|split; auto]].
        split; [|exact H]. exists l'. split; [exact A|split; [exact B|split; [exact C|split; [eauto|exact I]]]].
    + destruct (Hhas x q' Hq') as (_ & _ & (q2 & E2 & H2) & _). rewrite E2. cbn [bind].
      right. eexists _, q2. split; [|split; [apply (Hhas x q2 H2)|right; exists k0; split; [lia|]; split; [reflexivity|]; split; [|split; [cbn; congruence|eexists; exact E2]]]]; [reflexivity|].
      eexists. cbn [state n iteration]. split; [reflexivity|]. split; [auto|]. split; [eauto|]. split; [eapply visit_value; eauto|auto].
  - rewrite Ea, En, (copied_ok _ _ Hx). cbn [bind].
    destruct (Hset p Hu) as (Hdim & Hex & Hset'). destruct (Hset' x Hx) as (q0 & E0 & H0). rewrite E0. cbn [bind].
    rewrite (proj1 (proj2 (Hset q0 (proj1 (Hhas x q0 H0))))), (proj1 (Hset q0 (proj1 (Hhas x q0 H0)))). destruct (lma_derivatives_ok N 0 x q0 has) as (q' & Eq & Hq'); [intros i q Hi Hq; apply (Hhas x q Hq); exact Hi|apply (Hlen x Hx)|auto|]. rewrite Eq. cbn [bind]. fold (allErrors N eN x). fold (allGradients N gN x).
    unfold lma_continue. destruct (Z.eqb_spec (iteration o) (repiterationscount S (giveDerivative S ((allErrors N eN) x) ((allGradients N gN) x) l1))) as [Hi|Hi].
    + destruct (IH k0 (mkOptimizer (iteration o) (n o) (memory o) (Some (giveDerivative S ((allErrors N eN) x) ((allGradients N gN) x) l1)) (optimum o)) q' _ r (proj1 (Hhas x q' Hq')) eq_refl En Hs') as [[Hf Hk]|(o' & p' & Hm & Hu' & H)].
      * left. split; [exact Hf|lia].
      * right. exists o', p'. split; [exact Hm|]. split; [exact Hu'|]. destruct H as [(E & H)|(k' & Hk' & E & (l' & A & B & C & V & I) & H)]; [left; split; auto|right; exists k'; split; [lia|split; auto]].
        split; [|exact H]. exists l'. split; [exact A|split; [exact B|split; [exact C|split; [eauto|exact I]]]].
    + destruct (Hhas x q' Hq') as (_ & _ & (q2 & E2 & H2) & _). rewrite E2. cbn [bind].
      right. eexists _, q2. split; [|split; [apply (Hhas x q2 H2)|right; exists k0; split; [lia|]; split; [reflexivity|]; split; [|split; [cbn; congruence|eexists; exact E2]]]]; [reflexivity|].
      eexists. cbn [state n iteration]. split; [reflexivity|]. split; [auto|]. split; [eauto|]. split; [eapply visit_derivative; eauto|auto].
  - rewrite Ea.
    destruct (IH k0 (mkOptimizer (iteration o) (n o) (memory o) (Some l1) (optimum o)) p _ r Hu eq_refl En Hs') as [[Hf Hk]|(o' & p' & Hm & Hu' & H)].
    + left. split; [exact Hf|lia].
    + right. exists o', p'. split; [exact Hm|]. split; [exact Hu'|]. destruct H as [(E & H)|(k' & Hk' & E & (l' & A & B & C & V & I) & H)]; [left; split; auto|right; exists k'; split; [lia|split; auto]].
      split; [|exact H]. exists l'. split; [exact A|split; [exact B|split; [exact C|split; [eauto|exact I]]]].
Qed.

(** the first step *)
Definition lma_start (o : optimizer S) (p : PState P) : SState S := created S stop (memory o) (currentParameters P p).

Lemma lma_first_ok fuel k o p r : usable p -> (iteration o < 0)%Z -> (0 < d)%nat -> solves' k (lma_start o p) r ->
  (lma_step S P stop fuel o p = Fuel /\ (fuel <= k)%nat) \/
  exists o' p', usable p' /\ (lma_step S P stop fuel o p = Ok (false, o', p') /\ lma_done o' p' r \/
     exists k', (k' < k)%nat /\ lma_step S P stop fuel o p = Ok (true, o', p') /\ lma_running k' (lma_start o p) o' r /\
      exists q, finishedIteration P q = Ok p').
Proof.
  intros Hu Hi Hd Hs. pose proof HP as (Hlen & has & Hset & _). destruct (Hset p Hu) as (Hdim & _). unfold lma_step. rewrite (proj2 (Z.ltb_lt _ _) Hi).
  assert (En : n (lma_initialize S P stop o p) = Z.of_nat d) by (unfold lma_initialize; cbn [n]; rewrite Hdim; reflexivity).
  rewrite En, (proj2 (Z.ltb_lt 0 (Z.of_nat d))) by lia. cbn [check bind].
  assert (Es : state (lma_initialize S P stop o p) = Some (lma_start o p)) by (unfold lma_initialize, lma_start; try rewrite Hdim; reflexivity).
  destruct (lma_loop_ok fuel k _ p _ r Hu Es En Hs) as [H|(o' & p' & _ & Hu' & H)]; [left; exact H|right; exists o', p'; split; [exact Hu'|]].
  destruct H as [H|(k' & Hk & E & Hr & _ & Hq)]; [left; exact H|right; exists k'; auto].
Qed.

Lemma lma_next_ok fuel k l0 o p r : usable p -> (0 < d)%nat -> lma_running k l0 o r ->
  (lma_step S P stop fuel o p = Fuel /\ (fuel <= k)%nat) \/
  exists o' p', usable p' /\ (lma_step S P stop fuel o p = Ok (false, o', p') /\ lma_done o' p' r \/
     exists k', (k' < k)%nat /\ lma_step S P stop fuel o p = Ok (true, o', p') /\ lma_running k' l0 o' r /\ iteration o' <> iteration o /\
      exists q, finishedIteration P q = Ok p').
Proof.
  intros Hu Hd (l & Es & En & Hs & Hv & Hi & Hge). unfold lma_step. rewrite (proj2 (Z.ltb_ge (iteration o) 0)) by lia.
  rewrite En, (proj2 (Z.ltb_lt 0 (Z.of_nat d))) by lia. cbn [check bind].
  destruct (lma_loop_ok fuel k o p l r Hu Es En Hs) as [H|(o' & p' & _ & Hu' & H)]; [left; exact H|right; exists o', p'; split; [exact Hu'|]].
  destruct H as [H|(k' & Hk & E & (l' & A & B & C & V & I) & Hne & Hq)]; [left; exact H|right; exists k'].
  split; [exact Hk|]. split; [exact E|]. split; [|auto]. exists l'. split; [exact A|split; [exact B|split; [exact C|split; [eapply visits_trans; eauto|exact I]]]].
Qed.

(** stepwise use *)
Lemma lma_stepped_running k o0 p0 o r : usable p0 -> (iteration o0 < 0)%Z -> (0 < d)%nat -> solves' k (lma_start o0 p0) r ->
  stepped (lma_step S P stop) usable o0 p0 o -> exists k', (k' < k)%nat /\ lma_running k' (lma_start o0 p0) o r.
Proof.
  intros Hu0 Hi Hd Hs H. induction H as [fuel o p E|fuel o q o' p H (k1 & Hk1 & IH) Hq E].
  - destruct (lma_first_ok fuel k o0 p0 r Hu0 Hi Hd Hs) as [[F _]|(o' & p' & _ & [(F & _)|(k' & Hk & F & Hr & _)])]; rewrite E in F; try discriminate.
    injection F as <- <-. exists k'; auto.
  - destruct (lma_next_ok fuel k1 _ o q r Hq Hd IH) as [[F _]|(o1 & p' & _ & [(F & _)|(k' & Hk & F & Hr & _)])]; rewrite E in F; try discriminate.
    injection F as <- <-. exists k'; split; [lia|auto].
Qed.

Lemma lma_stepped_result k o0 p0 o r fuel q b o' p' : usable p0 -> usable q -> (iteration o0 < 0)%Z -> (0 < d)%nat -> solves' k (lma_start o0 p0) r ->
  stepped (lma_step S P stop) usable o0 p0 o -> lma_step S P stop fuel o q = Ok (b, o', p') ->
  if b then iteration o' <> iteration o /\ exists q', finishedIteration P q' = Ok p' else lma_done o' p' r.
Proof.
  intros Hu0 Hq Hi Hd Hs H E. destruct (lma_stepped_running k o0 p0 o r Hu0 Hi Hd Hs H) as (k1 & Hk1 & Hr).
  destruct (lma_next_ok fuel k1 _ o q r Hq Hd Hr) as [[F _]|(o1 & p1 & _ & [(F & Hdn)|(k' & Hk & F & _ & Hne & Hq')])]; rewrite E in F; try discriminate;
    injection F as -> <- <-; auto.
Qed.

Lemma lma_stepped_progress k o0 p0 o r fuel q : usable p0 -> usable q -> (iteration o0 < 0)%Z -> (0 < d)%nat -> solves' k (lma_start o0 p0) r ->
  stepped (lma_step S P stop) usable o0 p0 o -> (k <= fuel)%nat -> exists b o' p', lma_step S P stop fuel o q = Ok (b, o', p').
Proof.
  intros Hu0 Hq Hi Hd Hs H Hf. destruct (lma_stepped_running k o0 p0 o r Hu0 Hi Hd Hs H) as (k1 & Hk1 & Hr).
  destruct (lma_next_ok fuel k1 _ o q r Hq Hd Hr) as [[F ?]|(o1 & p1 & _ & [(F & _)|(k' & Hk & F & _)])]; [lia| |]; eexists _, _, _; exact F.
Qed.

(** optimize *)
Definition lma_finished (l0 : SState S) (signaled : nat -> bool) (o : optimizer S) (p : PState P) (r : vec) : Prop :=
  lma_done o p r \/ ((exists i, signaled i = true) /\ exists l, visits' l0 l /\ lma_done o p (results S l)).

Lemma lma_reset_ok o p l : usable p -> n o = Z.of_nat d -> length (results S l) = d -> exists o' p', lma_reset S P o l p = Ok (o', p') /\ usable p' /\ lma_done o' p' (results S l).
Proof.
  intros Hu En Hr. pose proof HP as (Hlen & has & Hset & Hhas). unfold lma_reset. rewrite En, (copied_ok _ _ Hr). cbn [bind].
  destruct (Hset p Hu) as (Hdim & Hex & Hset'). destruct (Hset' _ Hr) as (q0 & E0 & H0). rewrite E0. cbn [bind].
  destruct (Hhas _ _ H0) as (_ & _ & _ & (q' & Eq & Hq') & _). rewrite Eq. destruct (Hhas _ _ Hq') as (Hu1 & Hc1 & _). cbn [bind]. eexists _, _. split; [reflexivity|]. repeat split; auto.
Qed.

Lemma lma_optimize_next signaled l0 r : (0 < d)%nat -> (forall l, visits' l0 l -> length (results S l) = d) ->
  forall fuel k i o p, usable p -> lma_running k l0 o r -> (k < fuel)%nat ->
  exists o' p', lma_optimize_from S P stop signaled i fuel o p = Ok (o', p') /\ usable p' /\ lma_finished l0 signaled o' p' r.
Proof.
  intros Hd Hl. induction fuel as [|fuel IH]; intros k i o p Hu Hr Hk; [lia|]. cbn [lma_optimize_from].
  destruct (lma_next_ok (Datatypes.S fuel) k l0 o p r Hu Hd Hr) as [[F ?]|(o1 & p1 & Hu1 & [(F & Hdn)|(k' & Hk' & F & Hr' & _)])]; [lia| |]; rewrite F; cbn [bind].
  - exists o1, p1. split; [reflexivity|split; [exact Hu1|left; exact Hdn]].
  - destruct (signaled i) eqn:Ei; [|apply (IH k'); [exact Hu1|exact Hr'|lia]].
    destruct Hr' as (l & Es & En & _ & Hv & _). rewrite Es.
    destruct (lma_reset_ok o1 p1 l Hu1 En (Hl l Hv)) as (o2 & p2 & E2 & Hu2 & Hdn). rewrite E2. exists o2, p2. split; [reflexivity|]. split; [exact Hu2|]. right. eauto.
Qed.

Lemma lma_optimize_ok signaled k o p r fuel : usable p -> (iteration o < 0)%Z -> (0 < d)%nat -> solves' k (lma_start o p) r ->
  (forall l, visits' (lma_start o p) l -> length (results S l) = d) -> (k < fuel)%nat ->
  exists o' p', lma_optimize S P stop signaled fuel o p = Ok (o', p') /\ usable p' /\ lma_finished (lma_start o p) signaled o' p' r.
Proof.
  intros Hu Hi Hd Hs Hl Hk. unfold lma_optimize. destruct fuel as [|fuel]; [lia|]. cbn [lma_optimize_from].
  destruct (lma_first_ok (Datatypes.S fuel) k o p r Hu Hi Hd Hs) as [[F ?]|(o1 & p1 & Hu1 & [(F & Hdn)|(k' & Hk' & F & Hr' & _)])]; [lia| |]; rewrite F; cbn [bind].
  - exists o1, p1. split; [reflexivity|split; [exact Hu1|left; exact Hdn]].
  - destruct (signaled 0%nat) eqn:Ei; [|apply (lma_optimize_next signaled _ r Hd Hl fuel k' 1); [exact Hu1|exact Hr'|lia]].
    destruct Hr' as (l & Es & En & _ & Hv & _). rewrite Es.
    destruct (lma_reset_ok o1 p1 l Hu1 En (Hl l Hv)) as (o2 & p2 & E2 & Hu2 & Hdn). rewrite E2. exists o2, p2. split; [reflexivity|]. split; [exact Hu2|]. right. eauto.
Qed.
End LMA.

(** * Two optimizers that only differ in the number of corrections and an old result *)
Definition alike {value derivative} {S : solver value derivative} (o1 o2 : optimizer S) : Prop :=
  iteration o1 = iteration o2 /\ n o1 = n o2 /\ state o1 = state o2.
Definition alike_step {value derivative} {S : solver value derivative} {PS} (r1 r2 : res (bool * optimizer S * PS)) : Prop :=
  match r1, r2 with
  | Ok (b1, o1, p1), Ok (b2, o2, p2) => b1 = b2 /\ p1 = p2 /\ alike o1 o2 /\ (if b1 then (0 <= iteration o1)%Z else optimum o1 = optimum o2)
  | Ok _, _ | _, Ok _ => False
  | _, _ => True
  end.
Definition alike_end {value derivative} {S : solver value derivative} {PS} (r1 r2 : res (optimizer S * PS)) : Prop :=
  match r1, r2 with
  | Ok (o1, p1), Ok (o2, p2) => p1 = p2 /\ iteration o1 = iteration o2 /\ optimum o1 = optimum o2
  | Ok _, _ | _, Ok _ => False
  | _, _ => True
  end.

Section CGsame.
Variables (S : solver R vec) (P : objective) (stop : stopping).
Hypothesis Hrep : forall l, (0 <= repiterationscount S l)%Z.

Lemma cg_loop_alike fuel : forall o1 o2 p, alike o1 o2 -> alike_step (cg_loop S P fuel o1 p) (cg_loop S P fuel o2 p).
Proof.
  induction fuel as [|fuel IH]; intros o1 o2 p (Hi & Hn & Hs); [exact I|]. cbn [cg_loop]. rewrite <- Hs, <- Hn.
  destruct (state o1) as [l|]; [|exact I]. destruct (iterate S l) as [[[|] l1]|]; [| |exact I].
  - assert (Cont : forall l p, alike_step (' (ret, o, p) <- cg_continue S P o1 l p ;; if (ret : bool) then Ok (true, o, p) else cg_loop S P fuel o p)
      (' (ret, o, p) <- cg_continue S P o2 l p ;; if (ret : bool) then Ok (true, o, p) else cg_loop S P fuel o p)).
    { intros l2 p2. unfold cg_continue. rewrite <- Hi, <- Hn. destruct (Z.eqb (iteration o1) (repiterationscount S l2)).
      - cbn [bind]. apply IH. repeat split; auto.
      - destruct (finishedIteration P p2); try exact I. cbn. repeat split; auto. }
    destruct (asks S l1) as [x|x| |]; try exact I.
    + destruct (copied (n o1) x); try exact I. cbn [bind]. destruct (setParameters P _ _); try exact I. cbn [bind]. destruct (error P _) as [[? ?]| | | |]; try exact I. cbn [bind]. apply Cont.
    + destruct (copied (n o1) x); try exact I. cbn [bind]. destruct (setParameters P _ _); try exact I. cbn [bind]. destruct (errorGradient P _) as [[[? h] ?]| | | |]; try exact I. cbn [bind]. destruct (copied (n o1) h); try exact I. cbn [bind]. apply Cont.
    + apply IH. repeat split; auto.
  - unfold cg_reset. rewrite <- Hn. destruct (copied (n o1) (results S l1)); try exact I. cbn [bind].  cbn. repeat split; auto.
Qed.

Lemma cg_step_alike fuel o1 o2 p : alike o1 o2 -> (0 <= iteration o1)%Z -> alike_step (cg_step S P stop fuel o1 p) (cg_step S P stop fuel o2 p).
Proof.
  intros H Hi. unfold cg_step. destruct H as (H1 & H2 & H3). rewrite <- H1, (proj2 (Z.ltb_ge _ _) Hi), <- H2. destruct (check _); try exact I. cbn [bind].
  apply cg_loop_alike. repeat split; auto.
Qed.

(** the rest of optimize after a step *)
Definition cg_after (signaled : nat -> bool) (k fuel : nat) (r : res (bool * optimizer S * PState P)) : res (optimizer S * PState P) :=
  ' (running, o, p) <- r ;;
  if (running : bool) then
    if signaled k then match state o with None => UB | Some l => o <- cg_reset S o l ;; Ok (o, p) end
    else cg_optimize_from S P stop signaled (Datatypes.S k) fuel o p
  else Ok (o, p).

Lemma cg_after_alike signaled fuel : forall k r1 r2, alike_step r1 r2 -> alike_end (cg_after signaled k fuel r1) (cg_after signaled k fuel r2).
Proof.
  induction fuel as [|fuel IH]; intros k r1 r2 H;
    (destruct r1 as [[[b1 o1] p1]| | | |]; destruct r2 as [[[b2 o2] p2]| | | |]; cbn [alike_step] in H; try contradiction; try exact I;
     destruct H as (<- & <- & (Hi & Hn & Hs) & Hb); unfold cg_after; cbn [bind]; destruct b1; [|cbn; auto];
     destruct (signaled k); [rewrite <- Hs; destruct (state o1) as [l|]; [|exact I]; unfold cg_reset; rewrite <- Hn; destruct (copied (n o1) (results S l)); try exact I; cbn [bind];  cbn; auto|]).
  - exact I.
  - cbn [cg_optimize_from]. apply IH. apply cg_step_alike; [repeat split; auto|exact Hb].
Qed.

Lemma cg_optimize_same signaled fuel o m p : (iteration o < 0)%Z -> 
  (forall x a b c i, create S (Z.min (memory o) (Z.of_nat (dimension P p))) x a b c i = create S (Z.min m (Z.of_nat (dimension P p))) x a b c i) ->
  forall o' p', cg_optimize S P stop signaled fuel (optimizer_new S m) p = Ok (o', p') ->
  exists o'', cg_optimize S P stop signaled fuel o p = Ok (o'', p') /\ iteration o'' = iteration o' /\ optimum o'' = optimum o'.
Proof.
  intros Hi Hc o' p' E. unfold cg_optimize in *. destruct fuel as [|fuel]; [discriminate|]. cbn [cg_optimize_from] in *.
  fold (cg_after signaled 0 fuel (cg_step S P stop (Datatypes.S fuel) (optimizer_new S m) p)) in E.
  fold (cg_after signaled 0 fuel (cg_step S P stop (Datatypes.S fuel) o p)).
  assert (H : alike_step (cg_step S P stop (Datatypes.S fuel) (optimizer_new S m) p) (cg_step S P stop (Datatypes.S fuel) o p)).
  { unfold cg_step. rewrite (proj2 (Z.ltb_lt _ _) Hi). cbn [iteration optimizer_new]. change (Z.ltb (-1) 0) with true. cbv iota.
    assert (A : alike (cg_initialize S P stop (optimizer_new S m) p) (cg_initialize S P stop o p)).
    { unfold alike, cg_initialize, created, optimizer_new. cbn [iteration n state memory]. rewrite Hc. auto. }
    destruct A as (A1 & A2 & A3). rewrite <- A2. destruct (check _); try exact I. cbn [bind]. apply cg_loop_alike. repeat split; auto. }
  pose proof (cg_after_alike signaled fuel 0 _ _ H) as HE. rewrite E in HE.
  destruct (cg_after signaled 0 fuel (cg_step S P stop (Datatypes.S fuel) o p)) as [[o2 p2]| | | |]; cbn in HE; try contradiction.
  destruct HE as (-> & H1 & H2). exists o2. auto.
Qed.
End CGsame.

Section LMAsame.
Variables (S : solver vec (list vec)) (P : objective) (stop : stopping).
Hypothesis Hrep : forall l, (0 <= repiterationscount S l)%Z.

Lemma lma_loop_alike fuel : forall o1 o2 p, alike o1 o2 -> alike_step (lma_loop S P fuel o1 p) (lma_loop S P fuel o2 p).
Proof.
  induction fuel as [|fuel IH]; intros o1 o2 p (Hi & Hn & Hs); [exact I|]. cbn [lma_loop]. rewrite <- Hs, <- Hn.
  destruct (state o1) as [l|]; [|exact I]. destruct (iterate S l) as [[[|] l1]|]; [| |exact I].
  - assert (Cont : forall l p, alike_step (' (ret, o, p) <- lma_continue S P o1 l p ;; if (ret : bool) then Ok (true, o, p) else lma_loop S P fuel o p)
      (' (ret, o, p) <- lma_continue S P o2 l p ;; if (ret : bool) then Ok (true, o, p) else lma_loop S P fuel o p)).
    { intros l2 p2. unfold lma_continue. rewrite <- Hi, <- Hn. destruct (Z.eqb (iteration o1) (repiterationscount S l2)).
      - cbn [bind]. apply IH. repeat split; auto.
      - destruct (finishedIteration P p2); try exact I. cbn. repeat split; auto. }
    destruct (asks S l1) as [x|x| |]; try exact I.
    + destruct (copied (n o1) x); try exact I. cbn [bind]. destruct (setParameters P _ _); try exact I. cbn [bind]. destruct (lma_values P _ _ _) as [[? ?]| | | |]; try exact I. cbn [bind]. apply Cont.
    + destruct (copied (n o1) x); try exact I. cbn [bind]. destruct (setParameters P _ _); try exact I. cbn [bind]. destruct (lma_derivatives P _ _ _ _) as [[[? ?] ?]| | | |]; try exact I. cbn [bind]. apply Cont.
    + apply IH. repeat split; auto.
  - unfold lma_reset. rewrite <- Hn. destruct (copied (n o1) (results S l1)); try exact I. cbn [bind]. destruct (setParameters P _ _); try exact I. cbn [bind]. destruct (error P _) as [[? ?]| | | |]; try exact I. cbn. repeat split; auto.
Qed.

Lemma lma_step_alike fuel o1 o2 p : alike o1 o2 -> (0 <= iteration o1)%Z -> alike_step (lma_step S P stop fuel o1 p) (lma_step S P stop fuel o2 p).
Proof.
  intros H Hi. unfold lma_step. destruct H as (H1 & H2 & H3). rewrite <- H1, (proj2 (Z.ltb_ge _ _) Hi), <- H2. destruct (check _); try exact I. cbn [bind].
  apply lma_loop_alike. repeat split; auto.
Qed.

(** the rest of optimize after a step *)
Definition lma_after (signaled : nat -> bool) (k fuel : nat) (r : res (bool * optimizer S * PState P)) : res (optimizer S * PState P) :=
  ' (running, o, p) <- r ;;
  if (running : bool) then
    if signaled k then match state o with None => UB | Some l => lma_reset S P o l p end
    else lma_optimize_from S P stop signaled (Datatypes.S k) fuel o p
  else Ok (o, p).

Lemma lma_after_alike signaled fuel : forall k r1 r2, alike_step r1 r2 -> alike_end (lma_after signaled k fuel r1) (lma_after signaled k fuel r2).
Proof.
  induction fuel as [|fuel IH]; intros k r1 r2 H;
    (destruct r1 as [[[b1 o1] p1]| | | |]; destruct r2 as [[[b2 o2] p2]| | | |]; cbn [alike_step] in H; try contradiction; try exact I;
     destruct H as (<- & <- & (Hi & Hn & Hs) & Hb); unfold lma_after; cbn [bind]; destruct b1; [|cbn; auto];
     destruct (signaled k); [rewrite <- Hs; destruct (state o1) as [l|]; [|exact I]; unfold lma_reset; rewrite <- Hn; destruct (copied (n o1) (results S l)); try exact I; cbn [bind]; destruct (setParameters P _ _); try exact I; cbn [bind]; destruct (error P _) as [[? ?]| | | |]; try exact I; cbn; auto|]).
  - exact I.
  - cbn [lma_optimize_from]. apply IH. apply lma_step_alike; [repeat split; auto|exact Hb].
Qed.

Lemma lma_optimize_same signaled fuel o m p : (iteration o < 0)%Z -> iteration o = (-1)%Z -> (forall m m' x a b c i, create S m x a b c i = create S m' x a b c i) ->
  forall o' p', lma_optimize S P stop signaled fuel (optimizer_new S m) p = Ok (o', p') ->
  exists o'', lma_optimize S P stop signaled fuel o p = Ok (o'', p') /\ iteration o'' = iteration o' /\ optimum o'' = optimum o'.
Proof.
  intros Hi He Hc o' p' E. unfold lma_optimize in *. destruct fuel as [|fuel]; [discriminate|]. cbn [lma_optimize_from] in *.
  fold (lma_after signaled 0 fuel (lma_step S P stop (Datatypes.S fuel) (optimizer_new S m) p)) in E.
  fold (lma_after signaled 0 fuel (lma_step S P stop (Datatypes.S fuel) o p)).
  assert (H : alike_step (lma_step S P stop (Datatypes.S fuel) (optimizer_new S m) p) (lma_step S P stop (Datatypes.S fuel) o p)).
  { unfold lma_step. rewrite (proj2 (Z.ltb_lt _ _) Hi). cbn [iteration optimizer_new]. change (Z.ltb (-1) 0) with true. cbv iota.
    assert (A : alike (lma_initialize S P stop (optimizer_new S m) p) (lma_initialize S P stop o p)).
    { unfold alike, lma_initialize, created, optimizer_new. cbn [iteration n state memory]. rewrite He, (Hc m (memory o)). auto. }
    destruct A as (A1 & A2 & A3). rewrite <- A2. destruct (check _); try exact I. cbn [bind]. apply lma_loop_alike. repeat split; auto. }
  pose proof (lma_after_alike signaled fuel 0 _ _ H) as HE. rewrite E in HE.
  destruct (lma_after signaled 0 fuel (lma_step S P stop (Datatypes.S fuel) o p)) as [[o2 p2]| | | |]; cbn in HE; try contradiction.
  destruct HE as (-> & H1 & H2). exists o2. auto.
Qed.
End LMAsame.

