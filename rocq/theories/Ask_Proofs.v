(** Proofs about Ask_Model. *)
From Coq Require Import Lia.
From Verif Require Import Base BaseFacts Evaluation_Model Ask_Model Ask_Spec.
Local Open Scope nat_scope.

(** ** the heap *)
Record heapOk (h : list memory) (O : list nat) : Prop := {
  H_owned : forall p, In p O -> times (New p) h = 1 /\ times (Delete p) h = 0;
  H_other : forall p, ~ In p O -> times (Delete p) h = times (New p) h;
  H_once : forall p, times (New p) h <= 1;
  H_fresh : forall p, length h <= p -> times (New p) h = 0;
  H_nodup : NoDup O;
  H_prefix : forall h1 p h2, h = h1 ++ Delete p :: h2 -> In (New p) h1 }.
Lemma times_app e a b : times e (a ++ b) = times e a + times e b. Proof. apply count_occ_app. Qed.
Lemma times_one e a : times e [a] = if memory_eq_dec a e then 1 else 0. Proof. reflexivity. Qed.
Lemma alive_times p h : alive p h = true <-> times (New p) h <> 0 /\ times (Delete p) h = 0.
Proof.
  unfold alive. rewrite andb_true_iff, negb_true_iff. assert (A : existsb (fun e => match e with New q => Nat.eqb p q | Delete _ => false end) h = true <-> times (New p) h <> 0).
  { unfold times. rewrite existsb_exists. split.
    - intros (e & I1 & E). destruct e as [q|q]; [|discriminate]. apply Nat.eqb_eq in E. subst q. intros Z. apply (count_occ_not_In memory_eq_dec) in Z. auto.
    - intros N. exists (New p). split; [|apply Nat.eqb_refl]. apply (count_occ_In memory_eq_dec). lia. }
  assert (B : existsb (fun e => match e with New _ => false | Delete q => Nat.eqb p q end) h = false <-> times (Delete p) h = 0).
  { unfold times. rewrite <- (count_occ_not_In memory_eq_dec). rewrite <- not_true_iff_false, existsb_exists. split.
    - intros N I1. apply N. exists (Delete p). split; auto. apply Nat.eqb_refl.
    - intros N (e & I1 & E). destruct e as [q|q]; [discriminate|]. apply Nat.eqb_eq in E. now subst q. }
  tauto.
Qed.
Lemma heapOk_alive h O p : heapOk h O -> (alive p h = true <-> In p O).
Proof.
  intros K. rewrite alive_times. split.
  - intros (A & B). destruct (in_dec Nat.eq_dec p O) as [I1|I1]; auto. rewrite (H_other _ _ K p I1) in B. lia.
  - intros I1. destruct (H_owned _ _ K p I1). lia.
Qed.
Lemma heapOk_nil : heapOk [] [].
Proof. split; cbn; intros; try contradiction; try constructor; auto. destruct h1; discriminate. Qed.
Lemma snoc_split {A} (h : list A) e h1 x h2 : h ++ [e] = h1 ++ x :: h2 -> (h = h1 /\ e = x /\ h2 = []) \/ exists h2', h2 = h2' ++ [e] /\ h = h1 ++ x :: h2'.
Proof.
  intros E. destruct (exists_last (l := x :: h2)) as (l' & y & F); [discriminate|]. rewrite F, app_assoc in E. apply app_inj_tail in E. destruct E as (E1 & <-).
  destruct l' as [|z l']; cbn in F; injection F as -> ->.
  - left. rewrite app_nil_r in E1. auto.
  - right. exists l'. auto.
Qed.
Lemma heapOk_alloc h O : heapOk h O -> heapOk (snd (alloc h)) (fst (alloc h) :: O) /\ ~ In (fst (alloc h)) O.
Proof.
  intros K. cbn [alloc fst snd]. assert (N : ~ In (length h) O). { intros I1. destruct (H_owned _ _ K _ I1) as (A & _). rewrite (H_fresh _ _ K) in A; lia. }
  assert (Z : times (Delete (length h)) h = 0) by (rewrite (H_other _ _ K _ N); apply (H_fresh _ _ K); lia).
  split; auto. split; intros.
  - rewrite !times_app, !times_one. destruct (memory_eq_dec (New (length h)) (Delete p)); [discriminate|].
    destruct H as [<-|I1].
    + rewrite (H_fresh _ _ K), Z by lia. destruct (memory_eq_dec (New (length h)) (New (length h))); [lia|congruence].
    + destruct (H_owned _ _ K p I1). destruct (memory_eq_dec (New (length h)) (New p)) as [E|]; [injection E as <-; contradiction|]. lia.
  - rewrite !times_app, !times_one. destruct (memory_eq_dec (New (length h)) (Delete p)); [discriminate|].
    destruct (memory_eq_dec (New (length h)) (New p)) as [E|]; [injection E as <-; exfalso; apply H; now left|].
    rewrite (H_other _ _ K); [lia|]. intros I1. apply H. now right.
  - rewrite times_app, times_one. destruct (memory_eq_dec (New (length h)) (New p)) as [E|].
    + injection E as <-. rewrite (H_fresh _ _ K); lia.
    + pose proof (H_once _ _ K p). lia.
  - rewrite app_length in H. cbn in H. rewrite times_app, times_one. rewrite (H_fresh _ _ K) by lia. destruct (memory_eq_dec (New (length h)) (New p)) as [E|]; [injection E as <-; lia|lia].
  - constructor; auto. apply (H_nodup _ _ K).
  - apply snoc_split in H. destruct H as [(_ & E & _)|(h2' & _ & E)]; [discriminate|]. apply (H_prefix _ _ K _ _ _ E).
Qed.
Lemma nodup_remove p O : NoDup O -> NoDup (remove Nat.eq_dec p O).
Proof. induction 1 as [|x l N _ IH]; cbn; [constructor|]. destruct (Nat.eq_dec p x); auto. constructor; auto. intros I1. apply in_remove in I1. tauto. Qed.
Lemma heapOk_free h O p : heapOk h O -> In p O -> exists h', free p h = Ok h' /\ heapOk h' (remove Nat.eq_dec p O).
Proof.
  intros K I1. unfold free. rewrite (proj2 (heapOk_alive _ _ _ K) I1). eexists; split; [reflexivity|]. destruct (H_owned _ _ K p I1) as (A & B). split; intros.
  - apply in_remove in H. destruct H as (I2 & N). destruct (H_owned _ _ K _ I2). rewrite !times_app, !times_one. destruct (memory_eq_dec (Delete p) (New p0)); [discriminate|]. destruct (memory_eq_dec (Delete p) (Delete p0)) as [E|]; [injection E as <-; congruence|]. lia.
  - rewrite !times_app, !times_one. destruct (memory_eq_dec (Delete p) (New p0)); [discriminate|]. destruct (memory_eq_dec (Delete p) (Delete p0)) as [E|].
    + injection E as <-. lia.
    + rewrite (H_other _ _ K); [lia|]. intros I2. apply H. apply in_in_remove; [congruence|auto].
  - rewrite times_app, times_one. destruct (memory_eq_dec (Delete p) (New p0)); [discriminate|]. pose proof (H_once _ _ K p0). lia.
  - rewrite app_length in H. rewrite times_app, times_one. destruct (memory_eq_dec (Delete p) (New p0)); [discriminate|]. rewrite (H_fresh _ _ K); lia.
  - apply nodup_remove. apply (H_nodup _ _ K).
  - apply snoc_split in H. destruct H as [(-> & E & _)|(h2' & _ & E)].
    + injection E as ->. apply (count_occ_In memory_eq_dec). unfold times in A. lia.
    + apply (H_prefix _ _ K _ _ _ E).
Qed.
Lemma heapOk_done h : heapOk h [] -> freedOnce h.
Proof. intros K. split; [|apply (H_prefix _ _ K)]. intros p. split; [apply (H_other _ _ K); auto|apply (H_once _ _ K)]. Qed.
Lemma heapOk_ext h O O' : heapOk h O -> NoDup O' -> (forall p, In p O <-> In p O') -> heapOk h O'.
Proof.
  intros K N E. split; auto; intros.
  - apply (H_owned _ _ K). now apply E.
  - apply (H_other _ _ K). intros I1. apply H. now apply E.
  - apply (H_once _ _ K).
  - apply (H_fresh _ _ K); auto.
  - apply (H_prefix _ _ K _ _ _ H).
Qed.
Definition olist (p : option nat) : list nat := match p with Some q => [q] | None => [] end.
Lemma free_opt_ok h A p B : heapOk h (A ++ olist p ++ B) -> exists h', free_opt p h = Ok h' /\ heapOk h' (A ++ B).
Proof.
  destruct p as [q|]; cbn [free_opt olist app]; [|eauto]. intros K. destruct (heapOk_free _ _ q K) as (h' & E & K'). { apply in_or_app. right. now left. }
  exists h'. split; auto. pose proof (H_nodup _ _ K) as N. pose proof (NoDup_remove_1 _ _ _ N). pose proof (NoDup_remove_2 _ _ _ N) as NI.
  apply (heapOk_ext _ _ _ K'); auto. intros p. split.
  - intros J. apply in_remove in J. destruct J as (J & Np). apply in_app_or in J. apply in_or_app. destruct J as [J|[J|J]]; auto. congruence.
  - intros J. apply in_in_remove; [intros ->; contradiction|]. apply in_app_or in J. apply in_or_app. destruct J; auto. right. now right.
Qed.

Lemma free_opt_ext h p h' : free_opt p h = Ok h' -> exists e, h' = h ++ e /\ forall q, p = Some q -> In (Delete q) h'.
Proof.
  destruct p as [q|]; cbn [free_opt]; unfold free.
  - destruct (alive q h); [|discriminate]. intros E. injection E as <-. exists [Delete q]. split; auto. intros r E. injection E as <-. apply in_or_app. right. now left.
  - intros E. injection E as <-. exists []. rewrite app_nil_r. split; auto. discriminate.
Qed.
Lemma dead_stays q h : In (Delete q) h -> alive q h = false.
Proof. intros I1. destruct (alive q h) eqn:A; auto. apply alive_times in A. destruct A as (_ & A). apply (count_occ_In memory_eq_dec) in I1. unfold times in A. lia. Qed.

Definition own (s : opt) : list nat := olist (cmaes s) ++ olist (parameters s) ++ olist (initialX s) ++ olist (initialStdDev s).
Definition memOk (s : opt) : Prop := heapOk (heap s) (own s) /\ exists p, parameters s = Some p.

Section Any.
Variable sample : nat -> nat -> nat -> list generation -> list vec.
Variable testForTermination : list generation -> bool.
Variable maximalFunctionEvaluations maximalRestarts : Z.
Let perform := perform sample testForTermination maximalFunctionEvaluations maximalRestarts.
Let session := session sample testForTermination maximalFunctionEvaluations maximalRestarts.

Lemma construct_mem l0 : memOk (construct l0 []).
Proof. split; [|cbn; eauto]. apply (heapOk_alloc [] [] heapOk_nil). Qed.
Lemma destroy_mem s : memOk s -> exists h, destroy s (heap s) = Ok h /\ heapOk h [].
Proof.
  intros (K & _). unfold destroy, own in *. destruct (free_opt_ok _ [] _ _ K) as (h1 & -> & K1). cbn [bind app] in *.
  destruct (free_opt_ok _ [] _ _ K1) as (h2 & -> & K2). cbn [bind app] in *. destruct (free_opt_ok _ [] _ _ K2) as (h3 & -> & K3). cbn [bind app] in *.
  rewrite <- (app_nil_r (olist (initialStdDev s))) in K3. destruct (free_opt_ok _ [] _ _ K3) as (h4 & -> & K4). eauto.
Qed.
Lemma in_olist p q : In q (olist p) <-> p = Some q.
Proof. destruct p; cbn; [|split; [contradiction|discriminate]]. split; [intros [->|[]]; auto|intros E; injection E as ->; auto]. Qed.
(** restart does not fail, and what it does *)
Lemma restart_ok s n : memOk s -> problem s = Some n -> exists b s', restart maximalRestarts s = Ok (b, s') /\ memOk s' /\
  (b = false -> (maximalRestarts < restarts s + 1)%Z /\ s' = mkOpt (problem s) (cmaes s) (parameters s) (initialX s) (initialStdDev s) (lambda s) (size s) (gens s) (fresh s) (draws s) (currentIndividual s) (population s) (fitnessValues s) (restarts s + 1) (evaluationsAfterRestart s) (optimum s) (heap s)) /\
  (b = true -> (restarts s + 1 <= maximalRestarts)%Z /\ exists c x d h, s' = mkOpt (problem s) (Some c) (parameters s) (Some x) (Some d) (if Z.gtb (restarts s + 1) 0 then lambda s * 2 else lambda s) n [] false (draws s) (currentIndividual s) (population s) (repeat 0%R (if Z.gtb (restarts s + 1) 0 then lambda s * 2 else lambda s)) (restarts s + 1) 0 (optimum s) h /\
     (forall q, cmaes s = Some q -> alive q h = false)).
Proof.
  intros (K & P) E. unfold restart. rewrite E. destruct (Z.gtb_spec (restarts s + 1) maximalRestarts) as [G|G].
  - eexists _, _. split; [reflexivity|]. split; [split; auto|]. split; [intros _; rewrite <- E; auto|discriminate].
  - unfold own in K. destruct (free_opt_ok _ [] _ _ K) as (h1 & F1 & K1). rewrite F1. cbn [bind app alloc] in *.
    destruct (heapOk_alloc _ _ K1) as (K2 & N2). cbn [alloc fst snd] in K2, N2. set (c := length h1) in *.
    change (c :: olist (parameters s) ++ olist (initialX s) ++ olist (initialStdDev s)) with ((c :: olist (parameters s)) ++ olist (initialX s) ++ olist (initialStdDev s)) in K2.
    destruct (free_opt_ok _ _ _ _ K2) as (h3 & F3 & K3). rewrite F3. cbn [bind].
    destruct (heapOk_alloc _ _ K3) as (K4 & N4). cbn [alloc fst snd] in K4, N4. set (x := length h3) in *.
    rewrite <- (app_nil_r (olist (initialStdDev s))) in K4. change (x :: (c :: olist (parameters s)) ++ olist (initialStdDev s) ++ []) with ((x :: c :: olist (parameters s)) ++ olist (initialStdDev s) ++ []) in K4.
    destruct (free_opt_ok _ _ _ _ K4) as (h5 & F5 & K5). rewrite F5. cbn [bind]. rewrite app_nil_r in K5.
    destruct (heapOk_alloc _ _ K5) as (K6 & N6). cbn [alloc fst snd] in K6, N6. set (d := length h5) in *.
    eexists _, _. split; [reflexivity|]. assert (KF : heapOk (h5 ++ [New d]) ([c] ++ olist (parameters s) ++ [x] ++ [d])).
    { apply (heapOk_ext _ _ _ K6).
      - apply (Permutation.Permutation_NoDup (l := d :: x :: c :: olist (parameters s))); [|apply (H_nodup _ _ K6)].
        change ([c] ++ olist (parameters s) ++ [x] ++ [d]) with ((c :: olist (parameters s)) ++ [x; d]). rewrite Permutation.Permutation_app_comm. apply Permutation.perm_swap.
      - intros p. cbn. rewrite !in_app_iff. cbn. tauto. }
    split; [split; auto|]. split; [discriminate|]. intros _. split; auto. eexists c, x, d, _. split; [rewrite <- E; reflexivity|].
    intros q Q. apply dead_stays. destruct (free_opt_ext _ _ _ F1) as (e1 & _ & I1). destruct (free_opt_ext _ _ _ F3) as (e3 & -> & _). destruct (free_opt_ext _ _ _ F5) as (e5 & -> & _).
    rewrite !in_app_iff. left. left. left. left. left. auto.
Qed.
Lemma same_mem s s' : memOk s -> heap s' = heap s -> cmaes s' = cmaes s -> parameters s' = parameters s -> initialX s' = initialX s -> initialStdDev s' = initialStdDev s -> memOk s'.
Proof. intros (K & P) A B C E F. split; unfold own; rewrite ?A, ?B, ?C, ?E, ?F; auto. Qed.
Lemma perform_mem c s a s' : memOk s -> perform c s = Ok (a, s') -> memOk s'.
Proof.
  intros K. destruct c; unfold perform; cbn [Ask_Model.perform].
  - intros E. injection E as <- <-. apply (same_mem s); auto.
  - destruct (problem s) as [n|] eqn:P; [|unfold restart; rewrite P; discriminate]. destruct (restart_ok s n K P) as (b & s1 & -> & K1 & _). cbn. intros E. injection E as <- <-. auto.
  - unfold getNext. destruct (cmaes s) eqn:C; [|discriminate]. destruct (problem s) eqn:P; [|discriminate]. destruct (currentIndividual s <? lambda s); [|discriminate]. cbn [check bind].
    set (s1 := if _ =? 0 then _ else _). destruct (readPopulation s1); try discriminate. cbn [bind]. destruct (vget _ _); try discriminate. cbn [bind]. destruct (_ <? _); [discriminate|]. intros E. injection E as <- <-.
    apply (same_mem s); auto; unfold s1; destruct (_ =? _); cbn; auto.
  - unfold setError. destruct (cmaes s) eqn:C; [|discriminate]. destruct (problem s) eqn:P; [|discriminate]. destruct (currentIndividual s <? lambda s); [|discriminate]. cbn [check bind].
    destruct (vset _ _ _); try discriminate. cbn [bind]. destruct (_ =? _); [destruct (fresh s); [destruct (readPopulation s); try discriminate|discriminate]|]; cbn [bind]; intros E; injection E as <- <-; apply (same_mem s); auto.
  - destruct (terminated _ _ _); try discriminate. cbn. intros E. injection E as <- <-. auto.
  - destruct (result _); try discriminate. cbn. intros E. injection E as <- <-. auto.
Qed.
Lemma session_mem cs : forall s ans s', memOk s -> session cs s = Ok (ans, s') -> memOk s'.
Proof.
  induction cs as [|c cs IH]; unfold session; cbn [Ask_Model.session]; intros s ans s' K.
  - intros E. injection E as _ <-. auto.
  - fold perform session. destruct (perform c s) as [(a & s1)| | | |] eqn:P; try discriminate. cbn [bind]. destruct (session cs s1) as [(l & s2)| | | |] eqn:Q; try discriminate. cbn [bind].
    intros E. injection E as _ <-. apply (IH s1 l); auto. apply (perform_mem c s a); auto.
Qed.

(** ** permitted histories *)
Hypothesis SO : sampleOk sample.
Hypothesis MR : (0 <= maximalRestarts)%Z.
Variables (d l0 : nat).
Hypothesis L0 : 1 <= l0.

Record running (ph : phase) (last : vec) (tl : list (vec * R)) (r : nat) (s : opt) (c k : nat) (rest : list (vec * R)) : Prop := {
  R_cmaes : cmaes s = Some c;
  R_lambda : lambda s = l0 * 2 ^ r;
  R_size : size s = d;
  R_restarts : (0 <= restarts s)%Z;
  R_told : tl = concat (gens s) ++ rest;
  R_rest : length rest = currentIndividual s;
  R_cur : currentIndividual s < lambda s;
  R_gens : Forall (fun g => length g = lambda s) (gens s);
  R_fit : length (fitnessValues s) = lambda s;
  R_snd : firstn (currentIndividual s) (fitnessValues s) = map snd rest;
  R_evals : evaluationsAfterRestart s = Z.of_nat (length tl);
  R_pop : 0 < currentIndividual s \/ ph = Asked -> population s = Some (c, sample k (lambda s) d (gens s)) /\ fresh s = true /\
            map fst rest = firstn (currentIndividual s) (sample k (lambda s) d (gens s));
  R_last : ph = Asked -> nth_error (sample k (lambda s) d (gens s)) (currentIndividual s) = Some last;
  R_over : ph = Over -> currentIndividual s = 0 }.
Definition legal (ph : phase) (last : vec) (tl : list (vec * R)) (runs : nat) (s : opt) : Prop :=
  memOk s /\ problem s = Some d /\ optimum s = [] /\
  match ph with
  | Begin => cmaes s = None /\ currentIndividual s = 0 /\ restarts s = (-1)%Z /\ lambda s = l0 /\ tl = [] /\ runs = 0
  | _ => exists r c k rest, runs = S r /\ running ph last tl r s c k rest
  end.
Lemma legal_start : legal Begin [] [] 0 (setOptimizable d (construct l0 [])).
Proof. split; [apply (same_mem (construct l0 [])); auto; apply construct_mem|]. cbn. auto 10. Qed.
Lemma alive_cmaes s c : memOk s -> cmaes s = Some c -> alive c (heap s) = true.
Proof. intros (K & _) E. apply (heapOk_alive _ _ _ K). unfold own. rewrite E. now left. Qed.

Definition step_ok (c : call) (ph : phase) (last : vec) (tl : list (vec * R)) (runs : nat) (s : opt) : Prop :=
  exists a s', perform c s = Ok (a, s') /\ legal (after ph c a) (fst (hear (last, tl) (c, a))) (snd (hear (last, tl) (c, a))) (runs + runsStarted [(c, a)]) s'.
Lemma lambda_pos r : 0 < l0 * 2 ^ r. Proof. pose proof (Nat.pow_nonzero 2 r). nia. Qed.
Lemma step_restart ph last tl runs s : ph = Begin \/ ph = Over -> legal ph last tl runs s -> step_ok Restart ph last tl runs s.
Proof.
  intros PH (K & P & O & G). destruct (restart_ok s d K P) as (b & s' & E & K' & B0 & B1). unfold step_ok, perform. cbn [Ask_Model.perform]. rewrite E. cbn [bind].
  exists (Bool b), s'. split; auto. cbn [after]. destruct b; cbn [hear fst snd runsStarted filter length].
  - destruct (B1 eq_refl) as (_ & c & x & y & h & E' & _). clear B0 B1. rewrite E' in *. split; auto. split; [auto|]. split; [auto|]. destruct PH as [-> | ->]; cbn [restarts lambda] in *.
    + destruct G as (G1 & G2 & G3 & G4 & G5 & G6). exists 0, c, 0, []. split; [lia|]. rewrite G3, G4, G2 in *. cbn in *. split; cbn; auto; try lia; try discriminate.
      * apply repeat_length.
      * intros [A|A]; [lia|discriminate].
    + destruct G as (r & c0 & k & rest & -> & R0). exists (S r), c, 0, []. split; [lia|]. pose proof (R_restarts _ _ _ _ _ _ _ _ R0). pose proof (R_over _ _ _ _ _ _ _ _ R0 eq_refl) as C0. pose proof (lambda_pos r) as LP.
      rewrite (R_lambda _ _ _ _ _ _ _ _ R0) in *. rewrite C0 in *. replace (Z.gtb (restarts s + 1) 0) with true in * by (symmetry; apply Z.gtb_lt; lia).
      split; cbn [cmaes lambda size restarts gens currentIndividual fitnessValues evaluationsAfterRestart]; cbn; auto; try lia; try discriminate.
      * apply repeat_length.
      * intros [A|A]; [lia|discriminate].
  - destruct (B0 eq_refl) as (LT & E'). clear B0 B1. rewrite E' in *. split; auto. split; [auto|]. split; [auto|]. destruct PH as [-> | ->].
    + destruct G as (_ & _ & G3 & _). lia.
    + destruct G as (r & c0 & k & rest & -> & R0). exists r, c0, k, rest. split; [lia|]. pose proof (R_restarts _ _ _ _ _ _ _ _ R0). destruct R0. split; cbn; auto; try lia; try discriminate.
      intros [A|A]; [auto|discriminate].
Qed.
Lemma step_next ph last tl runs s : ph <> Begin -> legal ph last tl runs s -> step_ok GetNext ph last tl runs s.
Proof.
  intros PH (K & P & O & G). assert (G' : exists r c k rest, runs = S r /\ running ph last tl r s c k rest) by (destruct ph; auto; congruence). clear G. destruct G' as (r & c & k & rest & -> & R0).
  pose proof (R_cmaes _ _ _ _ _ _ _ _ R0) as C. pose proof (R_cur _ _ _ _ _ _ _ _ R0) as CU. pose proof (alive_cmaes s c K C) as AL.
  unfold step_ok, perform. cbn [Ask_Model.perform]. unfold getNext. rewrite C, P. rewrite (proj2 (Nat.ltb_lt _ _) CU). cbn [check bind].
  destruct (Nat.eqb_spec (currentIndividual s) 0) as [Z|NZ].
  - unfold readPopulation. cbn [population heap currentIndividual]. rewrite AL. cbn [bind]. destruct (SO (draws s) (lambda s) (size s) (gens s)) as (S1 & S2).
    destruct (vget_Ok (sample (draws s) (lambda s) (size s) (gens s)) (currentIndividual s)) as (x & E & N); [lia|]. rewrite E. cbn [bind].
    pose proof (S2 x (nth_error_In _ _ N)) as LX. rewrite (R_size _ _ _ _ _ _ _ _ R0) in *. rewrite LX, Nat.ltb_irrefl. replace (firstn d x) with x by (rewrite <- LX; symmetry; apply firstn_all).
    eexists _, _. split; [reflexivity|]. cbn [after hear fst snd runsStarted filter length]. split; [apply (same_mem s); auto|]. split; [auto|]. split; [auto|].
    exists r, c, (draws s), rest. split; [lia|]. assert (RE : rest = []) by (apply length_zero_iff_nil; rewrite (R_rest _ _ _ _ _ _ _ _ R0); auto). destruct R0. subst rest. split; cbn [cmaes lambda size restarts gens currentIndividual fitnessValues evaluationsAfterRestart population fresh]; auto; try discriminate.
    intros _. rewrite Z. auto.
  - destruct (R_pop _ _ _ _ _ _ _ _ R0) as (P1 & P2 & P3); [lia|]. unfold readPopulation. rewrite P1, AL. cbn [bind]. destruct (SO k (lambda s) d (gens s)) as (S1 & S2).
    destruct (vget_Ok (sample k (lambda s) d (gens s)) (currentIndividual s)) as (x & E & N); [lia|]. rewrite E. cbn [bind].
    pose proof (S2 x (nth_error_In _ _ N)) as LX. rewrite LX, Nat.ltb_irrefl. replace (firstn d x) with x by (rewrite <- LX; symmetry; apply firstn_all).
    eexists _, _. split; [reflexivity|]. cbn [after hear fst snd runsStarted filter length]. split; [auto|]. split; [auto|]. split; [auto|].
    exists r, c, k, rest. split; [lia|]. destruct R0. split; auto; try discriminate.
Qed.
Lemma concat_snoc {A} (l : list (list A)) x : concat (l ++ [x]) = concat l ++ x.
Proof. rewrite concat_app. cbn. now rewrite app_nil_r. Qed.
Lemma firstn_snoc {A} (l : list A) i x : nth_error l i = Some x -> firstn (S i) l = firstn i l ++ [x].
Proof. revert i. induction l as [|y l IH]; intros [|i]; cbn; try discriminate; intros E; [congruence|]. apply (f_equal (cons y)). apply (IH i). auto. Qed.
Lemma firstn_upd {A} (l : list A) i x : i < length l -> firstn (S i) (upd l i x) = firstn i l ++ [x].
Proof. revert i. induction l as [|y l IH]; intros [|i] L; cbn in *; try lia; auto. f_equal. apply (IH i). lia. Qed.
Lemma combine_pairs (rest : list (vec * R)) : combine (map fst rest) (map snd rest) = rest.
Proof. induction rest as [|(x & f) t IH]; cbn; congruence. Qed.
Lemma step_error f last tl runs s : legal Asked last tl runs s -> step_ok (SetError f) Asked last tl runs s.
Proof.
  intros (K & P & O & r & c & k & rest & -> & R0).
  pose proof (R_cmaes _ _ _ _ _ _ _ _ R0) as C. pose proof (R_cur _ _ _ _ _ _ _ _ R0) as CU. pose proof (alive_cmaes s c K C) as AL. pose proof (R_fit _ _ _ _ _ _ _ _ R0) as LF.
  unfold step_ok, perform. cbn [Ask_Model.perform]. unfold setError. rewrite C, P. rewrite (proj2 (Nat.ltb_lt _ _) CU). cbn [check bind].
  rewrite vset_Ok by lia. cbn [bind]. destruct (R_pop _ _ _ _ _ _ _ _ R0) as (P1 & P2 & P3); [auto|]. pose proof (R_last _ _ _ _ _ _ _ _ R0 eq_refl) as LA. destruct (SO k (lambda s) d (gens s)) as (S1 & _).
  assert (F1 : map fst (rest ++ [(last, f)]) = firstn (S (currentIndividual s)) (sample k (lambda s) d (gens s))) by (rewrite map_app, (firstn_snoc _ _ _ LA); cbn; congruence).
  assert (F2 : firstn (S (currentIndividual s)) (upd (fitnessValues s) (currentIndividual s) f) = map snd (rest ++ [(last, f)])) by (rewrite map_app, firstn_upd, (R_snd _ _ _ _ _ _ _ _ R0) by lia; reflexivity).
  assert (T : tl ++ [(last, f)] = concat (gens s) ++ rest ++ [(last, f)]) by (rewrite (R_told _ _ _ _ _ _ _ _ R0), app_assoc; auto).
  assert (EV : (evaluationsAfterRestart s + 1)%Z = Z.of_nat (length (tl ++ [(last, f)]))) by (rewrite (R_evals _ _ _ _ _ _ _ _ R0), app_length; cbn; lia).
  destruct (Nat.eqb_spec (S (currentIndividual s)) (lambda s)) as [E|NE].
  - rewrite P2. unfold readPopulation. rewrite P1, AL. cbn [bind]. eexists _, _. split; [reflexivity|]. cbn [after hear fst snd runsStarted filter length].
    split; [apply (same_mem s); auto|]. split; [auto|]. split; [auto|]. exists r, c, k, []. split; [lia|].
    assert (CO : combine (sample k (lambda s) d (gens s)) (upd (fitnessValues s) (currentIndividual s) f) = rest ++ [(last, f)]).
    { rewrite <- (combine_pairs (rest ++ [(last, f)])). f_equal; [rewrite F1|rewrite <- F2]; symmetry; apply firstn_all2; rewrite ?upd_length; lia. }
    destruct R0. split; cbn [cmaes lambda size restarts gens currentIndividual fitnessValues evaluationsAfterRestart population fresh]; auto; try discriminate; try lia.
    + rewrite concat_snoc, app_nil_r, CO. auto.
    + apply Forall_app. split; auto. constructor; auto. rewrite CO, app_length. cbn. lia.
    + rewrite upd_length. auto.
    + intros [A|A]; [lia|discriminate].
  - eexists _, _. split; [reflexivity|]. cbn [after hear fst snd runsStarted filter length].
    split; [apply (same_mem s); auto|]. split; [auto|]. split; [auto|]. exists r, c, k, (rest ++ [(last, f)]). split; [lia|].
    destruct R0. split; cbn [cmaes lambda size restarts gens currentIndividual fitnessValues evaluationsAfterRestart population fresh]; auto; try discriminate; try lia.
    + rewrite app_length. cbn. lia.
    + rewrite upd_length. auto.
Qed.
Lemma terminated_answer ph last tl r s c k rest : running ph last tl r s c k rest -> exists b, terminated testForTermination maximalFunctionEvaluations s = Ok b /\
  (b = true <-> rest = [] /\ (testForTermination (gens s) = true \/ maximalFunctionEvaluations <> (-1)%Z /\ (maximalFunctionEvaluations <= Z.of_nat (length tl))%Z)).
Proof.
  intros R0. unfold terminated. rewrite (R_cmaes _ _ _ _ _ _ _ _ R0). pose proof (R_rest _ _ _ _ _ _ _ _ R0) as LR. destruct (Nat.eqb_spec (currentIndividual s) 0) as [Z|NZ].
  - eexists. split; [reflexivity|]. assert (rest = []) as -> by (apply length_zero_iff_nil; lia). rewrite (R_evals _ _ _ _ _ _ _ _ R0), orb_true_iff, andb_true_iff, negb_true_iff, Z.eqb_neq, Z.geb_leb, Z.leb_le. tauto.
  - exists false. split; auto. split; [discriminate|]. intros (-> & _). cbn in LR. lia.
Qed.
Lemma step_terminated ph last tl runs s : ph <> Begin -> legal ph last tl runs s -> step_ok Terminated ph last tl runs s.
Proof.
  intros PH (K & P & O & G). assert (G' : exists r c k rest, runs = S r /\ running ph last tl r s c k rest) by (destruct ph; auto; congruence). clear G. destruct G' as (r & c & k & rest & -> & R0).
  destruct (terminated_answer _ _ _ _ _ _ _ _ R0) as (b & E & B). unfold step_ok, perform. cbn [Ask_Model.perform]. rewrite E. cbn [bind]. eexists _, _. split; [reflexivity|]. cbn [hear fst snd runsStarted filter length].
  split; auto. split; auto. split; auto. destruct b; cbn [after].
  - exists r, c, k, rest. split; [lia|]. assert (RE : rest = []) by (apply B; auto). subst rest. pose proof (R_rest _ _ _ _ _ _ _ _ R0) as LR. cbn in LR. destruct R0. split; auto; try discriminate. intros [A|A]; [lia|discriminate].
  - destruct ph; [congruence| | |]; exists r, c, k, rest; (split; [lia|]); auto.
    destruct R0. split; auto; try discriminate. intros [A|A]; [auto|discriminate].
Qed.
Lemma step_result ph last tl runs s : ph <> Begin -> legal ph last tl runs s -> step_ok Result ph last tl runs s.
Proof.
  intros PH L. pose proof L as (K & P & O & G). assert (G' : exists r c k rest, runs = S r /\ running ph last tl r s c k rest) by (destruct ph; auto; congruence). destruct G' as (r & c & k & rest & -> & R0).
  unfold step_ok, perform. cbn [Ask_Model.perform]. unfold result. rewrite (R_cmaes _ _ _ _ _ _ _ _ R0), P. cbn [bind]. eexists _, _. split; [reflexivity|]. cbn [hear fst snd runsStarted filter length]. rewrite Nat.add_0_r.
  destruct ph; cbn [after]; auto.
Qed.
Lemma step_legal ph last tl runs s c : legal ph last tl runs s -> permitted ph c = true -> step_ok c ph last tl runs s.
Proof.
  intros L. destruct c; destruct ph; cbn [permitted]; try discriminate; intros _; try (apply step_restart; auto; fail); try (apply step_next; auto; discriminate); try (apply step_error; auto; fail); try (apply step_terminated; auto; discriminate); apply step_result; auto; discriminate.
Qed.
Lemma session_legal cs : forall ph last tl runs s ans s', legal ph last tl runs s -> session cs s = Ok (ans, s') -> forall ph', phaseAfter ph (combine cs ans) = Some ph' ->
  length ans = length cs /\ legal ph' (fst (fold_left hear (combine cs ans) (last, tl))) (snd (fold_left hear (combine cs ans) (last, tl))) (runs + runsStarted (combine cs ans)) s'.
Proof.
  induction cs as [|c cs IH]; unfold session; cbn [Ask_Model.session]; intros ph last tl runs s ans s' L E ph' F.
  - injection E as <- <-. cbn in F |- *. injection F as <-. rewrite Nat.add_0_r. auto.
  - fold perform session in E. destruct (perform c s) as [(a & s1)| | | |] eqn:Q; try discriminate. cbn [bind] in E. destruct (session cs s1) as [(l & s2)| | | |] eqn:Q2; try discriminate. cbn [bind] in E.
    injection E as <- <-. cbn [combine phaseAfter] in F. destruct (permitted ph c) eqn:PE; [|discriminate]. destruct (step_legal ph last tl runs s c L PE) as (a' & s1' & Q' & L'). rewrite Q in Q'. injection Q' as <- <-.
    destruct (IH _ _ _ _ _ _ _ L' Q2 _ F) as (LE & L2). split; [cbn; congruence|]. cbn [combine fold_left]. rewrite (surjective_pairing (hear (last, tl) (c, a))).
    replace (runs + runsStarted ((c, a) :: combine cs l)) with (runs + runsStarted [(c, a)] + runsStarted (combine cs l)). 2:{ unfold runsStarted. change ((c, a) :: combine cs l) with ([(c, a)] ++ combine cs l). rewrite filter_app, app_length. lia. }
    auto.
Qed.
End Any.
