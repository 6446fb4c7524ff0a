(** Proofs about the points that IPOPCMAES evaluates. *)
From Verif Require Import Base BaseFacts MaxPool_Proofs Evaluation_Model IPOP_Model IPOP_Spec IPOP_Proofs.
Local Open Scope R_scope.

Section Points.
Variables (dimension : nat) (error : vec -> R) (sample : nat -> list generation -> list vec) (term : nat -> list generation -> bool)
  (maxEvals maxRestarts : Z) (minimalValue : R).
Definition sized (s : ipop) : Prop := Forall (fun x => length x = dimension) (evaluated (trace s)).

Lemma sized_app s s' x : sized s -> trace s' = trace s ++ [Eval x] -> length x = dimension -> sized s'.
Proof.
  unfold sized. intros H E L. rewrite E, evaluated_app. apply Forall_app. split; auto. cbn. auto.
Qed.
Lemma sized_eq s s' : sized s -> trace s' = trace s -> sized s'.
Proof. unfold sized. intros H ->. exact H. Qed.

Lemma individual_sized s s' : individual_step dimension error sample s = Ok s' -> sized s -> sized s'.
Proof.
  unfold individual_step, getNext. intros E H. destruct (cmaes s) as [c|] eqn:Ec; [|discriminate E].
  destruct (check (Nat.ltb (currentIndividual s) (lambda s))) as [[]| | | |]; try discriminate E. cbn [bind] in E.
  match type of E with context [vget ?p ?i] => destruct (vget p i) as [ind| | | |]; try discriminate E end. cbn [bind] in E.
  destruct (Nat.ltb_spec (length ind) dimension) as [L|L]; [discriminate E|]. cbn [bind] in E. cbn [evaluate] in E.
  unfold setError in E. cbn [cmaes currentIndividual lambda fitnessValues population restarts evaluationsAfterRestart optimum optimumValue trace] in E.
  destruct (check (Nat.ltb (currentIndividual s) (lambda s))) as [[]| | | |]; try discriminate E. cbn [bind] in E.
  match type of E with context [vset ?p ?i ?v] => destruct (vset p i v) as [fit| | | |]; try discriminate E end. cbn [bind] in E.
  destruct (Nat.eqb _ _); injection E as <-; (eapply sized_app; [exact H|reflexivity|]); rewrite firstn_length; lia.
Qed.
Lemma generation_sized s s' : generation_step dimension error sample s = Ok s' -> sized s -> sized s'.
Proof. unfold generation_step, for_. apply for_pres. intros i a b. apply individual_sized. Qed.

Lemma while_pres {St} (P : St -> Prop) (cond : St -> bool) (body : St -> res St) :
  (forall a b, body a = Ok b -> P a -> P b) -> forall fuel s s', while_ fuel cond body s = Ok s' -> P s -> P s'.
Proof.
  intros HB. induction fuel as [|f IH]; intros s s' E H; cbn [while_] in E; destruct (cond s); try discriminate E; try congruence.
  destruct (body s) as [s1| | | |] eqn:E1; try discriminate E. cbn [bind] in E. eauto.
Qed.

Lemma optimum_sized s s' : update_optimum dimension error s = Ok s' -> sized s -> sized s'.
Proof.
  unfold update_optimum. intros E H. destruct (cmaes s) as [c|]; [|discriminate E]. destruct (bestEver c) as [[x f]|]; [|discriminate E].
  destruct (Rltb f (optimumValue s)); [|congruence]. destruct (Nat.ltb_spec (length x) dimension) as [L|L]; [discriminate E|].
  cbn [evaluate] in E. injection E as <-. eapply sized_app; [exact H|reflexivity|]. rewrite firstn_length. lia.
Qed.

Lemma optimize_sized fuel : forall s s', optimize dimension error sample term maxEvals maxRestarts minimalValue fuel s = Ok s' -> sized s -> sized s'.
Proof.
  assert (HRs : forall s b s1, restart maxRestarts s = (b, s1) -> sized s -> sized s1).
  { unfold restart. intros s b s1 E H. destruct (_ >? _)%Z; injection E as _ <-; [exact H|].
    unfold sized. cbn [trace]. rewrite evaluated_app. cbn. now rewrite app_nil_r. }
  induction fuel as [|f IH]; intros s s' E H; cbn [optimize] in E; destruct (restart maxRestarts s) as [b s1] eqn:Er; pose proof (HRs _ _ _ Er H) as H1;
    destruct b; try discriminate E; try congruence.
  match type of E with (_ <- ?m ;; _) = _ => destruct m as [s2| | | |] eqn:E2; try discriminate E end. cbn [bind] in E.
  apply (while_pres sized) in E2; auto; [|apply generation_sized].
  destruct (update_optimum dimension error s2) as [s3| | | |] eqn:E3; try discriminate E. cbn [bind] in E. apply optimum_sized in E3; auto.
  destruct (reached minimalValue s3); [congruence|eauto].
Qed.
End Points.
