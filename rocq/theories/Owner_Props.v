(** Theorems about the ownership of layers, data sets and optimizers (C106).  [h] is the history of a program, the last action first. *)
From Coq Require Import Lia.
From Verif Require Import Base BaseFacts Evaluation_Model Ask_Model Ask_Spec Ask_Proofs Owner_Model Owner_Spec Owner_Proofs.
Local Open Scope nat_scope.

(** A program that follows the rules never uses or deletes an object that does not exist (any more), whatever exceptions are thrown. *)
Theorem C106_no_undefined_behaviour h : permitted h -> exists g, run (rev h) start = Ok g.
Proof. intros P. destruct (run_ok h P) as (g & us & leak & E & _). eauto. Qed.
Print Assumptions C106_no_undefined_behaviour.

(** If no layer function and no training ended with an exception, everything is deleted exactly once when the program ends. *)
Theorem C106_deleted_once_partial h : permitted h -> finished h -> exceptions h = 0 ->
  exists g, run (rev h) start = Ok g /\ freedOnce (Owner_Model.heap g).
Proof.
  intros P F X. destruct (run_ok h P) as (g & us & leak & E & K). exists g. split; auto. pose proof (finished_leak _ _ _ _ F K) as KH.
  pose proof (I_leak _ _ _ _ K) as L. rewrite X in L. destruct leak; [|discriminate]. now apply heapOk_done.
Qed.
Print Assumptions C106_deleted_once_partial.

(** Each exception in a layer function ([Layer::initialize] throws) or in [train] leaves an object behind that is never deleted, even when
    the program ends. *)
Theorem C106_exceptions_refuted h : permitted h -> finished h ->
  exists g, run (rev h) start = Ok g /\ length (lost (Owner_Model.heap g)) = exceptions h.
Proof.
  intros P F. destruct (run_ok h P) as (g & us & leak & E & K). exists g. split; auto. rewrite (lost_length _ _ (finished_leak _ _ _ _ F K)).
  apply (I_leak _ _ _ _ K).
Qed.
Print Assumptions C106_exceptions_refuted.

(** Why the rules are needed.  A layer that was added to two networks (or twice to the same network, [i = j]) is deleted twice. *)
Theorem C106_shared_layer h i j k : permitted h -> netExists h i -> netExists h j -> In (AddLayer j k) h ->
  run (rev h ++ [AddLayer i k; DestroyNet j; DestroyNet i]) start = UB.
Proof.
  intros P Ni Nj J. destruct (run_holds h P) as (g & us & leak & E & K & Ho). unfold run in *. rewrite for_each_app, E. cbn [bind for_each]. clear E.
  destruct (proj1 (proj2 (I_nets _ _ _ _ K) i) Ni) as (n & En). destruct (proj1 (proj2 (I_nets _ _ _ _ K) j) Nj) as (m & Em).
  destruct (early h P) as (_ & _ & _ & Y4 & _). destruct (Y4 _ _ J) as (Lk & _). pose proof (I_lengths _ _ _ _ K) as LP. pose proof (I_users _ _ _ _ K) as (LU & _).
  destruct (nth_error_lt (pointers g) k) as (p & Ep); [lia|]. pose proof (Ho _ _ _ _ J Em Ep) as Jp.
  cbn [step]. rewrite (proj2 (object_ok _ _ _) En), (proj2 (vget_Some _ _ _) Ep). cbn [bind].
  rewrite (access_ok _ _ p (I_heap _ _ _ _ K)). 2:{ apply in_or_app. left. apply (B_in nb _ _ _ _ Em). unfold nb. apply in_or_app. auto. }
  cbn [bind step nets Owner_Model.heap streams pointers]. unfold object. rewrite !nth_error_upd.
  assert (Li : Nat.ltb i (length (nets g)) = true) by (apply Nat.ltb_lt, nth_error_Some; congruence).
  destruct (Nat.eqb_spec i j) as [<-|N].
  - rewrite Li. cbn [bind]. rewrite (destroyNet_double _ _ p (layers n)); [reflexivity|reflexivity|]. congruence.
  - rewrite Em. cbn [bind]. destruct (destroyNet_mono m (Owner_Model.heap g) p (or_intror Jp)) as [->|(h' & -> & Jd)]; [reflexivity|]. cbn [bind nets Owner_Model.heap].
    rewrite !nth_error_upd. destruct (Nat.eqb_spec j i); [congruence|]. rewrite Nat.eqb_refl, Li. cbn [bind]. rewrite (destroyNet_dead _ h' p Jd); [reflexivity|].
    cbn. apply in_or_app. right. now left.
Qed.
Print Assumptions C106_shared_layer.

(** A layer that was added to a network must not be deleted by the user. *)
Theorem C106_deleted_by_user h i k : permitted h -> netExists h i -> In (AddLayer i k) h ->
  run (rev h ++ [DeleteLayer k; DestroyNet i]) start = UB.
Proof.
  intros P Ni J. destruct (run_holds h P) as (g & us & leak & E & K & Ho). unfold run in *. rewrite for_each_app, E. cbn [bind for_each]. clear E.
  destruct (proj1 (proj2 (I_nets _ _ _ _ K) i) Ni) as (n & En).
  destruct (early h P) as (_ & _ & _ & Y4 & _). destruct (Y4 _ _ J) as (Lk & _). pose proof (I_lengths _ _ _ _ K) as LP. pose proof (I_users _ _ _ _ K) as (LU & _).
  destruct (nth_error_lt (pointers g) k) as (p & Ep); [lia|]. pose proof (Ho _ _ _ _ J En Ep) as Jp.
  cbn [step]. rewrite (proj2 (vget_Some _ _ _) Ep). cbn [bind]. unfold free at 1. destruct (alive p (Owner_Model.heap g)); [|reflexivity]. cbn [bind nets Owner_Model.heap].
  rewrite (proj2 (object_ok _ _ _) En). cbn [bind]. rewrite (destroyNet_dead n _ p); [reflexivity| |auto]. apply in_or_app. right. now left.
Qed.
Print Assumptions C106_deleted_by_user.

(** A network whose training set comes from a data stream must not be used after the stream was destroyed: the training set is gone.  Neither
    the destructor of the stream nor its documentation mentions that. *)
Theorem C106_stream_destroyed h i s : permitted h -> netExists h i -> streamExists h s -> source h i = Some s ->
  run (rev h ++ [DestroyStream s; UseNet i]) start = UB.
Proof.
  intros P Ni Ns So. destruct (run_ok h P) as (g & us & leak & E & K). unfold run in *. rewrite for_each_app, E. cbn [bind for_each]. clear E.
  destruct (proj1 (proj2 (I_nets _ _ _ _ K) i) Ni) as (n & En). destruct (proj1 (proj2 (I_streams _ _ _ _ K) s) Ns) as (d & Ed).
  pose proof (I_train _ _ _ _ K i n En) as T. unfold trainOk in T. rewrite So in T. destruct (deleteTrainSet n); [discriminate|].
  destruct (trainSet n) as [p|] eqn:Et; [|discriminate]. destruct T as (s' & Es & Tc). injection Es as <-. specialize (Tc d Ed).
  cbn [step]. rewrite (proj2 (object_ok _ _ _) Ed). cbn [bind]. rewrite Tc. cbn [free_opt]. unfold free. destruct (alive p (Owner_Model.heap g)); [|reflexivity].
  cbn [bind nets Owner_Model.heap]. rewrite (proj2 (object_ok _ _ _) En). cbn [bind]. unfold useNet. rewrite Et.
  assert (A : forall l hp, for_each l (fun q _ => access q hp) tt = UB \/ for_each l (fun q _ => access q hp) tt = Ok tt).
  { induction l as [|q l IH]; intros hp; cbn [for_each]; [auto|]. unfold access at 1 3. destruct (alive q hp); cbn [bind]; auto. }
  destruct (A (layers n) (Owner_Model.heap g ++ [Delete p])) as [-> | ->]; [reflexivity|]. cbn [bind access_opt]. unfold access.
  rewrite (dead_stays p); [reflexivity|]. apply in_or_app. right. now left.
Qed.
Print Assumptions C106_stream_destroyed.

(** A program that meets the hypotheses: a network with a layer of the library and one of the user, training with a data set and with a
    stream. *)
Definition exampleProgram : list action :=
  [CreateNet; MakeLayer 0 true; NewLayer; AddLayer 0 0; TrainingSet 0; Train 0 true true; CreateStream 2; SetLearner 0 0; AddSample 0;
   UseNet 0; AddSample 0].
Ltac decide_rules := cbn; unfold usable, netExists, streamExists, mine, countNets, countStreams, countLayers; cbn;
  repeat match goal with
  | |- _ /\ _ => split
  | |- forall _, _ => intro
  | |- ~ _ => intro
  | H : _ \/ _ |- _ => destruct H
  | H : False |- _ => destruct H
  | H : None = Some _ |- _ => discriminate H
  | H : Some _ = Some _ |- _ => injection H as H; subst
  | H : _ = _ :> action |- _ => discriminate H
  end; auto; try lia.
Example C106_example_permitted : permitted (rev exampleProgram).
Proof. decide_rules. exists 0. decide_rules. Qed.
Example C106_example_end : permitted (rev (exampleProgram ++ [DestroyStream 0; TrainingSet 0; UseNet 0; DestroyNet 0])) /\
  finished (rev (exampleProgram ++ [DestroyStream 0; TrainingSet 0; UseNet 0; DestroyNet 0])) /\
  exceptions (rev (exampleProgram ++ [DestroyStream 0; TrainingSet 0; UseNet 0; DestroyNet 0])) = 0.
Proof.
  split; [|split; [|reflexivity]].
  - decide_rules. exists 0. decide_rules.
  - unfold finished, netExists, streamExists, mine, countNets, countStreams, countLayers; cbn. repeat split.
    + intros i (A & N). assert (i = 0) by lia. subst. apply N. auto 20.
    + intros i (A & N). assert (i = 0) by lia. subst. apply N. auto 20.
    + intros i (A & _ & N). assert (i = 0) by lia. subst. apply (N 0). auto 20.
Qed.
Example C106_example_exceptions :
  let h := rev ([CreateNet; MakeLayer 0 true; MakeLayer 0 false; MakeLayer 0 true; TrainingSet 0; Train 0 false true; Train 0 true false; DestroyNet 0]) in
  permitted h /\ finished h /\ exceptions h = 2.
Proof.
  split; [|split; [|reflexivity]].
  - decide_rules.
  - unfold finished, netExists, streamExists, mine, countNets, countStreams, countLayers; cbn. repeat split.
    + intros i (A & N). assert (i = 0) by lia. subst. apply N. auto 20.
    + intros i (A & N). lia.
    + intros i (A & _ & N). lia.
Qed.
Example C106_example_stream : let h := rev exampleProgram in
  netExists h 0 /\ streamExists h 0 /\ source h 0 = Some 0 /\ In (AddLayer 0 0) h.
Proof. decide_rules. auto 20. Qed.
