(** C48: global logger; C57: Logger objects. *)
From Verif Require Import Base BaseFacts Log_Model Log_Spec.
From Coq Require Import Lia.

Section Proofs.
Context {msg stream : Type}.

Lemma lastOf_snoc {A B} (f : A -> option B) l o d : lastOf f (l ++ [o]) d = match f o with Some b => b | None => lastOf f l d end.
Proof. revert d. induction l as [|x l IH]; intros d; cbn; auto. Qed.

Lemma log_run_ok compiled cout calls : forall before s, Forall usesMacros calls ->
  curLevel s = lastOf setsLevel before DEBUG -> curStream s = lastOf setsStream before cout ->
  exists s', @log_run msg stream compiled calls s = Ok s' /\ written s' = written s ++ emitted compiled cout before calls.
Proof.
  induction calls as [|o calls IH]; intros before s HU HL HS.
  - exists s. unfold log_run. cbn. now rewrite app_nil_r.
  - inversion HU as [|? ? Ho HU']; subst.
    assert (exists s1, log_op compiled o s = Ok s1 /\ curLevel s1 = lastOf setsLevel (before ++ [o]) DEBUG /\
      curStream s1 = lastOf setsStream (before ++ [o]) cout /\
      written s1 = written s ++ match o with
      | OpMessage l m =>
          if (Nat.leb (levelNumber l) (levelNumber (lastOf setsLevel before DEBUG)) && Nat.leb (levelNumber l) (levelNumber compiled))%bool
          then [(lastOf setsStream before cout, (l, m))] else []
      | _ => [] end) as (s1 & E & L1 & S1 & W1).
    { rewrite !lastOf_snoc. destruct o as [| | | |l|st|l m]; cbn [log_op setsLevel setsStream];
        try (eexists; split; [reflexivity|]; cbn; now rewrite ?app_nil_r).
      rewrite <- HL. destruct (Nat.ltb_spec (levelNumber compiled) (levelNumber l)) as [H1|H1].
      - rewrite (proj2 (Nat.leb_gt _ _) H1), andb_false_r. eexists. split; [reflexivity|]. now rewrite app_nil_r.
      - rewrite (proj2 (Nat.leb_le _ _) H1), andb_true_r.
        destruct (Nat.ltb_spec (levelNumber (curLevel s)) (levelNumber l)) as [H2|H2].
        + rewrite (proj2 (Nat.leb_gt _ _) H2). eexists. split; [reflexivity|]. now rewrite app_nil_r.
        + rewrite (proj2 (Nat.leb_le _ _) H2), <- HS. destruct l; [easy| | |]; (eexists; split; [reflexivity|]; cbn; auto). }
    destruct (IH (before ++ [o]) s1 HU' L1 S1) as (s' & E' & W').
    exists s'. unfold log_run in *. cbn [for_each]. rewrite E. cbn [bind]. split; auto.
    rewrite W', W1, <- app_assoc. reflexivity.
Qed.

(** C48.  Whatever the sequence of calls, exactly the messages are written whose level does not exceed the level that has
    been set last (DEBUG at first) nor the level compiled in, in order, each to the stream that has been set last. *)
Theorem C48_log compiled (cout : stream) (calls : list (logOp msg stream)) : Forall usesMacros calls ->
  exists s, log_run compiled calls (log_init cout) = Ok s /\ written s = emitted compiled cout [] calls.
Proof. intros H. apply (log_run_ok compiled cout calls [] (log_init cout)); auto. Qed.

(** After setDisabled() nothing is written until the level is changed again. *)
Theorem C48_disabled compiled (cout : stream) before (calls : list (logOp msg stream)) :
  Forall usesMacros before -> Forall usesMacros calls -> (forall o, In o calls -> setsLevel o = None) ->
  exists s s', log_run compiled (before ++ [OpDisabled]) (log_init cout) = Ok s /\
    log_run compiled calls s = Ok s' /\ written s' = written s.
Proof.
  intros HB HC HL.
  destruct (log_run_ok compiled cout (before ++ [OpDisabled]) [] (log_init cout)) as (s & E & W); auto.
  { apply Forall_app. split; auto. now repeat constructor. }
  exists s.
  assert (G : forall (calls : list (logOp msg stream)) s, Forall usesMacros calls -> (forall o, In o calls -> setsLevel o = None) ->
    curLevel s = DISABLED -> exists s', log_run compiled calls s = Ok s' /\ written s' = written s).
  { clear. intros calls. induction calls as [|o calls IH]; intros s HC HL HD; [exists s; auto|].
    inversion HC as [|? ? Ho HC']; subst.
    assert (Eo : exists s1, log_op compiled o s = Ok s1 /\ curLevel s1 = DISABLED /\ written s1 = written s).
    { specialize (HL o (or_introl eq_refl)). destruct o as [| | | |l|st|l m]; try discriminate; cbn [log_op].
      - eexists. split; [reflexivity|]. auto.
      - destruct (Nat.ltb (levelNumber compiled) (levelNumber l)); [eauto|]. rewrite HD.
        destruct l; [easy| | |]; cbn; eauto. }
    destruct Eo as (s1 & E1 & D1 & W1). destruct (IH s1) as (s' & E' & W'); auto.
    { intros o' Hin. apply HL. now right. }
    exists s'. unfold log_run in *. cbn [for_each]. rewrite E1. cbn [bind]. split; auto. congruence. }
  assert (D : curLevel s = DISABLED).
  { unfold log_run in E. clear - E. revert E. generalize (@log_init msg stream cout). induction before as [|o b IH]; intros s0 E.
    - cbn in E. now injection E as <-.
    - cbn [app for_each] in E. apply bind_Ok in E as (s1 & _ & E). eauto. }
  destruct (G calls s HC HL D) as (s' & E' & W'). exists s'. auto.
Qed.

(** Using DISABLED as the level of a message is a programming error that OPENANN_CHECK catches. *)
Theorem C48_message_without_level compiled (s : logState msg stream) m : log_op compiled (OpMessage DISABLED m) s = Abort.
Proof. destruct compiled, s as [[] ? ?]; reflexivity. Qed.

(** C57.  What happens to a Logger object: [writes i calls] are the messages passed to it. *)
Definition writes (i : nat) (calls : list (loggerOp msg)) : list msg :=
  flat_map (fun o => match o with LWrite j m => if Nat.eqb j i then [m] else [] | _ => [] end) calls.

Lemma logger_run_object (i : nat) calls : forall s s' t w, @logger_run msg calls s = Ok s' ->
  nth_error (objects s) i = Some (t, w) ->
  nth_error (objects s') i = Some (t, match t with NONE => w | _ => w ++ writes i calls end).
Proof.
  induction calls as [|o calls IH]; intros s s' t w E H.
  - injection E as <-. cbn. rewrite app_nil_r. now destruct t.
  - unfold logger_run in E. cbn [for_each] in E. apply bind_Ok in E as (s1 & E1 & E2). fold (@logger_run msg calls s1) in E2.
    assert (Hi : i < length (objects s)) by (apply nth_error_Some; congruence).
    destruct o as [b|t'|j m]; cbn [logger_op] in E1.
    + injection E1 as <-. apply (IH _ _ t w E2 H).
    + injection E1 as <-. apply (IH _ _ t w E2). cbn [objects]. now rewrite nth_error_app1.
    + apply bind_Ok in E1 as (ob & Eo & E1). apply vget_Some in Eo.
      cbn [writes flat_map]. fold (writes i calls).
      destruct (Nat.eqb_spec j i) as [->|Ne].
      * rewrite H in Eo. injection Eo as <-. cbn [fst snd] in E1. destruct t.
        -- injection E1 as <-. apply (IH _ _ NONE w E2 H).
        -- apply bind_Ok in E1 as (os & Es & E1). rewrite vset_Ok in Es by auto. injection Es as <-. injection E1 as <-.
           rewrite (IH _ _ CONSOLE (w ++ [m]) E2); [now rewrite <- app_assoc|].
           cbn [objects]. rewrite (nth_error_nth' _ (NONE, [])) by now rewrite upd_length. rewrite nth_upd by auto. now rewrite Nat.eqb_refl.
        -- apply bind_Ok in E1 as (os & Es & E1). rewrite vset_Ok in Es by auto. injection Es as <-. injection E1 as <-.
           rewrite (IH _ _ FILE (w ++ [m]) E2); [now rewrite <- app_assoc|].
           cbn [objects]. rewrite (nth_error_nth' _ (NONE, [])) by now rewrite upd_length. rewrite nth_upd by auto. now rewrite Nat.eqb_refl.
        -- apply bind_Ok in E1 as (os & Es & E1). rewrite vset_Ok in Es by auto. injection Es as <-. injection E1 as <-.
           rewrite (IH _ _ APPEND_FILE (w ++ [m]) E2); [now rewrite <- app_assoc|].
           cbn [objects]. rewrite (nth_error_nth' _ (NONE, [])) by now rewrite upd_length. rewrite nth_upd by auto. now rewrite Nat.eqb_refl.
      * apply (IH _ _ t w E2). destruct (fst ob); [injection E1 as <-; auto| | |];
          (apply bind_Ok in E1 as (os & Es & E1); rewrite vset_Ok in Es by (apply nth_error_Some; congruence);
           injection Es as <-; injection E1 as <-; cbn [objects];
           rewrite (nth_error_nth' _ (NONE, [])) by (rewrite upd_length; auto); rewrite nth_upd by (apply nth_error_Some; congruence);
           destruct (Nat.eqb_spec j i); [easy|]; rewrite <- H; symmetry; now apply nth_error_nth').
Qed.

(** A Logger object that is made while loggers are not deactivated writes exactly the messages passed to it, in order, to the
    target it was made for; one that is made with target NONE or while loggers are deactivated writes nothing, even when they are
    activated again. *)
Theorem C57_logger_partial (before calls : list (loggerOp msg)) s0 s t : logger_run before loggers_init = Ok s0 ->
  logger_run (LNew t :: calls) s0 = Ok s ->
  nth_error (objects s) (length (objects s0)) =
    Some (if deactivate s0 then (NONE, []) else (t, match t with NONE => [] | _ => writes (length (objects s0)) calls end)).
Proof.
  intros _ E. unfold logger_run in E. cbn [for_each logger_op bind] in E.
  rewrite (logger_run_object (length (objects s0)) calls _ s (if deactivate s0 then NONE else t) [] E).
  - destruct (deactivate s0), t; reflexivity.
  - cbn [objects]. rewrite nth_error_app2, Nat.sub_diag by lia. reflexivity.
Qed.

(** Finding: setting [Logger::deactivate], documented as "Deactivate all Logger objects", does not silence the objects
    that exist already; isActive() returns false for them but they still write. *)
Theorem C57_deactivate_refuted (m : msg) :
  exists s, logger_run [LNew CONSOLE; LSetDeactivate true; LWrite 0 m] loggers_init = Ok s /\
    isActive s 0 = Ok false /\ objects s = [(CONSOLE, [m])].
Proof. eexists. split; [reflexivity|]. split; reflexivity. Qed.
End Proofs.
Print Assumptions C48_log.
Print Assumptions C48_disabled.
Print Assumptions C48_message_without_level.
Print Assumptions C57_logger_partial.
Print Assumptions C57_deactivate_refuted.

(** Messages before and after the level and the stream are changed. *)
Example ex_log : exists s, log_run DEBUG
    [OpMessage INFO 1; OpError; OpMessage INFO 2; OpStream true; OpMessage ERROR 3; OpDebug; OpMessage DEBUG 4] (log_init false) = Ok s /\
  written s = [(false, (INFO, 1)); (true, (ERROR, 3)); (true, (DEBUG, 4))].
Proof. eexists. split; reflexivity. Qed.
Example ex_logger : exists s, logger_run [LNew FILE; LWrite 0 7; LSetDeactivate true; LNew CONSOLE; LSetDeactivate false; LWrite 1 8; LWrite 0 9] loggers_init = Ok s /\
  objects s = [(FILE, [7; 9]); (NONE, [])].
Proof. eexists. split; reflexivity. Qed.
