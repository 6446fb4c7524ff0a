(** Property C27: StoppingInterrupt. *)
From Verif Require Import Base BaseFacts Interrupt_Model.

(** what can happen *)
Inductive action := New | Delete | Interrupt.

(** [happens acts alive pending w]: the actions [acts] are possible one after another and
    lead to [w]; [alive] objects exist then, and [pending] says whether a SIGINT arrived
    since the number of objects was last zero.  If a SIGINT is pending, the constructor
    fails its check ([C27_construction]), so the history ends there. *)
Inductive happens : list action -> nat -> bool -> world -> Prop :=
| h_start : happens [] 0 false start
| h_new acts n p w w' : happens acts n p w -> construct w = Ok w' ->
    happens (acts ++ [New]) (S n) p w'
| h_delete acts n p w : happens acts (S n) p w ->
    happens (acts ++ [Delete]) n (if Nat.eqb n 0 then false else p) (destruct_ w)
| h_int acts n p w w' : happens acts n p w -> sigint w = Some w' ->
    happens (acts ++ [Interrupt]) n true w'.

Lemma happens_inv acts n p w : happens acts n p w ->
  observers w = n /\ flag w = p /\ (installed w = true <-> n <> 0).
Proof.
  intros H. induction H as [|acts n p w w' H IH E|acts n p w H IH|acts n p w w' H IH E].
  - simpl. repeat split; auto; intros; congruence.
  - destruct IH as (A & B & C). unfold construct in E. destruct (flag w) eqn:F; simpl in E; [discriminate|].
    inversion E; subst. simpl. repeat split; auto.
    intros _. destruct (Nat.eqb_spec (observers w) 0); auto. now apply C.
  - destruct IH as (A & B & C). unfold destruct_. rewrite A. simpl. rewrite Nat.sub_0_r.
    destruct (Nat.eqb_spec n 0) as [->|Hn]; simpl; repeat split; auto; intros; try congruence.
    apply C. lia.
  - destruct IH as (A & B & C). unfold sigint in E. destruct (installed w) eqn:F; inversion E; subst; simpl.
    repeat split; auto; tauto.
Qed.

(** C27.  The handler is installed exactly while at least one object exists (so a SIGINT
    ends the process exactly if there is none). *)
Theorem C27_handler_installed_while_observed :
  forall acts n p w, happens acts n p w ->
  (installed w = true <-> n <> 0) /\ (sigint w = None <-> n = 0).
Proof.
  intros acts n p w H. destruct (happens_inv _ _ _ _ H) as (A & B & C). split; auto.
  unfold sigint. destruct (installed w) eqn:F.
  - split; [discriminate|]. intros ->. exfalso. apply C; auto.
  - split; auto. intros _. destruct n; auto. assert (false = true) by (apply C; lia). discriminate.
Qed.

(** C27.  isSignaled tells whether a SIGINT arrived since the number of objects was last
    zero. *)
Theorem C27_signal_reported_until_last_object :
  forall acts n p w, happens acts n p w -> 0 < n -> isSignaled w = Ok p.
Proof.
  intros acts n p w H Hn. destruct (happens_inv _ _ _ _ H) as (A & B & C).
  unfold isSignaled. rewrite A, (proj2 (Nat.ltb_lt 0 n)) by auto. simpl. now rewrite B.
Qed.

(** C27.  A new object can be created exactly while no SIGINT is pending; in particular
    always after the last object is gone, and then no old signal is visible. *)
Theorem C27_construction :
  forall acts n p w, happens acts n p w ->
  (p = false -> exists w', construct w = Ok w' /\ isSignaled w' = Ok false) /\
  (p = true -> construct w = Abort) /\
  (n = 0 -> p = false).
Proof.
  intros acts n p w H. destruct (happens_inv _ _ _ _ H) as (A & B & C). repeat split.
  - intros ->. unfold construct. rewrite B. simpl. eexists. split; [reflexivity|]. unfold isSignaled. simpl.
    now rewrite ?B.
  - intros ->. unfold construct. now rewrite B.
  - intros ->. remember 0 as z eqn:Z. destruct H as [|acts n p w w' H E|acts n p w H|acts n p w w' H E]; auto; try discriminate.
    + now rewrite Z.
    + destruct (happens_inv _ _ _ _ H) as (A' & B' & C'). unfold sigint in E.
      destruct (installed w) eqn:F; [|discriminate]. exfalso. apply C'; auto.
Qed.

Print Assumptions C27_handler_installed_while_observed.
Print Assumptions C27_signal_reported_until_last_object.
Print Assumptions C27_construction.

(** two nested objects, an interrupt, the inner one goes: still reported *)
Example ex_nested : exists w, happens [New; New; Interrupt; Delete] 1 true w.
Proof.
  eexists. apply (h_delete [New; New; Interrupt] 1 true).
  eapply (h_int [New; New]).
  - eapply (h_new [New]); [eapply (h_new []); [constructor|reflexivity]|reflexivity].
  - reflexivity.
Qed.
