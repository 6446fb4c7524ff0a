(** Proofs about data set ownership. *)
From Verif Require Import BaseFacts Learner_Model.
From Verif Require Export Learner_Spec.

Lemma ptr_eqb_eq p q : ptr_eqb p q = true <-> p = q.
Proof.
  destruct p, q; simpl; split; intros H; try discriminate; try (apply Nat.eqb_eq in H; congruence);
  inversion H; apply Nat.eqb_refl.
Qed.

Lemma existsb_ptr p l : existsb (ptr_eqb p) l = true <-> In p l.
Proof.
  rewrite existsb_exists. split.
  - intros (q & H & E). apply ptr_eqb_eq in E. congruence.
  - intros H. exists p. split; auto. now apply ptr_eqb_eq.
Qed.

Lemma existsb_ptr_false p l : existsb (ptr_eqb p) l = false <-> ~ In p l.
Proof. rewrite <- existsb_ptr. destruct (existsb (ptr_eqb p) l); split; congruence. Qed.

(** owned, not yet deleted objects: exactly those held with a delete flag *)
Definition holds (flag : bool) (p : option ptr) (k : nat) : Prop := flag = true /\ p = Some (Own k).

Record Inv (l : learner) : Prop := {
  inv_nodup : NoDup (deleted l);
  inv_own : forall p, In p (deleted l) -> exists k, p = Own k /\ k < created l;
  inv_train : deleteTrainSet l = true -> exists k, trainSet l = Some (Own k);
  inv_valid : deleteValidSet l = true -> exists k, validSet l = Some (Own k);
  inv_train_own : forall k, trainSet l = Some (Own k) ->
      deleteTrainSet l = true /\ k < created l /\ ~ In (Own k) (deleted l);
  inv_valid_own : forall k, validSet l = Some (Own k) ->
      deleteValidSet l = true /\ k < created l /\ ~ In (Own k) (deleted l);
  inv_diff : forall k, trainSet l = Some (Own k) -> validSet l = Some (Own k) -> False;
  inv_all : forall k, k < created l ->
      In (Own k) (deleted l) \/ trainSet l = Some (Own k) \/ validSet l = Some (Own k)
}.

Lemma newLearner_Inv : Inv newLearner.
Proof.
  constructor; simpl; try discriminate; intros; try lia; try tauto. constructor.
Qed.

(** deleting a held object *)
Lemma deleteIf_held (flag : bool) p cr d :
  (flag = true -> exists k, p = Some (Own k)) ->
  (forall k, p = Some (Own k) -> flag = true /\ k < cr /\ ~ In (Own k) d) ->
  deleteIf flag p cr d =
    Ok (match p with Some (Own k) => Own k :: d | _ => d end).
Proof.
  intros H1 H2. unfold deleteIf. destruct flag.
  - destruct (H1 eq_refl) as (k & ->). destruct (H2 k eq_refl) as (_ & L & N).
    simpl. apply Nat.ltb_lt in L. rewrite L. apply existsb_ptr_false in N. rewrite N. reflexivity.
  - destruct p as [[u|k]|]; auto. destruct (H2 k eq_refl). discriminate.
Qed.

Ltac own_case :=
  repeat match goal with
  | H : Some _ = Some _ |- _ => inversion H; subst; clear H
  | H : Own _ = Own _ |- _ => inversion H; subst; clear H
  end.

Lemma lstep_Inv size l o : Inv l -> exists l', lstep size l o = Ok l' /\ Inv l' /\
  (forall p, In p (deleted l) -> In p (deleted l')).
Proof.
  intros I. destruct I as [Hnd Hown Htr Hva Hto Hvo Hdf Hall].
  assert (DT := deleteIf_held (deleteTrainSet l) (trainSet l) (created l) (deleted l) Htr Hto).
  assert (DV := deleteIf_held (deleteValidSet l) (validSet l) (created l) (deleted l) Hva Hvo).
  set (dt := match trainSet l with Some (Own k) => Own k :: deleted l | _ => deleted l end) in *.
  set (dv := match validSet l with Some (Own k) => Own k :: deleted l | _ => deleted l end) in *.
  assert (Tnd : NoDup dt).
  { unfold dt. destruct (trainSet l) as [[u|k]|] eqn:E; auto. constructor; auto. now apply Hto. }
  assert (Vnd : NoDup dv).
  { unfold dv. destruct (validSet l) as [[u|k]|] eqn:E; auto. constructor; auto. now apply Hvo. }
  assert (Tin : forall p, In p dt <-> In p (deleted l) \/ exists k, p = Own k /\ trainSet l = Some (Own k)).
  { intros p. unfold dt. destruct (trainSet l) as [[u|k]|] eqn:E; simpl; split; intros H;
      try (destruct H as [H|(k' & -> & H)]; [now auto|inversion H; now auto]); auto.
    destruct H as [<-|H]; eauto. }
  assert (Vin : forall p, In p dv <-> In p (deleted l) \/ exists k, p = Own k /\ validSet l = Some (Own k)).
  { intros p. unfold dv. destruct (validSet l) as [[u|k]|] eqn:E; simpl; split; intros H;
      try (destruct H as [H|(k' & -> & H)]; [now auto|inversion H; now auto]); auto.
    destruct H as [<-|H]; eauto. }
  clearbody dt dv.
  assert (Fresh : ~ In (Own (created l)) dt).
  { intros H. apply Tin in H. destruct H as [H|(k & E & H)].
    - destruct (Hown _ H) as (k & E & L). inversion E. lia.
    - inversion E; subst. destruct (Hto _ H) as (_ & L & _). lia. }
  assert (FreshT : trainSet l = Some (Own (created l)) -> False).
  { intros H. destruct (Hto _ H) as (_ & L & _). lia. }
  assert (FreshV : validSet l = Some (Own (created l)) -> False).
  { intros H. destruct (Hvo _ H) as (_ & L & _). lia. }
  destruct o as [|u| | |u|]; simpl.
  - rewrite DT. simpl. unfold sizeOf. apply existsb_ptr_false in Fresh as Fr. rewrite Fr. simpl.
    eexists. split; [reflexivity|]. split; [|simpl; intros; apply Tin; auto].
    constructor; simpl; auto.
    + intros p Hp. apply Tin in Hp. destruct Hp as [Hp|(k & -> & Hp)].
      * destruct (Hown _ Hp) as (k & -> & L). eauto.
      * destruct (Hto _ Hp) as (_ & L & _). eauto.
    + eauto.
    + intros k H. own_case. repeat split; auto.
    + intros k H. destruct (Hvo _ H) as (A & B & C). repeat split; auto.
      intros Hi. apply Tin in Hi. destruct Hi as [Hi|(k' & E & Hi)]; auto. own_case. eauto.
    + intros k H1 H2. own_case. auto.
    + intros k Hk. destruct (Nat.eq_dec k (created l)) as [->|Ne]; [auto|].
      destruct (Hall k) as [H|[H|H]]; [lia|left; apply Tin; auto|left; apply Tin; eauto|auto].
  - rewrite DT. simpl. unfold sizeOf.
    assert (Fu : existsb (ptr_eqb (User u)) dt = false).
    { apply existsb_ptr_false. intros H. apply Tin in H. destruct H as [H|(k & E & _)]; [|discriminate].
      destruct (Hown _ H) as (k & E & _). discriminate. }
    rewrite Fu. simpl.
    eexists. split; [reflexivity|]. split; [|simpl; intros; apply Tin; auto].
    constructor; simpl; auto; try discriminate.
    + intros p Hp. apply Tin in Hp. destruct Hp as [Hp|(k & -> & Hp)]; auto.
      destruct (Hto _ Hp) as (_ & L & _). eauto.
    + intros k H. destruct (Hvo _ H) as (A & B & C). repeat split; auto.
      intros Hi. apply Tin in Hi. destruct Hi as [Hi|(k' & E & Hi)]; auto. own_case. eauto.
    + intros k Hk. destruct (Hall k Hk) as [H|[H|H]]; [left; apply Tin; auto|left; apply Tin; eauto|auto].
  - rewrite DT. simpl.
    eexists. split; [reflexivity|]. split; [|simpl; intros; apply Tin; auto].
    constructor; simpl; auto; try discriminate.
    + intros p Hp. apply Tin in Hp. destruct Hp as [Hp|(k & -> & Hp)]; auto.
      destruct (Hto _ Hp) as (_ & L & _). eauto.
    + intros k H. destruct (Hvo _ H) as (A & B & C). repeat split; auto.
      intros Hi. apply Tin in Hi. destruct Hi as [Hi|(k' & E & Hi)]; auto. own_case. eauto.
    + intros k Hk. destruct (Hall k Hk) as [H|[H|H]]; [left; apply Tin; auto|left; apply Tin; eauto|auto].
  - rewrite DV. simpl.
    eexists. split; [reflexivity|]. split; [|simpl; intros; apply Vin; auto].
    constructor; simpl; auto.
    + intros p Hp. apply Vin in Hp. destruct Hp as [Hp|(k & -> & Hp)].
      * destruct (Hown _ Hp) as (k & -> & L). eauto.
      * destruct (Hvo _ Hp) as (_ & L & _). eauto.
    + eauto.
    + intros k H. destruct (Hto _ H) as (A & B & C). repeat split; auto.
      intros Hi. apply Vin in Hi. destruct Hi as [Hi|(k' & E & Hi)]; auto. own_case. eauto.
    + intros k H. own_case. repeat split; auto. intros Hi. apply Vin in Hi.
      destruct Hi as [Hi|(k' & E & Hi)].
      * destruct (Hown _ Hi) as (k' & E & L). own_case. lia.
      * own_case. auto.
    + intros k H1 H2. own_case. auto.
    + intros k Hk. destruct (Nat.eq_dec k (created l)) as [->|Ne]; [auto|].
      destruct (Hall k) as [H|[H|H]]; [lia|left; apply Vin; auto|auto|left; apply Vin; eauto].
  - rewrite DV. simpl.
    eexists. split; [reflexivity|]. split; [|simpl; intros; apply Vin; auto].
    constructor; simpl; auto; try discriminate.
    + intros p Hp. apply Vin in Hp. destruct Hp as [Hp|(k & -> & Hp)]; auto.
      destruct (Hvo _ Hp) as (_ & L & _). eauto.
    + intros k H. destruct (Hto _ H) as (A & B & C). repeat split; auto.
      intros Hi. apply Vin in Hi. destruct Hi as [Hi|(k' & E & Hi)]; auto. own_case. eauto.
    + intros k Hk. destruct (Hall k Hk) as [H|[H|H]]; [left; apply Vin; auto|auto|left; apply Vin; eauto].
  - rewrite DV. simpl.
    eexists. split; [reflexivity|]. split; [|simpl; intros; apply Vin; auto].
    constructor; simpl; auto; try discriminate.
    + intros p Hp. apply Vin in Hp. destruct Hp as [Hp|(k & -> & Hp)]; auto.
      destruct (Hvo _ Hp) as (_ & L & _). eauto.
    + intros k H. destruct (Hto _ H) as (A & B & C). repeat split; auto.
      intros Hi. apply Vin in Hi. destruct Hi as [Hi|(k' & E & Hi)]; auto. own_case. eauto.
    + intros k Hk. destruct (Hall k Hk) as [H|[H|H]]; [left; apply Vin; auto|auto|left; apply Vin; eauto].
Qed.

Lemma lrun_app size ops1 : forall ops2 l,
  lrun size (ops1 ++ ops2) l = (l' <- lrun size ops1 l ;; lrun size ops2 l').
Proof.
  unfold lrun. induction ops1 as [|o ops1 IH]; intros ops2 l; simpl; auto.
  destruct (lstep size l o); simpl; auto.
Qed.

Lemma lrun_Inv size ops : forall l, Inv l -> exists l', lrun size ops l = Ok l' /\ Inv l'.
Proof.
  induction ops as [|o ops IH]; intros l I; unfold lrun; simpl; eauto.
  destruct (lstep_Inv size l o I) as (l1 & E & I1 & _). rewrite E. simpl. apply IH; auto.
Qed.

Lemma created_mono size o l l' : lstep size l o = Ok l' -> created l <= created l'.
Proof.
  destruct o; simpl; intros H; apply bind_Ok in H; destruct H as (d & _ & H);
  repeat (apply bind_Ok in H; destruct H as (? & _ & H)); inversion H; simpl; lia.
Qed.

Lemma ownership size ops :
  exists l log, lrun size ops newLearner = Ok l /\ destroy l = Ok log /\
    NoDup log /\ forall p, In p log <-> exists k, p = Own k /\ k < created l.
Proof.
  destruct (lrun_Inv size ops newLearner newLearner_Inv) as (l & E & I).
  destruct I as [Hnd Hown Htr Hva Hto Hvo Hdf Hall].
  set (dt := match trainSet l with Some (Own k) => Own k :: deleted l | _ => deleted l end).
  assert (DT := deleteIf_held (deleteTrainSet l) (trainSet l) (created l) (deleted l) Htr Hto).
  assert (DV : deleteIf (deleteValidSet l) (validSet l) (created l) dt =
    Ok (match validSet l with Some (Own k) => Own k :: dt | _ => dt end)).
  { apply deleteIf_held; auto. intros k H. destruct (Hvo k H) as (A & B & C).
    repeat split; auto. unfold dt. destruct (trainSet l) as [[u|k']|] eqn:Et; auto.
    intros [Hi|Hi]; auto. inversion Hi; subst. eauto. }
  exists l. eexists. split; [exact E|]. split.
  { unfold destroy. rewrite DT. simpl. fold dt. exact DV. }
  assert (Tin : forall p, In p dt <-> In p (deleted l) \/ exists k, p = Own k /\ trainSet l = Some (Own k)).
  { intros p. unfold dt. destruct (trainSet l) as [[u|k]|] eqn:Et; simpl; split; intros H;
      try (destruct H as [H|(k' & -> & H)]; [now auto|inversion H; now auto]); auto.
    destruct H as [<-|H]; eauto. }
  assert (Tnd : NoDup dt).
  { unfold dt. destruct (trainSet l) as [[u|k]|] eqn:Et; auto. constructor; auto. now apply Hto. }
  clearbody dt. split.
  - destruct (validSet l) as [[u|k]|] eqn:Ev; auto. constructor; auto.
    intros Hi. apply Tin in Hi. destruct Hi as [Hi|(k' & E' & Hi)].
    + now apply (Hvo k).
    + inversion E'; subst. eauto.
  - intros p. split.
    + intros Hp.
      assert (In p dt \/ exists k, p = Own k /\ validSet l = Some (Own k)) as [Hp'|(k & -> & Hp')].
      { destruct (validSet l) as [[u|k]|]; auto. destruct Hp as [<-|Hp]; eauto. }
      * apply Tin in Hp'. destruct Hp' as [Hp'|(k & -> & Hp')]; auto.
        destruct (Hto _ Hp') as (_ & L & _). eauto.
      * destruct (Hvo _ Hp') as (_ & L & _). eauto.
    + intros (k & -> & L). assert (H : In (Own k) dt \/ validSet l = Some (Own k)).
      { destruct (Hall k L) as [H|[H|H]]; [left; apply Tin; auto|left; apply Tin; eauto|auto]. }
      destruct H as [H|H].
      * destruct (validSet l) as [[u|k']|]; simpl; auto.
      * rewrite H. now left.
Qed.

Lemma current_not_deleted size ops l :
  lrun size ops newLearner = Ok l ->
  forall p, trainSet l = Some p \/ validSet l = Some p -> ~ In p (deleted l).
Proof.
  intros E p Hp Hd. destruct (lrun_Inv size ops newLearner newLearner_Inv) as (l' & E' & I).
  rewrite E in E'. inversion E'; subst l'. destruct I as [Hnd Hown Htr Hva Hto Hvo Hdf Hall].
  destruct (Hown _ Hd) as (k & -> & _).
  destruct Hp as [Hp|Hp]; [now apply (Hto k)|now apply (Hvo k)].
Qed.

Lemma lstep_keeps_training size l o l' : sets_training o = false -> lstep size l o = Ok l' ->
  trainSet l' = trainSet l /\ cachedN l' = cachedN l.
Proof.
  intros Hs H. destruct o; try discriminate; simpl in H;
    apply bind_Ok in H; destruct H as (d & _ & H); inversion H; auto.
Qed.

Lemma lrun_keeps_training size ops : forall l l',
  forallb (fun o => negb (sets_training o)) ops = true -> lrun size ops l = Ok l' ->
  trainSet l' = trainSet l /\ cachedN l' = cachedN l.
Proof.
  unfold lrun. induction ops as [|o ops IH]; intros l l' Hs H; simpl in *.
  - inversion H; auto.
  - apply andb_prop in Hs. destruct Hs as [H1 H2]. apply bind_Ok in H. destruct H as (l1 & E1 & E2).
    destruct (lstep_keeps_training size l o l1) as [A1 A2]; auto.
    { destruct (sets_training o); auto; discriminate. }
    destruct (IH l1 l' H2 E2). split; congruence.
Qed.

Lemma last_training_set size ops1 u ops2 l :
  forallb (fun o => negb (sets_training o)) ops2 = true ->
  lrun size (ops1 ++ TrainingSet u :: ops2) newLearner = Ok l ->
  trainSet l = Some (User u) /\ cachedN l = size (User u).
Proof.
  intros Hs E. rewrite lrun_app in E. apply bind_Ok in E. destruct E as (l1 & _ & E).
  unfold lrun in E. simpl in E. apply bind_Ok in E. destruct E as (l2 & E2 & E).
  destruct (lrun_keeps_training size ops2 l2 l Hs E) as [A B].
  apply bind_Ok in E2. destruct E2 as (d & _ & E2). apply bind_Ok in E2. destruct E2 as (n & En & E2).
  inversion E2; subst. simpl in *. unfold sizeOf in En. destruct (existsb _ _); inversion En. split; congruence.
Qed.
