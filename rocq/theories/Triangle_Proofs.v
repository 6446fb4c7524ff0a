(** Layers with TriangleConstraints are layers with the stateless constraints that look the
    number up in the final partition. *)
From Verif Require Import Base BaseFacts Matrix RSum MatOps Vec Activation_Model Layer_Model SigmaPi_Model SigmaPi_Spec
  SigmaPi_Proofs Triangle_Model Triangle_Spec.
Local Open Scope R_scope.

(** * The map *)
Lemma key_eqb_spec a b : key_eqb a b = true <-> a = b.
Proof.
  destruct a as [[a1 a2] a3], b as [[b1 b2] b3]. cbn. rewrite !andb_true_iff, !Z.eqb_eq. intuition congruence.
Qed.
Lemma key_eqb_refl a : key_eqb a a = true. Proof. now apply key_eqb_spec. Qed.
Lemma mfind_minsert p k v k' : mfind (minsert p k v) k' = if key_eqb k' k then Some v else mfind p k'.
Proof.
  induction p as [|[a b] p IH]; cbn [minsert mfind]; [reflexivity|].
  destruct (key_eqb k a) eqn:E.
  - apply key_eqb_spec in E. subst a. cbn [mfind]. destruct (key_eqb k' k); auto.
  - cbn [mfind]. rewrite IH. destruct (key_eqb k' a) eqn:E1; auto.
    destruct (key_eqb k' k) eqn:E2; auto. apply key_eqb_spec in E1, E2. subst. rewrite key_eqb_refl in E. discriminate.
Qed.

Definition rot (k : key) : key := let '(a, b, c) := k in (b, c, a).
Definition closed (p : partition) : Prop := forall k, mfind p (rot k) = mfind p k.
Definition pextends (p p' : partition) : Prop := forall k v, mfind p k = Some v -> mfind p' k = Some v.

Lemma same_rot a b : sameAngles a b <-> b = a \/ b = rot a \/ b = rot (rot a).
Proof. destruct a as [[x y] z]. reflexivity. Qed.
Lemma closed_same p a b : closed p -> sameAngles a b -> mfind p b = mfind p a.
Proof. intros H S. apply same_rot in S. destruct S as [->|[->| ->]]; now rewrite ?H. Qed.

Lemma classify_ok p t v p' : closed p -> classify p t = (v, p') -> closed p' /\ pextends p p' /\ mfind p' t = Some v.
Proof.
  intros H E. destruct t as [[a b] c]. unfold classify in E. destruct (mfind p (a, b, c)) as [w|] eqn:F.
  - injection E as <- <-. split; auto. split; [intros k v E; auto|auto].
  - injection E as <- <-. set (nr := (length p / 3)%nat).
    assert (F2 : mfind p (b, c, a) = None) by (rewrite <- F; apply (H (a, b, c))).
    assert (F3 : mfind p (c, a, b) = None) by (rewrite <- F2; apply (H (b, c, a))).
    assert (G : forall k, mfind (minsert (minsert (minsert p (a, b, c) nr) (b, c, a) nr) (c, a, b) nr) k =
      if (key_eqb k (c, a, b) || key_eqb k (b, c, a) || key_eqb k (a, b, c))%bool then Some nr else mfind p k).
    { intros k. rewrite !mfind_minsert. destruct (key_eqb k (c, a, b)), (key_eqb k (b, c, a)), (key_eqb k (a, b, c)); auto. }
    split; [|split].
    + intros k. rewrite !G, H. destruct k as [[x y] z]. unfold rot.
      replace (key_eqb (y, z, x) (c, a, b)) with (key_eqb (x, y, z) (b, c, a)).
      2:{ cbn. destruct (Z.eqb x b), (Z.eqb y c), (Z.eqb z a); auto. }
      replace (key_eqb (y, z, x) (b, c, a)) with (key_eqb (x, y, z) (a, b, c)).
      2:{ cbn. destruct (Z.eqb x a), (Z.eqb y b), (Z.eqb z c); auto. }
      replace (key_eqb (y, z, x) (a, b, c)) with (key_eqb (x, y, z) (c, a, b)).
      2:{ cbn. destruct (Z.eqb x c), (Z.eqb y a), (Z.eqb z b); auto. }
      destruct (key_eqb (x, y, z) (c, a, b)), (key_eqb (x, y, z) (b, c, a)), (key_eqb (x, y, z) (a, b, c)); auto.
    + intros k v E. rewrite G. destruct (key_eqb k (c, a, b)) eqn:K1; [apply key_eqb_spec in K1; subst; congruence|].
      destruct (key_eqb k (b, c, a)) eqn:K2; [apply key_eqb_spec in K2; subst; congruence|].
      destruct (key_eqb k (a, b, c)) eqn:K3; [apply key_eqb_spec in K3; subst; congruence|]. auto.
    + rewrite G, key_eqb_refl, !orb_true_r. auto.
Qed.

(** * Objects *)
Definition oextends (o o' : triangle) : Prop :=
  twidth o' = twidth o /\ tresolution o' = tresolution o /\ pextends (tpartition o) (tpartition o').
Definition extends (l l' : list triangle) : Prop := Forall2 oextends l l'.
Definition oinv (l : list triangle) : Prop := Forall (fun o => closed (tpartition o)) l.

Lemma oextends_refl o : oextends o o. Proof. repeat split; auto. intros k v; auto. Qed.
Lemma oextends_trans a b c : oextends a b -> oextends b c -> oextends a c.
Proof. intros (A1 & A2 & A3) (B1 & B2 & B3). repeat split; try congruence. intros k v E. auto. Qed.
Lemma extends_refl l : extends l l.
Proof. induction l; constructor; auto using oextends_refl. Qed.
Lemma extends_trans a b c : extends a b -> extends b c -> extends a c.
Proof.
  intros H. revert c. induction H; intros c Hc; inversion Hc; subst; constructor; eauto using oextends_trans.
  now apply IHForall2.
Qed.
Lemma extends_upd l m o o' : nth_error l m = Some o -> oextends o o' -> extends l (upd l m o').
Proof.
  revert m. induction l as [|a l IH]; intros [|m] E H; try discriminate; cbn in *.
  - injection E as ->. constructor; auto. apply extends_refl.
  - constructor; [apply oextends_refl|]. eapply IH; eauto.
Qed.
Lemma extends_nth l l' m o : extends l l' -> nth_error l m = Some o -> exists o', nth_error l' m = Some o' /\ oextends o o'.
Proof.
  intros H. revert m. induction H as [|a b l l' Hab Hl IH]; intros [|m] E; try discriminate; cbn in *.
  - injection E as ->. eauto.
  - auto.
Qed.

Definition lookup (o : triangle) (pos : list nat) : res R :=
  match pos with
  | [p1; p2; p3] => match mfind (tpartition o) (triangleKey (twidth o) (tresolution o) p1 p2 p3) with
                    | Some v => Ok (INR v) | None => UB end
  | _ => UB
  end.
Definition resolve (objs : list triangle) (k : kind) : constraint :=
  match k with
  | Pure c => c
  | Tri m => Some (fun pos => o <- vget objs m ;; lookup o pos)
  end.

Lemma tri_call_ok o pos r o' : closed (tpartition o) -> tri_call o pos = Ok (r, o') ->
  closed (tpartition o') /\ oextends o o' /\ lookup o' pos = Ok r.
Proof.
  intros H E. destruct pos as [|p1 [|p2 [|p3 [|? ?]]]]; try discriminate. cbn [tri_call] in E.
  destruct (_ || _)%bool in E; [discriminate|]. destruct (classify _ _) as [v p] eqn:F. injection E as <- <-.
  destruct (classify_ok _ _ _ _ H F) as (A & B & C). split; auto. split; [repeat split; auto|].
  cbn [lookup tpartition twidth tresolution]. now rewrite C.
Qed.
Lemma lookup_extends o o' pos r : oextends o o' -> lookup o pos = Ok r -> lookup o' pos = Ok r.
Proof.
  intros (A & B & C) E. destruct pos as [|p1 [|p2 [|p3 [|? ?]]]]; try discriminate. cbn [lookup] in *. rewrite A, B.
  destruct (mfind (tpartition o) _) as [v|] eqn:F; [|discriminate]. now rewrite (C _ _ F).
Qed.

(** * Refinement *)
Definition refines {S} (F : S * list triangle -> res (S * list triangle)) (G : list triangle -> S -> res S) : Prop :=
  forall s o s' o1, F (s, o) = Ok (s', o1) -> oinv o ->
    oinv o1 /\ extends o o1 /\ forall o', extends o1 o' -> G o' s = Ok s'.

Lemma refines_for_each {A S} (l : list A) F (G : list triangle -> A -> S -> res S) :
  (forall x, refines (F x) (fun o => G o x)) -> refines (for_each l F) (fun o => for_each l (G o)).
Proof.
  intros H. induction l as [|x l IH]; intros s o s' o1 E Ho; cbn [for_each] in *.
  - injection E as <- <-. split; auto. split; auto using extends_refl.
  - apply bind_Ok in E. destruct E as ([s2 o2] & E1 & E2). destruct (H x s o s2 o2 E1 Ho) as (A1 & A2 & A3).
    destruct (IH s2 o2 s' o1 E2 A1) as (B1 & B2 & B3). split; auto. split; [eapply extends_trans; eauto|].
    intros o' Ho'. rewrite A3 by (eapply extends_trans; eauto). cbn. auto.
Qed.
Lemma refines_for {T} n F (G : list triangle -> nat -> T -> res T) :
  (forall x, refines (F x) (fun o => G o x)) -> refines (for_ n F) (fun o => for_ n (G o)).
Proof.
  intros H. unfold for_. generalize 0%nat. induction n as [|n IH]; intros i s o s' o1 E Ho; cbn [for_from] in *.
  - injection E as <- <-. split; auto. split; auto using extends_refl.
  - apply bind_Ok in E. destruct E as ([s2 o2] & E1 & E2). destruct (H i s o s2 o2 E1 Ho) as (A1 & A2 & A3).
    destruct (IH (S i) s2 o2 s' o1 E2 A1) as (B1 & B2 & B3). split; auto. split; [eapply extends_trans; eauto|].
    intros o' Ho'. rewrite A3 by (eapply extends_trans; eauto). cbn. auto.
Qed.

Lemma addUnitT_refines k pos : refines (addUnitT k pos) (fun o => addUnit (resolve o k) pos).
Proof.
  intros st o st' o1 E Ho. destruct k as [c|m]; cbn [addUnitT resolve] in *.
  - apply bind_Ok in E. destruct E as (st1 & E1 & E2). injection E2 as <- <-. split; auto. split; auto using extends_refl.
  - apply bind_Ok in E. destruct E as (ob & E1 & E). apply bind_Ok in E. destruct E as ([ref ob'] & E2 & E).
    apply bind_Ok in E. destruct E as (objs' & E3 & E).
    assert (Hm : nth_error o m = Some ob). { unfold vget in E1. destruct (nth_error o m); congruence. }
    assert (Lm : (m < length o)%nat) by (apply nth_error_Some; congruence).
    rewrite vset_Ok in E3 by auto. injection E3 as <-.
    assert (Cob : closed (tpartition ob)). { apply (proj1 (Forall_forall _ _) Ho). eapply nth_error_In; eauto. }
    destruct (tri_call_ok ob pos ref ob' Cob E2) as (C1 & C2 & C3).
    destruct st as [[w wd] n]. apply bind_Ok in E. destruct E as (found & E4 & E5).
    assert (O : o1 = upd o m ob') by (destruct found; congruence). subst o1.
    split.
    { apply Forall_forall. intros x Hx. destruct (In_nth_error _ _ Hx) as (i & Hi).
      destruct (Nat.eq_dec m i) as [->|Hn].
      - rewrite nth_error_upd, Nat.eqb_refl, (proj2 (Nat.ltb_lt _ _) Lm) in Hi. assert (x = ob') by congruence. now subst.
      - rewrite nth_error_upd, (proj2 (Nat.eqb_neq m i) Hn) in Hi.
        apply (proj1 (Forall_forall _ _) Ho). eapply nth_error_In; eauto. }
    split; [eapply extends_upd; eauto|].
    intros o' Ho'. destruct (extends_nth _ _ m ob' Ho') as (o2 & H1 & H2).
    { now rewrite nth_error_upd, Nat.eqb_refl, (proj2 (Nat.ltb_lt _ _) Lm). }
    cbn [addUnit]. unfold vget. rewrite H1. cbn [bind]. rewrite (lookup_extends _ _ _ _ H2 C3). cbn [bind]. rewrite E4. cbn [bind].
    destruct found; congruence.
Qed.

Lemma addNeuronT_refines ps k : refines (addNeuronT ps k) (fun o => addNeuron ps (resolve o k)).
Proof.
  intros s o s' o1 E Ho. cbn [addNeuronT] in E. apply bind_Ok in E. destruct E as ([[[w wd] n] o2] & E1 & E2).
  destruct (refines_for_each ps (addUnitT k) (fun o => addUnit (resolve o k)) (fun x => addUnitT_refines k x) _ _ _ _ E1 Ho) as (A & B & C).
  injection E2 as <- <-. split; auto. split; auto. intros o' Ho'. unfold addNeuron. rewrite (C o' Ho'). reflexivity.
Qed.

Definition toCall (objs : list triangle) (k : triCall) : nodeCall := mkCall (torder k) (tnumbers k) (resolve objs (tkind k)).

Lemma nodesT_refines positions n k : refines (nodesT positions n k)
  (fun o s => for_ n (fun _ => addNeuron (positions (spI s + nbit (spbias s))%nat) (resolve o k)) s).
Proof.
  intros s o s' o1 E Ho. unfold nodesT in E. cbn [fst] in E.
  apply (refines_for n (fun _ => addNeuronT (positions (spI s + nbit (spbias s))%nat) k)
    (fun o _ => addNeuron (positions (spI s + nbit (spbias s))%nat) (resolve o k)) (fun _ => addNeuronT_refines _ k) _ _ _ _ E Ho).
Qed.

Lemma addNodesT_refines k : refines (addNodesT k) (fun o => addNodes (toCall o k)).
Proof.
  unfold addNodesT, addNodes, toCall. cbn [corder cnumbers cconstraint]. destruct (torder k); apply nodesT_refines.
Qed.

Lemma buildT_refines junk I bias act calls objs s objs' : oinv objs ->
  sp_buildT junk I bias act calls objs = Ok (s, objs') ->
  oinv objs' /\ extends objs objs' /\ sp_build junk I bias act (map (toCall objs') calls) = Ok s.
Proof.
  intros Ho E. unfold sp_buildT in E. apply bind_Ok in E. destruct E as ([s1 o1] & E1 & E). apply bind_Ok in E.
  destruct E as (s2 & E2 & E3). injection E3 as <- <-.
  destruct (refines_for_each calls addNodesT (fun o k => addNodes (toCall o k)) addNodesT_refines _ _ _ _ E1 Ho) as (A & B & C).
  split; auto. split; auto. unfold sp_build.
  assert (M : forall l s, for_each (map (toCall o1) l) addNodes s = for_each l (fun k => addNodes (toCall o1 k)) s).
  { induction l as [|x l IH]; intros s; cbn [map for_each]; auto. destruct (addNodes (toCall o1 x) s); cbn; auto. }
  rewrite M, (C o1 (extends_refl o1)). exact E2.
Qed.

Lemma requested_toCall objs calls : requested (map (toCall objs) calls) =
  map (fun dk => (fst dk, resolve objs (snd dk))) (requestedT calls).
Proof.
  unfold requested, requestedT. induction calls as [|k calls IH]; cbn [map flat_map]; auto. rewrite IH, map_app. f_equal.
  unfold toCall. cbn. generalize (tnumbers k). induction n; cbn; congruence.
Qed.

(** * Building succeeds *)
Definition ready_kind (I d : nat) (objs : list triangle) (k : kind) : Prop :=
  match k with
  | Pure c => defined_on c (tuples d 0 I)
  | Tri m => d = 3%nat /\ exists o, nth_error objs m = Some o /\ twidth o <> 0%nat
  end.
Lemma ready_extends I d o o' k : extends o o' -> ready_kind I d o k -> ready_kind I d o' k.
Proof.
  intros H. destruct k as [c|m]; cbn; auto. intros (Hd & ob & E & Hw). split; auto.
  destruct (extends_nth _ _ _ _ H E) as (o2 & E2 & (W & _)). exists o2. split; auto. congruence.
Qed.

Lemma tri_call_succeeds o pos I : twidth o <> 0%nat -> In pos (tuples 3 0 I) -> exists r o', tri_call o pos = Ok (r, o').
Proof.
  intros W H. apply tuples_In in H. destruct H as (L & Hi). destruct pos as [|p1 [|p2 [|p3 [|? ?]]]]; try discriminate.
  cbn in Hi. cbn [tri_call]. rewrite (proj2 (Nat.eqb_neq _ _) W), !(proj2 (Nat.eqb_neq _ _)) by lia. cbn [orb].
  destruct (classify _ _) as [v p]. eauto.
Qed.

Lemma addUnitT_succeeds I d k w0 done pos st o : In pos (tuples d 0 I) -> ready_kind I d o k -> oinv o ->
  unit_inv w0 None done st \/ True -> (forall u, In u (snd st) -> (uweight u < length (fst (fst st)))%nat) ->
  exists st' o', addUnitT k pos (st, o) = Ok (st', o') /\ (forall u, In u (snd st') -> (uweight u < length (fst (fst st')))%nat).
Proof.
  intros Hp Hk Ho _ Hu. destruct st as [[w wd] n]. cbn [fst snd] in *. destruct k as [c|m]; cbn [addUnitT].
  - assert (G : exists st', addUnit c pos (w, wd, n) = Ok st' /\ (forall u, In u (snd st') -> (uweight u < length (fst (fst st')))%nat)).
    { cbn in Hk. unfold addUnit. destruct c as [f|].
      - destruct (Hk f pos eq_refl Hp) as (r & Er). rewrite Er. cbn [bind]. destruct (findUnit_ok w n r Hu) as ([u|] & Eo & Hf); rewrite Eo; cbn [bind].
        + eexists. split; [reflexivity|]. cbn. intros v Hv. apply in_app_or in Hv. destruct Hv as [Hv|[<-|[]]]; auto. cbn. apply Hu, Hf.
        + eexists. split; [reflexivity|]. cbn. intros v Hv. rewrite app_length. cbn. apply in_app_or in Hv. destruct Hv as [Hv|[<-|[]]]; [specialize (Hu v Hv); lia|cbn; lia].
      - eexists. split; [reflexivity|]. cbn. intros v Hv. rewrite app_length. cbn. apply in_app_or in Hv. destruct Hv as [Hv|[<-|[]]]; [specialize (Hu v Hv); lia|cbn; lia]. }
    destruct G as (st' & E & H). rewrite E. cbn [bind]. eauto.
  - destruct Hk as (-> & ob & Em & W). unfold vget. rewrite Em. cbn [bind].
    destruct (tri_call_succeeds ob pos I W Hp) as (r & o' & Er). rewrite Er. cbn [bind].
    rewrite vset_Ok by (apply nth_error_Some; congruence). cbn [bind].
    destruct (findUnit_ok w n r Hu) as ([u|] & Eo & Hf); rewrite Eo; cbn [bind].
    + eexists. eexists. split; [reflexivity|]. cbn. intros v Hv. apply in_app_or in Hv. destruct Hv as [Hv|[<-|[]]]; auto. cbn. apply Hu, Hf.
    + eexists. eexists. split; [reflexivity|]. cbn. intros v Hv. rewrite app_length. cbn. apply in_app_or in Hv. destruct Hv as [Hv|[<-|[]]]; [specialize (Hu v Hv); lia|cbn; lia].
Qed.

Lemma addNeuronT_succeeds I d k s o : ready_kind I d o k -> oinv o ->
  exists s' o', addNeuronT (tuples d 0 I) k (s, o) = Ok (s', o') /\ spI s' = spI s /\ spbias s' = spbias s.
Proof.
  intros Hk Ho. cbn [addNeuronT].
  destruct (for_each_inv (fun done (st : (list R * list R * neuron) * list triangle) =>
    oinv (snd st) /\ extends o (snd st) /\ forall u, In u (snd (fst st)) -> (uweight u < length (fst (fst (fst st))))%nat)
    (addUnitT k) (tuples d 0 I) ((spw s, spwd s, []), o)) as ([[[w wd] n] o'] & E & _).
  - cbn. split; auto. split; auto using extends_refl. intros u [].
  - intros done pos rest [st o1] Hl (H1 & H2 & H3). cbn [fst snd] in *.
    destruct (addUnitT_succeeds I d k [] done pos st o1) as (st' & o' & E & Hu); auto.
    + rewrite Hl. apply in_or_app. right. now left.
    + eapply ready_extends; eauto.
    + exists (st', o'). split; auto. cbn [fst snd].
      destruct (addUnitT_refines k pos _ _ _ _ E H1) as (B1 & B2 & _). split; auto. split; auto. eapply extends_trans; eauto.
  - rewrite E. cbn [bind]. eexists. eexists. split; [reflexivity|]. auto.
Qed.

Lemma addNodesT_succeeds I k s o : I = (spI s + nbit (spbias s))%nat -> oinv o ->
  ((0 < tnumbers k)%nat -> ready_kind I (degree (torder k)) o (tkind k)) ->
  exists s' o', addNodesT k (s, o) = Ok (s', o') /\ spI s' = spI s /\ spbias s' = spbias s.
Proof.
  intros HI Ho Hk.
  assert (G : exists so', for_ (tnumbers k) (fun _ => addNeuronT (tuples (degree (torder k)) 0 I) (tkind k)) (s, o) = Ok so' /\
     (spI (fst so') = spI s /\ spbias (fst so') = spbias s /\ oinv (snd so') /\ extends o (snd so'))).
  { apply (for_inv (fun _ (so' : sp * list triangle) => spI (fst so') = spI s /\ spbias (fst so') = spbias s /\ oinv (snd so') /\ extends o (snd so'))).
    - cbn. auto using extends_refl.
    - intros i [s1 o1] Hi (A1 & A2 & A3 & A4). cbn [fst snd] in *.
      destruct (addNeuronT_succeeds I (degree (torder k)) (tkind k) s1 o1) as (s' & o' & E & B1 & B2); auto.
      + eapply ready_extends; eauto. apply Hk. lia.
      + exists (s', o'). split; auto. cbn [fst snd]. destruct (addNeuronT_refines _ _ _ _ _ _ E A3) as (C1 & C2 & _).
        repeat split; auto; try congruence. eapply extends_trans; eauto. }
  destruct G as ([s' o'] & E & A1 & A2 & _). exists s', o'. cbn [fst] in *. split; auto.
  unfold addNodesT. rewrite <- E. unfold secondOrderNodesT, thirdOrderNodesT, fourthOrderNodesT, nodesT.
  destruct (torder k); cbn [fst degree]; rewrite <- HI; rewrite ?positions2_ok, ?positions3_ok, ?positions4_ok; reflexivity.
Qed.

Lemma buildT_succeeds junk I bias act calls objs : oinv objs ->
  (forall k, In k calls -> (0 < tnumbers k)%nat -> ready_kind (I + nbit bias) (degree (torder k)) objs (tkind k)) ->
  exists s objs', sp_buildT junk I bias act calls objs = Ok (s, objs').
Proof.
  intros Ho Hk. unfold sp_buildT.
  destruct (for_each_inv (fun done (so : sp * list triangle) => spI (fst so) = I /\ spbias (fst so) = bias /\ oinv (snd so) /\ extends objs (snd so))
    addNodesT calls (sp_new junk I bias act, objs)) as ([s1 o1] & E & A1 & A2 & A3 & A4).
  - cbn. auto using extends_refl.
  - intros done k rest [s o] Hl (A1 & A2 & A3 & A4). cbn [fst snd] in *.
    destruct (addNodesT_succeeds (I + nbit bias) k s o) as (s' & o' & E & B1 & B2); auto.
    + congruence.
    + intros Hn. eapply ready_extends; eauto. apply Hk; auto. rewrite Hl. apply in_or_app. right. now left.
    + exists (s', o'). split; auto. cbn [fst snd]. destruct (addNodesT_refines _ _ _ _ _ E A3) as (C1 & C2 & _).
      repeat split; try congruence; auto. eapply extends_trans; eauto.
  - rewrite E. cbn [bind]. destruct (refines_for_each calls addNodesT (fun o k => addNodes (toCall o k)) addNodesT_refines _ _ _ _ E Ho) as (_ & _ & C).
    assert (M : forall l s, for_each (map (toCall o1) l) addNodes s = for_each l (fun k => addNodes (toCall o1 k)) s).
    { induction l as [|x l IH]; intros s; cbn [map for_each]; auto. destruct (addNodes (toCall o1 x) s); cbn; auto. }
    specialize (C o1 (extends_refl o1)). rewrite <- M in C.
    pose proof (new_build_inv junk I bias act) as H0.
    pose proof (calls_defined (I + nbit bias) bias (sp_new junk I bias act) _ _ s1 eq_refl H0 C) as Hd.
    destruct (calls_ok (I + nbit bias) bias (sp_new junk I bias act) _ _ eq_refl H0 Hd) as (s2 & E3 & (B1 & B2 & B3 & B4 & B5 & B6 & B7)).
    assert (s2 = s1) by congruence. subst s2. destruct (setup_ok junk _ _ s1 B7) as (w & Ew & _). rewrite Ew. cbn [bind]. eauto.
Qed.
