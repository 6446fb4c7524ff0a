(** Proofs about sigma-pi layers: the structure that the building functions create. *)
From Verif Require Import Base BaseFacts Matrix RSum MatOps Vec Activation_Model
  Layer_Model Layer_Spec SigmaPi_Model SigmaPi_Spec.
Local Open Scope R_scope.

(** * Positions *)
Lemma flat_map_nil_in {A B} (f : A -> list B) l : (forall x, In x l -> f x = []) -> flat_map f l = [].
Proof. induction l as [|x l IH]; intros H; cbn; auto. rewrite H, IH; auto using in_cons, in_eq. Qed.
Lemma flat_map_ext_seq {B} (f g : nat -> list B) l : (forall x, In x l -> f x = g x) -> flat_map f l = flat_map g l.
Proof. induction l as [|x l IH]; intros H; cbn; auto. rewrite H, IH; auto using in_cons, in_eq. Qed.

Lemma tuples_empty d lo hi : (hi < lo + d)%nat -> (0 < d)%nat -> tuples d lo hi = [].
Proof.
  intros H Hd. destruct (tuples d lo hi) as [|l t] eqn:E; auto.
  assert (Hl : In l (tuples d lo hi)) by (rewrite E; now left). apply tuples_In in Hl. destruct Hl as (L & Hi).
  exfalso. clear E. revert lo l L Hi H. induction d as [|d IH]; intros lo l L Hi H; [lia|].
  destruct l as [|p l]; [discriminate|]. cbn in *. destruct d as [|d].
  - lia.
  - apply (IH ltac:(lia) (p + 1)%nat l); try lia. tauto.
Qed.

Lemma tuples_trim d lo hi : tuples (S d) lo hi =
  flat_map (fun p => map (cons p) (tuples d (p + 1) hi)) (range lo (hi - d)).
Proof.
  cbn [tuples]. unfold range. replace (hi - lo)%nat with ((hi - d - lo) + (hi - lo - (hi - d - lo)))%nat by lia.
  rewrite seq_app, flat_map_app.
  rewrite (flat_map_nil_in _ (seq (lo + _) _)); [apply app_nil_r|].
  intros p Hp. apply in_seq in Hp. destruct d; [lia|]. rewrite tuples_empty by lia. auto.
Qed.

Lemma tuples_1 lo hi : tuples 1 lo hi = map (fun p => [p]) (range lo hi).
Proof.
  rewrite tuples_trim. cbn [tuples map]. rewrite Nat.sub_0_r. induction (range lo hi); cbn; congruence.
Qed.

Lemma tuples_2 lo hi : tuples 2 lo hi = flat_map (fun p1 => map (fun p2 => [p1; p2]) (range (p1 + 1) hi)) (range lo (hi - 1)).
Proof. rewrite tuples_trim. apply flat_map_ext_seq. intros p _. rewrite tuples_1, map_map. reflexivity. Qed.

Lemma map_flat_map_cons {A B} (f : A -> B) (g : nat -> list A) l : map f (flat_map g l) = flat_map (fun x => map f (g x)) l.
Proof. induction l; cbn; auto. now rewrite map_app, IHl. Qed.

Lemma tuples_3 lo hi : tuples 3 lo hi =
  flat_map (fun p1 => flat_map (fun p2 => map (fun p3 => [p1; p2; p3]) (range (p2 + 1) hi))
    (range (p1 + 1) (hi - 1))) (range lo (hi - 2)).
Proof.
  rewrite tuples_trim. apply flat_map_ext_seq. intros p _. rewrite tuples_2, map_flat_map_cons.
  apply flat_map_ext_seq. intros p2 _. now rewrite map_map.
Qed.

Lemma positions2_ok I : positions2 I = tuples 2 0 I.
Proof. now rewrite tuples_2. Qed.
Lemma positions3_ok I : positions3 I = tuples 3 0 I.
Proof. now rewrite tuples_3. Qed.
Lemma positions4_ok I : positions4 I = tuples 4 0 I.
Proof.
  rewrite tuples_trim. apply flat_map_ext_seq. intros p _. rewrite tuples_3, map_flat_map_cons.
  apply flat_map_ext_seq. intros p2 _. rewrite map_flat_map_cons. apply flat_map_ext_seq. intros p3 _. now rewrite map_map.
Qed.

Lemma tuples_NoDup d : forall lo hi, NoDup (tuples d lo hi).
Proof.
  induction d as [|d IH]; intros lo hi; cbn [tuples].
  - constructor; auto. constructor.
  - assert (A : forall l, NoDup l -> NoDup (flat_map (fun p => map (cons p) (tuples d (p + 1) hi)) l)).
    { induction l as [|p l IHl]; intros Hl; cbn [flat_map]; [constructor|]. inversion_clear Hl as [|? ? Hn Hl'].
      assert (Hm : NoDup (map (cons p) (tuples d (p + 1) hi))).
      { apply FinFun.Injective_map_NoDup; auto. intros a b E. congruence. }
      clear - Hm IHl Hl' Hn.
      assert (Hx : forall x, In x (map (cons p) (tuples d (p + 1) hi)) ->
                 ~ In x (flat_map (fun p0 => map (cons p0) (tuples d (p0 + 1) hi)) l)).
      { intros x Hx Hy. apply in_map_iff in Hx. destruct Hx as (y & <- & _). apply in_flat_map in Hy.
        destruct Hy as (q & Hq & Hy). apply in_map_iff in Hy. destruct Hy as (z & E & _). congruence. }
      specialize (IHl Hl'). revert Hm Hx. generalize (map (cons p) (tuples d (p + 1) hi)). intros a Ha Hx.
      induction a as [|x a IHa]; auto. cbn. inversion_clear Ha. constructor.
      - rewrite in_app_iff. intros [?|Hc]; [contradiction|]. apply (Hx x); auto. now left.
      - apply IHa; auto. intros. apply Hx. now right. }
    apply A. apply seq_NoDup.
Qed.

(** * One neuron *)
Definition neuron_ok (I d : nat) (c : constraint) (n : neuron) (B E : nat) : Prop :=
  (B <= E)%nat /\ map uposition n = tuples d 0 I /\
  (forall u, In u n -> (B <= uweight u < E)%nat) /\
  (forall k, (B <= k < E)%nat -> exists u, In u n /\ uweight u = k) /\
  (c = None -> NoDup (map uweight n)) /\
  (forall f, c = Some f -> forall u u' r r', In u n -> In u' n -> f (uposition u) = Ok r -> f (uposition u') = Ok r' ->
     (r = r' -> uweight u = uweight u') /\ (uweight u = uweight u' -> Rabs (r - r') < 0.002)).

Lemma findUnit_ok w n ref : (forall u, In u n -> (uweight u < length w)%nat) ->
  exists o, findUnit w n ref = Ok o /\
    match o with
    | Some u => In u n /\ Rabs (w.[uweight u] - ref) < 0.001
    | None => forall u, In u n -> 0.001 <= Rabs (w.[uweight u] - ref)
    end.
Proof.
  induction n as [|u n IH]; intros H.
  - exists None. split; auto. intros u [].
  - cbn [findUnit]. rewrite (vget_nth w (uweight u) 0) by (apply H; now left). cbn [bind].
    destruct (Rltb (Rabs (w.[uweight u] - ref)) 0.001) eqn:E.
    + apply Rltb_true in E. exists (Some u). split; auto. split; auto. now left.
    + apply Rltb_false in E. destruct IH as (o & Eo & Ho); [intros; apply H; now right|]. exists o. split; auto.
      destruct o as [v|].
      * split; [right|]; tauto.
      * intros v [<-|Hv]; auto.
Qed.

Lemma findUnit_app w w' n n' ref : (forall u, In u n -> (uweight u < length w)%nat) ->
  findUnit (w ++ w') (n ++ n') ref =
  (o <- findUnit w n ref ;; match o with Some u => Ok (Some u) | None => findUnit (w ++ w') n' ref end).
Proof.
  induction n as [|u n IH]; intros H; auto.
  cbn [findUnit app]. rewrite (vget_nth w _ 0), (vget_nth (w ++ w') _ 0).
  - cbn [bind]. rewrite app_nth1 by (apply H; now left).
    destruct (Rltb _ 0.001); auto. apply IH. intros. apply H. now right.
  - rewrite app_length. specialize (H u (or_introl eq_refl)). lia.
  - apply H. now left.
Qed.

(** the state in the loop over the positions, after those in [done] *)
Definition unit_inv (w0 : list R) (c : constraint) (done : list (list nat)) (st : list R * list R * neuron) : Prop :=
  let '(w, wd, n) := st in
  length wd = length w /\ (length w0 <= length w)%nat /\ map uposition n = done /\
  (forall u, In u n -> (length w0 <= uweight u < length w)%nat) /\
  (forall k, (length w0 <= k < length w)%nat -> exists u, In u n /\ uweight u = k) /\
  (c = None -> NoDup (map uweight n)) /\
  (forall f, c = Some f -> forall u, In u n -> exists r, f (uposition u) = Ok r /\ Rabs (w.[uweight u] - r) < 0.001 /\
     exists u0, findUnit w n r = Ok (Some u0) /\ uweight u0 = uweight u).

Lemma addUnit_ok w0 c done pos st : unit_inv w0 c done st ->
  (forall f, c = Some f -> exists r, f pos = Ok r) ->
  exists st', addUnit c pos st = Ok st' /\ unit_inv w0 c (done ++ [pos]) st'.
Proof.
  destruct st as [[w wd] n]. intros (A1 & A2 & A3 & A4 & A5 & A6 & A7) Hc. unfold addUnit.
  assert (NEW : forall v, (forall u, In u (n ++ [mkUnit pos (length w)]) -> (length w0 <= uweight u < length (w ++ [v]))%nat) /\
    (forall k, (length w0 <= k < length (w ++ [v]))%nat -> exists u, In u (n ++ [mkUnit pos (length w)]) /\ uweight u = k)).
  { intros v. rewrite app_length. cbn [length]. split.
    - intros u Hu. apply in_app_iff in Hu. destruct Hu as [Hu|[<-|[]]]; [specialize (A4 u Hu); lia|cbn; lia].
    - intros k Hk. destruct (Nat.eq_dec k (length w)) as [->|].
      + exists (mkUnit pos (length w)). split; auto. apply in_app_iff. right. now left.
      + destruct (A5 k) as (u & Hu & Eu); [lia|]. exists u. split; auto. apply in_app_iff. now left. }
  destruct c as [f|].
  - destruct (Hc f eq_refl) as (ref & Er). rewrite Er. cbn [bind].
    destruct (findUnit_ok w n ref) as (o & Eo & Ho); [intros u Hu; apply A4; auto|]. rewrite Eo. cbn [bind].
    destruct o as [u0|].
    + destruct Ho as (Hu0 & Hr). eexists. split; [reflexivity|]. unfold unit_inv. split; auto. split; auto.
      split; [rewrite map_app, A3; reflexivity|]. split; [|split; [|split]].
      * intros u Hu. apply in_app_iff in Hu. destruct Hu as [Hu|[<-|[]]]; auto. cbn. auto.
      * intros k Hk. destruct (A5 k Hk) as (u & Hu & Eu). exists u. split; auto. apply in_app_iff. now left.
      * discriminate.
      * intros f' Ef u Hu. assert (f' = f) by congruence. subst f'. apply in_app_iff in Hu. destruct Hu as [Hu|[<-|[]]].
        -- destruct (A7 f eq_refl u Hu) as (r & E1 & E2 & u1 & E3 & E4). exists r. split; auto. split; auto. exists u1.
           split; auto. rewrite <- (app_nil_r w). rewrite findUnit_app by (intros; now apply A4). now rewrite E3.
        -- exists ref. cbn [uposition uweight]. split; auto. split; auto. exists u0. split; auto.
           rewrite <- (app_nil_r w). rewrite findUnit_app by (intros; now apply A4). now rewrite Eo.
    + eexists. split; [reflexivity|]. destruct (NEW ref) as (N1 & N2). unfold unit_inv.
      split; [rewrite !app_length; cbn; lia|]. split; [rewrite app_length; lia|].
      split; [rewrite map_app, A3; reflexivity|]. split; auto. split; auto. split; [discriminate|].
      intros f' Ef u Hu. assert (f' = f) by congruence. subst f'. apply in_app_iff in Hu. destruct Hu as [Hu|[<-|[]]].
      * destruct (A7 f eq_refl u Hu) as (r & E1 & E2 & u1 & E3 & E4). exists r. split; auto.
        split; [rewrite app_nth1 by (apply A4; auto); auto|]. exists u1. split; auto.
        rewrite findUnit_app by (intros; now apply A4). now rewrite E3.
      * exists ref. cbn [uposition uweight]. split; auto.
        assert (Z : (w ++ [ref]).[length w] = ref) by (rewrite app_nth2, Nat.sub_diag by lia; auto).
        rewrite Z. split; [rewrite Rminus_diag_eq, Rabs_R0 by auto; lra|].
        exists (mkUnit pos (length w)). split; auto. rewrite findUnit_app by (intros; now apply A4). rewrite Eo. cbn [bind findUnit uweight].
        rewrite (vget_nth _ _ 0) by (rewrite app_length; cbn; lia). cbn [bind]. rewrite Z.
        rewrite (proj2 (Rltb_true _ _)); auto. rewrite Rminus_diag_eq, Rabs_R0 by auto. lra.
  - eexists. split; [reflexivity|]. destruct (NEW 0) as (N1 & N2). unfold unit_inv.
    split; [rewrite !app_length; cbn; lia|]. split; [rewrite app_length; lia|].
    split; [rewrite map_app, A3; reflexivity|]. split; auto. split; auto. split; [|discriminate].
    intros _. rewrite map_app. cbn [map uweight]. specialize (A6 eq_refl).
    apply (Permutation_NoDup (Permutation_cons_append _ _)). constructor; auto.
    intros H. apply in_map_iff in H. destruct H as (u & E & Hu). specialize (A4 u Hu). lia.
Qed.

(** the constraint has a value for every unit *)
Definition defined_on (c : constraint) (ps : list (list nat)) : Prop :=
  forall f pos, c = Some f -> In pos ps -> exists r, f pos = Ok r.

Lemma units_ok w0 wd0 c ps : length wd0 = length w0 -> defined_on c ps ->
  exists st, for_each ps (addUnit c) (w0, wd0, []) = Ok st /\ unit_inv w0 c ps st.
Proof.
  intros L Hc. apply (for_each_inv (unit_inv w0 c)).
  - unfold unit_inv. split; auto. split; auto. split; auto. split; [intros u []|]. split; [intros; lia|].
    split; [constructor|intros f _ u []].
  - intros done pos rest st -> Hst. apply (addUnit_ok w0 c done pos st Hst).
    intros f Ef. apply (Hc f pos Ef). apply in_app_iff. right. now left.
Qed.

Lemma unit_inv_ok I d c w0 w wd n : unit_inv w0 c (tuples d 0 I) (w, wd, n) -> neuron_ok I d c n (length w0) (length w).
Proof.
  intros (A1 & A2 & A3 & A4 & A5 & A6 & A7). split; auto. split; auto. split; auto. split; auto. split; auto.
  intros f Ef u u' r r' Hu Hu' Er Er'.
  destruct (A7 f Ef u Hu) as (s & E1 & E2 & v & E3 & E4). destruct (A7 f Ef u' Hu') as (s' & E1' & E2' & v' & E3' & E4').
  assert (s = r) by congruence. assert (s' = r') by congruence. subst s s'. split.
  - intros <-. congruence.
  - intros Eq. rewrite Eq in E2. unfold Rabs in *. repeat destruct (Rcase_abs _); lra.
Qed.

(** * All neurons *)
Inductive nodes_ok (I : nat) : list (nat * constraint) -> list neuron -> nat -> Prop :=
| nodes_nil : nodes_ok I [] [] 0
| nodes_snoc ns nodes B d c n E : nodes_ok I ns nodes B -> neuron_ok I d c n B E ->
    nodes_ok I (ns ++ [(d, c)]) (nodes ++ [n]) E.

Definition build_inv (I : nat) (bias : bool) (s0 : sp) (ns : list (nat * constraint)) (s : sp) : Prop :=
  spI s = spI s0 /\ spbias s = spbias s0 /\ spact s = spact s0 /\ spx s = spx s0 /\ spe s = spe s0 /\
  length (spwd s) = length (spw s) /\ nodes_ok I ns (spnodes s) (length (spw s)).

Lemma addNeuron_ok I bias s0 ns s d c : build_inv I bias s0 ns s -> defined_on c (tuples d 0 I) ->
  exists s', addNeuron (tuples d 0 I) c s = Ok s' /\ build_inv I bias s0 (ns ++ [(d, c)]) s'.
Proof.
  intros (A1 & A2 & A3 & A4 & A5 & A6 & A7) Hc. unfold addNeuron.
  destruct (units_ok (spw s) (spwd s) c (tuples d 0 I) A6 Hc) as ([[w wd] n] & E & Hu). rewrite E. cbn [bind].
  eexists. split; [reflexivity|]. unfold build_inv. cbn. repeat (split; auto).
  - apply Hu.
  - apply (nodes_snoc I ns (spnodes s) (length (spw s))); auto. apply (unit_inv_ok I d c (spw s) w wd n Hu).
Qed.

Lemma addNodes_ok I bias s0 ns s k : I = (spI s0 + nbit (spbias s0))%nat -> build_inv I bias s0 ns s ->
  ((0 < cnumbers k)%nat -> defined_on (cconstraint k) (tuples (degree (corder k)) 0 I)) ->
  exists s', addNodes k s = Ok s' /\ build_inv I bias s0 (ns ++ repeat (degree (corder k), cconstraint k) (cnumbers k)) s'.
Proof.
  intros HI Hs Hc.
  assert (G : exists s', for_ (cnumbers k) (fun _ => addNeuron (tuples (degree (corder k)) 0 I) (cconstraint k)) s = Ok s' /\
              build_inv I bias s0 (ns ++ repeat (degree (corder k), cconstraint k) (cnumbers k)) s').
  { apply (for_inv (fun i s' => build_inv I bias s0 (ns ++ repeat (degree (corder k), cconstraint k) i) s')).
    - cbn [repeat]. now rewrite app_nil_r.
    - intros i s' Hi Hs'. destruct (addNeuron_ok I bias s0 _ s' _ _ Hs' (Hc ltac:(lia))) as (s'' & E & H). exists s''. split; auto.
      rewrite <- app_assoc in H. replace (S i) with (i + 1)%nat by lia. rewrite repeat_app. exact H. }
  pose proof Hs as (A1 & A2 & _). revert G. unfold addNodes.
  destruct (corder k); unfold secondOrderNodes, thirdOrderNodes, fourthOrderNodes; rewrite A1, A2, <- HI;
    rewrite ?positions2_ok, ?positions3_ok, ?positions4_ok; auto.
Qed.

Lemma calls_ok I bias s0 calls s : I = (spI s0 + nbit (spbias s0))%nat -> build_inv I bias s0 [] s ->
  (forall k, In k calls -> (0 < cnumbers k)%nat -> defined_on (cconstraint k) (tuples (degree (corder k)) 0 I)) ->
  exists s', for_each calls addNodes s = Ok s' /\ build_inv I bias s0 (requested calls) s'.
Proof.
  intros HI Hs Hc.
  apply (for_each_inv (fun done s' => build_inv I bias s0 (requested done) s')); auto.
  intros done k rest s' Ek Hs'. destruct (addNodes_ok I bias s0 _ s' k HI Hs') as (s'' & E & H).
  - apply Hc. rewrite Ek. apply in_app_iff. right. now left.
  - exists s''. split; auto. unfold requested. rewrite flat_map_app. cbn [flat_map]. now rewrite app_nil_r.
Qed.

(** if the building functions succeed, the constraints have values *)
Lemma addUnit_defined c pos st st' f : addUnit c pos st = Ok st' -> c = Some f -> exists r, f pos = Ok r.
Proof.
  destruct st as [[w wd] n]. intros E ->. cbn [addUnit] in E. apply bind_Ok in E. destruct E as (r & E & _). eauto.
Qed.
Lemma units_defined c ps st st' : for_each ps (addUnit c) st = Ok st' -> defined_on c ps.
Proof.
  revert st. induction ps as [|p ps IH]; intros st E f pos Ef Hin; [destruct Hin|].
  cbn [for_each] in E. apply bind_Ok in E. destruct E as (s1 & E1 & E2). destruct Hin as [<-|Hin].
  - eapply addUnit_defined; eauto.
  - eapply IH; eauto.
Qed.
Lemma addNeuron_defined ps c s s' : addNeuron ps c s = Ok s' -> defined_on c ps.
Proof. unfold addNeuron. intros E. apply bind_Ok in E. destruct E as (st & E & _). eapply units_defined; eauto. Qed.

Lemma calls_defined I bias s0 calls s s' : I = (spI s0 + nbit (spbias s0))%nat -> build_inv I bias s0 [] s ->
  for_each calls addNodes s = Ok s' ->
  forall k, In k calls -> (0 < cnumbers k)%nat -> defined_on (cconstraint k) (tuples (degree (corder k)) 0 I).
Proof.
  intros HI. assert (G : forall calls ns s, build_inv I bias s0 ns s -> for_each calls addNodes s = Ok s' ->
    forall k, In k calls -> (0 < cnumbers k)%nat -> defined_on (cconstraint k) (tuples (degree (corder k)) 0 I)).
  { clear s calls. induction calls as [|k0 calls IH]; intros ns s Hs E k Hk Hn; [destruct Hk|].
    cbn [for_each] in E. apply bind_Ok in E. destruct E as (s1 & E1 & E2).
    assert (Hd : (0 < cnumbers k0)%nat -> defined_on (cconstraint k0) (tuples (degree (corder k0)) 0 I)).
    { intros Hn0. pose proof Hs as (A1 & A2 & _). revert E1.
      unfold addNodes. destruct (cnumbers k0) as [|m]; [lia|].
      destruct (corder k0); unfold secondOrderNodes, thirdOrderNodes, fourthOrderNodes, for_; cbn [for_from]; rewrite A1, A2, <- HI;
        rewrite ?positions2_ok, ?positions3_ok, ?positions4_ok; intros E1; apply bind_Ok in E1; destruct E1 as (s2 & E1 & _); eapply addNeuron_defined; eauto. }
    destruct Hk as [<-|Hk]; auto.
    destruct (cnumbers k0) as [|m] eqn:Em.
    - assert (Es : s1 = s).
      { revert E1. unfold addNodes. rewrite Em. destruct (corder k0); cbn; congruence. }
      subst s1. apply (IH ns s Hs E2 k Hk Hn).
    - destruct (addNodes_ok I bias s0 ns s k0 HI Hs) as (s2 & E3 & Hs2); [intros; apply Hd; lia|].
      assert (s2 = s1) by congruence. subst s2. apply (IH _ s1 Hs2 E2 k Hk Hn). }
  intros Hs E. apply (G calls [] s); auto.
Qed.

(** * The assignment of weights *)
Definition unitAt (n : neuron) (pos : list nat) : option hounit :=
  find (fun u => if list_eq_dec Nat.eq_dec (uposition u) pos then true else false) n.
Definition weightIndex (nodes : list neuron) (j : nat) (pos : list nat) : nat :=
  match nth_error nodes j with
  | Some n => match unitAt n pos with Some u => uweight u | None => 0 end
  | None => 0
  end.

Lemma nth_error_snoc {A} (l : list A) a j x : nth_error (l ++ [a]) j = Some x ->
  nth_error l j = Some x /\ (j < length l)%nat \/ j = length l /\ x = a.
Proof.
  intros H. destruct (Nat.lt_ge_cases j (length l)) as [Hj|Hj].
  - rewrite nth_error_app1 in H by auto. auto.
  - rewrite nth_error_app2 in H by auto. destruct (j - length l)%nat as [|m] eqn:E; cbn in H.
    + right. split; [lia|congruence].
    + destruct m; discriminate.
Qed.

Lemma nodes_length I ns nodes K : nodes_ok I ns nodes K -> length ns = length nodes.
Proof. induction 1; auto. rewrite !app_length. cbn. lia. Qed.

Lemma nodes_nth I ns nodes K : nodes_ok I ns nodes K -> forall j d c, nth_error ns j = Some (d, c) ->
  exists n B E, nth_error nodes j = Some n /\ neuron_ok I d c n B E /\ (E <= K)%nat.
Proof.
  induction 1 as [|ns nodes B d0 c0 n E Hn IH Hok]; intros j d c Hj; [destruct j; discriminate|].
  pose proof (nodes_length _ _ _ _ Hn) as L. destruct (nth_error_snoc _ _ _ _ Hj) as [(Hj1 & Hlt)|(-> & Heq)].
  - destruct (IH j d c Hj1) as (n' & B' & E' & H1 & H2 & H3). exists n', B', E'. split; [rewrite nth_error_app1 by lia; auto|].
    split; auto. destruct Hok as (Hle & _). lia.
  - exists n, B, E. split; [rewrite L, nth_error_app2, Nat.sub_diag by lia; auto|]. injection Heq as -> ->. auto.
Qed.

Lemma nodes_range I ns nodes K : nodes_ok I ns nodes K -> forall j n u, nth_error nodes j = Some n -> In u n -> (uweight u < K)%nat.
Proof.
  induction 1 as [|ns nodes B d0 c0 n E Hn IH Hok]; intros j n' u Hj Hu; [destruct j; discriminate|].
  destruct Hok as (Hle & _ & Hr & _). destruct (nth_error_snoc _ _ _ _ Hj) as [(Hj1 & Hlt)|(-> & ->)].
  - specialize (IH j n' u Hj1 Hu). lia.
  - apply Hr; auto.
Qed.

Lemma nodes_disjoint I ns nodes K : nodes_ok I ns nodes K -> forall j j' n n' u u', (j < j')%nat ->
  nth_error nodes j = Some n -> nth_error nodes j' = Some n' -> In u n -> In u' n' -> (uweight u < uweight u')%nat.
Proof.
  induction 1 as [|ns nodes B d0 c0 n E Hn IH Hok]; intros j j' n1 n2 u u' Hlt H1 H2 Hu Hu'; [destruct j; discriminate|].
  destruct (nth_error_snoc _ _ _ _ H1) as [(K1 & L1)|(-> & ->)]; destruct (nth_error_snoc _ _ _ _ H2) as [(K2 & L2)|(-> & ->)]; try lia.
  - apply (IH j j' n1 n2); auto.
  - pose proof (nodes_range _ _ _ _ Hn j n1 u K1 Hu). destruct Hok as (_ & _ & Hr & _). specialize (Hr u' Hu'). lia.
Qed.

Lemma nodes_cover I ns nodes K : nodes_ok I ns nodes K -> forall k, (k < K)%nat ->
  exists j n u, nth_error nodes j = Some n /\ In u n /\ uweight u = k.
Proof.
  induction 1 as [|ns nodes B d0 c0 n E Hn IH Hok]; intros k Hk; [lia|].
  destruct (Nat.lt_ge_cases k B) as [Hb|Hb].
  - destruct (IH k Hb) as (j & n' & u & H1 & H2 & H3). exists j, n', u. split; auto. rewrite nth_error_app1; auto.
    apply nth_error_Some. congruence.
  - destruct Hok as (_ & _ & _ & Hc & _). destruct (Hc k) as (u & Hu & Eu); [lia|]. exists (length nodes), n, u.
    split; auto. rewrite nth_error_app2, Nat.sub_diag by lia. auto.
Qed.

Lemma unitAt_ok n pos : NoDup (map uposition n) -> forall u, In u n -> uposition u = pos -> unitAt n pos = Some u.
Proof.
  intros Hd u Hu Hp. unfold unitAt. induction n as [|v n IH]; [destruct Hu|]. cbn [find].
  inversion_clear Hd as [|? ? Hn Hd']. destruct (list_eq_dec Nat.eq_dec (uposition v) pos) as [E|E].
  - destruct Hu as [->|Hu]; auto. exfalso. apply Hn. rewrite E, <- Hp. now apply in_map.
  - destruct Hu as [->|Hu]; [congruence|]. auto.
Qed.

Lemma unit_of_pos I d c n B E pos : neuron_ok I d c n B E -> In pos (tuples d 0 I) ->
  exists u, In u n /\ uposition u = pos /\ unitAt n pos = Some u.
Proof.
  intros (_ & Hm & _) Hp. rewrite <- Hm in Hp. apply in_map_iff in Hp. destruct Hp as (u & E1 & Hu).
  exists u. split; auto. split; auto. apply unitAt_ok; auto. rewrite Hm. apply tuples_NoDup.
Qed.

Lemma weightIndex_unit I ns nodes K j d c : nodes_ok I ns nodes K -> nth_error ns j = Some (d, c) ->
  exists n, nth_error nodes j = Some n /\ map uposition n = tuples d 0 I /\
    forall u, In u n -> weightIndex nodes j (uposition u) = uweight u.
Proof.
  intros H Hj. destruct (nodes_nth _ _ _ _ H j d c Hj) as (n & B & E & Hn & Hok & _). exists n. split; auto.
  pose proof Hok as (_ & Hm & _). split; auto. intros u Hu. unfold weightIndex. rewrite Hn.
  rewrite (unitAt_ok n (uposition u)) with (u := u); auto. rewrite Hm. apply tuples_NoDup.
Qed.

Lemma nodes_assigned I ns nodes K : nodes_ok I ns nodes K -> weights_assigned I ns (weightIndex nodes) K.
Proof.
  intros H.
  assert (U : forall j d c pos, nth_error ns j = Some (d, c) -> In pos (tuples d 0 I) -> exists n B E u,
    nth_error nodes j = Some n /\ neuron_ok I d c n B E /\ In u n /\ uposition u = pos /\ weightIndex nodes j pos = uweight u).
  { intros j d c pos Hj Hp. destruct (nodes_nth _ _ _ _ H j d c Hj) as (n & B & E & Hn & Hok & _).
    destruct (unit_of_pos _ _ _ _ _ _ _ Hok Hp) as (u & Hu & E1 & E2). exists n, B, E, u. repeat (split; auto).
    unfold weightIndex. now rewrite Hn, E2. }
  split.
  - intros j d c pos Hj Hp. destruct (U j d c pos Hj Hp) as (n & B & E & u & Hn & _ & Hu & _ & ->).
    apply (nodes_range _ _ _ _ H j n u Hn Hu).
  - intros k Hk. destruct (nodes_cover _ _ _ _ H k Hk) as (j & n & u & Hn & Hu & Eu).
    assert (Hj : (j < length ns)%nat) by (rewrite (nodes_length _ _ _ _ H); apply nth_error_Some; congruence).
    destruct (nth_error ns j) as [[d c]|] eqn:Ej; [|apply nth_error_None in Ej; lia].
    destruct (weightIndex_unit _ _ _ _ j d c H Ej) as (n' & Hn' & Hm & Hw). assert (n' = n) by congruence. subst n'.
    exists j, d, c, (uposition u). split; auto. split; [rewrite <- Hm; now apply in_map|]. rewrite Hw; auto.
  - intros j d c pos j' d' c' pos' Hj Hp Hj' Hp' Eq.
    destruct (U j d c pos Hj Hp) as (n & B & E & u & Hn & _ & Hu & _ & E1).
    destruct (U j' d' c' pos' Hj' Hp') as (n' & B' & E' & u' & Hn' & _ & Hu' & _ & E2).
    destruct (Nat.lt_trichotomy j j') as [Hl|[Hl|Hl]]; auto.
    + pose proof (nodes_disjoint _ _ _ _ H j j' n n' u u' Hl Hn Hn' Hu Hu'). lia.
    + pose proof (nodes_disjoint _ _ _ _ H j' j n' n u' u Hl Hn' Hn Hu' Hu). lia.
  - intros j d pos pos' Hj Hp Hp' Eq.
    destruct (U j d None pos Hj Hp) as (n & B & E & u & Hn & Hok & Hu & E1 & E2).
    destruct (U j d None pos' Hj Hp') as (n' & B' & E' & u' & Hn' & _ & Hu' & E1' & E2').
    assert (n' = n) by congruence. subst n'. destruct Hok as (_ & _ & _ & _ & Hd & _). specialize (Hd eq_refl).
    assert (u = u'); [|congruence]. assert (Ew : uweight u = uweight u') by congruence. clear - Hd Hu Hu' Ew.
    induction n as [|v n IH]; [destruct Hu|]. cbn [map] in Hd. inversion_clear Hd as [|? ? Hn Hd'].
    destruct Hu as [->|Hu], Hu' as [->|Hu']; auto.
    + exfalso. apply Hn. rewrite Ew. now apply in_map.
    + exfalso. apply Hn. rewrite <- Ew. now apply in_map.
  - intros j d f pos pos' r r' Hj Hp Hp' Er Er'.
    destruct (U j d (Some f) pos Hj Hp) as (n & B & E & u & Hn & Hok & Hu & E1 & E2).
    destruct (U j d (Some f) pos' Hj Hp') as (n' & B' & E' & u' & Hn' & _ & Hu' & E1' & E2').
    assert (n' = n) by congruence. subst n'. destruct Hok as (_ & _ & _ & _ & _ & Hs). rewrite E2, E2'.
    apply (Hs f eq_refl u u' r r'); congruence.
Qed.

(** * initialize *)
Lemma setup_ok junk I ns s : nodes_ok I ns (spnodes s) (length (spw s)) ->
  exists w, sp_setup junk s =
    Ok (mkSP (spI s) (spbias s) (spact s) (spx s) (mkMat 1 (length ns) junk) (mkMat 1 (length ns + nbit (spbias s)) junk)
        (mkMat 1 (length ns) junk) (mkMat 1 (length ns) junk) (spe s) w (spwd s) (spnodes s)) /\
    length w = length (spw s).
Proof.
  intros H. unfold sp_setup. rewrite (nodes_length _ _ _ _ H).
  destruct (for_inv (fun _ (w : list R) => length w = length (spw s))
    (fun i w => n <- vget (spnodes s) i ;; for_ (length n) (fun j w => u <- vget n j ;; vset w (uweight u) (junk i j)) w)
    (length (spnodes s)) (spw s)) as (w & E & L); auto.
  - intros i w Hi L. destruct (vget_Ok (spnodes s) i Hi) as (n & E & En). rewrite E. cbn [bind].
    apply (for_inv (fun _ (w : list R) => length w = length (spw s))); auto. intros j w' Hj L'.
    destruct (vget_Ok n j Hj) as (u & E' & Eu). rewrite E'. cbn [bind]. apply nth_error_In in Eu.
    pose proof (nodes_range _ _ _ _ H i n u En Eu). exists (upd w' (uweight u) (junk i j)).
    rewrite vset_Ok by lia. split; auto. now rewrite upd_length.
  - exists w. rewrite E. cbn [bind]. auto.
Qed.

Definition built (I : nat) (bias : bool) (act : ActivationFunction) (ns : list (nat * constraint)) (s : sp) : Prop :=
  spI s = I /\ spbias s = bias /\ spact s = act /\ cols (spx s) = (I + nbit bias)%nat /\ cols (spa s) = length ns /\
  cols (spy s) = (length ns + nbit bias)%nat /\ cols (spyd s) = length ns /\ cols (spdeltas s) = length ns /\
  cols (spe s) = I /\ length (spwd s) = length (spw s) /\ nodes_ok (I + nbit bias) ns (spnodes s) (length (spw s)).

Lemma new_build_inv junk I bias act : build_inv (I + nbit bias) bias (sp_new junk I bias act) [] (sp_new junk I bias act).
Proof. unfold build_inv. cbn. repeat (split; auto). constructor. Qed.

Lemma build_built junk I bias act calls s : sp_build junk I bias act calls = Ok s -> built I bias act (requested calls) s.
Proof.
  unfold sp_build. intros E. apply bind_Ok in E. destruct E as (s1 & E1 & E2).
  pose proof (new_build_inv junk I bias act) as H0.
  pose proof (calls_defined (I + nbit bias) bias (sp_new junk I bias act) calls _ s1 eq_refl H0 E1) as Hd.
  destruct (calls_ok (I + nbit bias) bias (sp_new junk I bias act) calls _ eq_refl H0 Hd) as (s2 & E3 & (B1 & B2 & B3 & B4 & B5 & B6 & B7)).
  assert (s2 = s1) by congruence. subst s2.
  destruct (setup_ok junk _ _ _ B7) as (w & E4 & L). rewrite E4 in E2. assert (E5 : forall a b : sp, Ok a = Ok b -> b = a) by congruence.
  apply E5 in E2. rewrite E2. unfold built. cbn [spI spbias spact spx spa spy spyd spdeltas spe spw spwd spnodes].
  rewrite B1, B2, B3, B4, B5. cbn. rewrite L. repeat (split; auto).
Qed.

Lemma build_succeeds junk I bias act calls :
  (forall k, In k calls -> (0 < cnumbers k)%nat -> defined_on (cconstraint k) (tuples (degree (corder k)) 0 (I + nbit bias))) ->
  exists s, sp_build junk I bias act calls = Ok s.
Proof.
  intros Hd. pose proof (new_build_inv junk I bias act) as H0.
  destruct (calls_ok (I + nbit bias) bias (sp_new junk I bias act) calls _ eq_refl H0 Hd) as (s2 & E3 & (B1 & B2 & B3 & B4 & B5 & B6 & B7)).
  destruct (setup_ok junk _ _ _ B7) as (w & E4 & L). unfold sp_build. rewrite E3. cbn [bind]. rewrite E4. eauto.
Qed.
