(** Proofs about sigma-pi layers: forward and backward pass. *)
From Verif Require Import Base BaseFacts Matrix RSum MatOps Vec Deriv Acc Activation_Model Activation_Proofs
  Layer_Model Layer_Spec Layer_Proofs Layer_Layout SigmaPi_Model SigmaPi_Spec.
Local Open Scope R_scope.

(** * Sums over lists *)
Lemma for_each_sum {A} (g : A -> R) (l : list A) body s :
  (forall u s, In u l -> body u s = Ok (s + g u)) -> for_each l body s = Ok (s + lsum (map g l)).
Proof.
  revert s. induction l as [|u l IH]; intros s H; cbn [for_each map lsum fold_right].
  - f_equal. ring.
  - rewrite H by now left. cbn [bind]. rewrite IH by (intros; apply H; now right). f_equal. unfold lsum. ring.
Qed.

Lemma adds_for_each {S A} (ok : S -> Prop) (L : S -> R) (l : list A) body (d : A -> R) :
  (forall u, In u l -> adds ok L (body u) (d u)) -> adds ok L (for_each l body) (lsum (map d l)).
Proof.
  induction l as [|u l IH]; intros H s Hs.
  - exists s. cbn. split; auto. split; auto. ring.
  - destruct (H u (or_introl eq_refl) s Hs) as (s1 & E1 & O1 & V1).
    destruct (IH ltac:(intros; apply H; now right) s1 O1) as (s2 & E2 & O2 & V2).
    exists s2. cbn [for_each]. rewrite E1. cbn [bind]. split; auto. split; auto. rewrite V2, V1. cbn. unfold lsum. ring.
Qed.

Lemma D_lsum {A} (l : list A) (f : A -> R -> R) (d : A -> R) t : (forall u, In u l -> D (f u) t (d u)) ->
  D (fun v => lsum (map (fun u => f u v) l)) t (lsum (map d l)).
Proof.
  induction l as [|u l IH]; intros H.
  - cbn. apply D_const.
  - cbn [map lsum fold_right]. apply D_plus; [apply H; now left|apply IH; intros; apply H; now right].
Qed.

Lemma lsum_ext {A} (f g : A -> R) l : (forall u, In u l -> f u = g u) -> lsum (map f l) = lsum (map g l).
Proof. intros H. f_equal. apply map_ext_in. auto. Qed.

(** * Filling a matrix *)
Lemma fill_matrix N J (body : nat -> nat -> mat -> res mat) (f : nat -> nat -> R) a :
  size_is a N J ->
  (forall n j a, (n < N)%nat -> (j < J)%nat -> size_is a N J -> body n j a = Ok (mupd a n j (f n j))) ->
  exists a', for_ N (fun n a => for_ J (body n) a) a = Ok a' /\ size_is a' N J /\
    forall n j, (n < N)%nat -> (j < J)%nat -> at_ a' n j = f n j.
Proof.
  intros Ha H.
  destruct (for_inv (fun k (a : mat) => size_is a N J /\ forall n j, (n < k)%nat -> (j < J)%nat -> at_ a n j = f n j)
    (fun n a => for_ J (body n) a) N a) as (a' & E & S & V).
  - split; auto. intros; lia.
  - intros n a1 Hn (S1 & V1).
    destruct (for_inv (fun k (a : mat) => size_is a N J /\ (forall n' j, (n' < n)%nat -> (j < J)%nat -> at_ a n' j = f n' j) /\
      forall j, (j < k)%nat -> at_ a n j = f n j) (body n) J a1) as (a2 & E2 & S2 & V2 & V2').
    + split; auto. split; auto. intros; lia.
    + intros j a2 Hj (S2 & V2 & V2'). rewrite H by auto. eexists. split; [reflexivity|].
      split; [destruct S2; split; auto|]. split.
      * intros n' j' Hn' Hj'. rewrite at_mupd_other by lia. auto.
      * intros j' Hj'. destruct (Nat.eq_dec j' j) as [->|]; [apply at_mupd_same|]. rewrite at_mupd_other by lia. apply V2'. lia.
    + exists a2. split; auto. split; auto. intros n' j Hn' Hj. destruct (Nat.eq_dec n' n) as [->|]; auto. apply V2; lia.
  - exists a'. auto.
Qed.

Section PASS.
Context (junk : nat -> nat -> R) (I K : nat) (act : ActivationFunction) (nodes : list neuron).
Hypothesis Hnodes : nodes <> [].
Hypothesis Hneurons : forall n, In n nodes -> n <> [].
Hypothesis Hunits : forall n u, In n nodes -> In u n -> (uweight u < K)%nat /\ forall i, In i (uposition u) -> (i < I)%nat.
Hypothesis HI : (0 < I)%nat.
Notation J := (length nodes).
Notation cls := (sp_class junk).

Definition sp_inv (s : sp) : Prop :=
  spI s = I /\ spbias s = false /\ spact s = act /\ cols (spx s) = I /\ cols (spa s) = J /\ cols (spy s) = J /\
  cols (spyd s) = J /\ cols (spdeltas s) = J /\ cols (spe s) = I /\ length (spw s) = K /\ length (spwd s) = K /\
  spnodes s = nodes.

(** the sum of the [j]-th neuron for the weights [w] *)
Definition nsum (w : list R) (X : mat) (n : nat) (ne : neuron) : R :=
  lsum (map (fun u => w.[uweight u] * monomial X n (uposition u)) ne).

Lemma correlation_ok X n u N : size_is X N I -> (n < N)%nat -> (forall i, In i (uposition u) -> (i < I)%nat) ->
  correlation X n u = Ok (monomial X n (uposition u)).
Proof.
  intros (S1 & S2) Hn. unfold correlation, monomial.
  assert (G : forall l v, (forall i, In i l -> (i < I)%nat) ->
    for_each l (fun k c => x <- mget X n k ;; Ok (c * x)) v = Ok (v * fold_right (fun i r => at_ X n i * r) 1 l)).
  { induction l as [|i l IH]; intros v Hl; cbn [for_each fold_right].
    - f_equal. ring.
    - rewrite mget_Ok by (try lia; rewrite S2; apply Hl; now left). cbn [bind].
      rewrite IH by (intros; apply Hl; now right). f_equal. ring. }
  intros Hp. rewrite G by auto. f_equal. ring.
Qed.

Lemma nonempty_ok {A} (l : list A) : l <> [] -> nonempty l = Ok tt.
Proof. destruct l; [congruence|auto]. Qed.

Lemma forward_ok s X dropout N : sp_inv s -> size_is X N I ->
  exists q Y, sp_forward junk s X dropout = Ok (q, Y, 0) /\ size_is Y N J /\ sp_inv q /\
    (forall n j, (n < N)%nat -> (j < J)%nat -> at_ Y n j = act_fun act (nsum (spw s) X n (nth j nodes []))) /\
    spw q = spw s /\ rows (spa q) = N /\ spy q = Y /\ rows (spx q) = N /\
    (forall n i, (n < N)%nat -> (i < I)%nat -> at_ (spx q) n i = at_ X n i).
Proof.
  intros (A1 & A2 & A3 & A4 & A5 & A6 & A7 & A8 & A9 & A10 & A11 & A12) SX. pose proof SX as (S1 & S2).
  unfold sp_forward. rewrite A1, A3, A4, A5, A6, A12, S1. cbn [cols mconsresize].
  rewrite (proj2 (Nat.ltb_lt 0 I)) by auto. cbn [bind]. unfold msetLeftCols. cbn [rows cols]. rewrite S1, S2, Nat.leb_refl, !Nat.eqb_refl. cbn [andb bind].
  destruct (fill_matrix N J (fun instance i a =>
      n <- vget nodes i ;; _ <- nonempty n ;;
      sum <- for_each n (fun u sum => c <- correlation X instance u ;; w <- vget (spw s) (uweight u) ;; Ok (sum + w * c)) 0 ;;
      mset a instance i sum) (fun n j => nsum (spw s) X n (nth j nodes [])) (mconsresize junk (spa s) N J)) as (a & Ea & Sa & Va).
  - split; auto.
  - intros n j a Hn Hj (Z1 & Z2). rewrite (vget_nth nodes j []) by auto. cbn [bind].
    assert (Hin : In (nth j nodes []) nodes) by (apply nth_In; auto).
    rewrite nonempty_ok by auto. cbn [bind].
    rewrite (for_each_sum (fun u => (spw s).[uweight u] * monomial X n (uposition u))).
    + cbn [bind]. rewrite mset_Ok by lia. unfold nsum. rewrite Rplus_0_l. reflexivity.
    + intros u sum Hu. destruct (Hunits _ u Hin Hu) as (U1 & U2). rewrite (correlation_ok X n u N) by auto. cbn [bind].
      rewrite (vget_nth _ _ 0) by lia. reflexivity.
  - match goal with |- context [for_ N ?b ?s] => replace (for_ N b s) with (Ok a) end.
    + cbn [bind]. destruct (activationFunction_Ok act a (mconsresize junk (spy s) N J) N J) as (Y & EY & SY & VY); [auto|split; auto|].
      rewrite EY. cbn [bind].
      eexists. eexists. split; [reflexivity|]. split; [auto|]. pose proof Sa as (Sa1 & Sa2). pose proof SY as (SY1 & SY2).
      split; [unfold sp_inv; cbn; auto 15|]. split.
      * intros n j Hn Hj. rewrite VY. now rewrite Va.
      * cbn [spw spa spy spx rows at_]. split; auto. split; auto. split; auto. split; auto. intros n i Hn Hi. rewrite (proj2 (Nat.ltb_lt i I)) by auto. auto.
    + rewrite <- Ea. apply for_from_ext. intros n a1 _. rewrite nonempty_ok by auto. reflexivity.
Qed.

(** how often [i] occurs *)
Definition occ (i : nat) (l : list nat) : R := lsum (map (fun k => if Nat.eqb i k then 1 else 0) l).

Lemma inner_ok X n N w delta pos e0 : size_is X N I -> size_is e0 N I -> (n < N)%nat -> (forall i, In i pos -> (i < I)%nat) ->
  exists e', for_each pos (fun index ce =>
          let '(c, e) := ce in
          v <- mget X n index ;;
          e <- madd e n index (w * delta) ;;
          Ok (c * v, e)) (1, e0) = Ok (monomial X n pos, e') /\ size_is e' N I /\
    forall a b, at_ e' a b = at_ e0 a b + (if Nat.eqb a n then w * delta * occ b pos else 0).
Proof.
  intros (S1 & S2) Se Hn Hp.
  destruct (for_each_inv (fun done (ce : R * mat) => fst ce = fold_left (fun r i => r * at_ X n i) done 1 /\ size_is (snd ce) N I /\
     forall a b, at_ (snd ce) a b = at_ e0 a b + (if Nat.eqb a n then w * delta * occ b done else 0))
    (fun index ce => let '(c, e) := ce in v <- mget X n index ;; e <- madd e n index (w * delta) ;; Ok (c * v, e)) pos (1, e0))
    as ([c' e'] & E & H1 & H2 & H3).
  - cbn. split; auto. split; auto. intros a b. unfold occ. cbn. destruct (Nat.eqb a n); ring.
  - intros done i rest [c1 e1] -> (H1 & H2 & H3). cbn [fst snd] in *. destruct H2 as (Z1 & Z2).
    assert (Hi : (i < I)%nat) by (apply Hp; apply in_app_iff; right; now left).
    rewrite mget_Ok by lia. cbn [bind]. rewrite madd_Ok by lia. cbn [bind]. eexists. split; [reflexivity|]. cbn [fst snd].
    split; [rewrite fold_left_app, H1; reflexivity|]. split; [split; auto|].
    intros a b. unfold occ. rewrite map_app, lsum_app. fold (occ b done). cbn.
    rewrite at_mupd. destruct (Nat.eqb_spec a n) as [->|]; cbn [andb].
    + destruct (Nat.eqb_spec b i) as [->|]; rewrite H3, Nat.eqb_refl; ring.
    + rewrite H3, (proj2 (Nat.eqb_neq a n)) by auto. ring.
  - exists e'. cbn [fst snd] in *. split; auto. rewrite E. f_equal. f_equal. rewrite H1. unfold monomial.
    clear. assert (G : forall l r, fold_left (fun r i => r * at_ X n i) l r = r * fold_right (fun i r0 => at_ X n i * r0) 1 l).
    { induction l as [|i l IH]; intros r; cbn; [ring|]. rewrite IH. ring. }
    rewrite G. ring.
Qed.

Lemma backward_ok q ein bp N : sp_inv q -> rows (spa q) = N -> size_is (spy q) N J -> rows (spx q) = N -> size_is ein N J ->
  exists q2 e, sp_backward junk q ein bp = Ok (q2, e) /\ size_is e N I /\ sp_inv q2 /\
    let delta n j := at_ ein n j * act_der act (at_ (spy q) n j) in
    (forall k, (k < K)%nat -> (spwd q2).[k] = rsum N (fun n => rsum J (fun j =>
        lsum (map (fun u => if Nat.eqb (uweight u) k then delta n j * monomial (spx q) n (uposition u) else 0) (nth j nodes []))))) /\
    (forall n i, (n < N)%nat -> (i < I)%nat -> at_ e n i = rsum J (fun j =>
        lsum (map (fun u => (spw q).[uweight u] * delta n j * occ i (uposition u)) (nth j nodes [])))).
Proof.
  intros Hq Ra Sy Rx Sein. pose proof Hq as (A1 & A2 & A3 & A4 & A5 & A6 & A7 & A8 & A9 & A10 & A11 & A12).
  pose proof Sy as (Sy1 & Sy2). pose proof Sein as (Se1 & Se2).
  unfold sp_backward. rewrite Ra, A3, A7, A8, A9, A12.
  destruct (activationFunctionDerivative_Ok act (spy q) (mconsresize junk (spyd q) N J) N J) as (yd & Eyd & (Sd1 & Sd2) & Vyd); [auto|split; auto|].
  rewrite Eyd. cbn [bind].
  match goal with |- context [for_ N ?b ?s] => set (body := b); set (st0 := s) end.
  set (delta := fun n j => at_ ein n j * act_der act (at_ (spy q) n j)).
  set (ok := fun st : mat * (mat * list R) => size_is (fst st) N J /\ size_is (fst (snd st)) N I /\ length (snd (snd st)) = K).
  assert (G : forall (L : mat * (mat * list R) -> R) (d : nat -> nat -> hounit -> R),
    (forall n j v st, L (mupd (fst st) n j v, snd st) = L st) ->
    (forall n j u D e wd e' , In u (nth j nodes []) -> (n < N)%nat -> (j < J)%nat -> size_is e N I -> length wd = K ->
       (forall a b, at_ e' a b = at_ e a b + (if Nat.eqb a n then (spw q).[uweight u] * delta n j * occ b (uposition u) else 0)) ->
       L (D, (e', upd wd (uweight u) (wd.[uweight u] + delta n j * monomial (spx q) n (uposition u)))) = L (D, (e, wd)) + d n j u) ->
    adds ok L (for_ N body) (rsum N (fun n => rsum J (fun j => lsum (map (d n j) (nth j nodes [])))))).
  { intros L d L1 L2. apply adds_for. intros n Hn. unfold body. rewrite nonempty_ok by auto. cbn [bind].
    apply adds_for. intros j Hj [D [e wd]] (O1 & O2 & O3). cbn [fst snd] in O1, O2, O3. destruct O1 as (O1a & O1b).
    rewrite (vget_nth nodes j []) by auto. cbn [bind]. rewrite !mget_Ok by lia. cbn [bind]. rewrite mset_Ok by lia. cbn [bind].
    assert (Hin : In (nth j nodes []) nodes) by (apply nth_In; auto). rewrite nonempty_ok by auto. cbn [bind].
    set (D' := mupd D n j (at_ ein n j * at_ yd n j)).
    assert (ED : at_ D' n j = delta n j) by (unfold D', delta; rewrite at_mupd_same, Vyd; auto).
    destruct (adds_for_each (fun ewd : mat * list R => size_is (fst ewd) N I /\ length (snd ewd) = K)
      (fun ewd => L (D', ewd)) (nth j nodes [])
      (fun u ewd => let '(e, wd) := ewd in
        w <- vget (spw q) (uweight u) ;; delta <- mget D' n j ;;
        ' (c, e) <- for_each (uposition u) (fun index ce =>
          let '(c, e) := ce in v <- mget (spx q) n index ;; e <- madd e n index (w * delta) ;; Ok (c * v, e)) (1, e) ;;
        g <- vget wd (uweight u) ;; wd <- vset wd (uweight u) (g + delta * c) ;; Ok (e, wd)) (d n j)) with (s := (e, wd))
      as ([e' wd'] & E' & (O4 & O5) & V).
    - intros u Hu [e1 wd1] (P1 & P2). cbn [fst snd] in P1, P2. destruct (Hunits _ u Hin Hu) as (U1 & U2).
      rewrite (vget_nth (spw q) _ 0) by lia. cbn [bind]. rewrite mget_Ok by (unfold D', mupd; cbn [rows cols]; lia). cbn [bind]. rewrite ED.
      destruct (inner_ok (spx q) n N (spw q).[uweight u] (delta n j) (uposition u) e1) as (e2 & Ei & Si & Vi); auto; [split; auto|].
      rewrite Ei. cbn [bind]. rewrite (vget_nth wd1 _ 0) by lia. cbn [bind]. rewrite vset_Ok by lia. cbn [bind].
      eexists. split; [reflexivity|]. cbn [fst snd]. split; [split; auto; now rewrite upd_length|]. apply (L2 n j u); auto.
    - cbn [fst snd]. auto.
    - exists (D', (e', wd')). rewrite E'. cbn [bind]. split; auto. cbn [fst snd] in O4, O5.
      split; [unfold ok; cbn [fst snd]; split; auto; split; auto|]. rewrite V. f_equal. apply (L1 n j _ (D, (e, wd))). }
  assert (O0 : ok st0).
  { unfold ok, st0. cbn. split; [split; auto|]. split; [split; auto|]. now rewrite map_length. }
  destruct (G (fun _ => 0) (fun _ _ _ => 0)) with (s := st0) as ([D [e wd]] & E & (O1 & O2 & O3) & _); auto; [intros; ring|].
  rewrite E. cbn [bind]. cbn [fst snd] in O1, O2, O3. destruct O1 as (O1a & O1b). pose proof O2 as (O2a & O2b).
  eexists. exists e. split; [reflexivity|]. split; auto. split; [unfold sp_inv; cbn; auto 15|]. cbn [spwd]. split.
  - intros k Hk.
    destruct (G (fun st => (snd (snd st)).[k]) (fun n j u => if Nat.eqb (uweight u) k then delta n j * monomial (spx q) n (uposition u) else 0)) with (s := st0)
      as (st' & E' & _ & V); auto.
    + intros n j u D1 e1 wd1 e2 Hu Hn Hj _ Lw _. cbn [fst snd].
      assert (Hin : In (nth j nodes []) nodes) by (apply nth_In; auto). destruct (Hunits _ u Hin Hu) as (U1 & _).
      rewrite nth_upd by lia. destruct (Nat.eqb_spec (uweight u) k) as [->|]; ring.
    + rewrite E in E'. injection E' as <-. cbn [fst snd] in V. rewrite V. unfold st0. cbn [fst snd].
      replace ((map (fun _ : R => 0) (spwd q)).[k]) with 0; [rewrite Rplus_0_l; reflexivity|].
      clear. generalize k. induction (spwd q) as [|x l IH]; intros [|k']; cbn; auto.
  - intros n i Hn Hi.
    destruct (G (fun st => at_ (fst (snd st)) n i) (fun n' j u => if Nat.eqb n n' then (spw q).[uweight u] * delta n' j * occ i (uposition u) else 0)) with (s := st0)
      as (st' & E' & _ & V); auto.
    rewrite E in E'. injection E' as <-. cbn [fst snd] in V. rewrite V. unfold st0. cbn [fst snd mzero at_].
    rewrite Rplus_0_l. rewrite (rsum_single N n); auto.
    + rewrite Nat.eqb_refl. reflexivity.
    + intros n' _ Hne. apply rsum_0. intros j Hj. rewrite (proj2 (Nat.eqb_neq n n')) by auto.
      generalize (nth j nodes []). unfold lsum. induction l as [|x l IHl]; cbn; auto. rewrite IHl. ring.
Qed.

(** * Parameters *)
Notation locs := (map PW (seq 0 K)).
Definition sp_idx (l : sploc) : nat := match l with PW i => i | PWd i => i end.

Lemma sp_layout_init s : sp_inv s ->
  fst (initialize cls s) = locs /\ length (snd (initialize cls s)) = length locs.
Proof.
  intros (A1 & A2 & A3 & A4 & A5 & A6 & A7 & A8 & A9 & A10 & A11 & A12). cbn [initialize sp_class]. unfold sp_initialize.
  rewrite A10. cbn [fst snd]. split; auto. now rewrite !map_length.
Qed.

Lemma sp_locs_nth k : (k < K)%nat -> nth_error locs k = Some (PW k).
Proof.
  intros H. apply map_nth_error. rewrite nth_error_nth' with (d := 0%nat) by (rewrite seq_length; auto).
  now rewrite seq_nth by auto.
Qed.

Lemma sp_write s k v : sp_inv s -> (k < K)%nat ->
  exists s', writeParam cls s k v = Ok s' /\ sp_inv s' /\
  forall k', (k' < K)%nat -> readParam cls s' k' = if Nat.eqb k' k then Ok v else readParam cls s k'.
Proof.
  assert (L : length locs = K) by now rewrite map_length, seq_length. intros Hs Hk.
  cut (exists s', writeParam cls s k v = Ok s' /\ sp_inv s' /\
    forall k', (k' < length locs)%nat -> readParam cls s' k' = if Nat.eqb k' k then Ok v else readParam cls s k').
  { intros (s' & E1 & E2 & E3). exists s'. split; auto. split; auto. intros k' Hk'. apply E3. rewrite <- L in Hk'. exact Hk'. }
  rewrite <- L in Hk.
  apply (layout_write cls sp_inv locs sp_idx); [apply sp_layout_init| | |exact Hs|exact Hk].
  - intros k0 l Hl. change (nth_error locs k0 = Some l) in Hl.
    assert (H : (k0 < K)%nat) by (rewrite <- L; apply nth_error_Some; rewrite Hl; discriminate).
    rewrite sp_locs_nth in Hl by auto. injection Hl as <-. auto.
  - intros s0 l v0 H0 Hl. pose proof H0 as (A1 & A2 & A3 & A4 & A5 & A6 & A7 & A8 & A9 & A10 & A11 & A12).
    apply in_map_iff in Hl. destruct Hl as (i & <- & Hi). apply in_seq in Hi. cbn [store sp_class sp_store].
    rewrite vset_Ok by lia. cbn [bind]. eexists. split; [reflexivity|]. split; [unfold sp_inv; cbn; rewrite upd_length; auto 15|]. split.
    + cbn. rewrite (vget_nth _ _ 0) by (rewrite upd_length; lia). rewrite nth_upd by lia. now rewrite Nat.eqb_refl.
    + intros l' Hl' Hn. apply in_map_iff in Hl'. destruct Hl' as (i' & <- & Hi'). apply in_seq in Hi'. cbn.
      rewrite !(vget_nth _ i' 0) by (try rewrite upd_length; lia). rewrite nth_upd by lia.
      destruct (Nat.eqb_spec i i'); [congruence|auto].
Qed.

Lemma sp_read s k : sp_inv s -> (k < K)%nat -> readParam cls s k = Ok (spw s).[k].
Proof.
  intros H Hk. unfold readParam. destruct (sp_layout_init s H) as (E & _). rewrite E. unfold vget at 1. rewrite sp_locs_nth by auto.
  cbn. apply vget_nth. destruct H as (_ & _ & _ & _ & _ & _ & _ & _ & _ & A10 & _). lia.
Qed.
Lemma sp_readDeriv s k : sp_inv s -> (k < K)%nat -> readDeriv cls s k = Ok (spwd s).[k].
Proof.
  intros (A1 & A2 & A3 & A4 & A5 & A6 & A7 & A8 & A9 & A10 & A11 & A12) Hk. unfold readDeriv. cbn [initialize sp_class]. unfold sp_initialize.
  rewrite A10. cbn [snd]. 
  assert (E : nth_error (map PWd (seq 0 K)) k = Some (PWd k)).
  { apply map_nth_error. rewrite nth_error_nth' with (d := 0%nat) by (rewrite seq_length; auto). now rewrite seq_nth by auto. }
  unfold vget. change (Loc cls) with sploc. rewrite E. cbn. apply vget_nth. lia.
Qed.

Lemma sp_install s p : sp_inv s -> length p = K ->
  exists q, install cls s p = Ok q /\ sp_inv q /\ spw q = p.
Proof.
  intros H Hp. destruct (writeAll_Ok cls K sp_inv s p sp_write H Hp) as (q & E & Hq & Rd).
  exists q. split; [unfold install; rewrite E; reflexivity|]. split; auto.
  pose proof Hq as (_ & _ & _ & _ & _ & _ & _ & _ & _ & A10 & _). apply vec_ext; [lia|]. intros k Hk.
  specialize (Rd k ltac:(lia)). rewrite sp_read in Rd by (auto; lia). now injection Rd.
Qed.

Lemma sp_count s : sp_inv s -> paramCount cls s = K.
Proof. intros H. unfold paramCount. destruct (sp_layout_init s H) as (E & _). rewrite E. now rewrite map_length, seq_length. Qed.

Lemma sp_history s0 s : sp_inv s0 -> history cls I J s0 s -> sp_inv s.
Proof.
  intros H0. induction 1 as [|s p q Hh IH Hp E|s X dropout q Y r Hh IH HX E|s X dropout q Y r ein bp q2 eout Hh IH HX E He1 He2 Eb]; auto.
  - rewrite sp_count in Hp by auto. destruct (sp_install s p IH Hp) as (q' & E' & Hq & _). congruence.
  - destruct (forward_ok s X dropout (rows X) IH) as (q' & Y' & E' & _ & Hq & _); [split; auto|]. cbn [forwardPropagate sp_class] in E. congruence.
  - destruct (forward_ok s X dropout (rows X) IH) as (q' & Y' & E' & SY & Hq & _ & _ & Ra & Ey & Rx & _); [split; auto|].
    cbn [forwardPropagate sp_class backpropagate] in E, Eb.
    assert (q = q') by congruence. subst q'.
    destruct (backward_ok q ein bp (rows X) Hq Ra) as (q2' & e' & E2 & _ & Hq2 & _); auto; [congruence|split; auto|congruence].
Qed.

Lemma D_nsum p k X n ne : (k < length p)%nat ->
  D (fun v => nsum (upd p k v) X n ne) p.[k]
    (lsum (map (fun u => if Nat.eqb (uweight u) k then monomial X n (uposition u) else 0) ne)).
Proof.
  intros Hk. unfold nsum. apply (D_lsum ne (fun u v => (upd p k v).[uweight u] * monomial X n (uposition u))).
  intros u _. eapply D_eq; [|apply D_scal_r, (D_upd p k (uweight u) Hk)]. destruct (Nat.eqb (uweight u) k); ring.
Qed.

Lemma monomial_ext X X' n pos : (forall i, In i pos -> at_ X n i = at_ X' n i) -> monomial X n pos = monomial X' n pos.
Proof.
  unfold monomial. induction pos as [|i pos IH]; intros H; cbn [fold_right]; auto.
  rewrite H, IH by (intros; try apply H; cbn; auto). auto.
Qed.

Lemma lsum_scal {A} (f : A -> R) d l : lsum (map (fun u => d * f u) l) = d * lsum (map f l).
Proof. unfold lsum. induction l as [|u l IH]; cbn; [ring|]. rewrite IH. ring. Qed.

Lemma sp_partials s p X dropout e bp N : sp_inv s -> length p = K -> size_is X N I -> size_is e N J ->
  (forall n j, (n < N)%nat -> (j < J)%nat -> act_smooth act (nsum p X n (nth j nodes []))) ->
  parameter_partials_exact cls s p X dropout e bp.
Proof.
  intros Hs Hp SX Se Sm. pose proof SX as (SX1 & SX2). pose proof Se as (Se1 & Se2).
  destruct (sp_install s p Hs Hp) as (q & Eq & Hq & Ew).
  destruct (forward_ok q X dropout N Hq SX) as (q1 & Y & E1 & SY & Hq1 & VY & Ew1 & Ra & Ey & Rx & Vx).
  destruct (backward_ok q1 e bp N Hq1 Ra) as (q2 & eo & E2 & So & Hq2 & Vd & _); auto; [rewrite Ey; auto|].
  exists q, q1, Y, 0, q2, eo. split; auto. split; auto. split; auto. intros k Hk. rewrite Hp in Hk.
  exists (fun v => inner N J (at_ e) (fun n j => act_fun act (nsum (upd p k v) X n (nth j nodes []))) + 0).
  eexists. split; [|split; [apply sp_readDeriv; auto|]].
  - intros v. destruct (sp_install s (upd p k v) Hs) as (q' & Eq' & Hq' & Ew'); [now rewrite upd_length|].
    destruct (forward_ok q' X dropout N Hq' SX) as (q1' & Y' & E1' & (SY1 & SY2) & _ & VY' & _).
    exists q', q1', Y', 0. split; auto. split; auto. rewrite SY1, SY2, Se1, Se2. split; auto. split; auto.
    f_equal. unfold inner. apply rsum_ext. intros n Hn. apply rsum_ext. intros j Hj. rewrite VY' by auto. now rewrite Ew'.
  - rewrite Vd by auto. rewrite Ey. apply (D_eq _ _ (rsum N (fun n => rsum J (fun j =>
      at_ e n j * (act_der act (act_fun act (nsum p X n (nth j nodes []))) *
         lsum (map (fun u => if Nat.eqb (uweight u) k then monomial X n (uposition u) else 0) (nth j nodes []))))) + 0)).
    + rewrite Rplus_0_r. apply rsum_ext. intros n Hn. apply rsum_ext. intros j Hj. rewrite VY by auto. rewrite Ew.
      rewrite <- Rmult_assoc, <- lsum_scal. apply lsum_ext. intros u Hu.
      destruct (Nat.eqb (uweight u) k); [|ring]. f_equal. apply monomial_ext. intros i Hi.
      destruct (Hunits _ u (nth_In nodes [] Hj) Hu) as (_ & U2). symmetry. apply Vx; auto.
    + apply D_plus; [|apply D_const]. unfold inner.
      apply (D_sum N (fun n v => rsum J (fun j => at_ e n j * act_fun act (nsum (upd p k v) X n (nth j nodes []))))). intros n Hn.
      apply (D_sum J (fun j v => at_ e n j * act_fun act (nsum (upd p k v) X n (nth j nodes [])))). intros j Hj.
      apply D_scal. apply (D_comp (fun v => nsum (upd p k v) X n (nth j nodes []))).
      * apply D_nsum. lia.
      * rewrite upd_id. apply act_derivative. auto.
Qed.
End PASS.
