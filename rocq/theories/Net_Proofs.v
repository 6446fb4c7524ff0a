(** Proofs about networks of arbitrary layers that meet LayerFun_Spec.v. *)
From Verif Require Import Base BaseFacts Matrix RSum MatOps Vec Deriv Activation_Model Activation_Proofs
  Layer_Model Layer_Spec Layer_Proofs Layer_Layout LayerFun_Spec Net_Model NetChain_Proofs MaxPool_Proofs NetLayers_Proofs.
Local Open Scope R_scope.

(** * Error functions, by rows *)
Definition eps10 : R := / 10 ^ 10.
(** the network's output for the last layer's output [y] *)
Definition outrow (ef : ErrorFunction) (O : nat) (y : nat -> R) (j : nat) : R :=
  match ef with MSE => y j | CE => exp (y j) / rsum O (fun k => exp (y k)) end.
(** the error of an output, as computed by error() *)
Definition rowloss (ef : ErrorFunction) (O : nat) (y t : nat -> R) : R :=
  match ef with
  | MSE => rsum O (fun j => (y j - t j) * (y j - t j)) / 2
  | CE => - rsum O (fun j => t j * ln (y j + eps10))
  end.
(** the function whose gradient is backpropagated *)
Definition rowobj (ef : ErrorFunction) (O : nat) (y t : nat -> R) : R :=
  match ef with
  | MSE => rsum O (fun j => (y j - t j) * (y j - t j)) / 2
  | CE => - rsum O (fun j => t j * ln (y j))
  end.

Lemma outrow_ext ef O y y' j : (forall k, (k < O)%nat -> y k = y' k) -> (j < O)%nat -> outrow ef O y j = outrow ef O y' j.
Proof.
  intros H Hj. destruct ef; simpl; auto. rewrite H by auto. f_equal. apply rsum_ext. intros k Hk. now rewrite H.
Qed.
Lemma rowloss_ext ef O y y' t t' : (forall k, (k < O)%nat -> y k = y' k) -> (forall k, (k < O)%nat -> t k = t' k) ->
  rowloss ef O y t = rowloss ef O y' t'.
Proof.
  intros H H'. destruct ef; simpl; f_equal; apply rsum_ext; intros k Hk; rewrite H, H' by auto; auto.
Qed.
Lemma rowobj_ext ef O y y' t t' : (forall k, (k < O)%nat -> y k = y' k) -> (forall k, (k < O)%nat -> t k = t' k) ->
  rowobj ef O y t = rowobj ef O y' t'.
Proof.
  intros H H'. destruct ef; simpl; f_equal; apply rsum_ext; intros k Hk; rewrite H, H' by auto; auto.
Qed.

Lemma D_rowobj ef O (y : R -> nat -> R) (y' : nat -> R) (t : nat -> R) t0 :
  (forall j, (j < O)%nat -> D (fun v => y v j) t0 (y' j)) ->
  (ef = CE -> (0 < O)%nat /\ rsum O t = 1) ->
  D (fun v => rowobj ef O (outrow ef O (y v)) t) t0 (rsum O (fun j => (outrow ef O (y t0) j - t j) * y' j)).
Proof.
  intros H HT. destruct ef.
  - simpl. apply (D_ext (fun v => rsum O (fun j => /2 * ((y v j - t j) * (y v j - t j))))).
    { intros v. rewrite rsum_scal. unfold Rdiv. ring. }
    apply (D_sum O (fun j v => /2 * ((y v j - t j) * (y v j - t j)))). intros j Hj.
    assert (G : D (fun v => y v j - t j) t0 (y' j - 0)) by (apply D_minus; [auto|apply D_const]).
    eapply D_eq; [|apply D_scal; apply D_mult; exact G]. simpl. field.
  - destruct (HT eq_refl) as (HO & HS). simpl.
    assert (PS : forall v, 0 < rsum O (fun k => exp (y v k))).
    { intros v. apply rsum_pos; auto. intros. apply exp_pos. }
    apply (D_ext (fun v => ln (rsum O (fun k => exp (y v k))) - rsum O (fun j => t j * y v j))).
    { intros v. rewrite (rsum_ext O (fun j => t j * ln (exp (y v j) / _)) (fun j => t j * y v j - t j * ln (rsum O (fun k => exp (y v k))))).
      - rewrite rsum_minus. rewrite (rsum_ext O (fun i => t i * ln _) (fun i => ln (rsum O (fun k => exp (y v k))) * t i)) by (intros; ring).
        rewrite (rsum_scal O (ln (rsum O (fun k => exp (y v k))))), HS. ring.
      - intros j Hj. unfold Rdiv. rewrite ln_mult; [|apply exp_pos|apply Rinv_0_lt_compat; auto].
        rewrite ln_exp, ln_Rinv by auto. ring. }
    eapply D_eq; [|apply D_minus].
    2:{ apply D_ln; [|apply PS]. apply (D_sum O (fun k v => exp (y v k))). intros k Hk. apply D_exp. apply H. auto. }
    2:{ apply (D_sum O (fun j v => t j * y v j)). intros j Hj. apply D_scal. apply H. auto. }
    rewrite <- rsum_scal, <- rsum_minus. apply rsum_ext. intros j Hj. field. apply Rgt_not_eq. apply PS.
Qed.

(** * Losses of matrices *)
Definition loss (ef : ErrorFunction) (Y T : mat) : res R :=
  match ef with CE => crossEntropy Y T | MSE => D <- mmap2 Rminus Y T ;; Ok (meanSquaredError D) end.
Definition outp (ef : ErrorFunction) (Y : mat) : res mat := match ef with CE => softmax Y | MSE => Ok Y end.

Lemma loss_rows ef Y T N O : size_is Y N O -> size_is T N O -> (0 < N)%nat ->
  loss ef Y T = Ok (rsum N (fun n => rowloss ef O (at_ Y n) (at_ T n)) / INR N).
Proof.
  intros (Y1 & Y2) (T1 & T2) HN. assert (HN' : INR N <> 0) by (apply not_0_INR; lia). destruct ef; simpl.
  - rewrite (mmap2_Ok _ _ _ N O) by (split; auto). cbn [bind]. unfold meanSquaredError, msum, mmap. cbn [rows cols at_]. f_equal.
    rewrite (rsum_ext N (fun n => rsum O (fun j => (at_ Y n j - at_ T n j) * (at_ Y n j - at_ T n j)) / 2)
              (fun n => / 2 * rsum O (fun j => (at_ Y n j - at_ T n j) * (at_ Y n j - at_ T n j)))).
    2:{ intros. unfold Rdiv. ring. }
    rewrite rsum_scal. field. auto.
  - unfold crossEntropy. rewrite (mmap2_Ok _ _ _ N O) by (split; auto). cbn [bind]. unfold msum. cbn [rows cols at_]. f_equal.
    rewrite Y1. rewrite (rsum_opp N). reflexivity.
Qed.

Lemma outp_rows ef Y N O : size_is Y N O -> (ef = CE -> (0 < N)%nat /\ (0 < O)%nat) ->
  exists Yo, outp ef Y = Ok Yo /\ size_is Yo N O /\ forall n j, (n < N)%nat -> (j < O)%nat -> at_ Yo n j = outrow ef O (at_ Y n) j.
Proof.
  intros HY H. destruct ef; simpl.
  - exists Y. auto.
  - destruct (H eq_refl). destruct (softmax_spec Y N O) as (s & E & S1 & F); auto. exists s. auto.
Qed.

Lemma for_ok {A} (Q : nat -> A -> Prop) (body : nat -> A -> res A) n s s' : for_ n body s = Ok s' ->
  Q 0%nat s -> (forall i s s', (i < n)%nat -> Q i s -> body i s = Ok s' -> Q (S i) s') -> Q n s'.
Proof.
  unfold for_. intros E H0 HS.
  assert (G : forall m from s, (from + m = n)%nat -> Q from s -> for_from from m body s = Ok s' -> Q n s').
  { induction m as [|m IH]; intros from a Hm Ha Ea; simpl in Ea.
    - injection Ea as <-. now replace n with from by lia.
    - destruct (body from a) as [b| | | |] eqn:Eb; try discriminate Ea. cbn [bind] in Ea.
      apply (IH (S from) b); auto; [lia|]. apply (HS from a); auto. lia. }
  apply (G n 0%nat s); auto.
Qed.

Section Net.
Context {kind : Type} (kclass : kind -> LayerClass).
Context (kI kO kK : kind -> nat) (kInv : forall k, St (kclass k) -> Prop)
  (ksmooth : forall k, St (kclass k) -> mat -> Prop)
  (kfn : forall k, St (kclass k) -> bool -> nat -> (nat -> R) -> nat -> R) (krg : forall k, St (kclass k) -> R).
Context (ok : forall k, layer_ok (kclass k) (kI k) (kO k) (kK k) (kInv k) (ksmooth k) (kfn k) (krg k)).
Context (isInput : kind -> Prop).
Context (input : forall k, isInput k -> kK k = 0%nat /\ kI k = kO k /\
  (forall s X dropout, exists q, forwardPropagate (kclass k) s X dropout = Ok (q, X, 0)) /\
  (forall s e bp, exists q e', backpropagate (kclass k) s e bp = Ok (q, e') /\ (kInv k s -> kInv k q) /\
      same_fun (kclass k) (kO k) (kK k) (kfn k) (krg k) q s)).

Notation layer := (layer kclass).
Notation mkLayer := (mkLayer kclass).
Notation net := (net kclass).
Notation wired := (wired kclass kI kO).
Notation invs := (invs kclass kInv).
Notation count := (count kclass kK).
Notation installAll := (installAll kclass kK).
Notation readP := (readP kclass kK).
Notation readD := (readD kclass kK).
Notation smooth_run := (smooth_run kclass ksmooth).
Notation same_layers := (same_layers kclass kO kK kfn krg).
Notation rgs := (rgs kclass krg).
Notation fns := (fns kclass kfn).
Notation starts := (starts kclass isInput).
Notation ptrs := (ptrs kclass kK).
Notation layers := (layers kclass).
Notation setParameters := (setParameters kclass).
Notation with_layers := (with_layers kclass).
Notation with_input := (with_input kclass).
Notation with_output := (with_output kclass).
Notation with_error := (with_error kclass).
Notation with_vector := (with_vector kclass).
Notation net_forward := (net_forward kclass).
Notation net_backward := (net_backward kclass).
Notation error_at := (error_at kclass).
Notation errorGradient := (errorGradient kclass).
Notation P := (P kclass).
Notation errorFunction := (errorFunction kclass).
Notation dropout := (dropout kclass).
Notation trainSet := (trainSet kclass).
Notation tempOutput := (tempOutput kclass).
Notation infos := (infos kclass).
Notation parameters := (parameters kclass).
Notation derivatives := (derivatives kclass).

Record good (I O : nat) (s : net) : Prop := mkGood {
  g_starts : starts (layers s);
  g_wired : wired I (layers s) O;
  g_invs : invs (layers s);
  g_params : parameters s = ptrs 0 (layers s);
  g_derivs : derivatives s = ptrs 0 (layers s);
  g_P : P s = count (layers s);
  g_info : exists info, vget (infos s) (length (infos s) - 1) = Ok info /\ outputs info = O;
  g_grad : length (tempGradient kclass s) = P s }.

Lemma same_kinds a b : same_layers a b -> map (lkind kclass) a = map (lkind kclass) b.
Proof. induction 1; auto. simpl. f_equal; auto. destruct H; auto. Qed.

(** a change of layers that keeps their kinds and invariants *)
Lemma good_change I O s ls' s' : good I O s -> layers s' = ls' -> map (lkind kclass) ls' = map (lkind kclass) (layers s) ->
  invs ls' -> infos s' = infos s -> parameters s' = parameters s -> derivatives s' = derivatives s -> P s' = P s ->
  length (tempGradient kclass s') = length (tempGradient kclass s) -> good I O s'.
Proof.
  intros [H1 H2 H3 H4 H5 H6 H7 H8] E M V E1 E2 E3 E4 E5. constructor; rewrite ?E, ?E1, ?E2, ?E3, ?E4, ?E5; auto.
  - eapply map_kind_starts; eauto.
  - eapply map_kind_wired; eauto.
  - rewrite H4. symmetry. now apply map_kind_ptrs.
  - rewrite H5. symmetry. now apply map_kind_ptrs.
  - rewrite H6. symmetry. now apply map_kind_count.
Qed.

(** * setParameters *)
Lemma set_ok I O s p : good I O s -> length p = P s ->
  exists ls, setParameters s p = Ok (with_layers (with_vector s p) ls) /\ installAll (layers s) p = Ok ls /\
    invs ls /\ map (lkind kclass) ls = map (lkind kclass) (layers s) /\
    (forall k, (k < P s)%nat -> readP ls k = Ok p.[k]) /\ good I O (with_layers (with_vector s p) ls).
Proof.
  intros G Hp. pose proof G as [H1 H2 H3 H4 H5 H6 H7 H8]. rewrite H6 in Hp.
  destruct (installAll_Ok kclass kI kO kK kInv ksmooth kfn krg ok (layers s) p H3 Hp) as (ls & E & V & M & R).
  destruct (writeLs_Ok kclass kI kO kK kInv ksmooth kfn krg ok (layers s) p H3 Hp) as (ws & E1 & E2).
  exists ls. split; [|split; [|split; [|split; [|split]]]]; auto.
  - unfold Net_Model.setParameters. cbn [Net_Model.P Net_Model.parameters Net_Model.layers Net_Model.with_vector].
    rewrite H6. unfold for_.
    pose proof (writes_layers kclass kI kO kK kInv ksmooth kfn krg ok (parameters s) p (layers s) [] 0 p H3 Hp) as EW.
    cbn [app] in EW. rewrite EW.
    + rewrite E1. cbn [bind app]. rewrite E2, E. reflexivity.
    + intros i Hi. cbn [Nat.add length]. now rewrite H4.
  - intros k Hk. rewrite H6 in Hk. auto.
  - apply (good_change I O s ls); auto.
Qed.

Lemma installAll_same a : forall b p qa qb, invs a -> invs b -> map (lkind kclass) a = map (lkind kclass) b ->
  length p = count a -> installAll a p = Ok qa -> installAll b p = Ok qb -> same_layers qa qb.
Proof.
  induction a as [|x a IH]; intros [|y b] p qa qb Va Vb M Hp Ea Eb; try discriminate.
  - cbn in Ea, Eb. injection Ea as <-. injection Eb as <-. constructor.
  - destruct x as [k x], y as [k' y]. cbn [map lkind] in M. injection M as <- M.
    inversion Va as [|? ? V1 V2]; subst. inversion Vb as [|? ? V3 V4]; subst.
    cbn [NetChain_Proofs.installAll lkind lobj NetChain_Proofs.count] in *.
    assert (Hf : length (firstn (kK k) p) = kK k) by (rewrite firstn_length; lia).
    assert (Hs : length (skipn (kK k) p) = count a) by (rewrite skipn_length; lia).
    destruct (install (kclass k) x (firstn (kK k) p)) as [x'| | | |] eqn:E1; try discriminate Ea. cbn [bind] in Ea.
    destruct (install (kclass k) y (firstn (kK k) p)) as [y'| | | |] eqn:E2; try discriminate Eb. cbn [bind] in Eb.
    destruct (installAll a (skipn (kK k) p)) as [a'| | | |] eqn:E3; try discriminate Ea. cbn [bind] in Ea.
    destruct (installAll b (skipn (kK k) p)) as [b'| | | |] eqn:E4; try discriminate Eb. cbn [bind] in Eb.
    injection Ea as <-. injection Eb as <-. constructor.
    + constructor. apply (lo_install _ _ _ _ _ _ _ _ (ok k) x y (firstn (kK k) p)); auto.
    + eapply IH; eauto.
Qed.

(** * Forward passes *)
Lemma forward_net I O s X : good I O s -> cols X = I -> (errorFunction s = CE -> (0 < rows X)%nat /\ (0 < O)%nat) ->
  exists ls Y Yo, forwardLayers kclass (layers s) X (dropout s) = Ok (ls, Y, rgs (layers s)) /\
    outp (errorFunction s) Y = Ok Yo /\ size_is Y (rows X) O /\ size_is Yo (rows X) O /\
    net_forward (with_input s X) = Ok (with_output (with_layers (with_input s X) ls) Yo, rgs (layers s)) /\
    invs ls /\ same_layers ls (layers s) /\
    (forall n j, (n < rows X)%nat -> (j < O)%nat -> at_ Y n j = fns (layers s) (dropout s) n (at_ X n) j) /\
    (forall n j, (n < rows X)%nat -> (j < O)%nat -> at_ Yo n j = outrow (errorFunction s) O (at_ Y n) j) /\
    good I O (with_output (with_layers (with_input s X) ls) Yo).
Proof.
  intros G HX HC. pose proof G as [H1 H2 H3 H4 H5 H6 (info & H7 & H8) H9].
  destruct (forward_all kclass kI kO kK kInv ksmooth kfn krg ok (layers s) I O X (dropout s) H2 H3 HX)
    as (ls & Y & E & V & S & R & C & F).
  destruct (outp_rows (errorFunction s) Y (rows X) O) as (Yo & Eo & So & Fo); [split; auto|auto|].
  exists ls, Y, Yo. split; auto. split; auto. split; [split; auto|]. split; auto. split.
  { unfold Net_Model.net_forward. cbn [Net_Model.layers Net_Model.with_input Net_Model.tempInput Net_Model.dropout Net_Model.infos Net_Model.errorFunction].
    rewrite E. cbn [bind]. rewrite H7. cbn [bind]. rewrite H8, C, Nat.eqb_refl. cbn [check bind].
    change (match errorFunction s with MSE => Ok Y | CE => softmax Y end) with (outp (errorFunction s) Y).
    rewrite Eo. reflexivity. }
  split; auto. split; auto. split; auto. split; auto.
  apply (good_change I O s ls); auto. now apply same_kinds.
Qed.

Definition data_fits (d : trainData) (I O : nat) : Prop :=
  cols (dataIn d) = I /\ cols (dataOut d) = O /\ rows (dataIn d) = rows (dataOut d).

(** the network's output for one row *)
Definition netrow (s : net) (O n : nat) (x : nat -> R) (j : nat) : R :=
  outrow (errorFunction s) O (fns (layers s) (dropout s) n x) j.

(** two objects that differ only in temporary values *)
Definition same_net (q s : net) : Prop :=
  same_layers (layers q) (layers s) /\ errorFunction q = errorFunction s /\ dropout q = dropout s /\
  trainSet q = trainSet s /\ P q = P s /\ parameterVector kclass q = parameterVector kclass s /\ infos q = infos s.

Lemma error_at_ok I O s d n : good I O s -> trainSet s = Some d -> data_fits d I O -> (n < rows (dataIn d))%nat ->
  (errorFunction s = CE -> (0 < O)%nat) ->
  exists s', error_at s n = Ok (s', rowloss (errorFunction s) O (netrow s O 0 (at_ (dataIn d) n)) (at_ (dataOut d) n) + rgs (layers s)) /\
    good I O s' /\ same_net s' s.
Proof.
  intros G Hd (D1 & D2 & D3) Hn HO.
  set (x := mkMat 1 (cols (dataIn d)) (fun _ j => at_ (dataIn d) n j)).
  set (t := mkMat 1 (cols (dataOut d)) (fun _ j => at_ (dataOut d) n j)).
  destruct (forward_net I O s x G) as (ls & Y & Yo & E & Eo & SY & SYo & En & V & Sm & F & Fo & G'); auto.
  exists (with_output (with_layers (with_input s x) ls) Yo).
  assert (L : loss (errorFunction s) Yo t = Ok (rowloss (errorFunction s) O (netrow s O 0 (at_ (dataIn d) n)) (at_ (dataOut d) n))).
  { rewrite (loss_rows _ _ _ 1 O); [|exact SYo|split; auto|lia]. f_equal. cbn [rsum]. rewrite Rplus_0_l.
    transitivity (rowloss (errorFunction s) O (at_ Yo 0) (at_ t 0)); [simpl; field|].
    apply rowloss_ext; auto. intros k Hk. rewrite Fo by (simpl; auto). unfold netrow. apply outrow_ext; auto.
    intros j Hj. rewrite F by (simpl; auto). reflexivity. }
  split; [|split; [exact G'|]].
  - unfold Net_Model.error_at. rewrite Hd. unfold rowOf. rewrite (proj2 (Nat.ltb_lt _ _)) by auto. cbn [check bind]. fold x.
    rewrite En. cbn [bind]. rewrite (proj2 (Nat.ltb_lt _ _)) by lia. cbn [check bind]. fold t.
    cbn [Net_Model.errorFunction Net_Model.with_output Net_Model.with_layers Net_Model.with_input Net_Model.tempOutput].
    unfold loss in L. destruct (errorFunction s).
    + destruct (mmap2 Rminus Yo t) as [D| | | |]; try discriminate L. cbn [bind] in *. injection L as L. rewrite L. reflexivity.
    + rewrite L. reflexivity.
  - unfold same_net. cbn. auto 10.
Qed.

(** * Batches *)
Definition batch_of (m : mat) (idx : list nat) (X : mat) : Prop :=
  size_is X (length idx) (cols m) /\ forall n j, (n < length idx)%nat -> at_ X n j = at_ m (nth n idx 0%nat) j.

Lemma batch_loop d idx X0 T0 : rows (dataIn d) = rows (dataOut d) -> Forall (fun n => (n < rows (dataIn d))%nat) idx ->
  size_is X0 (length idx) (cols (dataIn d)) -> size_is T0 (length idx) (cols (dataOut d)) ->
  exists X T, for_ (length idx) (fun n '(X, T) =>
          i <- vget idx n ;;
          x <- rowOf (dataIn d) i ;; X <- msetRow X n x ;;
          t <- rowOf (dataOut d) i ;; T <- msetRow T n t ;; Ok (X, T)) (X0, T0) = Ok (X, T) /\
    batch_of (dataIn d) idx X /\ batch_of (dataOut d) idx T.
Proof.
  intros Hr Hi SX ST.
  match goal with |- context [for_ _ ?b _] => set (body := b) end.
  destruct (for_inv (fun k (st : mat * mat) => size_is (fst st) (length idx) (cols (dataIn d)) /\
      size_is (snd st) (length idx) (cols (dataOut d)) /\
      forall n j, (n < k)%nat -> at_ (fst st) n j = at_ (dataIn d) (nth n idx 0%nat) j /\
                   at_ (snd st) n j = at_ (dataOut d) (nth n idx 0%nat) j) body (length idx) (X0, T0))
    as ([X T] & E & S1 & S2 & F).
  - split; auto. split; auto. intros; lia.
  - intros k [X T] Hk (S1 & S2 & F). cbn [fst snd] in *. unfold body.
    rewrite (vget_nth idx k 0%nat) by auto. cbn [bind]. set (i := nth k idx 0%nat).
    assert (Hin : (i < rows (dataIn d))%nat).
    { rewrite Forall_forall in Hi. apply Hi. apply nth_In. auto. }
    unfold rowOf. rewrite (proj2 (Nat.ltb_lt i (rows (dataIn d)))) by auto. cbn [check bind].
    destruct S1 as (S11 & S12), S2 as (S21 & S22).
    unfold msetRow at 1. cbn [cols]. rewrite S11, S12, Nat.eqb_refl, (proj2 (Nat.ltb_lt k _)) by auto. cbn [andb bind].
    rewrite (proj2 (Nat.ltb_lt i (rows (dataOut d)))) by lia. cbn [check bind].
    unfold msetRow. cbn [cols]. rewrite S21, S22, Nat.eqb_refl, (proj2 (Nat.ltb_lt k _)) by auto. cbn [andb bind].
    eexists. split; [reflexivity|]. cbn [fst snd]. split; [split; auto|]. split; [split; auto|].
    intros n j Hn. cbn [at_]. destruct (Nat.eqb_spec n k) as [->|]; auto. apply F. lia.
  - exists X, T. split; [exact E|]. split; split; auto; intros n j Hn; now apply F.
Qed.

(** the error of a batch *)
Definition batchloss (s : net) (d : trainData) (idx : list nat) (O : nat) : R :=
  rsum (length idx) (fun i => rowloss (errorFunction s) O (netrow s O i (at_ (dataIn d) (nth i idx 0%nat))) (at_ (dataOut d) (nth i idx 0%nat)))
    / INR (length idx).
(** the function whose gradient is computed *)
Definition batchobj (s : net) (d : trainData) (idx : list nat) (O : nat) : R :=
  rsum (length idx) (fun i => rowobj (errorFunction s) O (netrow s O i (at_ (dataIn d) (nth i idx 0%nat))) (at_ (dataOut d) (nth i idx 0%nat)))
    / INR (length idx).

Lemma D_batch ef O N (Y : R -> mat) (Y' : nat -> nat -> R) (T : mat) (ein : mat) (reg : R -> R) reg' t0 : (0 < N)%nat ->
  (forall n j, (n < N)%nat -> (j < O)%nat -> D (fun t => at_ (Y t) n j) t0 (Y' n j)) ->
  (ef = CE -> (0 < O)%nat /\ forall n, (n < N)%nat -> rsum O (at_ T n) = 1) ->
  (forall n j, (n < N)%nat -> (j < O)%nat -> at_ ein n j = outrow ef O (at_ (Y t0) n) j - at_ T n j) ->
  D reg t0 reg' ->
  D (fun t => rsum N (fun n => rowobj ef O (outrow ef O (at_ (Y t) n)) (at_ T n)) / INR N + reg t / INR N) t0
    ((inner N O (at_ ein) Y' + reg') / INR N).
Proof.
  intros HN HY HT He HR. assert (HN' : INR N <> 0) by (apply not_0_INR; lia).
  apply (D_ext (fun t => / INR N * (rsum N (fun n => rowobj ef O (outrow ef O (at_ (Y t) n)) (at_ T n)) + reg t))).
  { intros t. field. auto. }
  eapply D_eq; [|apply D_scal; apply D_plus; [|exact HR]].
  2:{ apply (D_sum N (fun n t => rowobj ef O (outrow ef O (at_ (Y t) n)) (at_ T n))). intros n Hn.
      apply (D_rowobj ef O (fun t => at_ (Y t) n) (Y' n)); auto.
      intros HC. destruct (HT HC). auto. }
  unfold inner. rewrite (rsum_ext N _ (fun n => rsum O (fun j => at_ ein n j * Y' n j))).
  - field. auto.
  - intros n Hn. apply rsum_ext. intros j Hj. now rewrite He.
Qed.

Lemma gradient_loop s grad (G : nat -> R) : length (derivatives s) = P s -> length grad = P s ->
  (forall k, (k < P s)%nat -> exists ptr, vget (derivatives s) k = Ok ptr /\ loadDeriv kclass (layers s) ptr = Ok (G k)) ->
  exists g, for_ (P s) (fun p grad => ptr <- vget (derivatives s) p ;; v <- loadDeriv kclass (layers s) ptr ;; vset grad p v) grad = Ok g /\
    length g = P s /\ forall k, (k < P s)%nat -> g.[k] = G k.
Proof.
  intros Hl Hg H.
  destruct (for_inv (fun k (g : list R) => length g = P s /\ forall i, (i < k)%nat -> g.[i] = G i)
    (fun p grad => ptr <- vget (derivatives s) p ;; v <- loadDeriv kclass (layers s) ptr ;; vset grad p v) (P s) grad)
    as (g & E & L & F).
  - split; auto. intros; lia.
  - intros i g Hi (L & F). destruct (H i Hi) as (ptr & E1 & E2). rewrite E1. cbn [bind]. rewrite E2. cbn [bind].
    rewrite vset_Ok by lia. eexists. split; [reflexivity|]. split; [now rewrite upd_length|].
    intros k Hk. rewrite nth_upd by lia. destruct (Nat.eqb_spec i k) as [->|]; auto. apply F. lia.
  - exists g. auto.
Qed.

(** every component of the gradient of a batch *)
Lemma batch_gradient junk I O s d idx p grad : good I O s -> trainSet s = Some d -> data_fits d I O ->
  (0 < length idx)%nat -> Forall (fun n => (n < rows (dataIn d))%nat) idx ->
  length p = P s -> length grad = P s ->
  (errorFunction s = CE -> (0 < O)%nat /\ Forall (fun n => rsum O (at_ (dataOut d) n) = 1) idx) ->
  (forall s1 X, setParameters s p = Ok s1 -> batch_of (dataIn d) idx X -> smooth_run (layers s1) X (dropout s)) ->
  exists s1 s2 g, setParameters s p = Ok s1 /\
    errorGradient junk s1 idx grad = Ok (s2, batchloss s1 d idx O + rgs (layers s1), g) /\
    length g = P s /\ good I O s2 /\ same_net s2 s1 /\
    forall k, (k < P s)%nat -> exists q : R -> net, (forall v, setParameters s (upd p k v) = Ok (q v)) /\
      D (fun v => batchobj (q v) d idx O + rgs (layers (q v)) / INR (length idx)) p.[k] g.[k].
Proof.
  intros G Hd (D1 & D2 & D3) HN Hidx Hp Hgrad HC HS. set (N := length idx) in *.
  destruct (set_ok I O s p G Hp) as (ls & Es & Ei & V & M & R & G1).
  set (s1 := with_layers (with_vector s p) ls) in *.
  (* the input and the target *)
  destruct (batch_loop d idx (mconsresize junk (Net_Model.tempInput kclass s1) N (cols (dataIn d))) (mkMat N (cols (dataOut d)) junk))
    as (X & T & EXT & BX & BT); auto; [split; auto|split; auto|].
  pose proof BX as (SX & FX). pose proof BT as (ST & FT). fold N in SX, FX, ST, FT, EXT.
  assert (Hsm : smooth_run ls X (dropout s)) by exact (HS s1 X Es BX).
  (* the forward pass *)
  destruct (forward_net I O s1 X G1) as (ls2 & Y & Yo & E & Eo & SY & SYo & En & V2 & Sm & F & Fo & G2).
  { destruct SX. congruence. }
  { intros HCE. destruct (HC HCE). split; auto. destruct SX. lia. }
  assert (RX : rows X = N) by apply SX. rewrite RX in *.
  set (ein := mkMat N O (fun i j => at_ Yo i j - at_ T i j)).
  assert (ST' : size_is T N O) by (destruct ST; split; congruence).
  assert (Ee : mmap2 Rminus Yo T = Ok ein) by (rewrite (mmap2_Ok _ _ _ N O) by auto; reflexivity).
  (* the chain rule along constant parameters: the run itself *)
  pose proof G as [H1 H2 H3 H4 H5 H6 H7 H8].
  assert (SX' : size_is X N I) by (destruct SX; split; congruence).
  destruct (chain_net kclass kI kO kK kInv ksmooth kfn krg ok isInput input (layers s) I O (dropout s) N 0
     (fun _ => p) (fun _ => 0) X H1 H2 H3) as (q1 & Yt & regt & Y' & reg' & HF & HY & _ & _ & HB); auto.
  { intros; lia. }
  { intros. apply D_const. }
  { intros qs Eqs. rewrite Ei in Eqs. injection Eqs as <-. auto. }
  destruct (HF 0) as (q & Eq & Ef). rewrite Ei in Eq. injection Eq as <-.
  change (dropout s) with (dropout s1) in Ef. change ls with (layers s1) in Ef. rewrite E in Ef. injection Ef as Ef1 Ef2 Ef3.
  destruct (HB ein) as (q2 & eout & g & EB & Hg & _); [split; auto|].
  rewrite <- Ef1 in EB.
  destruct (back_net kclass kI kO kK kInv ksmooth kfn krg ok isInput input (layers s1) I O X (dropout s1) ls2 Y (rgs (layers s1)) ein q2 eout)
    as (V3 & Sm3); auto.
  { apply G1. } { apply G1. } { destruct SX. congruence. }
  set (sf := with_error (with_output (with_layers (with_input s1 X) ls2) Yo) ein) in *.
  set (sb := with_layers sf q2).
  assert (M2 : map (lkind kclass) q2 = map (lkind kclass) (layers s)).
  { rewrite (same_kinds _ _ Sm3), (same_kinds _ _ Sm). exact M. }
  assert (Gb : good I O sb) by (apply (good_change I O s q2); auto).
  destruct (gradient_loop sb grad g) as (g1 & Eg & Lg & Fg).
  { rewrite (g_derivs _ _ _ Gb), (ptrs_length kclass kK). symmetry. apply (g_P _ _ _ Gb). }
  { exact Hgrad. }
  { intros k Hk. destruct (load_ptrs kclass kK (layers sb) [] k) as (ptr & E1 & _ & E3).
    { rewrite <- (g_P _ _ _ Gb). exact Hk. }
    exists ptr. rewrite (g_derivs _ _ _ Gb). split; auto. cbn [app] in E3. rewrite E3. apply Hg.
    rewrite <- H6. exact Hk. }
  exists s1, sb, (map (fun x => x / INR N) g1). split; auto. split; [|split; [|split; [|split]]].
  - assert (LL : loss (errorFunction s1) Yo T = Ok (batchloss s1 d idx O)).
    { rewrite (loss_rows _ _ _ N O) by auto. f_equal. unfold batchloss. fold N. f_equal. apply rsum_ext. intros n Hn.
      apply rowloss_ext.
      - intros j Hj. rewrite Fo by auto. unfold netrow. apply outrow_ext; auto. intros k Hk. rewrite F by auto.
        apply (fns_ext kclass kI kO kK kInv ksmooth kfn krg ok (layers s1) I O); auto; apply G1.
      - intros j Hj. auto. }
    unfold Net_Model.errorGradient. change (trainSet s1) with (trainSet s). rewrite Hd. fold N. rewrite EXT. cbn [bind].
    rewrite En. cbn [bind]. change (tempOutput (with_output (with_layers (with_input s1 X) ls2) Yo)) with Yo. rewrite Ee. cbn [bind].
    fold sf. change (errorFunction sf) with (errorFunction s1). change (tempOutput sf) with Yo.
    assert (Lv : match errorFunction s1 with MSE => Ok (meanSquaredError ein) | CE => crossEntropy Yo T end = Ok (batchloss s1 d idx O)).
    { unfold loss in LL. destruct (errorFunction s1); auto. rewrite Ee in LL. exact LL. }
    rewrite Lv. cbn [bind]. unfold Net_Model.net_backward. change (layers sf) with ls2. change (Net_Model.tempError kclass sf) with ein.
    rewrite EB. cbn [bind]. fold sb. rewrite Eg. cbn [bind]. rewrite Rplus_comm. reflexivity.
  - rewrite map_length. exact Lg.
  - exact Gb.
  - unfold same_net. cbn. split; [|auto 10]. eapply same_layers_trans; [exact Sm3|exact Sm].
  - intros k Hk.
    (* the run with a varying parameter k *)
    assert (Hk' : (k < length p)%nat) by lia.
    exists (fun v => match setParameters s (upd p k v) with Ok q => q | _ => s end).
    assert (Qv : forall v, exists lv, setParameters s (upd p k v) = Ok (with_layers (with_vector s (upd p k v)) lv) /\
                 installAll (layers s) (upd p k v) = Ok lv /\ invs lv /\ good I O (with_layers (with_vector s (upd p k v)) lv)).
    { intros v. destruct (set_ok I O s (upd p k v) G) as (lv & A1 & A2 & A3 & A4 & A5 & A6); [now rewrite upd_length|].
      exists lv. auto. }
    split. { intros v. destruct (Qv v) as (lv & E1 & _). now rewrite E1. }
    destruct (chain_net kclass kI kO kK kInv ksmooth kfn krg ok isInput input (layers s) I O (dropout s) N p.[k]
       (fun v => upd p k v) (fun k' => if Nat.eqb k' k then 1 else 0) X H1 H2 H3)
      as (r1 & Z & rg & Z' & rg' & KF & KZ & KD & Kr & KB); auto.
    { intros. rewrite upd_length. lia. }
    { intros k' _. now apply D_upd. }
    { intros qs Eqs. rewrite upd_id, Ei in Eqs. injection Eqs as <-. auto. }
    destruct (KB ein) as (q2' & eout' & g' & EB' & Hg' & EQ); [split; auto|].
    destruct (KF p.[k]) as (q' & Eq' & Ef'). rewrite upd_id, Ei in Eq'. injection Eq' as <-.
    change (dropout s) with (dropout s1) in Ef'. change ls with (layers s1) in Ef'. rewrite E in Ef'. injection Ef' as Ef1' Ef2' Ef3'.
    rewrite <- Ef1', EB in EB'. injection EB' as <- <-.
    assert (Hgk : g1.[k] = g' k).
    { rewrite Fg by exact Hk. assert (A : readD q2 k = Ok (g k)) by (apply Hg; lia).
      rewrite Hg' in A by lia. now injection A as ->. }
    assert (EN : (map (fun x => x / INR N) g1).[k] = g' k / INR N).
    { rewrite (nth_indep (map (fun x => x / INR N) g1) 0 (0 / INR N)) by (rewrite map_length, Lg; exact Hk).
      rewrite (map_nth (fun x => x / INR N)). now rewrite Hgk. }
    rewrite EN.
    rewrite (rsum_single (count (layers s)) k) in EQ.
    2:{ lia. } 2:{ intros j _ Hj. rewrite (proj2 (Nat.eqb_neq j k)) by auto. ring. }
    rewrite Nat.eqb_refl, Rmult_1_r in EQ. rewrite <- EQ.
    apply (D_ext (fun v => rsum N (fun n => rowobj (errorFunction s) O (outrow (errorFunction s) O (at_ (Z v) n)) (at_ T n)) / INR N + rg v / INR N)).
    + intros v. destruct (Qv v) as (lv & E1 & E2 & E3 & E4). rewrite E1.
      destruct (KF v) as (q' & Eq' & Ef'). rewrite E2 in Eq'. injection Eq' as <-.
      destruct (forward_all kclass kI kO kK kInv ksmooth kfn krg ok lv I O X (dropout s)) as (l5 & Y5 & E5 & _ & _ & R5 & C5 & F5); auto.
      { apply E4. } { destruct SX; congruence. }
      rewrite Ef' in E5. injection E5 as _ EY Er. f_equal.
      * unfold batchobj. fold N. cbn [Net_Model.errorFunction Net_Model.with_layers Net_Model.with_vector]. f_equal.
        apply rsum_ext. intros n Hn. apply rowobj_ext.
        -- intros j Hj. unfold netrow. apply outrow_ext; auto. intros j' Hj'. rewrite EY, F5; auto; [|lia].
           cbn [Net_Model.layers Net_Model.with_layers Net_Model.dropout Net_Model.with_vector].
           apply (fns_ext kclass kI kO kK kInv ksmooth kfn krg ok lv I O); auto. apply E4.
        -- intros j Hj. auto.
      * cbn [Net_Model.layers Net_Model.with_layers]. now rewrite Er.
    + apply (D_batch (errorFunction s) O N Z Z' T ein rg rg'); auto.
      * intros HCE. destruct (HC HCE) as (HO & HT). split; auto. intros n Hn.
        rewrite (rsum_ext O _ (at_ (dataOut d) (nth n idx 0%nat))) by (intros; auto).
        rewrite Forall_forall in HT. apply HT. apply nth_In. exact Hn.
      * intros n j Hn Hj. cbn [at_ ein]. rewrite Fo by auto. rewrite <- Ef2'. reflexivity.
Qed.

(** * Calls keep the network as it is *)
Lemma same_net_refl s : same_net s s.
Proof. unfold same_net. split; [apply same_layers_refl|auto 10]. Qed.
Lemma same_net_trans a b c : same_net a b -> same_net b c -> same_net a c.
Proof.
  intros (A1 & A2 & A3 & A4 & A5 & A6 & A7) (B1 & B2 & B3 & B4 & B5 & B6 & B7).
  split; [eapply same_layers_trans; eauto|]. repeat (split; [congruence|]). congruence.
Qed.

Lemma error_at_pres I O s n s' v : good I O s -> (forall d, trainSet s = Some d -> data_fits d I O) -> (0 < O)%nat ->
  error_at s n = Ok (s', v) -> good I O s' /\ same_net s' s.
Proof.
  intros G F HO E. destruct (trainSet s) as [d|] eqn:Hd.
  - assert (Hn : (n < rows (dataIn d))%nat).
    { unfold Net_Model.error_at in E. rewrite Hd in E. unfold rowOf in E.
      destruct (Nat.ltb_spec n (rows (dataIn d))); auto. discriminate E. }
    destruct (error_at_ok I O s d n G Hd (F d eq_refl) Hn) as (s1 & E1 & G1 & S1); auto.
    rewrite E in E1. injection E1 as <- _. auto.
  - unfold Net_Model.error_at in E. rewrite Hd in E. discriminate.
Qed.

Lemma error_pres I O s s' v : good I O s -> (forall d, trainSet s = Some d -> data_fits d I O) -> (0 < O)%nat ->
  error kclass s = Ok (s', v) -> good I O s' /\ same_net s' s.
Proof.
  intros G F HO E. unfold error, for_ in E.
  refine (for_pres (fun st : net * R => good I O (fst st) /\ same_net (fst st) s) _ _ _ _ _ _ E _).
  - intros i [a e] [b e'] Eb (Ga & Sa). cbn [fst] in *. ok_inv Eb. injection Eb as <- _.
    destruct (error_at_pres I O a i n r) as (Gb & Sb); auto.
    { destruct Sa as (_ & _ & _ & -> & _). auto. }
    split; auto. eapply same_net_trans; eauto.
  - split; auto. apply same_net_refl.
Qed.

Lemma errorGradient_pres junk I O s idx grad s' v g : good I O s -> (forall d, trainSet s = Some d -> data_fits d I O) ->
  (0 < O)%nat -> idx <> [] -> length grad = P s -> errorGradient junk s idx grad = Ok (s', v, g) ->
  good I O s' /\ same_net s' s /\ length g = P s.
Proof.
  intros G F HO Hidx Hgrad E. unfold Net_Model.errorGradient in E. destruct (trainSet s) as [d|] eqn:Hd; [|discriminate E].
  destruct (F d eq_refl) as (D1 & D2 & D3). set (N := length idx) in *.
  assert (HN : (0 < N)%nat) by (unfold N; destruct idx; [easy|simpl; lia]).
  match type of E with bind (for_ N ?b ?i) _ = _ => destruct (for_ N b i) as [[X T]| | | |] eqn:EX; try discriminate E end.
  cbn [bind] in E.
  assert (SX : size_is X N I).
  { refine (proj1 (for_pres (fun st : mat * mat => size_is (fst st) N I /\ True) _ N _ _ _ _ EX _)).
    - intros i [a b] [a' b'] Eb (Sa & _). cbn [fst] in *. ok_inv Eb. injection Eb as <- _. split; auto.
      match goal with H : msetRow a i ?r = Ok _ |- _ => unfold msetRow in H;
        destruct (Nat.ltb i (rows a) && Nat.eqb (cols a) (cols r))%bool; [|discriminate]; injection H as <- end. exact Sa.
    - cbn. split; auto. split; auto. }
  assert (HX : cols X = I) by apply SX. assert (RX : rows X = N) by apply SX.
  destruct (forward_net I O s X G HX) as (ls & Y & Yo & Ef & Eo & SY & SYo & En & V & Sm & Fy & Fo & G').
  { intros _. lia. }
  rewrite En in E. cbn [bind] in E.
  destruct (mmap2 Rminus (tempOutput (with_output (with_layers (with_input s X) ls) Yo)) T) as [e| | | |] eqn:Ee; try discriminate E.
  cbn [bind] in E.
  assert (Se : size_is e N O).
  { unfold mmap2 in Ee. destruct (same_size _ T); [|discriminate]. injection Ee as <-. rewrite <- RX. exact SYo. }
  match type of E with bind ?m _ = _ => destruct m as [v0| | | |]; try discriminate E end. cbn [bind] in E.
  unfold Net_Model.net_backward in E.
  change (layers (with_error (with_output (with_layers (with_input s X) ls) Yo) e)) with ls in E.
  change (Net_Model.tempError kclass (with_error (with_output (with_layers (with_input s X) ls) Yo) e)) with e in E.
  destruct (backLayers kclass ls 1 e) as [[q2 eout]| | | |] eqn:EB; try discriminate E. cbn [bind] in E.
  destruct (back_net kclass kI kO kK kInv ksmooth kfn krg ok isInput input (layers s) I O X (dropout s) ls Y (rgs (layers s)) e q2 eout)
    as (V3 & Sm3); auto.
  { apply G. } { apply G. } { apply G. } { destruct Se. congruence. } { apply Se. }
  match type of E with bind (for_ _ _ _) _ = Ok _ => idtac end.
  set (sb := with_layers (with_error (with_output (with_layers (with_input s X) ls) Yo) e) q2) in *.
  match type of E with bind ?m _ = _ => destruct m as [g1| | | |] eqn:Eg; try discriminate E end. cbn [bind] in E.
  injection E as <- _ <-.
  assert (S2 : same_layers q2 (layers s)) by (eapply same_layers_trans; eauto).
  split; [|split].
  - apply (good_change I O s q2); auto. now apply same_kinds.
  - unfold same_net. cbn. auto 10.
  - rewrite map_length.
    refine (for_pres (fun g : list R => length g = P s) _ _ _ _ _ _ Eg Hgrad).
    intros i a b Eb La. ok_inv Eb. unfold vset in Eb. destruct (Nat.ltb i (length a)); [|discriminate]. injection Eb as <-.
    now rewrite upd_length.
Qed.

(** what errorGradient returns as the value *)
Lemma errorGradient_value junk I O s d idx grad s' v g : good I O s -> trainSet s = Some d -> data_fits d I O ->
  (0 < O)%nat -> idx <> [] -> errorGradient junk s idx grad = Ok (s', v, g) ->
  Forall (fun n => (n < rows (dataIn d))%nat) idx /\ v = batchloss s d idx O + rgs (layers s).
Proof.
  intros G Hd (D1 & D2 & D3) HO Hidx E. unfold Net_Model.errorGradient in E. rewrite Hd in E. set (N := length idx) in *.
  assert (HN : (0 < N)%nat) by (unfold N; destruct idx; [easy|simpl; lia]).
  match type of E with bind (for_ N ?b ?i) _ = _ => destruct (for_ N b i) as [[X T]| | | |] eqn:EX; try discriminate E end.
  cbn [bind] in E.
  assert (Hin : Forall (fun n => (n < rows (dataIn d))%nat) idx).
  { pose proof (for_ok (fun k (_ : mat * mat) => forall n, (n < k)%nat -> (nth n idx 0 < rows (dataIn d))%nat) _ N _ _ EX) as F.
    apply Forall_forall. intros x Hx. destruct (In_nth _ _ 0%nat Hx) as (n & Hn & <-). apply F; auto.
    - intros; lia.
    - intros i [a b] st Hi IH Eb n0 Hn0. ok_inv Eb. assert (n0 = i \/ (n0 < i)%nat) as [->|] by lia; auto.
      rewrite (vget_nth idx i 0%nat) in E0 by auto. injection E0 as E0. rewrite E0.
      match goal with H : rowOf (dataIn d) ?i = Ok _ |- _ => unfold rowOf in H;
        destruct (Nat.ltb_spec i (rows (dataIn d))); [auto|discriminate H] end. }
  split; auto.
  destruct (batch_loop d idx (mconsresize junk (Net_Model.tempInput kclass s) N (cols (dataIn d))) (mkMat N (cols (dataOut d)) junk))
    as (X1 & T1 & EXT & BX & BT); auto; [split; auto|split; auto|].
  fold N in EXT. rewrite EXT in EX. injection EX as -> ->.
  pose proof BX as (SX & FX). pose proof BT as (ST & FT). fold N in SX, FX, ST, FT.
  assert (ST' : size_is T N O) by (destruct ST; split; congruence).
  destruct (forward_net I O s X G) as (ls2 & Y & Yo & Ef & Eo & SY & SYo & En & V2 & Sm & F & Fo & G2).
  { destruct SX. congruence. }
  { intros HCE. split; auto. destruct SX. lia. }
  assert (RX : rows X = N) by apply SX. rewrite RX in *.
  assert (LL : loss (errorFunction s) Yo T = Ok (batchloss s d idx O)).
  { rewrite (loss_rows _ _ _ N O) by auto. f_equal. unfold batchloss. fold N. f_equal. apply rsum_ext. intros n Hn.
    apply rowloss_ext.
    - intros j Hj. rewrite Fo by auto. unfold netrow. apply outrow_ext; auto. intros k Hk. rewrite F by auto.
      apply (fns_ext kclass kI kO kK kInv ksmooth kfn krg ok (layers s) I O); auto; apply G.
    - intros j Hj. auto. }
  rewrite En in E. cbn [bind] in E.
  change (tempOutput (with_output (with_layers (with_input s X) ls2) Yo)) with Yo in E.
  set (ein := mkMat N O (fun i j => at_ Yo i j - at_ T i j)).
  assert (Ee : mmap2 Rminus Yo T = Ok ein) by (rewrite (mmap2_Ok _ _ _ N O) by auto; reflexivity).
  rewrite Ee in E. cbn [bind] in E.
  change (errorFunction (with_error (with_output (with_layers (with_input s X) ls2) Yo) ein)) with (errorFunction s) in E.
  change (tempOutput (with_error (with_output (with_layers (with_input s X) ls2) Yo) ein)) with Yo in E.
  assert (Lv : match errorFunction s with MSE => Ok (meanSquaredError ein) | CE => crossEntropy Yo T end = Ok (batchloss s d idx O)).
  { unfold loss in LL. destruct (errorFunction s); auto. rewrite Ee in LL. exact LL. }
  rewrite Lv in E. cbn [bind] in E. ok_inv E. injection E as _ <- _. ring.
Qed.
End Net.