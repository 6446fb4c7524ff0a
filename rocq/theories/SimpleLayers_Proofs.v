(** Proofs about Dropout, Extreme, IntrinsicPlasticity and Compressed. *)
From Verif Require Import Base BaseFacts Matrix RSum MatOps Vec Deriv Activation_Model
  Activation_Proofs Layer_Model Layer_Spec Layer_Proofs Layer_Layout FC_Model Reg_Proofs SimpleLayers_Model.
Local Open Scope R_scope.

(** * Dropout *)
Definition dropout_factor (s : dropoutLayer) (dropout : bool) (n i : nat) : R :=
  if dropout then (if Rltb (drnd s (dpass s) n i) (dprob s) then 0 else 1)
  else if Rltb 0 (dprob s) then 1 - dprob s else 1.

Definition dropout_inv (I : nat) (s : dropoutLayer) : Prop := dI s = I /\ cols (dmask s) = I.

Lemma dropout_forward_ok junk I s x dropout N : dropout_inv I s -> size_is x N I ->
  exists q y, dropout_forward junk s x dropout = Ok (q, y, 0) /\ size_is y N I /\ dropout_inv I q /\
    (forall n i, (n < N)%nat -> (i < I)%nat -> at_ y n i = dropout_factor s dropout n i * at_ x n i) /\
    size_is (dmask q) N I /\
    (forall n i, (n < N)%nat -> (i < I)%nat -> at_ (dmask q) n i = dropout_factor s dropout n i).
Proof.
  intros (H1 & H2) (X1 & X2). unfold dropout_forward. rewrite X1, H2, H1.
  set (m0 := mmap (fun _ => 1) (mconsresize junk (dmask s) N I)).
  assert (Hm : exists m, (if dropout then
             for_ N (fun n mask =>
               for_ I (fun i mask =>
                 if Rltb (drnd s (dpass s) n i) (dprob s) then mset mask n i 0 else Ok mask) mask) m0
           else if Rltb 0 (dprob s) then Ok (mmap (fun m => m * (1 - dprob s)) m0)
           else Ok m0) = Ok m /\ size_is m N I /\
           forall n i, (n < N)%nat -> (i < I)%nat -> at_ m n i = dropout_factor s dropout n i).
  { unfold dropout_factor. destruct dropout.
    - destruct (for_inv (fun k (m : mat) => size_is m N I /\ forall n i, (n < N)%nat -> (i < I)%nat ->
          at_ m n i = if Nat.ltb n k then (if Rltb (drnd s (dpass s) n i) (dprob s) then 0 else 1) else 1)
        (fun n mask => for_ I (fun i mask =>
                 if Rltb (drnd s (dpass s) n i) (dprob s) then mset mask n i 0 else Ok mask) mask) N m0)
        as (m & E & S1 & F).
      + split; [split; reflexivity|]. intros. reflexivity.
      + intros k m Hk (Sm & Fm).
        destruct (for_inv (fun l (m : mat) => size_is m N I /\ forall n i, (n < N)%nat -> (i < I)%nat ->
          at_ m n i = if (Nat.ltb n k || (Nat.eqb n k && Nat.ltb i l))%bool
            then (if Rltb (drnd s (dpass s) n i) (dprob s) then 0 else 1) else 1)
          (fun i mask => if Rltb (drnd s (dpass s) k i) (dprob s) then mset mask k i 0 else Ok mask) I m)
          as (m' & E' & S' & F').
        * split; auto. intros n i Hn Hi. rewrite Fm by auto.
          destruct (Nat.ltb_spec n k), (Nat.eqb_spec n k), (Nat.ltb_spec i 0); auto; lia.
        * intros l ml Hl ((Sl1 & Sl2) & Fl).
          assert (HL : forall n i, (Nat.ltb n k || (Nat.eqb n k && Nat.ltb i (S l)))%bool =
            ((Nat.eqb n k && Nat.eqb i l) || (Nat.ltb n k || (Nat.eqb n k && Nat.ltb i l)))%bool).
          { intros n i. destruct (Nat.ltb_spec n k), (Nat.eqb_spec n k), (Nat.ltb_spec i (S l)), (Nat.eqb_spec i l), (Nat.ltb_spec i l); auto; lia. }
          destruct (Rltb (drnd s (dpass s) k l) (dprob s)) eqn:Er.
          -- rewrite mset_Ok by lia. eexists. split; [reflexivity|]. split; [split; auto|].
             intros n i Hn Hi. rewrite at_mupd, HL.
             destruct (Nat.eqb_spec n k) as [->|], (Nat.eqb_spec i l) as [->|]; cbn [andb orb];
               try (rewrite Er; reflexivity); try (rewrite Fl by auto; rewrite ?Nat.eqb_refl; try reflexivity);
               (destruct (Nat.eqb_spec n k); [lia|]; reflexivity).
          -- exists ml. split; auto. split; [split; auto|]. intros n i Hn Hi. rewrite HL.
             destruct (Nat.eqb_spec n k) as [->|], (Nat.eqb_spec i l) as [->|]; cbn [andb orb];
               rewrite Fl by auto.
             ++ rewrite Er. now destruct (_ || _)%bool.
             ++ now rewrite Nat.eqb_refl.
             ++ destruct (Nat.eqb_spec n k); [lia|]; reflexivity.
             ++ destruct (Nat.eqb_spec n k); [lia|]; reflexivity.
        * exists m'. split; auto. split; auto. intros n i Hn Hi. rewrite F' by auto.
          destruct (Nat.ltb_spec n k), (Nat.eqb_spec n k), (Nat.ltb_spec i I), (Nat.ltb_spec n (S k)); auto; lia.
      + exists m. split; auto. split; auto. intros n i Hn Hi. rewrite F by auto.
        apply Nat.ltb_lt in Hn. now rewrite Hn.
    - destruct (Rltb 0 (dprob s)).
      + eexists. split; [reflexivity|]. split; [split; auto|]. intros. simpl. ring.
      + eexists. split; [reflexivity|]. split; [split; auto|]. intros. simpl. ring. }
  destruct Hm as (m & Em & Sm & Fm). rewrite Em. cbn [bind].
  rewrite (mmap2_Ok _ _ _ N I) by (auto; split; auto). cbn [bind].
  eexists. eexists. split; [reflexivity|]. split; [split; auto|]. simpl. destruct Sm as (S1 & S2).
  split; [split; auto|]. split; [|split; [split; auto|auto]].
  intros n i Hn Hi. rewrite Fm by auto. auto.
Qed.

Lemma dropout_backward_ok I q ein N bp : dropout_inv I q -> size_is (dmask q) N I -> size_is ein N I ->
  exists q2 eout, dropout_backward q ein bp = Ok (q2, eout) /\ dropout_inv I q2 /\ size_is eout N I /\
    forall n i, at_ eout n i = at_ (dmask q) n i * at_ ein n i.
Proof.
  intros (H1 & H2) Sm Se. unfold dropout_backward. rewrite (mmap2_Ok _ _ _ N I) by auto. cbn [bind].
  eexists. eexists. split; [reflexivity|]. split; [split; auto|]. split; [split; auto|]. intros. reflexivity.
Qed.

(** parts of the contract for layers without parameters *)
Lemma no_install (c : LayerClass) (Hu : forall s, updatedParameters c s = Ok s) s p :
  length p = 0%nat -> install c s p = Ok s.
Proof. intros H. unfold install, writeAll. rewrite H. cbn [for_ for_from bind]. apply Hu. Qed.

Lemma dropout_contract junk I :
  contract (dropout_class junk) I I 0 (dropout_inv I) (fun _ _ => True).
Proof.
  constructor.
  - intros. split; reflexivity.
  - intros; lia.
  - intros; lia.
  - intros s Hs. exists s. split; [reflexivity|]. split; auto.
  - apply (gradient_intro (dropout_class junk) I I 0 (dropout_inv I) (fun _ _ => True)
      (fun s dropout N p X q q1 Y r => r = 0 /\
        (forall n i, (n < N)%nat -> (i < I)%nat -> at_ Y n i = dropout_factor s dropout n i * at_ X n i) /\
        size_is (dmask q1) N I /\
        (forall n i, (n < N)%nat -> (i < I)%nat -> at_ (dmask q1) n i = dropout_factor s dropout n i))).
    + intros s dropout N p X Hs Hp HX.
      destruct (dropout_forward_ok junk I s X dropout N Hs HX) as (q & y & E & Sy & Hq & Fy & Sm & Fm).
      exists s, q, y, 0. split; [apply no_install; auto|]. auto 10.
    + intros s dropout N t0 p p' X X' q q1 Y r Hs Hp HX Dp DX _ SY Hq1 HP.
      exists (fun n i => dropout_factor s dropout n i * X' n i), 0. split; [|split].
      * intros n i Hn Hi. apply (D_ext (fun t => dropout_factor s dropout n i * at_ (X t) n i)).
        -- intros t. destruct (HP t) as (_ & F & _). now rewrite F.
        -- apply (D_scal _ (fun t => at_ (X t) n i)). auto.
      * apply (D_ext (fun _ => 0)); [|apply D_const]. intros t. now destruct (HP t) as (-> & _).
      * intros ein bp Se. destruct (HP t0) as (_ & _ & Sm & Fm).
        destruct (dropout_backward_ok I (q1 t0) ein N bp) as (q2 & eout & E & Hq2 & So & Fo); auto.
        exists q2, eout, (fun _ => 0). split; auto. split; auto. split; [intros; lia|]. split.
        -- intros _. split; auto. simpl rsum. rewrite Rplus_0_r, Rplus_0_l. unfold inner.
           apply rsum_ext. intros n Hn. apply rsum_ext. intros i Hi. rewrite Fo, Fm by auto. ring.
        -- intros _ HX'. simpl rsum. rewrite Rplus_0_r. unfold inner. apply rsum_0. intros n Hn.
           apply rsum_0. intros i Hi. rewrite HX' by auto. ring.
Qed.

(** * Extreme *)
Definition extreme_inv (I J : nat) (bias : bool) (act : ActivationFunction) (w : nat -> nat -> R) (s : extreme) : Prop :=
  xI s = I /\ xJ s = J /\ xbias s = bias /\ xact s = act /\
  xW s = mkMat J (I + if bias then 1 else 0) w /\ cols (xy s) = J /\ cols (xyd s) = J.

(** the activation of unit j for row n *)
Definition x_preact (I : nat) (bias : bool) (w : nat -> nat -> R) (X : mat) (n j : nat) : R :=
  rsum I (fun i => at_ X n i * w j i) + if bias then w j I else 0.

Section Extreme.
Context (junk : nat -> nat -> R) (I J : nat) (bias : bool) (act : ActivationFunction) (w : nat -> nat -> R).
Notation inv := (extreme_inv I J bias act w).

Lemma extreme_forward_ok q x dropout N : inv q -> size_is x N I ->
  exists q1 y, extreme_forward junk q x dropout = Ok (q1, y, 0) /\ size_is y N J /\ inv q1 /\
    (forall n j, at_ y n j = act_fun act (x_preact I bias w x n j)) /\
    size_is (xa q1) N J /\ xy q1 = y.
Proof.
  intros (A1 & A2 & A3 & A4 & W & Y & Yd) Hx. unfold extreme_forward. rewrite W, A1.
  rewrite (mleftCols_Ok _ I J (I + if bias then 1 else 0)); [|split; auto|destruct bias; lia]. cbn [bind].
  rewrite (mmul_Ok _ _ N I J); [|auto|split; auto]. cbn [bind]. rewrite A3.
  match goal with |- context [if bias then ?m else Ok ?a0] => assert (Ha : exists a, (if bias then m else Ok a0) = Ok a /\
     size_is a N J /\ forall n j, at_ a n j = x_preact I bias w x n j) end.
  { destruct bias.
    - rewrite (mcol_Ok _ I J (I + 1)) by (try (split; auto); lia). cbn [bind rows].
      rewrite (maddrow_Ok _ _ N J) by (split; auto). eexists. split; [reflexivity|]. split; [split; auto|]. intros. reflexivity.
    - eexists. split; [reflexivity|]. split; [split; auto|]. intros. unfold x_preact. simpl. ring. }
  destruct Ha as (a & Ea & Sa & Fa). rewrite Ea. cbn [bind]. rewrite A4.
  destruct (activationFunction_Ok act a (mconsresize junk (xy q) (rows a) (cols (xy q))) N J) as (y & Ey & Sy & Fy); auto.
  { destruct Sa. split; simpl; auto. }
  rewrite Ey. cbn [bind]. eexists. exists y. split; [reflexivity|]. split; auto.
  simpl. split; [|split; [|auto]].
  - unfold extreme_inv. simpl. destruct Sy. auto 10.
  - intros. rewrite Fy, Fa. auto.
Qed.

Lemma extreme_backward_ok q1 N y ein bp : inv q1 -> size_is (xa q1) N J -> xy q1 = y -> size_is y N J ->
  size_is ein N J ->
  exists q2 eout, extreme_backward junk q1 ein bp = Ok (q2, eout) /\ inv q2 /\
    (bp = true -> size_is eout N I /\
       forall n i, at_ eout n i = rsum J (fun j => act_der act (at_ y n j) * at_ ein n j * w j i)).
Proof.
  intros (A1 & A2 & A3 & A4 & W & Y & Yd) Sa Ey Sy Se. unfold extreme_backward. rewrite A4, Ey, W, A1.
  destruct (activationFunctionDerivative_Ok act y (mconsresize junk (xyd q1) (rows (xa q1)) (cols (xyd q1))) N J)
    as (yd & Eyd & Syd & Fyd); auto.
  { destruct Sa. split; simpl; auto. }
  rewrite Eyd. cbn [bind]. rewrite (mmap2_Ok _ _ _ N J) by auto. cbn [bind].
  rewrite (mleftCols_Ok _ I J (I + if bias then 1 else 0)); [|split; auto|destruct bias; lia]. cbn [bind].
  destruct bp.
  - rewrite (mmul_Ok _ _ N J I) by (split; auto). cbn [bind]. eexists. eexists. split; [reflexivity|].
    split; [unfold extreme_inv; simpl; destruct Syd, Sy; rewrite <- Ey in *; auto 10|].
    intros _. split; [split; auto|]. intros. simpl. apply rsum_ext. intros. now rewrite Fyd.
  - eexists. eexists. split; [reflexivity|].
    split; [unfold extreme_inv; simpl; destruct Syd, Sy; rewrite <- Ey in *; auto 10|]. discriminate.
Qed.

Definition extreme_smooth (q : extreme) (X : mat) : Prop :=
  forall n j, (n < rows X)%nat -> (j < J)%nat -> act_smooth act (x_preact I bias w X n j).

Lemma extreme_contract : contract (extreme_class junk) I J 0 inv extreme_smooth.
Proof.
  constructor.
  - intros. split; reflexivity.
  - intros; lia.
  - intros; lia.
  - intros s Hs. exists s. split; [reflexivity|]. split; auto.
  - apply (gradient_intro (extreme_class junk) I J 0 inv extreme_smooth
      (fun s dropout N p X q q1 Y r => r = 0 /\
        (forall n j, at_ Y n j = act_fun act (x_preact I bias w X n j)) /\
        size_is (xa q1) N J /\ xy q1 = Y)).
    + intros s dropout N p X Hs Hp HX.
      destruct (extreme_forward_ok s X dropout N Hs HX) as (q & y & E & Sy & Hq & Fy & Sm & Fm).
      exists s, q, y, 0. split; [apply no_install; auto|]. auto 10.
    + intros s dropout N t0 p p' X X' q q1 Y r Hs Hp HX Dp DX Sm SY Hq1 HP.
      set (A' := fun n j => rsum I (fun i => X' n i * w j i + at_ (X t0) n i * 0) + 0).
      exists (fun n j => act_der act (at_ (Y t0) n j) * A' n j), 0. split; [|split].
      * intros n j Hn Hj. destruct (HP t0) as (_ & F & _). rewrite F.
        apply (D_ext (fun t => act_fun act (x_preact I bias w (X t) n j))).
        { intros t. destruct (HP t) as (_ & F' & _). now rewrite F'. }
        apply (D_comp (fun t => x_preact I bias w (X t) n j) (act_fun act)).
        { unfold x_preact. apply (D_affine I (fun t i => at_ (X t) n i) (fun _ i => w j i)
            (fun _ => if bias then w j I else 0)); auto; intros; apply D_const. }
        apply act_derivative. apply Sm; auto. destruct (HX t0). lia.
      * apply (D_ext (fun _ => 0)); [|apply D_const]. intros t. now destruct (HP t) as (-> & _).
      * intros ein bp Se. destruct (HP t0) as (_ & F & Sa & Ey).
        destruct (extreme_backward_ok (q1 t0) N (Y t0) ein bp) as (q2 & eout & E & Hq2 & Fo); auto.
        set (d := fun n j => act_der act (at_ (Y t0) n j) * at_ ein n j).
        assert (Key : inner N J (at_ ein) (fun n j => act_der act (at_ (Y t0) n j) * A' n j) =
            rsum N (fun n => rsum I (fun i => rsum J (fun j => d n j * w j i) * X' n i))).
        { unfold inner. rewrite (rsum_ext N _ (fun n => rsum J (fun j => d n j * A' n j)))
            by (intros; apply rsum_ext; intros; unfold d; ring).
          unfold A'. rewrite (affine_chain N I J d (at_ (X t0)) X' w (fun _ _ => 0) (fun _ => 0)).
          rewrite (rsum_0 J); [ring|]. intros j Hj. rewrite rsum_0; [ring|]. intros; ring. }
        exists q2, eout, (fun _ => 0). split; auto. split; auto. split; [intros; lia|]. split.
        -- intros Hb. destruct (Fo Hb) as (So & Fo'). split; auto. simpl rsum. rewrite Rplus_0_r, Rplus_0_l, Key. unfold inner.
           apply rsum_ext. intros n Hn. apply rsum_ext. intros i Hi. rewrite Fo'. auto.
        -- intros _ HX'. simpl rsum. rewrite Rplus_0_r, Key. apply rsum_0. intros n Hn.
           apply rsum_0. intros i Hi. rewrite HX' by auto. ring.
Qed.
End Extreme.

(** * IntrinsicPlasticity *)
Definition ip_inv (I : nat) (s b : nat -> R) (l : ipLayer) : Prop :=
  ipnodes l = I /\ ips l = mkMat I 1 (fun i _ => s i) /\ ipb l = mkMat I 1 (fun i _ => b i).

Section IP.
Context (junk : nat -> nat -> R) (I : nat) (s b : nat -> R).
Notation inv := (ip_inv I s b).

Lemma ip_forward_ok l x dropout N : inv l -> size_is x N I ->
  exists q y, ip_forward junk l x dropout = Ok (q, y, 0) /\ size_is y N I /\ inv q /\
    (forall n i, (n < N)%nat -> (i < I)%nat -> at_ y n i = act_fun LOGISTIC (at_ x n i * s i + b i)) /\ ipY q = y.
Proof.
  intros (A1 & A2 & A3) (X1 & X2). unfold ip_forward, ip_apply. rewrite A2, A3, X1, X2. cbn [rows].
  rewrite Nat.eqb_refl. cbn [andb].
  match goal with |- context [for_ N ?bd ?m] => set (body := bd); set (m0 := m) end.
  destruct (for_inv (fun k (Y : mat) => size_is Y N I /\ forall n i, (n < k)%nat -> (i < I)%nat ->
     at_ Y n i = at_ x n i * s i + b i) body N m0) as (Y & E & SY & FY).
  - split; [split; reflexivity|]. intros; lia.
  - intros k Y Hk ((S1 & S2) & F). unfold body. eexists. split; [reflexivity|]. split; [split; auto|].
    intros n i Hn Hi. cbn [at_]. destruct (Nat.eqb_spec n k) as [->|]; auto. apply F; auto. lia.
  - rewrite E. cbn [bind].
    destruct (activationFunction_Ok LOGISTIC Y Y N I SY SY) as (y & Ey & Sy & Fy). rewrite Ey. cbn [bind].
    eexists. exists y. split; [reflexivity|]. split; auto. split; [unfold ip_inv; simpl; auto|]. split; auto.
    intros n i Hn Hi. rewrite Fy, FY by auto. auto.
Qed.

Lemma ip_backward_ok l N y ein bp : inv l -> ipY l = y -> size_is y N I -> size_is ein N I ->
  exists q2 eout, ip_backward junk l ein bp = Ok (q2, eout) /\ inv q2 /\
    (bp = true -> size_is eout N I /\
       forall n i, (n < N)%nat -> (i < I)%nat -> at_ eout n i = act_der LOGISTIC (at_ y n i) * s i * at_ ein n i).
Proof.
  intros (A1 & A2 & A3) Ey Sy Se. unfold ip_backward. rewrite Ey, A1, A2.
  destruct Sy as (Sy1 & Sy2). rewrite Sy1.
  destruct (activationFunctionDerivative_Ok LOGISTIC y (mconsresize junk (ipYd l) N I) N I)
    as (yd & Eyd & Syd & Fyd); [split; auto|split; auto|].
  rewrite Eyd. cbn [bind rows].
  match goal with |- context [for_ N ?bd ?m] => set (body := bd) end.
  destruct (for_inv (fun k (V : mat) => size_is V N I /\ forall n i, (n < N)%nat -> (i < I)%nat ->
     at_ V n i = if Nat.ltb n k then at_ yd n i * s i else at_ yd n i) body N yd) as (V & E & SV & FV).
  - split; auto.
  - intros k V Hk ((S1 & S2) & F). unfold body. rewrite S1, S2, Nat.eqb_refl. eexists. split; [reflexivity|]. split; [split; auto|].
    intros n i Hn Hi. cbn [at_]. rewrite !F by auto. rewrite (Nat.ltb_irrefl k).
    destruct (Nat.eqb_spec n k) as [e|], (Nat.ltb_spec n k), (Nat.ltb_spec n (S k)); try rewrite e; auto; lia.
  - rewrite E. cbn [bind]. destruct bp.
    + rewrite (mmap2_Ok _ _ _ N I) by auto. cbn [bind]. eexists. eexists. split; [reflexivity|].
      split; [unfold ip_inv; simpl; auto|]. intros _. split; [split; auto|]. intros n i Hn Hi.
      cbn [at_]. rewrite FV by auto. pose proof Hn as Hn'. apply Nat.ltb_lt in Hn'. rewrite Hn', Fyd. ring.
    + eexists. eexists. split; [reflexivity|].
      split; [unfold ip_inv; simpl; auto|]. discriminate.
Qed.

Definition ip_smooth (q : ipLayer) (X : mat) : Prop :=
  forall n i, (n < rows X)%nat -> (i < I)%nat -> act_smooth LOGISTIC (at_ X n i * s i + b i).

Lemma ip_contract : contract (ip_class junk) I I 0 inv ip_smooth.
Proof.
  constructor.
  - intros. split; reflexivity.
  - intros; lia.
  - intros; lia.
  - intros l Hs. exists l. split; [reflexivity|]. split; auto.
  - apply (gradient_intro (ip_class junk) I I 0 inv ip_smooth
      (fun l dropout N p X q q1 Y r => r = 0 /\
        (forall n i, (n < N)%nat -> (i < I)%nat -> at_ Y n i = act_fun LOGISTIC (at_ X n i * s i + b i)) /\
        ipY q1 = Y)).
    + intros l dropout N p X Hs Hp HX.
      destruct (ip_forward_ok l X dropout N Hs HX) as (q & y & E & Sy & Hq & Fy & Fm).
      exists l, q, y, 0. split; [apply no_install; auto|]. auto 10.
    + intros l dropout N t0 p p' X X' q q1 Y r Hs Hp HX Dp DX Sm SY Hq1 HP.
      exists (fun n i => act_der LOGISTIC (at_ (Y t0) n i) * (X' n i * s i + 0)), 0. split; [|split].
      * intros n j Hn Hj. destruct (HP t0) as (_ & F & _). rewrite F by auto.
        apply (D_ext (fun t => act_fun LOGISTIC (at_ (X t) n j * s j + b j))).
        { intros t. destruct (HP t) as (_ & F' & _). now rewrite F'. }
        apply (D_comp (fun t => at_ (X t) n j * s j + b j) (act_fun LOGISTIC)).
        { apply (D_plus (fun t => at_ (X t) n j * s j) (fun _ => b j)); [|apply D_const].
          apply (D_scal_r _ (fun t => at_ (X t) n j)). auto. }
        apply act_derivative. apply Sm; auto. destruct (HX t0). lia.
      * apply (D_ext (fun _ => 0)); [|apply D_const]. intros t. now destruct (HP t) as (-> & _).
      * intros ein bp Se. destruct (HP t0) as (_ & F & Ey).
        destruct (ip_backward_ok (q1 t0) N (Y t0) ein bp) as (q2 & eout & E & Hq2 & Fo); auto.
        exists q2, eout, (fun _ => 0). split; auto. split; auto. split; [intros; lia|]. split.
        -- intros Hb. destruct (Fo Hb) as (So & Fo'). split; auto. simpl rsum. rewrite Rplus_0_r, Rplus_0_l. unfold inner.
           apply rsum_ext. intros n Hn. apply rsum_ext. intros i Hi. rewrite Fo' by auto. ring.
        -- intros _ HX'. simpl rsum. rewrite Rplus_0_r. unfold inner. apply rsum_0. intros n Hn.
           apply rsum_0. intros i Hi. rewrite HX' by auto. ring.
Qed.
End IP.
