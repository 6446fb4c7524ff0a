(** What networks rely on, besides the gradient: a layer computes a function of each row of
    its input, which only depends on its parameters. *)
From Verif Require Import Base BaseFacts Matrix RSum MatOps Vec Deriv Layer_Model Layer_Spec.
Local Open Scope R_scope.

Section LayerFun.
Context (c : LayerClass) (I O K : nat) (Inv : St c -> Prop) (smooth : St c -> mat -> Prop).
(** [fn s dropout n x j]: output [j] for row number [n] with entries [x] in state [s];
    [rg s]: the error term *)
Context (fn : St c -> bool -> nat -> (nat -> R) -> nat -> R) (rg : St c -> R).

(** two states with the same parameters that compute the same function without dropout *)
Definition same_fun (q s : St c) : Prop :=
  (forall k, (k < K)%nat -> readParam c q k = readParam c s k) /\
  (forall n x j, (j < O)%nat -> fn q false n x j = fn s false n x j) /\ rg q = rg s.

Record layer_ok : Prop := mkLayerOk {
  lo_contract : contract c I O K Inv smooth;
  (** the output only depends on the [I] entries of the row *)
  lo_ext : forall s dropout n x x' j, Inv s -> (forall i, (i < I)%nat -> x i = x' i) ->
    fn s dropout n x j = fn s dropout n x' j;
  (** without dropout all rows are treated in the same way *)
  lo_rows : forall s n x j, Inv s -> (j < O)%nat -> fn s false n x j = fn s false 0 x j;
  (** forward passes succeed for any input of the right size, apply the function to each row
      and do not change it *)
  lo_forward : forall s X dropout, Inv s -> cols X = I ->
    exists q Y, forwardPropagate c s X dropout = Ok (q, Y, rg s) /\
      Inv q /\ same_fun q s /\ rows Y = rows X /\ cols Y = O /\
      forall n j, (n < rows X)%nat -> (j < O)%nat -> at_ Y n j = fn s dropout n (at_ X n) j;
  (** backpropagation after a forward pass does not change the function *)
  lo_backward : forall s X dropout q Y r ein bp q2 eout, Inv s -> cols X = I ->
    forwardPropagate c s X dropout = Ok (q, Y, r) -> rows ein = rows X -> cols ein = O ->
    backpropagate c q ein bp = Ok (q2, eout) ->
    Inv q2 /\ same_fun q2 q /\ (bp = true -> rows eout = rows X /\ cols eout = I);
  (** the function is determined by the parameters *)
  lo_install : forall s s' p q q', Inv s -> Inv s' -> length p = K ->
    install c s p = Ok q -> install c s' p = Ok q' -> same_fun q q' }.
End LayerFun.

(** a condition on the layer as a part of its invariant *)
Lemma layer_ok_cond (c : LayerClass) (cond : Prop) I O K Inv smooth fn rg :
  (cond -> layer_ok c I O K Inv smooth fn rg) -> layer_ok c I O K (fun s => cond /\ Inv s) smooth fn rg.
Proof.
  intros H. constructor.
  - assert (G : cond -> contract c I O K Inv smooth) by (intros Hc; now destruct (H Hc)).
    constructor; intros.
    + destruct H0 as (Hc & Hs). now apply (ct_count _ _ _ _ _ _ (G Hc)).
    + destruct H0 as (Hc & Hs). now apply (ct_read _ _ _ _ _ _ (G Hc)).
    + destruct H0 as (Hc & Hs). destruct (ct_write _ _ _ _ _ _ (G Hc) s k v Hs H1) as (s' & E1 & E2 & E3). exists s'. auto.
    + destruct H0 as (Hc & Hs). destruct (ct_updated _ _ _ _ _ _ (G Hc) s Hs) as (s' & E1 & E2 & E3). exists s'. auto.
    + destruct H0 as (Hc & Hs).
      destruct (ct_gradient _ _ _ _ _ _ (G Hc) s dropout N t0 p p' X X' Hs H1 H2 H3 H4 H5)
        as (q1 & Y & reg & Y' & reg' & HF & HY & HI1 & DY & DR & HB).
      exists q1, Y, reg, Y', reg'. split; auto. split; auto. split; auto. split; auto. split; auto.
      intros ein bp He. destruct (HB ein bp He) as (q2 & eout & g & B1 & B2 & B3). exists q2, eout, g. auto.
  - intros s d n x x' j (Hc & Hs). apply (lo_ext _ _ _ _ _ _ _ _ (H Hc)); auto.
  - intros s n x j (Hc & Hs). apply (lo_rows _ _ _ _ _ _ _ _ (H Hc)); auto.
  - intros s X dropout (Hc & Hs) HX. destruct (lo_forward _ _ _ _ _ _ _ _ (H Hc) s X dropout Hs HX) as (q & Y & E1 & E2 & E3).
    exists q, Y. auto.
  - intros s X dropout q Y r ein bp q2 eout (Hc & Hs) HX E He1 He2 Eb.
    destruct (lo_backward _ _ _ _ _ _ _ _ (H Hc) s X dropout q Y r ein bp q2 eout Hs HX E He1 He2 Eb) as (E1 & E2 & E3). auto.
  - intros s s' p q q' (Hc & Hs) (_ & Hs'). now apply (lo_install _ _ _ _ _ _ _ _ (H Hc)).
Qed.
