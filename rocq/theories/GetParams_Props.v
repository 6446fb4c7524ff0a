(** C50: what getParameters of the layers returns. *)
From Coq Require Import Permutation.
From Verif Require Import Base BaseFacts Matrix RSum MatOps Vec Acc Pool Activation_Model Layer_Model
  Layer_Spec Layer_Layout FC_Model FC_Proofs FC_Props Conv_Model Conv_Proofs Conv_Props
  SimpleLayers_Model Compressed_Proofs SimpleLayers_Props Pool_Model Subs_Proofs Subs_Props.
Local Open Scope R_scope.

(** [p] lists the current values of the parameters of a layer in the order of the parameter vector. *)
Definition currentParameters (c : LayerClass) (s : St c) (p : list R) : Prop :=
  length p = paramCount c s /\ forall k, (k < length p)%nat -> readParam c s k = Ok p.[k].

Lemma for_append (h : nat -> list R) n (b : nat -> list R -> res (list R)) p :
  (forall j q, (j < n)%nat -> b j q = Ok (q ++ h j)) -> for_ n b p = Ok (p ++ flat_map h (seq 0 n)).
Proof.
  induction n as [|n IH]; intros H.
  - cbn. now rewrite app_nil_r.
  - rewrite for_S, IH by (intros; apply H; lia). cbn [bind]. rewrite H by lia.
    rewrite seq_S, flat_map_app. cbn [flat_map]. now rewrite app_nil_r, app_assoc.
Qed.

Lemma flat_map_split {A B} (f g : A -> list B) l :
  Permutation (flat_map (fun x => f x ++ g x) l) (flat_map f l ++ flat_map g l).
Proof.
  induction l as [|x l IH]; cbn [flat_map]; auto. rewrite <- !app_assoc. apply Permutation_app_head.
  eapply perm_trans; [apply Permutation_app_head; exact IH|].
  rewrite !app_assoc. apply Permutation_app_tail. apply Permutation_app_comm.
Qed.

Lemma flat_map_ext_in' {A B} (f g : A -> list B) l : (forall x, In x l -> f x = g x) -> flat_map f l = flat_map g l.
Proof. induction l as [|x l IH]; intros H; cbn; auto. rewrite H, IH; auto using in_cons, in_eq. Qed.
Lemma flat_map_nil {A B} (f : A -> list B) l : (forall x, In x l -> f x = []) -> flat_map f l = [].
Proof. induction l as [|x l IH]; intros H; cbn; auto. rewrite H, IH; auto using in_cons, in_eq. Qed.
Lemma flat_map_perm {A B} (f g : A -> list B) l :
  (forall x, In x l -> Permutation (f x) (g x)) -> Permutation (flat_map f l) (flat_map g l).
Proof. induction l as [|x l IH]; intros H; cbn; auto. apply Permutation_app; auto using in_cons, in_eq. Qed.
Lemma flat_map_single {A B} (f : A -> B) l : flat_map (fun x => [f x]) l = map f l.
Proof. induction l; cbn; congruence. Qed.
Lemma map_flat_map {A B C} (f : B -> C) (g : A -> list B) l : map f (flat_map g l) = flat_map (fun x => map f (g x)) l.
Proof. induction l; cbn; auto. now rewrite map_app, IHl. Qed.

(** the values behind a list of pointers *)
Lemma current_map c s (locs : list (Loc c)) (val : Loc c -> R) :
  fst (initialize c s) = locs -> (forall l, In l locs -> load c s l = Ok (val l)) ->
  currentParameters c s (map val locs).
Proof.
  intros E H. split.
  - unfold paramCount. now rewrite E, map_length.
  - intros k Hk. rewrite map_length in Hk. unfold readParam. rewrite E.
    destruct (nth_error locs k) as [l|] eqn:El; [|apply nth_error_None in El; lia].
    unfold vget. rewrite El. cbn [bind]. rewrite H by (eapply nth_error_In; eauto). f_equal.
    symmetry. apply nth_error_nth. now rewrite nth_error_map, El.
Qed.

(** ** FullyConnected: every value exactly once; in the right order if there is no bias or one unit *)
Theorem C50_fc_getParameters_partial junk I J bias act reg s :
  history (fc_class junk) I J (fc_new junk I J bias act reg) s ->
  exists p p', currentParameters (fc_class junk) s p /\ fc_getParameters s = Ok p' /\ Permutation p' p /\
    (bias = false \/ (J <= 1)%nat -> p' = p).
Proof.
  intros Hh. apply fc_history_inv in Hh. pose proof Hh as (A1 & A2 & A3 & _ & _ & (W1 & W2) & _ & (b1 & b2) & _).
  set (val := fun l => match l with LW j i => at_ (fW s) j i | Lb j => at_ (fb s) j 0 | _ => 0 end).
  exists (map val (fc_locs I J bias)),
    (flat_map (fun j => map (fun i => at_ (fW s) j i) (seq 0 I)) (seq 0 J) ++
     flat_map (fun j => if bias then [at_ (fb s) j 0] else []) (seq 0 J)).
  split; [|split].
  - apply current_map.
    + cbn [initialize fc_class]. now rewrite (fc_init I J bias act reg s Hh).
    + intros l Hl. destruct (fc_locs_In I J bias l Hl) as [(j & i & Hj & Hi & ->)|(j & Hj & Hb & ->)]; cbn;
        apply mget_Ok; lia.
  - unfold fc_getParameters. rewrite A1, A2, A3.
    rewrite (for_append (fun j => map (fun i => at_ (fW s) j i) (seq 0 I))).
    + cbn [bind app]. destruct bias.
      * apply (for_append (fun j => [at_ (fb s) j 0])). intros j q Hj. rewrite mget_Ok by lia. reflexivity.
      * f_equal. symmetry. rewrite <- app_nil_r. f_equal. induction (seq 0 J); auto.
    + intros j q Hj. rewrite <- flat_map_single. apply for_append. intros i q' Hi. rewrite mget_Ok by lia. reflexivity.
  - assert (E : map val (fc_locs I J bias) = flat_map (fun j => map (fun i => at_ (fW s) j i) (seq 0 I) ++
               if bias then [at_ (fb s) j 0] else []) (seq 0 J)).
    { unfold fc_locs. rewrite map_flat_map. apply flat_map_ext_in'. intros j _. rewrite map_app, map_map.
      destruct bias; reflexivity. }
    rewrite E. split.
    + symmetry. apply flat_map_split.
    + intros H. destruct bias.
      * destruct H as [|H]; [discriminate|]. destruct J as [|[|J]]; [reflexivity| |lia]. cbn. now rewrite !app_nil_r.
      * clear. induction (seq 0 J) as [|j l IH]; auto. cbn [flat_map]. rewrite <- IH. now rewrite app_nil_r, <- !app_assoc.
Qed.

(** ** Convolutional *)
Theorem C50_conv_getParameters_partial junk fi R C fo kr kc bias act reg s0 s :
  conv_new junk fi R C fo kr kc bias act reg = Ok s0 ->
  history (conv_class junk) (fi * (R * C)) (fo * (outDim R kr * outDim C kc)) s0 s ->
  exists p p', currentParameters (conv_class junk) s p /\ conv_getParameters s = Ok p' /\ Permutation p' p /\
    (bias = false \/ (fo <= 1 /\ fi <= 1)%nat -> p' = p).
Proof.
  intros E0 Hh. destruct (conv_new_inv _ _ _ _ _ _ _ _ _ _ _ E0) as (Hg & Hi0 & Eg & _).
  remember (cg s0) as g. apply (conv_history junk g _ _ s0 s Hg Hi0) in Hh; [|subst; rewrite Eg; reflexivity|subst; rewrite Eg; reflexivity].
  pose proof Hh as (A1 & HW & _ & HB & _).
  set (val := fun l => match l with CW o i r c => at_ (tat (cW s) o i) r c | CWb o i => at_ (cWb s) o i | _ => 0 end).
  set (ker := fun o i => flat_map (fun r => map (fun c => at_ (tat (cW s) o i) r c) (seq 0 (kernelCols g))) (seq 0 (kernelRows g))).
  set (bia := fun o i => if cbias g then [at_ (cWb s) o i] else []).
  exists (map val (clocs g CW CWb)),
    (flat_map (fun o => flat_map (ker o) (seq 0 (fmin g))) (seq 0 (fmout g)) ++
     flat_map (fun o => flat_map (bia o) (seq 0 (fmin g))) (seq 0 (fmout g))).
  split; [|split].
  - apply current_map.
    + apply (conv_layout_init junk g). auto.
    + intros l Hl. destruct (clocs_In g l Hl) as (o & i & Ho & Hi & [(r & c & Hr & Hc & ->)|(Hb & ->)]).
      * now apply (conv_load_w g).
      * destruct (HB Hb) as ((S1 & S2) & _). cbn. apply mget_Ok; lia.
  - unfold conv_getParameters. rewrite A1.
    rewrite (for_append (fun o => flat_map (ker o) (seq 0 (fmin g)))).
    + cbn [bind app]. unfold bia. destruct (cbias g) eqn:Hb.
      * destruct (HB eq_refl) as ((S1 & S2) & _).
        apply for_append. intros o q Ho. apply for_append. intros i q' Hi. rewrite mget_Ok by lia. reflexivity.
      * f_equal. symmetry. rewrite <- app_nil_r. f_equal.
        apply flat_map_nil. intros. now apply flat_map_nil.
    + intros o q Ho. apply for_append. intros i q' Hi. apply for_append. intros r q1 Hr.
      rewrite <- flat_map_single. apply for_append. intros c q2 Hc.
      destruct (tget_Ok _ _ _ _ _ o i HW Ho Hi) as (E & (S1 & S2)). rewrite E. cbn [bind]. rewrite mget_Ok by lia. reflexivity.
  - assert (E : map val (clocs g CW CWb) =
                flat_map (fun o => flat_map (fun i => ker o i ++ bia o i) (seq 0 (fmin g))) (seq 0 (fmout g))).
    { unfold clocs. rewrite map_flat_map. apply flat_map_ext_in'. intros o _. rewrite map_flat_map. apply flat_map_ext_in'.
      intros i _. unfold cblock. rewrite map_app, map_flat_map. unfold ker, bia. f_equal.
      - apply flat_map_ext_in'. intros r _. now rewrite map_map.
      - destruct (cbias g); reflexivity. }
    rewrite E. split.
    + symmetry. eapply perm_trans; [|apply flat_map_split]. apply flat_map_perm. intros o _. apply flat_map_split.
    + intros H. unfold bia. assert (Eb : cbias g = bias) by (rewrite Eg; auto). rewrite Eb. destruct bias.
      * destruct H as [|(H1 & H2)]; [discriminate|]. rewrite Eg. cbn [fmin fmout].
        destruct fo as [|[|fo]]; [reflexivity| |lia]. destruct fi as [|[|fi]]; [reflexivity| |lia].
        cbn. now rewrite !app_nil_r.
      * rewrite (flat_map_nil (fun o => flat_map (fun _ => []) (seq 0 (fmin g)))) by (intros; now apply flat_map_nil).
        rewrite app_nil_r. apply flat_map_ext_in'. intros o _. apply flat_map_ext_in'. intros i _. now rewrite app_nil_r.
Qed.

(** ** Subsampling without biases *)
Theorem C50_subs_getParameters_partial junk fm R C kr kc act reg s0 s :
  subs_new junk fm R C kr kc false act reg = Ok s0 ->
  history (subs_class junk) (fm * (R * C)) (fm * (R / kr * (C / kc))) s0 s ->
  exists p, currentParameters (subs_class junk) s p /\ subs_getParameters s = Ok p.
Proof.
  intros E0 Hh. destruct (subs_new_inv _ _ _ _ _ _ _ _ _ _ E0) as (Hg & Hi0).
  apply (subs_history junk _ _ act reg _ _ s0 s Hg Hi0) in Hh; auto.
  set (g := pgeom_of fm R C kr kc) in *. pose proof Hh as (A1 & A2 & _ & _ & HW & _).
  set (val := fun l => match l with SW o r k => at_ (vat (sW s) o) r k | _ => 0 end).
  exists (map val (slocs g false SW SWb)). split.
  - apply current_map.
    + apply (subs_layout_init junk g Hg false act reg). auto.
    + intros l Hl. destruct (slocs_In g Hg false l Hl) as (o & r & k & Ho & Hr & Hk & [->|(Hb & _)]); [|discriminate].
      apply (wget_Ok _ (pfm g) (poutRows g) (poutCols g)); auto.
  - unfold subs_getParameters. rewrite A1, A2. unfold slocs. rewrite map_flat_map.
    rewrite (for_append (fun o => map val (flat_map (fun r => flat_map (fun k => sblock false SW SWb o r k) (seq 0 (poutCols g))) (seq 0 (poutRows g))))); auto.
    intros o q Ho. rewrite map_flat_map. apply for_append. intros r q1 Hr. rewrite map_flat_map. apply for_append.
    intros k q2 Hk. rewrite (wget_Ok _ (pfm g) (poutRows g) (poutCols g)) by auto. reflexivity.
Qed.

(** Convolutional: the order is wrong with more than one kernel with bias. *)
Theorem C50_conv_getParameters_order_refuted : exists junk s0 s p p',
  conv_new junk 1 1 1 2 1 1 true LINEAR (mkReg 0 0 0) = Ok s0 /\
  history (conv_class junk) 1 2 s0 s /\
  currentParameters (conv_class junk) s p /\ conv_getParameters s = Ok p' /\ p' <> p.
Proof.
  set (junk := fun _ _ : nat => 0).
  destruct (proj2 (C33_conv_output_size junk 1 1 1 2 1 1 true LINEAR (mkReg 0 0 0))) as (s0 & E); [cbn; lia|].
  destruct (conv_new_inv _ _ _ _ _ _ _ _ _ _ _ E) as (Hg & Hi0 & Eg & _).
  destruct (conv_install junk _ s0 [1; 2; 3; 4] Hi0) as (q & E1 & Hq & R1 & R2); [rewrite Eg; auto|].
  exists junk, s0, q, [1; 2; 3; 4], [1; 3; 2; 4]. split; auto. split; [|split; [|split]].
  - eapply h_set; [constructor| |exact E1].
    unfold paramCount. cbn [initialize conv_class]. rewrite (conv_init _ _ Hi0), Eg. reflexivity.
  - split.
    + unfold paramCount. cbn [initialize conv_class]. rewrite (conv_init _ _ Hq), Eg. reflexivity.
    + intros k Hk. unfold readParam. cbn [initialize conv_class load]. rewrite (conv_init _ _ Hq).
      cbn [length] in Hk. rewrite Eg in *. cbn in R1, R2.
      destruct k as [|[|[|[|k]]]]; [| | | |lia]; cbn [vget nth_error clocs cblock flat_map seq fmout fmin kernelRows kernelCols cbias map app fst bind].
      * rewrite (conv_load_w _ _ _ _ _ _ Hq) by (cbn; lia). rewrite R1 by lia. reflexivity.
      * destruct Hq as (_ & _ & _ & HB & _). destruct (HB eq_refl) as ((S1 & S2) & _). cbn [conv_load].
        rewrite mget_Ok by (cbn in *; lia). rewrite R2 by (auto; lia). reflexivity.
      * rewrite (conv_load_w _ _ _ _ _ _ Hq) by (cbn; lia). rewrite R1 by lia. reflexivity.
      * destruct Hq as (_ & _ & _ & HB & _). destruct (HB eq_refl) as ((S1 & S2) & _). cbn [conv_load].
        rewrite mget_Ok by (cbn in *; lia). rewrite R2 by (auto; lia). reflexivity.
  - unfold conv_getParameters. pose proof Hq as (A1 & HW & _ & HB & _). rewrite A1, Eg. rewrite Eg in *.
    cbn in R1, R2. destruct (HB eq_refl) as ((S1 & S2) & _). cbn in S1, S2.
    cbn [for_ for_from fmout fmin kernelRows kernelCols cbias].
    destruct (tget_Ok _ _ _ _ _ 0 0 HW) as (T0 & (Z0 & Z1)); [cbn; lia|cbn; lia|].
    destruct (tget_Ok _ _ _ _ _ 1 0 HW) as (T1 & (Z2 & Z3)); [cbn; lia|cbn; lia|].
    cbn in Z0, Z1, Z2, Z3.
    rewrite T0, T1. cbn [bind app]. repeat (rewrite !mget_Ok by lia; cbn [bind app]).
    rewrite !R1, !R2 by (auto; lia). reflexivity.
  - intros H. injection H. lra.
Qed.

(** Compressed: whatever the parameters are, getParameters returns entries of the fixed
    compression matrix. *)
Theorem C50_compressed_getParameters_refuted junk I J M bias act phi reg s :
  history (k_class junk) I J (k_new junk I J M bias act phi reg) s ->
  exists p', k_getParameters s = Ok p' /\ length p' = (M * I)%nat /\
    (forall m i, (m < M)%nat -> (i < I)%nat -> p'.[m * I + i] = phi m i) /\
    exists p, currentParameters (k_class junk) s p /\ length p = (J * M)%nat.
Proof.
  intros Hh. apply k_history in Hh. pose proof Hh as (A1 & A2 & A3 & _ & _ & _ & Ep & _ & _ & (Z1 & Z2) & _).
  exists (flat_map (fun m => map (phi m) (seq 0 I)) (seq 0 M)). split; [|split; [|split]].
  - unfold k_getParameters. rewrite A1, A3. rewrite Ep.
    apply (for_append (fun m => map (phi m) (seq 0 I)) M). intros m q Hm. rewrite <- flat_map_single. apply for_append.
    intros i q' Hi. rewrite mget_Ok by (cbn; lia). reflexivity.
  - apply flat_map_length_const. intros. now rewrite map_length, seq_length.
  - intros m i Hm Hi. apply nth_error_nth. rewrite (nth_error_blocks _ I M 0); auto.
    + now apply map_seq_nth.
    + intros. now rewrite map_length, seq_length.
  - exists (map (fun l => match l with LA j m => at_ (kalpha s) j m | _ => 0 end) (k_locs J M)). split.
    + apply current_map.
      * cbn [initialize k_class]. now rewrite (k_init I J M bias act phi reg s Hh).
      * intros l Hl. destruct (k_locs_In J M l Hl) as (j & m & Hj & Hm & ->). cbn. apply mget_Ok; lia.
    + now rewrite map_length, k_locs_length.
Qed.

Example compressed_wrong_length : exists junk s p p',
  history (k_class junk) 3 1 (k_new junk 3 1 2 false LINEAR (fun _ _ => 1) (mkReg 0 0 0)) s /\
  currentParameters (k_class junk) s p /\ k_getParameters s = Ok p' /\ length p = 2%nat /\ length p' = 6%nat.
Proof.
  set (junk := fun _ _ : nat => 0). set (s := k_new junk 3 1 2 false LINEAR (fun _ _ => 1) (mkReg 0 0 0)).
  destruct (C50_compressed_getParameters_refuted junk 3 1 2 false LINEAR (fun _ _ => 1) (mkReg 0 0 0) s) as (p' & E & L & _ & p & Hp & Lp);
    [constructor|].
  exists junk, s, p, p'. split; [constructor|]. auto.
Qed.

Example conv_permuted : exists s0,
  conv_new (fun _ _ => 0) 1 3 3 2 3 3 true LINEAR (mkReg 0 0 0) = Ok s0 /\
  exists p p', length p = 20%nat /\ conv_getParameters s0 = Ok p' /\ Permutation p' p.
Proof.
  destruct (proj2 (C33_conv_output_size (fun _ _ => 0) 1 3 3 2 3 3 true LINEAR (mkReg 0 0 0))) as (s0 & E); [cbn; lia|].
  exists s0. split; auto.
  destruct (C50_conv_getParameters_partial _ _ _ _ _ _ _ _ _ _ s0 s0 E) as (p & p' & (L & _) & G & P & _); [constructor|].
  exists p, p'. split; auto. rewrite L.
  destruct (conv_new_inv _ _ _ _ _ _ _ _ _ _ _ E) as (Hg & Hi0 & Eg & _).
  unfold paramCount. cbn [initialize conv_class]. rewrite (conv_init _ _ Hi0), Eg. reflexivity.
Qed.

Example fc_no_bias : forall junk,
  exists p, currentParameters (fc_class junk) (fc_new junk 2 3 false TANH (mkReg 0 0 0)) p /\
    fc_getParameters (fc_new junk 2 3 false TANH (mkReg 0 0 0)) = Ok p /\ length p = 6%nat.
Proof.
  intros junk. destruct (C50_fc_getParameters_partial junk 2 3 false TANH (mkReg 0 0 0) _ (h_new _ _ _ _)) as (p & p' & H1 & H2 & _ & H3).
  rewrite H3 in H2 by auto. exists p. split; auto. split; auto. destruct H1 as (L & _). rewrite L. reflexivity.
Qed.

Print Assumptions C50_fc_getParameters_partial.
Print Assumptions C50_conv_getParameters_partial.
Print Assumptions C50_subs_getParameters_partial.
Print Assumptions C50_conv_getParameters_order_refuted.
Print Assumptions C50_compressed_getParameters_refuted.
