(** Theorems about the loops that are executed in parallel (C90). *)
From Coq Require Import Lia Lra Permutation.
From Verif Require Import Base BaseFacts Matrix RSum Acc MatOps Activation_Model Layer_Model Layer_Spec FC_Model Conv_Model Conv_Props
  Pool_Model Subs_Props MaxPool_Props SigmaPi_Model SigmaPi_Spec SigmaPi_Props SimpleLayers_Model LRN_Model LRN_Props
  Preproc_Model Preproc_Props Image_Spec
  Parallel_Model Parallel_Spec Parallel_Proofs ParallelLoops_Spec ParallelLoops_Proofs.
Local Open Scope R_scope.

Tactic Notation "take" hyp(E) ident(x) ident(Ex) :=
  match type of E with bind ?r _ = Ok _ =>
    destruct r as [x| | | |] eqn:Ex; try discriminate E; cbn [bind] in E end.

(** * C90: a parallel loop has the result of the sequential one, without data races, for any number of threads
    and any distribution of the iterations *)

Theorem C90_conv_forward junk s x dropout s' y error :
  conv_forward junk s x dropout = Ok (s', y, error) ->
  parallel_loop (rows x) (conv_forward_iteration (cg s) (cols (ca s)))
    (conv_memory (cW s) (cWb s) x (mzero (rows x) (cols (ca s))))
    (conv_memory (cW s) (cWb s) x (ca s')).
Proof.
  unfold conv_forward. intros E. take E u1 E1. take E u2 E2. take E a E3. take E y' E4. take E e' E5.
  assert (A : s' = mkConv (cg s) (cW s) (cWd s) (cWb s) (cWbd s) x a y' (cyd s) (cdeltas s) (ce s)) by congruence.
  rewrite A. exact (conv_activate_parallel _ _ _ _ _ _ E3).
Qed.
Print Assumptions C90_conv_forward.

Lemma tget_length {A} (W : list (list A)) o i : (i < length (nth o W []))%nat -> (o < length W)%nat -> exists a, tget W o i = Ok a.
Proof.
  intros Hi Ho. unfold tget. rewrite (vget_nth W o []) by auto. cbn [bind]. unfold vget.
  destruct (nth_error (nth o W []) i) eqn:E; eauto. apply nth_error_None in E. lia.
Qed.

Lemma parallel_loop_same N p before after after' :
  parallel_loop N p before after -> same_memory after after' -> parallel_loop N p before after'.
Proof.
  intros H S threads D. destruct (H threads D) as [B K]. split; auto. intros n c St.
  destruct (K n c St) as (K1 & K2 & K3). repeat split; auto. intros Dn. specialize (K3 Dn).
  intros b. specialize (K3 b). specialize (S b). destruct (snd c b), (after b), (after' b); auto; try contradiction.
  now apply meq_trans with m0.
Qed.

(** the derivatives of all weights are reset *)
Theorem C90_conv_zero g Wd r c :
  tsize Wd (fmout g) (fmin g) r c ->
  parallel_loop (fmout g) (conv_zero_iteration g Wd) (conv_gradient_memory Wd)
    (conv_gradient_memory (map (map msetZero) Wd)).
Proof.
  intros T.
  destruct (for_tensor Wd (fmout g) (fmin g) r c (fun o i Wd => m <- tget Wd o i ;; tset Wd o i (msetZero m))
    (fun _ _ m => msetZero m) T) as (W' & E & T' & F).
  { intros o i W1 Ho Hi T1. destruct (tget_Ok _ _ _ _ _ o i T1 Ho Hi) as [-> [S1 S2]]. cbn [bind]. split; auto.
    split; auto. }
  apply parallel_loop_same with (conv_gradient_memory W'); [now apply conv_zero_parallel|].
  intros b. destruct b; cbn; auto.
  assert (Z : found (tget (map (map msetZero) Wd) o i) = option_map msetZero (found (tget Wd o i))).
  { unfold tget, vget. rewrite nth_error_map. destruct (nth_error Wd o); auto. cbn. rewrite nth_error_map.
    destruct (nth_error l i); auto. }
  rewrite Z. destruct T as [T1 T2], T' as [T1' T2'].
  destruct (Nat.lt_ge_cases o (fmout g)) as [Ho|Ho].
  - destruct (T2 o Ho) as [L L'], (T2' o Ho) as [M M'].
    destruct (Nat.lt_ge_cases i (fmin g)) as [Hi|Hi].
    + rewrite (proj1 (tget_Ok Wd _ _ _ _ o i (conj T1 T2) Ho Hi)).
      rewrite (proj1 (tget_Ok W' _ _ _ _ o i (conj T1' T2') Ho Hi)). cbn. rewrite F by auto. apply meq_refl.
    + unfold tget. rewrite (vget_nth W' o []), (vget_nth Wd o []) by lia. cbn [bind]. unfold vget.
      rewrite (proj2 (nth_error_None (nth o W' []) i)) by lia. rewrite (proj2 (nth_error_None (nth o Wd []) i)) by lia.
      cbn. auto.
  - unfold tget, vget. rewrite (proj2 (nth_error_None W' o)) by lia. rewrite (proj2 (nth_error_None Wd o)) by lia.
    cbn. auto.
Qed.
Print Assumptions C90_conv_zero.

Theorem C90_subs_forward junk s x dropout s' y error :
  subs_forward junk s x dropout = Ok (s', y, error) ->
  parallel_loop (rows x) (subs_forward_iteration (sg s) (sbias s))
    (subs_memory (sW s) (sWb s) x (mzero (rows x) (cols (sa s))))
    (subs_memory (sW s) (sWb s) x (sa s')).
Proof.
  unfold subs_forward. cbv zeta. intros E. take E u1 E1. take E u2 E2. take E a E3. take E y' E4. take E e' E5.
  assert (A : sa s' = a).
  { assert (A : forall p q : subs * mat * R, Ok p = Ok q -> fst (fst p) = fst (fst q)) by congruence.
    apply A in E. cbn [fst] in E. rewrite <- E. reflexivity. }
  rewrite A. exact (subs_activate_parallel _ _ _ _ _ _ _ E3).
Qed.
Print Assumptions C90_subs_forward.

Theorem C90_maxp_forward junk s x dropout s' y error :
  maxp_forward junk s x dropout = Ok (s', y, error) ->
  parallel_loop (rows x) (maxp_forward_iteration (mg s))
    (maxp_memory x (mconsresize junk (my s) (rows x) (cols (my s)))) (maxp_memory x y).
Proof.
  unfold maxp_forward. cbv zeta. intros E. take E u1 E1. take E u2 E2. take E y' E3.
  assert (A : y = y') by congruence. rewrite A. exact (maxp_forward_parallel _ _ _ _ E3).
Qed.
Print Assumptions C90_maxp_forward.

Theorem C90_maxp_backward s ein bp s' e :
  maxp_backward s ein bp = Ok (s', e) ->
  parallel_loop (rows (my s)) (maxp_backward_iteration (mg s))
    (maxp_error_memory (mx s) ein (mzero (rows (my s)) (cols (me s)))) (maxp_error_memory (mx s) ein e).
Proof.
  unfold maxp_backward. cbv zeta. intros E. take E e' E3.
  assert (A : e = e') by congruence. rewrite A. exact (maxp_backward_parallel _ _ _ _ _ _ E3).
Qed.
Print Assumptions C90_maxp_backward.

Theorem C90_sp_forward junk s x dropout s' y error :
  sp_forward junk s x dropout = Ok (s', y, error) ->
  parallel_loop (rows x) (sp_forward_iteration (spnodes s))
    (sp_memory (spw s) x (mconsresize junk (spa s) (rows x) (cols (spa s)))) (sp_memory (spw s) x (spa s')).
Proof.
  unfold sp_forward. cbv zeta. intros E. take E x1 E1. take E x2 E2. take E a E3. take E y' E4.
  assert (A : spa s' = a).
  { assert (A : forall p q : sp * mat * R, Ok p = Ok q -> fst (fst p) = fst (fst q)) by congruence.
    apply A in E. cbn [fst] in E. rewrite <- E. reflexivity. }
  rewrite A. exact (sp_forward_parallel _ _ _ _ _ _ E3).
Qed.
Print Assumptions C90_sp_forward.

Theorem C90_lrn_forward junk s x dropout s' y error :
  lrn_forward junk s x dropout = Ok (s', y, error) ->
  parallel_loop (rows x) (lrn_forward_iteration s)
    (lrn_memory x (mconsresize junk (ldenoms s) (rows x) (cols (ldenoms s)))
       (mconsresize junk (ly s) (rows x) (cols (ly s))))
    (lrn_memory x (ldenoms s') y).
Proof.
  unfold lrn_forward. cbv zeta. intros E. take E st E3. destruct st as [d y'].
  assert (A : forall p q : lrn * mat * R, Ok p = Ok q -> fst (fst p) = fst (fst q) /\ snd (fst p) = snd (fst q))
    by (intros; split; congruence).
  apply A in E. cbn [fst snd] in E. destruct E as [B C]. rewrite <- C, <- B. cbn [ldenoms].
  exact (lrn_forward_parallel _ _ _ _ _ _ _ E3).
Qed.
Print Assumptions C90_lrn_forward.

Theorem C90_lrn_backward junk s ein bp s' e :
  lrn_backward junk s ein bp = Ok (s', e) ->
  parallel_loop (rows (ly s)) (lrn_backward_iteration s (rows (letmp s')))
    (lrn_error_memory (lx s) ein (ldenoms s) (letmp s') (mconsresize junk (le s) (rows (ly s)) (cols (le s))))
    (lrn_error_memory (lx s) ein (ldenoms s) (letmp s') e).
Proof.
  unfold lrn_backward. cbv zeta. intros E. take E t1 E1. take E t2 E2. take E e' E3.
  assert (A : forall p q : lrn * mat, Ok p = Ok q -> fst p = fst q /\ snd p = snd q) by (intros; split; congruence).
  apply A in E. cbn [fst snd] in E. destruct E as [B C]. rewrite <- C, <- B. cbn [letmp].
  exact (lrn_backward_parallel _ _ _ _ _ _ _ _ E3).
Qed.
Print Assumptions C90_lrn_backward.

Theorem C90_patches rnd junk images channels nrows ncols samples pr pc patches :
  sampleRandomPatches rnd junk images channels nrows ncols samples pr pc = Ok patches ->
  exists positions,
    parallel_loop (rows images) (patches_iteration positions channels nrows ncols samples pr pc)
      (patches_memory images (mkMat (rows images * samples) (channels * pr * pc) junk))
      (patches_memory images patches).
Proof.
  unfold sampleRandomPatches. cbv zeta. intros E. take E pi E1. exists pi. exact (patches_parallel _ _ _ _ _ _ _ _ _ _ E).
Qed.
Print Assumptions C90_patches.

(** * Concrete cases *)

(** three iterations: two threads have work, one has none *)
Example distribution_case : distribution 3 [[2; 0]; [1]; []]%nat.
Proof.
  unfold distribution. simpl. change [0; 1; 2]%nat with ([0; 1] ++ [2])%nat.
  apply (Permutation_app_comm [2]%nat [0; 1]%nat).
Qed.

(** every forward pass of a convolutional layer can be parallelized *)
Example C90_conv_case : forall junk, exists s0 p,
  conv_new junk 2 3 4 1 3 1 true TANH (mkReg 0 1 0) = Ok s0 /\
  forall X, rows X = 3%nat -> cols X = 24%nat -> exists q q1 Y reg',
    install (conv_class junk) s0 p = Ok q /\ conv_forward junk q X false = Ok (q1, Y, reg') /\
    parallel_loop 3 (conv_forward_iteration (cg q) (cols (ca q)))
      (conv_memory (cW q) (cWb q) X (mzero 3 (cols (ca q)))) (conv_memory (cW q) (cWb q) X (ca q1)).
Proof.
  intros junk. destruct (proj2 (C33_conv_output_size junk 2 3 4 1 3 1 true TANH (mkReg 0 1 0))) as (s0 & E).
  { simpl. lia. }
  exists s0, [1; 2; 3; 4; 5; 6; 7; 8]. split; auto. intros X HX1 HX2.
  destruct (C33_conv_forward junk 2 3 4 1 3 1 true TANH (mkReg 0 1 0) s0 s0 [1; 2; 3; 4; 5; 6; 7; 8] X false)
    as (q & q1 & Y & r & H1 & H2 & _); auto.
  { constructor. }
  exists q, q1, Y, r. split; auto. split; auto. rewrite <- HX1. exact (C90_conv_forward _ _ _ _ _ _ _ H2).
Qed.

Example C90_maxp_case : forall junk, exists s, maxp_new junk 2 4 4 2 2 = Ok s /\
  forall X, rows X = 3%nat -> cols X = 32%nat -> exists q Y, maxp_forward junk s X false = Ok (q, Y, 0) /\
    parallel_loop 3 (maxp_forward_iteration (mg s)) (maxp_memory X (mconsresize junk (my s) 3 (cols (my s)))) (maxp_memory X Y).
Proof.
  intros junk. destruct (proj2 (C35_maxp_initialize junk 2 4 4 2 2)) as (s & E). { lia. }
  exists s. split; auto. intros X H1 H2.
  destruct (C35_maxp_forward junk 2 4 4 2 2 s s X false E (h_new _ _ _ _) H2) as (q & Y & F & _).
  exists q, Y. split; auto. rewrite <- H1. exact (C90_maxp_forward _ _ _ _ _ _ _ F).
Qed.

(** one input and two output feature maps, 3 x 3 images, 2 x 2 kernels *)
Example C90_conv_zero_case : parallel_loop 2 (conv_zero_iteration (mkCgeom 1 3 3 2 2 2 true TANH (mkReg 0 0 0) 9 2 2 4 2 2) [[mkMat 2 2 (fun _ _ => 1)]; [mkMat 2 2 (fun _ _ => 3)]])
  (conv_gradient_memory [[mkMat 2 2 (fun _ _ => 1)]; [mkMat 2 2 (fun _ _ => 3)]])
  (conv_gradient_memory [[mkMat 2 2 (fun _ _ => 0)]; [mkMat 2 2 (fun _ _ => 0)]]).
Proof.
  refine (C90_conv_zero (mkCgeom 1 3 3 2 2 2 true TANH (mkReg 0 0 0) 9 2 2 4 2 2) _ 2 2 _). split; [reflexivity|]. intros [|[|o]] Ho; [| |cbn in Ho; lia];
    (split; [reflexivity|]; intros [|i] Hi; [split; reflexivity|cbn in Hi; lia]).
Qed.

Example C90_subs_case : forall junk, exists s0, subs_new junk 2 4 4 2 2 true TANH (mkReg 1 1 0) = Ok s0 /\
  forall X, rows X = 3%nat -> cols X = 32%nat -> exists q q1 Y reg',
    install (subs_class junk) s0 (repeat 2 16) = Ok q /\ subs_forward junk q X false = Ok (q1, Y, reg') /\
    parallel_loop 3 (subs_forward_iteration (sg q) (sbias q))
      (subs_memory (sW q) (sWb q) X (mzero 3 (cols (sa q)))) (subs_memory (sW q) (sWb q) X (sa q1)).
Proof.
  intros junk. destruct (proj2 (C36_subs_initialize junk 2 4 4 2 2 true TANH (mkReg 1 1 0))) as (s0 & E); [lia|].
  exists s0. split; auto. intros X H1 H2.
  destruct (C36_subs_forward junk 2 4 4 2 2 true TANH (mkReg 1 1 0) s0 s0 (repeat 2 16) X false E (h_new _ _ _ _) eq_refl H2)
    as (q & q1 & Y & r & F1 & F2 & _).
  exists q, q1, Y, r. split; auto. split; auto. rewrite <- H1. exact (C90_subs_forward _ _ _ _ _ _ _ F2).
Qed.

Example C90_maxp_backward_case : forall junk, exists s0, maxp_new junk 1 1 4 1 2 = Ok s0 /\
  let X := mkMat 2 4 (fun _ i => nth i [1; 3; 5; 2] 0) in
  exists q Y, maxp_forward junk s0 X false = Ok (q, Y, 0) /\
  forall ein, rows ein = 2%nat -> cols ein = 2%nat -> exists q2 e, maxp_backward q ein true = Ok (q2, e) /\
    parallel_loop (rows (my q)) (maxp_backward_iteration (mg q))
      (maxp_error_memory (mx q) ein (mzero (rows (my q)) (cols (me q)))) (maxp_error_memory (mx q) ein e).
Proof.
  intros junk. destruct (proj2 (C35_maxp_initialize junk 1 1 4 1 2)) as (s0 & E); [lia|].
  exists s0. split; auto. intros X.
  destruct (C35_maxp_forward junk 1 1 4 1 2 s0 s0 X false E (h_new _ _ _ _) eq_refl) as (q & Y & F & _).
  exists q, Y. split; auto. intros ein H1 H2.
  assert (Hd : - largestDouble < 0).
  { rewrite <- dbl_max. unfold DBL_MAX. assert (0 < 2 ^ 1023) by (apply pow_lt; lra). assert (0 < / 2 ^ 52 < 1).
    { split; [apply Rinv_0_lt_compat, pow_lt; lra|]. rewrite <- Rinv_1. apply Rinv_1_lt_contravar; [lra|].
      apply Rlt_pow_R1; [lra|lia]. }
    nra. }
  destruct (C35_maxp_backward junk 1 1 4 1 2 s0 s0 X false q Y 0 ein true E (h_new _ _ _ _) eq_refl F H1 H2) as (q2 & e & B & _).
  { intros n o ro co Hn Ho Hr Hc. exists 0%nat. split; [lia|]. cbn in Ho, Hr, Hc. assert (o = 0%nat) as -> by lia. assert (ro = 0%nat) as -> by lia.
    destruct co as [|[|co]]; [| |lia]; unfold regionOf, pixel, X; simpl; lra. }
  exists q2, e. split; auto. exact (C90_maxp_backward _ _ _ _ _ B).
Qed.

Example C90_sp_case : exists s0, sp_build (fun _ _ => 0) 3 false TANH
    [mkCall Second 2 None; mkCall Third 1 None; mkCall Second 1 (distanceConstraint 3 1)] = Ok s0 /\
  forall p X, length p = paramCount (sp_class (fun _ _ => 0)) s0 -> rows X = 5%nat -> cols X = 3%nat -> exists q q1 Y,
    install (sp_class (fun _ _ => 0)) s0 p = Ok q /\ sp_forward (fun _ _ => 0) q X false = Ok (q1, Y, 0) /\
    parallel_loop 5 (sp_forward_iteration (spnodes q))
      (sp_memory (spw q) X (mconsresize (fun _ _ => 0) (spa q) 5 (cols (spa q)))) (sp_memory (spw q) X (spa q1)).
Proof.
  destruct C59_case as (s & E & U). exists s. split; auto. intros p X Hp H1 H2.
  destruct (C59_output_partial _ _ _ _ _ E U) as (wi & _ & K).
  destruct (K s p X false (h_new _ _ _ _) Hp H2) as (q & q1 & Y & F1 & F2 & _).
  exists q, q1, Y. split; auto. split; auto. rewrite <- H1. exact (C90_sp_forward _ _ _ false _ _ 0 F2).
Qed.

Example C90_lrn_case : exists s, lrn_new (fun _ _ => 0) 2 1 1 2 5 (1/10000) (3/4) = Ok s /\
  forall X, rows X = 3%nat -> cols X = 2%nat -> exists q Y, lrn_forward (fun _ _ => 0) s X false = Ok (q, Y, 0) /\
    parallel_loop 3 (lrn_forward_iteration s)
      (lrn_memory X (mconsresize (fun _ _ => 0) (ldenoms s) 3 (cols (ldenoms s))) (mconsresize (fun _ _ => 0) (ly s) 3 (cols (ly s))))
      (lrn_memory X (ldenoms q) Y).
Proof.
  destruct C73_case as (s & E). exists s. split; auto. intros X H1 H2.
  destruct (C73_output_partial (fun _ _ => 0) 2 1 1 2 5 (1/10000) (3/4) s s X false ltac:(lra) ltac:(lra) E (h_new _ _ _ _) H2)
    as (q & Y & F & _).
  exists q, Y. split; auto. rewrite <- H1. exact (C90_lrn_forward (fun _ _ => 0) s X false q Y 0 F).
Qed.

Example C90_patches_case : exists positions patches,
  parallel_loop 2 (patches_iteration positions 2 3 4 3 2 2)
    (patches_memory (mkMat 2 24 (fun m i => INR (100 * m + i))) (mkMat 6 8 (fun _ _ => 0)))
    (patches_memory (mkMat 2 24 (fun m i => INR (100 * m + i))) patches).
Proof.
  destruct ex_patches as (Y & E & _). destruct (C90_patches _ _ _ _ _ _ _ _ _ _ E) as (pos & H). exists pos, Y. exact H.
Qed.

(** The definition rules out loops that are not safe: if each iteration adds 1 to the same element, there is a
    data race (and an update can get lost). *)
Definition counter_memory (v : R) : memory := fun b => match b with AAct => Some (mkMat 1 1 (fun _ _ => v)) | _ => None end.
Example race_case : forall after, ~ parallel_loop 2 (fun _ => add AAct 0 0 1) (counter_memory 0) after.
Proof.
  intros after H. destruct (H [[0]; [1]]%nat) as [_ K].
  { unfold distribution. simpl. auto. }
  destruct (K 1%nat (upd (team (fun _ => add AAct 0 0 1) [[0]; [1]]%nat) 0 (put AAct 0 0 (0 + 1)), counter_memory 0)) as [Hr1 _].
  { econstructor; [|constructor]. apply (step_read 0 _ _ (AAct, 0%nat, 0%nat) (fun v => put AAct 0 0 (v + 1)) 0); reflexivity. }
  apply Hr1. exists 0%nat, 1%nat, (put AAct 0 0 (0 + 1)), (pseq [add AAct 0 0 1]), (AAct, 0%nat, 0%nat), true, false.
  repeat split; auto.
Qed.
