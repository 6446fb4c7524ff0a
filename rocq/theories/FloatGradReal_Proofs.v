(** Backpropagation in networks of fully connected layers with real weights computes the derivatives of the error. *)
From Coq Require Import Lra Lia Psatz.
From Verif Require Import Base BaseFacts Deriv Activation_Model Float_Model Float_Spec FloatSoft_Proofs FloatNet_Model FloatNet_Spec FloatNet_Proofs FloatGrad_Model FloatGrad_Spec.
Local Open Scope R_scope.

(** * Sums of products *)
Lemma dotR_nil_r u : dotR u [] = 0.
Proof. unfold dotR. destruct u; reflexivity. Qed.
Lemma dotR_cons a u b v : dotR (a :: u) (b :: v) = a * b + dotR u v.
Proof. reflexivity. Qed.
Lemma dotR_zeros {T} (l : list T) v : dotR (map (fun _ => 0) l) v = 0.
Proof. revert v. induction l as [|a l IH]; intros [|b v]; cbn [map]; try reflexivity; try apply dotR_nil_r. rewrite dotR_cons, IH. ring. Qed.
Lemma dotR_zeros_r {T} (l : list T) v : dotR v (map (fun _ => 0) l) = 0.
Proof. revert v. induction l as [|a l IH]; intros [|b v]; cbn [map]; try reflexivity; try apply dotR_nil_r. rewrite dotR_cons, IH. ring. Qed.
Lemma dotR_plus {T} (f g : T -> R) l v : dotR (map (fun x => f x + g x) l) v = dotR (map f l) v + dotR (map g l) v.
Proof. revert v. induction l as [|a l IH]; intros [|b v]; cbn [map]; rewrite ?dotR_nil_r, ?dotR_cons, ?IH; try (cbn; ring); ring. Qed.
Lemma dotR_scal {T} a (f : T -> R) l v : dotR (map (fun x => a * f x) l) v = a * dotR (map f l) v.
Proof. revert v. induction l as [|b l IH]; intros [|c v]; cbn [map]; rewrite ?dotR_nil_r, ?dotR_cons, ?IH; try (cbn; ring); ring. Qed.
Lemma map_nth_seq (r : list R) k : map (fun i => nth (i - k) r 0) (seq k (length r)) = r.
Proof.
  revert k. induction r as [|a r IH]; intros k; cbn [length seq map]; [reflexivity|]. rewrite Nat.sub_diag. cbn [nth]. f_equal. rewrite <- (IH (S k)) at 2. apply map_ext_in. intros i I. apply in_seq in I. replace (i - k)%nat with (S (i - S k)) by lia. reflexivity.
Qed.
Lemma column_cons {T} i (r : list T) rows v : nth_error r i = Some v -> column i (r :: rows) = v :: column i rows.
Proof. intros H. unfold column. cbn [flat_map]. now rewrite H. Qed.
Lemma adjoint delta rows I ds : (forall r, In r rows -> length r = I) ->
  dotR (map (fun i => dotR delta (column i rows)) (seq 0 I)) ds = dotR delta (map (fun r => dotR r ds) rows).
Proof.
  revert rows. induction delta as [|a delta IH]; intros rows H.
  - etransitivity; [apply (dotR_zeros (seq 0 I))|]. unfold dotR. reflexivity.
  - destruct rows as [|r rows].
    + etransitivity; [|symmetry; apply dotR_nil_r]. exact (dotR_zeros (seq 0 I) ds).
    + cbn [map]. rewrite dotR_cons, <- IH by (intros; apply H; now right). pose proof (H r (or_introl eq_refl)) as L.
      transitivity (dotR (map (fun i => a * nth i r 0 + dotR delta (column i rows)) (seq 0 I)) ds).
      { f_equal. apply map_ext_in. intros i J. apply in_seq in J. assert (Q : nth_error r i = Some (nth i r 0)) by (apply nth_error_nth'; lia). now rewrite (column_cons i r rows _ Q), dotR_cons. }
      rewrite dotR_plus, dotR_scal. do 2 f_equal. f_equal. rewrite <- L. etransitivity; [|apply (map_nth_seq r 0)]. apply map_ext. intros i. now rewrite Nat.sub_0_r.
Qed.

(** * The derivative as a function of the output *)
Definition dsig (act : ActivationFunction) (y : R) : R :=
  match act with
  | LOGISTIC => y * (1 - y)
  | TANH => 1 - y * y
  | TANH_SCALED => 0.66666667 / 1.7159 * (1.7159 + y) * (1.7159 - y)
  | RECTIFIER => 0
  | LINEAR => 1
  end.
Lemma D_sigma act a : act <> RECTIFIER -> D (sigma act) a (dsig act (sigma act a)).
Proof.
  intros H. destruct act; cbn [sigma dsig]; try congruence.
  - pose proof (exp_pos (- a)) as P. eapply D_eq; [|eapply D_ext; [intros x; reflexivity|apply (D_div (fun _ => 1) (fun x => 1 + exp (- x)) a 0 (0 + exp (- a) * -1))]]; [unfold Rsqr; field; lra|apply D_const| |lra].
    apply (D_plus (fun _ => 1) (fun x => exp (- x))); [apply D_const|]. apply (D_exp (fun x => - x)). apply (D_opp (fun x => x)), D_id.
  - apply D_tanh.
  - eapply D_eq; [|apply (D_scal 1.7159 (fun x => Rtrigo_def.tanh (0.66666667 * x)) a)]; [|apply (D_comp (fun x => 0.66666667 * x) Rtrigo_def.tanh a (0.66666667 * 1)); [apply (D_scal _ (fun x => x)), D_id|apply D_tanh]]. field; lra.
  - apply D_id.
Qed.

(** * Backpropagation *)
Definition rdelta (l : rlayer) (y ein : list R) : list R := map (fun p => dsig (ract l) (fst p) * snd p) (combine y ein).
Definition reout (l : rlayer) (I : nat) (delta : list R) : list R := map (fun i => dotR delta (column i (rweights l))) (seq 0 I).
Fixpoint rback (err : list R -> list R -> list R) (ls : list rlayer) (x t : list R) : list (list R * list R) * list R :=
  match ls with
  | [] => ([], err x t)
  | l :: ls => let y := rOutput l x in let (tr, ein) := rback err ls y t in ((rdelta l y ein, x) :: tr, reout l (length x) (rdelta l y ein))
  end.
Definition rtakes (I : nat) (l : rlayer) : Prop := (forall r, In r (rweights l) -> length r = I) /\ length (rbiases l) = length (rweights l).
Fixpoint rshaped (I : nat) (ls : list rlayer) : Prop := match ls with [] => True | l :: ls => rtakes I l /\ rshaped (length (rweights l)) ls end.
Definition routputs (I : nat) (ls : list rlayer) : nat := fold_left (fun _ l => length (rweights l)) ls I.
Definition smooth (ls : list rlayer) : Prop := forall l, In l ls -> ract l <> RECTIFIER.
Lemma rOutput_length I l x : rtakes I l -> length (rOutput l x) = length (rweights l).
Proof. intros (_ & H). unfold rOutput. rewrite map_length, combine_length. lia. Qed.

(** curves: lists of functions with their derivatives *)
Definition along (cs : list (R -> R)) (v : R) : list R := map (fun f => f v) cs.
Definition moves (cs : list (R -> R)) (v : R) (ds : list R) : Prop := Forall2 (fun f d => D f v d) cs ds.
Lemma D_dot w cs v ds : moves cs v ds -> D (fun u => dotR w (along cs u)) v (dotR w ds).
Proof.
  intros H. revert w. induction H as [|f d cs ds Hf H IH]; intros [|a w].
  - exact (D_const 0 v).
  - exact (D_const 0 v).
  - exact (D_const 0 v).
  - rewrite dotR_cons. apply (D_plus (fun u => a * f u)); [now apply D_scal|apply IH].
Qed.
Lemma D_error cs v ds t : moves cs v ds -> D (fun u => total (map (fun p => (fst p - snd p) * (fst p - snd p)) (combine (along cs u) t)) / 2) v (dotR (map (fun p => fst p - snd p) (combine (along cs v) t)) ds).
Proof.
  intros H. assert (G : D (fun u => total (map (fun p => (fst p - snd p) * (fst p - snd p)) (combine (along cs u) t))) v (2 * dotR (map (fun p => fst p - snd p) (combine (along cs v) t)) ds)).
  { revert t. induction H as [|f d cs ds Hf H IH]; intros [|a t].
    - eapply D_eq; [|apply (D_const 0)]. unfold dotR. cbn. ring.
    - eapply D_eq; [|apply (D_const 0)]. unfold dotR. cbn. ring.
    - eapply D_eq; [|apply (D_const 0)]. unfold dotR. cbn. ring.
    - cbn [along map combine]. rewrite dotR_cons. cbn [total fold_right fst snd]. eapply D_eq; [|apply (D_plus (fun u => (f u - a) * (f u - a)) _ v _ _ ltac:(apply (D_mult (fun u => f u - a) (fun u => f u - a) v (d - 0) (d - 0)); apply (D_minus f (fun _ => a)); auto using D_const) (IH t))]. unfold along. ring. }
  eapply D_eq; [|apply (D_scal_r (/ 2) _ v _ G)]. field.
Qed.
Lemma dsig_dot act (g : list R -> R) (f : list R * R -> R) rows bs ein : length bs = length rows ->
  dotR (map (fun p => dsig act (fst p) * snd p) (combine (map f (combine rows bs)) ein)) (map g rows) =
  dotR ein (map (fun p => dsig act (f p) * g (fst p)) (combine rows bs)).
Proof.
  revert bs ein. induction rows as [|r rows IH]; intros [|b bs] ein L; try discriminate.
  - cbn [combine map]. rewrite !dotR_nil_r. reflexivity.
  - destruct ein as [|e ein]; [reflexivity|]. cbn [combine map]. rewrite !dotR_cons. cbn [fst snd]. rewrite IH by (now injection L). ring.
Qed.
(** any error function [loss] of the outputs and targets with the derivatives [err], for the targets that it is made for *)
Section Loss.
Variables (loss : list R -> list R -> R) (err : list R -> list R -> list R) (okT : nat -> list R -> Prop).
Hypothesis D_loss : forall cs v ds t, okT (length cs) t -> moves cs v ds -> D (fun u => loss (along cs u) t) v (dotR (err (along cs v) t) ds).
Let rback := rback err.
Let instanceError ls x t := loss (rNet ls x) t.
Lemma chain ls : forall cs v ds t, okT (routputs (length cs) ls) t -> rshaped (length cs) ls -> smooth ls -> moves cs v ds ->
  D (fun u => instanceError ls (along cs u) t) v (dotR (snd (rback ls (along cs v) t)) ds).
Proof.
  induction ls as [|l ls IH]; intros cs v ds t OK SH SM H; [now apply D_loss|].
  destruct SH as ((T1 & T2) & SH). set (cs' := map (fun p u => sigma (ract l) (dotR (fst p) (along cs u) + snd p)) (combine (rweights l) (rbiases l))).
  set (ds' := map (fun p => dsig (ract l) (sigma (ract l) (dotR (fst p) (along cs v) + snd p)) * dotR (fst p) ds) (combine (rweights l) (rbiases l))).
  assert (M : moves cs' v ds'). { unfold cs', ds', moves. generalize (combine (rweights l) (rbiases l)) as q. induction q as [|p q IHq]; cbn [map]; constructor; auto. apply (D_comp (fun u => dotR (fst p) (along cs u) + snd p) (sigma (ract l))); [|apply D_sigma, SM; now left]. eapply D_eq; [|apply (D_plus (fun u => dotR (fst p) (along cs u)) (fun _ => snd p) v (dotR (fst p) ds) 0); [exact (D_dot (fst p) cs v ds H)|apply D_const]]. ring. }
  assert (A : forall u, along cs' u = rOutput l (along cs u)) by (intros u; unfold along, cs', rOutput; now rewrite map_map).
  assert (L : length cs' = length (rweights l)) by (unfold cs'; rewrite map_length, combine_length; lia).
  specialize (IH cs' v ds' t ltac:(rewrite L; exact OK) ltac:(now rewrite L) ltac:(intros k K; apply SM; now right) M).
  eapply D_eq; [|eapply D_ext; [|exact IH]]; [|intros u; cbv beta; rewrite A; reflexivity]. rewrite A. unfold rback. cbn [FloatGradReal_Proofs.rback]. fold rback. destruct (rback ls (rOutput l (along cs v)) t) as (tr, ein). cbn [snd].
  assert (LC : length (along cs v) = length cs) by (unfold along; apply map_length). unfold reout. rewrite LC, adjoint by (intros r I; now apply T1). unfold rdelta, rOutput. rewrite (dsig_dot (ract l) (fun r => dotR r ds)) by auto. reflexivity.
Qed.

(** * One weight *)
Lemma combine_both {A B} (a1 a2 : list A) (b1 b2 : list B) : length a1 = length b1 -> combine (a1 ++ a2) (b1 ++ b2) = combine a1 b1 ++ combine a2 b2.
Proof. revert b1. induction a1 as [|a a1 IH]; intros [|b b1] L; try discriminate; [reflexivity|]. cbn [app combine]. now rewrite IH by (now injection L). Qed.
Lemma dotR_app u1 u2 v1 v2 : length u1 = length v1 -> dotR (u1 ++ u2) (v1 ++ v2) = dotR u1 v1 + dotR u2 v2.
Proof. revert v1. induction u1 as [|a u1 IH]; intros [|b v1] L; try discriminate; cbn [app]; [unfold dotR at 2; cbn; ring|]. rewrite !dotR_cons, IH by (now injection L). ring. Qed.
Lemma update_split {T} (l1 l2 : list T) a v : update (length l1) v (l1 ++ a :: l2) = l1 ++ v :: l2.
Proof. unfold update. rewrite firstn_app, firstn_all, Nat.sub_diag. cbn [firstn]. rewrite app_nil_r. f_equal. f_equal. rewrite skipn_app, skipn_all2 by lia. replace (S (length l1) - length l1)%nat with 1%nat by lia. reflexivity. Qed.
Lemma update_same {T} (l : list T) i v : nth_error l i = Some v -> update i v l = l.
Proof. intros H. apply nth_error_split in H as (l1 & l2 & -> & <-). apply update_split. Qed.
Lemma split_at {T} (l : list T) i : (i < length l)%nat -> exists l1 a l2, l = l1 ++ a :: l2 /\ length l1 = i.
Proof. intros H. destruct (nth_error l i) as [a|] eqn:E; [|apply nth_error_None in E; lia]. apply nth_error_split in E as (l1 & l2 & -> & L). eauto. Qed.
Lemma along_const l v : along (map (fun a _ => a) l) v = l.
Proof. unfold along. rewrite map_map. apply map_id. Qed.
Lemma moves_const l v : moves (map (fun a _ => a) l) v (map (fun _ => 0) l).
Proof. induction l; constructor; auto. apply D_const. Qed.
Lemma moves_app c1 d1 c2 d2 v : moves c1 v d1 -> moves c2 v d2 -> moves (c1 ++ c2) v (d1 ++ d2).
Proof. intros. now apply Forall2_app. Qed.
Lemma dot_at e (z1 z2 : list R) d : dotR e (map (fun _ => 0) z1 ++ d :: map (fun _ => 0) z2) = nth (length z1) e 0 * d.
Proof.
  revert e. induction z1 as [|z z1 IH]; intros [|a e]; cbn [map app length nth].
  - unfold dotR. cbn. ring.
  - rewrite dotR_cons, dotR_zeros_r. ring.
  - unfold dotR. cbn. ring.
  - rewrite dotR_cons, IH. ring.
Qed.
(** a unit of the first layer changes *)
Lemma unit_derivative l ls x t j f v0 d (lv : R -> rlayer) z1 z2 :
  (forall v, rOutput (lv v) x = z1 ++ f v :: z2) -> length z1 = j -> D f v0 d -> smooth ls -> okT (routputs (length (z1 ++ f v0 :: z2)) ls) t -> rshaped (length (z1 ++ f v0 :: z2)) ls -> rOutput l x = z1 ++ f v0 :: z2 ->
  D (fun v => instanceError (lv v :: ls) x t) v0 (nth j (snd (rback ls (rOutput l x) t)) 0 * d).
Proof.
  intros HO HJ HD SM OK SH HL. set (cs := map (fun a (_ : R) => a) z1 ++ f :: map (fun a _ => a) z2). assert (A : forall v, along cs v = z1 ++ f v :: z2). { intros v. unfold cs, along. rewrite map_app. cbn [map]. f_equal; [apply along_const|]. f_equal. apply along_const. }
  assert (M : moves cs v0 (map (fun _ => 0) z1 ++ d :: map (fun _ => 0) z2)) by (apply moves_app; [apply moves_const|]; constructor; auto; apply moves_const).
  assert (LC : length cs = length (z1 ++ f v0 :: z2)) by (unfold cs; rewrite !app_length; cbn [length]; now rewrite !map_length). pose proof (chain ls cs v0 _ t ltac:(now rewrite LC) ltac:(now rewrite LC) SM M) as G.
  eapply D_eq; [|eapply D_ext; [|exact G]].
  - rewrite A, <- HL, dot_at, HJ. reflexivity.
  - intros v. cbv beta. rewrite A. unfold instanceError. change (rNet (lv v :: ls) x) with (rNet ls (rOutput (lv v) x)). now rewrite HO.
Qed.
Lemma nth_rdelta l y ein j (b : R) : nth_error y j = Some b -> nth j (rdelta l y ein) 0 = dsig (ract l) b * nth j ein 0.
Proof.
  unfold rdelta. revert ein j. induction y as [|a y IH]; intros [|e ein] [|j] H; cbn [nth_error combine map nth fst snd] in *; try discriminate; try (injection H as ->); try ring; auto.
Qed.
Lemma first_weight l ls x t j i r v0 : nth_error (rweights l) j = Some r -> nth_error r i = Some v0 -> okT (routputs (length x) (l :: ls)) t -> rshaped (length x) (l :: ls) -> smooth (l :: ls) ->
  D (fun v => instanceError (mkRlayer (update j (update i v r) (rweights l)) (rbiases l) (ract l) :: ls) x t) v0
    (nth j (rdelta l (rOutput l x) (snd (rback ls (rOutput l x) t))) 0 * nth i x 0).
Proof.
  intros Hj Hi OK ((T1 & T2) & SH) SM. destruct (nth_error_split _ _ Hj) as (r1 & r2 & ER & LR). destruct (nth_error_split _ _ Hi) as (w1 & w2 & EW & LW).
  assert (J : (j < length (rbiases l))%nat) by (rewrite T2; apply nth_error_Some; congruence). destruct (split_at _ _ J) as (b1 & b & b2 & EB & LB).
  assert (LX : length r = length x) by (apply T1; rewrite ER; apply in_or_app; right; now left). assert (IX : (i < length x)%nat) by (rewrite <- LX; apply nth_error_Some; congruence). destruct (split_at _ _ IX) as (x1 & xi & x2 & EX & LX1).
  set (f := fun v => sigma (ract l) (dotR (w1 ++ v :: w2) x + b)). set (out := fun q : list (list R * R) => map (fun p => sigma (ract l) (dotR (fst p) x + snd p)) q).
  assert (HO : forall v, rOutput (mkRlayer (update j (update i v r) (rweights l)) (rbiases l) (ract l)) x = out (combine r1 b1) ++ f v :: out (combine r2 b2)).
  { intros v. unfold rOutput, out. cbn [rweights rbiases ract]. rewrite EW, <- LW, update_split, ER, <- LR, update_split, EB. rewrite combine_both by lia. rewrite map_app. reflexivity. }
  assert (HL : rOutput l x = out (combine r1 b1) ++ f v0 :: out (combine r2 b2)). { rewrite <- HO, (update_same r i v0 Hi), (update_same _ j r Hj). destruct l; reflexivity. }
  assert (L1 : length (out (combine r1 b1)) = j) by (unfold out; rewrite map_length, combine_length; lia).
  eapply D_eq; [|apply (unit_derivative l ls x t j f v0 (dsig (ract l) (f v0) * nth i x 0) _ _ _ HO L1)]; auto.
  - rewrite (nth_rdelta l _ _ j (f v0)); [ring|]. rewrite HL, <- L1. rewrite nth_error_app2, Nat.sub_diag by lia. reflexivity.
  - eapply D_eq; [|apply (D_comp (fun v => dotR (w1 ++ v :: w2) x + b) (sigma (ract l)) v0 (nth i x 0 + 0) (dsig (ract l) (f v0)))]; [ring| |apply D_sigma, SM; now left].
    apply (D_plus (fun v => dotR (w1 ++ v :: w2) x) (fun _ => b)); [|apply D_const]. rewrite EX. replace (nth i (x1 ++ xi :: x2) 0) with xi by (rewrite <- LX1, app_nth2, Nat.sub_diag by lia; reflexivity).
    eapply D_eq; [|eapply D_ext; [intros u; symmetry; apply dotR_app; lia|]]; [|apply (D_plus (fun _ => dotR w1 x1) (fun v => dotR (v :: w2) (xi :: x2)) v0 0 (xi + 0)); [apply D_const|]]; [ring|].
    apply (D_plus (fun v => v * xi) (fun _ => dotR w2 x2)); [|apply D_const]. eapply D_eq; [|apply (D_scal_r xi (fun v => v)), D_id]. ring.
  - intros k K. apply SM. now right.
  - rewrite <- HL, (rOutput_length (length x)); [exact OK|split; auto].
  - rewrite <- HL, (rOutput_length (length x)); [auto|split; auto].
Qed.
Lemma first_bias l ls x t j v0 : nth_error (rbiases l) j = Some v0 -> okT (routputs (length x) (l :: ls)) t -> rshaped (length x) (l :: ls) -> smooth (l :: ls) ->
  D (fun v => instanceError (mkRlayer (rweights l) (update j v (rbiases l)) (ract l) :: ls) x t) v0
    (nth j (rdelta l (rOutput l x) (snd (rback ls (rOutput l x) t))) 0).
Proof.
  intros Hj OK ((T1 & T2) & SH) SM. destruct (nth_error_split _ _ Hj) as (b1 & b2 & EB & LB).
  assert (J : (j < length (rweights l))%nat) by (rewrite <- T2; apply nth_error_Some; congruence). destruct (split_at _ _ J) as (r1 & r & r2 & ER & LR).
  set (f := fun v => sigma (ract l) (dotR r x + v)). set (out := fun q : list (list R * R) => map (fun p => sigma (ract l) (dotR (fst p) x + snd p)) q).
  assert (HO : forall v, rOutput (mkRlayer (rweights l) (update j v (rbiases l)) (ract l)) x = out (combine r1 b1) ++ f v :: out (combine r2 b2)).
  { intros v. unfold rOutput, out. cbn [rweights rbiases ract]. rewrite EB, <- LB, update_split, ER. rewrite combine_both by lia. rewrite map_app. reflexivity. }
  assert (HL : rOutput l x = out (combine r1 b1) ++ f v0 :: out (combine r2 b2)). { rewrite <- HO, (update_same _ j v0 Hj). destruct l; reflexivity. }
  assert (L1 : length (out (combine r1 b1)) = j) by (unfold out; rewrite map_length, combine_length; lia).
  eapply D_eq; [|apply (unit_derivative l ls x t j f v0 (dsig (ract l) (f v0) * 1) _ _ _ HO L1)]; auto.
  - rewrite (nth_rdelta l _ _ j (f v0)); [ring|]. rewrite HL, <- L1. rewrite nth_error_app2, Nat.sub_diag by lia. reflexivity.
  - eapply D_eq; [|apply (D_comp (fun v => dotR r x + v) (sigma (ract l)) v0 (0 + 1) (dsig (ract l) (f v0)))]; [ring| |apply D_sigma, SM; now left].
    apply (D_plus (fun v => dotR r x) (fun v => v)); [apply D_const|apply D_id].
  - intros k K. apply SM. now right.
  - rewrite <- HL, (rOutput_length (length x)); [exact OK|split; auto].
  - rewrite <- HL, (rOutput_length (length x)); [auto|split; auto].
Qed.

(** * Any layer *)
Lemma update_cons {T} (a : T) l k v : update (S k) v (a :: l) = a :: update k v l.
Proof. reflexivity. Qed.
Lemma back_cons l ls x t : rback (l :: ls) x t = ((rdelta l (rOutput l x) (snd (rback ls (rOutput l x) t)), x) :: fst (rback ls (rOutput l x) t), reout l (length x) (rdelta l (rOutput l x) (snd (rback ls (rOutput l x) t)))).
Proof. unfold rback. cbn [FloatGradReal_Proofs.rback]. fold rback. destruct (rback ls (rOutput l x) t). reflexivity. Qed.
Lemma weight_derivative ls : forall x t k l j r i v0, okT (routputs (length x) ls) t -> rshaped (length x) ls -> smooth ls -> nth_error ls k = Some l -> nth_error (rweights l) j = Some r -> nth_error r i = Some v0 ->
  exists delta z, nth_error (fst (rback ls x t)) k = Some (delta, z) /\ D (fun v => instanceError (setWeight ls k j i v) x t) v0 (nth j delta 0 * nth i z 0).
Proof.
  induction ls as [|a ls IH]; intros x t [|k] l j r i v0 OK SH SM Hk Hj Hi; try discriminate; cbn [nth_error] in Hk; rewrite back_cons; cbn [fst nth_error].
  - injection Hk as ->. eexists _, _. split; [reflexivity|]. unfold setWeight. cbn [nth_error]. rewrite Hj. now apply (first_weight l ls x t j i r v0).
  - destruct SH as (T & SH). rewrite <- (rOutput_length (length x) a x T) in SH. assert (OK' : okT (routputs (length (rOutput a x)) ls) t) by (rewrite (rOutput_length (length x) a x T); exact OK). destruct (IH (rOutput a x) t k l j r i v0 OK' SH ltac:(intros q Q; apply SM; now right) Hk Hj Hi) as (delta & z & E & G). exists delta, z. split; auto.
    eapply D_ext; [|exact G]. intros v. unfold setWeight. cbn [nth_error]. rewrite Hk, Hj, update_cons. reflexivity.
Qed.
Lemma bias_derivative ls : forall x t k l j v0, okT (routputs (length x) ls) t -> rshaped (length x) ls -> smooth ls -> nth_error ls k = Some l -> nth_error (rbiases l) j = Some v0 ->
  exists delta z, nth_error (fst (rback ls x t)) k = Some (delta, z) /\ D (fun v => instanceError (setBias ls k j v) x t) v0 (nth j delta 0).
Proof.
  induction ls as [|a ls IH]; intros x t [|k] l j v0 OK SH SM Hk Hj; try discriminate; cbn [nth_error] in Hk; rewrite back_cons; cbn [fst nth_error].
  - injection Hk as ->. eexists _, _. split; [reflexivity|]. unfold setBias. cbn [nth_error]. now apply (first_bias l ls x t j v0).
  - destruct SH as (T & SH). rewrite <- (rOutput_length (length x) a x T) in SH. assert (OK' : okT (routputs (length (rOutput a x)) ls) t) by (rewrite (rOutput_length (length x) a x T); exact OK). destruct (IH (rOutput a x) t k l j v0 OK' SH ltac:(intros q Q; apply SM; now right) Hk Hj) as (delta & z & E & G). exists delta, z. split; auto.
    eapply D_ext; [|exact G]. intros v. unfold setBias. cbn [nth_error]. rewrite Hk, update_cons. reflexivity.
Qed.
End Loss.
(** the mean over a batch *)
Lemma D_total {T} (F : T -> R -> R) (g : T -> R) l v : (forall p, In p l -> D (F p) v (g p)) -> D (fun u => total (map (fun p => F p u) l)) v (total (map g l)).
Proof. induction l as [|a l IH]; intros H; [exact (D_const 0 v)|]. apply (D_plus (F a)); [apply H; now left|apply IH; intros; apply H; now right]. Qed.
