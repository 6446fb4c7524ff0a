(** The bodies of the parallel loops only write to elements of their own and do what the sequential model does. *)
From Coq Require Import FunctionalExtensionality Lia Lra.
From Verif Require Import Base BaseFacts Matrix RSum Acc MatOps Layer_Model Conv_Model Pool_Model SigmaPi_Model
  SimpleLayers_Model LRN_Model Preproc_Model Parallel_Model Parallel_Spec Parallel_Proofs ParallelLoops_Spec.
Local Open Scope R_scope.

(** * Ownership *)
Definition row_of (outs : array -> bool) (l : location) : option nat :=
  let '(b, i, _) := l in if outs b then Some i else None.

Ltac conf :=
  repeat first
   [ progress intros
   | match goal with
     | |- confined _ _ (if ?b then _ else _) => destruct b
     | |- confined _ _ (let '(_, _) := ?s in _) => destruct s
     | |- confined _ _ (pbind _ _) => apply confined_bind
     | |- confined _ _ (pfor _ _ _) => apply confined_for
     | |- confined _ _ (pfor_from _ _ _ _) => apply confined_for_from
     | |- confined _ _ (pfor_each _ _ _) => apply confined_for_each
     | |- confined _ _ (local _) => apply confined_local
     | |- confined _ _ (get _ _ _) => apply confined_get
     | |- confined _ _ (put _ _ _ _) => apply confined_put
     | |- confined _ _ (add _ _ _ _) => apply confined_add
     | |- confined _ _ (Ret _) => exact I
     | |- may_read _ _ _ => cbn; auto
     | |- may_write _ _ _ => solve [auto | cbn; auto]
     end ].

Section CONF.
Variable own : location -> option nat.
Lemma confined_scan P mr mc f idx : (forall r c i, confined own P (f r c i)) -> confined own P (pscan mr mc f idx).
Proof. intros H. unfold pscan. conf; auto. Qed.
Lemma confined_strided_from {St} P max k (body : nat -> nat -> St -> prog St) fuel : forall i o s,
  (forall i o s, confined own P (body i o s)) -> confined own P (pstrided_from fuel i o max k body s).
Proof.
  induction fuel as [|fuel IH]; intros i o s H; simpl; auto. destruct (Nat.ltb i max); simpl; auto.
  apply confined_bind; auto.
Qed.
Lemma confined_pool P g body : (forall a b c d e, confined own P (body a b c d e)) -> confined own P (ppool g body).
Proof.
  intros H. unfold ppool. conf. unfold pstrided. apply confined_strided_from. intros.
  apply confined_strided_from. conf; auto.
Qed.
Lemma confined_region {A} P g idx (body : nat -> A -> prog A) a :
  (forall i a, confined own P (body i a)) -> confined own P (pregion g idx body a).
Proof. intros H. unfold pregion. conf; auto. Qed.
Lemma confined_cells P fm r c body : (forall a b c d, confined own P (body a b c d)) ->
  confined own P (pcells fm r c body).
Proof. intros H. unfold pcells. conf; auto. Qed.
Lemma confined_window P fm fmOut n body : (forall i s, confined own P (body i s)) ->
  confined own P (pwindow fm fmOut n body).
Proof. intros H. unfold pwindow. conf; auto. Qed.
End CONF.

Definition is_act (b : array) : bool := match b with AAct => true | _ => false end.
Definition is_out (b : array) : bool := match b with AOut | ADenoms => true | _ => false end.
Definition is_err (b : array) : bool := match b with AErr => true | _ => false end.

Lemma confined_conv_forward g acols n : confined (row_of is_act) (eq n) (conv_forward_iteration g acols n).
Proof. unfold conv_forward_iteration. conf; apply confined_scan; conf. Qed.

Definition own_gradient (l : location) : option nat :=
  match l with (AKernelGrad o _, _, _) => Some o | _ => None end.
Lemma confined_conv_zero g Wd o : confined own_gradient (eq o) (conv_zero_iteration g Wd o).
Proof. unfold conv_zero_iteration. conf. Qed.

Lemma confined_subs_forward g bias n : confined (row_of is_act) (eq n) (subs_forward_iteration g bias n).
Proof. unfold subs_forward_iteration. apply confined_pool. conf. apply confined_region. conf. Qed.
Lemma confined_maxp_forward g n : confined (row_of is_out) (eq n) (maxp_forward_iteration g n).
Proof. unfold maxp_forward_iteration. apply confined_pool. conf. apply confined_region. conf. Qed.
Lemma confined_maxp_backward g n : confined (row_of is_err) (eq n) (maxp_backward_iteration g n).
Proof. unfold maxp_backward_iteration. apply confined_pool. conf. apply confined_region. conf. Qed.
Lemma confined_sp_forward nodes n : confined (row_of is_act) (eq n) (sp_forward_iteration nodes n).
Proof. unfold sp_forward_iteration. conf. Qed.
Lemma confined_lrn_forward s n : confined (row_of is_out) (eq n) (lrn_forward_iteration s n).
Proof. unfold lrn_forward_iteration. apply confined_cells. conf. apply confined_window. conf. Qed.
Lemma confined_lrn_backward s stride n : confined (row_of is_err) (eq n) (lrn_backward_iteration s stride n).
Proof. unfold lrn_backward_iteration. apply confined_cells. conf. apply confined_window. conf. Qed.

Definition own_patch (samples : nat) (l : location) : option nat :=
  match l with (APatches, i, _) => Some (i / samples)%nat | _ => None end.
Lemma confined_patches pi ch r c smp pr pc m :
  confined (own_patch smp) (eq m) (patches_iteration pi ch r c smp pr pc m).
Proof.
  unfold patches_iteration. apply confined_for. intros n u Hn.
  assert (Hw : forall j, may_write (own_patch smp) (eq m) (APatches, (m * smp + n)%nat, j)).
  { intros j. unfold may_write, own_patch. apply (Nat.div_unique _ _ _ n); lia. }
  conf.
Qed.

(** * Simulation *)
Lemma run_get m b i j a v : m b = Some a -> mget a i j = Ok v -> run (get b i j) m = Ok (v, m).
Proof. intros E G. simpl. rewrite E, G. reflexivity. Qed.
Lemma run_put m b i j a a' v : m b = Some a -> mset a i j v = Ok a' ->
  run (put b i j v) m = Ok (tt, mem_set m b a').
Proof. intros E G. simpl. rewrite E, G. reflexivity. Qed.
Lemma run_add m b i j a a' v : m b = Some a -> madd a i j v = Ok a' ->
  run (add b i j v) m = Ok (tt, mem_set m b a').
Proof.
  intros E G. unfold add. rewrite run_bind. unfold madd in G.
  destruct (mget a i j) as [w| | | |] eqn:G1; try discriminate.
  rewrite (run_get m b i j a w E G1). simpl bind. simpl in G. now apply run_put with a.
Qed.
Lemma run_local {A} (r : res A) a m : r = Ok a -> run (local r) m = Ok (a, m).
Proof. intros ->. reflexivity. Qed.

Tactic Notation "inv_ok" hyp(E) ident(x) ident(Ex) :=
  match type of E with bind ?r _ = Ok _ =>
    destruct r as [x| | | |] eqn:Ex; try discriminate E; cbn [bind] in E end.

Section SIM.
Context {A : Type}.
Variable Inv : A -> Prop.
Variable mem : A -> memory.
Notation vw := (fun a : A => (tt, mem a)).
Notation vwi := (fun st : A * nat => (snd st, mem (fst st))).
Notation Invi := (fun st : A * nat => Inv (fst st)).

Lemma sim_scan mr mc (q : nat -> nat -> nat -> prog unit) (f : nat -> nat -> nat -> A -> res A) idx :
  (forall r c i, simulates Inv vw (fun _ => q r c i) (f r c i)) ->
  simulates Inv vw (fun _ => pscan mr mc q idx) (scan mr mc f idx).
Proof.
  intros H a a' Ia E. unfold scan in E. unfold pscan. cbn [fst snd]. rewrite run_bind.
  inv_ok E st E1. destruct st as [a1 o1]. injection E as <-.
  match type of E1 with for_ ?n ?F (a, ?i) = _ =>
    match goal with |- (_ <- run (pfor _ ?Q _) _ ;; _) = _ /\ _ =>
      assert (S1 : simulates Invi vwi (pfor n Q) (for_ n F)) end end.
  { apply (sim_for Invi vwi). intros r _. apply (sim_for Invi vwi). intros c _ [a2 o2] st' I2 E'. cbn [fst snd].
    inv_ok E' a3 E3. injection E' as <-. rewrite run_bind.
    destruct (H r c o2 a2 a3 I2 E3) as [K K']. cbn [fst snd] in K. rewrite K. auto. }
  destruct (S1 (a, idx) _ Ia E1) as [K K']. cbn [fst snd] in K. rewrite K. auto.
Qed.

Lemma sim_strided_from {S L} (In : S -> Prop) (view : S -> L * memory) max k (q : nat -> nat -> L -> prog L)
    (f : nat -> nat -> S -> res S) fuel :
  (forall i o, simulates In view (q i o) (f i o)) ->
  forall i o, simulates In view (pstrided_from fuel i o max k q) (strided_from fuel i o max k f).
Proof.
  intros H. induction fuel as [|fuel IH]; intros i o s s' Is E; simpl in *; try discriminate.
  destruct (Nat.ltb i max).
  - inv_ok E s1 E1. destruct (H i o s s1 Is E1) as [K1 I1]. rewrite run_bind, K1.
    pose proof (IH (i + k)%nat (o + 1)%nat s1 s' I1 E) as K. destruct (view s1). exact K.
  - injection E as <-. now destruct (view s).
Qed.

Lemma sim_pool g (q : nat -> nat -> nat -> nat -> nat -> prog unit)
    (f : nat -> nat -> nat -> nat -> nat -> A -> res A) :
  (forall fmo ro co i o, simulates Inv vw (fun _ => q fmo ro co i o) (f fmo ro co i o)) ->
  simulates Inv vw (fun _ => ppool g q) (pool g f).
Proof.
  intros H a a' Ia E. unfold pool in E. unfold ppool. cbn [fst snd]. rewrite run_bind.
  inv_ok E st E1. destruct st as [a1 o1]. injection E as <-.
  match type of E1 with for_ ?n ?F (a, ?i) = _ =>
    match goal with |- (_ <- run (pfor _ ?Q _) _ ;; _) = _ /\ _ =>
      assert (S1 : simulates Invi vwi (pfor n Q) (for_ n F)) end end.
  { apply (sim_for Invi vwi). intros fmo _. apply (sim_strided_from Invi vwi). intros ri ro. unfold strided, pstrided.
    apply (sim_strided_from Invi vwi). intros ci co [a2 o2] st' I2 E'. cbn [fst snd].
    inv_ok E' a3 E3. injection E' as <-. rewrite run_bind.
    destruct (H _ _ _ _ _ a2 a3 I2 E3) as [K K']. cbn [fst snd] in K. rewrite K. auto. }
  destruct (S1 (a, 0%nat) _ Ia E1) as [K K']. cbn [fst snd] in K. rewrite K. auto.
Qed.

(** regions may have any local state *)
Lemma sim_region {S L} (In : S -> Prop) (view : S -> L * memory) g idx (q : nat -> L -> prog L) (f : nat -> S -> res S) :
  (forall i, simulates In view (q i) (f i)) ->
  simulates In view (pregion g idx q) (region g idx f).
Proof.
  intros H. unfold pregion, region. apply sim_for. intros kr _ s s' Is E.
  inv_ok E st E1. destruct st as [s1 o1]. injection E as <-. rewrite run_bind.
  assert (S1 : simulates (fun st : S * nat => In (fst st))
    (fun st : S * nat => ((fst (view (fst st)), snd st), snd (view (fst st))))
    (pfor (pkernelCols g) (fun kc st => let '(a, inputIdx) := st in
        a <~ q inputIdx a ;; Ret (a, Datatypes.S inputIdx)))
    (for_ (pkernelCols g) (fun kc st => let '(a, inputIdx) := st in
        a <- f inputIdx a ;; Ok (a, Datatypes.S inputIdx)))).
  { apply sim_for. intros kc _ [a2 o2] st' I2 E'. cbn [fst snd].
    inv_ok E' a3 E3. injection E' as <-. destruct (H o2 a2 a3 I2 E3) as [K K']. rewrite run_bind, K.
    cbn [fst snd]. destruct (view a3). auto. }
  destruct (S1 (s, idx) _ Is E1) as [K K']. cbn [fst snd] in K. rewrite K. cbn [fst snd bind]. now destruct (view s1).
Qed.

Lemma sim_cells fm r c (q : nat -> nat -> nat -> nat -> prog unit) (f : nat -> nat -> nat -> nat -> A -> res A) :
  (forall fmo r c i, simulates Inv vw (fun _ => q fmo r c i) (f fmo r c i)) ->
  simulates Inv vw (fun _ => pcells fm r c q) (cells fm r c f).
Proof.
  intros H a a' Ia E. unfold cells in E. unfold pcells. cbn [fst snd]. rewrite run_bind.
  inv_ok E st E1. destruct st as [a1 o1]. injection E as <-.
  match type of E1 with for_ ?n ?F (a, ?i) = _ =>
    match goal with |- (_ <- run (pfor _ ?Q _) _ ;; _) = _ /\ _ =>
      assert (S1 : simulates Invi vwi (pfor n Q) (for_ n F)) end end.
  { apply (sim_for Invi vwi). intros fmo _. apply (sim_for Invi vwi). intros ri _.
    apply (sim_for Invi vwi). intros ci _ [a2 o2] st' I2 E'. cbn [fst snd].
    inv_ok E' a3 E3. injection E' as <-. rewrite run_bind.
    destruct (H _ _ _ _ a2 a3 I2 E3) as [K K']. cbn [fst snd] in K. rewrite K. auto. }
  destruct (S1 (a, 0%nat) _ Ia E1) as [K K']. cbn [fst snd] in K. rewrite K. auto.
Qed.
End SIM.

Definition always {S} (_ : S) : Prop := True.

(** local computations that only read *)
Definition reads {L} (m : memory) (p : L -> prog L) (f : L -> res L) : Prop :=
  simulates always (fun v : L => (v, m)) p f.
Lemma run_reads {L} m (p : L -> prog L) f v v' : reads m p f -> f v = Ok v' -> run (p v) m = Ok (v', m).
Proof. intros H E. exact (proj1 (H v v' I E)). Qed.

(** ** Convolutional *)
Lemma conv_memory_set W Wb x a a' : mem_set (conv_memory W Wb x a) AAct a' = conv_memory W Wb x a'.
Proof.
  apply functional_extensionality. intros b. unfold mem_set. destruct (array_dec b AAct) as [->|]; auto.
  destruct b; auto. congruence.
Qed.

Lemma run_dot W Wb x a o i Wt kr n colBase k v :
  tget W o i = Ok Wt -> mdotblock Wt kr x n colBase k = Ok v ->
  run (pfor k (fun c sum => w <~ get (AKernel o i) kr c ;; y <~ get AInput n (colBase + c) ;; Ret (sum + w * y)) 0)
    (conv_memory W Wb x a) = Ok (v, conv_memory W Wb x a).
Proof.
  intros T E. unfold mdotblock in E.
  destruct (Nat.ltb kr (rows Wt) && Nat.eqb (cols Wt) k && Nat.ltb n (rows x) && Nat.leb (colBase + k) (cols x))%bool
    eqn:B; [|discriminate]. injection E as <-.
  rewrite !andb_true_iff, !Nat.ltb_lt, Nat.eqb_eq, Nat.leb_le in B. destruct B as [[[B1 B2] B3] B4].
  assert (G : forall j from s, (from + j <= k)%nat -> s = rsum from (fun c => at_ Wt kr c * at_ x n (colBase + c)%nat) ->
    run (pfor_from from j (fun c sum => w <~ get (AKernel o i) kr c ;; y <~ get AInput n (colBase + c) ;;
       Ret (sum + w * y)) s) (conv_memory W Wb x a)
    = Ok (rsum (from + j) (fun c => at_ Wt kr c * at_ x n (colBase + c)%nat), conv_memory W Wb x a)).
  { induction j as [|j IH]; intros from s Hj Hs; cbn [pfor_from].
    - simpl. rewrite Nat.add_0_r, Hs. reflexivity.
    - rewrite run_bind. rewrite run_bind.
      rewrite (run_get _ (AKernel o i) kr from Wt (at_ Wt kr from)); [|cbn; now rewrite T|apply mget_Ok; lia].
      cbn [bind]. rewrite run_bind.
      rewrite (run_get _ AInput n (colBase + from) x (at_ x n (colBase + from)%nat)); [|reflexivity|apply mget_Ok; lia].
      cbn [bind run]. rewrite IH by (try lia; subst s; reflexivity). do 3 f_equal. lia. }
  apply (G k 0%nat 0); auto.
Qed.

Lemma madd_cols a i j v a' : madd a i j v = Ok a' -> cols a' = cols a.
Proof.
  unfold madd, mget, mset. destruct (inside a i j); simpl; [|discriminate]. intros E. injection E as <-. reflexivity.
Qed.

Lemma sim_conv g W Wb x acols n :
  simulates (fun a => cols a = acols) (fun a => (tt, conv_memory W Wb x a)) (fun _ => conv_forward_iteration g acols n)
    (fun a => for_ (fmout g) (fun fmo a =>
      ' (a, _) <- for_ (fmin g) (fun fmi st =>
        let '(a, fmInBase) := st in
        Wtmp <- tget W fmo fmi ;;
        a <- scan (maxRow g) (maxCol g) (fun row col outputIdx a =>
               _ <- check (Nat.ltb outputIdx (cols a)) ;;
               ' (a, _) <- for_ (kernelRows g) (fun kr st =>
                   let '(a, colBase) := st in
                   v <- mdotblock Wtmp kr x n colBase (kernelCols g) ;;
                   a <- madd a n outputIdx v ;;
                   Ok (a, (colBase + inCols g)%nat))
                 (a, (fmInBase + row * inCols g + col)%nat) ;;
               Ok a) (fmo * fmOutSize g)%nat a ;;
        a <- (if cbias g
              then scan (maxRow g) (maxCol g) (fun row col outputIdx a =>
                     v <- mget Wb fmo fmi ;; madd a n outputIdx v) (fmo * fmOutSize g)%nat a
              else Ok a) ;;
        Ok (a, (fmInBase + fmInSize g)%nat)) (a, 0%nat) ;;
      Ok a) a).
Proof.
  set (Inv := fun a => cols a = acols). set (mem := conv_memory W Wb x).
  intros a a' Ia E. unfold conv_forward_iteration.
  refine (sim_for Inv (fun a => (tt, mem a)) (fmout g) _ _ _ a a' Ia E).
  clear a a' Ia E. intros fmo _ a a' Ia E. cbn [fst snd]. rewrite run_bind.
  inv_ok E st E1. destruct st as [a1 b1]. injection E as <-.
  match type of E1 with for_ ?n ?F (a, ?i) = _ =>
    match goal with |- (_ <- run (pfor _ ?Q _) _ ;; _) = _ /\ _ =>
      assert (S1 : simulates (fun st : mat * nat => Inv (fst st)) (fun st => (snd st, mem (fst st))) (pfor n Q) (for_ n F))
    end end.
  2: { destruct (S1 (a, 0%nat) _ Ia E1) as [K K']. cbn [fst snd] in K. rewrite K. auto. }
  clear a a1 b1 Ia E1. apply sim_for. intros fmi _ [a base] st' Ia E. cbn [fst snd].
  inv_ok E Wt E1. inv_ok E a1 E2. inv_ok E a2 E3. injection E as <-. cbn [fst snd].
  rewrite run_bind.
  match type of E2 with scan _ _ ?F ?i _ = _ =>
    match goal with |- (_ <- run (pscan ?r ?c ?Q ?i) _ ;; _) = _ /\ _ =>
      assert (S1 : simulates Inv (fun a => (tt, mem a)) (fun _ => pscan r c Q i) (scan r c F i)) end end.
  { apply sim_scan. clear -E1. intros row col o a a' Ia E. cbn [fst snd].
    inv_ok E u E2. inv_ok E st E3. destruct st as [a1 b1]. injection E as <-.
    rewrite run_bind. unfold Inv in Ia. rewrite Ia in E2. rewrite (run_local _ u _ E2). cbn [bind].
    rewrite run_bind.
    match type of E3 with for_ ?n ?F (a, ?i) = _ =>
      match goal with |- (_ <- run (pfor _ ?Q _) _ ;; _) = _ /\ _ =>
        assert (S1 : simulates (fun st : mat * nat => Inv (fst st)) (fun st => (snd st, mem (fst st))) (pfor n Q) (for_ n F))
      end end.
    { apply sim_for. intros kr _ [a2 b2] st' I2 E. cbn [fst snd] in *.
      inv_ok E v E4. inv_ok E a3 E5. injection E as <-. rewrite run_bind.
      unfold mem. rewrite (run_dot W Wb x a2 fmo fmi Wt kr n b2 (kernelCols g) v E1 E4). cbn [bind].
      rewrite run_bind, (run_add _ AAct n o a2 a3 v eq_refl E5), conv_memory_set. cbn [bind run fst snd].
      split; auto. unfold Inv in *. now rewrite (madd_cols _ _ _ _ _ E5). }
    destruct (S1 (a, (base + row * inCols g + col)%nat) _ Ia E3) as [K K']. cbn [fst snd] in K. rewrite K. auto. }
  destruct (S1 a a1 Ia E2) as [K1 I1]. cbn [fst snd] in K1. rewrite K1. cbn [bind]. rewrite run_bind.
  assert (K2 : run (if cbias g
       then pscan (maxRow g) (maxCol g) (fun _ _ outputIdx => v <~ get ABias fmo fmi ;; add AAct n outputIdx v)
              (fmo * fmOutSize g)%nat
       else Ret tt) (mem a1) = Ok (tt, mem a2) /\ Inv a2).
  { destruct (cbias g).
    - refine (sim_scan Inv mem _ _ _ _ _ _ a1 a2 I1 E3). clear. intros r c o a a' Ia E. cbn [fst snd].
      inv_ok E v E1. rewrite run_bind. rewrite (run_get _ ABias fmo fmi Wb v eq_refl E1). cbn [bind].
      unfold mem. rewrite (run_add _ AAct n o a a' v eq_refl E), conv_memory_set. split; auto.
      unfold Inv in *. now rewrite (madd_cols _ _ _ _ _ E).
    - injection E3 as <-. auto. }
  destruct K2 as [K2 I2]. rewrite K2. auto.
Qed.

Lemma conv_activate_parallel g W Wb x a a' :
  conv_activate g W Wb x a = Ok a' ->
  parallel_loop (rows x) (conv_forward_iteration g (cols a)) (conv_memory W Wb x a) (conv_memory W Wb x a').
Proof.
  intros E. apply (parallel_correct (row_of is_act)) with (conv_memory W Wb x a'); [|  |apply same_memory_refl].
  { intros i _. apply confined_conv_forward. }
  apply (sim_seq (fun b => cols b = cols a) (conv_memory W Wb x)) with (2 := eq_refl) (3 := E).
  intros i _. apply sim_conv.
Qed.

(** ** The derivatives are set to zero *)
Definition zeroed (m : mat) (r c : nat) : mat :=
  mkMat (rows m) (cols m) (fun i j => if (Nat.ltb i r || Nat.eqb i r && Nat.ltb j c)%bool then
    (if inside m i j then 0 else at_ m i j) else at_ m i j).
Definition zero_inside (m : mat) : mat :=
  mkMat (rows m) (cols m) (fun i j => if inside m i j then 0 else at_ m i j).

Lemma mat_ext r c f g : (forall i j, f i j = g i j) -> mkMat r c f = mkMat r c g.
Proof.
  intros H. f_equal. apply functional_extensionality. intros i. apply functional_extensionality. intros j. apply H.
Qed.
Lemma zeroed_0 m : zeroed m 0 0 = m.
Proof. destruct m as [r c f]. apply mat_ext. intros i j. destruct i; reflexivity. Qed.
Lemma zeroed_all m : zeroed m (rows m) 0 = zero_inside m.
Proof.
  apply mat_ext. intros i j. unfold inside. change (Nat.ltb j 0) with false. rewrite andb_false_r, orb_false_r.
  destruct (Nat.ltb i (rows m)); auto.
Qed.
Lemma zeroed_row m r : zeroed m r (cols m) = zeroed m (S r) 0.
Proof.
  apply mat_ext. intros i j. unfold inside. change (Nat.ltb j 0) with false. rewrite andb_false_r, orb_false_r.
  destruct (Nat.ltb_spec i r), (Nat.eqb_spec i r), (Nat.ltb_spec i (S r)), (Nat.ltb_spec j (cols m)); simpl; auto; try lia.
  all: now rewrite andb_false_r.
Qed.
Lemma zeroed_set m r c : (r < rows m)%nat -> (c < cols m)%nat -> mset (zeroed m r c) r c 0 = Ok (zeroed m r (S c)).
Proof.
  intros Hr Hc. rewrite mset_Ok by auto. f_equal. apply mat_ext. intros i j. cbn [at_ zeroed].
  destruct (Nat.eqb_spec i r) as [->|N1]; cbn [andb]; auto.
  - destruct (Nat.ltb_spec r r); [lia|]. cbn [orb].
    destruct (Nat.eqb_spec j c) as [->|N2].
    + destruct (Nat.ltb_spec c (S c)); [|lia]. now rewrite inside_true.
    + destruct (Nat.ltb_spec j c), (Nat.ltb_spec j (S c)); auto; lia.
Qed.

Lemma mem_set_set m b a a' : mem_set (mem_set m b a) b a' = mem_set m b a'.
Proof. apply functional_extensionality. intros c. unfold mem_set. destruct (array_dec c b); auto. Qed.
Lemma mem_set_id m b a : m b = Some a -> mem_set m b a = m.
Proof. intros E. apply functional_extensionality. intros c. unfold mem_set. destruct (array_dec c b); subst; auto. Qed.

Lemma run_zero M b m : M b = Some m ->
  run (pfor (rows m) (fun r _ => pfor (cols m) (fun c _ => put b r c 0) tt) tt) M
  = Ok (tt, mem_set M b (zero_inside m)).
Proof.
  intros E.
  assert (G : forall k r c, (r < rows m)%nat -> (c + k = cols m)%nat ->
    run (pfor_from c k (fun c _ => put b r c 0) tt) (mem_set M b (zeroed m r c))
    = Ok (tt, mem_set M b (zeroed m r (cols m)))).
  { induction k as [|k IH]; intros r c Hr Hc; cbn [pfor_from].
    - simpl. do 3 f_equal. f_equal. lia.
    - rewrite run_bind. rewrite (run_put _ b r c (zeroed m r c) (zeroed m r (S c)));
        [|apply mem_set_same|apply zeroed_set; lia].
      rewrite mem_set_set. cbn [bind]. apply IH; lia. }
  assert (F : forall k r, (r + k = rows m)%nat ->
    run (pfor_from r k (fun r _ => pfor (cols m) (fun c _ => put b r c 0) tt) tt) (mem_set M b (zeroed m r 0))
    = Ok (tt, mem_set M b (zeroed m (rows m) 0))).
  { induction k as [|k IH]; intros r Hr; cbn [pfor_from].
    - simpl. do 3 f_equal. f_equal. lia.
    - rewrite run_bind. unfold pfor at 1. rewrite (G (cols m) r 0%nat) by lia. cbn [bind].
      rewrite zeroed_row. apply IH. lia. }
  pose proof (F (rows m) 0%nat eq_refl) as K. rewrite zeroed_0, (mem_set_id M b m E), zeroed_all in K. exact K.
Qed.

Lemma tset_tget {A} (W W' : list (list A)) o i m : tset W o i m = Ok W' ->
  forall o' i', tget W' o' i' = if (Nat.eqb o o' && Nat.eqb i i')%bool then Ok m else tget W o' i'.
Proof.
  unfold tset, tget. intros E o' i'. inv_ok E r E1. inv_ok E r' E2.
  unfold vset in E, E2. destruct (Nat.ltb i (length r)) eqn:L1; [|discriminate].
  destruct (Nat.ltb o (length W)) eqn:L2; [|discriminate]. injection E as <-. injection E2 as <-.
  unfold vget at 1. rewrite nth_error_upd, L2. destruct (Nat.eqb_spec o o') as [<-|]; cbn [andb]; auto.
  cbn [bind]. rewrite E1. cbn [bind]. unfold vget. rewrite nth_error_upd, L1.
  destruct (Nat.eqb i i'); auto.
Qed.
Lemma tget_tset {A} (W : list (list A)) o i m : (exists a, tget W o i = Ok a) -> exists W', tset W o i m = Ok W'.
Proof.
  unfold tget, tset. intros [a E]. inv_ok E r E1. cbn [bind]. unfold vget in E, E1.
  destruct (nth_error r i) eqn:N; [|discriminate]. destruct (nth_error W o) eqn:N2; [|discriminate].
  assert (L1 : (i < length r)%nat) by (apply nth_error_Some; congruence).
  assert (L2 : (o < length W)%nat) by (apply nth_error_Some; congruence).
  rewrite vset_Ok by auto. cbn [bind]. rewrite vset_Ok by auto. eauto.
Qed.

Lemma gradient_memory_set W W' o i m : tset W o i m = Ok W' ->
  mem_set (conv_gradient_memory W) (AKernelGrad o i) m = conv_gradient_memory W'.
Proof.
  intros E. apply functional_extensionality. intros b. unfold mem_set.
  destruct (array_dec b (AKernelGrad o i)) as [->|N].
  - cbn. rewrite (tset_tget _ _ _ _ _ E), !Nat.eqb_refl. reflexivity.
  - destruct b; auto. cbn. rewrite (tset_tget _ _ _ _ _ E).
    destruct (Nat.eqb_spec o o0), (Nat.eqb_spec i i0); auto. congruence.
Qed.

Definition same_sizes (W0 W : list (list mat)) : Prop :=
  forall o i, match tget W0 o i, tget W o i with
  | Ok a, Ok b => rows a = rows b /\ cols a = cols b
  | Ok _, _ | _, Ok _ => False
  | _, _ => True
  end.

Lemma same_sizes_refl W : same_sizes W W.
Proof. intros o i. destruct (tget W o i); auto. Qed.

Lemma sim_conv_zero g W0 o :
  simulates (same_sizes W0) (fun Wd => (tt, conv_gradient_memory Wd)) (fun _ => conv_zero_iteration g W0 o)
    (fun Wd => for_ (fmin g) (fun i Wd => m <- tget Wd o i ;; tset Wd o i (zero_inside m)) Wd).
Proof.
  unfold conv_zero_iteration. intros a a' Ia E. cbn [fst snd].
  refine (sim_for (same_sizes W0) (fun Wd => (tt, conv_gradient_memory Wd)) (fmin g) _ _ _ a a' Ia E).
  clear a a' Ia E. intros i _ W W' Is E. cbn [fst snd]. inv_ok E m E1.
  pose proof (Is o i) as Si. rewrite E1 in Si. destruct (tget W0 o i) as [m0| | | |] eqn:E0; try contradiction.
  destruct Si as [S1 S2]. rewrite run_bind. cbn [local run bind]. rewrite S1, S2.
  rewrite (run_zero _ (AKernelGrad o i) m) by (cbn; now rewrite E1).
  rewrite (gradient_memory_set _ _ _ _ _ E). split; auto.
  intros o' i'. rewrite (tset_tget _ _ _ _ _ E). specialize (Is o' i').
  destruct (Nat.eqb_spec o o') as [<-|], (Nat.eqb_spec i i') as [<-|]; auto. cbn. now rewrite E0.
Qed.

Lemma for_from_rel {S} (Rel : S -> S -> Prop) (f g : nat -> S -> res S) :
  (forall i s t s', Rel s t -> f i s = Ok s' -> exists t', g i t = Ok t' /\ Rel s' t') ->
  forall n from s t s', Rel s t -> for_from from n f s = Ok s' -> exists t', for_from from n g t = Ok t' /\ Rel s' t'.
Proof.
  intros H. induction n as [|n IH]; intros from s t s' Rs E; simpl in *.
  - injection E as <-. eauto.
  - inv_ok E s1 E1. destruct (H from s t s1 Rs E1) as (t1 & G & R1). rewrite G. cbn [bind]. eauto.
Qed.

Definition alike (W W' : list (list mat)) : Prop := same_memory (conv_gradient_memory W') (conv_gradient_memory W).

Lemma conv_zero_alike fo fi W W' :
  for_ fo (fun o Wd => for_ fi (fun i Wd => m <- tget Wd o i ;; tset Wd o i (msetZero m)) Wd) W = Ok W' ->
  exists W2, for_ fo (fun o Wd => for_ fi (fun i Wd => m <- tget Wd o i ;; tset Wd o i (zero_inside m)) Wd) W = Ok W2
    /\ alike W' W2.
Proof.
  intros E. refine (for_from_rel alike _ _ _ fo 0%nat W W W' (same_memory_refl _) E). clear.
  intros o s t s' Rs E. refine (for_from_rel alike _ _ _ fi 0%nat s t s' Rs E). clear.
  intros i s t s' Rs E. inv_ok E m E1.
  pose proof (Rs (AKernelGrad o i)) as Ri. cbn in Ri. rewrite E1 in Ri. cbn [found] in Ri.
  destruct (tget t o i) as [m'| | | |] eqn:E2; cbn [found] in Ri; try contradiction. cbn [bind].
  destruct (tget_tset t o i (zero_inside m')) as (t' & Et); eauto. exists t'. split; auto.
  unfold alike. rewrite <- (gradient_memory_set _ _ _ _ _ E), <- (gradient_memory_set _ _ _ _ _ Et).
  intros b. unfold mem_set. destruct (array_dec b (AKernelGrad o i)); [|apply Rs].
  destruct Ri as (R1 & R2 & _). repeat split; auto. intros a c Ha Hc. cbn [at_ zero_inside msetZero mzero] in *.
  now rewrite inside_true.
Qed.

Lemma conv_zero_parallel g W W' :
  for_ (fmout g) (fun o Wd => for_ (fmin g) (fun i Wd => m <- tget Wd o i ;; tset Wd o i (msetZero m)) Wd) W = Ok W' ->
  parallel_loop (fmout g) (conv_zero_iteration g W) (conv_gradient_memory W) (conv_gradient_memory W').
Proof.
  intros E. destruct (conv_zero_alike _ _ _ _ E) as (W2 & E2 & A2).
  apply (parallel_correct own_gradient) with (conv_gradient_memory W2); auto.
  { intros i _. apply confined_conv_zero. }
  apply (sim_seq (same_sizes W) conv_gradient_memory) with (2 := same_sizes_refl W) (3 := E2).
  intros i _. apply sim_conv_zero.
Qed.

(** ** Subsampling *)
Lemma subs_memory_set W Wb x a a' : mem_set (subs_memory W Wb x a) AAct a' = subs_memory W Wb x a'.
Proof.
  apply functional_extensionality. intros b. unfold mem_set. destruct (array_dec b AAct) as [->|]; auto.
  destruct b; auto. congruence.
Qed.

Lemma wget_found W o r c v : wget W o r c = Ok v -> exists m, vget W o = Ok m /\ mget m r c = Ok v.
Proof. unfold wget. intros E. inv_ok E m E1. eauto. Qed.

Lemma subs_activate_parallel g bias W Wb x a a' :
  subs_activate g bias W Wb x a = Ok a' ->
  parallel_loop (rows x) (subs_forward_iteration g bias) (subs_memory W Wb x a) (subs_memory W Wb x a').
Proof.
  intros E. apply (parallel_correct (row_of is_act)) with (subs_memory W Wb x a'); [| |apply same_memory_refl].
  { intros i _. apply confined_subs_forward. }
  apply (sim_seq always (subs_memory W Wb x)) with (2 := I) (3 := E). clear a a' E.
  intros n _. unfold subs_forward_iteration. apply sim_pool. intros fmo ro co i o a a' _ E. cbn [fst snd].
  inv_ok E a1 E1. rewrite run_bind.
  assert (K : run (pregion g i (fun inputIdx (_ : unit) => v <~ get AInput n inputIdx ;;
      w <~ get (APoolWeight fmo) ro co ;; add AAct n o (v * w)) tt) (subs_memory W Wb x a)
    = Ok (tt, subs_memory W Wb x a1)).
  { refine (proj1 (sim_region always (fun a => (tt, subs_memory W Wb x a)) g i _ _ _ a a1 I E1)). clear.
    intros i a a' _ E. cbn [fst snd]. inv_ok E v E1. inv_ok E w E2.
    destruct (wget_found _ _ _ _ _ E2) as (m & M1 & M2).
    rewrite run_bind, (run_get _ AInput n i x v eq_refl E1). cbn [bind].
    rewrite run_bind, (run_get _ (APoolWeight fmo) ro co m w) by (auto; cbn; now rewrite M1). cbn [bind].
    rewrite (run_add _ AAct n o a a' _ eq_refl E), subs_memory_set. split; [auto|exact I]. }
  rewrite K. cbn [bind]. clear K E1. destruct bias.
  - inv_ok E v E1. destruct (wget_found _ _ _ _ _ E1) as (m & M1 & M2).
    rewrite run_bind, (run_get _ (APoolBias fmo) ro co m v) by (auto; cbn; now rewrite M1). cbn [bind].
    rewrite (run_add _ AAct n o a1 a' _ eq_refl E), subs_memory_set. split; [auto|exact I].
  - injection E as <-. split; [auto|exact I].
Qed.

(** ** MaxPooling *)
Lemma maxp_memory_set x y y' : mem_set (maxp_memory x y) AOut y' = maxp_memory x y'.
Proof.
  apply functional_extensionality. intros b. unfold mem_set. destruct (array_dec b AOut) as [->|]; auto.
  destruct b; auto. congruence.
Qed.
Lemma maxp_error_memory_set x ein e e' : mem_set (maxp_error_memory x ein e) AErr e' = maxp_error_memory x ein e'.
Proof.
  apply functional_extensionality. intros b. unfold mem_set. destruct (array_dec b AErr) as [->|]; auto.
  destruct b; auto. congruence.
Qed.

Lemma maxp_forward_parallel g x y y' :
  for_ (rows x) (fun n y =>
    pool g (fun fmo ro co inputIdx outputIdx y =>
      m <- region g inputIdx (fun inputIdx m =>
             v <- mget x n inputIdx ;; Ok (if Rltb m v then v else m)) (- DBL_MAX) ;;
      mset y n outputIdx m) y) y = Ok y' ->
  parallel_loop (rows x) (maxp_forward_iteration g) (maxp_memory x y) (maxp_memory x y').
Proof.
  intros E. apply (parallel_correct (row_of is_out)) with (maxp_memory x y'); [| |apply same_memory_refl].
  { intros i _. apply confined_maxp_forward. }
  apply (sim_seq always (maxp_memory x)) with (2 := I) (3 := E). clear y y' E.
  intros n _. unfold maxp_forward_iteration. apply sim_pool. intros fmo ro co i o y y' _ E. cbn [fst snd].
  inv_ok E m E1. rewrite run_bind.
  assert (Rd : reads (maxp_memory x y)
    (pregion g i (fun inputIdx m => v <~ get AInput n inputIdx ;; Ret (if Rltb m v then v else m)))
    (region g i (fun inputIdx m => v <- mget x n inputIdx ;; Ok (if Rltb m v then v else m)))).
  { apply sim_region. intros j m1 m2 _ E'. cbn [fst snd]. inv_ok E' v E2. injection E' as <-.
    rewrite run_bind, (run_get _ AInput n j x v eq_refl E2). split; [auto|exact I]. }
  rewrite (run_reads _ _ _ _ _ Rd E1). cbn [bind].
  rewrite (run_put _ AOut n o y y' _ eq_refl E), maxp_memory_set. split; [auto|exact I].
Qed.

Lemma maxp_backward_parallel g N x ein e e' :
  for_ N (fun n e =>
    pool g (fun fmo ro co inputIdx outputIdx e =>
      ' (m, idx) <- region g inputIdx (fun inputIdx st =>
             let '(m, idx) := st in
             v <- mget x n inputIdx ;;
             Ok (if Rltb m v then (v, Z.of_nat inputIdx) else (m, idx))) (- DBL_MAX, (-1)%Z) ;;
      d <- mget ein n outputIdx ;;
      idx <- zidx idx ;;
      mset e n idx d) e) e = Ok e' ->
  parallel_loop N (maxp_backward_iteration g) (maxp_error_memory x ein e) (maxp_error_memory x ein e').
Proof.
  intros E. apply (parallel_correct (row_of is_err)) with (maxp_error_memory x ein e'); [| |apply same_memory_refl].
  { intros i _. apply confined_maxp_backward. }
  apply (sim_seq always (maxp_error_memory x ein)) with (2 := I) (3 := E). clear e e' E.
  intros n _. unfold maxp_backward_iteration. apply sim_pool. intros fmo ro co i o e e' _ E. cbn [fst snd].
  inv_ok E st E1. destruct st as [m idx]. inv_ok E d E2. inv_ok E k E3. rewrite run_bind.
  assert (Rd : reads (maxp_error_memory x ein e)
    (pregion g i (fun inputIdx st => let '(m, idx) := st in v <~ get AInput n inputIdx ;;
       Ret (if Rltb m v then (v, Z.of_nat inputIdx) else (m, idx))))
    (region g i (fun inputIdx st => let '(m, idx) := st in v <- mget x n inputIdx ;;
       Ok (if Rltb m v then (v, Z.of_nat inputIdx) else (m, idx))))).
  { apply sim_region. intros j [m1 i1] m2 _ E'. cbn [fst snd]. inv_ok E' v E4. injection E' as <-.
    rewrite run_bind, (run_get _ AInput n j x v eq_refl E4). split; [auto|exact I]. }
  rewrite (run_reads _ _ _ _ _ Rd E1). cbn [bind].
  rewrite run_bind, (run_get _ AErrIn n o ein d eq_refl E2). cbn [bind].
  rewrite run_bind, (run_local _ k _ E3). cbn [bind].
  rewrite (run_put _ AErr n k e e' _ eq_refl E), maxp_error_memory_set. split; [auto|exact I].
Qed.

(** ** SigmaPi *)
Lemma sp_memory_set w x a a' : mem_set (sp_memory w x a) AAct a' = sp_memory w x a'.
Proof.
  apply functional_extensionality. intros b. unfold mem_set. destruct (array_dec b AAct) as [->|]; auto.
  destruct b; auto. congruence.
Qed.

Lemma sp_forward_parallel nodes w x N a a' :
  for_ N (fun instance a =>
    _ <- nonempty nodes ;;
    for_ (length nodes) (fun i a =>
      n <- vget nodes i ;;
      _ <- nonempty n ;;
      sum <- for_each n (fun u sum =>
        c <- correlation x instance u ;;
        w <- vget w (uweight u) ;;
        Ok (sum + w * c)) 0 ;;
      mset a instance i sum) a) a = Ok a' ->
  parallel_loop N (sp_forward_iteration nodes) (sp_memory w x a) (sp_memory w x a').
Proof.
  intros E. apply (parallel_correct (row_of is_act)) with (sp_memory w x a'); [| |apply same_memory_refl].
  { intros i _. apply confined_sp_forward. }
  apply (sim_seq always (sp_memory w x)) with (2 := I) (3 := E). clear a a' E.
  intros n _ a a' _ E. cbn [fst snd]. unfold sp_forward_iteration. inv_ok E u E1.
  rewrite run_bind. try rewrite (run_local _ u _ E1). cbn [local run bind].
  refine (sim_for always (fun a => (tt, sp_memory w x a)) (length nodes) _ _ _ a a' I E).
  clear a a' u E E1. intros i _ a a' _ E. cbn [fst snd]. inv_ok E nd E1. inv_ok E u E2. inv_ok E sum E3.
  rewrite run_bind. try rewrite (run_local _ nd _ E1). cbn [local run bind].
  rewrite run_bind. try rewrite (run_local _ u _ E2). cbn [local run bind]. rewrite run_bind.
  match type of E3 with for_each _ ?F _ = _ =>
    match goal with |- (_ <- run (pfor_each _ ?Q _) ?m ;; _) = _ /\ _ =>
      assert (Rd : reads m (pfor_each nd Q) (for_each nd F)) end end.
  { apply sim_for_each. intros un _ s1 s2 _ E'. cbn [fst snd]. inv_ok E' c E4. inv_ok E' wv E5. injection E' as <-.
    rewrite run_bind. unfold correlation in E4.
    match type of E4 with for_each ?l ?F _ = _ =>
      match goal with |- (_ <- run (pfor_each _ ?Q _) ?m ;; _) = _ /\ _ =>
        assert (Rd : reads m (pfor_each l Q) (for_each l F)) end end.
    { apply sim_for_each. intros k _ c1 c2 _ E'. cbn [fst snd]. inv_ok E' v E6. injection E' as <-.
      rewrite run_bind, (run_get _ AInput n k x v eq_refl E6). split; [auto|exact I]. }
    rewrite (run_reads _ _ _ _ _ Rd E4). cbn [bind]. unfold vget in E5.
    destruct (nth_error w (uweight un)) as [wv'|] eqn:Nw; [|discriminate]. injection E5 as ->.
    rewrite run_bind, (run_get _ AWeights (uweight un) 0 (mkMat (length w) 1 (fun i _ => nth i w 0)) wv);
      [split; [auto|exact I]|reflexivity|].
    assert (L : (uweight un < length w)%nat) by (apply nth_error_Some; congruence).
    rewrite mget_Ok by (cbn [rows cols]; lia). cbn [at_]. f_equal. now apply nth_error_nth. }
  rewrite (run_reads _ _ _ _ _ Rd E3). cbn [bind].
  rewrite (run_put _ AAct n i a a' _ eq_refl E), sp_memory_set. split; [auto|exact I].
Qed.

(** ** LocalResponseNormalization *)
Lemma lrn_memory_set_denoms x d y d' : mem_set (lrn_memory x d y) ADenoms d' = lrn_memory x d' y.
Proof.
  apply functional_extensionality. intros b. unfold mem_set. destruct (array_dec b ADenoms) as [->|]; auto.
  destruct b; auto. congruence.
Qed.
Lemma lrn_memory_set_out x d y y' : mem_set (lrn_memory x d y) AOut y' = lrn_memory x d y'.
Proof.
  apply functional_extensionality. intros b. unfold mem_set. destruct (array_dec b AOut) as [->|]; auto.
  destruct b; auto. congruence.
Qed.
Lemma lrn_error_memory_set x ein d t e e' : mem_set (lrn_error_memory x ein d t e) AErr e' = lrn_error_memory x ein d t e'.
Proof.
  apply functional_extensionality. intros b. unfold mem_set. destruct (array_dec b AErr) as [->|]; auto.
  destruct b; auto. congruence.
Qed.

Lemma run_window m fm fmOut n (q : nat -> R -> prog R) f v :
  (forall i, reads m (q i) (f i)) -> window fm fmOut n f = Ok v -> run (pwindow fm fmOut n q) m = Ok (v, m).
Proof.
  intros H E. unfold window in E. unfold pwindow.
  refine (proj1 (sim_for_from always (fun v => (v, m)) _ _ _ _ _ 0 v I E)). intros i _. apply H.
Qed.

Lemma lrn_forward_parallel s N x denoms y denoms' y' :
  for_ N (fun n st =>
      cells (lfm s) (lrows s) (lcols s) (fun fmOut r c outputIdx st =>
        let '(denoms, y) := st in
        denom <- window (lfm s) fmOut n (fun fmIn denom =>
                   a <- mget x n (fmIn * lfmSize s + r * lcols s + c) ;; Ok (denom + a * a)) ;;
        let denom := lk s + lalpha s * denom in
        denoms <- mset denoms n outputIdx denom ;;
        a <- mget x n outputIdx ;;
        p <- pow_ denom (- lbeta s) ;;
        y <- mset y n outputIdx (a * p) ;;
        Ok (denoms, y)) st) (denoms, y) = Ok (denoms', y') ->
  parallel_loop N (lrn_forward_iteration s) (lrn_memory x denoms y) (lrn_memory x denoms' y').
Proof.
  intros E. apply (parallel_correct (row_of is_out)) with (lrn_memory x denoms' y'); [| |apply same_memory_refl].
  { intros i _. apply confined_lrn_forward. }
  refine (sim_seq always (fun st => lrn_memory x (fst st) (snd st)) N _ _ (denoms, y) (denoms', y') _ I E).
  clear denoms y denoms' y' E. intros n _. unfold lrn_forward_iteration.
  apply (sim_cells always (fun st : mat * mat => lrn_memory x (fst st) (snd st))).
  intros fmo r c o [d y] st' _ E. cbn [fst snd].
  inv_ok E den E1. cbv zeta in E. inv_ok E d1 E2. inv_ok E a E3. inv_ok E p E4. inv_ok E y1 E5. injection E as <-.
  rewrite run_bind. erewrite run_window; [|intros i|exact E1].
  2: { intros v v' _ E'. cbn [fst snd]. inv_ok E' b E6. injection E' as <-.
       rewrite run_bind, (run_get _ AInput n _ x b eq_refl E6). split; [auto|exact I]. }
  cbn [bind]. cbv zeta. rewrite run_bind, (run_put _ ADenoms n o d d1 _ eq_refl E2), lrn_memory_set_denoms. cbn [bind].
  rewrite run_bind, (run_get _ AInput n o x a eq_refl E3). cbn [bind].
  rewrite run_bind. try rewrite (run_local _ p _ E4). cbn [local run bind].
  rewrite (run_put _ AOut n o y y1 _ eq_refl E5), lrn_memory_set_out. split; [auto|exact I].
Qed.

Lemma lrn_backward_parallel s N x ein denoms etmp e e' :
  for_ N (fun n e =>
      cells (lfm s) (lrows s) (lcols s) (fun fmOut r c outputIdx e =>
        nom <- window (lfm s) fmOut n (fun fmIn nom =>
                 v <- mlinear etmp (fmIn * lfmSize s + r * lcols s + c) ;; Ok (nom + v)) ;;
        a <- mget x n outputIdx ;;
        g <- mget ein n outputIdx ;;
        d <- mget denoms n outputIdx ;;
        p <- pow_ d (- lbeta s) ;;
        mset e n outputIdx (a * nom + g * p)) e) e = Ok e' ->
  parallel_loop N (lrn_backward_iteration s (rows etmp)) (lrn_error_memory x ein denoms etmp e)
    (lrn_error_memory x ein denoms etmp e').
Proof.
  intros E. apply (parallel_correct (row_of is_err)) with (lrn_error_memory x ein denoms etmp e');
    [| |apply same_memory_refl].
  { intros i _. apply confined_lrn_backward. }
  apply (sim_seq always (lrn_error_memory x ein denoms etmp)) with (2 := I) (3 := E). clear e e' E.
  intros n _. unfold lrn_backward_iteration. apply sim_cells. intros fmo r c o e e' _ E. cbn [fst snd].
  inv_ok E nom E1. inv_ok E a E2. inv_ok E g E3. inv_ok E d E4. inv_ok E p E5.
  rewrite run_bind. erewrite run_window; [|intros i|exact E1].
  2: { intros v v' _ E'. cbn [fst snd]. inv_ok E' b E6. injection E' as <-. unfold mlinear in E6. cbv zeta.
       destruct (Nat.eqb (rows etmp) 0) eqn:Z; [discriminate|].
       rewrite run_bind, (run_local _ tt) by reflexivity. cbn [bind].
       rewrite run_bind, (run_get _ AEtmp _ _ etmp b eq_refl E6). split; [auto|exact I]. }
  cbn [bind]. rewrite run_bind, (run_get _ AInput n o x a eq_refl E2). cbn [bind].
  rewrite run_bind, (run_get _ AErrIn n o ein g eq_refl E3). cbn [bind].
  rewrite run_bind, (run_get _ ADenoms n o denoms d eq_refl E4). cbn [bind].
  rewrite run_bind. try rewrite (run_local _ p _ E5). cbn [local run bind].
  rewrite (run_put _ AErr n o e e' _ eq_refl E), lrn_error_memory_set. split; [auto|exact I].
Qed.

(** ** sampleRandomPatches *)
Lemma patches_memory_set im p p' : mem_set (patches_memory im p) APatches p' = patches_memory im p'.
Proof.
  apply functional_extensionality. intros b. unfold mem_set. destruct (array_dec b APatches) as [->|]; auto.
  destruct b; auto. congruence.
Qed.

Lemma patches_parallel pi images channels rows cols samples patchRows patchCols p p' :
  for_ (Matrix.rows images) (fun m patches =>
    for_ samples (fun n patches =>
      let patchIdx := (m * samples + n)%nat in
      rc <- vget pi patchIdx ;;
      let rowStart := fst rc in
      let colStart := snd rc in
      ' (patches, _, _) <- for_ channels (fun chan '(patches, channelOffset, pxIdx) =>
          ' (patches, pxIdx) <- for_ patchRows (fun row st =>
              for_ patchCols (fun col '(patches, pxIdx) =>
                v <- mget images m (channelOffset + (rowStart + row) * cols + colStart + col)%nat ;;
                patches <- mset patches patchIdx pxIdx v ;;
                Ok (patches, S pxIdx)) st) (patches, pxIdx) ;;
          Ok (patches, (channelOffset + rows * cols)%nat, pxIdx)) (patches, 0%nat, 0%nat) ;;
      Ok patches) patches) p = Ok p' ->
  parallel_loop (Matrix.rows images) (patches_iteration pi channels rows cols samples patchRows patchCols)
    (patches_memory images p) (patches_memory images p').
Proof.
  intros E. apply (parallel_correct (own_patch samples)) with (patches_memory images p'); [| |apply same_memory_refl].
  { intros i _. apply confined_patches. }
  apply (sim_seq always (patches_memory images)) with (2 := I) (3 := E). clear p p' E.
  intros m _ p p' _ E. cbn [fst snd]. unfold patches_iteration.
  refine (sim_for always (fun a => (tt, patches_memory images a)) samples _ _ _ p p' I E).
  clear p p' E. intros n _ p p' _ E. cbn [fst snd]. cbv zeta in E. cbv zeta. inv_ok E rc E1.
  rewrite run_bind. try rewrite (run_local _ rc _ E1). cbn [local run bind]. inv_ok E st E2. destruct st as [[p1 co] px]. injection E as <-.
  rewrite run_bind.
  match type of E2 with for_ _ ?F _ = _ =>
    match goal with |- (_ <- run (pfor _ ?Q _) _ ;; _) = _ /\ _ =>
      assert (S1 : simulates always (fun st : mat * nat * nat => ((snd (fst st), snd st), patches_memory images (fst (fst st))))
        (pfor channels Q) (for_ channels F)) end end.
  2: { destruct (S1 (p, 0%nat, 0%nat) _ I E2) as [K _]. cbn [fst snd] in K. rewrite K. split; [auto|exact I]. }
  clear p p1 co px E2. apply sim_for. intros ch _ [[p co] px] st' _ E. cbn [fst snd].
  inv_ok E st E2. destruct st as [p1 px1]. injection E as <-. rewrite run_bind.
  match type of E2 with for_ _ ?F _ = _ =>
    match goal with |- (_ <- run (pfor _ ?Q _) _ ;; _) = _ /\ _ =>
      assert (S1 : simulates always (fun st : mat * nat => (snd st, patches_memory images (fst st)))
        (pfor patchRows Q) (for_ patchRows F)) end end.
  2: { destruct (S1 (p, px) _ I E2) as [K _]. cbn [fst snd] in K. rewrite K. split; [auto|exact I]. }
  clear p px p1 px1 E2. apply sim_for. intros row _. apply sim_for. intros col _ [p px] st' _ E. cbn [fst snd].
  inv_ok E v E2. inv_ok E p1 E3. injection E as <-.
  rewrite run_bind, (run_get _ AImages m _ images v eq_refl E2). cbn [bind].
  rewrite run_bind, (run_put _ APatches _ px p p1 _ eq_refl E3), patches_memory_set. split; [auto|exact I].
Qed.
