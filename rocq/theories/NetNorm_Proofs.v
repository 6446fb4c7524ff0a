(** Proofs about the limit of the norm of weights in networks. *)
From Verif Require Import Base BaseFacts Matrix RSum MatOps Vec Activation_Model Layer_Model FC_Model SimpleLayers_Model Conv_Model Pool_Model
  Net_Model NetBuild_Model NetUse_Spec RBM_Model NetNorm_Spec.
From Verif Require SAE_Model.
Local Open Scope R_scope.

Definition rmap {A B} (f : A -> B) (r : res A) : res B := x <- r ;; Ok (f x).

(** the same penalties with another limit *)
Definition withLimit (m : R) (r : Regularization) : Regularization := mkReg (l1Penalty r) (l2Penalty r) m.

(** * Objects with another limit *)
Definition fcS (m : R) (s : fc) : fc :=
  mkFC (fI s) (fJ s) (fbias s) (fact s) (fW s) (fWd s) (fb s) (fbd s) (fx s) (fa s) (fy s) (fyd s) (fdeltas s) (fe s) (withLimit m (freg s)).
Definition kS (m : R) (s : compressed) : compressed :=
  mkCompressed (kI s) (kJ s) (kM s) (kbias s) (kact s) (kW s) (kWd s) (kphi s) (kalpha s) (kalphad s) (kx s) (ka s) (ky s) (kyd s) (kdeltas s) (ke s)
    (withLimit m (kreg s)).
Definition cgS (m : R) (g : cgeom) : cgeom :=
  mkCgeom (fmin g) (inRows g) (inCols g) (fmout g) (kernelRows g) (kernelCols g) (cbias g) (cact g) (withLimit m (creg g))
    (fmInSize g) (outRows g) (outCols g) (fmOutSize g) (maxRow g) (maxCol g).
Definition convS (m : R) (s : conv) : conv :=
  mkConv (cgS m (cg s)) (cW s) (cWd s) (cWb s) (cWbd s) (cx s) (ca s) (cy s) (cyd s) (cdeltas s) (ce s).
Definition subsS (m : R) (s : subs) : subs :=
  mkSubs (sg s) (sbias s) (sact s) (withLimit m (sreg s)) (sW s) (sWd s) (sWb s) (sWbd s) (sx s) (sa s) (sy s) (syd s) (sdeltas s) (se s).
Definition rcS (m : R) (c : rbmCfg) : rbmCfg := mkRC (rD c) (rH c) (rcd c) (rbackprop c) (withLimit m (rreg c)).
Definition rbmS (m : R) (s : rbm) : rbm := mkRBM (rcS m (rcfg s)) (rpar s) (rpos s) (rneg s) (rsmp s) (rlay s) (rparams s) (rgrad s) (rdata s).

Ltac binds := repeat (match goal with
  | |- bind ?m _ = _ => destruct m as [?| | | |]
  | |- (match ?p with (_, _) => _ end) = _ => destruct p
  end; cbn [bind]); try reflexivity.

Section Strip.
Variable junk : nat -> nat -> R.
Notation kc := (kclass junk).

Definition sk (m : R) (k : kind) : kind :=
  match k with
  | KFullyConnected i j b a r => KFullyConnected i j b a (withLimit m r)
  | KCompressed i j n b a phi r => KCompressed i j n b a phi (withLimit m r)
  | KConvolutional g => KConvolutional (cgS m g)
  | KSubsampling g b a r => KSubsampling g b a (withLimit m r)
  | KRestrictedBoltzmannMachine i h c b r u w => KRestrictedBoltzmannMachine i h c b (withLimit m r) u w
  | k => k
  end.
Definition so (m : R) (k : kind) : St (kc k) -> St (kc (sk m k)) :=
  match k as k0 return St (kc k0) -> St (kc (sk m k0)) with
  | KFullyConnected i j b a r => fcS m
  | KCompressed i j n b a phi r => kS m
  | KConvolutional g => convS m
  | KSubsampling g b a r => subsS m
  | KRestrictedBoltzmannMachine i h c b r u w => rbmS m
  | KInput J => fun o => o
  | KExtreme i j b a w => fun o => o
  | KIntrinsicPlasticity i s b => fun o => o
  | KMaxPooling g => fun o => o
  | KDropout i p => fun o => o
  | KSparseAutoEncoder i h beta rho lambda act => fun o => o
  end.
Definition sl (m : R) (l : layer kc) : layer kc := mkLayer kc (sk m (lkind kc l)) (so m (lkind kc l) (lobj kc l)).

(** ** Every function of a layer but updatedParameters of FullyConnected commutes with the change of the limit *)
Lemma bind_ret {A} (m : res A) : (x <- m ;; Ok x) = m.
Proof. destruct m; reflexivity. Qed.
Lemma bind_ret2 {A B} (m : res (A * B)) : (' (x, y) <- m ;; Ok (x, y)) = m.
Proof. destruct m as [[? ?]| | | |]; reflexivity. Qed.
Lemma bind_ret3 {A B C} (m : res (A * B * C)) : (' (x, y, z) <- m ;; Ok (x, y, z)) = m.
Proof. destruct m as [[[? ?] ?]| | | |]; reflexivity. Qed.

Lemma so_count m k o : length (fst (initialize (kc (sk m k)) (so m k o))) = length (fst (initialize (kc k) o)) /\
  length (snd (initialize (kc (sk m k)) (so m k o))) = length (snd (initialize (kc k) o)).
Proof. destruct k; cbn; auto. Qed.
Lemma so_read m k o n : readParam (kc (sk m k)) (so m k o) n = readParam (kc k) o n.
Proof. destruct k; try reflexivity. Qed.
Lemma so_deriv m k o n : readDeriv (kc (sk m k)) (so m k o) n = readDeriv (kc k) o n.
Proof. destruct k; try reflexivity. Qed.
Lemma so_write m k o n v : writeParam (kc (sk m k)) (so m k o) n v = rmap (so m k) (writeParam (kc k) o n v).
Proof.
  destruct k; cbn [sk so]; unfold rmap; try (symmetry; apply bind_ret).
  - change ((l <- vget (fst (fc_initialize o)) n ;; fc_store (fcS m o) l v) = (x <- (l <- vget (fst (fc_initialize o)) n ;; fc_store o l v) ;; Ok (fcS m x))).
    destruct (vget (fst (fc_initialize o)) n) as [l| | | |]; cbn [bind]; auto. destruct l; cbn [fc_store]; cbn [fcS fW fWd fb fbd]; binds.
  - change ((l <- vget (fst (k_initialize o)) n ;; k_store (kS m o) l v) = (x <- (l <- vget (fst (k_initialize o)) n ;; k_store o l v) ;; Ok (kS m x))).
    destruct (vget (fst (k_initialize o)) n) as [l| | | |]; cbn [bind]; auto. destruct l; cbn [k_store]; cbn [kS kalpha kalphad]; binds.
  - change ((l <- vget (fst (conv_initialize o)) n ;; conv_store (convS m o) l v) = (x <- (l <- vget (fst (conv_initialize o)) n ;; conv_store o l v) ;; Ok (convS m x))).
    destruct (vget (fst (conv_initialize o)) n) as [l| | | |]; cbn [bind]; auto. destruct l; cbn [conv_store]; cbn [convS cW cWd cWb cWbd]; binds.
  - change ((l <- vget (fst (subs_initialize o)) n ;; subs_store (subsS m o) l v) = (x <- (l <- vget (fst (subs_initialize o)) n ;; subs_store o l v) ;; Ok (subsS m x))).
    destruct (vget (fst (subs_initialize o)) n) as [l| | | |]; cbn [bind]; auto. destruct l; cbn [subs_store]; cbn [subsS sW sWd sWb sWbd]; binds.
  - change ((l <- vget (fst (rbm_initializeLayer o)) n ;; rbm_store (rbmS m o) l v) = (x <- (l <- vget (fst (rbm_initializeLayer o)) n ;; rbm_store o l v) ;; Ok (rbmS m x))).
    destruct (vget (fst (rbm_initializeLayer o)) n) as [l| | | |]; cbn [bind]; auto. destruct l; cbn [rbm_store]; cbn [rbmS rpar rlay]; binds.
Qed.

Definition f3 {A A' B C} (f : A -> A') (x : A * B * C) : A' * B * C := let '(a, b, c) := x in (f a, b, c).
Definition f2 {A A' B} (f : A -> A') (x : A * B) : A' * B := let '(a, b) := x in (f a, b).

Lemma fc_forwardS m o x d : fc_forward junk (fcS m o) x d = rmap (f3 (fcS m)) (fc_forward junk o x d).
Proof.
  unfold fc_forward, rmap. cbn [fcS fI fJ fbias fact fW fWd fb fbd fx fa fy fyd fdeltas fe freg].
  change (regError (withLimit m (freg o)) (fW o)) with (regError (freg o) (fW o)). binds.
Qed.
Lemma fc_backwardS m o e b : fc_backward junk (fcS m o) e b = rmap (f2 (fcS m)) (fc_backward junk o e b).
Proof.
  unfold fc_backward, rmap. cbn [fcS fI fJ fbias fact fW fWd fb fbd fx fa fy fyd fdeltas fe freg].
  change (regDeriv (withLimit m (freg o))) with (regDeriv (freg o)). binds.
Qed.
Lemma k_forwardS m o x d : k_forward junk (kS m o) x d = rmap (f3 (kS m)) (k_forward junk o x d).
Proof.
  unfold k_forward, rmap. cbn [kS kI kJ kM kbias kact kW kWd kphi kalpha kalphad kx ka ky kyd kdeltas ke kreg].
  change (regError (withLimit m (kreg o)) (kalpha o)) with (regError (kreg o) (kalpha o)). binds.
Qed.
Lemma k_backwardS m o e b : k_backward junk (kS m o) e b = rmap (f2 (kS m)) (k_backward junk o e b).
Proof.
  unfold k_backward, rmap. cbn [kS kI kJ kM kbias kact kW kWd kphi kalpha kalphad kx ka ky kyd kdeltas ke kreg].
  change (regDeriv (withLimit m (kreg o))) with (regDeriv (kreg o)). binds.
Qed.
Lemma k_updatedS m o : k_updatedParameters (kS m o) = rmap (kS m) (k_updatedParameters o).
Proof. unfold k_updatedParameters, rmap. cbn [kS kI kM kbias kphi kalpha kalphad]. binds. Qed.
Lemma conv_forwardS m o x d : conv_forward junk (convS m o) x d = rmap (f3 (convS m)) (conv_forward junk o x d).
Proof.
  unfold conv_forward, rmap. cbn [convS cg cW cWd cWb cWbd cx ca cy cyd cdeltas ce].
  change (conv_activate (cgS m (cg o))) with (conv_activate (cg o)). change (conv_regError (cgS m (cg o))) with (conv_regError (cg o)).
  cbn [cgS fmin inRows inCols fmout outRows outCols cact]. binds.
Qed.
Lemma conv_backwardS m o e b : conv_backward junk (convS m o) e b = rmap (f2 (convS m)) (conv_backward junk o e b).
Proof.
  unfold conv_backward, rmap. cbn [convS cg cW cWd cWb cWbd cx ca cy cyd cdeltas ce].
  change (conv_collect (cgS m (cg o))) with (conv_collect (cg o)).
  cbn [cgS fmin inRows inCols fmout outRows outCols cact creg withLimit l1Penalty l2Penalty]. binds.
Qed.
Lemma subs_forwardS m o x d : subs_forward junk (subsS m o) x d = rmap (f3 (subsS m)) (subs_forward junk o x d).
Proof.
  unfold subs_forward, rmap. cbn [subsS sg sbias sact sreg sW sWd sWb sWbd sx sa sy syd sdeltas se].
  change (subs_regError (pfm (sg o)) (withLimit m (sreg o))) with (subs_regError (pfm (sg o)) (sreg o)). binds.
Qed.
Lemma subs_backwardS m o e b : subs_backward junk (subsS m o) e b = rmap (f2 (subsS m)) (subs_backward junk o e b).
Proof.
  unfold subs_backward, rmap. cbn [subsS sg sbias sact sreg sW sWd sWb sWbd sx sa sy syd sdeltas se withLimit l1Penalty l2Penalty]. binds.
Qed.
Lemma rbm_forwardS m u o x d : rbm_forward junk u (rbmS m o) x d = rmap (f3 (rbmS m)) (rbm_forward junk u o x d).
Proof.
  unfold rbm_forward, rmap, withSmp. change (rpar (setV (rbmS m o) x)) with (rpar (setV o x)). change (rsmp (setV (rbmS m o) x)) with (rsmp (setV o x)).
  change (sampleHgivenV junk u (rcfg (setV (rbmS m o) x))) with (sampleHgivenV junk u (rcfg (setV o x))).
  generalize (sampleHgivenV junk u (rcfg (setV o x)) (rpar (setV o x)) (rsmp (setV o x))). intros [?| | | |]; reflexivity.
Qed.
Lemma rbm_backwardS m o e b : rbm_backward junk (rbmS m o) e b = rmap (f2 (rbmS m)) (rbm_backward junk o e b).
Proof. unfold rbm_backward, rmap. cbn [rbmS rcfg rpar rsmp rlay rcS rbackprop]. binds. Qed.

Lemma f3_id {A B C} (m : res (A * B * C)) : m = rmap (f3 (fun a => a)) m.
Proof. destruct m as [[[? ?] ?]| | | |]; reflexivity. Qed.
Lemma f2_id {A B} (m : res (A * B)) : m = rmap (f2 (fun a => a)) m.
Proof. destruct m as [[? ?]| | | |]; reflexivity. Qed.
Lemma so_forward m k o x d : forwardPropagate (kc (sk m k)) (so m k o) x d = rmap (f3 (so m k)) (forwardPropagate (kc k) o x d).
Proof.
  destruct k; cbn [sk so]; try apply f3_id; [apply fc_forwardS|apply k_forwardS|apply conv_forwardS|apply subs_forwardS|apply rbm_forwardS].
Qed.
Lemma so_backward m k o e b : backpropagate (kc (sk m k)) (so m k o) e b = rmap (f2 (so m k)) (backpropagate (kc k) o e b).
Proof.
  destruct k; cbn [sk so]; try apply f2_id; [apply fc_backwardS|apply k_backwardS|apply conv_backwardS|apply subs_backwardS|apply rbm_backwardS].
Qed.

Lemma so_updated m k o : (forall i j b a r, k <> KFullyConnected i j b a r) ->
  updatedParameters (kc (sk m k)) (so m k o) = rmap (so m k) (updatedParameters (kc k) o).
Proof.
  intros H. destruct k; cbn [sk so]; try reflexivity; try (unfold rmap; symmetry; apply bind_ret).
  - exfalso. eapply H. reflexivity.
  - apply k_updatedS.
Qed.

Lemma for_map {A B} (f : A -> B) (body : nat -> A -> res A) (body' : nat -> B -> res B) n : forall from s,
  (forall i s, body' i (f s) = rmap f (body i s)) -> for_from from n body' (f s) = rmap f (for_from from n body s).
Proof.
  induction n as [|n IH]; intros from s H; [reflexivity|]. cbn [for_from]. rewrite H. unfold rmap in *.
  destruct (body from s) as [x| | | |]; cbn [bind]; auto.
Qed.

Lemma conv_drawS m w o : conv_draw w (convS m o) = rmap (convS m) (conv_draw w o).
Proof.
  unfold conv_draw, for_. cbn [convS cg cgS fmout fmin cbias kernelRows kernelCols]. apply for_map. intros i s.
  apply for_map. intros j q. unfold rmap. cbn [convS cW cWb]. binds.
Qed.
Lemma subs_drawS m w o : subs_draw w (subsS m o) = rmap (subsS m) (subs_draw w o).
Proof.
  unfold subs_draw, for_. cbn [subsS sg]. apply for_map. intros i s. unfold rmap. cbn [subsS sW sWb sWd sWbd sbias]. binds.
Qed.
Lemma so_draw m w l : initializeParameters junk w (sl m l) = rmap (sl m) (initializeParameters junk w l).
Proof.
  destruct l as [k o]. destruct k; try reflexivity; unfold initializeParameters, sl; cbn [lkind lobj sk so].
  - change (k_draw w (kS m o)) with (k_updatedParameters (kS m (k_with o (kW o) (refill (kalpha o) w) (kalphad o)))).
    rewrite k_updatedS. unfold k_draw, rmap. now destruct (k_updatedParameters (k_with o (kW o) (refill (kalpha o) w) (kalphad o))).
  - rewrite conv_drawS. unfold rmap. now destruct (conv_draw w o).
  - rewrite subs_drawS. unfold rmap. now destruct (subs_draw w o).
  - unfold rmap. now destruct (SAE_Model.sae_initializeParameters (fun k => w k 0%nat) o).
Qed.

(** * Layers and networks with other limits: [ms] are the limits of the layers *)
Fixpoint relab (ms : list R) (ls : list (layer kc)) : list (layer kc) :=
  match ls with [] => [] | l :: ls => sl (hd 0 ms) l :: relab (tl ms) ls end.
Definition rl (ms : list R) (v : list R) (s : net kc) : net kc := with_vector kc (with_layers kc s (relab ms (layers kc s))) v.

Lemma relab_length ms ls : length (relab ms ls) = length ls.
Proof. revert ms. induction ls as [|l ls IH]; intros ms; simpl; auto. Qed.
Lemma nth_hd_tl i (ms : list R) : nth i (tl ms) 0 = nth (S i) ms 0.
Proof. destruct ms; auto. now destruct i. Qed.
Lemma relab_vget ms ls i : vget (relab ms ls) i = rmap (sl (nth i ms 0)) (vget ls i).
Proof.
  unfold vget, rmap. revert ms i. induction ls as [|l ls IH]; intros ms [|i]; cbn [relab nth_error bind]; auto.
  - now destruct ms.
  - rewrite IH. now rewrite nth_hd_tl.
Qed.
Lemma relab_upd ms ls i l : relab ms (upd ls i l) = upd (relab ms ls) i (sl (nth i ms 0) l).
Proof.
  revert ms i. induction ls as [|x ls IH]; intros ms [|i]; cbn [relab upd]; auto.
  - now destruct ms.
  - now rewrite IH, nth_hd_tl.
Qed.
Lemma relab_app ms a b : relab ms (a ++ b) = relab ms a ++ relab (skipn (length a) ms) b.
Proof. revert ms. induction a as [|x a IH]; intros [|m ms]; cbn [app relab length skipn hd tl]; auto; rewrite IH; auto. now rewrite skipn_nil. Qed.

Lemma relab_storePtr ms ls ptr v : storePtr kc (relab ms ls) ptr v = rmap (relab ms) (storePtr kc ls ptr v).
Proof.
  unfold storePtr. rewrite relab_vget. unfold rmap. destruct (vget ls (fst ptr)) as [l| | | |]; cbn [bind]; auto.
  cbn [sl lkind lobj]. rewrite so_write. unfold rmap. destruct (writeParam (kc (lkind kc l)) (lobj kc l) (snd ptr) v) as [o| | | |]; cbn [bind]; auto.
  now rewrite relab_upd.
Qed.
Lemma relab_loadParam ms ls ptr : loadParam kc (relab ms ls) ptr = loadParam kc ls ptr.
Proof.
  unfold loadParam. rewrite relab_vget. unfold rmap. destruct (vget ls (fst ptr)) as [l| | | |]; cbn [bind]; auto.
  cbn [sl lkind lobj]. apply so_read.
Qed.
Lemma relab_loadDeriv ms ls ptr : loadDeriv kc (relab ms ls) ptr = loadDeriv kc ls ptr.
Proof.
  unfold loadDeriv. rewrite relab_vget. unfold rmap. destruct (vget ls (fst ptr)) as [l| | | |]; cbn [bind]; auto.
  cbn [sl lkind lobj]. apply so_deriv.
Qed.
Lemma relab_forward ls : forall ms x d, forwardLayers kc (relab ms ls) x d = rmap (f3 (relab ms)) (forwardLayers kc ls x d).
Proof.
  induction ls as [|[k o] ls IH]; intros ms x d; [reflexivity|]. cbn [relab forwardLayers sl lkind lobj]. rewrite so_forward. unfold rmap.
  destruct (forwardPropagate (kc k) o x d) as [[[o' y] r]| | | |]; cbn [bind f3]; auto. rewrite IH. unfold rmap.
  destruct (forwardLayers kc ls y d) as [[[ls' z] r']| | | |]; cbn [bind f3]; auto.
Qed.
Lemma relab_backward ls : forall ms i e, backLayers kc (relab ms ls) i e = rmap (f2 (relab ms)) (backLayers kc ls i e).
Proof.
  induction ls as [|[k o] ls IH]; intros ms i e; [reflexivity|]. cbn [relab backLayers sl lkind lobj]. rewrite IH. unfold rmap.
  destruct (backLayers kc ls (S i) e) as [[ls' z]| | | |]; cbn [bind f2]; auto. rewrite so_backward. unfold rmap.
  destruct (backpropagate (kc k) o z (Nat.ltb 2 i)) as [[o' y]| | | |]; cbn [bind f2]; auto.
Qed.
Lemma relab_initialize ls : forall ms w i, initializeLayers junk w i (relab ms ls) = rmap (relab ms) (initializeLayers junk w i ls).
Proof.
  induction ls as [|l ls IH]; intros ms w i; [reflexivity|]. cbn [relab initializeLayers]. rewrite so_draw. unfold rmap.
  destruct (initializeParameters junk (w i) l) as [l'| | | |]; cbn [bind]; auto. rewrite IH. unfold rmap.
  destruct (initializeLayers junk w (S i) ls) as [ls'| | | |]; cbn [bind]; auto.
Qed.

(** * The functions of networks but setParameters and initialize *)
Lemma rl_forward ms v s : net_forward kc (rl ms v s) = rmap (f2 (rl ms v)) (net_forward kc s).
Proof.
  unfold net_forward. cbn [rl with_vector with_layers layers tempInput dropout infos errorFunction]. rewrite relab_forward. unfold rmap.
  destruct (forwardLayers kc (layers kc s) (tempInput kc s) (dropout kc s)) as [[[ls y] r]| | | |]; cbn [bind f3]; auto.
  destruct (vget (infos kc s) (length (infos kc s) - 1)) as [inf| | | |]; cbn [bind]; auto.
  destruct (check (Nat.eqb (cols y) (outputs inf))) as [u| | | |]; cbn [bind]; auto.
  destruct (match errorFunction kc s with MSE => Ok y | CE => softmax y end) as [z| | | |]; cbn [bind]; auto.
Qed.
Lemma rl_backward ms v s : net_backward kc (rl ms v s) = rmap (rl ms v) (net_backward kc s).
Proof.
  unfold net_backward. cbn [rl with_vector with_layers layers tempError]. rewrite relab_backward. unfold rmap.
  destruct (backLayers kc (layers kc s) 1 (tempError kc s)) as [[ls y]| | | |]; cbn [bind f2]; auto.
Qed.
Lemma rl_apply ms v s x : net_apply kc (rl ms v s) x = rmap (f2 (rl ms v)) (net_apply kc s x).
Proof.
  unfold net_apply. change (with_input kc (rl ms v s) x) with (rl ms v (with_input kc s x)). rewrite rl_forward. unfold rmap.
  destruct (net_forward kc (with_input kc s x)) as [[q r]| | | |]; cbn [bind f2]; auto.
Qed.
Lemma rl_error_at ms v s n : error_at kc (rl ms v s) n = rmap (f2 (rl ms v)) (error_at kc s n).
Proof.
  unfold error_at. change (trainSet kc (rl ms v s)) with (trainSet kc s). destruct (trainSet kc s) as [d|]; auto. unfold rmap at 1.
  destruct (rowOf (dataIn d) n) as [x| | | |]; cbn [bind]; auto.
  change (with_input kc (rl ms v s) x) with (rl ms v (with_input kc s x)). rewrite rl_forward. unfold rmap.
  destruct (net_forward kc (with_input kc s x)) as [[q r]| | | |]; cbn [bind f2]; auto.
  destruct (rowOf (dataOut d) n) as [t| | | |]; cbn [bind]; auto.
  change (errorFunction kc (rl ms v q)) with (errorFunction kc q). change (tempOutput kc (rl ms v q)) with (tempOutput kc q).
  destruct (errorFunction kc q).
  - destruct (mmap2 Rminus (tempOutput kc q) t) as [y| | | |]; cbn [bind]; auto.
  - destruct (crossEntropy (tempOutput kc q) t) as [y| | | |]; cbn [bind]; auto.
Qed.
Lemma rl_error ms v s : error kc (rl ms v s) = rmap (f2 (rl ms v)) (error kc s).
Proof.
  unfold error, for_. change (examples kc (rl ms v s)) with (examples kc s).
  change (rl ms v s, 0) with (f2 (B := R) (rl ms v) (s, 0)). apply for_map. intros i [q e]. cbn [f2]. rewrite rl_error_at. unfold rmap.
  destruct (error_at kc q i) as [[q' e']| | | |]; cbn [bind f2]; auto.
Qed.
Lemma for_ext {A} (b1 b2 : nat -> A -> res A) n : forall from s, (forall i s, b1 i s = b2 i s) -> for_from from n b1 s = for_from from n b2 s.
Proof. induction n as [|n IH]; intros from s H; cbn [for_from]; auto. rewrite H. destruct (b2 from s); cbn [bind]; auto. Qed.
Lemma rl_errorGradient ms v s idx g : errorGradient kc junk (rl ms v s) idx g = rmap (f3 (rl ms v)) (errorGradient kc junk s idx g).
Proof.
  unfold errorGradient. change (trainSet kc (rl ms v s)) with (trainSet kc s). destruct (trainSet kc s) as [d|]; auto.
  change (tempInput kc (rl ms v s)) with (tempInput kc s). unfold rmap at 1.
  match goal with |- bind ?m _ = _ => destruct m as [[X T]| | | |]; cbn [bind]; auto end.
  change (with_input kc (rl ms v s) X) with (rl ms v (with_input kc s X)). rewrite rl_forward. unfold rmap.
  destruct (net_forward kc (with_input kc s X)) as [[q r]| | | |]; cbn [bind f2]; auto.
  change (tempOutput kc (rl ms v q)) with (tempOutput kc q). destruct (mmap2 Rminus (tempOutput kc q) T) as [e| | | |]; cbn [bind]; auto.
  change (with_error kc (rl ms v q) e) with (rl ms v (with_error kc q e)). change (errorFunction kc (rl ms v (with_error kc q e))) with (errorFunction kc (with_error kc q e)).
  change (tempOutput kc (rl ms v (with_error kc q e))) with (tempOutput kc (with_error kc q e)).
  match goal with |- bind ?m _ = _ => destruct m as [b| | | |]; cbn [bind]; auto end.
  rewrite rl_backward. unfold rmap. destruct (net_backward kc (with_error kc q e)) as [z| | | |]; cbn [bind]; auto.
  change (P kc (rl ms v z)) with (P kc z). change (derivatives kc (rl ms v z)) with (derivatives kc z).
  change (layers kc (rl ms v z)) with (relab ms (layers kc z)). unfold for_.
  rewrite (for_ext _ (fun p grad => ptr <- vget (derivatives kc z) p ;; v0 <- loadDeriv kc (layers kc z) ptr ;; vset grad p v0)).
  - match goal with |- bind ?m _ = _ => destruct m as [g'| | | |]; cbn [bind f3]; auto end.
  - intros i gr. destruct (vget (derivatives kc z) i) as [ptr| | | |]; cbn [bind]; auto. now rewrite relab_loadDeriv.
Qed.
Lemma rl_gradient_at ms v s n : gradient_at kc junk (rl ms v s) n = rmap (f2 (rl ms v)) (gradient_at kc junk s n).
Proof.
  unfold gradient_at. rewrite rl_errorGradient. change (tempGradient kc (rl ms v s)) with (tempGradient kc s). unfold rmap.
  destruct (errorGradient kc junk s [n] (tempGradient kc s)) as [[[q e] g]| | | |]; cbn [bind f3]; auto.
Qed.
Lemma rl_gradient ms v s : gradient kc junk (rl ms v s) = rmap (f2 (rl ms v)) (gradient kc junk s).
Proof.
  unfold gradient. rewrite rl_errorGradient. change (tempGradient kc (rl ms v s)) with (tempGradient kc s).
  change (examples kc (rl ms v s)) with (examples kc s). unfold rmap.
  destruct (errorGradient kc junk s (seq 0 (examples kc s)) (tempGradient kc s)) as [[[q e] g]| | | |]; cbn [bind f3]; auto.
Qed.

Lemma value_f2 {A A' B} (f : A -> A') (r : res (A * B)) : value (rmap (f2 f) r) = value r.
Proof. destruct r as [[? ?]| | | |]; reflexivity. Qed.
Lemma rl_same ms v s : sameBehaviour junk (rl ms v s) s.
Proof.
  split; [|split; [|split; [|split; [|split]]]]; intros.
  - rewrite rl_apply. apply value_f2.
  - rewrite rl_error_at. apply value_f2.
  - rewrite rl_error. apply value_f2.
  - rewrite rl_gradient_at. apply value_f2.
  - rewrite rl_gradient. apply value_f2.
  - rewrite rl_errorGradient. unfold rmap. destruct (errorGradient kc junk s idx g) as [[[? ?] ?]| | | |]; reflexivity.
Qed.

(** * Building and initializing *)
Lemma rl_lastInfo ms v s : lastInfo junk (rl ms v s) = lastInfo junk s.
Proof. reflexivity. Qed.
Lemma rl_addLayer ms v s l inf : 
  addLayer kc (rl ms v s) (sl (nth (length (layers kc s)) ms 0) l) inf = rl ms v (addLayer kc s l inf).
Proof.
  unfold addLayer, rl. cbn [with_vector with_layers layers infos parameters derivatives errorFunction dropout initialized P parameterVector tempGradient tempInput tempOutput tempError trainSet].
  rewrite relab_length, relab_app. destruct l as [k o]. cbn [sl lkind lobj]. destruct (so_count (nth (length (layers kc s)) ms 0) k o) as (-> & ->).
  cbn [relab]. unfold with_vector, with_layers. cbn [layers infos parameters derivatives errorFunction dropout initialized P parameterVector tempGradient tempInput tempOutput tempError trainSet].
  do 2 f_equal. f_equal. unfold sl. cbn [lkind lobj]. replace (hd 0 (skipn (length (layers kc s)) ms)) with (nth (length (layers kc s)) ms 0); [reflexivity|].
  generalize (length (layers kc s)). clear. intros n. revert ms. induction n as [|n IH]; intros [|m ms]; cbn [nth skipn hd]; auto.
Qed.
Lemma withLimit_eta r : r = withLimit (maxSquaredWeightNorm r) (withoutLimit r).
Proof. destruct r; reflexivity. Qed.

Lemma conv_newS m w a b c d e f bias act r : conv_new w a b c d e f bias act (withLimit m r) = rmap (convS m) (conv_new w a b c d e f bias act r).
Proof.
  unfold conv_new, rmap.
  repeat (match goal with |- bind (check ?b) _ = _ => destruct (check b) as [?| | | |] | |- (if ?b then Throw else _) = _ => destruct b end; cbn [bind]; auto).
Qed.
Lemma subs_newS m w a b c d e bias act r : subs_new w a b c d e bias act (withLimit m r) = rmap (subsS m) (subs_new w a b c d e bias act r).
Proof. unfold subs_new, rmap. destruct (pgeom_new a b c d e) as [g| | | |]; cbn [bind]; auto. Qed.
Lemma rbm_newS m D H cd bp r w : rbm_new junk D H cd bp (withLimit m r) w = rmap (rbmS m) (rbm_new junk D H cd bp r w).
Proof.
  unfold rbm_new, rbm_initialize, rbm_setParameters, rmap. cbn [rpar rparams setPar].
  match goal with |- bind ?m _ = _ => destruct m as [l| | | |]; cbn [bind]; auto end.
  match goal with |- bind ?m _ = _ => destruct m as [[|? [|? [|? [|]]]]| | | |]; cbn [bind]; auto end.
Qed.

Lemma rl_add ms v s r l : add junk (rl ms v s) (withLimit (nth (length (layers kc s)) ms 0) r) l = rmap (rl ms v) (add junk s r l).
Proof.
  unfold add. rewrite rl_lastInfo. unfold rmap. destruct (lastInfo junk s) as [info| | | |]; cbn [bind]; auto.
  set (m := nth (length (layers kc s)) ms 0).
  assert (G : forall k o inf, addLayer kc (rl ms v s) (mkLayer kc (sk m k) (so m k o)) inf = rl ms v (addLayer kc s (mkLayer kc k o) inf)).
  { intros. apply (rl_addLayer ms v s (mkLayer kc k o)). }
  destruct l as [units act bias w|units params act bias phi w|units act bias w|sl' b|fm kr kcl act bias w|kr kcl act bias w|kr kcl|prob rnd|H cdN backprop u w|H beta rho act w]; cbn [bind].
  - rewrite <- G. reflexivity.
  - rewrite <- G. reflexivity.
  - rewrite <- G. reflexivity.
  - rewrite <- G. reflexivity.
  - destruct (vget info 0) as [d0| | | |]; cbn [bind]; auto. destruct (vget info 1) as [d1| | | |]; cbn [bind]; auto. destruct (vget info 2) as [d2| | | |]; cbn [bind]; auto.
    rewrite conv_newS. unfold rmap. destruct (conv_new w d0 d1 d2 fm kr kcl bias act r) as [o| | | |]; cbn [bind]; auto. rewrite <- G. reflexivity.
  - destruct (vget info 0) as [d0| | | |]; cbn [bind]; auto. destruct (vget info 1) as [d1| | | |]; cbn [bind]; auto. destruct (vget info 2) as [d2| | | |]; cbn [bind]; auto.
    rewrite subs_newS. unfold rmap. destruct (subs_new w d0 d1 d2 kr kcl bias act r) as [o| | | |]; cbn [bind]; auto. rewrite <- G. reflexivity.
  - destruct (vget info 0) as [d0| | | |]; cbn [bind]; auto. destruct (vget info 1) as [d1| | | |]; cbn [bind]; auto. destruct (vget info 2) as [d2| | | |]; cbn [bind]; auto.
    destruct (maxp_new junk d0 d1 d2 kr kcl) as [o| | | |]; cbn [bind]; auto. rewrite <- G. reflexivity.
  - rewrite <- G. reflexivity.
  - rewrite rbm_newS. unfold rmap. destruct (rbm_new junk (outputs info) H cdN backprop r w) as [o| | | |]; cbn [bind]; auto. rewrite <- G. reflexivity.
  - change (l2Penalty (withLimit m r)) with (l2Penalty r).
    destruct (SAE_Model.sae_new junk (outputs info) H beta rho (l2Penalty r) act (fun k => w k 0%nat)) as [o| | | |]; cbn [bind]; auto. rewrite <- G. reflexivity.
Qed.

(** the limits of the layers that commands add *)
Fixpoint limits (reg : Regularization) (cs : list command) : list R :=
  match cs with
  | [] => []
  | SetRegularization reg :: cs => limits reg cs
  | Add _ :: cs => maxSquaredWeightNorm reg :: limits reg cs
  end.

Lemma add_layers s r l s' : add junk s r l = Ok s' -> length (layers kc s') = S (length (layers kc s)).
Proof.
  intros E. unfold add in E. destruct (lastInfo junk s) as [info| | | |]; try discriminate E. cbn [bind] in E.
  assert (G : forall l inf, length (layers kc (addLayer kc s l inf)) = S (length (layers kc s))).
  { intros. unfold addLayer. cbn [layers]. rewrite app_length. simpl. lia. }
  destruct l as [units act bias w|units params act bias phi w|units act bias w|sl' b|fm kr kcl act bias w|kr kcl act bias w|kr kcl|prob rnd|H cdN backprop u w|H beta rho act w];
    repeat (match type of E with bind ?m _ = _ => destruct m as [?| | | |]; try discriminate E; cbn [bind] in E end); injection E as <-; apply G.
Qed.

Lemma skipn_nth_cons (ms : list R) n a l : skipn n ms = a :: l -> nth n ms 0 = a /\ skipn (S n) ms = l.
Proof.
  revert ms. induction n as [|n IH]; intros [|m ms]; cbn [skipn nth]; try discriminate.
  - intros E. injection E as -> ->. auto.
  - apply IH.
Qed.
Lemma rl_run cs : forall ms v s r, skipn (length (layers kc s)) ms = limits r cs ->
  for_each cs (fun c st => runCommand junk st c) (rl ms v s, r) =
  (' (s, r') <- for_each (unlimited cs) (fun c st => runCommand junk st c) (s, withoutLimit r) ;; Ok (rl ms v s, snd (fold_left (fun a c => match c with SetRegularization q => (tt, q) | _ => a end) cs (tt, r)))).
Proof.
  induction cs as [|c cs IH]; intros ms v s r H; [reflexivity|]. cbn [for_each unlimited map]. destruct c as [l|q].
  - cbn [unlimitedCommand runCommand fst snd fold_left]. cbn [limits] in H. destruct (skipn_nth_cons _ _ _ _ H) as (H1 & H2).
    rewrite (withLimit_eta r) at 1. rewrite <- H1, rl_add. unfold rmap.
    destruct (add junk s (withoutLimit r) l) as [s1| | | |] eqn:E; cbn [bind]; auto.
    apply IH. rewrite (add_layers _ _ _ _ E). exact H2.
  - cbn [unlimitedCommand runCommand fst snd fold_left bind]. apply IH. exact H.
Qed.

Lemma rl_build d1 d2 d3 cs : build junk d1 d2 d3 cs =
  (t <- build junk d1 d2 d3 (unlimited cs) ;; Ok (rl (0 :: limits (mkReg 0 0 0) cs) (parameterVector kc t) t)).
Proof.
  unfold build. set (ms := 0 :: limits (mkReg 0 0 0) cs).
  assert (E0 : (inputLayer junk (net_new kc) d1 d2 d3, mkReg 0 0 0) = (rl ms [] (inputLayer junk (net_new kc) d1 d2 d3), mkReg 0 0 0)) by reflexivity.
  rewrite E0 at 1. rewrite rl_run by reflexivity. clear E0. change (withoutLimit (mkReg 0 0 0)) with (mkReg 0 0 0).
  destruct (for_each (unlimited cs) (fun c st => runCommand junk st c) (inputLayer junk (net_new kc) d1 d2 d3, mkReg 0 0 0)) as [[s r]| | | |]; cbn [bind]; auto.
  unfold initializeNetwork. cbn [rl with_vector with_layers infos parameters layers]. cbn zeta.
  destruct (vget (infos kc s) 0) as [i0| | | |]; cbn [bind]; auto.
  destruct (vget (infos kc s) (length (infos kc s) - 1)) as [i1| | | |]; cbn [bind]; auto. unfold for_.
  rewrite (for_ext _ (fun p vec => ptr <- vget (parameters kc s) p ;; v <- loadParam kc (layers kc s) ptr ;; vset vec p v)).
  - match goal with |- bind ?m _ = _ => destruct m as [g'| | | |]; cbn [bind f3]; auto end.
  - intros i gr. destruct (vget (parameters kc s) i) as [ptr| | | |]; cbn [bind]; auto. now rewrite relab_loadParam.
Qed.

Lemma fill_any (g : nat -> res R) n : forall from (v v' : list R), length v = (from + n)%nat -> length v' = (from + n)%nat -> firstn from v = firstn from v' ->
  for_from from n (fun p vec => a <- g p ;; vset vec p a) v = for_from from n (fun p vec => a <- g p ;; vset vec p a) v'.
Proof.
  induction n as [|n IH]; intros from v v' L L' H; cbn [for_from].
  - rewrite Nat.add_0_r in *. rewrite !firstn_all2 in H by lia. now rewrite H.
  - destruct (g from) as [a| | | |]; cbn [bind]; auto. rewrite !vset_Ok by lia. cbn [bind]. apply IH; rewrite ?upd_length; try lia.
    clear IH. revert v v' L L' H. induction from as [|from IH]; intros [|x v] [|x' v'] L L' H; cbn [length] in *; try lia; cbn [upd firstn] in *; auto.
    injection H as -> H. f_equal. apply IH; auto; lia.
Qed.

Lemma rl_initialize ms v s w : length v = P kc s -> length (parameterVector kc s) = P kc s ->
  net_initialize junk w (rl ms v s) = (t <- net_initialize junk w s ;; Ok (rl ms (parameterVector kc t) t)).
Proof.
  intros L1 L2. unfold net_initialize. cbn [rl with_vector with_layers initialized layers P parameters parameterVector].
  destruct (check (initialized kc s)) as [[]| | | |]; cbn [bind]; auto. rewrite relab_initialize. unfold rmap.
  destruct (initializeLayers junk w 0 (layers kc s)) as [ls| | | |]; cbn [bind]; auto. unfold for_.
  set (g := fun p => ptr <- vget (parameters kc s) p ;; loadParam kc ls ptr).
  rewrite (for_ext _ (fun p vec => a <- g p ;; vset vec p a)).
  2:{ intros i vec. unfold g. destruct (vget (parameters kc s) i) as [ptr| | | |]; cbn [bind]; auto. now rewrite relab_loadParam. }
  rewrite (for_ext (fun p vec => ptr <- vget (parameters kc s) p ;; v0 <- loadParam kc ls ptr ;; vset vec p v0) (fun p vec => a <- g p ;; vset vec p a)).
  2:{ intros i vec. unfold g. destruct (vget (parameters kc s) i) as [ptr| | | |]; cbn [bind]; auto. }
  rewrite (fill_any g (P kc s) 0 v (parameterVector kc s)) by auto.
  match goal with |- bind ?m _ = _ => destruct m as [vec| | | |]; cbn [bind]; auto end.
Qed.
End Strip.
