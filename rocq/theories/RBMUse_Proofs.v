(** Reachable states of restricted Boltzmann machines. *)
From Verif Require Import Base BaseFacts Matrix RSum MatOps Vec Activation_Model
  Layer_Model FC_Model IO_Model IO_Proofs SAE_Model SAE_Proofs RBM_Model RBM_Spec RBM_Proofs RBMUse_Spec.
Local Open Scope R_scope.

(** a loop that succeeds keeps what its body keeps *)
Lemma for_from_keep {A} (P : A -> Prop) (body : nat -> A -> res A) n i s q :
  (forall i s s', body i s = Ok s' -> P s -> P s') -> for_from i n body s = Ok q -> P s -> P q.
Proof.
  intros Hb. revert i s. induction n as [|n IH]; intros i s E Hs; cbn in E.
  - injection E as <-. auto.
  - destruct (body i s) as [s1| | | |] eqn:E1; try discriminate E. cbn [bind] in E. eauto.
Qed.
Lemma for_keep {A} (P : A -> Prop) (body : nat -> A -> res A) n s q :
  (forall i s s', body i s = Ok s' -> P s -> P s') -> for_ n body s = Ok q -> P s -> P q.
Proof. unfold for_. apply for_from_keep. Qed.

Ltac step E := match type of E with bind ?m _ = Ok _ =>
  let F := fresh "F" in destruct m eqn:F; try discriminate E; cbn [bind] in E end.

Section Use.
Context (junk : nat -> nat -> R) (u : nat -> R).

Lemma sampleLoop_keep N C prob st q : sampleLoop u N C prob st = Ok q -> cols (fst q) = cols (fst st).
Proof.
  unfold sampleLoop. intros E.
  apply (for_keep (fun s : mat * nat => cols (fst s) = cols (fst st)) _ _ _ _) with (2 := E); [|reflexivity].
  intros n a b Eb Ha. apply (for_keep (fun s : mat * nat => cols (fst s) = cols (fst st)) _ _ _ _) with (2 := Eb); [|exact Ha].
  intros j (x & k) (x' & k') Ec Hx. step Ec. step Ec. injection Ec as <- <-. cbn [fst] in *.
  unfold mset in F0. destruct (inside x n j); [|discriminate F0]. injection F0 as <-. exact Hx.
Qed.

Lemma sampleH_keep c p m q : sampleHgivenV junk u c p m = Ok q -> cols (mh q) = cols (mh m).
Proof.
  unfold sampleHgivenV. intros E. step E. step E. step E. step E. destruct a2 as (h & k). injection E as <-. cbn [mh].
  apply sampleLoop_keep in F2. exact F2.
Qed.
Lemma sampleV_keep c p m q : sampleVgivenH u c p m = Ok q -> cols (mh q) = cols (mh m).
Proof.
  unfold sampleVgivenH. intros E. step E. step E. step E. step E. destruct a2 as (h & k). injection E as <-. reflexivity.
Qed.

Context (H : nat).
Notation same := (rsame H).
Definition okH (s : rbm) : Prop := cols (mh (rsmp s)) = H.

Lemma same_okH s q : same s q -> okH q.
Proof. now intros (_ & _ & _ & _ & _ & E & _). Qed.
Lemma withH_keep s q : okH s -> withSmp s (sampleHgivenV junk u) = Ok q -> same s q.
Proof.
  unfold withSmp. intros Ho E. step E. injection E as <-. apply sampleH_keep in F. unfold rsame, okH in *. cbn.
  rewrite F. auto 12.
Qed.
Lemma withV_keep s q : okH s -> withSmp s (sampleVgivenH u) = Ok q -> same s q.
Proof.
  unfold withSmp. intros Ho E. step E. injection E as <-. apply sampleV_keep in F. unfold rsame, okH in *. cbn.
  rewrite F. auto 12.
Qed.
Lemma setV_keep s X : okH s -> same s (setV s X).
Proof. intros E. unfold okH, rsame in *. cbn. auto 12. Qed.
Lemma refl_keep s : okH s -> same s s.
Proof. intros E. unfold okH, rsame in *. auto 12. Qed.
Lemma trans_keep a b c : same a b -> (okH b -> same b c) -> same a c.
Proof. intros S1 S2. eapply rsame_trans; eauto. apply S2. eapply same_okH; eauto. Qed.

Lemma reality_keep s q : okH s -> reality junk u s = Ok q -> same s q.
Proof.
  intros Ho. unfold reality. intros E. step E. step E. injection E as <-. apply (trans_keep _ a); [now apply withH_keep|].
  intros Ha. unfold rsame, okH in *. cbn. auto 12.
Qed.

Lemma daydream_keep s q : okH s -> daydream junk u s = Ok q -> same s q.
Proof.
  intros Ho. unfold daydream. intros E. step E. step E. injection E as <-. apply (trans_keep _ a).
  - apply (for_keep (fun x => same s x) _ _ _ _) with (2 := F); [|now apply refl_keep].
    intros i x y Exy Hx. step Exy. eapply rsame_trans; [exact Hx|]. pose proof (same_okH _ _ Hx) as Hox.
    apply (trans_keep _ a1); [now apply withV_keep|]. intros Ho1. now apply withH_keep.
  - intros Ha. unfold rsame, okH in *. cbn. auto 12.
Qed.

Lemma put_keep gi f gi' : put gi f = Ok gi' -> length (fst gi') = length (fst gi).
Proof.
  destruct gi as (g & i). unfold put. intros E. step E. injection E as <-. cbn [fst]. unfold vset in F.
  destruct (Nat.ltb i (length g)); [|discriminate F]. injection F as <-. apply upd_length.
Qed.
Lemma sub_keep gi f gi' : sub gi f = Ok gi' -> length (fst gi') = length (fst gi).
Proof.
  destruct gi as (g & i). unfold sub. intros E. step E. step E. injection E as <-. cbn [fst]. unfold vset in F0.
  destruct (Nat.ltb i (length g)); [|discriminate F0]. injection F0 as <-. apply upd_length.
Qed.

Ltac loop1 F := apply (for_keep (fun x : list R * nat => length (fst x) = _) _ _ _ _) with (2 := F); [|auto];
  let i := fresh in let x := fresh in let y := fresh in let E := fresh in let Hx := fresh in
  intros i x y E Hx; repeat step E; first [apply put_keep in E | apply sub_keep in E]; congruence.
Ltac loop2 F := apply (for_keep (fun x : list R * nat => length (fst x) = _) _ _ _ _) with (2 := F); [|auto];
  let i := fresh in let x := fresh in let y := fresh in let E := fresh in let Hx := fresh in
  intros i x y E Hx; loop1 E.

Lemma fillGradient_keep s q : okH s -> fillGradient s = Ok q -> same s q.
Proof.
  intros Ho. unfold fillGradient. intros E. step E. step E. step E. step E. step E. injection E as <-.
  assert (L : length (fst a) = length (rgrad s)) by (loop2 F).
  assert (L0 : length (fst a0) = length (rgrad s)) by (loop1 F0).
  assert (L1 : length (fst a1) = length (rgrad s)) by (loop1 F1).
  assert (L2 : length (fst a2) = length (rgrad s)).
  { destruct (Rltb 0 (l1Penalty (rreg (rcfg s)))); [loop2 F2|]. injection F2 as <-. auto. }
  assert (L3 : length (fst a3) = length (rgrad s)).
  { destruct (Rltb 0 (l2Penalty (rreg (rcfg s)))); [loop2 F3|]. injection F3 as <-. auto. }
  unfold rsame, okH in *. cbn. auto 12.
Qed.

Lemma encode_keep s X q Z : okH s -> rbm_encode junk u s X = Ok (q, Z) -> same s q.
Proof.
  intros Ho E. unfold rbm_encode in E. step E. injection E as <- _. apply (trans_keep _ (setV s X)); [now apply setV_keep|].
  intros Hb. now apply withH_keep.
Qed.
Lemma apply_keep s x q y : okH s -> rbm_apply junk u s x = Ok (q, y) -> same s q.
Proof.
  intros Ho E. unfold rbm_apply in E. step E. step E. injection E as <- _. apply (trans_keep _ (setV s (rowOf x))); [now apply setV_keep|].
  intros Hb. now apply withH_keep.
Qed.
Lemma reconstruct_keep s n steps q y : okH s -> rbm_reconstructProb junk u s n steps = Ok (q, y) -> same s q.
Proof.
  intros Ho E. unfold rbm_reconstructProb in E. step E. step E. injection E as <- _.
  match type of F0 with for_ _ _ ?x = _ => set (s1 := x) in F0 end.
  assert (S1 : same s s1) by (unfold rsame, okH in *; cbn; auto 12).
  apply (for_keep (fun x => same s x) _ _ _ _) with (2 := F0); [|exact S1].
  intros i x z Exy Hx. step Exy. eapply rsame_trans; [exact Hx|]. pose proof (same_okH _ _ Hx) as Hox.
  apply (trans_keep _ a1); [now apply withH_keep|]. intros Ho1. now apply withV_keep.
Qed.
Lemma errorN_keep s n q e : okH s -> rbm_errorN junk u s n = Ok (q, e) -> same s q.
Proof.
  intros Ho E. unfold rbm_errorN in E. step E. destruct a as (s1 & P). step E. step E. injection E as <- _.
  eapply reconstruct_keep; eauto.
Qed.
Lemma error_keep s q e : okH s -> rbm_error junk u s = Ok (q, e) -> same s q.
Proof.
  intros Ho E. unfold rbm_error in E. step E.
  apply (for_keep (fun x : rbm * R => same s (fst x)) _ _ _ _) with (2 := E); [|now apply refl_keep].
  intros i (x & ex) (y & ey) Exy Hx. cbn [fst] in *. step Exy. destruct a0 as (s1 & en). injection Exy as <- _.
  apply (trans_keep _ x); [auto|]. intros. eapply errorN_keep; eauto.
Qed.
Lemma cd_keep s q : okH s -> (s <- reality junk u s ;; s <- daydream junk u s ;; fillGradient s) = Ok q -> same s q.
Proof.
  intros Ho E. step E. step E. apply (trans_keep _ a); [now apply reality_keep|]. intros. apply (trans_keep _ a0); [now apply daydream_keep|].
  intros. now apply fillGradient_keep.
Qed.
Lemma gradientN_keep s n q g : okH s -> rbm_gradientN junk u s n = Ok (q, g) -> same s q.
Proof.
  intros Ho E. unfold rbm_gradientN in E. step E. step E. step E. step E. injection E as <- _.
  apply (trans_keep _ (setV s (rowOf a))); [now apply setV_keep|]. intros. apply cd_keep; auto. rewrite F0. cbn [bind]. rewrite F1. exact F2.
Qed.
Lemma gradient_keep s q g : okH s -> rbm_gradient junk u s = Ok (q, g) -> same s q.
Proof.
  intros Ho E. unfold rbm_gradient in E. step E.
  apply (for_keep (fun x : rbm * list R => same s (fst x)) _ _ _ _) with (2 := E); [|now apply refl_keep].
  intros i (x & ex) (y & ey) Exy Hx. cbn [fst] in *. step Exy. destruct a0 as (s1 & en). step Exy. injection Exy as <- _.
  apply (trans_keep _ x); [auto|]. intros. eapply gradientN_keep; eauto.
Qed.
Lemma errorGradient_keep s ns q e g : okH s -> rbm_errorGradient junk u s ns = Ok (q, e, g) -> same s q.
Proof.
  intros Ho E. unfold rbm_errorGradient in E. step E. step E. step E. step E. step E. step E. injection E as <- _.
  apply (trans_keep _ (setV s a0)); [now apply setV_keep|]. intros. apply cd_keep; auto. rewrite F1. cbn [bind]. rewrite F2. exact F3.
Qed.
End Use.

Section Ready.
Context (junk : nat -> nat -> R) (u : nat -> R) (M H cdN : nat) (backprop : bool) (reg : Regularization).
Notation inv := (rbm_inv M H cdN backprop reg).

Definition rready (p : list R) (data : list (list R)) (s : rbm) : Prop :=
  inv s /\ rflat (rpar s) = p /\ rparams s = p /\
  (rdata s = Some (M, data) \/ rdata s = None /\ data = []) /\ (forall v, In v data -> length v = M).

Lemma rready_same p data s q : rsame H s q -> rready p data s -> rready p data q.
Proof.
  intros Kq (I & R). pose proof (rsame_inv _ _ _ _ _ _ _ Kq I) as Iq. destruct Kq as (K1 & K2 & K3 & K4 & K5 & K6 & K7).
  unfold rready. rewrite K2, K4, K5. auto.
Qed.

Lemma rready_okH p data s : rready p data s -> okH H s.
Proof. intros ((_ & _ & E & _) & _). exact E. Qed.

Lemma rbm_use_ready s0 p data s : rready (rbm_currentParameters s0) [] s0 -> rbm_use junk u s0 M p data s -> rready p data s.
Proof.
  intros H0. induction 1 as [|p data s p' q U IH L E|p data s data' U IH L|p data s X q Z U IH E|p data s x q y U IH E|
    p data s n steps q y U IH E|p data s n q e U IH E|p data s q e U IH E|p data s n q g U IH E|p data s q g U IH E|p data s ns q e g U IH E];
    try (pose proof (rready_okH _ _ _ IH) as Ho; apply (rready_same p data s); [|exact IH]).
  - exact H0.
  - destruct IH as (I & _ & _ & R). assert (L' : length p' = rdim M H) by (unfold rbm_dimension in L; destruct I as (C & _); rewrite C in L; exact L).
    destruct (rbm_setParameters_ok M H cdN backprop reg s p' I L') as (q' & E' & I' & F & Q & X & _).
    assert (q' = q) by congruence. subst q'. unfold rready. rewrite X. auto 12.
  - destruct IH as (I & F & Q & _). unfold rready. cbn. split; [exact I|]. auto.
  - eapply encode_keep; eauto.
  - eapply apply_keep; eauto.
  - eapply reconstruct_keep; eauto.
  - eapply errorN_keep; eauto.
  - eapply error_keep; eauto.
  - eapply gradientN_keep; eauto.
  - eapply gradient_keep; eauto.
  - eapply errorGradient_keep; eauto.
Qed.

Lemma rbm_new_ready w :
  exists s0, rbm_new junk M H cdN backprop reg w = Ok s0 /\ rready (rbm_currentParameters s0) [] s0 /\ mk (rsmp s0) = 0%nat /\
    (forall j i, (j < H)%nat -> (i < M)%nat -> rw H (rbm_currentParameters s0) j i = w j i) /\
    (forall i, (i < M)%nat -> biasV M H (rbm_currentParameters s0) i = 0) /\
    (forall j, (j < H)%nat -> biasH M H (rbm_currentParameters s0) j = 0).
Proof.
  unfold rbm_new, rbm_initialize. cbn [rpar qW qbv qbh rows cols rparams msetZero].
  match goal with |- context [rarrays ?d] => set (P := d) end.
  assert (SP : rsize M H P) by (split; [|split]; split; reflexivity).
  rewrite (pack_ok (rarrays P)).
  2:{ change (concat (rarrays P)) with (rflat P). rewrite (rflat_length M H P SP), map_length, seq_length. unfold rdim. lia. }
  change (concat (rarrays P)) with (rflat P). rewrite skipn_all2, app_nil_r.
  2:{ rewrite (rflat_length M H P SP), map_length, seq_length. unfold rdim. lia. }
  cbn [bind].
  match goal with |- context [rbm_setParameters ?s ?l] =>
    destruct (rbm_setParameters_ok M H cdN backprop reg s l) as (q & E & I & F & Q & X & Sm) end.
  { unfold rbm_inv. cbn. split; [auto|]. split; [exact SP|]. split; [auto|]. split; [split; auto|]. split; [split; auto|]. split; [auto|].
    now rewrite map_length, seq_length. }
  { now apply rflat_length. }
  exists q. split; [exact E|]. unfold rbm_currentParameters. rewrite Q. split; [|split; [|split; [|split]]].
  - unfold rready. split; [exact I|]. split; [auto|]. split; [auto|]. split; [right; now rewrite X|]. intros v [].
  - now rewrite Sm.
  - intros j i Hj Hi. rewrite (rflat_w M H P SP) by auto. reflexivity.
  - intros i Hi. rewrite (rflat_bv M H P SP) by auto. reflexivity.
  - intros j Hj. rewrite (rflat_bh M H P SP) by auto. reflexivity.
Qed.
End Ready.
