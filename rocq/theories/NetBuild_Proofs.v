(** Networks built by the functions of NetBuild_Model.v meet the assumptions of Net_Proofs.v. *)
From Verif Require Import Base BaseFacts Matrix RSum MatOps Acc Vec Deriv Activation_Model Activation_Proofs
  Layer_Model Layer_Spec Layer_Proofs Layer_Layout LayerFun_Spec FC_Model Reg_Proofs FC_Proofs
  SimpleLayers_Model SimpleLayers_Proofs Compressed_Proofs Conv_Model Conv_Proofs Conv_Props
  Pool_Model Pool Subs_Proofs Subs_Props MaxPool_Proofs MaxPool_Props NetLayers_Proofs
  Net_Model NetChain_Proofs Net_Proofs NetBuild_Model NetUse_Spec.
From Verif Require RBM_Model RBM_Proofs RBMLayer_Proofs SAE_Model SAE_Proofs SAELayer_Proofs RBMNet_Proofs.
Local Open Scope R_scope.

(** * Properties of each kind of layer *)
Definition nI (k : kind) : nat :=
  match k with
  | KInput j => j | KFullyConnected i _ _ _ _ => i | KCompressed i _ _ _ _ _ _ => i
  | KExtreme i _ _ _ _ => i | KIntrinsicPlasticity i _ _ => i | KConvolutional g => cI g
  | KSubsampling g _ _ _ => pI g | KMaxPooling g => pI g | KDropout i _ => i
  | KRestrictedBoltzmannMachine i _ _ _ _ _ _ => i | KSparseAutoEncoder i _ _ _ _ _ => i
  end.
Definition nO (k : kind) : nat :=
  match k with
  | KInput j => j | KFullyConnected _ j _ _ _ => j | KCompressed _ j _ _ _ _ _ => j
  | KExtreme _ j _ _ _ => j | KIntrinsicPlasticity i _ _ => i | KConvolutional g => cO g
  | KSubsampling g _ _ _ => pO g | KMaxPooling g => pO g | KDropout i _ => i
  | KRestrictedBoltzmannMachine _ h _ _ _ _ _ => h | KSparseAutoEncoder _ h _ _ _ _ => h
  end.
Definition nK (k : kind) : nat :=
  match k with
  | KFullyConnected i j bias _ _ => j * unitParams i bias | KCompressed _ j m _ _ _ _ => j * m
  | KConvolutional g => fmout g * cF g | KSubsampling g bias _ _ => pO g * sB bias
  | KRestrictedBoltzmannMachine i h _ backprop _ _ _ => RBMLayer_Proofs.rbm_K i h backprop
  | KSparseAutoEncoder i h _ _ _ _ => h * i + h
  | _ => 0
  end.

Section Kinds.
Variable junk : nat -> nat -> R.
Notation kc := (kclass junk).

Definition nInv (k : kind) : St (kc k) -> Prop :=
  match k as k0 return St (kc k0) -> Prop with
  | KInput _ => fun _ => True
  | KFullyConnected i j bias act reg => fun s => maxSquaredWeightNorm reg <= 0 /\ fc_inv i j bias act reg s
  | KCompressed i j m bias act phi reg => k_inv i j m bias act phi reg
  | KExtreme i j bias act w => extreme_inv i j bias act w
  | KIntrinsicPlasticity i s b => ip_inv i s b
  | KConvolutional g => fun s => geom_ok g /\ conv_inv g s
  | KSubsampling g bias act reg => fun s => pgeom_ok g /\ subs_inv g bias act reg s
  | KMaxPooling g => fun s => pgeom_ok g /\ maxp_inv g s
  | KDropout i prob => fun s => dropout_inv i s /\ dprob s = prob
  | KRestrictedBoltzmannMachine i h cdN backprop reg u w => RBMNet_Proofs.rbm_netInv i h cdN backprop reg w
  | KSparseAutoEncoder i h beta rho lambda act => SAE_Proofs.sae_inv i h beta rho lambda act
  end.
Definition nfn (k : kind) : St (kc k) -> bool -> nat -> (nat -> R) -> nat -> R :=
  match k as k0 return St (kc k0) -> bool -> nat -> (nat -> R) -> nat -> R with
  | KInput J => fun _ _ _ x j => if Nat.ltb j J then x j else 0
  | KFullyConnected i j bias act reg => fc_fn i bias act
  | KCompressed i j m bias act phi reg => k_fn i bias act
  | KExtreme i j bias act w => extreme_fn i bias act w
  | KIntrinsicPlasticity i s b => ip_fn i s b
  | KConvolutional g => conv_fn g
  | KSubsampling g bias act reg => subs_fn g bias act
  | KMaxPooling g => maxp_fn g
  | KDropout i prob => dropout_fn i
  | KRestrictedBoltzmannMachine i h cdN backprop reg u w => RBMNet_Proofs.rbm_fn i
  | KSparseAutoEncoder i h beta rho lambda act => RBMNet_Proofs.sae_fn i act
  end.
Definition nrg (k : kind) : St (kc k) -> R :=
  match k as k0 return St (kc k0) -> R with
  | KFullyConnected i j bias act reg => fc_rg reg
  | KCompressed i j m bias act phi reg => k_rg reg
  | KConvolutional g => conv_rg g
  | KSubsampling g bias act reg => subs_rg g reg
  | KInput _ => fun _ => 0 | KExtreme _ _ _ _ _ => fun _ => 0 | KIntrinsicPlasticity _ _ _ => fun _ => 0
  | KMaxPooling _ => fun _ => 0 | KDropout _ _ => fun _ => 0
  | KRestrictedBoltzmannMachine _ _ _ _ _ _ _ => fun _ => 0
  | KSparseAutoEncoder _ _ _ _ lambda _ => RBMNet_Proofs.sae_rg lambda
  end.

Lemma nok k : layer_ok (kc k) (nI k) (nO k) (nK k) (nInv k) (nsmooth junk k) (nfn k) (nrg k).
Proof.
  destruct k; cbn [kclass nI nO nK nInv nsmooth nfn nrg].
  - apply input_ok.
  - apply (layer_ok_cond (fc_class junk)). intros H. now apply fc_ok.
  - apply k_ok.
  - apply extreme_ok.
  - apply ip_ok.
  - apply (layer_ok_cond (conv_class junk)). intros H. now apply conv_ok.
  - apply (layer_ok_cond (subs_class junk)). intros H. now apply subs_ok.
  - apply (layer_ok_cond (maxp_class junk)). intros H. now apply maxp_ok.
  - apply dropout_ok.
  - apply RBMNet_Proofs.rbm_ok.
  - apply (RBMNet_Proofs.sae_ok junk I H beta rho lambda act).
Qed.

Definition isIn (k : kind) : Prop := match k with KInput _ => True | _ => False end.
Lemma nin k : isIn k -> nK k = 0%nat /\ nI k = nO k /\
  (forall s X dropout, exists q, forwardPropagate (kc k) s X dropout = Ok (q, X, 0)) /\
  (forall s e bp, exists q e', backpropagate (kc k) s e bp = Ok (q, e') /\ (nInv k s -> nInv k q) /\
      same_fun (kc k) (nO k) (nK k) (nfn k) (nrg k) q s).
Proof.
  destruct k; intros Hin; try easy. cbn [kclass nI nO nK nInv nfn nrg]. split; auto. split; auto. split.
  - intros s X d. eexists. reflexivity.
  - intros s e bp. do 2 eexists. split; [reflexivity|]. split; auto. split; auto.
Qed.

(** the parameters of a layer are the random numbers [w] *)
Definition drawn (w : nat -> nat -> R) (k : kind) : St (kc k) -> Prop :=
  match k as k0 return St (kc k0) -> Prop with
  | KFullyConnected i j bias _ _ => fun s => (forall a b, (a < j)%nat -> (b < i)%nat -> at_ (fW s) a b = w a b) /\
      (bias = true -> forall a, (a < j)%nat -> at_ (fb s) a 0 = w a i)
  | KCompressed _ j m _ _ phi _ => fun s => (forall a b, (a < j)%nat -> (b < m)%nat -> at_ (kalpha s) a b = w a b) /\
      forall a b, at_ (kW s) a b = k_weight m phi (at_ (kalpha s)) a b
  | KConvolutional g => fun s =>
      (forall o i r c, (o < fmout g)%nat -> (i < fmin g)%nat -> (r < kernelRows g)%nat -> (c < kernelCols g)%nat ->
         at_ (tat (cW s) o i) r c = w (o * fmin g + i)%nat (r * kernelCols g + c)%nat) /\
      (cbias g = true -> forall o i, (o < fmout g)%nat -> (i < fmin g)%nat ->
         at_ (cWb s) o i = w (o * fmin g + i)%nat (kernelRows g * kernelCols g)%nat)
  | KSubsampling g bias _ _ => fun s =>
      (forall o r c, (o < pfm g)%nat -> (r < poutRows g)%nat -> (c < poutCols g)%nat ->
         at_ (vat (sW s) o) r c = w o (r * poutCols g + c)%nat) /\
      (bias = true -> forall o r c, (o < pfm g)%nat -> (r < poutRows g)%nat -> (c < poutCols g)%nat ->
         at_ (vat (sWb s) o) r c = w o ((poutRows g + r) * poutCols g + c)%nat)
  | KSparseAutoEncoder i h _ _ _ _ => RBMNet_Proofs.sae_drawn i h (fun k => w k 0%nat)
  | _ => fun _ => True
  end.
(** initializeParameters draws all parameters again *)
Definition drawsAgain (k : kind) : Prop := match k with KRestrictedBoltzmannMachine _ _ _ backprop _ _ _ => backprop = false | _ => True end.

Lemma drawn_reads w k a b i : drawsAgain k -> nInv k a -> nInv k b -> drawn w k a -> drawn w k b -> (i < nK k)%nat ->
  readParam (kc k) a i = readParam (kc k) b i.
Proof.
  destruct k; cbn [nInv drawn nK kclass drawsAgain]; intros Ag Va Vb (Wa & Ba) (Wb & Bb) Hi || intros Ag Va Vb Da Db Hi; try lia; try easy.
  - destruct Va as (Hm & Va), Vb as (_ & Vb). destruct (split_index _ _ _ Hi) as (j & x & Hj & Hx & ->).
    rewrite !(fc_read junk I J bias act reg) by auto. f_equal. destruct (Nat.ltb_spec x I).
    + now rewrite Wa, Wb.
    + unfold unitParams in Hx. destruct bias; [|lia]. now rewrite Ba, Bb.
  - destruct (split_index _ _ _ Hi) as (j & x & Hj & Hx & ->).
    rewrite !(k_read junk I J M bias act phi reg) by auto. f_equal. now rewrite Wa, Wb.
  - destruct Va as (Hg & Va), Vb as (_ & Vb).
    destruct (cindex g i Hi) as (o & x & Ho & Hx & [(r & c & Hr & Hc & ->)|(Hb & ->)]).
    + rewrite !(conv_read_w junk g) by auto. f_equal. now rewrite Wa, Wb.
    + rewrite !(conv_read_b junk g) by auto. f_equal. now rewrite Ba, Bb.
  - destruct Va as (Hg & Va), Vb as (_ & Vb).
    destruct (sindex g Hg bias i Hi) as (o & r & c & Ho & Hr & Hc & [->|(Hb & ->)]).
    + rewrite !(subs_read_w junk g Hg bias act reg) by auto. f_equal. now rewrite Wa, Wb.
    + rewrite !(subs_read_b junk g Hg bias act reg) by auto. f_equal. now rewrite Ba, Bb.
  - rewrite Ag in Hi. cbn in Hi. lia.
  - destruct (SAELayer_Proofs.sae_read junk I H beta rho lambda act a Va) as (R1 & R2).
    destruct (SAELayer_Proofs.sae_read junk I H beta rho lambda act b Vb) as (R3 & R4).
    destruct (SAELayer_Proofs.K_split I H i Hi) as [(h & d & Hh & Hd & ->)|(h & Hh & ->)].
    + rewrite R1, R3 by auto. f_equal. now rewrite Wa, Wb.
    + rewrite R2, R4 by auto. f_equal. now rewrite Ba, Bb.
Qed.

(** ** New random parameters *)
Definition redrawKind (w : nat -> nat -> R) (k : kind) : kind :=
  match k with KExtreme i j bias act _ => KExtreme i j bias act w | k => k end.

Lemma conv_draw_ok w g s : conv_inv g s -> exists q, conv_draw w s = Ok q /\ conv_inv g q /\ drawn w (KConvolutional g) q.
Proof.
  intros V. unfold conv_draw. pose proof V as (Eg & _). rewrite Eg.
  set (ok := fun (o i : nat) (q : conv) =>
     (forall r c, (r < kernelRows g)%nat -> (c < kernelCols g)%nat ->
         at_ (tat (cW q) o i) r c = w (o * fmin g + i)%nat (r * kernelCols g + c)%nat) /\
      (cbias g = true -> at_ (cWb q) o i = w (o * fmin g + i)%nat (kernelRows g * kernelCols g)%nat)).
  match goal with |- context [for_ _ ?b s] =>
    destruct (for_inv (fun k (q : conv) => conv_inv g q /\ forall o i, (o < k)%nat -> (i < fmin g)%nat -> ok o i q) b (fmout g) s)
      as (q & E & Vq & F) end.
  { split; auto. intros; lia. }
  { intros o q Ho (Vq & F).
    match goal with |- context [for_ _ ?b q] =>
      destruct (for_inv (fun k (q : conv) => conv_inv g q /\
        (forall o' i, (o' < o)%nat -> (i < fmin g)%nat -> ok o' i q) /\ (forall i, (i < k)%nat -> ok o i q)) b (fmin g) q)
        as (q1 & E1 & V1 & F1 & F2) end.
    { split; auto. split; auto. intros; lia. }
    { clear q Vq F. intros i q Hi (Vq & F1 & F2). pose proof Vq as (G1 & G2 & G3 & G4 & G5).
      destruct (tget_Ok _ _ _ _ _ o i G2 Ho Hi) as (Et & (S1 & S2)). rewrite Et. cbn [bind].
      set (m := refill (tat (cW q) o i) (fun r c => w (o * fmin g + i)%nat (r * kernelCols g + c)%nat)).
      destruct (tset_Ok _ _ _ _ _ o i m G2 Ho Hi) as (W' & Es & T1 & T2 & T3); [split; auto|]. rewrite Es. cbn [bind].
      assert (HB : exists Wb', (if cbias g then mset (cWb q) o i (w (o * fmin g + i)%nat (kernelRows g * kernelCols g)%nat) else Ok (cWb q)) = Ok Wb' /\
        (cbias g = true -> size_is Wb' (fmout g) (fmin g) /\ at_ Wb' o i = w (o * fmin g + i)%nat (kernelRows g * kernelCols g)%nat /\
           forall o' i', (o' <> o \/ i' <> i) -> at_ Wb' o' i' = at_ (cWb q) o' i')).
      { destruct (cbias g); [|eexists; split; [reflexivity|discriminate]]. destruct (G4 eq_refl) as ((B1 & B2) & _). rewrite mset_Ok by lia. eexists. split; [reflexivity|].
        intros _. split; [split; auto|]. split; [apply at_mupd_same|]. intros. apply at_mupd_other. lia. }
      destruct HB as (Wb' & Eb & HB). rewrite Eb. cbn [bind]. eexists. split; [reflexivity|].
      assert (K : forall o' i', (o' <> o \/ i' <> i) -> ok o' i' q -> ok o' i' (conv_params q W' Wb')).
      { intros o' i' Hn (K1 & K2). split; cbn [cW cWb conv_params].
        - intros r c Hr Hc. rewrite T3 by auto. auto.
        - intros Hb. destruct (HB Hb) as (_ & _ & H3). rewrite H3 by auto. auto. }
      split; [|split].
      - unfold conv_inv. cbn [cg cW cWd cWb cWbd ca cy cyd ce conv_params].
        split; [exact G1|]. split; [exact T1|]. split; [exact G3|]. split; [|exact G5].
        intros Hb. split; [apply (HB Hb)|apply (G4 Hb)].
      - intros o' i' Ho' Hi'. apply K; [lia|auto].
      - intros i' Hi'. destruct (Nat.eq_dec i' i) as [->|]; [|apply K; auto; apply F2; lia].
        split; cbn [cW cWb conv_params]; [intros r c Hr Hc; now rewrite T2|intros Hb; apply (HB Hb)]. }
    exists q1. split; auto. split; auto. intros o' i Ho' Hi. destruct (Nat.eq_dec o' o) as [->|]; auto. apply F1; auto. lia. }
  exists q. split; auto. split; auto. split.
  - intros o i r c Ho Hi Hr Hc. now apply F.
  - intros Hb o i Ho Hi. now apply F.
Qed.

Lemma subs_draw_ok w g bias act reg s : subs_inv g bias act reg s ->
  exists q, subs_draw w s = Ok q /\ subs_inv g bias act reg q /\ drawn w (KSubsampling g bias act reg) q.
Proof.
  intros V. unfold subs_draw. pose proof V as (Eg & _). rewrite Eg.
  set (ok := fun (o : nat) (q : subs) =>
     (forall r c, (r < poutRows g)%nat -> (c < poutCols g)%nat -> at_ (vat (sW q) o) r c = w o (r * poutCols g + c)%nat) /\
      (bias = true -> forall r c, (r < poutRows g)%nat -> (c < poutCols g)%nat -> at_ (vat (sWb q) o) r c = w o ((poutRows g + r) * poutCols g + c)%nat)).
  match goal with |- context [for_ _ ?b s] =>
    destruct (for_inv (fun k (q : subs) => subs_inv g bias act reg q /\ forall o, (o < k)%nat -> ok o q) b (pfm g) s)
      as (q & E & Vq & F) end.
  { split; auto. intros; lia. }
  { intros o q Ho (Vq & F). pose proof Vq as (G1 & G2 & G3 & G4 & G5 & G6 & G7 & G8).
    destruct (vsize_get _ _ _ _ o G5 Ho) as (Et & (S1 & S2)). rewrite Et. cbn [bind].
    set (m := refill (vat (sW q) o) (fun r c => w o (r * poutCols g + c)%nat)).
    destruct (vsize_set _ _ _ _ o m G5 Ho) as (W' & Es & T1 & T2 & T3); [split; auto|]. rewrite Es. cbn [bind].
    assert (HB : exists Wb', (if sbias q
           then m <- vget (sWb q) o ;; vset (sWb q) o (refill m (fun r c => w o ((poutRows g + r) * poutCols g + c)%nat))
           else Ok (sWb q)) = Ok Wb' /\
        (bias = true -> vsize Wb' (pfm g) (poutRows g) (poutCols g) /\
           (forall r c, at_ (vat Wb' o) r c = w o ((poutRows g + r) * poutCols g + c)%nat) /\
           forall o', o' <> o -> vat Wb' o' = vat (sWb q) o')).
    { rewrite G2. destruct bias; [|eexists; split; [reflexivity|discriminate]]. destruct (G7 eq_refl) as (B1 & _).
      destruct (vsize_get _ _ _ _ o B1 Ho) as (Eb & (Z1 & Z2)). rewrite Eb. cbn [bind].
      destruct (vsize_set _ _ _ _ o (refill (vat (sWb q) o) (fun r c => w o ((poutRows g + r) * poutCols g + c)%nat)) B1 Ho)
        as (Wb' & Es' & U1 & U2 & U3); [split; auto|]. exists Wb'. split; auto. intros _. split; auto. split; auto.
      intros r c. now rewrite U2. }
    destruct HB as (Wb' & Eb & HB). rewrite Eb. cbn [bind]. eexists. split; [reflexivity|]. split.
    - unfold subs_inv. cbn [sg sbias sact sreg sW sWd sWb sWbd sa sy syd se subs_with].
      do 4 (split; [assumption|]). split; [exact T1|]. split; [exact G6|]. split; [|exact G8].
      intros Hb. split; [apply (HB Hb)|apply (G7 Hb)].
    - intros o' Ho'. unfold ok. cbn [sW sWb subs_with]. destruct (Nat.eq_dec o' o) as [->|Hn].
      + split; [intros r c Hr Hc; now rewrite T2|intros Hb r c Hr Hc; apply (HB Hb)].
      + destruct (F o' ltac:(lia)) as (K1 & K2). split.
        * intros r c Hr Hc. rewrite T3 by auto. auto.
        * intros Hb r c Hr Hc. destruct (HB Hb) as (_ & _ & H3). rewrite H3 by auto. auto. }
  exists q. split; auto. split; auto. split.
  - intros o r c Ho Hr Hc. now apply F.
  - intros Hb o r c Ho Hr Hc. now apply F.
Qed.

Lemma k_draw_ok w i j m bias act phi reg s : k_inv i j m bias act phi reg s ->
  exists q, k_draw w s = Ok q /\ k_inv i j m bias act phi reg q /\ drawn w (KCompressed i j m bias act phi reg) q.
Proof.
  intros (H1 & H2 & H3 & H4 & H5 & H6 & H7 & H8 & H9 & H10 & H11 & H12 & H13).
  unfold k_draw, k_updatedParameters. cbn [kphi kM kI kbias kalpha kalphad k_with]. rewrite H7, H3, H1, H4.
  unfold mblock. cbn [rows cols]. destruct H10 as (A1 & A2).
  assert (Hb : (nbias bias <= 1)%nat) by (destruct bias; cbn; lia).
  destruct (Nat.leb_spec m m); [|lia]. destruct (Nat.leb_spec (i + nbias bias) (i + 1)); [|lia]. cbn [andb bind].
  unfold mmul. cbn [rows cols]. unfold refill. cbn [rows cols]. rewrite A1, A2, Nat.eqb_refl. cbn [bind].
  eexists. split; [reflexivity|]. split.
  - unfold k_inv, k_with, size_is. cbn. destruct H8, H9, H11. repeat (split; auto).
  - split; cbn; auto.
Qed.

Lemma draw_ok w k o : nInv k o -> exists l, initializeParameters junk w (mkLayer kc k o) = Ok l /\
  lkind kc l = redrawKind w k /\ nInv _ (lobj kc l) /\ drawn w _ (lobj kc l).
Proof.
  unfold initializeParameters. cbn [lkind lobj].
  destruct k; cbn [nInv redrawKind]; intros V.
  - eexists. split; [reflexivity|]. cbn. auto.
  - eexists. split; [reflexivity|]. split; [reflexivity|]. cbn [lkind lobj nInv drawn].
    destruct V as (Hm & V1 & V2 & V3 & V4 & V5 & (V6 & V6') & V7 & (V8 & V8') & V9).
    change (fbias o = bias) in V3. change (fI o = I) in V1. split.
    + split; auto. unfold fc_inv, fc_draw, refill. cbn. rewrite V3. repeat (split; auto); destruct bias; auto.
    + unfold fc_draw, refill. cbn. rewrite V3, V1. split; auto. intros ->. auto.
  - destruct (k_draw_ok w _ _ _ _ _ _ _ o V) as (q & E & Vq & Dq). change (St (kc (KCompressed I J M bias act phi reg))) in q.
    cbn [kclass St k_class] in *. rewrite E. cbn [bind]. eexists. split; [reflexivity|]. auto.
  - eexists. split; [reflexivity|]. split; [reflexivity|]. cbn [lkind lobj nInv drawn]. split; auto.
    destruct V as (V1 & V2 & V3 & V4 & V5 & V6). unfold extreme_inv, extreme_draw, refill. cbn. cbn in V5. rewrite V5. cbn. auto 10.
  - eexists. split; [reflexivity|]. cbn. auto.
  - destruct V as (Hg & V). destruct (conv_draw_ok w g o V) as (q & E & Vq & Dq).
    cbn [kclass St conv_class] in *. rewrite E. cbn [bind]. eexists. split; [reflexivity|]. split; [reflexivity|].
    cbn [lkind lobj nInv]. auto.
  - destruct V as (Hg & V). destruct (subs_draw_ok w g bias act reg o V) as (q & E & Vq & Dq).
    cbn [kclass St subs_class] in *. rewrite E. cbn [bind]. eexists. split; [reflexivity|]. split; [reflexivity|].
    cbn [lkind lobj nInv]. auto.
  - eexists. split; [reflexivity|]. cbn. auto.
  - eexists. split; [reflexivity|]. cbn. auto.
  - eexists. split; [reflexivity|]. cbn. auto.
  - destruct (RBMNet_Proofs.sae_draw_ok I H beta rho lambda act (fun k => w k 0%nat) o V) as (q & E & Vq & Dq).
    cbn [kclass St SAE_Model.sae_class] in *. rewrite E. cbn [bind]. eexists. split; [reflexivity|]. split; [reflexivity|].
    cbn [lkind lobj nInv]. auto.
Qed.
End Kinds.

(** * Adding layers *)
Section Build.
Variable junk : nat -> nat -> R.
Notation kc := (kclass junk).
Notation net := (net kc).
Notation wired := (wired kc nI nO).
Notation invs := (invs kc (nInv junk)).
Notation count := (count kc nK).
Notation ptrs := (ptrs kc nK).
Notation starts := (starts kc isIn).
Notation readP := (readP kc nK).
Notation good := (good kc nI nO nK (nInv junk) isIn).
Notation rgs := (rgs kc (nrg junk)).

Lemma wired_app I a O b O' : wired I a O -> wired O b O' -> wired I (a ++ b) O'.
Proof.
  revert I. induction a as [|x a IH]; intros I Ha Hb; cbn [app NetChain_Proofs.wired] in *; [now subst|].
  destruct Ha as (H1 & H2). split; auto.
Qed.

Definition noReg (k : kind) : Prop :=
  match k with
  | KFullyConnected _ _ _ _ reg | KCompressed _ _ _ _ _ _ reg | KSubsampling _ _ _ reg => l1Penalty reg = 0 /\ l2Penalty reg = 0
  | KConvolutional g => l1Penalty (creg g) = 0 /\ l2Penalty (creg g) = 0
  | KSparseAutoEncoder _ _ _ _ lambda _ => lambda = 0
  | _ => True
  end.

(** the kind of layer that a call adds after a layer with output sizes [info], and the
    sizes of its output *)
Definition kindOf (info : list nat) (reg : Regularization) (l : layerSpec) : kind * list nat :=
  let d k := nth k info 0%nat in
  match l with
  | FullyConnectedLayer units act bias _ => (KFullyConnected (outputs info) units bias act reg, [units])
  | CompressedLayer units params act bias phi _ => (KCompressed (outputs info) units params bias act phi reg, [units])
  | ExtremeLayer units act bias w => (KExtreme (outputs info) units bias act w, [units])
  | IntrinsicPlasticityLayer s b => (KIntrinsicPlasticity (outputs info) s b, [outputs info])
  | ConvolutionalLayer fm kr kcl act bias _ =>
      (KConvolutional (mkCgeom (d 0%nat) (d 1%nat) (d 2%nat) fm kr kcl bias act reg (d 1%nat * d 2%nat) (outDim (d 1%nat) kr)
         (outDim (d 2%nat) kcl) (outDim (d 1%nat) kr * outDim (d 2%nat) kcl) (outDim (d 1%nat) kr) (outDim (d 2%nat) kcl)),
       [fm; outDim (d 1%nat) kr; outDim (d 2%nat) kcl])
  | SubsamplingLayer kr kcl act bias _ =>
      (KSubsampling (pgeom_of (d 0%nat) (d 1%nat) (d 2%nat) kr kcl) bias act reg, [d 0%nat; (d 1%nat / kr)%nat; (d 2%nat / kcl)%nat])
  | MaxPoolingLayer kr kcl =>
      (KMaxPooling (pgeom_of (d 0%nat) (d 1%nat) (d 2%nat) kr kcl), [d 0%nat; (d 1%nat / kr)%nat; (d 2%nat / kcl)%nat])
  | DropoutLayer prob _ => (KDropout (outputs info) prob, info)
  | RestrictedBoltzmannMachineLayer H cdN backprop u w => (KRestrictedBoltzmannMachine (outputs info) H cdN backprop reg u w, [H])
  | SparseAutoEncoderLayer H beta rho act _ => (KSparseAutoEncoder (outputs info) H beta rho (l2Penalty reg) act, [H])
  end.
Fixpoint kindsOf (info : list nat) (reg : Regularization) (cs : list command) : list kind :=
  match cs with
  | [] => []
  | Add l :: cs => fst (kindOf info reg l) :: kindsOf (snd (kindOf info reg l)) reg cs
  | SetRegularization r :: cs => kindsOf info r cs
  end.

(** random weights of new layers *)
Definition weightsOf (l : layerSpec) : nat -> nat -> R :=
  match l with
  | FullyConnectedLayer _ _ _ w | CompressedLayer _ _ _ _ _ w | ExtremeLayer _ _ _ w
  | ConvolutionalLayer _ _ _ _ _ w | SubsamplingLayer _ _ _ _ w | SparseAutoEncoderLayer _ _ _ _ w => w
  | _ => fun _ _ => 0
  end.
Fixpoint drawnLayers (cs : list command) (ls : list (layer kc)) : Prop :=
  match cs, ls with
  | [], [] => True
  | Add l :: cs, x :: ls => drawn junk (weightsOf l) _ (lobj kc x) /\ drawnLayers cs ls
  | SetRegularization _ :: cs, ls => drawnLayers cs ls
  | _, _ => False
  end.

Record adding (I O : nat) (s : net) : Prop := mkAdding {
  a_starts : starts (layers kc s);
  a_wired : wired I (layers kc s) O;
  a_invs : invs (layers kc s);
  a_params : parameters kc s = ptrs 0 (layers kc s);
  a_derivs : derivatives kc s = ptrs 0 (layers kc s);
  a_info : exists info, vget (infos kc s) (length (infos kc s) - 1) = Ok info /\ outputs info = O /\
             (length info = 1 \/ length info = 3)%nat;
  a_first : netInputs s = I;
  a_some : infos kc s <> [];
  a_train : trainSet kc s = None }.

Lemma outputs1 a : outputs [a] = a.
Proof. unfold outputs. simpl. lia. Qed.
Lemma outputs3 a b c : outputs [a; b; c] = (a * b * c)%nat.
Proof. unfold outputs. simpl. lia. Qed.

Lemma vget_last {A} (l : list A) x : vget (l ++ [x]) (length (l ++ [x]) - 1) = Ok x.
Proof.
  rewrite app_length. simpl. replace (length l + 1 - 1)%nat with (length l) by lia.
  unfold vget. rewrite nth_error_app2 by lia. now rewrite Nat.sub_diag.
Qed.

Lemma adding_layer I O s l info : adding I O s -> nI (lkind kc l) = O -> nInv junk _ (lobj kc l) ->
  outputs info = nO (lkind kc l) -> (length info = 1 \/ length info = 3)%nat ->
  adding I (nO (lkind kc l)) (addLayer kc s l info).
Proof.
  intros [H1 H2 H3 H4 H5 H6 H7 H8 H9] E1 V E2 E3.
  pose proof (ct_count _ _ _ _ _ _ (lo_contract _ _ _ _ _ _ _ _ (nok junk (lkind kc l))) _ V) as (C1 & C2).
  constructor; unfold addLayer; cbn [Net_Model.layers Net_Model.parameters Net_Model.derivatives Net_Model.infos Net_Model.trainSet]; auto.
  - destruct (layers kc s); [easy|exact H1].
  - eapply wired_app; eauto. cbn. auto.
  - apply Forall_app. split; auto.
  - rewrite H4, (ptrs_app kc nK). f_equal. cbn [NetChain_Proofs.ptrs]. rewrite app_nil_r, C1. reflexivity.
  - rewrite H5, (ptrs_app kc nK). f_equal. cbn [NetChain_Proofs.ptrs]. rewrite app_nil_r, C2. reflexivity.
  - exists info. rewrite vget_last. auto.
  - unfold netInputs in *. cbn [Net_Model.infos]. destruct (infos kc s); [easy|exact H7].
  - destruct (infos kc s); easy.
Qed.

Lemma adding_input d1 d2 d3 : adding (d1 * d2 * d3) (d1 * d2 * d3) (inputLayer junk (net_new kc) d1 d2 d3).
Proof.
  constructor; cbn; auto.
  - constructor; [exact Logic.I|constructor].
  - exists [d1; d2; d3]. split; [reflexivity|]. split; [apply outputs3|auto].
  - discriminate.
Qed.

Lemma conv_new_drawn w fi r c fo kr kcl bias act reg s : conv_new w fi r c fo kr kcl bias act reg = Ok s ->
  drawn junk w (KConvolutional (cg s)) s.
Proof.
  unfold conv_new. intros E.
  destruct (Z.leb 0 _); [|discriminate E]. cbn [check bind] in E.
  destruct (Z.ltb _ 1); [discriminate E|].
  repeat (destruct (Z.ltb 0 _); [|discriminate E]; cbn [check bind] in E).
  assert (E2 : forall a b : conv, Ok a = Ok b -> b = a) by congruence. apply E2 in E. rewrite E. clear E E2.
  cbn [drawn cg cW cWb fmout fmin kernelRows kernelCols cbias]. split.
  - intros o i a b Ho Hi Ha Hb. unfold tat. rewrite nth_map_seq by auto. rewrite nth_map_seq by auto. reflexivity.
  - intros -> o i Ho Hi. reflexivity.
Qed.
Lemma subs_new_drawn w fm r c kr kcl bias act reg s : subs_new w fm r c kr kcl bias act reg = Ok s ->
  drawn junk w (KSubsampling (sg s) bias act reg) s.
Proof.
  unfold subs_new. intros E. destruct (pgeom_new fm r c kr kcl) as [g| | | |] eqn:Eg; try discriminate E. cbn [bind] in E.
  destruct (Pool.pgeom_new_ok _ _ _ _ _ _ Eg) as (E1 & Hg & _). assert (Ef : pfm g = fm) by (rewrite E1; auto).
  assert (E2 : forall a b : subs, Ok a = Ok b -> b = a) by congruence. apply E2 in E. rewrite E. clear E E2.
  cbn [drawn sg sW sWb]. rewrite Ef. split.
  - intros o a b Ho Ha Hb. unfold vat. rewrite nth_map_seq by auto. reflexivity.
  - intros -> o a b Ho Ha Hb. unfold vat. rewrite nth_map_seq by auto. reflexivity.
Qed.

Lemma adding_add I O s info reg l s' : adding I O s -> lastInfo junk s = Ok info -> maxSquaredWeightNorm reg <= 0 ->
  add junk s reg l = Ok s' ->
  exists o, s' = addLayer kc s (mkLayer kc (fst (kindOf info reg l)) o) (snd (kindOf info reg l)) /\
    adding I (nO (fst (kindOf info reg l))) s' /\ drawn junk (weightsOf l) _ o.
Proof.
  intros A HL Hm E. pose proof A as [_ _ _ _ _ (info' & E1 & E2 & E3) _ _ _].
  unfold add in E. rewrite HL in E. cbn [bind] in E. unfold lastInfo in HL. rewrite E1 in HL. injection HL as ->.
  assert (G : forall k o inf, s' = addLayer kc s (mkLayer kc k o) inf -> nI k = O -> nInv junk k o ->
     outputs inf = nO k -> (length inf = 1 \/ length inf = 3)%nat -> (k, inf) = kindOf info reg l ->
     drawn junk (weightsOf l) k o ->
     exists o, s' = addLayer kc s (mkLayer kc (fst (kindOf info reg l)) o) (snd (kindOf info reg l)) /\
    adding I (nO (fst (kindOf info reg l))) s' /\ drawn junk (weightsOf l) _ o).
  { intros k o inf H1 H2 H3 H4 H5 <- H6. cbn [fst snd]. exists o. split; auto. split; [|exact H6]. rewrite H1.
    apply (adding_layer I O s (mkLayer kc k o) inf); auto. }
  destruct l as [units act bias w|units params act bias phi w|units act bias w|sl b|fm kr kcl act bias w|kr kcl act bias w|kr kcl|prob rnd|H cdN backprop u w|H beta rho act w].
  - injection E as <-. apply (G _ _ _ eq_refl); cbn [nI nO nInv]; auto.
    + split; auto. unfold fc_inv, fc_new, size_is. cbn. auto 20.
    + apply outputs1.
    + cbn. auto.
  - injection E as <-. apply (G _ _ _ eq_refl); cbn [nI nO nInv]; auto.
    + unfold k_inv, k_new, size_is. cbn. repeat (split; auto).
    + apply outputs1.
    + cbn. auto.
  - injection E as <-. apply (G _ _ _ eq_refl); cbn [nI nO nInv]; auto.
    + unfold extreme_inv, extreme_new. cbn. auto 20.
    + apply outputs1.
    + exact Logic.I.
  - injection E as <-. apply (G _ _ _ eq_refl); cbn [nI nO nInv]; auto.
    + unfold ip_inv, ip_new. cbn. auto 20.
    + apply outputs1.
    + exact Logic.I.
  - destruct info as [|d0 [|d1 [|d2 [|]]]]; try discriminate E; try (simpl in E3; lia). cbn [vget nth_error bind] in E.
    destruct (conv_new w d0 d1 d2 fm kr kcl bias act reg) as [o| | | |] eqn:En; try discriminate E. cbn [bind] in E.
    destruct (conv_new_inv _ _ _ _ _ _ _ _ _ _ _ En) as (Hg & Hi & Eg & _).
    assert (Es : s' = addLayer kc s (mkLayer kc (KConvolutional (cg o)) o) [fmout (cg o); outRows (cg o); outCols (cg o)]) by congruence.
    apply (G _ _ _ Es); cbn [nI nO nInv].
    + rewrite <- E2, outputs3. unfold cI. rewrite Eg. cbn [fmin fmInSize]. lia.
    + split; auto.
    + rewrite outputs3. unfold cO. destruct Hg as (G1 & G2 & G3 & G4 & _). rewrite G4, G2, G3. lia.
    + auto.
    + rewrite Eg. reflexivity.
    + apply (conv_new_drawn _ _ _ _ _ _ _ _ _ _ _ En).
  - destruct info as [|d0 [|d1 [|d2 [|]]]]; try discriminate E; try (simpl in E3; lia). cbn [vget nth_error bind] in E.
    destruct (subs_new w d0 d1 d2 kr kcl bias act reg) as [o| | | |] eqn:En; try discriminate E. cbn [bind] in E.
    destruct (subs_new_inv _ _ _ _ _ _ _ _ _ _ En) as (Hg & Hi).
    assert (Eg : sg o = pgeom_of d0 d1 d2 kr kcl) by apply Hi.
    assert (Es : s' = addLayer kc s (mkLayer kc (KSubsampling (sg o) bias act reg) o) [pfm (sg o); poutRows (sg o); poutCols (sg o)]) by congruence.
    pose proof (subs_new_drawn _ _ _ _ _ _ _ _ _ _ En) as Dr. rewrite Eg in Es, Dr.
    apply (G _ _ _ Es); cbn [nI nO nInv]; auto.
    + rewrite <- E2, outputs3. unfold pI. cbn [pfm pfmInSize pgeom_of]. lia.
    + rewrite outputs3. unfold pO. cbn [pfm pfmOutSize poutRows poutCols pgeom_of]. lia.
  - destruct info as [|d0 [|d1 [|d2 [|]]]]; try discriminate E; try (simpl in E3; lia). cbn [vget nth_error bind] in E.
    destruct (maxp_new junk d0 d1 d2 kr kcl) as [o| | | |] eqn:En; try discriminate E. cbn [bind] in E.
    destruct (maxp_new_inv _ _ _ _ _ _ _ En) as (Hg & Hi).
    assert (Eg : mg o = pgeom_of d0 d1 d2 kr kcl) by apply Hi.
    assert (Es : s' = addLayer kc s (mkLayer kc (KMaxPooling (mg o)) o) [pfm (mg o); poutRows (mg o); poutCols (mg o)]) by congruence.
    apply (G _ _ _ Es); cbn [nI nO nInv]; rewrite Eg; auto.
    + rewrite <- E2, outputs3. unfold pI. cbn [pfm pfmInSize pgeom_of]. lia.
    + rewrite outputs3. unfold pO. cbn [pfm pfmOutSize poutRows poutCols pgeom_of]. lia.
    + exact Logic.I.
  - injection E as <-. apply (G _ _ _ eq_refl); cbn [nI nO nInv]; auto.
    + unfold dropout_inv, dropout_new. cbn. auto 20.
    + exact Logic.I.
  - destruct (RBM_Model.rbm_new junk (outputs info) H cdN backprop reg w) as [o| | | |] eqn:En; try discriminate E. cbn [bind] in E.
    assert (Es : s' = addLayer kc s (mkLayer kc (KRestrictedBoltzmannMachine (outputs info) H cdN backprop reg u w) o) [H]) by congruence.
    apply (G _ _ _ Es); cbn [nI nO nInv]; auto.
    + eapply RBMNet_Proofs.rbm_new_netInv; eauto.
    + apply outputs1.
    + exact Logic.I.
  - destruct (RBMNet_Proofs.sae_new_ok junk (outputs info) H beta rho (l2Penalty reg) act (fun k => w k 0%nat)) as (o & En & Vo & Dr).
    rewrite En in E. cbn [bind] in E.
    assert (Es : s' = addLayer kc s (mkLayer kc (KSparseAutoEncoder (outputs info) H beta rho (l2Penalty reg) act) o) [H]) by congruence.
    apply (G _ _ _ Es); cbn [nI nO nInv]; auto. apply outputs1.
Qed.

Lemma adding_commands I cs : forall O s info reg s' reg', adding I O s -> lastInfo junk s = Ok info ->
  maxSquaredWeightNorm reg <= 0 -> Forall no_max_norm cs ->
  for_each cs (fun c st => runCommand junk st c) (s, reg) = Ok (s', reg') ->
  (exists O', adding I O' s') /\
  map (lkind kc) (layers kc s') = map (lkind kc) (layers kc s) ++ kindsOf info reg cs /\
  exists rest, layers kc s' = layers kc s ++ rest /\ drawnLayers cs rest.
Proof.
  induction cs as [|c cs IH]; intros O s info reg s' reg' A HL Hm HF E.
  - cbn in E. injection E as <- <-. split; [eauto|]. rewrite app_nil_r. split; auto. exists []. rewrite app_nil_r. cbn. auto.
  - inversion HF as [|? ? F1 F2]; subst. cbn [for_each] in E. destruct c as [l|r]; cbn [runCommand fst snd] in E.
    + destruct (add junk s reg l) as [s1| | | |] eqn:E1; try discriminate E. cbn [bind] in E.
      destruct (adding_add I O s info reg l s1 A HL Hm E1) as (o & Es & A1 & Dr).
      assert (L1 : lastInfo junk s1 = Ok (snd (kindOf info reg l))).
      { rewrite Es. unfold lastInfo. cbn [addLayer infos]. apply vget_last. }
      destruct (IH _ _ _ _ _ _ A1 L1 Hm F2 E) as (R1 & R2 & rest & R3 & R4).
      split; auto. split.
      * rewrite R2, Es. cbn [addLayer layers kindsOf]. rewrite map_app. cbn [map lkind]. now rewrite <- app_assoc.
      * exists (mkLayer kc (fst (kindOf info reg l)) o :: rest). split; [|split; auto].
        rewrite R3, Es. cbn [addLayer layers]. now rewrite <- app_assoc.
    + cbn [bind] in E. destruct (IH _ _ _ _ _ _ A HL F1 F2 E) as (R1 & R2 & R3). split; auto.
Qed.

Lemma kindOf_output info reg l : snd (kindOf info reg l) = layerOutput info l.
Proof.
  destruct l; try reflexivity.
Qed.

Lemma pgeom_new_ok fm r c kr kcl : (0 < fm /\ 0 < kr <= r /\ 0 < kcl <= c)%nat -> exists g, pgeom_new fm r c kr kcl = Ok g.
Proof.
  intros (H1 & H2 & H3). unfold pgeom_new.
  destruct (Nat.eqb_spec kr 0); [lia|]. destruct (Nat.eqb_spec kcl 0); [lia|]. cbn [orb].
  assert (0 < r / kr)%nat by (apply Nat.div_str_pos; lia). assert (0 < c / kcl)%nat by (apply Nat.div_str_pos; lia).
  assert (0 < r / kr * (c / kcl))%nat by (apply Nat.mul_pos_pos; auto).
  assert (0 < fm * (r / kr) * (c / kcl))%nat by (rewrite <- Nat.mul_assoc; apply Nat.mul_pos_pos; auto).
  destruct (Nat.ltb_spec (fm * (r / kr) * (c / kcl)) 1); [lia|].
  rewrite !check_true by (apply Nat.ltb_lt; auto; try lia; apply Nat.mul_pos_pos; lia). cbn [bind]. eauto.
Qed.

Lemma add_ok I O s info reg l : adding I O s -> lastInfo junk s = Ok info -> layerFits info l -> exists s', add junk s reg l = Ok s'.
Proof.
  intros A HL HF. unfold add. rewrite HL. cbn [bind].
  destruct l as [units act bias w|units params act bias phi w|units act bias w|sl b|fm kr kcl act bias w|kr kcl act bias w|kr kcl|prob rnd|H cdN backprop u w|H beta rho act w]; eauto;
    [..|destruct (RBMNet_Proofs.rbm_new_ok junk (outputs info) H cdN backprop reg w) as (o & ->); cbn [bind]; eauto|
     destruct (RBMNet_Proofs.sae_new_ok junk (outputs info) H beta rho (l2Penalty reg) act (fun k => w k 0%nat)) as (o & -> & _); cbn [bind]; eauto];

    destruct HF as (H3 & HF); destruct info as [|d0 [|d1 [|d2 [|]]]]; try discriminate H3; cbn [vget nth_error bind nth] in *.
  - destruct HF as (F1 & F2 & F3). unfold conv_new.
    assert (Er : (Z.of_nat (kr / 2 * 2) = 2 * Z.of_nat (kr / 2))%Z) by lia. assert (Ec : (Z.of_nat (kcl / 2 * 2) = 2 * Z.of_nat (kcl / 2))%Z) by lia.
    pose proof (Nat.div_mod kr 2 ltac:(lia)). pose proof (Nat.div_mod kcl 2 ltac:(lia)).
    assert (0 < Z.of_nat d1 - Z.of_nat (kr / 2 * 2))%Z by lia. assert (0 < Z.of_nat d2 - Z.of_nat (kcl / 2 * 2))%Z by lia.
    assert (0 < (Z.of_nat d1 - Z.of_nat (kr / 2 * 2)) * (Z.of_nat d2 - Z.of_nat (kcl / 2 * 2)))%Z by (apply Z.mul_pos_pos; auto).
    assert (0 < Z.of_nat fm * (Z.of_nat d1 - Z.of_nat (kr / 2 * 2)) * (Z.of_nat d2 - Z.of_nat (kcl / 2 * 2)))%Z
      by (rewrite <- Z.mul_assoc; apply Z.mul_pos_pos; auto; lia).
    rewrite check_true by (apply Z.leb_le; lia). cbn [bind]. rewrite (proj2 (Z.ltb_ge _ _)) by lia.
    assert (0 < d1 * d2)%nat by (apply Nat.mul_pos_pos; lia).
    rewrite !check_true by (apply Z.ltb_lt; auto; lia). cbn [bind]. eauto.
  - unfold subs_new. destruct (pgeom_new_ok d0 d1 d2 kr kcl HF) as (g & ->). cbn [bind]. eauto.
  - unfold maxp_new. destruct (pgeom_new_ok d0 d1 d2 kr kcl HF) as (g & ->). cbn [bind]. eauto.
Qed.

Lemma commands_ok I cs : forall O s info reg, adding I O s -> lastInfo junk s = Ok info ->
  maxSquaredWeightNorm reg <= 0 -> Forall no_max_norm cs -> commandsFit info cs ->
  exists s' reg' O', for_each cs (fun c st => runCommand junk st c) (s, reg) = Ok (s', reg') /\ adding I O' s' /\
    lastInfo junk s' = Ok (finalOutput info cs) /\ errorFunction kc s' = errorFunction kc s /\ dropout kc s' = dropout kc s.
Proof.
  induction cs as [|c cs IH]; intros O s info reg A HL Hm HF HC.
  - exists s, reg, O. cbn. auto.
  - inversion HF as [|? ? F1 F2]; subst. cbn [for_each]. destruct c as [l|r]; cbn [runCommand fst snd commandsFit] in *.
    + destruct HC as (C1 & C2). destruct (add_ok I O s info reg l A HL C1) as (s1 & E1). rewrite E1. cbn [bind].
      destruct (adding_add I O s info reg l s1 A HL Hm E1) as (o & Es & A1 & _).
      assert (L1 : lastInfo junk s1 = Ok (snd (kindOf info reg l))).
      { rewrite Es. unfold lastInfo. cbn [addLayer infos]. apply vget_last. }
      rewrite kindOf_output in L1. destruct (IH _ _ _ _ A1 L1 Hm F2 C2) as (s' & r' & O' & R1 & R2 & R3 & R4 & R5).
      exists s', r', O'. cbn [finalOutput]. repeat (split; auto); [rewrite R4|rewrite R5]; rewrite Es; reflexivity.
    + cbn [bind]. apply (IH O s info r); auto.
Qed.

Lemma regError_0 r W : l1Penalty r = 0 -> l2Penalty r = 0 -> regError r W = 0.
Proof.
  intros E1 E2. unfold regError. rewrite E1, E2. assert (E : Rltb 0 0 = false) by (apply Rltb_false; lra).
  rewrite E. ring.
Qed.
Lemma kindsOf_noReg cs : forall info reg, l1Penalty reg = 0 -> l2Penalty reg = 0 -> Forall no_penalty cs ->
  Forall noReg (kindsOf info reg cs).
Proof.
  induction cs as [|[l|r] cs IH]; intros info reg H1 H2 H3; inversion H3 as [|? ? P0 P3]; subst; cbn [kindsOf]; auto.
  - constructor; auto. destruct l; cbn [kindOf fst noReg creg]; auto.
  - destruct P0 as (P1 & P2). auto.
Qed.
Lemma noReg_rgs ls : invs ls -> Forall (fun l => noReg (lkind kc l)) ls -> rgs ls = 0.
Proof.
  induction ls as [|l ls IH]; intros V H; auto. inversion V as [|? ? V1 V2]; subst. inversion H as [|? ? H1 H2]; subst.
  cbn [NetChain_Proofs.rgs]. rewrite IH by auto. rewrite Rplus_0_r. destruct l as [k o]. cbn [lkind lobj] in *.
  destruct k; cbn [nrg noReg] in *; auto; [destruct H1 as (L1 & L2)..|].
  - unfold fc_rg. now apply regError_0.
  - unfold k_rg. now apply regError_0.
  - unfold conv_rg, cregError. apply rsum_0. intros. apply rsum_0. intros. now apply regError_0.
  - unfold subs_rg, sregError. apply rsum_0. intros. now apply regError_0.
  - subst lambda. unfold RBMNet_Proofs.sae_rg. now apply regError_0.
Qed.

(** * All states of a network *)
Lemma last_vget {A} (l : list A) x d : vget l (length l - 1) = Ok x -> last l d = x.
Proof.
  intros H. destruct l as [|a l]; [discriminate|].
  destruct (exists_last (l := a :: l)) as (l' & y & E); [discriminate|]. rewrite E in *. rewrite vget_last in H.
  injection H as ->. apply last_last.
Qed.

Record usable (d1 d2 d3 : nat) (cs : list command) (s : net) : Prop := mkUsable {
  u_good : good (netInputs s) (netOutputs s) s;
  u_inputs : netInputs s = (d1 * d2 * d3)%nat;
  u_pos : (0 < netOutputs s)%nat;
  u_vector : length (parameterVector kc s) = P kc s;
  u_read : forall k, (k < P kc s)%nat -> readP (layers kc s) k = Ok (parameterVector kc s).[k];
  u_fits : forall d, trainSet kc s = Some d -> fits s d;
  u_kinds : map (lkind kc) (layers kc s) = KInput (d1 * d2 * d3) :: kindsOf [d1; d2; d3] (mkReg 0 0 0) cs }.

Lemma usable_noReg d1 d2 d3 cs s : usable d1 d2 d3 cs s -> Forall no_penalty cs -> rgs (layers kc s) = 0.
Proof.
  intros U H. apply noReg_rgs; [apply (u_good _ _ _ _ _ U)|].
  apply Forall_map. rewrite (u_kinds _ _ _ _ _ U). constructor; [exact Logic.I|]. now apply kindsOf_noReg.
Qed.

Lemma readP_Ok ls : forall k, invs ls -> (k < count ls)%nat -> exists v, readP ls k = Ok v.
Proof.
  induction ls as [|l ls IH]; intros k V Hk; simpl in Hk; [lia|]. inversion V as [|? ? V1 V2]; subst.
  cbn [NetChain_Proofs.readP]. destruct (Nat.ltb_spec k (nK (lkind kc l))).
  - apply (ct_read _ _ _ _ _ _ (lo_contract _ _ _ _ _ _ _ _ (nok junk (lkind kc l)))); auto.
  - apply IH; auto. lia.
Qed.

Lemma initialize_ok I O s1 : adding I O s1 -> exists vec,
  initializeNetwork kc junk s1 = Ok (mkNet kc (infos kc s1) (layers kc s1) (parameters kc s1) (derivatives kc s1) (errorFunction kc s1) (dropout kc s1) true
    (length (parameters kc s1)) vec (map (junk 0%nat) (seq 0 (length (parameters kc s1)))) (mkMat 1 I junk) (mkMat 1 O junk)
        (mkMat 1 O junk) (trainSet kc s1)) /\
  length vec = count (layers kc s1) /\ forall i, (i < count (layers kc s1))%nat -> readP (layers kc s1) i = Ok vec.[i].
Proof.
  intros A. pose proof A as [H1 H2 H3 H4 H5 (info & H6 & H6' & _) H7 H8 H9].
  unfold initializeNetwork.
  destruct (infos kc s1) as [|i0 is] eqn:Ei; [easy|]. rewrite <- Ei in *.
  assert (E0 : vget (infos kc s1) 0 = Ok i0) by (rewrite Ei; reflexivity). rewrite E0. cbn [bind]. rewrite H6. cbn [bind].
  assert (LP : length (parameters kc s1) = count (layers kc s1)) by (rewrite H4; apply ptrs_length).
  match goal with |- context [for_ _ ?b ?g0] =>
    destruct (for_inv (fun k (g : list R) => length g = count (layers kc s1) /\ forall i, (i < k)%nat -> readP (layers kc s1) i = Ok g.[i]) b (length (parameters kc s1)) g0)
      as (vec & Ev & Lv & Fv) end.
  { rewrite map_length, seq_length. split; auto. intros; lia. }
  { intros k g Hk (L & F). rewrite LP in Hk. destruct (readP_Ok (layers kc s1) k H3 Hk) as (v & Rv).
    destruct (load_ptrs kc nK (layers kc s1) [] k Hk) as (ptr & P1 & P2 & _). cbn [app length] in P1, P2.
    rewrite H4. rewrite P1. cbn [bind]. rewrite P2, Rv. cbn [bind]. rewrite vset_Ok by lia. eexists. split; [reflexivity|].
    split; [now rewrite upd_length|]. intros i Hi. rewrite nth_upd by lia. destruct (Nat.eqb_spec k i) as [<-|]; auto. apply F. lia. }
  exists vec. rewrite Ev. cbn [bind]. split; [|split; auto; intros i Hi; apply Fv; lia].
  assert (outputs i0 = I) as <- by (rewrite <- H7; unfold netInputs; rewrite Ei; reflexivity). now rewrite H6'.
Qed.

Lemma build_usable d1 d2 d3 cs s : Forall no_max_norm cs -> build junk d1 d2 d3 cs = Ok s -> (0 < netOutputs s)%nat ->
  usable d1 d2 d3 cs s.
Proof.
  intros HF E HO. unfold build in E.
  destruct (for_each cs (fun c st => runCommand junk st c) (inputLayer junk (net_new kc) d1 d2 d3, mkReg 0 0 0)) as [[s1 r1]| | | |] eqn:E1;
    try discriminate E. cbn [bind] in E.
  destruct (adding_commands _ cs _ _ [d1; d2; d3] (mkReg 0 0 0) _ _ (adding_input d1 d2 d3) eq_refl (Rle_refl 0) HF E1) as ((O & A) & N & _).
  pose proof A as [H1 H2 H3 H4 H5 (info & H6 & H6' & _) H7 H8 H9].
  unfold initializeNetwork in E.
  destruct (infos kc s1) as [|i0 is] eqn:Ei; [easy|]. rewrite <- Ei in *.
  assert (E0 : vget (infos kc s1) 0 = Ok i0) by (rewrite Ei; reflexivity). rewrite E0 in E. cbn [bind] in E. rewrite H6 in E. cbn [bind] in E.
  assert (LP : length (parameters kc s1) = count (layers kc s1)) by (rewrite H4; apply ptrs_length).
  match type of E with context [for_ _ ?b ?g0] =>
    destruct (for_inv (fun k (g : list R) => length g = count (layers kc s1) /\ forall i, (i < k)%nat -> readP (layers kc s1) i = Ok g.[i]) b (length (parameters kc s1)) g0)
      as (vec & Ev & Lv & Fv) end.
  { rewrite map_length, seq_length. split; auto. intros; lia. }
  { intros k g Hk (L & F). rewrite LP in Hk. destruct (readP_Ok (layers kc s1) k H3 Hk) as (v & Rv).
    destruct (load_ptrs kc nK (layers kc s1) [] k Hk) as (ptr & P1 & P2 & _). cbn [app length] in P1, P2.
    rewrite H4. rewrite P1. cbn [bind]. rewrite P2, Rv. cbn [bind]. rewrite vset_Ok by lia. eexists. split; [reflexivity|].
    split; [now rewrite upd_length|]. intros i Hi. rewrite nth_upd by lia. destruct (Nat.eqb_spec k i) as [<-|]; auto. apply F. lia. }
  rewrite Ev in E. cbn [bind] in E. injection E as <-.
  assert (EO : netOutputs (c := kc) s1 = O).
  { unfold netOutputs. rewrite (last_vget _ info) by auto. auto. }
  match goal with |- usable _ _ _ _ ?x => set (s := x) in * end.
  assert (EI' : netInputs s = (d1 * d2 * d3)%nat) by exact H7. assert (EO' : netOutputs s = O) by exact EO.
  constructor; auto.
  - rewrite EI', EO'. constructor; auto.
    + exists info. auto.
    + cbn. now rewrite map_length, seq_length.
  - cbn. lia.
  - cbn. rewrite H9. discriminate.
Qed.

Lemma initialize_layers s s' : initializeNetwork kc junk s = Ok s' -> layers kc s' = layers kc s.
Proof.
  unfold initializeNetwork. destruct (vget (infos kc s) 0); try discriminate. cbn [bind].
  destruct (vget (infos kc s) (length (infos kc s) - 1)); try discriminate. cbn [bind].
  destruct (for_ _ _ _); try discriminate. cbn [bind]. intros E. injection E as <-. reflexivity.
Qed.
Lemma build_drawn d1 d2 d3 cs s : Forall no_max_norm cs -> build junk d1 d2 d3 cs = Ok s -> drawnLayers cs (tl (layers kc s)).
Proof.
  intros HF E. unfold build in E.
  destruct (for_each cs (fun c st => runCommand junk st c) (inputLayer junk (net_new kc) d1 d2 d3, mkReg 0 0 0)) as [[s1 r1]| | | |] eqn:E1;
    try discriminate E. cbn [bind] in E. rewrite (initialize_layers _ _ E).
  destruct (adding_commands _ cs _ _ [d1; d2; d3] (mkReg 0 0 0) _ _ (adding_input d1 d2 d3) eq_refl (Rle_refl 0) HF E1) as (_ & _ & rest & E2 & Dr).
  rewrite E2. exact Dr.
Qed.

Lemma build_ok d1 d2 d3 cs : Forall no_max_norm cs -> commandsFit [d1; d2; d3] cs ->
  exists s, build junk d1 d2 d3 cs = Ok s /\ netInputs s = (d1 * d2 * d3)%nat /\ netOutputs s = outputs (finalOutput [d1; d2; d3] cs) /\
    errorFunction kc s = MSE /\ dropout kc s = false.
Proof.
  intros HM HC. unfold build.
  destruct (commands_ok _ cs _ _ [d1; d2; d3] (mkReg 0 0 0) (adding_input d1 d2 d3) eq_refl (Rle_refl 0) HM HC) as (s' & r' & O' & E & A & L & Ef & Ed).
  rewrite E. cbn [bind]. destruct (initialize_ok _ _ s' A) as (vec & -> & _). eexists. split; [reflexivity|].
  split; [apply A|]. split; [|auto]. unfold netOutputs. cbn [Net_Model.infos]. unfold lastInfo in L. now rewrite (last_vget _ _ _ L).
Qed.

Notation same_net := (same_net kc nO nK (nfn junk) (nrg junk)).

Lemma usable_same d1 d2 d3 cs s s' : usable d1 d2 d3 cs s -> good (netInputs s) (netOutputs s) s' -> same_net s' s ->
  usable d1 d2 d3 cs s'.
Proof.
  intros [H1 H2 H3 H4 H5 H6 H7] G (S1 & S2 & S3 & S4 & S5 & S6 & S7).
  assert (EI : netInputs s' = netInputs s) by (unfold netInputs; now rewrite S7).
  assert (EO : netOutputs s' = netOutputs s) by (unfold netOutputs; now rewrite S7).
  constructor; rewrite ?EI, ?EO, ?S4, ?S5, ?S6; auto.
  - intros k Hk. rewrite (same_readP kc nO nK (nfn junk) (nrg junk) _ _ k S1) by (rewrite <- (g_P _ _ _ _ _ _ _ _ _ H1); auto). auto.
  - intros d Hd. unfold fits. rewrite EI, EO. apply H6. auto.
  - rewrite <- H7. eapply same_kinds; eauto.
Qed.

Lemma usable_set d1 d2 d3 cs s p s' : usable d1 d2 d3 cs s -> length p = P kc s -> setParameters kc s p = Ok s' ->
  usable d1 d2 d3 cs s'.
Proof.
  intros [H1 H2 H3 H4 H5 H6 H7] Hp E.
  destruct (set_ok kc nI nO nK (nInv junk) (nsmooth junk) (nfn junk) (nrg junk) (nok junk) isIn _ _ s p H1 Hp)
    as (ls & E1 & _ & V & M & R & G).
  rewrite E in E1. injection E1 as ->. constructor; auto. cbn. congruence.
Qed.

Lemma usable_calls d1 d2 d3 cs s s' : usable d1 d2 d3 cs s -> calls junk s s' -> usable d1 d2 d3 cs s'.
Proof.
  intros U C. pose proof U as [H1 H2 H3 H4 H5 H6 H7].
  destruct C as [s p s' Hp E|s x s' y HR HX E|s n s' v E|s s' v E|s idx grad s' v g Hi Hg E|s n s' g E|s s' g HN E|s b|s ef|s d Hd].
  - apply (usable_set d1 d2 d3 cs s p); auto.
  - destruct (forward_net kc nI nO nK (nInv junk) (nsmooth junk) (nfn junk) (nrg junk) (nok junk) isIn _ _ s x H1 HX)
      as (ls & Y & Yo & Ef & Eo & SY & SYo & En & V & Sm & Fy & Fo & G'); auto.
    unfold net_apply in E. rewrite En in E. cbn [bind] in E. injection E as <- _.
    eapply usable_same; eauto. unfold Net_Proofs.same_net. cbn. auto 10.
  - destruct (error_at_pres kc nI nO nK (nInv junk) (nsmooth junk) (nfn junk) (nrg junk) (nok junk) isIn _ _ s n s' v H1) as (G & S); auto.
    eapply usable_same; eauto.
  - destruct (error_pres kc nI nO nK (nInv junk) (nsmooth junk) (nfn junk) (nrg junk) (nok junk) isIn _ _ s s' v H1) as (G & S); auto.
    eapply usable_same; eauto.
  - destruct (errorGradient_pres kc nI nO nK (nInv junk) (nsmooth junk) (nfn junk) (nrg junk) (nok junk) isIn (nin junk) junk _ _ s idx grad s' v g H1) as (G & S & _); auto.
    eapply usable_same; eauto.
  - unfold gradient_at in E. destruct (errorGradient kc junk s [n] (tempGradient kc s)) as [[[s1 v] g1]| | | |] eqn:E1; try discriminate E.
    cbn [bind] in E. injection E as <- <-.
    destruct (errorGradient_pres kc nI nO nK (nInv junk) (nsmooth junk) (nfn junk) (nrg junk) (nok junk) isIn (nin junk) junk _ _ s [n] (tempGradient kc s) s1 v g1 H1) as (G & S & L); auto.
    { discriminate. } { apply (g_grad _ _ _ _ _ _ _ _ _ H1). }
    apply (usable_same d1 d2 d3 cs s); auto. destruct G as [G1 G2 G3 G4 G5 G6 G7 G8]. constructor; auto.
    cbn. destruct S as (_ & _ & _ & _ & -> & _). auto.
  - unfold gradient in E. destruct (errorGradient kc junk s (seq 0 (examples kc s)) (tempGradient kc s)) as [[[s1 v] g1]| | | |] eqn:E1; try discriminate E.
    cbn [bind] in E. injection E as <- <-.
    destruct (errorGradient_pres kc nI nO nK (nInv junk) (nsmooth junk) (nfn junk) (nrg junk) (nok junk) isIn (nin junk) junk _ _ s (seq 0 (examples kc s)) (tempGradient kc s) s1 v g1 H1) as (G & S & L); auto.
    { destruct (examples kc s); [lia|discriminate]. } { apply (g_grad _ _ _ _ _ _ _ _ _ H1). }
    apply (usable_same d1 d2 d3 cs s); auto. destruct G as [G1 G2 G3 G4 G5 G6 G7 G8]. constructor; auto.
    cbn. destruct S as (_ & _ & _ & _ & -> & _). auto.
  - constructor; auto. destruct H1 as [G1 G2 G3 G4 G5 G6 G7 G8]. constructor; auto.
  - constructor; auto. destruct H1 as [G1 G2 G3 G4 G5 G6 G7 G8]. constructor; auto.
  - constructor; auto. destruct H1 as [G1 G2 G3 G4 G5 G6 G7 G8]. constructor; auto.
    cbn. intros d' E. injection E as <-. exact Hd.
Qed.

(** ** Net::initialize *)
Lemma redrawKind_same w k : nI (redrawKind w k) = nI k /\ nO (redrawKind w k) = nO k /\ nK (redrawKind w k) = nK k /\
  (isIn (redrawKind w k) <-> isIn k).
Proof. destruct k; cbn; tauto. Qed.
Lemma kindOf_redraw w info reg l : kindOf info reg (redrawLayer w l) = (redrawKind w (fst (kindOf info reg l)), snd (kindOf info reg l)).
Proof. destruct l; reflexivity. Qed.
Lemma redraw_layers w cs : forall info reg i ls, invs ls -> map (lkind kc) ls = kindsOf info reg cs ->
  exists ls', initializeLayers junk w i ls = Ok ls' /\ invs ls' /\ map (lkind kc) ls' = kindsOf info reg (redraw w i cs) /\
    drawnLayers (redraw w i cs) ls' /\ ptrs 0 ls' = ptrs 0 ls /\ count ls' = count ls /\ length ls' = length ls /\
    (forall p, ptrs p ls' = ptrs p ls) /\ forall n m, wired n ls m -> wired n ls' m.
Proof.
  induction cs as [|[l|r] cs IH]; intros info reg i ls V E; cbn [kindsOf redraw] in *.
  - apply map_eq_nil in E. subst ls. exists []. repeat (split; [reflexivity || auto|]). auto.
  - destruct ls as [|[k o] ls]; [discriminate E|]. cbn [map lkind] in E. injection E as Ek E.
    inversion V as [|? ? V1 V2]; subst. cbn [lkind lobj] in V1.
    destruct (draw_ok junk (w i) (fst (kindOf info reg l)) o V1) as ([k' o'] & E1 & E2 & V' & Dr). cbn [lkind lobj] in E2, V', Dr. subst k'.
    rewrite kindOf_redraw. cbn [fst snd initializeLayers]. rewrite E1. cbn [bind].
    destruct (IH _ _ (Datatypes.S i) ls V2 E) as (ls' & I1 & I2 & I3 & I4 & I5 & I6 & I7 & I8 & I9).
    rewrite I1. cbn [bind]. exists (mkLayer kc (redrawKind (w i) (fst (kindOf info reg l))) o' :: ls').
    destruct (redrawKind_same (w i) (fst (kindOf info reg l))) as (Q1 & Q2 & Q3 & _).
    split; auto. split; [constructor; auto|]. split; [cbn [map lkind]; now rewrite I3|].
    split. { cbn [drawnLayers lkind lobj]. split; auto. destruct l; exact Dr. }
    cbn [NetChain_Proofs.ptrs NetChain_Proofs.count length lkind NetChain_Proofs.wired]. rewrite Q1, Q2, Q3, I6, I7, I8.
    do 3 (split; [reflexivity|]). split; [intros p; now rewrite I8|]. intros n m (H1 & H2). auto.
  - apply IH; auto.
Qed.

Lemma usable_initialize d1 d2 d3 cs s w : usable d1 d2 d3 cs s -> initialized kc s = true ->
  exists s', net_initialize junk w s = Ok s' /\ usable d1 d2 d3 (redraw w 1 cs) s' /\ drawnLayers (redraw w 1 cs) (tl (layers kc s')) /\
    infos kc s' = infos kc s /\ errorFunction kc s' = errorFunction kc s /\ dropout kc s' = dropout kc s /\
    trainSet kc s' = trainSet kc s /\ initialized kc s' = true /\ P kc s' = P kc s.
Proof.
  intros [H1 H2 H3 H4 H5 H6 H7] HI. unfold net_initialize. rewrite HI. cbn [check bind].
  pose proof H1 as [G1 G2 G3 G4 G5 G6 G7 G8].
  destruct (layers kc s) as [|[k0 o0] ls] eqn:EL; [easy|]. cbn [map lkind] in H7. injection H7 as E0 E1. subst k0.
  inversion G3 as [|? ? V1 V2]; subst. cbn [initializeLayers].
  destruct (redraw_layers w cs [d1; d2; d3] (mkReg 0 0 0) 1 ls V2 E1) as (ls' & I1 & I2 & I3 & I4 & I5 & I6 & I7 & I8 & I9).
  unfold initializeParameters at 1. cbn [lkind lobj bind]. rewrite I1. cbn [bind].
  set (ls1 := mkLayer kc (KInput (d1 * d2 * d3)) o0 :: ls').
  assert (HV : invs ls1) by (constructor; auto).
  assert (HP : ptrs 0 ls1 = parameters kc s) by (rewrite G4; unfold ls1; cbn [NetChain_Proofs.ptrs lkind]; now rewrite I8).
  assert (HC : count ls1 = P kc s) by (rewrite G6; unfold ls1; cbn [NetChain_Proofs.count lkind]; now rewrite I6).
  match goal with |- context [for_ _ ?b ?g0] =>
    destruct (for_inv (fun k (g : list R) => length g = P kc s /\ forall i, (i < k)%nat -> readP ls1 i = Ok g.[i]) b (P kc s) g0)
      as (vec & Ev & Lv & Fv) end.
  { split; auto. intros; lia. }
  { intros k g Hk (L & F). rewrite <- HC in Hk. destruct (readP_Ok ls1 k HV Hk) as (v & Rv).
    destruct (load_ptrs kc nK ls1 [] k Hk) as (ptr & P1 & P2 & _). cbn [app length] in P1, P2.
    rewrite <- HP. rewrite P1. cbn [bind]. rewrite P2, Rv. cbn [bind]. rewrite HC in Hk. rewrite vset_Ok by lia. eexists. split; [reflexivity|].
    split; [now rewrite upd_length|]. intros i Hi. rewrite nth_upd by lia. destruct (Nat.eqb_spec k i) as [<-|]; auto. apply F. lia. }
  rewrite Ev. cbn [bind]. eexists. split; [reflexivity|]. split; [|cbn; auto 10].
  match goal with |- usable _ _ _ _ ?x => set (s' := x) in * end.
  assert (EI : netInputs s' = netInputs s) by reflexivity. assert (EO : netOutputs s' = netOutputs s) by reflexivity.
  constructor; auto.
  - rewrite EI, EO. constructor; auto.
    + cbn [Net_Model.layers with_vector with_layers s']. unfold ls1. cbn [NetChain_Proofs.wired lkind] in G2 |- *. destruct G2 as (W1 & W2). auto.
    + cbn. rewrite G5. unfold ls1. cbn [NetChain_Proofs.ptrs lkind]. now rewrite I8.
  - cbn [Net_Model.layers with_vector with_layers s' map lkind ls1]. now rewrite I3.
Qed.

Lemma redraw_max_norm w cs : forall i, Forall no_max_norm (redraw w i cs) <-> Forall no_max_norm cs.
Proof.
  induction cs as [|[l|r] cs IH]; intros i; cbn [redraw]; [tauto| |]; split; intros H; inversion H as [|? ? H1 H2]; subst;
    constructor; auto; try (now apply IH in H2); apply IH; auto.
Qed.

Lemma initialize_flag w s s' : net_initialize junk w s = Ok s' -> initialized kc s = true.
Proof. unfold net_initialize. destruct (initialized kc s); auto. discriminate. Qed.

Lemma reachable_usable d1 d2 d3 cs s : Forall no_max_norm cs -> reachable junk d1 d2 d3 cs s -> usable d1 d2 d3 cs s.
Proof.
  intros HF HR. induction HR as [cs s E HO|cs s s' HR IH C|cs s w s' HR IH E].
  - now apply build_usable.
  - eapply usable_calls; eauto.
  - apply redraw_max_norm in HF. specialize (IH HF).
    destruct (usable_initialize d1 d2 d3 cs s w IH (initialize_flag _ _ _ E)) as (s1 & E1 & U & _). congruence.
Qed.

Lemma smooth_run_at ls : forall X dropout, smooth_at junk ls X dropout <-> smooth_run kc (nsmooth junk) ls X dropout.
Proof.
  induction ls as [|l ls IH]; intros X dropout; cbn [smooth_at smooth_run]; [tauto|].
  split; intros (H1 & H2); (split; [auto|]); intros; apply IH; eauto.
Qed.

(** * Numbers of parameters *)
Lemma kindOf_params info reg l : nK (fst (kindOf info reg l)) = layerParams info l.
Proof.
  destruct l; cbn [kindOf fst nK layerParams]; auto.
  - unfold cF, cB, nb. cbn. lia.
  - unfold pO, sB. cbn [pfm pfmOutSize pgeom_of]. destruct bias; lia.
  - unfold RBMLayer_Proofs.rbm_K. destruct backprop; lia.
  - lia.
Qed.

Fixpoint sumK (ks : list kind) : nat := match ks with [] => 0 | k :: ks => nK k + sumK ks end%nat.
Lemma count_kinds ls : count ls = sumK (map (lkind kc) ls).
Proof. induction ls; simpl; auto. Qed.
Lemma kindsOf_params cs : forall info reg, sumK (kindsOf info reg cs) = totalParams info cs.
Proof.
  induction cs as [|[l|r] cs IH]; intros info reg; cbn [kindsOf sumK totalParams]; auto.
  now rewrite kindOf_params, kindOf_output, IH.
Qed.
Lemma usable_dimension d1 d2 d3 cs s : usable d1 d2 d3 cs s -> P kc s = totalParams [d1; d2; d3] cs.
Proof.
  intros U. rewrite (g_P _ _ _ _ _ _ _ _ _ (u_good _ _ _ _ _ U)), count_kinds, (u_kinds _ _ _ _ _ U).
  cbn [sumK nK]. now rewrite kindsOf_params.
Qed.

(** * Layers that are differentiable everywhere *)
Definition ksm (k : kind) : Prop :=
  match k with
  | KInput _ | KDropout _ _ => True
  | KFullyConnected _ _ _ act reg | KCompressed _ _ _ _ act _ reg | KSubsampling _ _ act reg =>
      smooth_act act /\ l1Penalty reg <= 0
  | KExtreme _ _ _ act _ => smooth_act act
  | KConvolutional g => smooth_act (cact g) /\ l1Penalty (creg g) <= 0
  | KSparseAutoEncoder _ _ _ _ lambda act => smooth_act act /\ 0 <= lambda
  | KIntrinsicPlasticity _ _ _ | KMaxPooling _ | KRestrictedBoltzmannMachine _ _ _ _ _ _ _ => False
  end.
Lemma smooth_act_smooth act a : smooth_act act -> act_smooth act a.
Proof. destruct act; simpl; tauto. Qed.
Lemma ksm_smooth k s X : ksm k -> nsmooth junk k s X.
Proof.
  destruct k; cbn [ksm nsmooth]; try tauto.
  - intros (H1 & H2). split; intros; [now apply smooth_act_smooth|lra].
  - intros (H1 & H2). split; intros; [now apply smooth_act_smooth|lra].
  - intros H1 n j _ _. now apply smooth_act_smooth.
  - intros (H1 & H2). split; intros; [now apply smooth_act_smooth|lra].
  - intros (H1 & H2). split; intros; [now apply smooth_act_smooth|lra].
  - intros (H1 & H2). split; auto. intros n h _ _. now apply smooth_act_smooth.
Qed.
Lemma kindsOf_ksm cs : forall info reg, l1Penalty reg <= 0 <= l2Penalty reg -> Forall always_smooth cs -> Forall ksm (kindsOf info reg cs).
Proof.
  induction cs as [|[l|r] cs IH]; intros info reg H1 H2; inversion H2 as [|? ? P0 P3]; subst; cbn [kindsOf]; auto.
  constructor; auto. destruct H1 as (H1 & H1'). destruct l; cbn [kindOf fst ksm creg cact always_smooth] in *; auto.
Qed.
Lemma usable_smooth d1 d2 d3 cs s X dropout : usable d1 d2 d3 cs s -> Forall always_smooth cs ->
  smooth_at junk (layers kc s) X dropout.
Proof.
  intros U H. assert (F : Forall ksm (map (lkind kc) (layers kc s))).
  { rewrite (u_kinds _ _ _ _ _ U). constructor; [exact Logic.I|]. apply kindsOf_ksm; auto. simpl. lra. }
  clear U. revert X. induction (layers kc s) as [|l ls IH]; intros X; cbn [smooth_at]; auto.
  inversion F; subst. split; auto. now apply ksm_smooth.
Qed.
End Build.
