From Verif Require Import Base BaseFacts Matrix RSum MatOps DataSet_Model DataSet_Proofs KMeans_Model KMeans_Spec.
From Coq Require Import Lia Lra Permutation.
Local Open Scope R_scope.

Lemma rowDistance_ok a i b j D : cols a = D -> cols b = D -> (i < rows a)%nat -> (j < rows b)%nat ->
  rowDistance a i b j = Ok (sqDist D (at_ a i) (at_ b j)).
Proof.
  intros H1 H2 H3 H4. unfold rowDistance.
  rewrite (proj2 (Nat.ltb_lt i (rows a))), (proj2 (Nat.ltb_lt j (rows b))) by auto. rewrite H1, H2, Nat.eqb_refl. cbn [andb check bind].
  f_equal. unfold sqDist. apply rsum_ext. intros. ring.
Qed.
Lemma assignRow_ok a i b j f D : cols a = D -> cols b = D -> (i < rows a)%nat -> (j < rows b)%nat ->
  assignRow a i b j f = Ok (mkMat (rows a) D (fun i' d => if Nat.eqb i' i then f (at_ a i d) (at_ b j d) else at_ a i' d)).
Proof.
  intros H1 H2 H3 H4. unfold assignRow.
  rewrite (proj2 (Nat.ltb_lt i (rows a))), (proj2 (Nat.ltb_lt j (rows b))) by auto. rewrite H1, H2, Nat.eqb_refl. reflexivity.
Qed.

Lemma generateIndices_new N shuf : (forall l, Permutation l (shuf l)) ->
  exists l, generateIndices N [] false shuf = Ok l /\ Permutation l (seq 0 N).
Proof.
  intros H. unfold generateIndices. cbn [length Nat.eqb check bind]. rewrite fillIndices_spec. cbn [bind app].
  eexists. split; [reflexivity|]. symmetry. apply H.
Qed.

Section KM.
Variables (DBL_MAX : R) (D K : nat).
Notation fitted := (fitted DBL_MAX D K).

(** shape of the object *)
Record shape (s : kmeans) : Prop := mkShape {
  sh_D : kmD s = D; sh_K : kmK s = K; sh_r : rows (kmC s) = K; sh_c : cols (kmC s) = D; sh_v : length (kmV s) = K;
  sh_new : kmInit s = false -> clusterIndices s = [] }.

Lemma km_initialize_ok shuf s X : shape s -> kmInit s = false -> cols X = D -> (K <= rows X)%nat ->
  (forall l, Permutation l (shuf l)) ->
  exists s', km_initialize shuf s X = Ok s' /\ shape s' /\ kmInit s' = true /\ length (clusterIndices s') = rows X /\
    (forall k, (k < K)%nat -> nth k (kmV s') 0%nat = 0%nat /\
       exists n, (n < rows X)%nat /\ forall d, at_ (kmC s') k d = at_ X n d).
Proof.
  intros [H1 H2 H3 H4 H5 H6] Hi HX HK Hsh. unfold km_initialize. rewrite H6 by auto.
  destruct (generateIndices_new (rows X) shuf Hsh) as (idx & -> & P). cbn [bind].
  assert (LI : length idx = rows X) by (rewrite (Permutation_length P); apply seq_length).
  assert (BI : forall k, (k < rows X)%nat -> (nth k idx 0 < rows X)%nat).
  { intros k Hk. assert (In (nth k idx 0%nat) (seq 0 (rows X))) by (apply (Permutation_in _ P); apply nth_In; lia). apply in_seq in H. lia. }
  match goal with |- context [for_ (kmK s) ?b ?s0] =>
    destruct (for_inv (fun m (C : mat) => rows C = K /\ cols C = D /\
      forall k, (k < m)%nat -> forall d, at_ C k d = at_ X (nth k idx 0%nat) d) b (kmK s) s0) as (C & E & R & Co & F) end.
  - split; auto. split; auto. intros; lia.
  - intros k C Hk (R & Co & F). rewrite H2 in Hk. rewrite (vget_nth idx k 0%nat) by lia. cbn [bind].
    rewrite (assignRow_ok _ _ _ _ _ D); auto; try lia; [|apply BI; lia].
    eexists. split; [reflexivity|]. cbn [rows cols at_]. split; auto. split; auto. intros k' Hk' d.
    destruct (Nat.eqb_spec k' k) as [->|]; auto. apply F. lia.
  - rewrite E. cbn [bind]. eexists. split; [reflexivity|]. split.
    + constructor; cbn; auto. * now rewrite map_length. * discriminate.
    + cbn. split; auto. split; auto. intros k Hk. split.
      * rewrite (map_nth (fun _ => 0%nat) (kmV s) 0%nat k). reflexivity.
      * exists (nth k idx 0%nat). split; [apply BI; lia|]. intros d. apply F. lia.
Qed.

(** all squared distances are below the number the search starts with *)
Definition close (C X : mat) : Prop := forall k n, (k < K)%nat -> (n < rows X)%nat -> sqDist D (at_ C k) (at_ X n) < DBL_MAX.

Lemma findClusters_ok s X : shape s -> cols X = D -> length (clusterIndices s) = rows X ->
  exists idx, findClusters DBL_MAX s X = Ok (mkKMeans (kmD s) (kmK s) (kmC s) (kmV s) (kmInit s) idx) /\
    length idx = rows X /\
    (forall n, (n < rows X)%nat -> (nth n idx 0 < K \/ nth n idx 0 = 0)%nat) /\
    ((0 < K)%nat -> close (kmC s) X -> forall n, (n < rows X)%nat -> nearest D K (kmC s) (at_ X n) (nth n idx 0%nat) /\
      forall k, (k < nth n idx 0)%nat -> sqDist D (at_ (kmC s) (nth n idx 0%nat)) (at_ X n) < sqDist D (at_ (kmC s) k) (at_ X n)).
Proof.
  intros [H1 H2 H3 H4 H5 H6] HX HL. unfold findClusters.
  match goal with |- context [for_ (rows X) ?b ?s0] =>
    destruct (for_inv (fun m (idx : list nat) => length idx = rows X /\
      (forall n, (n < m)%nat -> (nth n idx 0 < K \/ nth n idx 0 = 0)%nat) /\
      ((0 < K)%nat -> close (kmC s) X -> forall n, (n < m)%nat -> nearest D K (kmC s) (at_ X n) (nth n idx 0%nat) /\
        forall k, (k < nth n idx 0)%nat -> sqDist D (at_ (kmC s) (nth n idx 0%nat)) (at_ X n) < sqDist D (at_ (kmC s) k) (at_ X n)))
      b (rows X) s0) as (idx & E & L & F1 & F2) end.
  - split; auto. split; intros; lia.
  - intros n idx Hn (L & F1 & F2).
    match goal with |- context [for_ (kmK s) ?b ?s0] =>
      destruct (for_inv (fun m (st : nat * R) => (fst st < m \/ fst st = 0)%nat /\
        ((forall k, (k < K)%nat -> sqDist D (at_ (kmC s) k) (at_ X n) < DBL_MAX) -> (0 < m)%nat ->
           (fst st < m)%nat /\ snd st = sqDist D (at_ (kmC s) (fst st)) (at_ X n) /\
           (forall k, (k < m)%nat -> snd st <= sqDist D (at_ (kmC s) k) (at_ X n)) /\
           (forall k, (k < fst st)%nat -> snd st < sqDist D (at_ (kmC s) k) (at_ X n))) /\
        ((m = 0)%nat -> snd st = DBL_MAX)) b (kmK s) s0)
        as ([cl sd] & E & G1 & G2 & _) end.
    + cbn [fst snd]. split; auto. split; auto. intros; lia.
    + intros k [cl sd] Hk (G1 & G2 & G3). cbn [fst snd] in *. rewrite H2 in Hk.
      rewrite (rowDistance_ok _ _ _ _ D) by (auto; lia). cbn [bind].
      set (dk := sqDist D (at_ (kmC s) k) (at_ X n)).
      destruct (Rltb dk sd) eqn:Eq; [apply Rltb_true in Eq|apply Rltb_false in Eq];
        (eexists; split; [reflexivity|]); cbn [fst snd]; (split; [lia|]); (split; [|intros; lia]); intros HM Hm.
      * split; [lia|]. split; auto. split.
        -- intros k' Hk'. destruct (Nat.eq_dec k' k) as [->|]; [unfold dk; lra|].
           destruct (G2 HM) as (_ & _ & G4 & _); [lia|]. specialize (G4 k' ltac:(lia)). lra.
        -- intros k' Hk'. destruct (G2 HM) as (_ & _ & G4 & _); [lia|]. specialize (G4 k' ltac:(lia)). lra.
      * destruct (Nat.eq_dec k 0) as [->|Hk0].
        { rewrite (G3 eq_refl) in Eq. pose proof (HM 0%nat Hk). unfold dk in Eq. lra. }
        destruct (G2 HM) as (G4 & G5 & G6 & G7); [lia|]. split; [lia|]. split; auto. split; auto.
        intros k' Hk'. destruct (Nat.eq_dec k' k) as [->|]; [exact Eq|]. apply G6. lia.
    + rewrite E. cbn [bind fst snd] in *. rewrite vset_Ok by lia. eexists. split; [reflexivity|]. rewrite upd_length.
      split; auto. rewrite H2 in G1, G2. split.
      * intros n' Hn'. rewrite nth_upd by lia. destruct (Nat.eqb_spec n n') as [<-|]; [lia|]. apply F1. lia.
      * intros HK HM n' Hn'. rewrite nth_upd by lia. destruct (Nat.eqb_spec n n') as [<-|]; [|apply F2; auto; lia].
        destruct G2 as (G4 & G5 & G6 & G7); [intros; now apply HM|lia|]. rewrite G5 in *. split; [split; auto|auto].
  - rewrite E. cbn [bind]. exists idx. auto.
Qed.

(** sums of the points assigned to a centre *)
Lemma meanOf_snoc l x d : meanOf (l ++ [x]) d = meanOf l d + 1 / INR (length l + 1) * (x d - meanOf l d).
Proof.
  unfold meanOf. rewrite map_app, lsum_app, app_length. cbn [map length]. unfold lsum at 2. cbn [fold_right].
  destruct l as [|y l].
  - cbn [length Nat.add map]. unfold lsum. cbn [fold_right]. simpl INR. unfold Rdiv. rewrite Rmult_0_l. field.
  - assert (0 < INR (length (y :: l))) by (apply lt_0_INR; simpl; lia).
    rewrite plus_INR. change (INR 1) with 1. field. lra.
Qed.

Lemma pointsOf_app k a b : pointsOf k (a ++ b) = pointsOf k a ++ pointsOf k b.
Proof. unfold pointsOf. now rewrite filter_app, map_app. Qed.

Lemma updateCenters_ok s X log (P0 : nat -> (nat -> R) -> Prop) : shape s -> cols X = D -> length (clusterIndices s) = rows X -> (0 < K)%nat ->
  (forall n, (n < rows X)%nat -> (nth n (clusterIndices s) 0 < K)%nat) ->
  (forall k, (k < K)%nat -> nth k (kmV s) 0%nat = length (pointsOf k log) /\
     (pointsOf k log <> [] -> forall d, at_ (kmC s) k d = meanOf (pointsOf k log) d)) ->
  (forall k, (k < K)%nat -> pointsOf k log = [] -> P0 k (at_ (kmC s) k)) ->
  exists C v, updateCenters s X = Ok (mkKMeans (kmD s) (kmK s) C v (kmInit s) (clusterIndices s)) /\
    rows C = K /\ cols C = D /\ length v = K /\
    let log' := log ++ map (fun n => (nth n (clusterIndices s) 0%nat, at_ X n)) (seq 0 (rows X)) in
    forall k, (k < K)%nat -> nth k v 0%nat = length (pointsOf k log') /\
     (pointsOf k log' <> [] -> forall d, at_ C k d = meanOf (pointsOf k log') d) /\
     (pointsOf k log' = [] -> P0 k (at_ C k)).
Proof.
  intros [H1 H2 H3 H4 H5 H6] HX HL HK HC HM HP. unfold updateCenters.
  match goal with |- context [for_ (rows X) ?b ?s0] =>
    destruct (for_inv (fun m (st : mat * list nat) => rows (fst st) = K /\ cols (fst st) = D /\ length (snd st) = K /\
      let log' := log ++ map (fun n => (nth n (clusterIndices s) 0%nat, at_ X n)) (seq 0 m) in
      forall k, (k < K)%nat -> nth k (snd st) 0%nat = length (pointsOf k log') /\
       (pointsOf k log' <> [] -> forall d, at_ (fst st) k d = meanOf (pointsOf k log') d) /\
       (pointsOf k log' = [] -> P0 k (at_ (fst st) k))) b (rows X) s0) as ([C v] & E & I1 & I2 & I3 & I4) end.
  - cbn [fst snd seq map]. rewrite app_nil_r. split; auto. split; auto. split; auto. intros k Hk.
    destruct (HM k Hk). auto.
  - intros n [C v] Hn (I1 & I2 & I3 & I4). cbn [fst snd] in *.
    rewrite (vget_nth (clusterIndices s) n 0%nat) by lia. cbn [bind].
    set (cl := nth n (clusterIndices s) 0%nat) in *. assert (Hcl : (cl < K)%nat) by (apply HC; auto).
    rewrite (vget_nth v cl 0%nat) by lia. cbn [bind]. rewrite vset_Ok by lia. cbn [bind].
    rewrite (assignRow_ok _ _ _ _ _ D) by (auto; lia). cbn [bind]. eexists. split; [reflexivity|]. cbn [fst snd rows cols at_].
    split; auto. split; auto. rewrite upd_length. split; auto. intros k Hk.
    rewrite seq_S, map_app, app_assoc. cbn [map Nat.add]. fold cl.
    set (lg := log ++ map (fun n0 : nat => (nth n0 (clusterIndices s) 0%nat, at_ X n0)) (seq 0 n)) in *.
    rewrite pointsOf_app. destruct (I4 k Hk) as (J1 & J2 & J3). destruct (I4 cl Hcl) as (Jc1 & Jc2 & Jc3).
    rewrite nth_upd by lia. destruct (Nat.eqb_spec cl k) as [<-|Ne].
    + rewrite Nat.eqb_refl. assert (Z : pointsOf cl [(cl, at_ X n)] = [at_ X n]).
      { unfold pointsOf. cbn [filter fst]. now rewrite Nat.eqb_refl. }
      rewrite Z.
      rewrite app_length, Jc1. cbn [length]. split; auto. split.
      * intros _ d. rewrite meanOf_snoc. destruct (pointsOf cl lg) as [|x l] eqn:Ep.
        -- cbn [length Nat.add]. change (INR 1) with 1. unfold meanOf. cbn. lra.
        -- rewrite Jc2 by discriminate. reflexivity.
      * intros Zn. apply app_eq_nil in Zn. easy.
    + destruct (Nat.eqb_spec k cl) as [->|_]; [easy|].
      assert (Z : pointsOf k [(cl, at_ X n)] = []).
      { unfold pointsOf. cbn [filter fst]. destruct (Nat.eqb_spec cl k); easy. }
      rewrite Z, app_nil_r. auto.
  - rewrite E. cbn [bind]. exists C, v. auto.
Qed.

Lemma for_each_step {S : Type} n (b : nat -> S -> res S) s s' : for_ n b s = Ok s' ->
  forall k, (k < n)%nat -> exists s1 s2, b k s1 = Ok s2.
Proof.
  revert s'. induction n as [|n IH]; intros s' E k Hk; [lia|]. rewrite for_S in E. apply bind_Ok in E as (s1 & E1 & E2).
  destruct (Nat.eq_dec k n) as [->|]; [eauto|]. apply (IH _ E1). lia.
Qed.

Record inv (s : kmeans) (log : list (nat * (nat -> R))) (first : list (nat -> R)) : Prop := mkInv {
  i_shape : shape s;
  i_new : kmInit s = false -> log = [] /\ first = [];
  i_len : kmInit s = true -> length (clusterIndices s) = length first /\ (K <= length first)%nat;
  i_means : kmInit s = true -> forall k, (k < K)%nat -> nth k (kmV s) 0%nat = length (pointsOf k log) /\
     (pointsOf k log <> [] -> forall d, at_ (kmC s) k d = meanOf (pointsOf k log) d);
  i_init : kmInit s = true -> forall k, (k < K)%nat -> pointsOf k log = [] -> exists x, In x first /\ forall d, at_ (kmC s) k d = x d }.

Lemma inv_new junkC junkV : inv (km_new D K junkC junkV) [] [].
Proof.
  constructor; cbn; auto; try discriminate. constructor; cbn; auto. now rewrite map_length, seq_length.
Qed.

Definition fitX (X : mat) : list (nat -> R) := map (at_ X) (seq 0 (rows X)).
Definition logX (s' : kmeans) (X : mat) : list (nat * (nat -> R)) :=
  map (fun n => (nth n (clusterIndices s') 0%nat, at_ X n)) (seq 0 (rows X)).

(** the state that the assignment step of fit starts with *)
Lemma start_ok s log first X shuf : inv s log first -> cols X = D -> (forall l, Permutation l (shuf l)) ->
  (kmInit s = false -> (K <= rows X)%nat) -> (kmInit s = true -> length first = rows X) ->
  exists s0, (if kmInit s then Ok s else km_initialize shuf s X) = Ok s0 /\
    inv s0 log (if kmInit s then first else fitX X) /\ kmInit s0 = true /\ length (clusterIndices s0) = rows X /\
    (kmInit s = true -> s0 = s).
Proof.
  intros HI HX Hsh H1 H2. destruct (kmInit s) eqn:Ei.
  - exists s. split; auto. split; auto. split; auto. split; auto. destruct (i_len _ _ _ HI Ei) as [-> _]. auto.
  - destruct (km_initialize_ok shuf s X (i_shape _ _ _ HI) Ei HX (H1 eq_refl) Hsh) as (s0 & E & S0 & I0 & L0 & F0).
    exists s0. split; auto. split; [|split; auto; split; auto; easy].
    destruct (i_new _ _ _ HI Ei) as [-> ->].
    assert (LF : length (fitX X) = rows X) by (unfold fitX; now rewrite map_length, seq_length).
    constructor; auto.
    + congruence.
    + rewrite LF. auto.
    + intros _ k Hk. destruct (F0 k Hk) as [-> _]. split; auto. easy.
    + intros _ k Hk _. destruct (F0 k Hk) as (_ & n & Hn & F). exists (at_ X n). split; auto.
      unfold fitX. apply in_map. apply in_seq. lia.
Qed.

Lemma fit_ok s log first X shuf : (0 < K)%nat -> inv s log first -> cols X = D -> (forall l, Permutation l (shuf l)) ->
  (kmInit s = false -> (K <= rows X)%nat) -> (kmInit s = true -> length first = rows X) ->
  exists s0 s', (if kmInit s then Ok s else km_initialize shuf s X) = Ok s0 /\ km_fit DBL_MAX shuf s X = Ok s' /\
    inv s' (log ++ logX s' X) (if kmInit s then first else fitX X) /\ kmInit s' = true /\
    length (clusterIndices s') = rows X /\
    (close (kmC s0) X -> forall n, (n < rows X)%nat -> nearest D K (kmC s0) (at_ X n) (nth n (clusterIndices s') 0%nat) /\
      forall k, (k < nth n (clusterIndices s') 0)%nat ->
        sqDist D (at_ (kmC s0) (nth n (clusterIndices s') 0%nat)) (at_ X n) < sqDist D (at_ (kmC s0) k) (at_ X n)).
Proof.
  intros HK HI HX Hsh H1 H2. destruct (start_ok s log first X shuf HI HX Hsh H1 H2) as (s0 & E0 & HI0 & T0 & L0 & _).
  destruct (findClusters_ok s0 X (i_shape _ _ _ HI0) HX L0) as (idx & E1 & L1 & B1 & N1).
  set (s1 := mkKMeans (kmD s0) (kmK s0) (kmC s0) (kmV s0) (kmInit s0) idx) in *.
  set (fs := if kmInit s then first else fitX X) in *.
  assert (S1 : shape s1). { destruct (i_shape _ _ _ HI0). constructor; cbn; auto. congruence. }
  destruct (updateCenters_ok s1 X log (fun _ c => exists x, In x fs /\ forall d, c d = x d)) as (C & v & E2 & R2 & C2 & V2 & F2); auto.
  - intros n Hn. cbn. specialize (B1 n Hn). lia.
  - apply (i_means _ _ _ HI0 T0).
  - apply (i_init _ _ _ HI0 T0).
  - exists s0. eexists. split; [exact E0|]. split.
    { unfold km_fit. rewrite (sh_D _ (i_shape _ _ _ HI)), HX, Nat.eqb_refl. cbn [check bind]. rewrite E0. cbn [bind].
      rewrite L0, Nat.eqb_refl. cbn [check bind]. rewrite E1. cbn [bind]. exact E2. }
    cbn [clusterIndices kmInit s1 kmC kmV]. rewrite T0. split; [|split; auto].
    destruct (i_shape _ _ _ HI0) as [G1 G2 G3 G4 G5 G6].
    constructor; cbn [clusterIndices kmInit s1 kmC kmV].
    + constructor; cbn; auto. discriminate.
    + discriminate.
    + intros _. rewrite L1, <- L0. apply (i_len _ _ _ HI0 T0).
    + intros _ k Hk. destruct (F2 k Hk) as (A & B & _). auto.
    + intros _ k Hk. destruct (F2 k Hk) as (_ & _ & A). auto.
Qed.

(** what success of fit tells about the points *)
Lemma fit_needs s X shuf s' : shape s -> km_fit DBL_MAX shuf s X = Ok s' -> (forall l, Permutation l (shuf l)) ->
  cols X = D /\ (kmInit s = false -> (K <= rows X)%nat) /\ (kmInit s = true -> length (clusterIndices s) = rows X).
Proof.
  intros HS E Hsh. unfold km_fit in E. destruct (Nat.eqb_spec (cols X) (kmD s)) as [HX|]; [|easy]. cbn [check bind] in E.
  rewrite (sh_D _ HS) in HX. split; auto. apply bind_Ok in E as (s0 & E0 & E).
  destruct (Nat.eqb_spec (rows X) (length (clusterIndices s0))) as [HL|]; [|easy].
  split; intros Hi; rewrite Hi in E0.
  - clear E. unfold km_initialize in E0. rewrite (sh_new _ HS Hi) in E0.
    destruct (generateIndices_new (rows X) shuf Hsh) as (idx & Ei & P). rewrite Ei in E0. cbn [bind] in E0.
    apply bind_Ok in E0 as (C & E0 & _). rewrite (sh_K _ HS) in E0.
    destruct (le_lt_dec K (rows X)) as [|Hlt]; auto. exfalso.
    destruct (for_each_step _ _ _ _ E0 (rows X) Hlt) as (C1 & C2 & E1).
    apply bind_Ok in E1 as (i & E1 & _). apply vget_Some in E1.
    assert (length idx = rows X) by (rewrite (Permutation_length P); apply seq_length).
    assert (rows X < length idx)%nat by (apply nth_error_Some; congruence). lia.
  - injection E0 as <-. auto.
Qed.

Lemma fitted_inv s log first : (0 < K)%nat -> fitted s log first -> inv s log first.
Proof.
  intros HK H. induction H as [junkC junkV|s log first X shuf s' H IH Hsh E].
  - apply inv_new.
  - destruct (fit_needs s X shuf s' (i_shape _ _ _ IH) E Hsh) as (A & B & C).
    destruct (fit_ok s log first X shuf HK IH A Hsh B) as (s0 & s1 & _ & E1 & HI & _).
    { intros Hi. destruct (i_len _ _ _ IH Hi) as [<- _]. auto. }
    assert (s1 = s') by congruence. subst s1. exact HI.
Qed.

Lemma apply_ok s junk X : shape s -> cols X = D ->
  exists Y, km_apply junk s X = Ok Y /\ rows Y = rows X /\ cols Y = K /\
    forall n k, (n < rows X)%nat -> (k < K)%nat -> at_ Y n k = sqrt (sqDist D (at_ X n) (at_ (kmC s) k)).
Proof.
  intros [H1 H2 H3 H4 H5 H6] HX. unfold km_apply. rewrite H2.
  match goal with |- context [for_ (rows X) ?b ?s0] =>
    destruct (for_inv (fun m (Y : mat) => rows Y = rows X /\ cols Y = K /\
      forall n k, (n < m)%nat -> (k < K)%nat -> at_ Y n k = sqrt (sqDist D (at_ X n) (at_ (kmC s) k))) b (rows X) s0)
      as (Y & E & R & C & F) end.
  - cbn. split; auto. split; auto. intros; lia.
  - intros n Y Hn (R & C & F).
    match goal with |- context [for_ K ?b ?s0] =>
      destruct (for_inv (fun m (Y' : mat) => rows Y' = rows X /\ cols Y' = K /\
        (forall n' k, (n' < n)%nat -> (k < K)%nat -> at_ Y' n' k = at_ Y n' k) /\
        (forall k, (k < m)%nat -> at_ Y' n k = sqrt (sqDist D (at_ X n) (at_ (kmC s) k)))) b K s0) as (Y' & E & R' & C' & F1 & F2) end.
    + split; auto. split; auto. split; auto. intros; lia.
    + intros k Y' Hk (R' & C' & F1 & F2). rewrite (rowDistance_ok _ _ _ _ D) by (auto; lia). cbn [bind].
      rewrite mset_Ok by lia. eexists. split; [reflexivity|]. split; [exact R'|]. split; [exact C'|]. split.
      * intros n' k' Hn' Hk'. rewrite at_mupd_other by (left; lia). auto.
      * intros k' Hk'. destruct (Nat.eq_dec k' k) as [->|]; [now rewrite at_mupd_same|]. rewrite at_mupd_other by (right; lia).
        apply F2. lia.
    + exists Y'. split; auto. split; auto. split; auto. intros n' k Hn' Hk. destruct (Nat.eq_dec n' n) as [->|]; [now apply F2|].
      rewrite F1 by lia. apply F; lia.
  - exists Y. auto.
Qed.
End KM.
