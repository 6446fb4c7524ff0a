(** Properties of higher-order layers with TriangleConstraints (C62). *)
From Verif Require Import Base BaseFacts Matrix RSum MatOps Vec Deriv Activation_Model Activation_Proofs
  Layer_Model Layer_Spec Layer_Proofs SigmaPi_Model SigmaPi_Spec SigmaPi_Proofs SigmaPiPass_Proofs SigmaPiMove_Proofs
  SigmaPi_Props Triangle_Model Triangle_Spec Triangle_Proofs TriangleAngle_Proofs.
Local Open Scope R_scope.

(** the objects are new *)
Definition unused (objs : list triangle) : Prop := forall o, In o objs -> tpartition o = [].
(** there is a neuron and there are enough inputs for each neuron *)
Definition usableT (I : nat) (calls : list triCall) : Prop :=
  requestedT calls <> [] /\ forall d k, In (d, k) (requestedT calls) -> (d <= I)%nat.

Lemma unused_oinv objs : unused objs -> oinv objs.
Proof. intros H. apply Forall_forall. intros o Ho k. now rewrite (H o Ho). Qed.
Lemma usable_toCall I calls objs : usableT I calls -> usable I (map (toCall objs) calls).
Proof.
  intros (U1 & U2). split; rewrite requested_toCall.
  - intros E. apply map_eq_nil in E. auto.
  - intros d c Hin. apply in_map_iff in Hin. destruct Hin as ([d' k] & E & Hin). injection E as <- _. eauto.
Qed.
Lemma nth_toCall calls objs j d k : nth_error (requestedT calls) j = Some (d, k) ->
  nth_error (requested (map (toCall objs) calls)) j = Some (d, resolve objs k).
Proof. intros H. rewrite requested_toCall. now rewrite (map_nth_error (fun dk => (fst dk, resolve objs (snd dk))) _ _ H). Qed.
Lemma nth_toCall_inv calls objs j d c : nth_error (requested (map (toCall objs) calls)) j = Some (d, c) ->
  exists k, nth_error (requestedT calls) j = Some (d, k) /\ c = resolve objs k.
Proof.
  rewrite requested_toCall. intros H. destruct (nth_error (requestedT calls) j) as [[d' k]|] eqn:E.
  - rewrite (map_nth_error (fun dk => (fst dk, resolve objs (snd dk))) _ _ E) in H. injection H as <- <-. eauto.
  - apply nth_error_None in E. assert (j < length (map (fun dk => (fst dk, resolve objs (snd dk))) (requestedT calls)))%nat by (apply nth_error_Some; congruence).
    rewrite map_length in *. lia.
Qed.
Lemma length_toCall calls objs : length (requested (map (toCall objs) calls)) = length (requestedT calls).
Proof. rewrite requested_toCall. apply map_length. Qed.

(** the final number of a unit with a triangle constraint *)
Lemma constraint_value junk I act calls objs s0 objs' j m d pos :
  sp_buildT junk I false act calls objs = Ok (s0, objs') -> unused objs ->
  nth_error (requestedT calls) j = Some (d, Tri m) -> In pos (tuples d 0 I) ->
  exists o' r, nth_error objs' m = Some o' /\ lookup o' pos = Ok r.
Proof.
  intros E Hu Hj Hp. destruct (buildT_refines _ _ _ _ _ _ _ _ (unused_oinv _ Hu) E) as (_ & _ & E').
  unfold sp_build in E'. apply bind_Ok in E'. destruct E' as (s1 & E1 & E2).
  pose proof (new_build_inv junk I false act) as H0.
  pose proof (calls_defined (I + nbit false) false (sp_new junk I false act) _ _ s1 eq_refl H0 E1) as Hd.
  assert (Hin : In (d, Tri m) (requestedT calls)) by (eapply nth_error_In; eauto).
  unfold requestedT in Hin. apply in_flat_map in Hin. destruct Hin as (k & Hk & Hr).
  assert (Hn : (0 < tnumbers k)%nat) by (destruct (tnumbers k); [destruct Hr|lia]).
  apply repeat_spec in Hr. injection Hr as Ed Ek.
  destruct (Hd (toCall objs' k) (in_map _ _ _ Hk) Hn (fun pos => o <- vget objs' m ;; lookup o pos) pos) as (r & Er).
  - unfold toCall. cbn [cconstraint]. now rewrite <- Ek.
  - unfold toCall. cbn [corder nbit]. rewrite Nat.add_0_r, <- Ed. auto.
  - unfold vget in Er. destruct (nth_error objs' m) as [o'|]; [|discriminate]. cbn [bind] in Er. eauto.
Qed.

(** A layer with TriangleConstraints is a layer with certain stateless constraints, for which
    C59 and C60 hold.  (The layer can always be built: [C62_build].) *)
Theorem C62_stateless junk I act calls objs s0 objs' :
  sp_buildT junk I false act calls objs = Ok (s0, objs') -> unused objs -> usableT I calls ->
  exists calls', sp_build junk I false act calls' = Ok s0 /\ usable I calls' /\
    length (requested calls') = length (requestedT calls).
Proof.
  intros E Hu U. destruct (buildT_refines _ _ _ _ _ _ _ _ (unused_oinv _ Hu) E) as (_ & _ & E').
  exists (map (toCall objs') calls). split; auto. split; [now apply usable_toCall|apply length_toCall].
Qed.

(** Every output is the activation function of the weighted sum of products, and triples
    of positions whose triangles have the same angles (up to the resolution, in the same
    cyclic order) share a weight. *)
Theorem C62_output_partial junk I act calls objs s0 objs' :
  sp_buildT junk I false act calls objs = Ok (s0, objs') -> unused objs -> usableT I calls ->
  exists wi, triangles_assigned I (requestedT calls) objs wi (paramCount (sp_class junk) s0) /\
  forall s p X dropout, history (sp_class junk) I (length (requestedT calls)) s0 s ->
  length p = paramCount (sp_class junk) s0 -> cols X = I ->
  exists q q1 Y, install (sp_class junk) s p = Ok q /\ forwardPropagate (sp_class junk) q X dropout = Ok (q1, Y, 0) /\
    rows Y = rows X /\ cols Y = length (requestedT calls) /\
    forall n j d k, (n < rows X)%nat -> nth_error (requestedT calls) j = Some (d, k) ->
      at_ Y n j = act_fun act (higherOrderSum I d (fun pos => p.[wi j pos]) X n).
Proof.
  intros E Hu U. destruct (buildT_refines _ _ _ _ _ _ _ _ (unused_oinv _ Hu) E) as (Hc & Hx & E').
  destruct (C59_output_partial junk I act _ s0 E' (usable_toCall _ _ _ U)) as (wi & Hwi & HO).
  rewrite length_toCall in HO. exists wi. split.
  - constructor.
    + intros j d k pos Hj. eapply (wa_range _ _ _ _ Hwi), nth_toCall; eauto.
    + intros i Hi. destruct (wa_used _ _ _ _ Hwi i Hi) as (j & d & c & pos & Hj & Hp & Ew).
      destruct (nth_toCall_inv _ _ _ _ _ Hj) as (k & Hk & _). eauto 8.
    + intros j d k pos j' d' k' pos' Hj Hp Hj' Hp'. eapply (wa_neurons _ _ _ _ Hwi); eauto using nth_toCall.
    + intros j d pos pos' Hj. eapply (wa_free _ _ _ _ Hwi). apply (nth_toCall _ objs' _ _ _ Hj).
    + intros j d f pos pos' r r' Hj. eapply (wa_shared _ _ _ _ Hwi). apply (nth_toCall _ objs' _ _ _ Hj).
    + intros j m d o pos pos' a b Hj Ho Hp Hp' Ha Hb Hs.
      destruct (constraint_value _ _ _ _ _ _ _ _ _ _ _ E Hu Hj Hp) as (o' & r & Em & Er).
      destruct (constraint_value _ _ _ _ _ _ _ _ _ _ _ E Hu Hj Hp') as (o'' & r' & Em' & Er').
      assert (o'' = o') by congruence. subst o''.
      destruct (extends_nth _ _ _ _ Hx Ho) as (o'' & Em'' & (W & Rs & _)). assert (o'' = o') by congruence. subst o''.
      assert (Cl : closed (tpartition o')). { apply (proj1 (Forall_forall _ _) Hc). eapply nth_error_In; eauto. }
      assert (r = r').
      { destruct pos as [|p1 [|p2 [|p3 [|? ?]]]]; try discriminate. destruct pos' as [|q1 [|q2 [|q3 [|? ?]]]]; try discriminate.
        cbn [lookup anglesOf] in *. rewrite W, Rs in *. injection Ha as <-. injection Hb as <-.
        rewrite (closed_same _ _ _ Cl Hs) in Er'. congruence. }
      subst r'. apply (wa_shared _ _ _ _ Hwi j d (fun pos => o <- vget objs' m ;; lookup o pos) pos pos' r r); auto.
      * apply (nth_toCall _ objs' _ _ _ Hj).
      * unfold vget. rewrite Em. exact Er.
      * unfold vget. rewrite Em. exact Er'.
  - intros s p X dropout Hh Hp HX. destruct (HO s p X dropout Hh Hp HX) as (q & q1 & Y & E1 & E2 & R1 & C1 & V).
    exists q, q1, Y. split; auto. split; auto. split; auto. split; auto. intros n j d k Hn Hj. eapply V; eauto. apply (nth_toCall _ objs' _ _ _ Hj).
Qed.
Print Assumptions C62_output_partial.

(** Layers with TriangleConstraints for neurons of order 3 can be built. *)
Theorem C62_build junk I act calls objs : unused objs ->
  (forall d f, In (d, Pure (Some f)) (requestedT calls) -> forall pos, In pos (tuples d 0 I) -> exists r, f pos = Ok r) ->
  (forall d m, In (d, Tri m) (requestedT calls) -> d = 3%nat /\ exists o, nth_error objs m = Some o /\ twidth o <> 0%nat) ->
  exists s objs', sp_buildT junk I false act calls objs = Ok (s, objs').
Proof.
  intros Hu Hp Ht. apply buildT_succeeds; [now apply unused_oinv|]. intros k Hk Hn. cbn [nbit]. rewrite Nat.add_0_r.
  assert (Hin : In (degree (torder k), tkind k) (requestedT calls)).
  { unfold requestedT. apply in_flat_map. exists k. split; auto. destruct (tnumbers k); [lia|now left]. }
  destruct (tkind k) as [c|m]; cbn [ready_kind]; [|eauto]. intros f pos -> Hpos. eauto.
Qed.

(** A neuron of order 3 with a TriangleConstraint has the same output for an image and the
    same image moved anywhere, also with the distances between its pixels multiplied by any
    positive integer. *)
Theorem C62_translation_scale_partial junk W H act calls objs s0 objs' j m o :
  sp_buildT junk (W * H) false act calls objs = Ok (s0, objs') -> unused objs -> usableT (W * H) calls ->
  nth_error (requestedT calls) j = Some (3%nat, Tri m) -> nth_error objs m = Some o -> twidth o = W ->
  forall s p X dropout n n' z dx dy q q1 Y r, (1 <= z)%Z -> history (sp_class junk) (W * H) (length (requestedT calls)) s0 s ->
  length p = paramCount (sp_class junk) s0 -> cols X = (W * H)%nat -> (n < rows X)%nat -> (n' < rows X)%nat ->
  spread W H z dx dy X n X n' ->
  install (sp_class junk) s p = Ok q -> forwardPropagate (sp_class junk) q X dropout = Ok (q1, Y, r) ->
  at_ Y n j = at_ Y n' j.
Proof.
  intros E Hu U Hj Ho HW s p X dropout n n' z dx dy q q1 Y r Hz Hh Hp HX Hn Hn' Hs Eq E1.
  destruct (C62_output_partial junk (W * H) act calls objs s0 objs' E Hu U) as (wi & Hwi & HO).
  destruct (HO s p X dropout Hh Hp HX) as (q' & q1' & Y' & Eq' & E1' & _ & _ & V).
  assert (q' = q) by congruence. subst q'. rewrite E1 in E1'. injection E1' as <- <- _.
  rewrite !(V _ j 3%nat (Tri m)) by auto. f_equal. apply (spread_sum W H z dx dy Hz); auto.
  intros t Ht Hot. f_equal.
  assert (Ht' : In (map (mv W z dx dy) t) (tuples 3 0 (W * H))).
  { apply tuples_In in Ht. destruct Ht as (L & Hi). apply tuples_In. split; [now rewrite map_length|].
    apply (move_increasing W H z dx dy Hz t 0); auto. intros; lia. }
  pose proof Ht as Ht0. apply tuples_In in Ht0. destruct Ht0 as (L & Hi). destruct t as [|a [|b [|c [|? ?]]]]; try discriminate.
  inversion_clear Hot as [|? ? Ha Hot']. inversion_clear Hot' as [|? ? Hb Hot'']. inversion_clear Hot'' as [|? ? Hc _].
  eapply (ta_triangle _ _ _ _ _ Hwi j m 3 o (map (mv W z dx dy) [a; b; c]) [a; b; c]); eauto.
  - reflexivity.
  - reflexivity.
  - apply same_rot. left. rewrite HW. symmetry. apply (triangleKey_move W H); auto.
Qed.
Print Assumptions C62_translation_scale_partial.

(** * Counterexamples with images of 3 x 3 pixels and the default resolution *)

Definition keyOf (w : nat) (resolution : R) (pos : list nat) : key :=
  match pos with [a; b; c] => triangleKey w resolution a b c | _ => (0, 0, 0)%Z end.
Definition ikeyOf (w : nat) (pos : list nat) : key :=
  match pos with [a; b; c] => ikey w a b c | _ => (0, 0, 0)%Z end.

Lemma run_partition w resolution ps : forall part st st' objs', 
  for_each ps (addUnitT (Tri 0)) (st, [mkTri w resolution part]) = Ok (st', objs') ->
  objs' = [mkTri w resolution (fold_left (fun p pos => snd (classify p (keyOf w resolution pos))) ps part)].
Proof.
  induction ps as [|pos ps IH]; intros part st st' objs' E; cbn [for_each fold_left] in *.
  - congruence.
  - apply bind_Ok in E. destruct E as ([st1 o1] & E1 & E2).
    assert (O : o1 = [mkTri w resolution (snd (classify part (keyOf w resolution pos)))]).
    { destruct st as [[wt wd] n]. cbn [addUnitT vget nth_error bind] in E1. apply bind_Ok in E1. destruct E1 as ([ref o'] & T & E1).
      destruct pos as [|a [|b [|c [|? ?]]]]; try discriminate. cbn [tri_call twidth tresolution tpartition keyOf] in *.
      destruct (_ || _)%bool in T; [discriminate|]. destruct (classify part _) as [v pp]. injection T as <- <-.
      cbn [vset length Nat.ltb Nat.leb upd bind] in E1. apply bind_Ok in E1. destruct E1 as (f & _ & E1). cbn [snd]. destruct f; congruence. }
    subst o1. now apply IH in E2.
Qed.

Definition threeByThree : list triCall := [mkTCall Third 1 (Tri 0)].
Definition objects : list triangle := [newTriangle 3 (PI / 4)].

Lemma example_built junk act : exists s0 objs', sp_buildT junk 9 false act threeByThree objects = Ok (s0, objs') /\
  unused objects /\ usableT 9 threeByThree /\
  objs' = [mkTri 3 (PI / 4) (fold_left (fun p pos => snd (classify p (ikeyOf 3 pos))) (tuples 3 0 9) [])].
Proof.
  assert (Hu : unused objects) by (intros o [<-|[]]; reflexivity).
  destruct (C62_build junk 9 act threeByThree objects Hu) as (s0 & objs' & E).
  - intros d f [X|[]]. discriminate.
  - intros d m [X|[]]. injection X as <- <-. split; auto. exists (newTriangle 3 (PI / 4)). split; auto. discriminate.
  - exists s0, objs'. split; auto. split; auto. split.
    + split; [discriminate|]. intros d k [X|[]]. injection X as <- _. lia.
    + unfold sp_buildT in E. apply bind_Ok in E. destruct E as ([s1 o1] & E1 & E). apply bind_Ok in E. destruct E as (s2 & _ & E).
      injection E as _ <-. unfold threeByThree in E1. cbn [for_each] in E1. apply bind_Ok in E1. destruct E1 as ([s3 o3] & E1 & E2).
      injection E2 as -> ->. unfold addNodesT in E1. cbn [torder tnumbers tkind] in E1. unfold thirdOrderNodesT, nodesT, for_ in E1.
      cbn [for_from fst] in E1. apply bind_Ok in E1. destruct E1 as ([s4 o4] & E1 & E2). injection E2 as -> ->.
      cbn [addNeuronT] in E1. apply bind_Ok in E1. destruct E1 as ([[[w wd] n] o5] & E1 & E2). injection E2 as _ ->.
      unfold objects, newTriangle in E1. apply run_partition in E1. rewrite E1. f_equal. f_equal.
      cbn [sp_new spI spbias nbit]. rewrite positions3_ok.
      assert (G : forall l, (forall pos, In pos l -> In pos (tuples 3 0 9)) -> forall part,
        fold_left (fun p pos => snd (classify p (keyOf 3 (PI / 4) pos))) l part =
        fold_left (fun p pos => snd (classify p (ikeyOf 3 pos))) l part).
      { induction l as [|pos l IH]; intros Hl part; cbn [fold_left]; auto. rewrite IH by (intros; apply Hl; now right). f_equal. f_equal. f_equal.
        pose proof (Hl pos (or_introl eq_refl)) as Hp. apply tuples_In in Hp. destruct Hp as (L & Hi).
        destruct pos as [|a [|b [|c [|? ?]]]]; try discriminate. cbn in Hi. apply triangleKey_quarter; lia. }
      apply G. auto.
Qed.

Lemma example_lookup objs' a b c : objs' = [mkTri 3 (PI / 4) (fold_left (fun p pos => snd (classify p (ikeyOf 3 pos))) (tuples 3 0 9) [])] ->
  (a < b < c)%nat -> (c < 9)%nat ->
  (o <- vget objs' 0 ;; lookup o [a; b; c]) =
  match mfind (fold_left (fun p pos => snd (classify p (ikeyOf 3 pos))) (tuples 3 0 9) []) (ikey 3 a b c) with
  | Some v => Ok (INR v) | None => UB end.
Proof.
  intros -> H1 H2. cbn [vget nth_error bind]. unfold lookup. cbn [tpartition twidth tresolution].
  rewrite triangleKey_quarter by lia. reflexivity.
Qed.

Definition indicator (l : list nat) (i : nat) : R := if existsb (Nat.eqb i) l then 1 else 0.
Definition twoImages (a b : list nat) : mat := mkMat 2 9 (fun n i => if Nat.eqb n 0 then indicator a i else indicator b i).

(** Two kinds of triangles that do not have the same angles - one with angles of 53, 63 and
    63 degrees, one with angles of 37, 72 and 72 degrees - share a weight: whatever the
    parameters are, the layer cannot distinguish them.  The reason is that the class with
    three equal rounded angles adds only one entry to the map, but the number of a new class
    is a third of the number of entries. *)
Theorem C62_distinct_angles_refuted junk act : exists s0 objs',
  sp_buildT junk 9 false act threeByThree objects = Ok (s0, objs') /\ unused objects /\ usableT 9 threeByThree /\
  (exists a b, anglesOf (newTriangle 3 (PI / 4)) [0; 2; 7]%nat = Some a /\
               anglesOf (newTriangle 3 (PI / 4)) [0; 5; 7]%nat = Some b /\ ~ sameAngles a b) /\
  forall p, length p = paramCount (sp_class junk) s0 -> exists q q1 Y,
    install (sp_class junk) s0 p = Ok q /\
    forwardPropagate (sp_class junk) q (twoImages [0; 2; 7]%nat [0; 5; 7]%nat) false = Ok (q1, Y, 0) /\ at_ Y 0 0 = at_ Y 1 0.
Proof.
  destruct (example_built junk act) as (s0 & objs' & E & Hu & U & O). exists s0, objs'. split; auto. split; auto. split; auto. split.
  - eexists. eexists. split; [reflexivity|]. split; [reflexivity|]. cbn [newTriangle twidth tresolution].
    rewrite !triangleKey_quarter by lia. vm_compute. intros [X|[X|X]]; discriminate.
  - intros p Hp. destruct (buildT_refines _ _ _ _ _ _ _ _ (unused_oinv _ Hu) E) as (_ & _ & E').
    destruct (C59_output_partial junk 9 act _ s0 E' (usable_toCall _ _ _ U)) as (wi & Hwi & HO).
    destruct (HO s0 p (twoImages [0; 2; 7]%nat [0; 5; 7]%nat) false (h_new _ _ _ _) Hp eq_refl) as (q & q1 & Y & E1 & E2 & _ & _ & V).
    exists q, q1, Y. split; auto. split; auto.
    rewrite !(V _ 0%nat 3%nat (resolve objs' (Tri 0))) by (try reflexivity; cbn; lia). f_equal.
    assert (S : wi 0%nat [0; 2; 7]%nat = wi 0%nat [0; 5; 7]%nat).
    { apply (wa_shared _ _ _ _ Hwi 0 3 (fun pos => o <- vget objs' 0 ;; lookup o pos) [0; 2; 7]%nat [0; 5; 7]%nat (INR 5) (INR 5)); auto;
        try (apply tuples_In; cbn; lia); rewrite (example_lookup objs') by (auto; lia); vm_compute mfind; reflexivity. }
    transitivity (p.[wi 0%nat [0; 2; 7]%nat]); [|rewrite S]; unfold higherOrderSum, lsum, monomial; cbn; ring.
Qed.
Print Assumptions C62_distinct_angles_refuted.

(** A quarter turn of the image can change the output: the layer is not invariant under
    rotation, although the angles are.  The reason is that the two orders in which the
    corners of a triangle can be visited are told apart, but the constraint does not always
    visit the corners of the turned triangle in the same order. *)
Theorem C62_rotation_refuted junk : exists s0 objs' p q q1 Y,
  sp_buildT junk 9 false LINEAR threeByThree objects = Ok (s0, objs') /\ unused objects /\ usableT 9 threeByThree /\
  length p = paramCount (sp_class junk) s0 /\
  let X := twoImages [0; 1; 8]%nat [2; 5; 6]%nat in
  quarterTurn 3 X 0 X 1 /\
  install (sp_class junk) s0 p = Ok q /\ forwardPropagate (sp_class junk) q X false = Ok (q1, Y, 0) /\ at_ Y 0 0 <> at_ Y 1 0.
Proof.
  destruct (example_built junk LINEAR) as (s0 & objs' & E & Hu & U & O).
  destruct (buildT_refines _ _ _ _ _ _ _ _ (unused_oinv _ Hu) E) as (_ & _ & E').
  destruct (C59_output_partial junk 9 LINEAR _ s0 E' (usable_toCall _ _ _ U)) as (wi & Hwi & HO).
  set (K := paramCount (sp_class junk) s0) in *.
  set (a := wi 0%nat [0; 1; 8]%nat). set (b := wi 0%nat [2; 5; 6]%nat).
  assert (Ha : (a < K)%nat) by (apply (wa_range _ _ _ _ Hwi 0 3 (resolve objs' (Tri 0))); auto; apply tuples_In; cbn; lia).
  assert (Hb : (b < K)%nat) by (apply (wa_range _ _ _ _ Hwi 0 3 (resolve objs' (Tri 0))); auto; apply tuples_In; cbn; lia).
  assert (Hab : a <> b).
  { intros Eab.
    assert (C : Rabs (INR 3 - INR 4) < 0.002).
    { apply (wa_shared _ _ _ _ Hwi 0 3 (fun pos => o <- vget objs' 0 ;; lookup o pos) [0; 1; 8]%nat [2; 5; 6]%nat (INR 3) (INR 4)); auto;
        try (apply tuples_In; cbn; lia); rewrite (example_lookup objs') by (auto; lia); vm_compute mfind; reflexivity. }
    cbn in C. unfold Rabs in C. destruct (Rcase_abs _) in C; lra. }
  set (p := upd (repeat 0 K) a 1).
  assert (Hp : length p = K) by (unfold p; now rewrite upd_length, repeat_length).
  destruct (HO s0 p (twoImages [0; 1; 8]%nat [2; 5; 6]%nat) false (h_new _ _ _ _) Hp eq_refl) as (q & q1 & Y & E1 & E2 & _ & _ & V).
  exists s0, objs', p, q, q1, Y. split; auto. split; auto. split; auto. split; auto. split.
  - intros x y O'. destruct (image3 x y O') as ([-> | [-> | ->]] & [-> | [-> | ->]]); reflexivity.
  - split; auto. split; auto. rewrite !(V _ 0%nat 3%nat (resolve objs' (Tri 0))) by (try reflexivity; cbn; lia). cbn [act_fun].
    assert (A1 : higherOrderSum 9 3 (fun pos => p.[wi 0%nat pos]) (twoImages [0; 1; 8]%nat [2; 5; 6]%nat) 0 = p.[a]).
    { unfold higherOrderSum, lsum, monomial, a; cbn; ring. }
    assert (B1 : higherOrderSum 9 3 (fun pos => p.[wi 0%nat pos]) (twoImages [0; 1; 8]%nat [2; 5; 6]%nat) 1 = p.[b]).
    { unfold higherOrderSum, lsum, monomial, b; cbn; ring. }
    rewrite A1, B1. unfold p. rewrite !nth_upd by (rewrite repeat_length; auto). rewrite Nat.eqb_refl.
    destruct (Nat.eqb_spec a b); [congruence|]. rewrite nth_repeat. lra.
Qed.
Print Assumptions C62_rotation_refuted.
