(** Proofs about Owner_Model. *)
From Coq Require Import Lia Permutation.
From Verif Require Import Base BaseFacts Evaluation_Model Ask_Model Ask_Spec Ask_Proofs Owner_Model Owner_Spec.
Local Open Scope nat_scope.

(** ** the blocks of the objects *)
Notation cnt l x := (count_occ Nat.eq_dec l x).
Definition oB {A} (f : A -> list nat) (o : option A) : list nat := match o with Some a => f a | None => [] end.
Definition B {A} (f : A -> list nat) (l : list (option A)) : list nat := flat_map (oB f) l.
Definition nb (n : netObject) : list nat := layers n ++ if deleteTrainSet n then olist (trainSet n) else [].
Definition sb (d : streamObject) : list nat := olist (cache d).
Definition one (p : nat) : list nat := [p].

Lemma B_upd {A} (f : A -> list nat) l i o o' x : nth_error l i = Some o ->
  cnt (B f (upd l i o')) x + cnt (oB f o) x = cnt (B f l) x + cnt (oB f o') x.
Proof.
  revert i. induction l as [|b l IH]; intros [|i]; cbn; try discriminate.
  - intros E. injection E as ->. rewrite !count_occ_app. lia.
  - intros E. specialize (IH i E). unfold B in IH. rewrite !count_occ_app. lia.
Qed.
Lemma B_snoc {A} (f : A -> list nat) l o x : cnt (B f (l ++ [o])) x = cnt (B f l) x + cnt (oB f o) x.
Proof. unfold B. rewrite flat_map_app, count_occ_app. cbn. now rewrite app_nil_r. Qed.
Lemma B_in {A} (f : A -> list nat) l i a p : nth_error l i = Some (Some a) -> In p (f a) -> In p (B f l).
Proof. intros E J. unfold B. apply in_flat_map. exists (Some a). split; auto. now apply nth_error_In in E. Qed.
Lemma B_none {A} (f : A -> list nat) l : (forall i a, nth_error l i <> Some (Some a)) -> B f l = [].
Proof.
  induction l as [|[a|] l IH]; intros H; cbn; auto.
  - exfalso. now apply (H 0 a).
  - apply IH. intros i a. apply (H (S i)).
Qed.

Lemma heapOk_cnt h O O' : heapOk h O -> (forall x, cnt O x = cnt O' x) -> heapOk h O'.
Proof.
  intros K E. assert (P : Permutation O O') by now apply (Permutation_count_occ Nat.eq_dec).
  apply (heapOk_ext _ _ _ K).
  - apply (Permutation_NoDup P), (H_nodup _ _ K).
  - intros p. split; apply Permutation_in; auto. now apply Permutation_sym.
Qed.
Lemma free_all l : forall h rest, heapOk h (l ++ rest) -> exists h', for_each l free h = Ok h' /\ heapOk h' rest.
Proof.
  induction l as [|p l IH]; cbn [for_each app]; intros h rest K; [eauto|].
  destruct (free_opt_ok h [] (Some p) (l ++ rest) K) as (h1 & E & K1). cbn [free_opt app] in E, K1. rewrite E. cbn [bind]. now apply IH.
Qed.
Lemma deleteOwnSet_ok n h rest : heapOk h ((if deleteTrainSet n then olist (trainSet n) else []) ++ rest) ->
  exists h', deleteOwnSet n h = Ok h' /\ heapOk h' rest.
Proof. unfold deleteOwnSet. destruct (deleteTrainSet n); [apply (free_opt_ok h [])|]. eauto. Qed.
Lemma alloc_ok h O : heapOk h O -> heapOk (h ++ [New (length h)]) (length h :: O).
Proof. intros K. apply (heapOk_alloc h O K). Qed.
Lemma access_ok h O p : heapOk h O -> In p O -> access p h = Ok tt.
Proof. intros K J. unfold access. now rewrite (proj2 (heapOk_alive _ _ _ K) J). Qed.
Lemma access_all l h : (forall p, In p l -> access p h = Ok tt) -> for_each l (fun p _ => access p h) tt = Ok tt.
Proof. induction l as [|p l IH]; cbn [for_each]; intros H; auto. rewrite (H p (or_introl eq_refl)). cbn [bind]. apply IH. intros q J. apply H. now right. Qed.

Lemma object_ok {A} (l : list (option A)) i a : object l i = Ok a <-> nth_error l i = Some (Some a).
Proof. unfold object. destruct (nth_error l i) as [[b|]|]; split; try discriminate; intros E; injection E as ->; auto. Qed.

(** ** facts about histories *)
Ltac hist := unfold netExists, streamExists, mine, countNets, countStreams, countLayers in *; cbn [filter length In] in *.
Lemma in_cons_other {A} (x a : A) l : a <> x -> (In x (a :: l) <-> In x l). Proof. cbn. intuition congruence. Qed.

Lemma early h : permitted h ->
  (forall i, In (DestroyNet i) h -> i < countNets h) /\ (forall s, In (DestroyStream s) h -> s < countStreams h) /\
  (forall k, In (DeleteLayer k) h -> k < countLayers h) /\ (forall i k, In (AddLayer i k) h -> k < countLayers h /\ i < countNets h) /\
  (forall s, countStreams h <= s -> learnerOf h s = None /\ feeds h s = None) /\
  (forall i, countNets h <= i -> source h i = None) /\
  (forall i s, source h i = Some s -> s < countStreams h /\ feeds h s = Some i).
Proof.
  induction h as [|a h IH]; cbn [permitted].
  - intros _. cbn. repeat split; intros; auto; try contradiction; discriminate.
  - intros (P & Al). destruct (IH P) as (H1 & H2 & H3 & H4 & H5 & H6 & H7).
    assert (CN : countNets h <= countNets (a :: h)) by (hist; destruct a; cbn; lia).
    assert (CS : countStreams h <= countStreams (a :: h)) by (hist; destruct a; cbn; lia).
    assert (CL : countLayers h <= countLayers (a :: h)) by (hist; destruct a; cbn; lia).
    repeat match goal with |- _ /\ _ => split end.
    + intros i [E|J]; [subst a; cbn in Al; unfold netExists in Al; lia|]. specialize (H1 i J). lia.
    + intros i [E|J]; [subst a; cbn in Al; unfold streamExists in Al; lia|]. specialize (H2 i J). lia.
    + intros i [E|J]; [subst a; cbn in Al; unfold mine in Al; lia|]. specialize (H3 i J). lia.
    + intros i k [E|J]; [subst a; cbn in Al; unfold mine, netExists in Al; lia|]. specialize (H4 i k J). lia.
    + intros s Hs. assert (Hs' : countStreams h <= s) by lia. destruct (H5 s Hs') as (A1 & A2). destruct a; cbn [learnerOf feeds]; auto.
      * destruct (Nat.eqb_spec s s0) as [->|]; [|auto]. cbn in Al. unfold streamExists in Al. lia.
      * rewrite A2. destruct (Nat.eqb_spec s s0) as [->|]; [|auto]. cbn in Al. unfold streamExists in Al. lia.
    + intros i Hi. assert (Hi' : countNets h <= i) by lia. specialize (H6 i Hi'). destruct a; cbn [source]; auto.
      * now destruct (Nat.eqb i i0).
      * now destruct (Nat.eqb i i0).
      * cbn in Al. destruct (feeds h s); auto. destruct Al as (_ & j & -> & (Al & _)). destruct (Nat.eqb_spec i j); [lia|auto].
    + intros i s. destruct a; cbn [source feeds]; intros E; try (destruct (H7 _ _ E); split; [lia|assumption]).
      * destruct (Nat.eqb i i0); [discriminate|]. destruct (H7 _ _ E). split; [lia|assumption].
      * destruct (Nat.eqb i i0); [discriminate|]. destruct (H7 _ _ E). split; [lia|assumption].
      * cbn in Al. destruct (feeds h s0) as [j|] eqn:F.
        { destruct (H7 _ _ E) as (A1 & A2). rewrite A2. split; [lia|auto]. }
        destruct Al as ((Al & _) & j & L & _). rewrite L in E. destruct (Nat.eqb_spec i j) as [<-|].
        -- injection E as <-. rewrite F, Nat.eqb_refl. split; [lia|auto].
        -- destruct (H7 _ _ E) as (A1 & A2). rewrite A2. split; [lia|auto].
Qed.

(** ** the invariant *)
Definition trainOk (h : list action) (ss : list (option streamObject)) (i : nat) (n : netObject) : Prop :=
  if deleteTrainSet n then source h i = None
  else match trainSet n with
       | None => source h i = None
       | Some p => exists s, source h i = Some s /\ forall d, nth_error ss s = Some (Some d) -> cache d = Some p
       end.
Definition streamOk (h : list action) (s : nat) (d : streamObject) : Prop :=
  learner d = learnerOf h s /\ optimizable d = feeds h s /\ (cache d = None <-> feeds h s = None).
Definition tracks {A} (ex : nat -> Prop) (c : nat) (l : list (option A)) : Prop :=
  length l = c /\ forall i, ex i <-> exists a, nth_error l i = Some (Some a).
Record Inv (h : list action) (g : program) (us : list (option nat)) (leak : list nat) : Prop := {
  I_nets : tracks (netExists h) (countNets h) (nets g);
  I_streams : tracks (streamExists h) (countStreams h) (streams g);
  I_users : tracks (mine h) (countLayers h) us;
  I_lengths : length (pointers g) = length us;
  I_pointers : forall k p, nth_error us k = Some (Some p) -> nth_error (pointers g) k = Some p;
  I_heap : heapOk (Owner_Model.heap g) (B nb (nets g) ++ B sb (streams g) ++ B one us ++ leak);
  I_leak : length leak = exceptions h;
  I_train : forall i n, nth_error (nets g) i = Some (Some n) -> trainOk h (streams g) i n;
  I_stream : forall s d, nth_error (streams g) s = Some (Some d) -> streamOk h s d }.

Lemma tracks_ext {A} (ex ex' : nat -> Prop) c (l : list (option A)) : (forall i, ex i <-> ex' i) -> tracks ex c l -> tracks ex' c l.
Proof. intros E (L & T). split; auto. intros i. rewrite <- E. apply T. Qed.
Lemma tracks_upd {A} (ex : nat -> Prop) c (l : list (option A)) i a : ex i -> tracks ex c l -> tracks ex c (upd l i (Some a)).
Proof.
  intros X (L & T). split; [now rewrite upd_length|]. intros j. rewrite nth_error_upd.
  destruct (proj1 (T i) X) as (b & Eb). assert (Lt : i < length l) by (apply nth_error_Some; congruence).
  destruct (Nat.eqb_spec i j) as [->|N].
  - assert (Lb : (j <? length l) = true) by now apply Nat.ltb_lt.
    rewrite ?Lb. split; eauto.
  - apply T.
Qed.
Lemma tracks_del {A} (ex ex' : nat -> Prop) c (l : list (option A)) i : (forall j, ex' j <-> ex j /\ j <> i) -> tracks ex c l -> tracks ex' c (upd l i None).
Proof.
  intros X (L & T). split; [now rewrite upd_length|]. intros j. rewrite nth_error_upd, X, T. destruct (Nat.eqb_spec i j) as [->|N].
  - split; [intros (_ & N); congruence|]. intros (a & E). destruct (Nat.ltb j (length l)); discriminate.
  - split; [intros (? & _); auto|]. auto.
Qed.
Lemma tracks_snoc {A} (ex ex' : nat -> Prop) c (l : list (option A)) a : (forall j, ex' j <-> ex j \/ j = c) -> tracks ex c l -> tracks ex' (S c) (l ++ [Some a]).
Proof.
  intros X (L & T). split; [rewrite app_length; cbn; lia|]. intros j. rewrite X, T. destruct (lt_eq_lt_dec j (length l)) as [[Lt|E]|Gt].
  - rewrite nth_error_app1 by auto. split; [intros [H|H]; auto; lia|auto].
  - rewrite nth_error_app2 by lia. replace (j - length l) with 0 by lia. cbn. split; eauto. intros _. right. lia.
  - rewrite nth_error_app2 by lia. destruct (j - length l) as [|[|m]] eqn:D; [lia| |]; cbn.
    + split; [intros [(b & H)|H]; [assert (j < length l) by (apply nth_error_Some; congruence)|]; lia|intros (b & H); discriminate].
    + split; [intros [(b & H)|H]; [assert (j < length l) by (apply nth_error_Some; congruence)|]; lia|intros (b & H); discriminate].
Qed.

Lemma upd_some {A} (l : list (option A)) i o j a : nth_error (upd l i o) j = Some (Some a) -> (i = j /\ o = Some a) \/ (i <> j /\ nth_error l j = Some (Some a)).
Proof. rewrite nth_error_upd. destruct (Nat.eqb_spec i j); [|auto]. destruct (Nat.ltb i (length l)); [|discriminate]. intros E. injection E as ->. auto. Qed.
Lemma snoc_some {A} (l : list (option A)) o j a : nth_error (l ++ [o]) j = Some (Some a) -> (j = length l /\ o = Some a) \/ nth_error l j = Some (Some a).
Proof.
  intros E. destruct (Nat.lt_ge_cases j (length l)) as [Lt|Ge]; [rewrite nth_error_app1 in E by auto; auto|]. rewrite nth_error_app2 in E by auto.
  left. destruct (j - length l) as [|m] eqn:D; [|destruct m; discriminate]. cbn in E. injection E as ->. split; [lia|auto].
Qed.

(** the network can be used *)
Lemma useNet_ok h g us leak i n hp O : permitted h -> Inv h g us leak -> nth_error (nets g) i = Some (Some n) ->
  (forall s, source h i = Some s -> streamExists h s) -> heapOk hp O -> (forall p, In p (B nb (nets g) ++ B sb (streams g)) -> In p O) -> useNet n hp = Ok tt.
Proof.
  intros P K E Hs KO Sub. unfold useNet. rewrite access_all.
  2:{ intros p J. apply (access_ok _ _ _ KO), Sub, in_or_app. left. apply (B_in _ _ _ _ _ E). unfold nb. apply in_or_app. auto. }
  cbn [bind]. pose proof (I_train _ _ _ _ K i n E) as T. unfold trainOk in T. destruct (trainSet n) as [p|] eqn:Et; [|reflexivity]. cbn [access_opt].
  apply (access_ok _ _ _ KO), Sub, in_or_app. destruct (deleteTrainSet n) eqn:D1.
  - left. apply (B_in _ _ _ _ _ E). unfold nb. rewrite D1, Et. apply in_or_app. right. now left.
  - destruct T as (s & T1 & T2). destruct (proj1 (proj2 (I_streams _ _ _ _ K) s) (Hs s T1)) as (d & Ed). right. apply (B_in _ _ _ _ _ Ed). unfold sb. rewrite (T2 d Ed). now left.
Qed.

Definition netAction (a : action) : bool := match a with CreateNet | DestroyNet _ => true | _ => false end.
Definition streamAction (a : action) : bool := match a with CreateStream _ | DestroyStream _ => true | _ => false end.
Definition layerAction (a : action) : bool := match a with NewLayer | DeleteLayer _ | AddLayer _ _ => true | _ => false end.
Lemma net_same a h : netAction a = false -> (forall i, netExists h i <-> netExists (a :: h) i) /\ countNets (a :: h) = countNets h.
Proof. intros N. unfold netExists, countNets. destruct a; try discriminate; cbn [filter In]; (split; [|reflexivity]); intros j; intuition discriminate. Qed.
Lemma stream_same a h : streamAction a = false -> (forall i, streamExists h i <-> streamExists (a :: h) i) /\ countStreams (a :: h) = countStreams h.
Proof. intros N. unfold streamExists, countStreams. destruct a; try discriminate; cbn [filter In]; (split; [|reflexivity]); intros j; intuition discriminate. Qed.
Lemma mine_same a h : layerAction a = false -> (forall k, mine h k <-> mine (a :: h) k) /\ countLayers (a :: h) = countLayers h.
Proof.
  intros N. unfold mine, countLayers. destruct a; try discriminate; cbn [filter In]; (split; [|reflexivity]); intros j;
  (split; intros (A1 & A2 & A3); (split; [assumption|split; [intros [?|?]; [discriminate|auto] || (intros ?; apply A2; auto)|]]));
  try (intros l [?|?]; [discriminate|eapply A3; eauto]); try (intros l ?; eapply A3; eauto).
Qed.
Lemma net_create h : permitted h -> forall j, netExists (CreateNet :: h) j <-> netExists h j \/ j = countNets h.
Proof.
  intros P j. pose proof (proj1 (early h P)) as E. unfold netExists, countNets in *. cbn [filter In length] in *. split.
  - intros (A1 & A2). destruct (Nat.eq_dec j (length (filter (fun a => match a with CreateNet => true | _ => false end) h))); auto. left. split; [lia|auto].
  - intros [(A1 & A2)| ->]; (split; [lia|]); (intros [?|J]; [discriminate|]); auto. specialize (E _ J). lia.
Qed.
Lemma net_destroy h i : forall j, netExists (DestroyNet i :: h) j <-> netExists h j /\ j <> i.
Proof. intros j. unfold netExists, countNets. cbn [filter In]. intuition congruence. Qed.
Lemma stream_create h c : permitted h -> forall j, streamExists (CreateStream c :: h) j <-> streamExists h j \/ j = countStreams h.
Proof.
  intros P j. pose proof (proj1 (proj2 (early h P))) as E. unfold streamExists, countStreams in *. cbn [filter In length] in *. split.
  - intros (A1 & A2). destruct (Nat.eq_dec j (length (filter (fun a => match a with CreateStream _ => true | _ => false end) h))); auto. left. split; [lia|auto].
  - intros [(A1 & A2)| ->]; (split; [lia|]); (intros [?|J]; [discriminate|]); auto. specialize (E _ J). lia.
Qed.
Lemma stream_destroy h i : forall j, streamExists (DestroyStream i :: h) j <-> streamExists h j /\ j <> i.
Proof. intros j. unfold streamExists, countStreams. cbn [filter In]. intuition congruence. Qed.
Lemma mine_create h : permitted h -> forall j, mine (NewLayer :: h) j <-> mine h j \/ j = countLayers h.
Proof.
  intros P j. destruct (early h P) as (_ & _ & E1 & E2 & _). unfold mine, countLayers in *. cbn [filter In length] in *. split.
  - intros (A1 & A2 & A3). destruct (Nat.eq_dec j (length (filter (fun a => match a with NewLayer => true | _ => false end) h))); auto. left. split; [lia|split; [auto|]].
    intros i J. apply (A3 i). auto.
  - intros [(A1 & A2 & A3)| ->]; (split; [lia|split]).
    + intros [?|J]; [discriminate|auto].
    + intros i [?|J]; [discriminate|]. apply (A3 i J).
    + intros [?|J]; [discriminate|]. specialize (E1 _ J). lia.
    + intros i [?|J]; [discriminate|]. destruct (E2 _ _ J). lia.
Qed.
Lemma mine_delete h k : forall j, mine (DeleteLayer k :: h) j <-> mine h j /\ j <> k.
Proof.
  intros j. unfold mine, countLayers. cbn [filter In]. split.
  - intros (A1 & A2 & A3). split; [split; [auto|split; [auto|]]|].
    + intros i J. apply (A3 i). auto.
    + intros ->. apply A2. auto.
  - intros ((A1 & A2 & A3) & N). split; [auto|split]; [intros [E|J]; [congruence|auto]|]. intros i [E|J]; [discriminate|]. apply (A3 i J).
Qed.
Lemma mine_add h i k : forall j, mine (AddLayer i k :: h) j <-> mine h j /\ j <> k.
Proof.
  intros j. unfold mine, countLayers. cbn [filter In]. split.
  - intros (A1 & A2 & A3). split; [split; [auto|split; [auto|]]|].
    + intros l J. apply (A3 l). auto.
    + intros ->. apply (A3 i). auto.
  - intros ((A1 & A2 & A3) & N). split; [auto|split]; [intros [E|J]; [discriminate|auto]|]. intros l [E|J]; [congruence|]. apply (A3 l J).
Qed.

Ltac cnt_perm := intros x; cbn [count_occ]; repeat first [rewrite count_occ_app | rewrite B_snoc];
  repeat match goal with
  | E : nth_error ?l ?i = Some (Some ?a) |- context [count_occ _ (B ?f (upd ?l ?i ?o)) ?y] =>
      let U := fresh "U" in pose proof (B_upd f l i (Some a) o y E) as U;
      let v := fresh "v" in set (v := count_occ Nat.eq_dec (B f (upd l i o)) y) in *; clearbody v
  end; unfold nb, sb, one in *; cbn [oB layers trainSet deleteTrainSet cache] in *; rewrite ?count_occ_app in *; cbn [olist] in *.
Ltac same_n := match goal with |- tracks (netExists (?a :: ?h)) _ _ => rewrite (proj2 (net_same a h eq_refl)); apply (tracks_ext _ _ _ _ (proj1 (net_same a h eq_refl))) end.
Ltac same_s := match goal with |- tracks (streamExists (?a :: ?h)) _ _ => rewrite (proj2 (stream_same a h eq_refl)); apply (tracks_ext _ _ _ _ (proj1 (stream_same a h eq_refl))) end.
Ltac same_u := match goal with |- tracks (mine (?a :: ?h)) _ _ => rewrite (proj2 (mine_same a h eq_refl)); apply (tracks_ext _ _ _ _ (proj1 (mine_same a h eq_refl))) end.

Lemma feeds_learner h s : feeds h s <> None -> learnerOf h s <> None.
Proof.
  induction h as [|a h IH]; cbn [feeds learnerOf]; [congruence|]. destruct a; auto.
  - intros F. destruct (Nat.eqb s s0); [discriminate|auto].
  - destruct (feeds h s); [intros _; apply IH; discriminate|]. destruct (Nat.eqb s s0); auto.
Qed.
Lemma step_ok h a g us leak : permitted h -> allowed h a -> Inv h g us leak ->
  exists g' us' leak', step a g = Ok g' /\ Inv (a :: h) g' us' leak'.
Proof.
  intros P Al K. pose proof K as K0. destruct K0 as [KN KS KU KL KP KH KK KT KD]. destruct (early h P) as (Y1 & Y2 & Y3 & Y4 & Y5 & Y6 & Y7).
  assert (NE : forall i, netExists h i -> exists n, nth_error (nets g) i = Some (Some n)) by (intros i; apply (proj2 KN)).
  assert (SE : forall i, streamExists h i -> exists n, nth_error (streams g) i = Some (Some n)) by (intros i; apply (proj2 KS)).
  assert (UE : forall i, mine h i -> exists n, nth_error us i = Some (Some n)) by (intros i; apply (proj2 KU)).
  destruct a; cbn [step allowed] in *.
  - (* CreateNet *)
    eexists _, us, leak. split; [reflexivity|]. split; cbn [nets streams pointers Owner_Model.heap]; try assumption; [|same_s; assumption|same_u; assumption| |].
    + apply (tracks_snoc _ _ (countNets h) _ _ (net_create h P) KN).
    + apply (heapOk_cnt _ _ _ KH). cnt_perm. cbn. lia.
    + intros i n E. apply snoc_some in E. destruct E as [(E & En)|E]; [|apply (KT i n E)]. injection En as <-. cbn. subst i. apply Y6. destruct KN as (-> & _). lia.
  - (* DestroyNet *)
    destruct (NE i Al) as (n & En). rewrite (proj2 (object_ok _ _ _) En). cbn [bind]. unfold destroyNet.
    destruct (free_all (layers n) (Owner_Model.heap g) ((if deleteTrainSet n then olist (trainSet n) else []) ++ (B nb (upd (nets g) i None) ++ B sb (streams g) ++ B one us ++ leak))) as (h1 & E1 & K1).
    { apply (heapOk_cnt _ _ _ KH). cnt_perm. cbn in *. lia. }
    rewrite E1. cbn [bind]. destruct (deleteOwnSet_ok _ _ _ K1) as (h2 & -> & K2). cbn [bind].
    eexists _, us, leak. split; [reflexivity|]. split; cbn [nets streams pointers Owner_Model.heap]; try assumption; [|same_s; assumption|same_u; assumption|].
    + apply (tracks_del _ _ _ _ _ (net_destroy h i) KN).
    + intros j m E. apply upd_some in E. destruct E as [(_ & E)|(_ & E)]; [discriminate|]. apply (KT j m E).
  - (* NewLayer *)
    cbn [alloc]. exists (mkProgram (nets g) (streams g) (pointers g ++ [length (Owner_Model.heap g)]) (Owner_Model.heap g ++ [New (length (Owner_Model.heap g))])),
      (us ++ [Some (length (Owner_Model.heap g))]), leak. split; [reflexivity|].
    split; cbn [nets streams pointers Owner_Model.heap]; try assumption; [same_n; assumption|same_s; assumption| | | | ].
    + apply (tracks_snoc _ _ (countLayers h) _ _ (mine_create h P) KU).
    + rewrite !app_length. cbn. lia.
    + intros k p E. apply snoc_some in E. destruct E as [(-> & E)|E].
      * injection E as <-. rewrite nth_error_app2 by lia. rewrite KL, Nat.sub_diag. reflexivity.
      * specialize (KP k p E). rewrite nth_error_app1; auto. apply nth_error_Some. congruence.
    + apply (heapOk_cnt _ _ _ (alloc_ok _ _ KH)). intros x. cbn [count_occ]. repeat first [rewrite count_occ_app | rewrite B_snoc]. cbn [oB one count_occ]. destruct (Nat.eq_dec _ x); lia.
  - (* DeleteLayer *)
    destruct (UE k Al) as (p & Ep). rewrite (proj2 (vget_Some _ _ _) (KP k p Ep)). cbn [bind].
    destruct (free_all [p] (Owner_Model.heap g) (B nb (nets g) ++ B sb (streams g) ++ B one (upd us k None) ++ leak)) as (h1 & E1 & K1).
    { apply (heapOk_cnt _ _ _ KH). cnt_perm. cbn in *. lia. }
    cbn [for_each] in E1. destruct (free p (Owner_Model.heap g)) as [h2| | | |]; try discriminate. injection E1 as ->. cbn [bind].
    eexists _, (upd us k None), leak. split; [reflexivity|]. split; cbn [nets streams pointers Owner_Model.heap]; try assumption; [same_n; assumption|same_s; assumption| | |].
    + apply (tracks_del _ _ _ _ _ (mine_delete h k) KU).
    + rewrite upd_length. apply KL.
    + intros j q E. apply upd_some in E. destruct E as [(_ & E)|(_ & E)]; [discriminate|]. apply (KP j q E).
  - (* AddLayer *)
    destruct Al as (Al1 & Al2). destruct (NE i Al1) as (n & En). destruct (UE k Al2) as (p & Ep). rewrite (proj2 (object_ok _ _ _) En), (proj2 (vget_Some _ _ _) (KP k p Ep)). cbn [bind].
    rewrite (access_ok _ _ p KH). 2:{ rewrite !in_app_iff. right. right. left. apply (B_in one _ _ _ _ Ep). now left. }
    cbn [bind]. eexists _, (upd us k None), leak. split; [reflexivity|]. split; cbn [nets streams pointers Owner_Model.heap]; try assumption; [|same_s; assumption| | | | |].
    + same_n. now apply tracks_upd.
    + apply (tracks_del _ _ _ _ _ (mine_add h i k) KU).
    + rewrite upd_length. apply KL.
    + intros j q E. apply upd_some in E. destruct E as [(_ & E)|(_ & E)]; [discriminate|]. apply (KP j q E).
    + apply (heapOk_cnt _ _ _ KH). cnt_perm. cbn in *. destruct (Nat.eq_dec p x); lia.
    + intros j m E. apply upd_some in E. destruct E as [(<- & E)|(_ & E)]; [injection E as <-; apply (KT i n En)|]. apply (KT j m E).
  - (* MakeLayer *)
    destruct (NE i Al) as (n & En). rewrite (proj2 (object_ok _ _ _) En). cbn [bind alloc]. destruct initialized.
    + eexists _, us, leak. split; [reflexivity|]. split; cbn [nets streams pointers Owner_Model.heap]; try assumption; [|same_s; assumption|same_u; assumption| |].
      * same_n. now apply tracks_upd.
      * apply (heapOk_cnt _ _ _ (alloc_ok _ _ KH)). cnt_perm. cbn in *. rewrite ?count_occ_app in *. destruct (Nat.eq_dec _ x); lia.
      * intros j m E. apply upd_some in E. destruct E as [(<- & E)|(_ & E)]; [injection E as <-; apply (KT i n En)|]. apply (KT j m E).
    + eexists _, us, (length (Owner_Model.heap g) :: leak). split; [reflexivity|]. split; cbn [nets streams pointers Owner_Model.heap]; try assumption; [|same_s; assumption|same_u; assumption| | |].
      * same_n. now apply tracks_upd.
      * apply (heapOk_cnt _ _ _ (alloc_ok _ _ KH)). cnt_perm. cbn in *. rewrite ?count_occ_app in *. destruct (Nat.eq_dec _ x); lia.
      * cbn. unfold exceptions in KK. now rewrite KK.
      * intros j m E. apply upd_some in E. destruct E as [(<- & E)|(_ & E)]; [injection E as <-; apply (KT i n En)|]. apply (KT j m E).
  - (* TrainingSet *)
    destruct (NE i Al) as (n & En). rewrite (proj2 (object_ok _ _ _) En). cbn [bind].
    destruct (deleteOwnSet_ok n (Owner_Model.heap g) (layers n ++ B nb (upd (nets g) i None) ++ B sb (streams g) ++ B one us ++ leak)) as (h1 & -> & K1).
    { apply (heapOk_cnt _ _ _ KH). cnt_perm. cbn in *. lia. }
    cbn [bind alloc]. eexists _, us, leak. split; [reflexivity|]. split; cbn [nets streams pointers Owner_Model.heap]; try assumption; [|same_s; assumption|same_u; assumption| |].
    + same_n. now apply tracks_upd.
    + apply (heapOk_cnt _ _ _ (alloc_ok _ _ K1)). cnt_perm. cbn in *. rewrite ?count_occ_app in *. destruct (Nat.eq_dec _ x); lia.
    + intros j m E. apply upd_some in E. unfold trainOk. cbn [source]. destruct E as [(<- & E)|(N & E)].
      * injection E as <-. cbn. now rewrite Nat.eqb_refl.
      * destruct (Nat.eqb_spec j i); [congruence|]. apply (KT j m E).
  - (* RemoveTrainingSet *)
    destruct (NE i Al) as (n & En). rewrite (proj2 (object_ok _ _ _) En). cbn [bind].
    destruct (deleteOwnSet_ok n (Owner_Model.heap g) (layers n ++ B nb (upd (nets g) i None) ++ B sb (streams g) ++ B one us ++ leak)) as (h1 & -> & K1).
    { apply (heapOk_cnt _ _ _ KH). cnt_perm. cbn in *. lia. }
    cbn [bind]. eexists _, us, leak. split; [reflexivity|]. split; cbn [nets streams pointers Owner_Model.heap]; try assumption; [|same_s; assumption|same_u; assumption| |].
    + same_n. now apply tracks_upd.
    + apply (heapOk_cnt _ _ _ K1). cnt_perm. cbn in *. rewrite ?count_occ_app in *. lia.
    + intros j m E. apply upd_some in E. unfold trainOk. cbn [source]. destruct E as [(<- & E)|(N & E)].
      * injection E as <-. cbn. now rewrite Nat.eqb_refl.
      * destruct (Nat.eqb_spec j i); [congruence|]. apply (KT j m E).
  - (* UseNet *)
    destruct Al as (Al1 & Al2). destruct (NE i Al1) as (n & En). rewrite (proj2 (object_ok _ _ _) En). cbn [bind].
    rewrite (useNet_ok h g us leak i n _ _ P K En Al2 KH). 2:{ intros p. rewrite !in_app_iff. tauto. }
    cbn [bind]. exists g, us, leak. split; [reflexivity|]. split; try assumption; [same_n; assumption|same_s; assumption|same_u; assumption].
  - (* Train *)
    destruct Al as (Al1 & Al2). destruct (NE i Al1) as (n & En). rewrite (proj2 (object_ok _ _ _) En). cbn [bind]. destruct known.
    + cbn [alloc]. pose proof (alloc_ok _ _ KH) as KA. rewrite (useNet_ok h g us leak i n _ _ P K En Al2 KA). 2:{ intros p. cbn [In]. rewrite !in_app_iff. tauto. }
      cbn [bind]. destruct optimized.
      * destruct (free_opt_ok _ [] (Some (length (Owner_Model.heap g))) _ KA) as (h1 & E1 & K1). cbn [free_opt app] in E1, K1. rewrite E1. cbn [bind].
        eexists _, us, leak. split; [reflexivity|]. split; cbn [nets streams pointers Owner_Model.heap]; try assumption; [|same_s; assumption|same_u; assumption| |].
        -- same_n. now apply tracks_upd.
        -- apply (heapOk_cnt _ _ _ K1). cnt_perm. cbn in *. rewrite ?count_occ_app in *. lia.
        -- intros j m E. apply upd_some in E. destruct E as [(<- & E)|(_ & E)]; [injection E as <-; apply (KT i n En)|]. apply (KT j m E).
      * eexists _, us, (length (Owner_Model.heap g) :: leak). split; [reflexivity|]. split; cbn [nets streams pointers Owner_Model.heap]; try assumption; [|same_s; assumption|same_u; assumption| | |].
        -- same_n. now apply tracks_upd.
        -- apply (heapOk_cnt _ _ _ KA). cnt_perm. cbn in *. rewrite ?count_occ_app in *. destruct (Nat.eq_dec _ x); lia.
        -- cbn. unfold exceptions in KK. now rewrite KK.
        -- intros j m E. apply upd_some in E. destruct E as [(<- & E)|(_ & E)]; [injection E as <-; apply (KT i n En)|]. apply (KT j m E).
    + exists g, us, leak. split; [reflexivity|]. split; try assumption; [same_n; assumption|same_s; assumption|same_u; assumption].
  - (* CreateStream *)
    eexists _, us, leak. split; [reflexivity|]. split; cbn [nets streams pointers Owner_Model.heap]; try assumption; [same_n; assumption| |same_u; assumption| | |].
    + apply (tracks_snoc _ _ (countStreams h) _ _ (stream_create h cacheSize P) KS).
    + apply (heapOk_cnt _ _ _ KH). cnt_perm. cbn. lia.
    + intros i n E. specialize (KT i n E). unfold trainOk in *. cbn [source]. destruct (deleteTrainSet n); auto. destruct (trainSet n); auto.
      destruct KT as (s & T1 & T2). exists s. split; auto. intros d Ed. apply snoc_some in Ed. destruct Ed as [(Es & _)|Ed]; auto.
      destruct (Y7 _ _ T1) as (Lt & _). destruct KS as (Ls & _). lia.
    + intros s d E. apply snoc_some in E. destruct E as [(-> & E)|E]; [|apply (KD s d E)]. injection E as <-. destruct KS as (Ls & _).
      destruct (Y5 (length (streams g))) as (Z1 & Z2); [lia|]. split; [|split]; cbn; [easy|easy|tauto].
  - (* DestroyStream *)
    destruct (SE s Al) as (d & Ed). rewrite (proj2 (object_ok _ _ _) Ed). cbn [bind].
    destruct (free_opt_ok (Owner_Model.heap g) [] (cache d) (B nb (nets g) ++ B sb (upd (streams g) s None) ++ B one us ++ leak)) as (h1 & -> & K1).
    { apply (heapOk_cnt _ _ _ KH). cnt_perm. cbn in *. rewrite ?count_occ_app. lia. }
    cbn [bind app] in *. eexists _, us, leak. split; [reflexivity|]. split; cbn [nets streams pointers Owner_Model.heap]; try assumption; [same_n; assumption| |same_u; assumption| |].
    + apply (tracks_del _ _ _ _ _ (stream_destroy h s) KS).
    + intros i n E. specialize (KT i n E). unfold trainOk in *. cbn [source]. destruct (deleteTrainSet n); auto. destruct (trainSet n); auto.
      destruct KT as (s' & T1 & T2). exists s'. split; auto. intros d' Ed'. apply upd_some in Ed'. destruct Ed' as [(_ & E')|(_ & E')]; [discriminate|auto].
    + intros s' d' E. apply upd_some in E. destruct E as [(_ & E)|(_ & E)]; [discriminate|apply (KD s' d' E)].
  - (* SetLearner *)
    destruct (SE s Al) as (d & Ed). rewrite (proj2 (object_ok _ _ _) Ed). cbn [bind].
    eexists _, us, leak. split; [reflexivity|]. split; cbn [nets streams pointers Owner_Model.heap]; try assumption; [same_n; assumption| |same_u; assumption| | |].
    + same_s. now apply tracks_upd.
    + apply (heapOk_cnt _ _ _ KH). cnt_perm. cbn in *. lia.
    + intros j n E. specialize (KT j n E). unfold trainOk in *. cbn [source]. destruct (deleteTrainSet n); auto. destruct (trainSet n); auto.
      destruct KT as (s' & T1 & T2). exists s'. split; auto. intros d' Ed'. apply upd_some in Ed'. destruct Ed' as [(<- & E')|(_ & E')]; [injection E' as <-; cbn; auto|auto].
    + intros s' d' E. apply upd_some in E. unfold streamOk. cbn [learnerOf feeds]. destruct E as [(<- & E)|(N & E)].
      * injection E as <-. rewrite Nat.eqb_refl. destruct (KD s d Ed) as (_ & Z2 & Z3). cbn. auto.
      * destruct (Nat.eqb_spec s' s); [congruence|]. apply (KD s' d' E).
  - (* AddSample *)
    destruct Al as (Al1 & Al2). destruct (SE s Al1) as (d & Ed). rewrite (proj2 (object_ok _ _ _) Ed). cbn [bind]. destruct (KD s d Ed) as (D1 & D2 & D3).
    assert (P' : permitted (AddSample s :: h)) by (split; [auto|split; auto]).
    assert (Q : forall ns h' p j, feeds (AddSample s :: h) s = Some j -> learner d = learnerOf h s ->
              (forall c, Inv (AddSample s :: h) (mkProgram ns (upd (streams g) s (Some (mkStream (cacheSize d) c (Some p) (learner d) (Some j)))) (pointers g) h') us leak) ->
              usable (AddSample s :: h) j ->
              exists g' us' leak', (if Nat.leb (cacheSize d) (S (collected d))
                then n <- object ns j ;; _ <- useNet n h' ;; Ok (mkProgram ns (upd (streams g) s (Some (mkStream (cacheSize d) 0 (Some p) (learner d) (Some j)))) (pointers g) h')
                else Ok (mkProgram ns (upd (streams g) s (Some (mkStream (cacheSize d) (S (collected d)) (Some p) (learner d) (Some j)))) (pointers g) h')) = Ok g' /\
                Inv (AddSample s :: h) g' us' leak').
    { intros ns h' p j _ _ HI (U1 & U2). destruct (Nat.leb (cacheSize d) (S (collected d))); [|eexists _, us, leak; split; [reflexivity|apply HI]].
      pose proof (HI 0) as K1. destruct (proj1 (proj2 (I_nets _ _ _ _ K1) j) U1) as (n & En). cbn [nets] in En. rewrite (proj2 (object_ok _ _ _) En). cbn [bind].
      assert (Eu : useNet n h' = Ok tt). { apply (useNet_ok _ _ us leak j n _ _ P' K1 En U2 (I_heap _ _ _ _ K1)). intros q. rewrite !in_app_iff. tauto. }
      rewrite Eu. cbn [bind]. eexists _, us, leak. split; [reflexivity|exact K1]. }
    assert (SS : forall j, streamExists h j -> streamExists (AddSample s :: h) j) by (intros j; apply (proj1 (stream_same (AddSample s) h eq_refl))).
    assert (NN : forall j, netExists h j -> netExists (AddSample s :: h) j) by (intros j; apply (proj1 (net_same (AddSample s) h eq_refl))).
    destruct (feeds h s) as [i|] eqn:F.
    + assert (Ln : learnerOf h s <> None) by (apply feeds_learner; congruence). destruct (learner d) as [l|] eqn:El; [|congruence].
      destruct (cache d) as [p|] eqn:Ec; [|exfalso; pose proof (proj1 D3 eq_refl); discriminate]. cbn [bind].
      assert (FS : forall s', feeds (AddSample s :: h) s' = feeds h s'). { intros s'. cbn [feeds]. destruct (feeds h s') eqn:F'; auto. destruct (Nat.eqb_spec s' s); congruence. }
      assert (SR : forall j, source (AddSample s :: h) j = source h j). { intros j. cbn [source]. now rewrite F. }
      specialize (Q (nets g) (Owner_Model.heap g) p i). rewrite D2, Ec, El. apply Q; auto.
      * now rewrite FS.
      * intros c. split; cbn [nets streams pointers Owner_Model.heap]; try assumption; [same_n; assumption| |same_u; assumption| | |].
        -- same_s. now apply tracks_upd.
        -- apply (heapOk_cnt _ _ _ KH). cnt_perm. rewrite Ec in *. cbn in *. lia.
        -- intros j n E. specialize (KT j n E). unfold trainOk in *. rewrite SR. destruct (deleteTrainSet n); auto. destruct (trainSet n); auto.
           destruct KT as (s' & T1 & T2). exists s'. split; auto. intros d' Ed'. apply upd_some in Ed'. destruct Ed' as [(<- & E')|(_ & E')]; [injection E' as <-; cbn; rewrite <- Ec; auto|auto].
        -- intros s' d' E. unfold streamOk. rewrite FS. cbn [learnerOf]. apply upd_some in E. destruct E as [(<- & E)|(N & E)]; [|apply (KD s' d' E)].
           injection E as <-. cbn. rewrite F. repeat split; auto; discriminate.
      * destruct Al2 as (U1 & U2). split; auto. intros s'. rewrite SR. intros E. apply SS, U2, E.
    + destruct Al2 as (i & L & NI). destruct (learner d) as [l|] eqn:El; [|congruence]. assert (l = i) by congruence. subst l.
      destruct (cache d) as [p|] eqn:Ec; [exfalso; pose proof (proj2 D3 eq_refl); discriminate|]. cbn [alloc].
      destruct (NE i NI) as (n & En). rewrite (proj2 (object_ok _ _ _) En). cbn [bind].
      destruct (deleteOwnSet_ok n (Owner_Model.heap g ++ [New (length (Owner_Model.heap g))])
        ((layers n ++ B nb (upd (nets g) i None) ++ B sb (streams g) ++ B one us ++ leak) ++ [length (Owner_Model.heap g)])) as (h1 & -> & K1).
      { apply (heapOk_cnt _ _ _ (alloc_ok _ _ KH)). cnt_perm. cbn in *. rewrite ?count_occ_app in *. destruct (Nat.eq_dec _ x); lia. }
      cbn [bind cacheSize collected cache learner optimizable].
      assert (FS : forall s', s' <> s -> feeds (AddSample s :: h) s' = feeds h s'). { intros s' N. cbn [feeds]. destruct (feeds h s') eqn:F'; auto. destruct (Nat.eqb_spec s' s); congruence. }
      assert (FF : feeds (AddSample s :: h) s = Some i). { cbn [feeds]. rewrite F, Nat.eqb_refl. exact L. }
      assert (SR : forall j, source (AddSample s :: h) j = if Nat.eqb j i then Some s else source h j). { intros j. cbn [source]. now rewrite F, L. }
      apply (Q (upd (nets g) i (Some (mkNet (layers n) (Some (length (Owner_Model.heap g))) false))) h1 (length (Owner_Model.heap g)) i); auto.
      * intros c. split; cbn [nets streams pointers Owner_Model.heap]; try assumption; [| |same_u; assumption| | |].
        -- same_n. now apply tracks_upd.
        -- same_s. now apply tracks_upd.
        -- apply (heapOk_cnt _ _ _ K1). cnt_perm. rewrite ?Ec in *. cbn in *. rewrite ?count_occ_app in *. cbn in *. destruct (Nat.eq_dec _ x); lia.
        -- intros j m E. apply upd_some in E. unfold trainOk. rewrite SR. destruct E as [(<- & E)|(N & E)].
           ++ injection E as <-. cbn. rewrite Nat.eqb_refl. exists s. split; auto. intros d' Ed'. apply upd_some in Ed'. destruct Ed' as [(_ & E')|(N' & _)]; [injection E' as <-; reflexivity|congruence].
           ++ destruct (Nat.eqb_spec j i); [congruence|]. specialize (KT j m E). unfold trainOk in KT. destruct (deleteTrainSet m); auto. destruct (trainSet m); auto.
              destruct KT as (s' & T1 & T2). exists s'. split; auto. intros d' Ed'. apply upd_some in Ed'. destruct Ed' as [(<- & _)|(_ & E')]; [|auto].
              destruct (Y7 _ _ T1). congruence.
        -- intros s' d' E. unfold streamOk. cbn [learnerOf]. apply upd_some in E. destruct E as [(<- & E)|(N & E)].
           ++ injection E as <-. rewrite FF. cbn. repeat split; auto; discriminate.
           ++ rewrite FS by congruence. apply (KD s' d' E).
      * split; auto. intros s'. rewrite SR, Nat.eqb_refl. intros E. injection E as <-. auto.
Qed.

Lemma Inv_start : Inv [] start [] [].
Proof.
  assert (T : forall A (ex : nat -> Prop), (forall i, ~ ex i) -> tracks (A := A) ex 0 []).
  { intros A ex N. split; auto. intros i. split; [intros X; now apply N in X|]. intros (a & E). destruct i; discriminate. }
  split; cbn [start nets streams pointers Owner_Model.heap]; auto.
  - apply T. intros i (A1 & _). cbn in A1. lia.
  - apply T. intros i (A1 & _). cbn in A1. lia.
  - apply T. intros i (A1 & _). cbn in A1. lia.
  - intros [|k] p; discriminate.
  - apply heapOk_nil.
  - intros [|i] n; discriminate.
  - intros [|i] n; discriminate.
Qed.
Lemma run_ok h : permitted h -> exists g us leak, run (rev h) start = Ok g /\ Inv h g us leak.
Proof.
  induction h as [|a h IH].
  - intros _. exists start, [], []. split; [reflexivity|apply Inv_start].
  - intros (P & Al). destruct (IH P) as (g & us & leak & E & K). destruct (step_ok h a g us leak P Al K) as (g' & us' & leak' & E' & K').
    exists g', us', leak'. split; auto. unfold run in *. cbn [rev]. rewrite for_each_app, E. cbn [bind for_each]. now rewrite E'.
Qed.

(** ** the end of the program *)
Lemma lost_in h p : In p (lost h) <-> alive p h = true.
Proof.
  unfold lost. rewrite in_flat_map. split.
  - intros ([q|q] & J & J'); [|contradiction]. destruct (alive q h) eqn:E; [|contradiction]. destruct J' as [->|[]]. auto.
  - intros E. exists (New p). split; [|rewrite E; now left]. apply alive_times in E. destruct E as (E & _). apply (count_occ_In memory_eq_dec). unfold times in E. lia.
Qed.
Lemma nodup_flat h : (forall p, times (New p) h <= 1) -> forall h0, NoDup (flat_map (fun e => match e with New p => if alive p h0 then [p] else [] | Delete _ => [] end) h).
Proof.
  induction h as [|[p|p] h IH]; intros T h0; cbn [flat_map].
  - constructor.
  - assert (T' : forall q, times (New q) h <= 1). { intros q. specialize (T q). unfold times in *. cbn [count_occ] in T. destruct (memory_eq_dec (New p) (New q)); lia. }
    destruct (alive p h0) eqn:E; [|cbn; auto]. cbn [app]. constructor; auto. intros J. apply in_flat_map in J. destruct J as ([q|q] & J & J'); [|contradiction].
    destruct (alive q h0); [|contradiction]. destruct J' as [->|[]]. apply (count_occ_In memory_eq_dec) in J. specialize (T p). unfold times in T. cbn [count_occ] in T.
    destruct (memory_eq_dec (New p) (New p)); [lia|congruence].
  - cbn. apply IH. intros q. specialize (T q). unfold times in *. cbn [count_occ] in T. destruct (memory_eq_dec (Delete p) (New q)); [discriminate|auto].
Qed.
Lemma lost_length h O : heapOk h O -> length (lost h) = length O.
Proof.
  intros K. apply Permutation_length, NoDup_Permutation.
  - apply nodup_flat. apply (H_once _ _ K).
  - apply (H_nodup _ _ K).
  - intros p. rewrite lost_in. apply (heapOk_alive _ _ _ K).
Qed.
Lemma finished_leak h g us leak : finished h -> Inv h g us leak -> heapOk (Owner_Model.heap g) leak.
Proof.
  intros (F1 & F2 & F3) K. pose proof (I_heap _ _ _ _ K) as KH.
  rewrite (B_none nb), (B_none sb), (B_none one) in KH; [exact KH| | |].
  - intros k p E. apply (F3 k). apply (proj2 (I_users _ _ _ _ K)). eauto.
  - intros k p E. apply (F2 k). apply (proj2 (I_streams _ _ _ _ K)). eauto.
  - intros k p E. apply (F1 k). apply (proj2 (I_nets _ _ _ _ K)). eauto.
Qed.

(** ** what happens when the rules are broken *)
Definition holds (h : list action) (g : program) : Prop := forall i k n p,
  In (AddLayer i k) h -> nth_error (nets g) i = Some (Some n) -> nth_error (pointers g) k = Some p -> In p (layers n).
Ltac inv_ok := repeat match goal with
  | H : bind ?m _ = Ok _ |- _ => let x := fresh "x" in let E := fresh "E" in destruct m as [x| | | |] eqn:E; cbn [bind] in H; try discriminate H
  | H : Ok _ = Ok _ |- _ => injection H as H
  | H : object _ _ = Ok _ |- _ => apply (proj1 (object_ok _ _ _)) in H
  | H : vget _ _ = Ok _ |- _ => apply (proj1 (vget_Some _ _ _)) in H
  end.
Lemma holds_step h a g g' us leak : permitted h -> allowed h a -> Inv h g us leak -> holds h g -> step a g = Ok g' -> holds (a :: h) g'.
Proof.
  intros P Al K Ho E i k n p J En Ep. pose proof (I_nets _ _ _ _ K) as (LN & _). pose proof (I_lengths _ _ _ _ K) as LP. pose proof (I_users _ _ _ _ K) as (LU & _).
  destruct (early h P) as (_ & _ & _ & Y4 & _).
  destruct a; cbn [step] in E.
  (* CreateNet *)
  - destruct J as [J|J]; [discriminate|]. injection E as <-. cbn in En, Ep. apply snoc_some in En. destruct En as [(En & _)|En]; [destruct (Y4 _ _ J); lia|]. apply (Ho _ _ _ _ J En Ep).
  - destruct J as [J|J]; [discriminate|]. inv_ok. subst g'. cbn in En, Ep. apply upd_some in En. destruct En as [(_ & En)|(_ & En)]; [discriminate|]. apply (Ho _ _ _ _ J En Ep).
  - destruct J as [J|J]; [discriminate|]. injection E as <-. cbn in En, Ep. rewrite nth_error_app1 in Ep by (destruct (Y4 _ _ J); lia). apply (Ho _ _ _ _ J En Ep).
  - destruct J as [J|J]; [discriminate|]. inv_ok. subst g'. apply (Ho _ _ _ _ J En Ep).
  - (* AddLayer *) inv_ok. subst g'. cbn in En, Ep. apply upd_some in En. destruct En as [(<- & En)|(N & En)].
    + injection En as <-. cbn. apply in_or_app. destruct J as [J|J].
      * injection J as <-. right. left. congruence.
      * left. eapply (Ho _ _ _ _ J); eauto.
    + destruct J as [J|J]; [injection J as <- <-; congruence|]. apply (Ho _ _ _ _ J En Ep).
  - (* MakeLayer *) destruct J as [J|J]; [discriminate|]. inv_ok. cbn [alloc] in E. destruct initialized; injection E as <-; cbn in En, Ep; apply upd_some in En; destruct En as [(<- & En)|(_ & En)];
      try (injection En as <-; cbn; rewrite ?in_app_iff; try left; eapply (Ho _ _ _ _ J); eauto); apply (Ho _ _ _ _ J En Ep).
  - destruct J as [J|J]; [discriminate|]. inv_ok. cbn [alloc] in E. injection E as <-; cbn in En, Ep; apply upd_some in En; destruct En as [(<- & En)|(_ & En)];
      try (injection En as <-; cbn; eapply (Ho _ _ _ _ J); eauto); apply (Ho _ _ _ _ J En Ep).
  - destruct J as [J|J]; [discriminate|]. inv_ok. subst g'; cbn in En, Ep; apply upd_some in En; destruct En as [(<- & En)|(_ & En)];
      try (injection En as <-; cbn; eapply (Ho _ _ _ _ J); eauto); apply (Ho _ _ _ _ J En Ep).
  - destruct J as [J|J]; [discriminate|]. inv_ok. subst g'. apply (Ho _ _ _ _ J En Ep).
  - (* Train *) destruct J as [J|J]; [discriminate|]. inv_ok. destruct known; cbn [alloc] in E; [|injection E as <-; apply (Ho _ _ _ _ J En Ep)].
    inv_ok. destruct optimized; inv_ok; subst g'; cbn in En, Ep; apply upd_some in En; destruct En as [(<- & En)|(_ & En)];
      try (injection En as <-; cbn; eapply (Ho _ _ _ _ J); eauto); apply (Ho _ _ _ _ J En Ep).
  - destruct J as [J|J]; [discriminate|]. injection E as <-. apply (Ho _ _ _ _ J En Ep).
  - destruct J as [J|J]; [discriminate|]. inv_ok. subst g'. apply (Ho _ _ _ _ J En Ep).
  - destruct J as [J|J]; [discriminate|]. inv_ok. subst g'. apply (Ho _ _ _ _ J En Ep).
  - (* AddSample *) destruct J as [J|J]; [discriminate|]. inv_ok. destruct (learner x) as [l|]; [|discriminate].
    assert (X : nets g' = nets g \/ exists m q, nth_error (nets g) l = Some (Some m) /\ nets g' = upd (nets g) l (Some (mkNet (layers m) q false))).
    { inv_ok. destruct x0 as ((d & ns) & h').
      assert (Y : nets g' = ns). { destruct (Nat.leb _ _); [destruct (optimizable d); [|discriminate]|]; inv_ok; subst g'; reflexivity. }
      rewrite Y. destruct (cache x); [left; congruence|]. cbn [alloc] in E1. destruct (object (nets g) l) as [m| | | |] eqn:Em; cbn [bind] in E1; try discriminate.
      destruct (deleteOwnSet m _); cbn [bind] in E1; try discriminate. right. apply object_ok in Em. eexists _, _. split; [exact Em|]. injection E1 as _ E1 _. symmetry. exact E1. }
    assert (X' : pointers g' = pointers g).
    { inv_ok. destruct x0 as ((d & ns) & h'). destruct (Nat.leb _ _); [destruct (optimizable d); [|discriminate]|]; inv_ok; subst g'; reflexivity. }
    rewrite X' in Ep. destruct X as [X|(m & q & Em & X)]; rewrite X in En; [apply (Ho _ _ _ _ J En Ep)|]. apply upd_some in En.
    destruct En as [(<- & En)|(_ & En)]; [injection En as <-; cbn; eapply (Ho _ _ _ _ J); eauto|]. apply (Ho _ _ _ _ J En Ep).
Qed.
Lemma run_holds h : permitted h -> exists g us leak, run (rev h) start = Ok g /\ Inv h g us leak /\ holds h g.
Proof.
  induction h as [|a h IH].
  - intros _. exists start, [], []. split; [reflexivity|]. split; [apply Inv_start|]. intros i k n p [].
  - intros (P & Al). destruct (IH P) as (g & us & leak & E & K & Ho). destruct (step_ok h a g us leak P Al K) as (g' & us' & leak' & E' & K').
    exists g', us', leak'. split; [|split; [auto|]].
    + unfold run in *. cbn [rev]. rewrite for_each_app, E. cbn [bind for_each]. now rewrite E'.
    + apply (holds_step h a g g' us leak); auto.
Qed.

Lemma free_dead p h : In (Delete p) h -> free p h = UB. Proof. intros J. unfold free. now rewrite (dead_stays p h J). Qed.
Lemma for_free_mono l : forall h q, In (Delete q) h -> for_each l free h = UB \/ exists h', for_each l free h = Ok h' /\ In (Delete q) h'.
Proof.
  induction l as [|p l IH]; cbn [for_each]; intros h q J; [eauto|]. unfold free. destruct (alive p h); cbn [bind]; [|auto]. apply IH. apply in_or_app. auto.
Qed.
Lemma for_free_dead l : forall h q, In (Delete q) h -> In q l -> for_each l free h = UB.
Proof.
  induction l as [|p l IH]; cbn [for_each]; intros h q J Jl; [destruct Jl|]. destruct Jl as [Jl|Jl]; subst.
  - now rewrite (free_dead q h J).
  - unfold free at 1. destruct (alive p h); cbn [bind]; [|auto]. apply (IH _ q); auto. apply in_or_app. auto.
Qed.
Lemma for_free_all l : forall h, for_each l free h = UB \/ exists h', for_each l free h = Ok h' /\ forall q, In q l -> In (Delete q) h'.
Proof.
  induction l as [|p l IH]; cbn [for_each]; intros h; [right; exists h; split; [auto|intros q []]|]. unfold free at 1 3. destruct (alive p h); cbn [bind]; [|auto].
  destruct (for_free_mono l (h ++ [Delete p]) p) as [E|(h' & E & J)]; [apply in_or_app; right; now left|auto|].
  destruct (IH (h ++ [Delete p])) as [E'|(h2 & E' & J')]; [auto|]. right. exists h2. split; auto. intros q [<-|Jq]; [congruence|auto].
Qed.
Lemma deleteOwnSet_mono n h q : In (Delete q) h -> deleteOwnSet n h = UB \/ exists h', deleteOwnSet n h = Ok h' /\ In (Delete q) h'.
Proof.
  intros J. unfold deleteOwnSet. destruct (deleteTrainSet n); [|eauto]. destruct (trainSet n) as [p|]; cbn [free_opt]; [|eauto]. unfold free. destruct (alive p h); [|auto].
  right. eexists. split; [reflexivity|]. apply in_or_app. auto.
Qed.
Lemma destroyNet_mono n h q : In (Delete q) h \/ In q (layers n) -> destroyNet n h = UB \/ exists h', destroyNet n h = Ok h' /\ In (Delete q) h'.
Proof.
  intros J. unfold destroyNet. assert (A : for_each (layers n) free h = UB \/ exists h', for_each (layers n) free h = Ok h' /\ In (Delete q) h').
  { destruct J as [J|J]; [now apply for_free_mono|]. destruct (for_free_all (layers n) h) as [E|(h' & E & A)]; eauto. }
  destruct A as [->|(h' & -> & J')]; [auto|]. cbn [bind]. now apply deleteOwnSet_mono.
Qed.
Lemma destroyNet_dead n h q : In (Delete q) h -> In q (layers n) -> destroyNet n h = UB.
Proof. intros J Jl. unfold destroyNet. now rewrite (for_free_dead _ h q J Jl). Qed.
Lemma destroyNet_double n h q l : layers n = l ++ [q] -> In q l -> destroyNet n h = UB.
Proof.
  intros E J. unfold destroyNet. rewrite E, for_each_app. destruct (for_free_all l h) as [->|(h' & -> & A)]; [reflexivity|]. cbn [bind for_each]. now rewrite (free_dead q h' (A q J)).
Qed.
