(** Proofs about data files as text. *)
From Coq Require Import Ascii.
From Verif Require Import Base BaseFacts Matrix IO_Model IO_Spec IO_Proofs NetIO_Spec Text_Model Text_Spec Text_Proofs TextPrint_Proofs TextIO_Model TextIO_Spec.
Local Open Scope R_scope.

(** * FANN *)
Definition isNil {A} (l : list A) : bool := match l with [] => true | _ => false end.
Definition at_text (r : text) : textstream := mkIn r (isNil r) false.

(** the text spells the tokens *)
Inductive spells : text -> list token -> Prop :=
| spells_nil w : white w -> spells w []
| spells_int w t n r ts : white w -> digits t (Z.of_nat n) -> separated r -> spells r ts -> spells (w ++ t ++ r) (TInt n :: ts)
| spells_real w t v r ts : white w -> numeral t v -> separated r -> spells r ts -> spells (w ++ t ++ r) (TReal v :: ts).

Lemma white_app a b : white a -> white b -> white (a ++ b).
Proof. intros. now apply Forall_app. Qed.
Lemma spells_white c t ts : white c -> spells t ts -> spells (c ++ t) ts.
Proof.
  intros Hc H. destruct H as [w H|w t n r ts H1 H2 H3 H4|w t v r ts H1 H2 H3 H4].
  - constructor. now apply white_app.
  - rewrite app_assoc. constructor; auto. now apply white_app.
  - rewrite app_assoc. constructor; auto. now apply white_app.
Qed.
Lemma separated_app a b : separated a -> separated b -> separated (a ++ b).
Proof. intros [->|(c & t & -> & H)] Hb; [exact Hb|]. right. exists c, (t ++ b). auto. Qed.
Lemma spells_app a b ts us : spells a ts -> spells b us -> separated b -> spells (a ++ b) (ts ++ us).
Proof.
  intros H Hb Hs. induction H as [w H|w t n r ts H1 H2 H3 H4 IH|w t v r ts H1 H2 H3 H4 IH].
  - now apply spells_white.
  - rewrite <- !app_assoc. cbn [app]. constructor; auto. now apply separated_app.
  - rewrite <- !app_assoc. cbn [app]. constructor; auto. now apply separated_app.
Qed.

Lemma at_fromText r : r <> [] -> at_text r = fromText r.
Proof. destruct r; [congruence|reflexivity]. Qed.
Lemma numeral_nonempty t v : numeral t v -> t <> [].
Proof. intros H. apply numeral_head in H as (c & t' & -> & _). discriminate. Qed.
Lemma digits_numeral t z : digits t z -> numeral t (IZR z).
Proof. intros H. apply numeral_plain. now constructor. Qed.
Lemma app_mid {A} (w t r : list A) : t <> [] -> w ++ t ++ r <> [].
Proof. destruct w, t; try congruence; discriminate. Qed.
Lemma getReal_spells t x ts : spells t (TReal x :: ts) -> exists r, getReal (at_text t) = Ok (x, at_text r) /\ spells r ts.
Proof.
  intros H. inversion H; subst. exists r. split; auto. unfold getReal. rewrite at_fromText by (apply app_mid; eapply numeral_nonempty; eauto).
  now rewrite (extract_numeral w t0 x r).
Qed.
Lemma getReal_int t n ts : spells t (TInt n :: ts) -> exists r, getReal (at_text t) = Ok (INR n, at_text r) /\ spells r ts.
Proof.
  intros H. inversion H; subst. exists r. split; auto. assert (HN : numeral t0 (INR n)) by (rewrite INR_IZR_INZ; now apply digits_numeral).
  unfold getReal. rewrite at_fromText by (apply app_mid; eapply numeral_nonempty; eauto). now rewrite (extract_numeral w t0 (INR n) r).
Qed.
Lemma getSize_spells t n ts : spells t (TInt n :: ts) -> exists r, getSize (at_text t) = Ok (n, at_text r) /\ spells r ts.
Proof.
  intros H. inversion H; subst. exists r. split; auto. unfold getSize. rewrite at_fromText by (apply app_mid; eapply numeral_nonempty; eapply digits_numeral; eauto).
  rewrite (extract_digits w t0 (Z.of_nat n) r) by auto. cbn [Z.leb]. rewrite (proj2 (Z.leb_le 0 (Z.of_nat n))) by lia. now rewrite Nat2Z.id.
Qed.

(** simulation of loops *)
Lemma for_sim {A B} (Rel : A -> B -> Prop) n (f : nat -> A -> res A) (g : nat -> B -> res B) :
  (forall i a b a', Rel a b -> f i a = Ok a' -> exists b', g i b = Ok b' /\ Rel a' b') ->
  forall a b a', Rel a b -> for_ n f a = Ok a' -> exists b', for_ n g b = Ok b' /\ Rel a' b'.
Proof.
  intros H. unfold for_. generalize 0%nat as from. induction n as [|n IH]; intros from a b a' HR E.
  - cbn in *. injection E as <-. eauto.
  - cbn in *. destruct (f from a) as [a1| | | |] eqn:E1; try discriminate E. destruct (H _ _ _ _ HR E1) as (b1 & E2 & HR1). rewrite E2. cbn [bind] in *. now apply (IH (S from) a1).
Qed.
Lemma for_sim_lt {A B} (Rel : A -> B -> Prop) n (f : nat -> A -> res A) (g : nat -> B -> res B) :
  (forall i a b a', (i < n)%nat -> Rel a b -> f i a = Ok a' -> exists b', g i b = Ok b' /\ Rel a' b') ->
  forall a b a', Rel a b -> for_ n f a = Ok a' -> exists b', for_ n g b = Ok b' /\ Rel a' b'.
Proof.
  intros H. unfold for_. assert (G : forall m from, (from + m = n)%nat -> forall a b a', Rel a b -> for_from from m f a = Ok a' -> exists b', for_from from m g b = Ok b' /\ Rel a' b').
  { induction m as [|m IH]; intros from Hm a b a' HR E.
    - cbn in *. injection E as <-. eauto.
    - cbn in *. destruct (f from a) as [a1| | | |] eqn:E1; try discriminate E. destruct (H from a b a1 ltac:(lia) HR E1) as (b1 & E2 & HR1). rewrite E2. cbn [bind] in *. apply (IH (S from) ltac:(lia) a1); auto. }
  now apply G.
Qed.
Definition sim {A} (st : A * list token) (st' : A * textstream) : Prop := fst st' = fst st /\ exists r, snd st' = at_text r /\ spells r (snd st).
Lemma sim_row n D (p : mat * list token) (q : mat * textstream) p' : sim p q ->
  for_ D (fun d st => let '(inp, s) := st in ' (x, s) <- readReal s ;; inp <- mset inp n d x ;; Ok (inp, s)) p = Ok p' ->
  exists q', for_ D (fun d st => let '(inp, s) := st in ' (x, s) <- getReal s ;; inp <- mset inp n d x ;; Ok (inp, s)) q = Ok q' /\ sim p' q'.
Proof.
  intros HS. apply for_sim; auto. clear p q p' HS. intros d (m, s) (m', s') (m1, s1) (H1 & r & H2 & H3) E. cbn [fst snd] in *. subst m' s'.
  destruct s as [|tok s]; [discriminate E|].
  assert (G : exists x r', getReal (at_text r) = Ok (x, at_text r') /\ readReal (tok :: s) = Ok (x, s) /\ spells r' s).
  { destruct tok as [k|x].
    - destruct (getReal_int r k s H3) as (r' & G & HS). exists (INR k), r'. auto.
    - destruct (getReal_spells r x s H3) as (r' & G & HS). exists x, r'. auto. }
  destruct G as (x & r' & G1 & G2 & G3). rewrite G2 in E. rewrite G1. cbn [bind] in *. destruct (mset m n d x); try discriminate E. cbn [bind] in *.
  injection E as <- <-. eexists. split; [reflexivity|]. split; [reflexivity|]. exists r'. auto.
Qed.
Lemma fannLoad_sim junk t ts N inp out ts' : spells t ts -> fannLoad junk ts = Ok (N, inp, out, ts') ->
  exists r, fannLoadText junk (at_text t) = Ok (N, inp, out, at_text r) /\ spells r ts'.
Proof.
  intros H E. unfold fannLoad in E. unfold fannLoadText.
  destruct ts as [|[n1|x] ts]; try discriminate E. cbn [readInt bind] in E. destruct (getSize_spells t n1 ts H) as (r1 & G1 & H1). rewrite G1. cbn [bind].
  destruct ts as [|[n2|x] ts]; try discriminate E. cbn [readInt bind] in E. destruct (getSize_spells r1 n2 ts H1) as (r2 & G2 & H2). rewrite G2. cbn [bind].
  destruct ts as [|[n3|x] ts]; try discriminate E. cbn [readInt bind] in E. destruct (getSize_spells r2 n3 ts H2) as (r3 & G3 & H3). rewrite G3. cbn [bind].
  match type of E with bind ?m _ = _ => destruct m as [((m1, m2), s')| | | |] eqn:EL; try discriminate E end. cbn [bind] in E. injection E as <- <- <- <-.
  pose (Rel := fun (a : mat * mat * list token) (b : mat * mat * textstream) => fst b = fst a /\ exists r, snd b = at_text r /\ spells r (snd a)).
  assert (SIM : forall n1 (a : mat * mat * list token) b a', Rel a b ->
    for_ n1 (fun n st => let '(inp, out, s) := st in
      ' (inp, s) <- for_ n2 (fun d st => let '(inp, s) := st in ' (x, s) <- readReal s ;; inp <- mset inp n d x ;; Ok (inp, s)) (inp, s) ;;
      ' (out, s) <- for_ n3 (fun f st => let '(out, s) := st in ' (x, s) <- readReal s ;; out <- mset out n f x ;; Ok (out, s)) (out, s) ;;
      Ok (inp, out, s)) a = Ok a' ->
    exists b', for_ n1 (fun n st => let '(inp, out, s) := st in
      ' (inp, s) <- for_ n2 (fun d st => let '(inp, s) := st in ' (x, s) <- getReal s ;; inp <- mset inp n d x ;; Ok (inp, s)) (inp, s) ;;
      ' (out, s) <- for_ n3 (fun f st => let '(out, s) := st in ' (x, s) <- getReal s ;; out <- mset out n f x ;; Ok (out, s)) (out, s) ;;
      Ok (inp, out, s)) b = Ok b' /\ Rel a' b').
  { clear. intros n1. apply for_sim. intros n ((i1, o1), s1) ((i2, o2), s2) a' (R1 & r & R2 & R3) E. cbn [fst snd] in *. injection R1 as -> ->. subst s2.
    match type of E with bind ?m _ = _ => destruct m as [(i3, s3)| | | |] eqn:E1; try discriminate E end. cbn [bind] in E.
    destruct (sim_row n n2 (i1, s1) (i1, at_text r) (i3, s3)) as ((i4, s4) & F1 & (R4 & r4 & R5 & R6)); [split; [reflexivity|exists r; auto]|exact E1|]. cbn [fst snd] in *. subst i4 s4.
    rewrite F1. cbn [bind].
    match type of E with bind ?m _ = _ => destruct m as [(o3, s5)| | | |] eqn:E2; try discriminate E end. cbn [bind] in E. injection E as <-.
    destruct (sim_row n n3 (o1, s3) (o1, at_text r4) (o3, s5)) as ((o4, s4) & F2 & (R7 & r5 & R8 & R9)); [split; [reflexivity|exists r4; auto]|exact E2|]. cbn [fst snd] in *. subst o4 s4.
    rewrite F2. cbn [bind]. eexists. split; [reflexivity|]. split; [reflexivity|]. exists r5. auto. }
  destruct (SIM n1 (mresize junk n1 n2, mresize junk n1 n3, ts) (mresize junk n1 n2, mresize junk n1 n3, at_text r3) (m1, m2, s')) as (((m3, m4), s3) & F & R1 & r & R2 & R3); [split; [reflexivity|exists r3; auto]|exact EL|].
  cbn [fst snd] in *. injection R1 as -> ->. subst s3. rewrite F. cbn [bind]. eauto.
Qed.

(** writing *)
Lemma white_blank : white blank.
Proof. constructor; [cbn; tauto|constructor]. Qed.
Lemma white_newline : white newline.
Proof. constructor; [cbn; tauto|constructor]. Qed.
Lemma white_blanks n : white (repeat " "%char n).
Proof. apply Forall_forall. intros c Hc. apply repeat_spec in Hc. subst. cbn. tauto. Qed.
Lemma sep_cons c t : white [c] -> separated (c :: t).
Proof. intros H. right. exists c, t. auto. Qed.
Lemma spells_pad n t v : numeral t v -> spells (pad n t) [TReal v].
Proof.
  intros H. unfold pad. rewrite <- (app_nil_r t) at 2. constructor; auto using white_blanks; [now left|]. constructor. constructor.
Qed.
Lemma spells_join sep n (xs : list R) : white [sep] -> spells (join [sep] (map (pad n) (map printDouble xs))) (map (fun x => TReal (roundSix x)) xs).
Proof.
  intros HW. induction xs as [|x xs IH]; [constructor; constructor|]. cbn [map join]. destruct xs as [|y xs].
  - cbn. apply spells_pad, printDouble_numeral.
  - change (map (pad n) (map printDouble (y :: xs))) with (pad n (printDouble y) :: map (pad n) (map printDouble xs)) in *. cbn iota.
    change (TReal (roundSix x) :: map (fun x => TReal (roundSix x)) (y :: xs)) with ([TReal (roundSix x)] ++ map (fun x => TReal (roundSix x)) (y :: xs)).
    apply spells_app; [apply spells_pad, printDouble_numeral|now apply spells_white|]. now apply sep_cons.
Qed.
Lemma row_spells m n r : printRow roundSix m n = Ok r -> exists t, rowText m n = Ok t /\ spells t r.
Proof.
  intros E. unfold printRow in E. unfold rowText.
  destruct (for_sim (fun (a : list token) (b : list text) => exists xs, a = map (fun x => TReal (roundSix x)) xs /\ b = map printDouble xs) (cols m)
    (fun j s => x <- mget m n j ;; Ok (s ++ [TReal (roundSix x)])) (fun j ts => x <- mget m n j ;; Ok (ts ++ [printDouble x]))) with (a := @nil token) (b := @nil text) (a' := r) as (b & F & xs & -> & ->).
  - intros i ? ? ? (xs & -> & ->) E1. destruct (mget m n i) as [x| | | |]; try discriminate E1. cbn [bind] in *. injection E1 as <-.
    eexists. split; [reflexivity|]. exists (xs ++ [x]). now rewrite !map_app.
  - exists []. auto.
  - exact E.
  - rewrite F. cbn [bind]. eexists. split; [reflexivity|]. apply spells_join. apply white_blank.
Qed.
Lemma spells_nat n r ts : separated r -> spells r ts -> spells (printNat n ++ r) (TInt n :: ts).
Proof. intros H1 H2. change (printNat n ++ r) with ([] ++ printNat n ++ r). constructor; auto; [constructor|apply printNat_digits]. Qed.
Lemma fannSave_spells inp out ts : fannSave roundSix inp out = Ok ts -> exists t, fannSaveText inp out = Ok t /\ spells t ts /\ t <> [].
Proof.
  intros E. unfold fannSave in E. unfold fannSaveText. destruct (check _); try discriminate E. cbn [bind] in *.
  destruct (for_sim (fun (a : list token) (b : text) => exists u, b = u ++ newline /\ spells u a) (rows inp)
    (fun n s => r1 <- printRow roundSix inp n ;; r2 <- printRow roundSix out n ;; Ok (s ++ r1 ++ r2))
    (fun n t => r1 <- rowText inp n ;; r2 <- rowText out n ;; Ok (t ++ r1 ++ newline ++ r2 ++ newline)))
    with (a := [TInt (rows inp); TInt (cols inp); TInt (cols out)]) (b := printNat (rows inp) ++ blank ++ printNat (cols inp) ++ blank ++ printNat (cols out) ++ newline) (a' := ts) as (b & F & u & -> & H).
  - intros i ? ? ? (u & -> & Hu) E1. destruct (printRow roundSix inp i) as [r1| | | |] eqn:E2; try discriminate E1. cbn [bind] in E1.
    destruct (printRow roundSix out i) as [r2| | | |] eqn:E3; try discriminate E1. cbn [bind] in E1. injection E1 as <-.
    destruct (row_spells _ _ _ E2) as (t1 & F1 & S1). destruct (row_spells _ _ _ E3) as (t2 & F2 & S2). rewrite F1, F2. cbn [bind].
    eexists. split; [reflexivity|]. exists (u ++ (newline ++ t1) ++ newline ++ t2). split; [now rewrite <- !app_assoc|].
    apply spells_app; auto.
    + apply spells_app; [now apply spells_white; [apply white_newline|]|now apply spells_white; [apply white_newline|]|]. apply sep_cons, white_newline.
    + apply sep_cons, white_newline.
  - exists (printNat (rows inp) ++ blank ++ printNat (cols inp) ++ blank ++ printNat (cols out)). split; [now rewrite <- !app_assoc|].
    apply spells_nat; [apply sep_cons, white_blank|]. apply spells_white; [apply white_blank|]. apply spells_nat; [apply sep_cons, white_blank|]. apply spells_white; [apply white_blank|].
    rewrite <- (app_nil_r (printNat (cols out))). apply spells_nat; [now left|]. constructor. constructor.
  - exact E.
  - exists (u ++ newline). split; [exact F|]. split; [|now destruct u]. rewrite <- (app_nil_r ts). apply spells_app; auto; [constructor; apply white_newline|]. apply sep_cons, white_newline.
Qed.
