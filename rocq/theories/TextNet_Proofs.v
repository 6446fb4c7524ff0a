(** Proofs about network files as text. *)
From Coq Require Import Ascii String.
From Verif Require Import Base BaseFacts Matrix Activation_Model Layer_Model Net_Model NetBuild_Model NetUse_Spec NetIO_Spec Text_Model Text_Spec Text_Proofs TextPrint_Proofs TextIO_Model TextIO_Proofs TextSVM_Proofs NetIO_Model NetIO_Proofs TextNet_Model TextNet_Spec.
Local Open Scope R_scope.
Local Open Scope list_scope.

(** * Numbers that are read back *)
Lemma readBack_six x : readBack x = roundSix x.
Proof. apply atof_numeral, printDouble_numeral. Qed.
Lemma readBack_numeral x : numeral (printDouble x) (readBack x).
Proof. rewrite readBack_six. apply printDouble_numeral. Qed.
Lemma readBack_printing : printing readBack.
Proof. destruct roundSix_printing as [A B C]. split; intros x; rewrite readBack_six; auto. Qed.
Lemma readBack_again x : printDouble (readBack x) = printDouble x.
Proof. rewrite readBack_six. apply printDouble_again. Qed.
Lemma callText_reread c : callText (reread readBack c) = callText c.
Proof. unfold callText. destruct c; cbn [reread callWords]; rewrite ?readBack_again; reflexivity. Qed.
Lemma reread_twice c : callWords (reread readBack c) = callWords c.
Proof. destruct c; cbn [reread callWords]; rewrite ?readBack_again; reflexivity. Qed.

(** * Reading items *)
Notation after r := (fromText (" "%char :: r)).
Lemma white_one : white [" "%char].
Proof. repeat constructor. Qed.
Lemma sep_blank r : separated (" "%char :: r).
Proof. right. eexists _, _. split; [reflexivity|apply white_one]. Qed.
Lemma text_double x r : textDouble (after (printDouble x ++ blank ++ r)) = Ok (readBack x, after r).
Proof. unfold textDouble. pose proof (extract_numeral [" "%char] _ _ (" "%char :: r) white_one (readBack_numeral x) (sep_blank r)) as E. cbn [app] in E. unfold blank. cbn [app]. rewrite E. reflexivity. Qed.
Lemma text_nat n r : textNat (after (printNat n ++ blank ++ r)) = Ok (n, after r).
Proof.
  unfold textNat. pose proof (extract_digits [" "%char] _ _ (" "%char :: r) white_one (printNat_digits n) (sep_blank r)) as E. cbn [app] in E. unfold blank. cbn [app]. rewrite E.
  destruct (Z.leb_spec 0 (Z.of_nat n)); [|lia]. now rewrite Nat2Z.id.
Qed.
Lemma printBool_nat b : printBool b = printNat (if b then 1 else 0).
Proof. destruct b; reflexivity. Qed.
Lemma text_bool b r : textBool (after (printBool b ++ blank ++ r)) = Ok (b, after r).
Proof. unfold textBool. rewrite printBool_nat, text_nat. cbn [bind]. now destruct b. Qed.
Lemma text_act a r : textAct (after (printNat (actCode a) ++ blank ++ r)) = Ok (a, after r).
Proof. unfold textAct. rewrite text_nat. now destruct a. Qed.
Lemma text_ef a r : textErrorFunction (after (printNat (efCode a) ++ blank ++ r)) = Ok (a, after r).
Proof. unfold textErrorFunction. rewrite text_nat. now destruct a. Qed.
Lemma extract_word lead w r : white lead -> w <> [] -> word_chars w -> extractWord (fromText (lead ++ w ++ blank ++ r)) = (Some w, after r).
Proof.
  intros HL Hn HW. unfold extractWord, extract, fromText. cbn [eofbit failbit orb rest]. rewrite skip_white by auto. destruct w as [|c w]; [congruence|]. inversion HW; subst.
  cbn [app]. rewrite skip_none by auto. change (c :: w ++ blank ++ r) with ((c :: w) ++ blank ++ r). rewrite scanWord_word by (auto; apply sep_blank). reflexivity.
Qed.
Lemma word_isWord co : isWord co -> str co <> [] /\ word_chars (str co).
Proof.
  intros (H1 & H2). split; [destruct co; [congruence|discriminate]|]. apply Forall_forall. intros c Hc. specialize (H2 c Hc). destruct (isspace c) eqn:E; auto.
  exfalso. apply H2. apply white_space. constructor; auto.
Qed.
Lemma text_word co r : isWord co -> textWord (after (str co ++ blank ++ r)) = Ok (co, after r).
Proof.
  intros H. destruct (word_isWord co H) as (H1 & H2). unfold textWord. pose proof (extract_word [" "%char] (str co) r white_one H1 H2) as E. cbn [app] in E. rewrite E.
  unfold str. now rewrite string_of_list_ascii_of_string.
Qed.

(** * Calls *)
Section Load.
Variable junk : nat -> nat -> R.
Notation reread := (reread readBack).
Lemma keyword w : isWord w -> forall lead r, white lead -> extractWord (fromText (lead ++ str w ++ blank ++ r)) = (Some (str w), after r).
Proof. intros H lead r HL. destruct (word_isWord w H). now apply extract_word. Qed.
Ltac isword := split; [discriminate|]; intros ch Hch Hws; apply white_space in Hws; inversion Hws; subst; cbn in Hch;
  repeat (destruct Hch as [<-|Hch]; [discriminate|]); destruct Hch.
Lemma str_string w : string_of_list_ascii (str w) = w.
Proof. apply string_of_list_ascii_of_string. Qed.
Definition keywordOf (c : netCall) : string :=
  match c with
  | InputLayer _ _ _ => "input" | FullyConnectedCall _ _ _ _ => "fully_connected" | CompressedCall _ _ _ _ _ _ => "compressed" | ExtremeCall _ _ _ _ => "extreme"
  | IntrinsicPlasticityCall _ _ => "intrinsic_plasticity" | ConvolutionalCall _ _ _ _ _ _ => "convolutional" | SubsamplingCall _ _ _ _ _ => "subsampling"
  | MaxPoolingCall _ _ => "max_pooling" | DropoutCall _ => "dropout" | RestrictedBoltzmannMachineCall _ _ _ _ => "rbm" | SparseAutoEncoderCall _ _ _ _ => "sae"
  | OutputCall _ _ _ _ => "output" | CompressedOutputCall _ _ _ _ _ _ => "compressed_output" | SetErrorFunctionCall _ => "error_function" | SetRegularizationCall _ _ _ => "regularization"
  end%string.
Lemma keyword_word c : isWord (keywordOf c).
Proof. destruct c; isword. Qed.
Lemma keyword_first c : callWords c = str (keywordOf c) :: tl (callWords c).
Proof. destruct c; reflexivity. Qed.
Lemma load_call_text d fuel st c lead r ty : white lead -> namesAreWords c -> exists ty',
  loadLoopText junk d (S fuel) st (fromText (lead ++ callText c ++ r)) ty =
  (st <- textCall junk d st (reread c) ;; loadLoopText junk d fuel st (after r) ty').
Proof.
  intros HL HC. unfold callText. exists (str (keywordOf c)). rewrite keyword_first. cbn [flat_map]. rewrite <- !app_assoc. cbn [loadLoopText fromText eofbit].
  change (mkIn ?t false false) with (fromText t). rewrite (keyword _ (keyword_word c)) by auto.
  assert (E : loadEntryText junk d (str (keywordOf c)) st (after (flat_map (fun w => w ++ blank) (tl (callWords c)) ++ r)) = (st <- textCall junk d st (reread c) ;; Ok (st, after r))).
  { unfold loadEntryText. rewrite str_string.
    destruct c; cbn [callWords tl keywordOf String.eqb Ascii.eqb Bool.eqb flat_map NetIO_Proofs.reread namesAreWords] in *; repeat rewrite <- !app_assoc; cbn [app];
      repeat (rewrite ?text_nat, ?text_act, ?text_ef, ?text_double, ?text_bool, ?text_word by auto; cbn [bind app]); reflexivity. }
  rewrite E. destruct (textCall junk d st (reread c)); reflexivity.
Qed.
Lemma load_calls_text d cs : forall fuel st lead r ty, white lead -> Forall namesAreWords cs -> exists ty' lead', white lead' /\
  loadLoopText junk d (length cs + fuel) st (fromText (lead ++ flat_map callText cs ++ r)) ty =
  (st <- textCalls junk d (map reread cs) st ;; loadLoopText junk d fuel st (fromText (lead' ++ r)) ty').
Proof.
  induction cs as [|c cs IH]; intros fuel st lead r ty HL HC.
  - exists ty, lead. split; auto.
  - inversion HC; subst. cbn [flat_map length Nat.add map]. rewrite <- app_assoc.
    destruct (load_call_text d (length cs + fuel) st c lead (flat_map callText cs ++ r) ty HL) as (ty1 & ->); auto.
    unfold textCalls. cbn [for_each]. destruct (textCall junk d st (reread c)) as [st1| | | |]; cbn [bind]; try (exists ty, lead; split; auto; reflexivity).
    apply (IH fuel st1 [" "%char] r ty1); auto. apply white_one.
Qed.
Lemma textCalls_run d cs : forall st, textCalls junk d cs st = (m <- runCalls junk readBack d cs (member junk st) ;; Ok (mkTextNet junk m (archText junk st ++ flat_map callText cs))).
Proof.
  induction cs as [|c cs IH]; intros st.
  - cbn. rewrite app_nil_r. now destruct st.
  - unfold textCalls, runCalls. cbn [for_each flat_map]. unfold textCall at 1. destruct (runCall junk readBack d (member junk st) c) as [m| | | |]; try reflexivity. cbn [bind].
    change (for_each cs (fun c st => textCall junk d st c)) with (textCalls junk d cs). rewrite IH. cbn [member archText]. now rewrite <- app_assoc.
Qed.

(** * Parameters *)
Inductive ends : bool -> list R -> text -> Prop :=
| ends_one w t v w' : white w -> numeral t v -> white w' -> ends (negb (isNil w')) [v] (w ++ t ++ w')
| ends_more tr w t v qs V : white w -> numeral t v -> separated V -> ends tr qs V -> ends tr (v :: qs) (w ++ t ++ V).
Inductive srel : textstream -> istream -> Prop :=
| srel_more tr qs V : ends tr qs V -> srel (fromText V) (mkStream (map Num qs) tr false)
| srel_none s tr : eofbit s = true -> srel s (mkStream [] tr true)
| srel_trailing w : white w -> srel (fromText w) (mkStream [] true false).
Lemma white_sep w : white w -> separated w.
Proof. intros H. destruct H as [|c w H _]; [now left|]. right. exists c, w. split; auto. constructor; auto. Qed.
Lemma ends_nonempty tr qs V : ends tr qs V -> V <> [].
Proof. intros H. destruct H as [w t v w' H1 H2 _|tr w t v qs V H1 H2 H3 H4]; apply app_mid; now apply (numeral_nonempty t v). Qed.
Lemma ends_read tr qs V : ends tr qs V -> exists v qs', qs = v :: qs' /\
  ((qs' = [] /\ exists w', white w' /\ tr = negb (isNil w') /\ extractDouble (fromText V) = (Some v, at_text w')) \/
   exists V', extractDouble (fromText V) = (Some v, fromText V') /\ ends tr qs' V').
Proof.
  intros H. destruct H as [w t v w' H1 H2 H3|tr w t v qs V H1 H2 H3 H4]; eexists _, _; (split; [reflexivity|]).
  - left. split; auto. exists w'. split; auto. split; auto. rewrite (extract_numeral w t v w'); auto. now apply white_sep.
  - right. exists V. split; auto. rewrite (extract_numeral w t v V) by auto. pose proof (ends_nonempty _ _ _ H4). destruct V; [congruence|reflexivity].
Qed.
Lemma eof_read s : eofbit s = true -> exists s', extractDouble s = (None, s') /\ eofbit s' = true.
Proof. intros H. unfold extractDouble, extract. rewrite H. cbn [orb]. eexists. split; reflexivity. Qed.
Lemma white_skip w : white w -> skipSpaces w = [].
Proof. intros H. rewrite <- (app_nil_r w), skip_white; auto. Qed.
Lemma param_sim i p s' s p1 s1 : srel s' s -> readParameter i (p, s) = Ok (p1, s1) -> exists s1', textParameter i (p, s') = Ok (p1, s1') /\ srel s1' s1.
Proof.
  intros H E. unfold textParameter. destruct H as [tr qs V H|s' tr H|w H].
  - destruct (ends_read tr qs V H) as (v & qs' & -> & R). unfold readParameter, readToken in E. cbn [map toks trailing eof] in E.
    destruct R as [(-> & w' & Hw & -> & ER)|(V' & ER & HE)]; rewrite ER.
    + cbn in E. destruct (vset p i v) as [p'| | | |]; try discriminate E. cbn [bind] in *. injection E as <- <-. eexists. split; [reflexivity|].
      destruct w' as [|c w']; [now constructor|]. apply (srel_trailing (c :: w')). exact Hw.
    + assert (HE' : exists q qs'', qs' = q :: qs'') by (destruct HE; eauto). destruct HE' as (q & qs'' & ->). cbn [map] in E.
      destruct (vset p i v) as [p'| | | |]; try discriminate E. cbn [bind] in *. injection E as <- <-. eexists. split; [reflexivity|].
      change (Num q :: map Num qs'') with (map Num (q :: qs'')). now constructor.
  - cbn in E. injection E as <- <-. destruct (eof_read s' H) as (s2 & E2 & H2). rewrite E2, H. cbn [orb]. eexists. split; [reflexivity|]. now constructor.
  - cbn in E. injection E as <- <-. unfold extractDouble, extract, fromText. cbn [eofbit failbit orb rest]. rewrite white_skip by auto. eexists. split; [reflexivity|]. now constructor.
Qed.
Lemma params_sim n p s' s p1 s1 : srel s' s -> for_ n readParameter (p, s) = Ok (p1, s1) -> exists s1', for_ n textParameter (p, s') = Ok (p1, s1') /\ srel s1' s1.
Proof.
  intros H E. destruct (for_sim (fun (a : list R * istream) (b : list R * textstream) => fst b = fst a /\ srel (snd b) (snd a)) n readParameter textParameter) with (a := (p, s)) (b := (p, s')) (a' := (p1, s1)) as ((p2, s2) & E2 & E3 & E4); auto.
  - intros i (q, u) (q', u') (q1, u1) (Hq & Hu) E1. cbn [fst snd] in *. subst q'. destruct (param_sim i q u' u q1 u1 Hu E1) as (u2 & F1 & F2). exists (q1, u2). auto.
  - cbn [fst snd] in *. subst p2. eauto.
Qed.
Lemma entry_sim d st a s' s st1 s1 : srel s' s -> loadEntry junk readBack d (Word "parameters") st s = Ok (st1, s1) ->
  exists s1', loadEntryText junk d (str "parameters") (mkTextNet junk st a) s' = Ok (mkTextNet junk st1 a, s1') /\ srel s1' s1.
Proof.
  intros H E. unfold loadEntry in E. cbn [String.eqb Ascii.eqb Bool.eqb] in E. unfold loadEntryText. rewrite str_string. cbn [String.eqb Ascii.eqb Bool.eqb member archText].
  destruct (initialized _ (theNet junk st)); try discriminate E.
  destruct (for_ (dimension _ (theNet junk st)) readParameter (parameterVector _ (theNet junk st), s)) as [(p1, s2)| | | |] eqn:EF; try discriminate E. cbn [bind] in E.
  destruct (params_sim _ _ _ _ _ _ H EF) as (s3 & E3 & H3). rewrite E3. cbn [bind].
  destruct (setParameters _ (theNet junk st) p1) as [n| | | |]; try discriminate E. cbn [bind] in *. injection E as <- <-. eauto.
Qed.
Lemma loop_sim d a fuel : forall st s' s st1, srel s' s -> loadLoop junk readBack d fuel st s (Word "parameters") = Ok st1 ->
  loadLoopText junk d fuel (mkTextNet junk st a) s' (str "parameters") = Ok (mkTextNet junk st1 a).
Proof.
  induction fuel as [|fuel IH]; intros st s' s st1 H E.
  - destruct H as [tr qs V H|s' tr H|w H]; cbn in E; try discriminate E. injection E as <-. cbn. now rewrite H.
  - destruct H as [tr qs V H|s' tr H|w H].
    + destruct (ends_read tr qs V H) as (v & qs' & -> & _). cbn [loadLoop eof] in E. unfold readToken in E. cbn [toks map trailing eof] in E.
      exfalso. destruct (map Num qs'); cbn in E; discriminate E.
    + cbn in E. injection E as <-. cbn. now rewrite H.
    + cbn [loadLoop eof readToken toks trailing] in E.
      destruct (loadEntry junk readBack d (Word "parameters") st (mkStream [] true true)) as [(st2, s2)| | | |] eqn:EE; try discriminate E. cbn [bind] in E.
      assert (EW : extractWord (fromText w) = (None, mkIn [] true true)) by (unfold extractWord, extract, fromText; cbn [eofbit failbit orb rest]; now rewrite white_skip).
      cbn [loadLoopText]. change (eofbit (fromText w)) with false. cbv iota. rewrite EW. cbv iota beta.
      destruct (entry_sim d st a (mkIn [] true true) (mkStream [] true true) st2 s2) as (s3 & E3 & H3); [now constructor|exact EE|]. rewrite E3. cbn [bind]. now apply (IH st2 s3 s2).
Qed.
Lemma ends_white c tr qs V : white c -> ends tr qs V -> ends tr qs (c ++ V).
Proof. intros Hc H. destruct H; rewrite app_assoc; constructor; auto; now apply white_app. Qed.
Lemma aligned_ends sep p w : white [sep] -> p <> [] -> white w -> ends (negb (isNil w)) (map readBack p) (aligned [sep] (map printDouble p) ++ w).
Proof.
  intros Hs Hp Hw. revert Hp. unfold aligned. generalize (fold_right Nat.max 0%nat (map (@length ascii) (map printDouble p))) as n. intros n.
  induction p as [|x p IH]; [congruence|]. intros _. destruct p as [|y p].
  - cbn. unfold pad. rewrite <- app_assoc. apply ends_one; [apply white_blanks|apply readBack_numeral|exact Hw].
  - specialize (IH ltac:(discriminate)). cbn [map join] in *. unfold pad at 1. rewrite <- !app_assoc. apply ends_more; [apply white_blanks|apply readBack_numeral|now apply sep_cons|].
    now apply ends_white.
Qed.
Lemma load_text d fuel cs p st1 w : Forall namesAreWords cs -> (length cs <= fuel)%nat -> white w ->
  load junk readBack d fuel (state_new junk) (mkStream (flat_map (callTokens readBack) cs ++ Word "parameters" :: map (dbl readBack) p) (match p with [] => true | _ => negb (isNil w) end) false) = Ok st1 ->
  loadText junk d fuel (textNet_new junk) (fromText ((flat_map callText cs ++ str "parameters " ++ aligned newline (map printDouble p)) ++ w)) = Ok (mkTextNet junk st1 (flat_map callText cs)).
Proof.
  intros HC HF Hw E. unfold load in E. unfold loadText. replace fuel with (length cs + (fuel - length cs))%nat in * by lia. set (f := (fuel - length cs)%nat) in *.
  destruct (load_calls junk readBack d cs f (state_new junk) (Word "parameters" :: map (dbl readBack) p) (match p with [] => true | _ => negb (isNil w) end) (Word "")) as (ty & EL); [discriminate|].
  rewrite EL in E. clear EL. rewrite <- !app_assoc.
  destruct (load_calls_text d cs f (textNet_new junk) [] (str "parameters " ++ aligned newline (map printDouble p) ++ w) [] ltac:(constructor) HC) as (ty' & lead & HL & EL). cbn [app] in EL. rewrite EL. clear EL.
  rewrite textCalls_run. cbn [member archText textNet_new app]. destruct (runCalls junk readBack d (map reread cs) (state_new junk)) as [sb| | | |]; try discriminate E. cbn [bind] in *.
  replace (flat_map callText (map reread cs)) with (flat_map callText cs).
  2: { clear. induction cs as [|c cs IH]; [reflexivity|]. cbn [map flat_map]. now rewrite callText_reread, IH. }
  destruct f as [|f]; [discriminate E|]. cbn [loadLoop loadLoopText eof eofbit fromText] in *. change (mkIn ?t false false) with (fromText t).
  assert (HW : isWord "parameters") by isword. change (str "parameters " ++ ?V) with (str "parameters" ++ blank ++ V). rewrite (keyword _ HW) by auto.
  set (V := aligned newline (map printDouble p)) in *.
  assert (SR : exists s, readToken (mkStream (Word "parameters" :: map (dbl readBack) p) (match p with [] => true | _ => negb (isNil w) end) false) = (Some (Word "parameters"), s) /\ srel (after (V ++ w)) s).
  { destruct p as [|x p].
    - eexists. split; [reflexivity|]. apply (srel_trailing ([" "%char] ++ w)). apply white_app; auto. apply white_one.
    - eexists. split; [reflexivity|]. change (map (dbl readBack) (x :: p)) with (map (fun x => Num (readBack x)) (x :: p)). rewrite <- (map_map readBack Num). apply srel_more.
      pose proof (aligned_ends "010"%char (x :: p) w ltac:(repeat constructor; cbn; tauto) ltac:(discriminate) Hw) as HE. fold newline in HE. fold V in HE.
      apply (ends_white [" "%char]); [apply white_one|exact HE]. }
  destruct SR as (s & ER & SR). rewrite ER in E.
  destruct (loadEntry junk readBack d (Word "parameters") sb s) as [(st2, s2)| | | |] eqn:EE; try discriminate E. cbn [bind] in E.
  destruct (entry_sim d sb (flat_map callText cs) _ _ _ _ SR EE) as (s3 & E3 & H3). rewrite E3. cbn [bind]. now apply (loop_sim d _ f st2 s3 s2).
Qed.
End Load.

(** * Networks in use *)
Section Used.
Variable junk : nat -> nat -> R.
Lemma runCall_architecture d st c st' : runCall junk readBack d st c = Ok st' -> architecture junk st' = architecture junk st ++ callTokens readBack c.
Proof.
  intros E. destruct c; cbn [runCall] in E; try (injection E as <-; reflexivity);
    (destruct (lastInfo junk (theNet junk st)) as [info| | | |]; try discriminate E; cbn [bind layerOf] in E;
     try (destruct (compressionMatrix _ _ _ _ _ _); try discriminate E; cbn [bind] in E);
     destruct (add junk (theNet junk st) (theReg junk st) _) as [s| | | |]; try discriminate E; cbn [bind] in E;
     try (destruct (initializeNetwork _ junk s); try discriminate E; cbn [bind] in E); injection E as <-; reflexivity).
Qed.
Definition spelled (st : textNet junk) : Prop := exists cs, Forall namesAreWords cs /\
  architecture junk (member junk st) = flat_map (callTokens readBack) cs /\ archText junk st = flat_map callText cs.
Lemma spelled_call d st c st' : spelled st -> namesAreWords c -> textCall junk d st c = Ok st' -> spelled st'.
Proof.
  intros (cs & H1 & H2 & H3) HC E. unfold textCall in E. destruct (runCall junk readBack d (member junk st) c) as [m| | | |] eqn:ER; try discriminate E. cbn [bind] in E. injection E as <-.
  exists (cs ++ [c]). split; [apply Forall_app; auto|]. cbn [member archText]. rewrite (runCall_architecture _ _ _ _ ER), !flat_map_app, H2, H3. cbn. now rewrite !app_nil_r.
Qed.
Lemma spelled_calls d cs : forall st st', spelled st -> Forall namesAreWords cs -> textCalls junk d cs st = Ok st' -> spelled st'.
Proof.
  induction cs as [|c cs IH]; intros st st' H HC E; [injection E as <-; exact H|]. inversion HC; subst. unfold textCalls in E. cbn [for_each] in E.
  destruct (textCall junk d st c) as [st1| | | |] eqn:EC; try discriminate E. cbn [bind] in E. apply (IH st1); auto. now apply (spelled_call d st c).
Qed.
Lemma setting_words c : isSetting c -> namesAreWords c.
Proof. now destruct c. Qed.
Lemma used_member d cs st : Forall namesAreWords cs -> usedText junk d cs st -> used junk readBack d cs (member junk st) /\ spelled st.
Proof.
  intros HC H. induction H as [st E HO|st s H (IH1 & IH2) HS HE|st c st' H (IH1 & IH2) HS E].
  - split.
    + rewrite textCalls_run in E. cbn [member textNet_new] in E. destruct (runCalls junk readBack d cs (state_new junk)) as [m| | | |] eqn:ER; try discriminate E. cbn [bind] in E. injection E as <-. now apply used_build.
    + apply (spelled_calls d cs (textNet_new junk)); auto. exists []. repeat split; auto.
  - split; [now apply used_call|]. destruct IH2 as (l & L1 & L2 & L3). exists l. auto.
  - split.
    + unfold textCall in E. destruct (runCall junk readBack d (member junk st) c) as [m| | | |] eqn:ER; try discriminate E. cbn [bind] in E. injection E as <-. now apply (used_setting _ _ _ _ (member junk st) c).
    + apply (spelled_call d st c); auto. now apply setting_words.
Qed.
End Used.

(** loading what has been saved: from tokens to text *)
Lemma load_saved_text junk junk' d' st st1 n w : spelled junk st -> white w ->
  (forall fuel, (n <= fuel)%nat -> load junk' readBack d' fuel (state_new junk')
     (mkStream (toks (save junk readBack (member junk st))) (match currentParameters _ (theNet junk (member junk st)) with [] => true | _ => negb (isNil w) end) false) = Ok st1) ->
  exists n', forall fuel, (n' <= fuel)%nat -> loadText junk' d' fuel (textNet_new junk') (fromText (saveText junk st ++ w)) = Ok (mkTextNet junk' st1 (archText junk st)).
Proof.
  intros (cs & H1 & H2 & H3) Hw H. exists (n + length cs)%nat. intros fuel Hf. unfold saveText. rewrite H3. apply load_text; [auto|lia|auto|]. unfold save in H. cbn [toks] in H. rewrite H2 in H. apply H. lia.
Qed.
