(** Property C97: network files as text. *)
From Coq Require Import Ascii String.
From Verif Require Import Base BaseFacts Matrix Vec Activation_Model Layer_Model Net_Model NetBuild_Model NetUse_Spec NetBuild_Proofs NetIO_Model NetIO_Spec NetIO_Proofs NetPrint_Proofs NetIO_Props Text_Model Text_Spec Text_Proofs TextPrint_Proofs
  TextIO_Model TextIO_Proofs TextSVM_Proofs TextNet_Model TextNet_Spec TextNet_Proofs Text_Props.
Local Open Scope R_scope.
Local Open Scope list_scope.

Lemma saved_loaded junk junk' d d' cs st w : complete cs -> Forall noMaxNorm cs -> Forall namesAreWords cs -> usedText junk d cs st -> white w ->
  exists st1 n pre d1 d2 d3 mid out, cs = pre ++ InputLayer d1 d2 d3 :: mid ++ [out] /\
    (forall fuel, (n <= fuel)%nat -> loadText junk' d' fuel (textNet_new junk') (fromText (saveText junk st ++ w)) = Ok (mkTextNet junk' st1 (archText junk st))) /\
    loaded junk junk' readBack pre d1 d2 d3 mid out (member junk st) st1.
Proof.
  intros (pre & d1 & d2 & d3 & mid & out & -> & H1 & H2 & H3) HN HW HU Hw. destruct (used_member junk d _ st HW HU) as (U & S).
  destruct (load_saved_white junk junk' readBack readBack_printing pre d1 d2 d3 mid out H1 H2 H3 HN d d' (member junk st)
    (match currentParameters _ (theNet junk (member junk st)) with [] => true | _ => negb (isNil w) end) U) as (st1 & n & HL & LD); [now intros ->|].
  destruct (load_saved_text junk junk' d' st st1 n w S Hw HL) as (n' & HT). exists st1, n', pre, d1, d2, d3, mid, out. auto.
Qed.

(** C97.  For every network without maximal norms, with any layers and after any use, load accepts the text that save has written, also
    if white space has been added at the end.  The new network has the same numbers of inputs and outputs, the same error function, as
    many parameters, each of them the closest number with six digits, and writes the same text when it is saved again. *)
Theorem C97_load_accepts_saved :
  forall junk junk' d d' cs st w,
  complete cs -> Forall noMaxNorm cs -> Forall namesAreWords cs -> usedText junk d cs st -> white w ->
  exists st' n, (forall fuel, (n <= fuel)%nat -> loadText junk' d' fuel (textNet_new junk') (fromText (saveText junk st ++ w)) = Ok st') /\
    let a := theNet junk (member junk st) in let b := theNet junk' (member junk' st') in
    netInputs b = netInputs a /\ netOutputs b = netOutputs a /\ dimension _ b = dimension _ a /\ errorFunction _ b = errorFunction _ a /\
    length (currentParameters _ b) = length (currentParameters _ a) /\
    (forall k, (k < length (currentParameters _ a))%nat -> closestSix (currentParameters _ a).[k] (currentParameters _ b).[k]) /\
    saveText junk' st' = saveText junk st.
Proof.
  intros junk junk' d d' cs st w H1 H2 H3 H4 H5. destruct (saved_loaded junk junk' d d' cs st w H1 H2 H3 H4 H5) as (st1 & n & pre & d1 & d2 & d3 & mid & out & _ & HL & LD).
  eexists. exists n. split; [exact HL|]. cbv zeta. cbn [member]. destruct LD. split; auto. split; auto. split; auto. split; auto. rewrite ld_vector, map_length. split; auto. split.
  - intros k Hk. rewrite (nth_indep (map readBack _) 0 (readBack 0)) by (now rewrite map_length). rewrite map_nth, readBack_six. apply roundSix_closest.
  - unfold saveText. cbn [member archText]. rewrite ld_vector, map_map. do 3 f_equal. apply map_ext. intros x. apply readBack_again.
Qed.

(** C97.  The loaded network computes the same function and has the same errors as the saved network after its parameters have been
    replaced by the closest numbers with six digits and dropout has been switched off.
    Partial: false for layers that are determined by random numbers which are not parameters, as extreme learning machines, and for
    penalties and probabilities with more than six digits (see C40). *)
Theorem C97_loaded_is_rounded_partial :
  forall junk junk' d d' cs st w,
  complete cs -> Forall noMaxNorm cs -> Forall namesAreWords cs -> Forall restorable cs -> Forall exactArguments cs -> usedText junk d cs st -> white w ->
  exists st' n p s, (forall fuel, (n <= fuel)%nat -> loadText junk' d' fuel (textNet_new junk') (fromText (saveText junk st ++ w)) = Ok st') /\
    Forall2 closestSix (currentParameters _ (theNet junk (member junk st))) p /\
    setParameters _ (useDropout _ (theNet junk (member junk st)) false) p = Ok s /\
    sameOutputs s (theNet junk' (member junk' st')) /\ sameErrors s (theNet junk' (member junk' st')).
Proof.
  intros junk junk' d d' cs st w H1 H2 H3 HR HX H4 H5. destruct (saved_loaded junk junk' d d' cs st w H1 H2 H3 H4 H5) as (st1 & n & pre & d1 & d2 & d3 & mid & out & Ecs & HL & LD).
  subst cs. destruct (ld_same _ _ _ _ _ _ _ _ _ _ _ LD HR HX) as (s & E & S1 & S2). eexists. exists n, (map readBack (currentParameters _ (theNet junk (member junk st)))), s.
  split; [exact HL|]. split; [|auto]. generalize (currentParameters _ (theNet junk (member junk st))). intros l. induction l as [|x l IH]; constructor; auto. rewrite readBack_six. apply roundSix_closest.
Qed.
(** C97.  It computes the same function and the same errors as the saved network if no parameter needs more than six digits and the
    saved network is not in dropout mode.  Partial: false for other parameters (C40_precision_refuted). *)
Theorem C97_save_load_partial :
  forall junk junk' d d' cs st w,
  complete cs -> Forall noMaxNorm cs -> Forall namesAreWords cs -> Forall restorable cs -> Forall exactArguments cs -> usedText junk d cs st -> white w ->
  Forall sixDigits (currentParameters _ (theNet junk (member junk st))) -> dropout _ (theNet junk (member junk st)) = false ->
  exists st' n, (forall fuel, (n <= fuel)%nat -> loadText junk' d' fuel (textNet_new junk') (fromText (saveText junk st ++ w)) = Ok st') /\
    currentParameters _ (theNet junk' (member junk' st')) = currentParameters _ (theNet junk (member junk st)) /\
    sameOutputs (theNet junk (member junk st)) (theNet junk' (member junk' st')) /\ sameErrors (theNet junk (member junk st)) (theNet junk' (member junk' st')).
Proof.
  intros junk junk' d d' cs st w H1 H2 H3 HR HX H4 H5 HS HD. destruct (saved_loaded junk junk' d d' cs st w H1 H2 H3 H4 H5) as (st1 & n & pre & d1 & d2 & d3 & mid & out & Ecs & HL & LD). subst cs.
  assert (E : map readBack (currentParameters _ (theNet _ (member junk st))) = currentParameters _ (theNet _ (member junk st))).
  { rewrite <- map_id. apply map_ext_in. intros x Hx. apply readBack_printing. rewrite Forall_forall in HS. auto. }
  eexists. exists n. split; [exact HL|]. cbn [member]. destruct (ld_exact _ _ _ _ _ _ _ _ _ _ _ LD HR HX HD E) as (S1 & S2).
  rewrite (ld_vector _ _ _ _ _ _ _ _ _ _ _ LD). auto.
Qed.

(** C97 is false for names of compressions that are not words: any name other than the known ones stands for sparse random matrices,
    but load takes the second word for the standard deviation, which is then used without a value. *)
Theorem C97_compression_name_refuted :
  exists junk d cs st, complete cs /\ Forall noMaxNorm cs /\ usedText junk d cs st /\
    forall junk' d' fuel, (2 <= fuel)%nat -> loadText junk' d' fuel (textNet_new junk') (fromText (saveText junk st)) = UB.
Proof.
  set (out := CompressedOutputCall 1 1 LINEAR "sparse random" 1 false). set (cs := [InputLayer 1 1 1; out]).
  assert (C : complete cs). { exists [], 1%nat, 1%nat, 1%nat, [], out. split; [reflexivity|]. repeat split; constructor. }
  assert (B : exists st, runCalls zeros readBack (all_draws 1) cs (state_new zeros) = Ok st /\ (0 < netOutputs (theNet zeros st))%nat).
  { eexists. split; [|shelve]. cbn - [readBack]. unfold compressionMatrix. cbn. rewrite (proj2 (Rltb_false 1 (1 / 6))) by lra. rewrite (proj2 (Rltb_false 1 (5 / 6))) by lra. cbn. reflexivity. Unshelve. cbn. lia. }
  destruct B as (st & E & HO). exists zeros, (all_draws 1), cs, (mkTextNet zeros st (flat_map callText cs)). split; auto. split; [repeat constructor|]. split.
  - apply usedText_build; auto. rewrite textCalls_run. cbn [member textNet_new archText]. rewrite E. reflexivity.
  - intros junk' d' fuel Hf. unfold saveText. cbn [archText cs flat_map]. rewrite app_nil_r, <- app_assoc.
    destruct fuel as [|fuel]; [lia|]. unfold loadText.
    destruct (load_call_text junk' d' fuel (textNet_new junk') (InputLayer 1 1 1) [] (callText out ++ str "parameters " ++ aligned newline (map printDouble (currentParameters _ (theNet zeros (member zeros (mkTextNet zeros st (callText (InputLayer 1 1 1) ++ callText out))))))) [] ltac:(constructor) Logic.I) as (ty & EL).
    cbn [app] in EL. unfold callText at 2 3 in EL. match type of EL with loadLoopText _ _ _ _ ?t _ = _ => match goal with |- loadLoopText _ _ _ _ ?u _ = _ => change u with t end end. rewrite EL. clear EL.
    unfold textCall. cbn [NetIO_Proofs.reread runCall member textNet_new bind]. destruct fuel as [|fuel]; [lia|]. reflexivity.
Qed.

Print Assumptions C97_load_accepts_saved.
Print Assumptions C97_loaded_is_rounded_partial.
Print Assumptions C97_save_load_partial.
Print Assumptions C97_compression_name_refuted.

(** The hypotheses are met by a convolutional network with all kinds of settings, for any random numbers. *)
Example ex_calls_text junk d : complete ex_calls /\ Forall noMaxNorm ex_calls /\ Forall namesAreWords ex_calls /\ Forall restorable ex_calls /\ Forall exactArguments ex_calls /\
  exists st, usedText junk d ex_calls st.
Proof.
  destruct (ex_calls_meet junk readBack d) as (H1 & H2 & H3 & H4 & st & H5). split; auto. split; auto. split; [repeat constructor|]. split; auto. split; auto.
  assert (B : exists s, runCalls junk readBack d ex_calls (state_new junk) = Ok s /\ (0 < netOutputs (theNet junk s))%nat) by (clear -H5; induction H5; eauto).
  destruct B as (s & E & HO). eexists. apply usedText_build; [rewrite textCalls_run; cbn [member textNet_new]; rewrite E; reflexivity|exact HO].
Qed.
(** The text of a network with two weights that are aligned below each other *)
Example ex_text : exists st, usedText zeros (mkDraws (fun _ _ i => match i with O => 1 | _ => -1 / 4 end) (fun _ _ => 0) (fun _ _ _ => 0) (fun _ _ _ => 0) (fun _ _ _ _ => 0))
    [InputLayer 1 1 2; SetErrorFunctionCall CE; OutputCall 1 LINEAR 1 false] st /\
  saveText zeros st = str "input 1 1 2 error_function 2 output 1 4 1 0 parameters     1" ++ newline ++ str "-0.25".
Proof.
  assert (E1 : printDouble 1 = str "1") by digits_of 0%Z 100000%Z.
  assert (E2 : printDouble (1 * (-1 / 4)) = str "-0.25") by digits_of (-1)%Z 250000%Z.
  assert (E3 : printDouble (1 * 1) = str "1") by (rewrite Rmult_1_l; exact E1).
  eexists. split; [apply usedText_build; [reflexivity|cbn; lia]|]. unfold saveText. cbn - [printDouble str]. unfold callText. cbn - [printDouble str]. rewrite E1, E2, E3. reflexivity.
Qed.
