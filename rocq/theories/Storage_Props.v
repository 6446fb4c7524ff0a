(** Properties C07 (DataStream), C08 (DirectStorageDataSet), C10 (random helpers). *)
From Verif Require Import BaseFacts Storage_Model DataSet_Model Storage_Proofs.

Section Props.
Context {V : Type}.

(** C07.  After feeding [k] samples to a stream with cache size [c] the optimizer
    took floor(k/c) steps; at step [j] the training set held exactly the samples
    j*c .. (j+1)*c-1 in order. *)
Theorem C07_stream_trains_per_full_cache :
  forall c (samples : list (V * V)), 0 < c ->
  exists s, feed (map (fun p => (fst p, Some (snd p))) samples)
                 (setOptimizer (setLearner (newStream c))) = Ok s /\
    length (steps s) = length samples / c /\
    forall j, j < length samples / c ->
      nth_error (steps s) j =
        Some (map (fun p => Some (fst p)) (firstn c (skipn (j * c) samples)),
              map (fun p => Some (snd p)) (firstn c (skipn (j * c) samples))).
Proof. exact stream_ok. Qed.

(** C07, samples without targets. *)
Theorem C07_stream_unsupervised :
  forall c (xs : list V), 0 < c ->
  exists s, feed (map (fun x => (x, None)) xs)
                 (setOptimizer (setLearner (newStream c))) = Ok s /\
    length (steps s) = length xs / c /\
    forall j, j < length xs / c ->
      nth_error (steps s) j = Some (map Some (firstn c (skipn (j * c) xs)), []).
Proof. exact stream_ok_unsupervised. Qed.

(** C07.  A first sample without target followed by one with a target writes to a
    matrix that was never allocated. *)
Theorem C07_mixed_targets_refuted :
  forall c (x y t : V), 1 < c ->
  feed [(x, None); (y, Some t)] (setOptimizer (setLearner (newStream c))) = UB.
Proof.
  intros c x y t Hc. destruct c as [|[|c]]; [lia|lia|]. reflexivity.
Qed.

(** C08.  A reference to instance [i] denotes row [i] as long as only targets (or
    the same instance) are requested afterwards ... *)
Theorem C08_instance_reference_partial :
  forall (ins : list V) (outs : option (list V)) t i, i < length ins ->
  exists r t' x, access ins outs t (GetInstance i) = Ok (r, t') /\ nth_error ins i = Some x /\
    forall later t'',
      Forall (fun a => match a with GetTarget _ => True | GetInstance j => j = i end) later ->
      accesses ins outs later t' = Ok t'' -> deref r t'' = x.
Proof. exact getInstance_value. Qed.

Theorem C08_target_reference_partial :
  forall (ins outs : list V) t i, i < length outs ->
  exists r t' x, access ins (Some outs) t (GetTarget i) = Ok (r, t') /\ nth_error outs i = Some x /\
    forall later t'',
      Forall (fun a => match a with GetInstance _ => True | GetTarget j => j = i end) later ->
      accesses ins (Some outs) later t' = Ok t'' -> deref r t'' = x.
Proof. exact getTarget_value. Qed.

(** ... and no longer: reading any instance with different contents changes it. *)
Theorem C08_two_instances_refuted :
  forall (ins : list V) outs t i j x y,
  nth_error ins i = Some x -> nth_error ins j = Some y -> x <> y ->
  exists r t' t'', access ins outs t (GetInstance i) = Ok (r, t') /\
    accesses ins outs [GetInstance j] t' = Ok t'' /\ deref r t'' <> x.
Proof. exact reference_overwritten. Qed.
End Props.

(** C10.  generateInt(min, range) lies in [min, min+range), or is min if range = 0;
    every number of the interval can occur. *)
Theorem C10_generateInt_range :
  forall r min range, (0 <= r -> 0 <= range ->
  exists v, generateInt r min range = Ok v /\
    (range = 0 -> v = min) /\ (0 < range -> min <= v < min + range))%Z.
Proof. exact generateInt_range. Qed.

Theorem C10_generateInt_onto :
  forall min range v, (min <= v < min + range ->
  exists r, 0 <= r < range /\ generateInt r min range = Ok v)%Z.
Proof. exact generateInt_onto. Qed.

(** C10.  generateIndex(size) is a valid index of a non-empty container. *)
Theorem C10_generateIndex_valid :
  forall r size, (0 <= r -> 0 < size ->
  exists v, generateIndex r size = Ok v /\ 0 <= v < size)%Z.
Proof.
  intros r size Hr Hs. unfold generateIndex.
  destruct (generateInt_range r 0 size Hr ltac:(lia)) as (v & E & _ & H). exists v. auto.
Qed.

(** C10.  generateIndices gives a permutation of 0..n-1, also on a second shuffle. *)
Theorem C10_generateIndices_permutation :
  forall n shuf, (forall l, Permutation l (shuf l)) ->
  (exists l, generateIndices n [] false shuf = Ok l /\ Permutation l (seq 0 n)) /\
  (forall old, Permutation old (seq 0 n) ->
     exists l, generateIndices n old true shuf = Ok l /\ Permutation l (seq 0 n)).
Proof.
  intros n shuf H. split; [exact (generateIndices_fresh n shuf H)|].
  intros old. exact (generateIndices_again n old shuf H).
Qed.

(** generate<double>(min, range) lies in the closed interval [min, min+range] ... *)
Theorem C10_generateReal_range :
  forall r RAND_MAX min range,
  (0 <= r <= RAND_MAX)%Z -> (0 < RAND_MAX)%Z -> (0 <= range)%R ->
  exists v, generateReal r RAND_MAX min range = Ok v /\ (min <= v <= min + range)%R.
Proof. exact generateReal_range. Qed.

(** ... and not in the documented half-open one: rand() = RAND_MAX gives the end. *)
Theorem C10_generateReal_half_open_refuted :
  forall RAND_MAX min range, (0 < RAND_MAX)%Z -> (0 < range)%R ->
  generateReal RAND_MAX RAND_MAX min range = Ok (min + range)%R.
Proof. exact generateReal_end. Qed.

Print Assumptions C07_stream_trains_per_full_cache.
Print Assumptions C07_stream_unsupervised.
Print Assumptions C07_mixed_targets_refuted.
Print Assumptions C08_instance_reference_partial.
Print Assumptions C08_target_reference_partial.
Print Assumptions C08_two_instances_refuted.
Print Assumptions C10_generateInt_range.
Print Assumptions C10_generateInt_onto.
Print Assumptions C10_generateIndex_valid.
Print Assumptions C10_generateIndices_permutation.
Print Assumptions C10_generateReal_range.
Print Assumptions C10_generateReal_half_open_refuted.

(** five samples and a cache of two: two steps *)
Example ex_stream : option_map (fun s => steps s)
  (match feed (map (fun p => (fst p, Some (snd p))) [(1,10);(2,20);(3,30);(4,40);(5,50)])
         (setOptimizer (setLearner (newStream 2))) with Ok s => Some s | _ => None end)
  = Some [([Some 1; Some 2], [Some 10; Some 20]); ([Some 3; Some 4], [Some 30; Some 40])].
Proof. reflexivity. Qed.

Example ex_access : exists r t', access [1; 2; 3] (Some [4; 5; 6]) (mkTemps 0 0) (GetInstance 2)
  = Ok (r, t') /\ accesses [1; 2; 3] (Some [4; 5; 6]) [GetTarget 0; GetInstance 2] t' = Ok (mkTemps 3 4).
Proof. do 2 eexists. split; reflexivity. Qed.
