(** What a user expects of a higher-order (sigma-pi) layer. *)
From Verif Require Import Base BaseFacts Matrix RSum MatOps Vec Activation_Model Layer_Model Layer_Spec
  SigmaPi_Model.
Local Open Scope R_scope.

(** * How a layer is built *)
Inductive order := Second | Third | Fourth.
Definition degree (o : order) : nat := match o with Second => 2 | Third => 3 | Fourth => 4 end.
(** one call of secondOrderNodes, thirdOrderNodes or fourthOrderNodes: order, number of
    neurons, constraint *)
Record nodeCall := mkCall { corder : order; cnumbers : nat; cconstraint : constraint }.
Definition addNodes (k : nodeCall) : sp -> res sp :=
  match corder k with
  | Second => secondOrderNodes (cnumbers k) (cconstraint k)
  | Third => thirdOrderNodes (cnumbers k) (cconstraint k)
  | Fourth => fourthOrderNodes (cnumbers k) (cconstraint k)
  end.
(** constructor, then calls that add neurons, then initialize *)
Definition sp_build (junk : nat -> nat -> R) (I : nat) (bias : bool) (act : ActivationFunction)
    (calls : list nodeCall) : res sp :=
  s <- for_each calls addNodes (sp_new junk I bias act) ;; sp_setup junk s.

(** the neurons that are requested: degree and constraint *)
Definition requested (calls : list nodeCall) : list (nat * constraint) :=
  flat_map (fun k => repeat (degree (corder k), cconstraint k) (cnumbers k)) calls.

(** * What a neuron computes *)

(** the strictly increasing sequences of [d] numbers in lo, ..., hi - 1 *)
Fixpoint tuples (d lo hi : nat) : list (list nat) :=
  match d with
  | O => [[]]
  | S d' => flat_map (fun p => map (cons p) (tuples d' (p + 1) hi)) (seq lo (hi - lo))
  end.

(** the product of the inputs at the given positions *)
Definition monomial (X : mat) (n : nat) (pos : list nat) : R :=
  fold_right (fun i r => at_ X n i * r) 1 pos.

(** the sum of all weighted products of [d] different inputs *)
Definition higherOrderSum (I d : nat) (weight : list nat -> R) (X : mat) (n : nat) : R :=
  lsum (map (fun pos => weight pos * monomial X n pos) (tuples d 0 I)).

(** * Which units share a weight.
    [wi j pos] is the index of the parameter that the [j]-th neuron uses for the product of
    the inputs at [pos]; [K] is the number of parameters. *)
Record weights_assigned (I : nat) (ns : list (nat * constraint)) (wi : nat -> list nat -> nat)
    (K : nat) : Prop := mkWA {
  wa_range : forall j d c pos, nth_error ns j = Some (d, c) -> In pos (tuples d 0 I) -> (wi j pos < K)%nat;
  (** every parameter is used *)
  wa_used : forall k, (k < K)%nat -> exists j d c pos,
    nth_error ns j = Some (d, c) /\ In pos (tuples d 0 I) /\ wi j pos = k;
  (** different neurons have different weights *)
  wa_neurons : forall j d c pos j' d' c' pos',
    nth_error ns j = Some (d, c) -> In pos (tuples d 0 I) ->
    nth_error ns j' = Some (d', c') -> In pos' (tuples d' 0 I) ->
    wi j pos = wi j' pos' -> j = j';
  (** without a constraint every unit has a weight of its own *)
  wa_free : forall j d pos pos', nth_error ns j = Some (d, None) ->
    In pos (tuples d 0 I) -> In pos' (tuples d 0 I) -> wi j pos = wi j pos' -> pos = pos';
  (** with a constraint, units with equal values of the constraint share a weight, and
      units whose values differ by at least 0.002 do not *)
  wa_shared : forall j d f pos pos' r r', nth_error ns j = Some (d, Some f) ->
    In pos (tuples d 0 I) -> In pos' (tuples d 0 I) -> f pos = Ok r -> f pos' = Ok r' ->
    (r = r' -> wi j pos = wi j pos') /\ (wi j pos = wi j pos' -> Rabs (r - r') < 0.002) }.

(** the derivative pointers hold the partial derivatives of [objective] with respect to the
    parameters (the part of [partials_exact] that does not concern the input) *)
Definition parameter_partials_exact (c : LayerClass) (s : St c) (p : list R) (X : mat)
    (dropout : bool) (e : mat) (bp : bool) : Prop :=
  exists q q1 Y reg q2 eout,
    install c s p = Ok q /\ forwardPropagate c q X dropout = Ok (q1, Y, reg) /\
    backpropagate c q1 e bp = Ok (q2, eout) /\
    forall k, (k < length p)%nat -> exists f g,
      (forall v, objective c s (upd p k v) X dropout e (f v)) /\
      readDeriv c q2 k = Ok g /\ derivable_pt_lim f p.[k] g.

(** * Translation of images *)

(** the pixel in column [x] and row [y] of an image with [W] columns that is stored row by
    row in row [n] of [X] *)
Definition pixelAt (W : nat) (X : mat) (n : nat) (x y : Z) : R := at_ X n (Z.to_nat (y * Z.of_nat W + x)).
Definition onImage (W H : nat) (x y : Z) : Prop := (0 <= x < Z.of_nat W /\ 0 <= y < Z.of_nat H)%Z.

(** Row [n'] of [X'] is the image in row [n] of [X], spread by the factor [z] and moved by
    [dx] columns and [dy] rows: the pixel at (x, y) goes to (z x + dx, z y + dy), every pixel
    that is not 0 stays on the image, and pixels to which no pixel goes are 0. *)
Definition spread (W H : nat) (z dx dy : Z) (X : mat) (n : nat) (X' : mat) (n' : nat) : Prop :=
  (forall x y, onImage W H x y -> pixelAt W X n x y <> 0 -> onImage W H (z * x + dx) (z * y + dy)) /\
  (forall x y, onImage W H x y -> onImage W H (z * x + dx) (z * y + dy) ->
     pixelAt W X' n' (z * x + dx) (z * y + dy) = pixelAt W X n x y) /\
  (forall x' y', onImage W H x' y' -> pixelAt W X' n' x' y' <> 0 ->
     exists x y, onImage W H x y /\ x' = (z * x + dx)%Z /\ y' = (z * y + dy)%Z).
(** the same image, moved *)
Definition translated (W H : nat) (dx dy : Z) := spread W H 1 dx dy.

(** a sequence is in [tuples d lo hi] if and only if it has length [d] and increases
    strictly from at least [lo] to below [hi] *)
Fixpoint increasing (lo hi : nat) (l : list nat) : Prop :=
  match l with [] => True | p :: l' => (lo <= p < hi)%nat /\ increasing (p + 1) hi l' end.
Lemma tuples_In d : forall lo hi l, In l (tuples d lo hi) <-> length l = d /\ increasing lo hi l.
Proof.
  induction d as [|d IH]; intros lo hi l; cbn [tuples].
  - destruct l; cbn; split; try tauto; [intros [E|[]]; discriminate|intros (E & _); discriminate].
  - rewrite in_flat_map. split.
    + intros (p & Hp & Hl). apply in_seq in Hp. apply in_map_iff in Hl. destruct Hl as (l' & <- & Hl).
      apply IH in Hl. destruct Hl as (H1 & H2). cbn [length increasing]. split; [lia|]. split; [lia|auto].
    + intros (H1 & H2). destruct l as [|p l']; [discriminate|]. cbn [length increasing] in *.
      exists p. split; [apply in_seq; lia|]. apply in_map. apply IH. split; [lia|tauto].
Qed.
