(** Layers whose neurons have TriangleConstraints. *)
From Verif Require Import Base BaseFacts Matrix RSum MatOps Activation_Model Layer_Model SigmaPi_Model SigmaPi_Spec
  Triangle_Model.
Local Open Scope R_scope.

(** one call that adds neurons *)
Record triCall := mkTCall { torder : order; tnumbers : nat; tkind : kind }.
Definition addNodesT (k : triCall) : sp * list triangle -> res (sp * list triangle) :=
  match torder k with
  | Second => secondOrderNodesT (tnumbers k) (tkind k)
  | Third => thirdOrderNodesT (tnumbers k) (tkind k)
  | Fourth => fourthOrderNodesT (tnumbers k) (tkind k)
  end.
(** constructor, calls that add neurons, initialize *)
Definition sp_buildT (junk : nat -> nat -> R) (I : nat) (bias : bool) (act : ActivationFunction)
    (calls : list triCall) (objs : list triangle) : res (sp * list triangle) :=
  ' (s, objs') <- for_each calls addNodesT (sp_new junk I bias act, objs) ;;
  s' <- sp_setup junk s ;; Ok (s', objs').

(** the neurons that are requested *)
Definition requestedT (calls : list triCall) : list (nat * kind) :=
  flat_map (fun k => repeat (degree (torder k), tkind k) (tnumbers k)) calls.

(** the three angles of a triangle of pixels, in units of the resolution, rounded down *)
Definition anglesOf (o : triangle) (pos : list nat) : option (Z * Z * Z) :=
  match pos with [p1; p2; p3] => Some (triangleKey (twidth o) (tresolution o) p1 p2 p3) | _ => None end.
(** the same angles in the same cyclic order *)
Definition sameAngles (a b : Z * Z * Z) : Prop :=
  let '(x, y, z) := a in b = (x, y, z) \/ b = (y, z, x) \/ b = (z, x, y).

(** Which units share a weight: as in [weights_assigned], and units of a neuron with a
    TriangleConstraint share a weight if their triangles have the same angles. *)
Record triangles_assigned (I : nat) (ns : list (nat * kind)) (objs : list triangle)
    (wi : nat -> list nat -> nat) (K : nat) : Prop := mkTA {
  ta_range : forall j d k pos, nth_error ns j = Some (d, k) -> In pos (tuples d 0 I) -> (wi j pos < K)%nat;
  ta_used : forall i, (i < K)%nat -> exists j d k pos,
    nth_error ns j = Some (d, k) /\ In pos (tuples d 0 I) /\ wi j pos = i;
  ta_neurons : forall j d k pos j' d' k' pos',
    nth_error ns j = Some (d, k) -> In pos (tuples d 0 I) ->
    nth_error ns j' = Some (d', k') -> In pos' (tuples d' 0 I) ->
    wi j pos = wi j' pos' -> j = j';
  ta_free : forall j d pos pos', nth_error ns j = Some (d, Pure None) ->
    In pos (tuples d 0 I) -> In pos' (tuples d 0 I) -> wi j pos = wi j pos' -> pos = pos';
  ta_shared : forall j d f pos pos' r r', nth_error ns j = Some (d, Pure (Some f)) ->
    In pos (tuples d 0 I) -> In pos' (tuples d 0 I) -> f pos = Ok r -> f pos' = Ok r' ->
    (r = r' -> wi j pos = wi j pos') /\ (wi j pos = wi j pos' -> Rabs (r - r') < 0.002);
  ta_triangle : forall j m d o pos pos' a b, nth_error ns j = Some (d, Tri m) -> nth_error objs m = Some o ->
    In pos (tuples d 0 I) -> In pos' (tuples d 0 I) ->
    anglesOf o pos = Some a -> anglesOf o pos' = Some b -> sameAngles a b -> wi j pos = wi j pos' }.

(** Row [n'] of [X'] is the square image in row [n] of [X] after a quarter turn. *)
Definition quarterTurn (W : nat) (X : mat) (n : nat) (X' : mat) (n' : nat) : Prop :=
  forall x y, onImage W W x y -> pixelAt W X' n' (Z.of_nat W - 1 - y) x = pixelAt W X n x y.
