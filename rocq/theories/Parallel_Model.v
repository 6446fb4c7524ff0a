(** Model of the loops marked [#pragma omp parallel for]: the threads of a team execute the iterations of a
    loop concurrently.  The library is compiled with -fopenmp if it is available (/repo/CMakeLists.txt 46, 86).
    Each loop body is written here as a program whose reads and writes of shared matrices are visible. *)
From Verif Require Import Base BaseFacts Matrix RSum Acc MatOps Layer_Model Conv_Model Pool_Model SigmaPi_Model
  SimpleLayers_Model LRN_Model Preproc_Model.
Local Open Scope R_scope.

(** * Shared memory *)

(** the matrices that the loops use: x, a, y, e, *ein (deltas), denoms, etmp, w, images, patches, W[o][i],
    Wd[o][i] and Wb of Convolutional, W[o] and Wb[o] of Subsampling *)
Inductive array : Type :=
| AInput | AAct | AOut | AErr | AErrIn | ADenoms | AEtmp | AWeights | AImages | APatches
| AKernel (o i : nat) | AKernelGrad (o i : nat) | ABias
| APoolWeight (o : nat) | APoolBias (o : nat).

Definition array_dec (b c : array) : {b = c} + {b <> c}.
Proof. decide equality; apply Nat.eq_dec. Defined.

(** an element of a matrix *)
Definition location : Type := (array * nat * nat)%type.

(** the matrices that exist and their contents *)
Definition memory : Type := array -> option mat.

Definition mem_set (m : memory) (b : array) (a : mat) : memory :=
  fun c => if array_dec c b then Some a else m c.

(** reading and writing an element; outside of the matrix this is undefined *)
Definition load (m : memory) (l : location) : res R :=
  let '(b, i, j) := l in
  match m b with Some a => mget a i j | None => UB end.
Definition store (m : memory) (l : location) (v : R) : res memory :=
  let '(b, i, j) := l in
  match m b with Some a => a' <- mset a i j v ;; Ok (mem_set m b a') | None => UB end.

(** * Programs: a thread alternates between local computations and accesses to the shared memory.
    [Stop] is a failed assertion or undefined behaviour in a local computation. *)
Inductive prog (A : Type) : Type :=
| Ret (a : A)
| Read (l : location) (k : R -> prog A)
| Write (l : location) (v : R) (k : prog A)
| Stop.
Arguments Ret {A} a.
Arguments Read {A} l k.
Arguments Write {A} l v k.
Arguments Stop {A}.

Fixpoint pbind {A B} (p : prog A) (f : A -> prog B) : prog B :=
  match p with
  | Ret a => f a
  | Read l k => Read l (fun v => pbind (k v) f)
  | Write l v k => Write l v (pbind k f)
  | Stop => Stop
  end.

Declare Scope prog_scope.
Delimit Scope prog_scope with prog.
Notation "x <~ p ;; k" := (pbind p (fun x => k))
  (at level 61, p at next level, right associativity) : prog_scope.
Notation "' x <~ p ;; k" := (pbind p (fun x => k))
  (at level 61, x pattern, p at next level, right associativity) : prog_scope.
Open Scope prog_scope.

Definition get (b : array) (i j : nat) : prog R := Read (b, i, j) Ret.
Definition put (b : array) (i j : nat) (v : R) : prog unit := Write (b, i, j) v (Ret tt).
(** [b(i, j) += v] *)
Definition add (b : array) (i j : nat) (v : R) : prog unit := y <~ get b i j ;; put b i j (y + v).
(** a computation on local variables *)
Definition local {A} (r : res A) : prog A := match r with Ok a => Ret a | _ => Stop end.

(** loops; the state consists of local variables *)
Fixpoint pfor_from {St} (from n : nat) (body : nat -> St -> prog St) (s : St) : prog St :=
  match n with
  | O => Ret s
  | S n' => s' <~ body from s ;; pfor_from (S from) n' body s'
  end.
Definition pfor {St} (n : nat) (body : nat -> St -> prog St) (s : St) : prog St := pfor_from 0 n body s.
Fixpoint pfor_each {A St} (l : list A) (body : A -> St -> prog St) (s : St) : prog St :=
  match l with
  | [] => Ret s
  | a :: l' => s' <~ body a s ;; pfor_each l' body s'
  end.

(** one iteration after the other *)
Fixpoint pseq (l : list (prog unit)) : prog unit :=
  match l with
  | [] => Ret tt
  | p :: l' => _ <~ p ;; pseq l'
  end.

(** * Concurrent execution *)

(** the remaining programs of the threads and the memory *)
Definition config : Type := (list (prog unit) * memory)%type.

(** thread [t] makes one access.  Simplification: the accesses of all threads happen one after the other
    (sequential consistency); C++ guarantees this for programs without data races. *)
Inductive step (t : nat) : config -> config -> Prop :=
| step_read ps m l k v :
    nth_error ps t = Some (Read l k) -> load m l = Ok v -> step t (ps, m) (upd ps t (k v), m)
| step_write ps m l v k m' :
    nth_error ps t = Some (Write l v k) -> store m l v = Ok m' -> step t (ps, m) (upd ps t k, m').

(** [n] steps of any threads *)
Inductive steps : nat -> config -> config -> Prop :=
| steps_none c : steps 0 c c
| steps_more n t c c' c'' : step t c c' -> steps n c' c'' -> steps (S n) c c''.

(** * The bodies of the loops *)

(** the loops over row and col of Convolutional.cpp 119-121 and 135-136 *)
Definition pscan (maxRow maxCol : nat) (f : nat -> nat -> nat -> prog unit) (outputIdx : nat) : prog unit :=
  _ <~ pfor maxRow (fun row outputIdx => pfor maxCol (fun col outputIdx =>
         _ <~ f row col outputIdx ;; Ret (S outputIdx)) outputIdx) outputIdx ;;
  Ret tt.

(** Convolutional::forwardPropagate, Convolutional.cpp 111-142, iteration [n].  [acols] is the number of
    columns of a, which the loop does not change.  The sum in lines 129-130 is added up from left to right. *)
Definition conv_forward_iteration (g : cgeom) (acols n : nat) : prog unit :=
  pfor (fmout g) (fun fmo _ =>
    _ <~ pfor (fmin g) (fun fmi fmInBase =>
      _ <~ pscan (maxRow g) (maxCol g) (fun row col outputIdx =>
             _ <~ local (check (Nat.ltb outputIdx acols)) ;;
             _ <~ pfor (kernelRows g) (fun kr colBase =>
                 v <~ pfor (kernelCols g) (fun c sum =>
                        w <~ get (AKernel fmo fmi) kr c ;;
                        x <~ get AInput n (colBase + c) ;;
                        Ret (sum + w * x)) 0 ;;
                 _ <~ add AAct n outputIdx v ;;
                 Ret (colBase + inCols g)%nat) (fmInBase + row * inCols g + col)%nat ;;
             Ret tt) (fmo * fmOutSize g)%nat ;;
      _ <~ (if cbias g
            then pscan (maxRow g) (maxCol g) (fun row col outputIdx =>
                   v <~ get ABias fmo fmi ;; add AAct n outputIdx v) (fmo * fmOutSize g)%nat
            else Ret tt) ;;
      Ret (fmInBase + fmInSize g)%nat) 0%nat ;;
    Ret tt) tt.

(** Convolutional::backpropagate, Convolutional.cpp 173-176, iteration [fmo].  [Wd] are the matrices before
    the loop; their sizes determine how many elements are set to zero. *)
Definition conv_zero_iteration (g : cgeom) (Wd : list (list mat)) (fmo : nat) : prog unit :=
  pfor (fmin g) (fun fmi _ =>
    m <~ local (tget Wd fmo fmi) ;;
    pfor (rows m) (fun r _ => pfor (cols m) (fun c _ => put (AKernelGrad fmo fmi) r c 0) tt) tt) tt.

(** [for(int i = 0, o = 0; i < max; i += k, o++)], as in Pool_Model *)
Fixpoint pstrided_from {St} (fuel i o max k : nat) (body : nat -> nat -> St -> prog St) (s : St) : prog St :=
  match fuel with
  | O => Stop
  | S f => if Nat.ltb i max then s <~ body i o s ;; pstrided_from f (i + k) (o + 1) max k body s
           else Ret s
  end.
Definition pstrided {St} (max k : nat) (body : nat -> nat -> St -> prog St) (s : St) : prog St :=
  pstrided_from (S max) 0 0 max k body s.

(** the loops over feature maps and regions, Subsampling.cpp 109-116 and 128, MaxPooling.cpp 64-70 and 98-104 *)
Definition ppool (g : pgeom) (body : nat -> nat -> nat -> nat -> nat -> prog unit) : prog unit :=
  _ <~ pfor (pfm g) (fun fmo outputIdx =>
      pstrided (pmaxRow g) (pkernelRows g) (fun ri ro outputIdx =>
        let rowBase := (fmo * pfmInSize g + ri * pinCols g)%nat in
        pstrided (pmaxCol g) (pkernelCols g) (fun ci co outputIdx =>
          _ <~ body fmo ro co (rowBase + ci)%nat outputIdx ;;
          Ret (S outputIdx)) outputIdx) outputIdx) 0%nat ;;
  Ret tt.

(** the loops over kr and kc *)
Definition pregion {A} (g : pgeom) (inputIdx : nat) (body : nat -> A -> prog A) (a : A) : prog A :=
  pfor (pkernelRows g) (fun kr a =>
    ' (a, _) <~ pfor (pkernelCols g) (fun kc st =>
        let '(a, inputIdx) := st in
        a <~ body inputIdx a ;; Ret (a, S inputIdx)) (a, inputIdx) ;;
    Ret a) a.

(** Subsampling::forwardPropagate, Subsampling.cpp 106-129, iteration [n] *)
Definition subs_forward_iteration (g : pgeom) (bias : bool) (n : nat) : prog unit :=
  ppool g (fun fmo ro co inputIdx outputIdx =>
    _ <~ pregion g inputIdx (fun inputIdx (_ : unit) =>
           v <~ get AInput n inputIdx ;; w <~ get (APoolWeight fmo) ro co ;;
           add AAct n outputIdx (v * w)) tt ;;
    if bias then b <~ get (APoolBias fmo) ro co ;; add AAct n outputIdx b else Ret tt).

(** MaxPooling::forwardPropagate, MaxPooling.cpp 61-82, iteration [n] *)
Definition maxp_forward_iteration (g : pgeom) (n : nat) : prog unit :=
  ppool g (fun fmo ro co inputIdx outputIdx =>
    m <~ pregion g inputIdx (fun inputIdx m =>
           v <~ get AInput n inputIdx ;; Ret (if Rltb m v then v else m)) (- DBL_MAX) ;;
    put AOut n outputIdx m).

(** MaxPooling::backpropagate, MaxPooling.cpp 95-122, iteration [n].  The input is read once per comparison. *)
Definition maxp_backward_iteration (g : pgeom) (n : nat) : prog unit :=
  ppool g (fun fmo ro co inputIdx outputIdx =>
    ' (m, idx) <~ pregion g inputIdx (fun inputIdx st =>
           let '(m, idx) := st in
           v <~ get AInput n inputIdx ;;
           Ret (if Rltb m v then (v, Z.of_nat inputIdx) else (m, idx))) (- DBL_MAX, (-1)%Z) ;;
    d <~ get AErrIn n outputIdx ;;
    idx <~ local (zidx idx) ;;
    put AErr n idx d).

(** SigmaPi::forwardPropagate, SigmaPi.cpp 75-99, iteration [instance]; the vector w is a column *)
Definition sp_forward_iteration (nodes : list (list hounit)) (instance : nat) : prog unit :=
  _ <~ local (nonempty nodes) ;;
  pfor (length nodes) (fun i _ =>
    n <~ local (vget nodes i) ;;
    _ <~ local (nonempty n) ;;
    sum <~ pfor_each n (fun u sum =>
      c <~ pfor_each (uposition u) (fun k c => v <~ get AInput instance k ;; Ret (c * v)) 1 ;;
      w <~ get AWeights (uweight u) 0 ;;
      Ret (sum + w * c)) 0 ;;
    put AAct instance i sum) tt.

(** the loops of LocalResponseNormalization.cpp 42-48 and 78-84 *)
Definition pcells (fm rows cols : nat) (body : nat -> nat -> nat -> nat -> prog unit) : prog unit :=
  _ <~ pfor fm (fun fmOut outputIdx =>
      pfor rows (fun r outputIdx =>
        pfor cols (fun c outputIdx =>
          _ <~ body fmOut r c outputIdx ;; Ret (S outputIdx)) outputIdx) outputIdx) 0%nat ;;
  Ret tt.
Definition pwindow (fm fmOut n : nat) (body : nat -> R -> prog R) : prog R :=
  let fmInMin := (fmOut - n / 2)%nat in
  let fmInMax := Nat.min (fm - 1) (fmOut + n / 2) in
  pfor_from fmInMin (fmInMax - fmInMin) body 0.

(** LocalResponseNormalization::forwardPropagate, LocalResponseNormalization.cpp 39-62, iteration [n] *)
Definition lrn_forward_iteration (s : lrn) (n : nat) : prog unit :=
  pcells (lfm s) (lrows s) (lcols s) (fun fmOut r c outputIdx =>
    denom <~ pwindow (lfm s) fmOut n (fun fmIn denom =>
               a <~ get AInput n (fmIn * lfmSize s + r * lcols s + c) ;; Ret (denom + a * a)) ;;
    let denom := lk s + lalpha s * denom in
    _ <~ put ADenoms n outputIdx denom ;;
    a <~ get AInput n outputIdx ;;
    p <~ local (pow_ denom (- lbeta s)) ;;
    put AOut n outputIdx (a * p)).

(** LocalResponseNormalization::backpropagate, LocalResponseNormalization.cpp 75-95, iteration [n].  [stride]
    is the number of rows of etmp, whose elements are accessed with one index. *)
Definition lrn_backward_iteration (s : lrn) (stride n : nat) : prog unit :=
  pcells (lfm s) (lrows s) (lcols s) (fun fmOut r c outputIdx =>
    nom <~ pwindow (lfm s) fmOut n (fun fmIn nom =>
             let i := (fmIn * lfmSize s + r * lcols s + c)%nat in
             _ <~ local (check (negb (Nat.eqb stride 0))) ;;
             v <~ get AEtmp (i mod stride) (i / stride) ;; Ret (nom + v)) ;;
    a <~ get AInput n outputIdx ;;
    g <~ get AErrIn n outputIdx ;;
    d <~ get ADenoms n outputIdx ;;
    p <~ local (pow_ d (- lbeta s)) ;;
    put AErr n outputIdx (a * nom + g * p)).

(** sampleRandomPatches, Preprocessing.cpp 78-95, iteration [m]; the positions [patchIndices] are constant *)
Definition patches_iteration (patchIndices : list (nat * nat))
    (channels rows cols samples patchRows patchCols m : nat) : prog unit :=
  pfor samples (fun n _ =>
    let patchIdx := (m * samples + n)%nat in
    rc <~ local (vget patchIndices patchIdx) ;;
    let rowStart := fst rc in
    let colStart := snd rc in
    _ <~ pfor channels (fun chan '(channelOffset, pxIdx) =>
        pxIdx <~ pfor patchRows (fun row pxIdx =>
            pfor patchCols (fun col pxIdx =>
              v <~ get AImages m (channelOffset + (rowStart + row) * cols + colStart + col)%nat ;;
              _ <~ put APatches patchIdx pxIdx v ;;
              Ret (S pxIdx)) pxIdx) pxIdx ;;
        Ret ((channelOffset + rows * cols)%nat, pxIdx)) (0%nat, 0%nat) ;;
    Ret tt) tt.
