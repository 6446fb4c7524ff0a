# Design of the formal model of OpenANN

## What is here

* `properties.jsonl` – the properties (C01, C02, ...), stated over the API.
* `rocq/theories` – the Rocq (Coq 8.16.1) development.
  * `Base.v`, `BaseFacts.v`, `RSum.v`, `Matrix.v`, `MatOps.v`, `Acc.v`, `Vec.v`, `Pool.v`, `Deriv.v` –
    outcome monad, arrays with checked access, loops, finite sums, matrices, derivatives; no OpenANN content.
  * `X_Model.v` – Gallina transcription of component X, one definition per C++
    function, every definition cites file and lines of `/repo`.
  * `X_Spec.v` – a small specification that does not use the model's helpers.
  * `X_Proofs.v` – the proofs.
  * `X_Props.v` – the theorems that count (names `C06_...`), an `Example` beside each that its
    hypotheses can be met, and `Print Assumptions`.
* `MANIFEST.json` – property -> theorem names and status.
* `seeded/LOG.jsonl` – experiments with wrong programs.

## Naming of theorems

* `C06_...` – the property, or a clause of it, for all inputs, states and executions.
* `..._partial` – a weaker statement than the property; the comment above it and the manifest say what is missing.
* `..._refuted` – the property, or a clause of it, is false of the model, with a witness.  The finding is listed below.

## Modelling conventions

* **Outcomes.** `res A := Ok a | UB | Throw | Abort | Fuel`.  Reading or writing outside an
  array, dereferencing a null or freed pointer, integer division by zero and the use of a variable
  without a value give `UB`; an exception gives `Throw`; a failed assertion
  (`OPENANN_CHECK*`, Eigen's size assertions) gives `Abort`.  `Fuel` is only used for loops that have no
  syntactic bound; the theorems show that it does not occur, or quantify over all sufficiently
  large bounds.  A theorem of the form `f x = Ok y` therefore includes memory safety, absence of failed assertions and
  termination.
* **Numbers.** `double` is modelled by the real numbers `R` of the standard
  library, except in C98-C100, C102, C103, C105 and C107-C109.  Rounding, overflow, NaN and infinities are only modelled there, with IEEE 754 doubles of
  Flocq (one NaN, rounding to nearest, no extended precision or fused operations).  The functions exp, tanh and log, which IEEE 754 does not
  define, are any functions that satisfy `accurate` in `Float_Spec` (a neighbour of the exact result).  `int` is
  modelled by `nat`/`Z` without overflow.  `std::numeric_limits<double>::max()`
  is a number `DBL_MAX`; hypotheses about it are stated where they matter.
* **Eigen.** Matrix products, coefficient-wise operations and reductions are modelled by their
  mathematical meaning (trusted); matrices carry their sizes, sizes of operands are checked
  and element access is checked.  The entries of a matrix that has been resized are arbitrary
  (a function `junk` over which the theorems quantify).
* **Randomness** is an arbitrary permutation or an arbitrary oracle, over which the theorems quantify.
* **OpenMP**: the models of the layers execute the parallel loops in order.  `Parallel_Model` models their execution
  by several threads; C90 proves that there are no data races and that the results are the same.
* **Streams** are modelled at the level of tokens (numbers, words, line ends) in C18, C19 and C40, and at the level of characters in C95-C97.
* **External libraries** (ALGLIB, the CMA-ES library, the SVD of Eigen) are arbitrary oracles, restricted by a stated
  specification where a theorem needs one.

## Trusted base

* Coq's kernel (8.16.1); no kernel check is switched off.
* No axioms of our own, no `Admitted`.  Only these axioms of the standard library are used:
  `ClassicalDedekindReals.sig_forall_dec`, `ClassicalDedekindReals.sig_not_dec` (the real numbers),
  `FunctionalExtensionality.functional_extensionality_dep`, and `Classical_Prop.classic` (used by the standard library's
  theorems about limits, `ln`, `sqrt` and the intermediate and mean value theorems).  The table at the end lists, for each theorem of the manifest,
  which of them `Print Assumptions` reports.  (`vcheck` lists further axioms, e.g. of `ssrunder`: they are the sealed
  module signatures of the libraries that are loaded, not assumptions of the theorems.)
* The correspondence of the definitions in `*_Model.v` to the C++ text (by
  citation and reading, not proved), and the conventions above.

## Per property: what is modelled, how it is proved

| id | model | proof |
|----|-------|-------|
| C01-C05 | `DataSet_Model`: views as index lists over a (possibly nested) data set; the split loops, merge, sample | loop invariant + list lemmas (`seq`, `firstn`, `Permutation`), induction over view-operation programs |
| C06 | `Weighted_Model`: the two nested loops of `resample` on cumulative sums | invariant: `sum = cumulative weight`, monotone search; counting via floor inequalities |
| C07-C08 | `Storage_Model`: state machine of `DataStream`, store with the shared temporary of `DirectStorageDataSet` | invariant over all call sequences; refutation for two live references |
| C09 | `Learner_Model`: heap with allocate/delete events | invariant over all call sequences |
| C10 | `rand() % range + min`, `generateIndices` | arithmetic, `Permutation` |
| C11-C15, C17 | `Evaluation_Model`: loops over an arbitrary predictor | loop invariants, counting; C13 refuted for every data set with one output |
| C16 | `crossValidation` with its integer division | partition from C01/C03; mean accuracy refuted |
| C18-C19 | `IO_Model`: token-level writers and readers | induction over rows and columns; multi-class LibSVM refuted |
| C20 | `pack`/`unpack` with offsets | induction over the list of arrays |
| C21-C26, C49 | `MBSGD_Model`: state machine over an arbitrary problem | invariants and recursion over batches/epochs |
| C27 | `Interrupt_Model`: counter + handler state machine, events arbitrary | invariant over all traces |
| C28 | `Optimizable_Model`: default methods | induction over the range |
| C29 | `IPOP_Model`: control around an arbitrary CMA-ES library | invariant over all histories |
| C30-C31 | `Activation_Model`: functions on R | analysis with the standard library |
| C32-C34, C41-C43, C51-C52 | layer loops over checked arrays (`FC_Model`, `Conv_Model`, `SimpleLayers_Model`) | loop invariants give closed formulas; derivative of the closed formula along every differentiable curve of parameters and inputs |
| C35, C36 | `Pool_Model`: loops of `MaxPooling`/`Subsampling` | what the loops compute is proved; full claim refuted (row offset never advances), partial for kernels with one row |
| C37-C39 | `Net_Model`, `NetBuild_Model`: `Net` as a list of layers of arbitrary class | induction over layers using a per-layer contract (`Layer_Spec`, `LayerFun_Spec`), invariant over all reachable states |
| C40 | `NetIO_Model`: token-level save/load of architecture and parameters | the loop of `load` replays the calls that built the network (induction over the calls); simulation between the two runs |
| C44-C45, C54-C56 | `Preproc_Model` | algebra, loop invariants |
| C46 | `KMeans_Model` | invariant over all sequences of `fit` |
| C47 | `Compression_Model` | loop invariants |
| C48, C57 | `Log_Model` | case analysis, invariant over all event sequences |
| C50 | `getParameters` of the layers | algebra; refutations |
| C53 | `IP_Model` | derivatives on R |
| C58 | reinstalling the current parameters | "settled" invariant over all reachable states |
| C59-C61 | `SigmaPi_Model`: loops that create units and share weights, forward and backward pass, the two stateless constraints | the loops enumerate all increasing tuples; invariant for the sharing; moving an image permutes the products (`Permutation`) |
| C62 | `Triangle_Model`: the constraint object with its map, layers built with such objects | refinement: equal to a layer with stateless constraints that look up the final map; angles on R; refutations by evaluating the map for all triples of a 3 x 3 image |
| C63-C65 | `SAE_Model`: the learner and the layer interface of `SparseAutoEncoder` on one state | invariant over all sequences of calls; chain rule for the objective (`SAEGrad_Proofs`); per-layer contract |
| C66-C68 | `RBM_Model`: the learner and the layer interface of `RBM` on one state; random numbers are an arbitrary sequence | refinement of the sampling loops to a recursive specification of the Gibbs chain (`RBM_Spec`); derivative of the free energy; invariant over all sequences of calls; per-layer contract |
| C69-C72 | `Ensemble_Model`: `AdaBoost` and `Bagging` with arbitrary learners and optimizers | refinement of the training loop to an inductive relation of boosting rounds (`Ensemble_Spec`); induction over rounds for the error bound; refutations by concrete learners |
| C73-C74 | `LRN_Model`: forward and backward pass of `LocalResponseNormalization` | loop invariants to closed formulas; derivatives on R; refutations for all positive settings |
| C75-C76 | `ABF_Model`: `AlphaBetaFilter` as a layer | refinement to a recursive specification over the observed sequence; stability by a quadratic form (complex roots) or two geometric sequences (real roots) |
| C77-C80 | `PCA_Model`: `PCA` and `ZCAWhitening` around an arbitrary function that returns valid singular value decompositions (`is_svd` in `PCA_Spec`) | linear algebra with finite sums (`PCA_Proofs`): the decomposition gives principal directions, is unique up to signs for different singular values, and is an eigendecomposition for a covariance matrix; refutation for every valid decomposition of one data set |
| C81-C85 | `Alglib_Model`: `CG`, `LBFGS` and `LMA` around an arbitrary reverse communication solver and an arbitrary problem with a state | refinement: the loops follow the run of the solver on the function itself (`solves` in `Alglib_Spec`), by induction on fuel, then over all interleavings of steps; simulation of two optimizers for reuse; refutations by a probing solver and by a problem with two examples |
| C86 | `net_initialize` in `NetBuild_Model`; `reachable` in `NetUse_Spec` now includes calls of `initialize` with arbitrary random numbers, so all theorems about networks cover them | what each layer reads after drawing does not depend on its state before (`drawn`); induction over the layers; the new network is built from the redrawn commands |
| C87-C88 | `Train_Model`: a network as problem of the optimizers, `finishedIteration`, `MulticlassEvaluator`, `train`, around arbitrary solvers, permutations, populations and interruptions | the states reachable by calls with the same parameters have the same errors and gradients (from C39, C58); then the theorems about the optimizers (C24-C29, C81) apply to the network; refutation by the network for the exclusive or |
| C89 | `makeMLNN` in `Train_Model` | induction over the hidden layers to a recursive specification (`mlp` in `Train_Spec`) |
| C90 | `Parallel_Model`: the bodies of all nine `omp parallel for` loops as programs of single reads and writes, executed by a team of threads with arbitrary distribution of iterations and arbitrary interleaving | each iteration only writes its own rows and reads what no other iteration writes (`confined`), so every interleaving can be sorted (`team_correct`); a simulation relates each program to the body of the sequential loop |
| C37-C40, C58, C86 (extension) | restricted Boltzmann machines and sparse autoencoders as layers of networks (`NetBuild_Model`, `NetIO_Model`), with saving and loading | `RBMNet_Proofs`: both satisfy the contract of layers (`layer_ok`); all theorems about networks cover them |
| C91-C92 | `NetLayer_Model`: `numberOflayers`, `getLayer`, `getOutputInfo`, `propagateDataSet`; the data set that is returned holds pointers to objects that may not exist any more | invariant over all reachable states for the recorded sizes; induction over the layers for the pass by hand; refutation for every network |
| C93 | learners inside a network: the object that `getLayer` returns is used with the functions of `RBM_Model` and `SAE_Model` (`pretrained` in `NetLayer_Spec`) | the learner's functions keep the invariant of the layer, so installing the old vector restores the old function (C39, C58); layers without parameters are left alone by every call of the network |
| C94 | networks with a maximal norm (`NetBuild_Model`, `FC_Model`): a simulation by the network that the same commands without limits build (`NetNorm_Spec`) | every function of a layer commutes with changing the limit except `updatedParameters`, which is the projection of each row; simulation of all histories of calls; then the theorems without limit (C37-C39, C58) apply at the limited parameters; refutations by one unit with the limit 1 |
| C95 | `Text_Model`: operator<< and operator>> of streams for int and double, `getline`, `atoi`, `atof` on lists of characters | `Text_Proofs`, `TextPrint_Proofs`: the scanner reads every numeral of the grammar in `Text_Spec` (induction over digits); the printer writes a numeral for the nearest multiple of the power of ten |
| C96 | `TextIO_Model`: FANN and LibSVM on characters | simulation: reading the text takes the same steps as reading the tokens (`IO_Model`), then C18 and C19 apply |
| C97 | `TextNet_Model`: `Net::save` and `Net::load` on characters | the words of the text are the tokens of `NetIO_Model` (simulation with the flags of the stream), then C40 applies |
| C98-C100 | `Float_Model`: the bodies of the activation functions, softmax and cross entropy on IEEE 754 doubles (Flocq's `binary_float 53 1024`) | every operation returns a neighbour of the exact result (`Float_Proofs`); errors are propagated through the formulas (`FloatAct_Proofs`, `FloatSoft_Proofs`); sums in any order by induction over the tree of additions; libm is any library that satisfies `accurate` (`Float_Spec`), and one exists |
| C101 | `OwnLayer_Model`: `addLayer` and `addOutputLayer` with objects of any class (`layerType`: a table of functions with a proof of the contract) | the proofs about networks (`NetChain_Proofs`, `Net_Proofs`) are parametrised by the classes; invariant over all calls; the contract is proved for a class of a user, and all layers of the library are instances |
| C102 | `FloatNet_Model`: fully connected layers, networks of them and the mean squared error on doubles | relative error of a sum in any order by induction over the tree of additions; the error of a unit is magnified by the slope of the activation function, which is at most 1.15; induction over the layers |
| C103 | `FloatGrad_Model`: backpropagation in networks of fully connected layers on doubles, for a batch | two parts: in real numbers backpropagation is the derivative (`FloatGradReal_Proofs`: chain rule along a curve of inputs, adjoint of the matrix product, induction over the layers); in doubles it is close to backpropagation in real numbers (`FloatGrad_Proofs`: induction over the layers with bounds on magnitude and deviation).  Refutation for rectifiers: an activation of 2^-60 that is computed as 0 |
| C104 | `Ask_Model`: the step-wise interface of IPOPCMAES with its pointers; a heap that records each new and delete | invariant over permitted histories (what the library was told = complete generations of what the user told); for the memory an invariant over all histories: the live blocks are those that the object points to.  Refutations: restart in the middle of a generation reads deleted memory, result() is empty, terminated() before restart(), larger problem, copies |
| C105 | `FloatGrad_Model.d_gradientCE`: the same with softmax (`Float_Model.d_softmax`) of the outputs of the batch | the proof of C103 is parametric in the error function; here its derivative along a curve of outputs (`FloatCE_Proofs.D_cross`) and the distance of computed softmax outputs from exact ones: rounding (C100) plus the effect of inaccurate outputs (ratios change by exp(2e) at most).  Refutation: a batch with the outputs (0, 0) and (1000, 0) |
| C106 | `Owner_Model`: programs that create, use and destroy networks, layers, streams and optimizers; the heap of `Ask_Model` | invariant over permitted histories: the live blocks are those owned by an existing network, stream or user, plus one for each exception (`Owner_Proofs.Inv`).  Refutations: exceptions; theorems that the rules are needed (layer added twice, deleted by the user, stream destroyed) |
| C107 | `FloatSplit_Model`: split by ratio and sample with IEEE doubles (Flocq) | the double computation chooses some number k of instances; the rest is the computation of C02/C05 with the real ratio k/N.  Error of the product below 2^-19 for N < 2^31, hence k is the exact number or, if p N / q is an integer, one more.  Refutation: 0.07 of 100 instances are 8 |
| C108 | `FloatPool_Model`: forwardPropagate and backpropagate of MaxPooling with all IEEE doubles (Flocq); the loops of `Pool_Model` | `<` on doubles is transitive and NaN is never chosen; invariants over the loops; for the undefined case: loops whose bodies succeed or are undefined.  Refutation: a region without a number above -DBL_MAX, e.g. only NaN |
| C109 | `FloatSGD_Model`: constructor and the body of the loop over the batches of MBSGD with IEEE doubles (Flocq) | invariant over batches and restarts: rounding is monotone and exact at 0, 1 and at the old learning rate, hence limits and monotonicity; errors add up to k / 2^50.  Update: error analysis of three products and a difference; a finite result implies finite operands.  No overflow: k 2^900 is a double for k < 2^53, hence a bound that survives rounding.  Refutations: NaN passes all comparisons of the constructor; decay <= 1/2 rounds the smallest double to 0; a gain of 2^-60 is absorbed |
| C110 | `FloatScale_Model`: scaleData with IEEE doubles (Flocq) | three relative errors for the scaling factor, then one absolute error per operation, underflow included; rounding is monotone, hence the order.  Refutations by computation with the doubles (-3, 2 and 2^53, 2^53 + 2 scaled to [-1, 1]) and, for constant data and NaN limits, for all doubles |
| C111 | `FloatNorm_Model`: fit and transform of Normalization with IEEE doubles (Flocq), any order of the sums | error bounds for sums in any order (as C103), one relative error per operation, underflow of squares included; the square root of a positive double is at least 2^-537, hence the inverse does not overflow.  Constant multiples of a power of 2: the sums are exact.  Refutation by computation: 0.1 three times |
| C112 | `FloatFilter_Model`: one output of filter with IEEE doubles (Flocq) | invariant of the loop: the value is a sum, in the order of the program, of the rounded products; error bound for sums in any order (as C103), then the division.  Refutations: division by zero for all y; the loop reaches an index outside of the signal |

## What is modelled and what is not

Modelled, function by function (line numbers are in the comments of the model files):

| source | modelled in | left out |
|--------|-------------|----------|
| `DataSetView.cpp/.h`, `DataSet.h` | `DataSet_Model`, `FloatSplit_Model` (ratios as doubles) | `finishIteration` |
| `WeightedDataSet.cpp` | `Weighted_Model` | – |
| `DataStream.cpp`, `DirectStorageDataSet.cpp` | `Storage_Model`, `Owner_Model` (memory) | – |
| `Learner.cpp` | `Learner_Model` | copying of learners (the compiler-generated copy shares the data sets) |
| `Random.h/.cpp` | `Storage_Model`, `DataSet_Model` | distribution of the numbers; `generateNormalDistribution` is an arbitrary number |
| `Evaluation.cpp`, `Evaluator.cpp` | `Evaluation_Model` | printing |
| `FANN.cpp`, `LibSVM.cpp`, `EigenWrapper.cpp` | `IO_Model` (tokens), `TextIO_Model` (characters) | file system; overflow of int and double when numbers are read, hexadecimal numbers, infinities, NaN, locales |
| `MBSGD.cpp` | `MBSGD_Model`, `FloatSGD_Model` (constructor and batches with doubles) | printing, `describe` |
| `StoppingInterrupt.cpp`, `StoppingCriteria.cpp` | `Interrupt_Model`, `MBSGD_Model` | signals that arrive inside a call |
| `Optimizable.cpp` | `Optimizable_Model` | – |
| `IPOPCMAES.cpp` | `IPOP_Model` (optimize), `Ask_Model` (step by step, with pointers) | the CMA-ES library (arbitrary) |
| `ActivationFunctions.cpp`, `ErrorFunctions.h` | `Activation_Model` (real numbers), `Float_Model`, `FloatNet_Model`, `FloatGrad_Model` (doubles, also `FullyConnected.cpp` and `Net.cpp` 577-640) | in doubles: the loops over matrices |
| `FullyConnected.cpp`, `Input.cpp`, `Dropout.cpp`, `Extreme.cpp`, `Compressed.cpp` | `FC_Model`, `SimpleLayers_Model` | – |
| `Convolutional.cpp`, `Subsampling.cpp`, `MaxPooling.cpp` | `Conv_Model`, `Pool_Model`, `FloatPool_Model` (max-pooling of doubles) | – |
| `IntrinsicPlasticity.cpp` | `IP_Model` (learner), `SimpleLayers_Model` (layer) | – |
| `SigmaPi.cpp`, `SigmaPiConstraints.h` | `SigmaPi_Model`, `Triangle_Model` | NaN angles |
| `SparseAutoEncoder.cpp` | `SAE_Model` | `getInputWeights`, `getOutputWeights` |
| `RBM.cpp` | `RBM_Model` | the random number generator (an arbitrary sequence), `getWeights`, `getVisibleProbs`, `getVisibleSample` |
| `Net.cpp` | `Net_Model`, `NetBuild_Model`, `NetIO_Model` (tokens), `TextNet_Model` (characters), `NetLayer_Model`, `OwnLayer_Model` (`addLayer`, `addOutputLayer` with objects) | saving networks with such objects, `AlphaBetaFilter`, `LocalResponseNormalization` and `SigmaPi` as layers of networks, copying |
| `Convenience.cpp`, `MulticlassEvaluator` in `Evaluator.cpp` | `Train_Model`, `Owner_Model` (memory of `train`) | log output, state of the network after exceptions of an optimizer |
| the nine `#pragma omp parallel for` loops | `Parallel_Model` | threads interleave single reads and writes of matrix elements (sequential consistency, which C++ guarantees to programs without data races; their absence is what C90 proves); the sizes of matrices do not change within the loops; sums of Eigen expressions are evaluated from left to right; the loop variables and the other variables declared in the loop bodies are private, the constants before the loops are read only |
| `Regularization.h` | with the layers | – |
| `CompressionMatrixFactory.cpp`, `Compressor.cpp` | `Compression_Model` | – |
| `Preprocessing.cpp`, `Normalization.cpp` | `Preproc_Model`; scaleData, filter and Normalization with doubles: `FloatScale_Model`, `FloatFilter_Model`, `FloatNorm_Model` | – |
| `KMeans.cpp` | `KMeans_Model` | – |
| `Logger.cpp/.h` | `Log_Model` | files, time stamps |
| `AdaBoost.cpp`, `Bagging.cpp` | `Ensemble_Model` | missing return statements; learners whose predictions change their state |
| `LocalResponseNormalization.cpp` | `LRN_Model` | `pow` of numbers that are not positive |
| `AlphaBetaFilter.cpp` | `ABF_Model` | time step 0 |
| `PCA.cpp`, `ZCAWhitening.cpp` | `PCA_Model` | the singular value decomposition of Eigen (any function that satisfies `is_svd`) |
| `CG.cpp`, `LBFGS.cpp`, `LMA.cpp`, `StoppingCriteria.cpp` | `Alglib_Model` | ALGLIB itself (any function); null pointers; the log |

Not modelled:
`Stopwatch.h`, `rl/*`, the CUDA code, examples, benchmarks and tests.

## Findings

Places where the code does not do what its documentation or the property says.  Those with a theorem name are proved of the model; the others were
found while reading and are not formalized.

| where | finding | theorem |
|-------|---------|---------|
| `DataSetView::sample` with replacement | `indices` is only reserved, then indexed: undefined behaviour in every call | `C05_sample_with_replacement_refuted` |
| `WeightedDataSet::resample`, random mode | the draw 0, which `generate<double>` can return, yields index -1 | `C06_random_resample_zero_draw_refuted` |
| `RandomNumberGenerator::generate<double>` | the half-open interval of the documentation includes its upper end | `C10_generateReal_half_open_refuted` |
| `DataStream` | mixing samples with and without target is undefined behaviour | `C07_mixed_targets_refuted` |
| `DirectStorageDataSet` | the reference returned by `getInstance`/`getTarget` is overwritten by the next call | `C08_two_instances_refuted` |
| `confusionMatrix`, one output | writes outside the 1x1 matrix | `C13_confusion_matrix_single_output_refuted` |
| `crossValidation` | integer division makes the reported mean wrong; division by zero if folds > N | `C16_mean_accuracy_refuted`, `C16_more_folds_than_instances_refuted` |
| `MulticlassEvaluator` | logs SSE/N where SSE is documented | `C17_logged_error_is_sse_refuted` |
| `LibSVM::save`/`load` | files with one class or more than two classes do not round-trip | `C19_round_trip_many_classes_refuted`, `C19_round_trip_one_class_refuted` |
| `IPOPCMAES` | the evaluation limit is per run and only checked after complete generations | `C29_evaluation_limit_refuted` |
| `MaxPooling`, `Subsampling` | the row index is reset for every kernel row: only the first row of each region is read | `C35_maxp_maximum_refuted`, `C36_subs_region_refuted` |
| `Net`, cross entropy | the value uses log(y + 1e-10), the gradient that of log(y) | `C37_cross_entropy_refuted` |
| `Net::errorGradient` | the gradient of the penalty is divided by the batch size, its value is not | `C38_gradient_refuted` |
| `Net` with a maximal norm | rescaled weights differ from `currentParameters()`; new random weights are only rescaled by the next `setParameters` | `C39_max_norm_refuted`, `C58_max_norm_refuted` |
| `Net::save`/`load` | six digits; weights of extreme layers, biases of intrinsic plasticity, random compression and the dropout mode are not saved | `C40_precision_refuted`, `C40_extreme_refuted`, `C40_dropout_mode_refuted` |
| `Net::load` | a malformed word makes the loop infinite; a truncated parameter list is accepted silently; "parameters" before the output layer is undefined behaviour; loading into a network that already has layers appends to it | – |
| `KMeans::fit` | fewer points than centres: out of bounds; later calls need the same number of rows | `C46_fewer_points_than_centres_refuted` |
| `CompressionMatrixFactory` | edge matrix with odd block size; inputs after the last block ignored; division by zero if there are more outputs than inputs | `C47_edge_odd_refuted`, `C47_average_ignores_inputs_refuted`, `C47_more_outputs_than_inputs_refuted` |
| `MBSGD` | gains shrink when the direction is kept, the documentation says they grow | `C49_gain_increases_when_direction_kept_refuted` |
| `FullyConnected::getParameters` | order (all weights, all biases) differs from the network's parameter vector | `C50_fc_getParameters_order_refuted` |
| `Convolutional::getParameters` | the same | `C50_conv_getParameters_order_refuted` |
| `Compressed::getParameters` | returns entries of the fixed compression matrix, not the parameters | `C50_compressed_getParameters_refuted` |
| `Subsampling::getParameters` | returns weights in place of biases | `C50_subs_getParameters_refuted` |
| `IntrinsicPlasticity` | `gradient(n)` is not the gradient of `error(n)` | `C53_ip_error_gradient_refuted` |
| `filter` | feedback coefficients are applied to the input with a plus sign; signals shorter than the filter are read out of bounds | `C54_iir_refuted`, `C54_short_signal_refuted` |
| `Logger::deactivate` | does not silence existing loggers | `C57_deactivate_refuted` |
| `SigmaPi` with bias | the units use the bias input, which the forward pass reads from its argument, out of bounds | `C59_bias_refuted` |
| `SigmaPi::backpropagate` | the error signal for the previous layer misses the product of the other inputs | `C60_input_gradient_refuted` |
| `TriangleConstraint` | a class with three equal angles adds one map entry instead of three, so the next class gets the same number; turned images are not recognized because the corners are not always visited in the same order | `C62_distinct_angles_refuted`, `C62_rotation_refuted` |
| `Convolutional` | even kernels: the last row and column of the input are dropped (output size n-2*(k/2)) | stated in `C33_conv_output_size` |
| `scaleData` | constant data divide by zero | hypothesis of `C44_scaleData` |
| `DataSetView::merge` | merging a view with itself: iterators of a growing vector | – |
| `MBSGD` | `result()` before the first step; learning rate and momentum are not reset on restart; `maximalIterations` 0 runs one epoch; after an interrupt a further call continues; initial learning rate and momentum outside their limits are accepted | – |
| `StoppingInterrupt` | the constructor aborts while a signal is pending | in `C27_construction` |
| `crossValidation`, `Net::propagateDataSet` | dangling pointer to a local data set; `propagateDataSet` never increments its row index | – |
| `SparseAutoEncoder::error` | not a number if a mean activation is not strictly between 0 and 1, even without sparsity penalty (beta = 0); the logistic function is clamped at +-45, so this also happens for saturated logistic units | `C63_error_finite_refuted`, `C63_logistic_saturated_refuted` |
| `SparseAutoEncoder` as a layer | changes of its parameters by the network are invisible to `currentParameters`; each forward pass replaces the training set | `C65_current_parameters_refuted`, `C65_training_set_refuted` |
| `SparseAutoEncoder::getParameters` | no return statement | – |
| `RBM::fillGradient` | the penalties are subtracted from the gradient of an error that is minimised, so that regularization makes weights larger | `C66_regularization_refuted` |
| `RBM::daydream` | the negative statistics combine probabilities of visible units with hidden probabilities of other (sampled) visible units | `C66_negative_phase_refuted` |
| `RBM` as a layer | changes of its parameters by the network are invisible to `currentParameters` and `getParameters`; the regularization contributes nothing | `C68_current_parameters_refuted`, `C68_pretrained_output` |
| `AdaBoost::train` | a learner that is always wrong makes all weights infinite or not a number; learners worse than chance get negative qualities, and after the division by a negative sum the worst learner has the largest weight | `C70_finite_refuted`, `C70_order_refuted` |
| `AdaBoost::operator()(x)`, `Bagging::operator()(x)` | `Eigen::MatrixXd X = X.transpose();` uses X in its own initialisation, the argument is not used | `C71_vector_refuted` |
| `Bagging::train` | every training runs into the out of bounds write of `sample` with replacement | `C72_bagging_train_refuted` |
| `AdaBoost`, `Bagging`: `addLearner`, `setOptimizer`, `train`; `WeightedDataSet::updateWeights` | no return statement in a function that returns a reference | – |
| `LocalResponseNormalization` | loop variable `n` shadows the member `n`, so that the window depends on the row of the batch; the upper end of the window is excluded; the gradient uses a matrix with one index | `C73_setting_n_refuted`, `C73_documented_refuted`, `C73_batch_position_refuted`, `C74_gradient_refuted` |
| `AlphaBetaFilter` | `backpropagate` does nothing; only the first row of a batch is filtered; parameters are replaced by their absolute values behind the back of the network | `C76_gradient_refuted`, `C76_batch_refuted`, `C76_parameters_refuted` |
| `AlphaBetaFilter::initialize` | the gains and the output are indeterminate until parameters are set (`updatedParameters`) | model: `abf_new` with arbitrary contents |
| `PCA::transform` | projects on the rows of V instead of its columns (the matrix is transposed): outputs are correlated, not sorted by variance, and not whitened, unless V is symmetric | `C78_components_refuted` |
| `PCA::fit` | with more components than rows the last ratios are uninitialised memory; constant data divide by zero | `C77_more_components_refuted`, hypothesis of `C77_ratios` |
| `ZCAWhitening.h` | documents that the covariance matrix becomes I, which the added 1e-5 makes impossible | `C79_exact_refuted` |
| `CG::optimize`, `LBFGS::optimize` | leave the problem at the last evaluated point, which need not be the optimum, until `result()` is called; `AdaBoost` and `Bagging` never call it | `C83_installed_gradient_refuted` |
| `LMA` | passes the errors of the examples to a least squares solver, which minimizes the sum of their squares, not the error of the problem | `C84_leastSquares_refuted` |
| `LMA::initialize` | does not set `iteration` to 0: the first step returns true and calls `finishedIteration()` before any iteration | `C82_first_step_leastSquares_refuted` |
| `LBFGS::initialize` | overwrites the number of corrections with `min(m, n)`, so a later larger problem gets fewer corrections | `C85_reused_corrections_refuted` |
| `CG`, `LBFGS`, `LMA` | `maximalIterations = 0` is passed on as 0, which means no limit | `C85_zero_iterations_refuted` |
| `train` | with an unknown algorithm throws only after it has reinitialized the network and changed its error function and dropout switch; an exception of the optimizer leaks the optimizer and leaves dropout on | `C88_unknown_algorithm_refuted` |
| `RBM::initializeParameters` (RBM.h 108) | does nothing, so `Net::initialize` and training with reinitialization start from the old weights of restricted Boltzmann machines | `C86_initialize_rbm_refuted`, `C86_initialize_keeps_rbms` |
| `propagateDataSet` returns a data set that points to two local matrices (`Net.cpp` 204-205 and 217): every access to an instance or target is undefined behaviour. The counter of layers is never incremented (lines 209-212), so the instances pass through all layers for every positive `l`. The result matrix has the number of inputs of the original data set (line 204), so the assignment in line 214 fails unless the network has as many outputs as inputs | `C91_result_unusable`, `C91_all_layers`, `C91_propagate_refuted` |
| A restricted Boltzmann machine with `backprop = true` or a sparse autoencoder that is trained on its own through `getLayer` changes its weights but not the vector of parameters of the network: `currentParameters` returns the old weights, `save` stores them, and `setParameters(currentParameters())` discards what has been learned | `C93_pretraining_lost`, `C93_pretraining_kept_refuted` |
| `Net` with a maximal norm | new networks and `initialize()` do not obey the limit until the next `setParameters()`; above the limit, `gradient()` is not the gradient of the error as a function of the parameters that have been set (the scaling is not differentiated), and the error does not change along the direction of the weights although the gradient is not 0 | `C94_initial_refuted`, `C94_gradient_refuted` |
| `LibSVM::save`/`load` | labels are written as double: from seven digits on they get an exponent, of which `load` reads only the digits before the point; two such labels can become one, then `load` writes outside of the matrix | `C95_integer_of_double_refuted`, `C96_svm_large_labels_refuted` |
| `Net::save`/`load` | a compression name with white space (any unknown name is accepted when the layer is added) makes `load` read the rest of the name as the standard deviation, which then has no value | `C97_compression_name_refuted` |
| `softmax` | subtracts the maximum of the whole batch instead of that of the row: in double precision an instance whose components are all more than 800 below another instance of the batch gets NaN for all outputs, although its own softmax is unproblematic | `C100_softmax_far_instance_refuted`, `C100_far_witness` |
| `rectifier` | `std::max(0.0, a)` is 0 for NaN, so a network with rectifiers hides that training has diverged | `C99_rectifier_hides_nan_refuted` |
| `FullyConnected::forwardPropagate` | finite weights and inputs can give a NaN (inf - inf) when products overflow, and a rectifier turns it into 0: the network returns a finite number that is wrong | `C102_overflow_refuted` |
| Gradients of networks with RECTIFIER | In double precision an activation that is slightly above 0 can be computed as 0; the computed derivative is then 0 although the derivative is not (about -1 in the example), so that no bound on the rounding error exists near the kink | `C103_rectifier_refuted` |
| `IPOPCMAES`, step by step | restart() in the middle of a generation leaves `population` pointing into the deleted CMAES object: the next getNext() reads freed memory | `C104_restart_in_generation_refuted` |
| `IPOPCMAES`, step by step | result() installs and returns an empty vector: only optimize() sets `optimum` | `C104_result_refuted` |
| `IPOPCMAES` | terminated() dereferences a null pointer before the first restart(); a problem with more parameters set without restart() makes getNext() read beyond the individual; copies delete the same memory twice | `C104_terminated_before_restart_refuted`, `C104_larger_problem_refuted`, `C104_copy_refuted` |
| Cross entropy with large outputs | If the outputs of the last layer for one instance of a batch are more than 800 below an output for another instance, softmax divides 0 by 0 (it subtracts the maximum of the batch, not of the row); then all derivatives of the batch are NaN (`C105_far_instance_refuted`) and an optimizer that adds them to the parameters makes the whole network NaN. |
| Memory after exceptions | A layer whose `initialize` throws inside a layer function (`Net.cpp` 144-152: e.g. a pooling layer with too large a kernel) is in no list and is never deleted; `train` (`Convenience.cpp` 24-42) never deletes the optimizer if `optimize()` throws | `C106_exceptions_refuted` |
| `DataStream` | The destructor deletes the cache, but the learner keeps it as training set: using the network afterwards reads deleted memory (`DataStream.cpp` 17-21 and 68) | `C106_stream_destroyed` |
| split and sample with doubles | the documentation promises `ratio * dataset.samples()` instances; the product is rounded and then rounded up (`DataSetView.cpp` 104, 128): 0.07 of 100 instances are 8 instances | `C107_seven_percent_refuted` |
| `MaxPooling` after divergence | If the pixels that are read for an output are all NaN, -infinity or -DBL_MAX, the forward pass outputs -DBL_MAX (NaN disappears) and `backpropagate` writes to column -1 (`MaxPooling.cpp` 105-119) | `C108_diverged_refuted`, `C108_backward_refuted` |
| `MBSGD` with NaN | The constructor accepts NaN for every hyper-parameter (all comparisons are false).  NaN as learning rate or momentum is found by an assertion in the first batch, NaN as a limit is silently no limit: the momentum exceeds 1 | `C109_nan_accepted_refuted`, `C109_nan_rates_detected` |
| `MBSGD` decay | With a decay of at most 1/2 and no minimal learning rate the learning rate is exactly 0 after 1075 batches, and training has no effect any more.  With a larger decay it stays positive forever | `C109_rate_vanishes_refuted`, `C109_rate_positive_partial` |
| `MBSGD` momentum gain | A momentum gain below half of a unit in the last place of the momentum is absorbed: the momentum never grows | `C109_momentum_stuck_refuted` |
| scaleData | results can leave the interval: -3 and 2 scaled to [-1, 1] give more than 1; 2^53 and 2^53 + 2 give 0 and 2 | `C110_interval_refuted`, `C110_cancellation_refuted` |
| scaleData | constant data becomes NaN without an error; NaN limits pass the check of the interval | `C110_constant_refuted`, `C110_nan_limit_refuted` |
| MBSGD gains | the gain of a parameter grows although gradient and momentum point in different directions if their product underflows | `C109_gain_underflow_refuted` |
| `Normalization` of constant features | The test `std == 0` (`Normalization.cpp` 31-33) misses constant features whose mean is rounded: 0.1, 0.1, 0.1 has a standard deviation of about 10^-17 and becomes -1, -1, -1; 0.2 becomes more than 10^15 | `C111_constant_refuted` |
| `filter` | `a(0) = 0` is not rejected (`Preprocessing.cpp` 48): every output is infinite or NaN; a filter longer than the signal reads out of bounds | `C112_zero_refuted`, `C112_short_refuted` |
| L1 penalty | the gradient of a zero weight is 0/0 | hypothesis of `C32_fc_gradient` |
| `pack`/`unpack` | `va_arg(int)` is used for arguments of type `Eigen::Index` in some callers | – |

## Axioms reported by `Print Assumptions`

* `sig_forall_dec`, `functional_extensionality_dep`:
  `C01_split_groups_partition`, `C01_split_groups_rejects`, `C02_split_ratio_partition`, `C03_merge_appends`, `C03_complement_of_split`, `C04_views_keep_pairs`, `C04_operations_succeed`, `C05_sample_without_replacement_partial`, `C05_sample_with_replacement_refuted`, `C06_resample_follows_weights`, `C06_resample_indices_valid`, `C06_random_resample_zero_draw_refuted`, `C10_generateReal_range`, `C10_generateReal_half_open_refuted`, `C11_decoding_first_largest`, `C11_decoding_single`, `C12_confusion_matrix_hits_accuracy`, `C12_hits_count`, `C13_confusion_matrix_single_output_refuted`, `C14_weighted_accuracy`, `C16_cross_validation_partial`, `C16_cross_validation_terminates`, `C16_mean_accuracy_refuted`, `C16_more_folds_than_instances_refuted`, `C17_evaluator_logs_every_interval`, `C17_logged_error_is_sse_refuted`, `C19_round_trip_partial`, `C19_load_two_classes`, `C19_load_many_classes`, `C19_round_trip_many_classes_refuted`, `C19_round_trip_one_class_refuted`, `C24_constructor_checks_arguments`, `C28_batch_is_sum`, `C28_all_is_sum`, `C28_errors_and_gradient`, `C29_result_is_best_point`, `C29_restarts_bounded`, `C29_evaluation_limit_partial`, `C29_evaluation_limit_refuted`, `C29_optimize_terminates`, `C35_maxp_forward`, `C35_maxp_maximum_partial`, `C35_maxp_backward`, `C35_maxp_gradient`, `C35_maxp_maximum_refuted`, `C42_dropout_training`, `C42_dropout_scaling`, `C42_dropout_expectation`, `C42_dropout_gradient`, `C44_scaleData`, `C44_scaleData_interval`, `C46_centres_are_means`, `C46_first_fit`, `C46_next_fit`, `C46_fewer_points_than_centres_refuted`, `C49_gain_increases_when_direction_kept_refuted`, `C54_filter_computes_partial`, `C54_fir_partial`, `C54_iir_refuted`, `C59_build`, `C61_distance_values`, `C71_bagging_output`, `C72_bagging_train_refuted`, `C81_gradient_optimize`, `C81_leastSquares_optimize`, `C81_interrupted_gradient`, `C81_interrupted_leastSquares`, `C81_steps_gradient`, `C81_steps_leastSquares`, `C82_progress_gradient`, `C82_progress_leastSquares`, `C82_first_step_gradient`, `C82_first_step_leastSquares_refuted`, `C83_installed_leastSquares`, `C83_installed_gradient_refuted`, `C84_leastSquares_zero_partial`, `C84_leastSquares_refuted`, `C85_settings`, `C85_zero_iterations_refuted`, `C85_reused`, `C85_reused_leastSquares`, `C85_reused_corrections_refuted`, `C90_conv_zero`, `C90_maxp_forward`, `C90_maxp_backward`, `C95_read_numeral`, `C95_read_integer`, `C95_integers`, `C96_fann_load`, `C96_svm_load_two_classes`, `C96_svm_load_many_classes`, `C101_null_pointer`
* *none (closed under the global context)*:
  `C07_stream_trains_per_full_cache`, `C07_stream_unsupervised`, `C07_mixed_targets_refuted`, `C08_instance_reference_partial`, `C08_target_reference_partial`, `C08_two_instances_refuted`, `C09_created_data_sets_deleted_once`, `C09_current_data_sets_alive`, `C09_last_training_set_in_use`, `C09_sets_in_use`, `C10_generateInt_range`, `C10_generateInt_onto`, `C10_generateIndex_valid`, `C10_generateIndices_permutation`, `C11_decoding_empty`, `C20_pack_defined`, `C20_pack_ranges`, `C20_unpack_after_pack`, `C25_result`, `C27_handler_installed_while_observed`, `C27_signal_reported_until_last_object`, `C27_construction`, `C33_conv_output_size`, `C35_maxp_initialize`, `C36_subs_initialize`, `C45_transform_before_fit`, `C46_fewer_points_than_centres_ub_refuted`, `C47_empty_rejected`, `C48_log`, `C48_disabled`, `C48_message_without_level`, `C54_short_signal_refuted`, `C55_downsample`, `C56_patches`, `C56_any_position`, `C57_logger_partial`, `C57_deactivate_refuted`, `C59_getParameters_throws`, `C71_vector_refuted`, `C83_result_without_optimize`, `C106_no_undefined_behaviour`, `C106_deleted_once_partial`, `C106_exceptions_refuted`, `C106_shared_layer`, `C106_deleted_by_user`, `C106_stream_destroyed`
* `sig_forall_dec`, `sig_not_dec`, `functional_extensionality_dep`:
  `C15_error_measures`, `C21_epoch_uses_disjoint_batches`, `C22_schedules`, `C22_schedules_monotone`, `C23_gains_in_range`, `C25_documented_recursion`, `C26_stopping_rule`, `C26_optimize_stops_at_first`, `C26_optimize_terminates`, `C30_ranges`, `C30_derivatives`, `C30_matrix_functions`, `C31_softmax_formula`, `C31_softmax_shift`, `C32_fc_forward`, `C32_fc_gradient`, `C33_conv_forward`, `C34_conv_gradient`, `C36_subs_forward`, `C36_subs_region_partial`, `C36_subs_gradient`, `C36_subs_region_refuted`, `C39_network_can_be_built`, `C41_max_norm`, `C43_compressed_forward`, `C43_same_as_fully_connected`, `C43_compressed_gradient`, `C45_normalization`, `C45_transform_other`, `C46_distances`, `C47_dct`, `C47_gaussian`, `C47_sparse_random`, `C47_average`, `C47_edge_partial`, `C47_identity`, `C47_compressor`, `C47_edge_odd_refuted`, `C47_average_ignores_inputs_refuted`, `C47_more_outputs_than_inputs_refuted`, `C50_fc_getParameters_partial`, `C50_conv_getParameters_partial`, `C50_subs_getParameters_partial`, `C50_fc_getParameters_order_refuted`, `C50_conv_getParameters_order_refuted`, `C50_compressed_getParameters_refuted`, `C50_subs_getParameters_refuted`, `C51_extreme_forward`, `C51_extreme_gradient`, `C52_ip_forward`, `C52_ip_gradient`, `C53_new_learner`, `C59_output_partial`, `C59_bias_refuted`, `C60_weight_gradient_partial`, `C60_input_gradient_refuted`, `C61_distance_translation`, `C63_logistic`, `C64_construction`, `C66_error_gradient`, `C66_instance_gradient`, `C66_gradient`, `C66_reconstruction`, `C66_instance_error`, `C66_error`, `C66_regularization_refuted`, `C67_usable`, `C67_current_parameters`, `C67_output`, `C67_batch`, `C68_parameters`, `C68_pretrained_output`, `C68_layer_gradient`, `C68_layer_output`, `C75_estimates`, `C75_runs`, `C75_gains`, `C75_constant`, `C75_linear`, `C75_follows`, `C76_parameters_partial`, `C76_parameters_refuted`, `C76_batch_refuted`, `C76_parameter_gradient_partial`, `C76_gradient_refuted`, `C77_ratios`, `C77_more_components_refuted`, `C78_centred`, `C78_distances`, `C78_components_partial`, `C78_components_refuted`, `C79_whitening`, `C79_zero_phase`, `C79_exact_refuted`, `C80_misuse`, `C90_conv_forward`, `C90_subs_forward`, `C90_sp_forward`, `C91_result_unusable`, `C101_can_be_built`, `C103_same_network`
* `sig_forall_dec`:
  `C18_fann_round_trip`, `C53_ip_parameters`, `C67_construction`, `C71_adaboost_output`, `C80_rows_separately`, `C104_no_failure`, `C104_points`, `C104_terminated`, `C104_memory`, `C104_result_refuted`, `C104_restart_in_generation_refuted`, `C104_terminated_before_restart_refuted`, `C104_larger_problem_refuted`, `C104_copy_refuted`
* `sig_forall_dec`, `sig_not_dec`, `classic`, `functional_extensionality_dep`:
  `C30_non_decreasing`, `C30_logistic_error`, `C31_softmax_distribution`, `C37_gradient_exact_mse`, `C37_gradient_exact_smooth_layers`, `C37_gradient_cross_entropy_partial`, `C37_cross_entropy_refuted`, `C38_value_is_mean`, `C38_error_is_mean`, `C38_gradient_general_partial`, `C38_gradient_exact_partial`, `C38_gradient_refuted`, `C39_dimension`, `C39_current_parameters`, `C39_pointers`, `C39_outputs_determined`, `C39_max_norm_refuted`, `C40_load_accepts_saved`, `C40_loaded_is_rounded_partial`, `C40_save_load_partial`, `C40_precision_refuted`, `C40_extreme_refuted`, `C40_dropout_mode_refuted`, `C53_ip_gradient`, `C53_ip_error_gradient_refuted`, `C58_set_current_parameters`, `C58_error_unchanged`, `C58_set_current_identity`, `C58_max_norm_refuted`, `C61_slope_translation_scale`, `C61_slope_values`, `C62_stateless`, `C62_output_partial`, `C62_build`, `C62_translation_scale_partial`, `C62_distinct_angles_refuted`, `C62_rotation_refuted`, `C63_error`, `C63_error_gradient`, `C63_gradient`, `C63_error_finite_refuted`, `C63_logistic_saturated_refuted`, `C64_usable`, `C64_current_parameters`, `C64_hidden_representation`, `C64_reconstruction`, `C64_batch`, `C65_parameters`, `C65_pretrained_output`, `C65_layer_gradient`, `C65_layer_output`, `C65_current_parameters_refuted`, `C65_forward_replaces_training_set`, `C65_training_set_refuted`, `C66_positive_phase`, `C66_negative_phase_refuted`, `C68_current_parameters_refuted`, `C69_training`, `C69_weights_are_distributions`, `C69_reweighting`, `C69_training_error`, `C69_models_kept`, `C70_model_weights`, `C70_finite_refuted`, `C70_order_refuted`, `C73_output_partial`, `C73_shrinks`, `C73_setting_n_refuted`, `C73_documented_refuted`, `C73_batch_position_refuted`, `C74_gradient_partial`, `C74_gradient_refuted`, `C86_initialize_like_new_partial`, `C86_initialize_forgets_partial`, `C86_initialize_keeps_rbms`, `C86_initialize_rbm_refuted`, `C87_network_is_objective`, `C87_finishedIteration`, `C87_multiclassEvaluator`, `C88_train_MBSGD`, `C88_train_gradient`, `C88_train_LMA`, `C88_train_CMAES`, `C88_no_dropout_afterwards`, `C88_unknown_algorithm`, `C88_unknown_algorithm_refuted`, `C89_makeMLNN`, `C89_output`, `C89_error`, `C90_lrn_forward`, `C90_lrn_backward`, `C91_propagate_refuted`, `C91_all_layers`, `C92_output_info`, `C92_pass_through`, `C93_fixed_kept`, `C93_fixed_training`, `C93_pretraining_lost`, `C93_pretraining_kept_refuted`, `C94_limited`, `C94_same_network`, `C94_every_state`, `C94_norm`, `C94_gradient`, `C94_initial_refuted`, `C94_gradient_refuted`, `C95_written`, `C95_round_trip`, `C95_order`, `C95_integer_of_double`, `C95_integer_of_double_refuted`, `C96_fann_round_trip`, `C96_svm_round_trip_partial`, `C96_svm_many_classes_refuted`, `C96_svm_one_class_refuted`, `C96_svm_large_labels_refuted`, `C97_load_accepts_saved`, `C97_loaded_is_rounded_partial`, `C97_save_load_partial`, `C97_compression_name_refuted`, `C98_finite_and_ranges`, `C98_accuracy`, `C98_derivative_finite`, `C98_derivative_accuracy`, `C99_nan_visible_partial`, `C99_rectifier_hides_nan_refuted`, `C100_softmax_one_instance`, `C100_softmax_batch_partial`, `C100_softmax_order_partial`, `C100_softmax_far_instance_refuted`, `C100_cross_entropy`, `C101_parameters`, `C101_set_parameters`, `C101_output`, `C101_gradient_exact`, `C102_network`, `C102_overflow_refuted`, `C102_mean_squared_error`, `C103_weight`, `C103_bias`, `C103_rectifier_refuted`, `C105_weight`, `C105_bias`, `C105_far_instance_refuted`, `C107_split_partition`, `C107_split_size_partial`, `C107_split_size_dyadic`, `C107_sample_size_partial`, `C107_split_rejects`, `C107_seven_percent_refuted`, `C108_forward`, `C108_backward_partial`, `C108_backward_refuted`, `C108_diverged_refuted`, `C109_constructor_partial`, `C109_nan_accepted_refuted`, `C109_nan_rates_detected`, `C109_schedules`, `C109_gains`, `C109_gain_rule_partial`, `C109_gain_underflow_refuted`, `C109_update`, `C109_no_overflow`, `C109_rate_positive_partial`, `C109_rate_vanishes_refuted`, `C109_momentum_stuck_refuted`, `C110_accurate`, `C110_order`, `C110_bad_interval`, `C110_interval_refuted`, `C110_cancellation_refuted`, `C110_constant_refuted`, `C110_nan_limit_refuted`, `C111_fit`, `C111_transform`, `C111_constant_partial`, `C111_constant_refuted`, `C112_filter`, `C112_zero_refuted`, `C112_short_refuted`
* `functional_extensionality_dep`:
  `C90_patches`
