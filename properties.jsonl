{"id": "C01", "title": "Splitting a data set into n groups is a partition", "statement": "split(groups, dataset, n, shuffle) with n > 1 yields exactly n views; put one after another the views list every instance of the data set exactly once (in the original order when shuffle is off, in a permuted order otherwise), and no index is out of range.", "quantifier": "every data set size, every n > 1, every shuffle permutation", "why_tests_cant": "The rounding of samples/n and the special last group depend on both numbers; a test fixes a few pairs.", "anchors": ["src/DataSetView.cpp: split(std::vector<DataSetView>&, DataSet&, int, bool)", "OpenANN/io/DataSetView.h"]}
{"id": "C02", "title": "Splitting by ratio is a partition with ceil(ratio*N) instances in the first view", "statement": "split(groups, dataset, ratio, shuffle) with 0 < ratio < 1 gives two views; the first has ceil(ratio*N) instances, the second the others, together they list every instance exactly once.", "quantifier": "every data set size, every real ratio in (0,1), every shuffle permutation", "why_tests_cant": "The ceiling of a real product has boundary cases for every size.", "anchors": ["src/DataSetView.cpp: split(std::vector<DataSetView>&, DataSet&, double, bool)"]}
{"id": "C03", "title": "Merging views appends them in order", "statement": "merge(m, groups) makes m list its old instances followed by those of each group in order; merging all groups of a split except one gives exactly the instances not in that group.", "quantifier": "every list of views over one data set, every split, every group left out", "why_tests_cant": "Complement and multiplicity claims range over all splits.", "anchors": ["src/DataSetView.cpp: merge"]}
{"id": "C04", "title": "Views compose and keep every input with its own target", "statement": "Whatever nesting of split, merge, sample without replacement and shuffle is applied, instance i of the resulting view has input and target taken from the same instance of the underlying data set, and every read is in range.", "quantifier": "every finite sequence of view operations, every permutation drawn, every base data set", "why_tests_cant": "Histories of operations are unbounded.", "anchors": ["src/DataSetView.cpp: getInstance, getTarget, shuffle, split, merge, sample"]}
{"id": "C05", "title": "Sampling a subset", "statement": "sample(sampled, dataset, fraction, replacement) with 0 < fraction < 1 gives a view of ceil(N*fraction) valid instances, all different when replacement is off.", "quantifier": "every data set size, fraction in (0,1), both modes, every random choice", "why_tests_cant": "Depends on random choices and on memory that a passing test need not notice being overrun.", "anchors": ["src/DataSetView.cpp: sample"]}
{"id": "C06", "title": "Deterministic resampling of a weighted data set follows the weights", "statement": "After deterministic resampling of a data set whose non-negative weights sum to one, every resampled position refers to an instance of the data set with positive weight and each instance i occurs a number of times that differs from N*w_i by less than one.", "quantifier": "every weight vector summing to one, every size", "why_tests_cant": "The frequency bound must hold for every real weight vector.", "anchors": ["src/WeightedDataSet.cpp: resample, getInstance, updateWeights"]}
{"id": "C07", "title": "Data stream trains once per full cache, on exactly the samples of that cache", "statement": "Feeding any sequence of samples to a DataStream with cache size c makes the optimizer take exactly floor(k/c) steps after k samples, and at step j the training set consists of samples j*c .. (j+1)*c-1 in order.", "quantifier": "every sequence of samples, every cache size >= 1, every sample count", "why_tests_cant": "The claim is about all histories of calls.", "anchors": ["src/DataStream.cpp: addSample, initialize", "OpenANN/io/DataStream.h"]}
{"id": "C08", "title": "References returned by a direct storage data set", "statement": "getInstance(n)/getTarget(n) return the n-th row of the stored inputs/outputs, and a reference obtained earlier still denotes its own row after later calls.", "quantifier": "every sequence of getInstance/getTarget calls on every data set", "why_tests_cant": "Aliasing shows only under particular call orders.", "anchors": ["src/DirectStorageDataSet.cpp: getInstance, getTarget"]}
{"id": "C09", "title": "Learner owns exactly the data sets it created", "statement": "For every history of trainingSet/validationSet/removeTrainingSet/removeValidationSet calls ended by destruction, every data set created by the learner is deleted exactly once, data sets passed by the user are never deleted, and the data set in use is never a deleted one.", "quantifier": "every finite sequence of calls", "why_tests_cant": "Double free and leaks depend on the history of calls.", "anchors": ["src/Learner.cpp", "OpenANN/Learner.h"]}
{"id": "C10", "title": "Random helpers stay in range", "statement": "generateInt(min, range) returns a number in [min, min+range) (min if range is 0), generateIndex(size) returns a valid index and generateIndices(n) a permutation of 0..n-1, also when it is asked to shuffle an index list that was generated before.", "quantifier": "every generator state, every min, range, size, n", "why_tests_cant": "The generator state is arbitrary.", "anchors": ["src/Random.cpp: generateInt, generateIndex", "OpenANN/util/Random.h: generateIndices"]}
{"id": "C11", "title": "One-of-C decoding picks the largest component", "statement": "oneOfCDecoding(v) of a vector with at least two components returns a valid index of a largest component, the first one if there are several; for a single output it returns 1 exactly if the output is at least 1/2 and 0 otherwise.", "quantifier": "every non-empty vector", "why_tests_cant": "Ties and orderings are unbounded in number.", "anchors": ["src/Evaluation.cpp: oneOfCDecoding"]}
{"id": "C12", "title": "Accuracy, hits and the confusion matrix agree", "statement": "For a data set with C >= 2 outputs: the entries of the confusion matrix sum to the number of instances, its trace is the number of hits, row i sums to the number of instances of class i, accuracy is trace/N and lies in [0,1].", "quantifier": "every learner, every data set with at least two outputs", "why_tests_cant": "Relation between four functions over all data.", "anchors": ["src/Evaluation.cpp: accuracy, confusionMatrix, classificationHits, oneOfCDecoding"]}
{"id": "C13", "title": "Confusion matrix works for data sets with one output", "statement": "confusionMatrix(learner, dataSet) only accesses entries of the matrix it allocated also for data sets with a single output, which classificationHits treats as two classes.", "quantifier": "every learner, every data set with one output", "why_tests_cant": "An out-of-bounds write need not be visible in a test.", "anchors": ["src/Evaluation.cpp: confusionMatrix, classificationHits"]}
{"id": "C14", "title": "Weighted accuracy", "statement": "weightedAccuracy is the total weight of the correctly classified instances; it lies in [0,1] when the weights are non-negative and sum to one, and equals accuracy for uniform weights.", "quantifier": "every learner, data set and weight vector", "why_tests_cant": "Relation over all weights.", "anchors": ["src/Evaluation.cpp: weightedAccuracy"]}
{"id": "C15", "title": "Error measures", "statement": "sse is the sum of the squared differences between targets and predictions over the instances, is never negative and is 0 only for a learner that reproduces every target; mse = sse/N and rmse = sqrt(mse).", "quantifier": "every learner and data set", "why_tests_cant": "Quantifies over all data.", "anchors": ["src/Evaluation.cpp: sse, mse, rmse"]}
{"id": "C16", "title": "Cross validation tests every instance once on a model that has not seen it and reports the mean accuracy", "statement": "crossValidation(folds, ...) trains once per fold; in every fold no instance is both in the training and the test set, over all folds every instance is tested exactly once, and the returned number is the mean of the test accuracies of the folds.", "quantifier": "every data set size, number of folds, shuffle, and every learner", "why_tests_cant": "Depends on all fold sizes and on arithmetic conversions.", "anchors": ["src/Evaluation.cpp: crossValidation"]}
{"id": "C17", "title": "Evaluator reports every interval-th iteration and never changes data", "statement": "A MulticlassEvaluator evaluates exactly at iterations interval, 2*interval, ... and correct + wrong predictions equal the number of instances of each data set.", "quantifier": "every interval >= 1, every number of iterations, every data set", "why_tests_cant": "Unbounded number of iterations.", "anchors": ["src/Evaluator.cpp: evaluate"]}
{"id": "C18", "title": "FANN files round-trip", "statement": "Loading a file written by FANNFormat::save gives back the same inputs and outputs (up to the rounding of the decimal printing) with the same dimensions.", "quantifier": "every pair of matrices with the same number of rows (instances), every behaviour of decimal printing", "why_tests_cant": "Every matrix shape and content.", "anchors": ["src/FANN.cpp: save, load"]}
{"id": "C19", "title": "LibSVM files round-trip", "statement": "Loading a file written by LibSVM::save gives back the same inputs and outputs.", "quantifier": "every pair of matrices (one output, or one-of-C encoded outputs)", "why_tests_cant": "Depends on zero entries, on the number of classes and on trailing zero columns.", "anchors": ["src/LibSVM.cpp: save, load"]}
{"id": "C20", "title": "Packing parameters", "statement": "unpack after pack restores every array; pack writes each array into its own consecutive range and touches nothing else.", "quantifier": "every number of arrays and every array length", "why_tests_cant": "Offsets accumulate over an arbitrary list of sizes.", "anchors": ["src/EigenWrapper.cpp: pack, unpack"]}
{"id": "C21", "title": "One epoch of mini-batch SGD uses each instance at most once", "statement": "A step of MBSGD calls errorGradient on max(N/b,1) batches whose index ranges are valid, disjoint and, except that a single batch smaller than b is used when N < b, of size b; N - (N/b)*b instances (none if b divides N) are left out.", "quantifier": "every N >= 1, batch size b >= 1, every shuffle", "why_tests_cant": "Depends on N mod b.", "anchors": ["src/MBSGD.cpp: initialize, step"]}
{"id": "C22", "title": "Learning rate and momentum schedules stay within their limits", "statement": "Along every run the learning rate is non-increasing, never below the given minimum once it started above it, and equals max(alpha*decay^k, min) after k batches; the momentum is non-decreasing, never above the maximum and equals min(eta + k*gain, max).", "quantifier": "every number of batches, every admissible hyper-parameter", "why_tests_cant": "Claim over unboundedly many updates.", "anchors": ["src/MBSGD.cpp: step, MBSGD"]}
{"id": "C23", "title": "Gains stay within [minGain, maxGain]", "statement": "With adaptive gains enabled every gain stays in [minGain, maxGain] during every run if it started there.", "quantifier": "every sequence of gradients", "why_tests_cant": "All gradient histories.", "anchors": ["src/MBSGD.cpp: step"]}
{"id": "C24", "title": "MBSGD constructor accepts exactly the documented hyper-parameters", "statement": "MBSGD(...) throws if and only if a parameter lies outside its documented interval.", "quantifier": "every tuple of parameters", "why_tests_cant": "Seven real intervals, with open and closed ends.", "anchors": ["src/MBSGD.cpp: MBSGD"]}
{"id": "C25", "title": "MBSGD step implements (Nesterov) momentum", "statement": "After any number of batches the parameters given to the problem are exactly those of the documented recursion m' = eta*m - alpha*g, p' = p + m', where the gradient is taken at p (or at p + eta*m with Nesterov momentum).", "quantifier": "every objective, every number of batches and epochs", "why_tests_cant": "Equality of two recursions at every step.", "anchors": ["src/MBSGD.cpp: step"]}
{"id": "C26", "title": "MBSGD stops as documented and can be restarted", "statement": "optimize() performs at most maximalIterations epochs when that is given, stops at the first epoch whose step is below the minimal step size, and a later step after the end starts again from the current parameters of the problem.", "quantifier": "every objective, every stopping criteria", "why_tests_cant": "All runs.", "anchors": ["src/MBSGD.cpp: optimize, step, initialize"]}
{"id": "C27", "title": "Interrupt observer", "statement": "Whatever the nesting of StoppingInterrupt objects and signal arrivals, the signal handler is installed exactly while at least one object exists, and a SIGINT that arrived is reported by isSignaled until the last object is gone.", "quantifier": "every interleaving of construction, destruction and signals", "why_tests_cant": "Asynchronous events.", "anchors": ["src/StoppingInterrupt.cpp"]}
{"id": "C28", "title": "Default batch errors and gradients are sums over the instances", "statement": "For a problem that only provides error(n)/gradient(n), errorGradient over a range of indices returns the sums of the errors and of the gradients of these instances, and errorGradient(n) the pair for one instance.", "quantifier": "every range of indices, every problem", "why_tests_cant": "Unbounded ranges.", "anchors": ["src/Optimizable.cpp"]}
{"id": "C29", "title": "IPOP-CMA-ES returns the best point evaluated since setOptimizable", "statement": "result() is a point with the smallest error among all points evaluated in all restarts, the number of evaluations never exceeds the given maximum, and at most maximalRestarts restarts are made.", "quantifier": "every objective, every history of evaluations", "why_tests_cant": "All runs and restart points.", "anchors": ["src/IPOPCMAES.cpp: optimize, getNext, setError, restart, terminated, result"]}
{"id": "C30", "title": "Activation functions and their derivatives", "statement": "logistic maps into [0,1], tanh into (-1,1), scaled tanh into (-1.7159,1.7159), all are non-decreasing, and each derivative function applied to the output is the derivative of the activation function.", "quantifier": "every real activation", "why_tests_cant": "Derivatives and ranges over all reals.", "anchors": ["src/ActivationFunctions.cpp"]}
{"id": "C31", "title": "Softmax is a probability distribution", "statement": "Every row after softmax consists of positive numbers that sum to one, the order of the components is preserved, and the result does not depend on a constant added to a row.", "quantifier": "every matrix", "why_tests_cant": "All real inputs.", "anchors": ["src/ActivationFunctions.cpp: softmax"]}
{"id": "C32", "title": "Fully connected layer computes act(W x + b) and its exact gradients", "statement": "forwardPropagate returns act(x W^T + b) row by row and backpropagate returns the partial derivatives with respect to every weight, every bias and every input for the given error signal.", "quantifier": "every batch, size, weight, activation function, error signal", "why_tests_cant": "Partial derivatives at every point.", "anchors": ["src/FullyConnected.cpp"]}
{"id": "C33", "title": "Convolutional layer is a valid cross-correlation", "statement": "For every feature map size and odd kernel the forward pass computes for each output map the sum over the input maps of the cross-correlation with its kernel plus the biases, through the activation function; every access is in range and every output is written.", "quantifier": "every number of maps, image size, kernel size, batch", "why_tests_cant": "Index arithmetic for all sizes.", "anchors": ["src/Convolutional.cpp: initialize, forwardPropagate"]}
{"id": "C34", "title": "Convolutional layer backpropagates the exact gradient", "statement": "backpropagate returns the derivatives of the forward pass with respect to the kernels, the biases and the inputs.", "quantifier": "every size, parameter, input and error signal", "why_tests_cant": "Partial derivatives at every point.", "anchors": ["src/Convolutional.cpp: backpropagate"]}
{"id": "C35", "title": "Max-pooling returns the maximum of each region", "statement": "Every output of MaxPooling is the maximum of its kernelRows x kernelCols region of the input map, and the error is passed to the position of that maximum.", "quantifier": "every image, kernel size, batch", "why_tests_cant": "All images; a bug in one loop is invisible for kernels with one row.", "anchors": ["src/MaxPooling.cpp"]}
{"id": "C36", "title": "Subsampling averages each region with a trainable weight", "statement": "Every output of Subsampling is act(w * sum of the kernelRows x kernelCols region + b), and backpropagate returns the derivatives.", "quantifier": "every image, kernel size, batch", "why_tests_cant": "All images and sizes.", "anchors": ["src/Subsampling.cpp"]}
{"id": "C37", "title": "Network gradient is the gradient of the network error", "statement": "For every network built from fully connected, convolutional, dropout (with a fixed mask), compressed, extreme and intrinsic-plasticity layers, gradient(n) has as its k-th component the partial derivative of error(n) with respect to parameter k.", "quantifier": "every architecture (any number of layers), every parameter vector, instance, and both error functions", "why_tests_cant": "Induction over the depth; derivative at every point.", "anchors": ["src/Net.cpp: forwardPropagate, backpropagate, errorGradient, gradient, error", "src/FullyConnected.cpp", "src/Convolutional.cpp"]}
{"id": "C38", "title": "Batch gradient of a network", "statement": "errorGradient over a batch returns the mean of the errors of the instances and the gradient of that value.", "quantifier": "every architecture, batch, regularization", "why_tests_cant": "All batch sizes and penalties.", "anchors": ["src/Net.cpp: errorGradient"]}
{"id": "C39", "title": "Parameters of a network are stored once and read back", "statement": "dimension() is the sum of the parameter counts of the layers; currentParameters after setParameters(p) is p; component k of the parameter vector is the parameter whose derivative is component k of the gradient.", "quantifier": "every architecture, every parameter vector", "why_tests_cant": "All layer sequences.", "anchors": ["src/Net.cpp: setParameters, currentParameters, dimension, addLayer", "src/FullyConnected.cpp: initialize", "src/Convolutional.cpp: initialize"]}
{"id": "C40", "title": "Saving and loading a network", "statement": "A network loaded from a file written by save computes the same function as the saved one.", "quantifier": "every architecture, every parameter vector", "why_tests_cant": "All architectures.", "anchors": ["src/Net.cpp: save, load", "FullyConnected/Convolutional/Subsampling getParameters"]}
{"id": "C41", "title": "Max-norm constraint", "statement": "After setParameters with a max-norm penalty m > 0 the squared norm of the weight vector of each unit is at most m and its direction is unchanged.", "quantifier": "every weight matrix, every m > 0", "why_tests_cant": "All reals.", "anchors": ["src/FullyConnected.cpp: updatedParameters"]}
{"id": "C42", "title": "Dropout", "statement": "While training, a suppressed neuron outputs 0 and receives no error and the others are unchanged; otherwise every output is the input times (1 - probability), which is the expected training output.", "quantifier": "every batch, every random mask", "why_tests_cant": "All masks.", "anchors": ["src/Dropout.cpp"]}
{"id": "C43", "title": "Compressed layer equals a full layer with weights alpha*phi", "statement": "The output of a compressed layer is that of a fully connected layer with W = alpha*phi, and its parameter gradient is the derivative with respect to alpha.", "quantifier": "every size, compression matrix, parameters, inputs", "why_tests_cant": "All reals.", "anchors": ["src/Compressed.cpp"]}
{"id": "C44", "title": "Scaling maps the data onto the given interval", "statement": "scaleData(data, min, max) with min < max maps a non-constant matrix affinely and order-preservingly so that the smallest entry becomes min and the largest max.", "quantifier": "every non-constant matrix, every min < max", "why_tests_cant": "All reals.", "anchors": ["src/Preprocessing.cpp: scaleData"]}
{"id": "C45", "title": "Normalization gives mean zero and standard deviation one", "statement": "After fit(X), transform(X) has mean 0 and variance 1 in each column, constant columns excepted.", "quantifier": "every matrix", "why_tests_cant": "All reals.", "anchors": ["src/Normalization.cpp"]}
{"id": "C46", "title": "k-means assigns each point to a nearest centre", "statement": "fit(X) assigns each row of X to a nearest centre; after any sequence of calls of fit, each centre is the mean of all points that have been assigned to it so far, or one of the points of the first call if there are none; operator() returns the Euclidean distance of each row to each centre.", "quantifier": "every data set, every number of centres, every number of updates", "why_tests_cant": "All data and histories.", "anchors": ["src/KMeans.cpp"]}
{"id": "C47", "title": "Compression matrices have the requested structure", "statement": "For every size, compress matrices have the requested size and each entry has the value documented for the compression type: the random types have entries in their documented range, rows of the averaging matrix are averages of consecutive disjoint blocks of inputs (so constant vectors are mapped to constant vectors), rows of the edge matrix map constant vectors to zero, and without compression the matrix is the identity. Nothing divides by zero.", "quantifier": "every input and parameter dimension, every compression type", "why_tests_cant": "All dimensions.", "anchors": ["src/CompressionMatrixFactory.cpp"]}
{"id": "C48", "title": "Logging level filter", "statement": "A message is emitted exactly if its level does not exceed the current level.", "quantifier": "every pair of levels, every history of level changes", "why_tests_cant": "All histories.", "anchors": ["src/Logger.cpp", "OpenANN/io/Logger.h"]}
{"id": "C49", "title": "Adaptive gains grow while a parameter keeps its direction", "statement": "The gain of a parameter is increased by 0.05 when two successive changes of the parameter have the same sign and multiplied by 0.95 otherwise, as the class documentation of MBSGD says.", "quantifier": "every state of the optimiser and every gradient", "why_tests_cant": "The sign condition interacts with momentum and sign conventions; a test of convergence does not notice it.", "anchors": ["src/MBSGD.cpp: step", "OpenANN/optimization/MBSGD.h: class documentation"]}
{"id": "C50", "title": "getParameters returns the parameters of a layer", "statement": "getParameters() of a layer returns the current values of its learnable parameters (each exactly once), in the order in which the layer's parameters appear in the network's parameter vector.", "quantifier": "every layer type, every size, every parameter vector and every history of calls", "why_tests_cant": "All sizes and histories; the order only shows up with distinct parameter values and more than one neuron.", "anchors": ["OpenANN/layers/Layer.h: getParameters", "src/FullyConnected.cpp: getParameters", "src/Compressed.cpp: getParameters", "src/Subsampling.cpp: getParameters", "src/Convolutional.cpp: getParameters"]}
{"id": "C51", "title": "Extreme layers have fixed weights and exact input gradients", "statement": "An Extreme layer has no parameters in the network's parameter vector, its output is act(W x + b) with the weights drawn at construction, unaffected by training, and the error signal it returns is the exact derivative with respect to its input.", "quantifier": "every size, weights, batch, history of calls and smooth activation", "why_tests_cant": "All reals, all histories.", "anchors": ["src/Extreme.cpp"]}
{"id": "C52", "title": "IntrinsicPlasticity as a layer", "statement": "As a layer, IntrinsicPlasticity computes logistic(s_i x_i + b_i) with its own s and b, does not expose parameters to the network, and backpropagates the exact input gradient.", "quantifier": "every size, batch, s, b and history of calls with activations inside the logistic's interval (-45,45)", "why_tests_cant": "All reals, all histories.", "anchors": ["src/IntrinsicPlasticity.cpp: forwardPropagate, backpropagate"]}
{"id": "C53", "title": "IntrinsicPlasticity as a learner", "statement": "setParameters followed by currentParameters returns the same vector, and gradient(n) is the exact gradient of the objective that error(n) reports.", "quantifier": "every number of nodes, every instance, every parameter vector with positive slopes", "why_tests_cant": "Requires the calculus over all parameters; a finite difference test against the wrong objective would simply not be written.", "anchors": ["src/IntrinsicPlasticity.cpp: error, gradient, setParameters, currentParameters"]}
{"id": "C54", "title": "filter applies a linear filter", "statement": "filter(x, y, b, a) filters each channel with the numerator coefficients b and the denominator coefficients a: a_0 y_t = sum_k b_k x_{t-k} - sum_{k>0} a_k y_{t-k} as soon as all the samples it needs exist.", "quantifier": "every number of channels, signal length and filter coefficients", "why_tests_cant": "All signals, lengths and coefficients; a test with a feed-forward filter does not see the feedback part.", "anchors": ["OpenANN/Preprocessing.h: filter", "src/Preprocessing.cpp: filter"]}
{"id": "C55", "title": "downsample keeps every k-th sample", "statement": "downsample(y, d, k) stores sample t*k of each channel of y in column t of d and never reads outside y when d is not longer than ceil(columns of y / k).", "quantifier": "every number of channels, lengths, factors and contents", "why_tests_cant": "All shapes; off-by-one at the last sample only shows up at particular lengths.", "anchors": ["OpenANN/Preprocessing.h: downsample", "src/Preprocessing.cpp: downsample"]}
{"id": "C56", "title": "sampleRandomPatches returns patches of the images", "statement": "Row m*samples+n of the result of sampleRandomPatches is a contiguous patch of image m that lies completely inside the image and is taken at the same position in all channels; every position including the last one can be chosen.", "quantifier": "every number of images, channels, image size, patch size not larger than the image, number of samples and outcome of the random generator", "why_tests_cant": "The positions are random; tests see a few of them.", "anchors": ["OpenANN/Preprocessing.h: sampleRandomPatches", "src/Preprocessing.cpp: sampleRandomPatches"]}
{"id": "C57", "title": "Logger objects write to their target", "statement": "A Logger object writes the messages passed to it, in order and without loss, to its target; setting Logger::deactivate silences all Logger objects.", "quantifier": "every sequence of constructions of loggers, messages and changes of Logger::deactivate", "why_tests_cant": "All interleavings of messages of several loggers and changes of a static variable.", "anchors": ["OpenANN/io/Logger.h: class Logger", "src/Logger.cpp: Logger::Logger, isActive"]}
{"id": "C58", "title": "Installing the reported parameters changes nothing", "statement": "In every state of a network without weight norm constraints, setParameters(currentParameters()) succeeds and changes no output, no error and no parameter: the network always uses exactly the parameters it reports, also right after it has been built with random weights.", "quantifier": "every architecture, all random initial weights, every history of calls, every input", "why_tests_cant": "All architectures and all histories; a cached derived quantity (for instance the weights of a compressed layer) that is stale in one history is only seen in that history.", "anchors": ["src/Net.cpp: setParameters, currentParameters, initializeNetwork", "src/Compressed.cpp: initializeParameters, updatedParameters"]}
{"id": "C59", "title": "A higher-order layer sums weighted products of inputs", "statement": "Output j of a sigma-pi layer is the activation function of the sum, over all sets of as many different inputs as the order of neuron j, of a weight times the product of these inputs. Neurons never share weights; within a neuron every product has its own weight unless a constraint is given, and with a constraint two products share a weight if the constraint has equal values for them, and do not share if the values differ by 0.002 or more.", "quantifier": "every number of inputs, every sequence of calls that add neurons of order 2, 3 and 4 with any (stateless) constraint, all parameters, inputs, batch sizes and histories of calls", "why_tests_cant": "All sets of inputs, orders, constraints and histories; index errors in the nested loops show up only for particular sizes.", "anchors": ["src/SigmaPi.cpp: secondOrderNodes, thirdOrderNodes, fourthOrderNodes, initialize, forwardPropagate", "OpenANN/layers/SigmaPi.h: class SigmaPi"]}
{"id": "C60", "title": "A higher-order layer backpropagates exact derivatives", "statement": "After forward and backward pass of a sigma-pi layer the derivative of each (shared) weight is the partial derivative of the inner product of the outputs with the error signal, and the returned error signal contains the partial derivatives with respect to the inputs.", "quantifier": "every layer, all parameters, inputs, error signals and histories of calls for which the activation function is differentiable", "why_tests_cant": "Derivatives for all sizes, values and ways of sharing weights; a test compares with finite differences at a few points.", "anchors": ["src/SigmaPi.cpp: backpropagate"]}
{"id": "C61", "title": "Distance and slope constraints make a layer invariant", "statement": "A neuron of order 2 with a DistanceConstraint has the same output for an image and the same image moved anywhere within the frame; with a SlopeConstraint also for the image whose pixels are spread by any integer factor. Two pairs of pixels get the same DistanceConstraint value exactly if their distances are equal and the same SlopeConstraint value exactly if their connecting lines are parallel.", "quantifier": "every image size, image, translation, factor, activation function, parameters and histories of calls", "why_tests_cant": "The claim is about all images, all translations and all weights.", "anchors": ["OpenANN/layers/SigmaPiConstraints.h: DistanceConstraint, SlopeConstraint", "src/SigmaPi.cpp: secondOrderNodes, forwardPropagate"]}
{"id": "C62", "title": "Triangle constraints make a layer invariant", "statement": "A neuron of order 3 with a TriangleConstraint shares a weight between two triples of pixels if and only if their triangles have the same angles (rounded to the resolution, in the same cyclic order), and its output does not change when the image is moved, when its pixels are spread by an integer factor, or when it is turned.", "quantifier": "every image size, resolution, sequence of calls that add neurons (also with one constraint object used several times), all images, parameters and histories of calls", "why_tests_cant": "The constraint object changes with every call, so the numbers depend on the whole sequence of calls; the claim is about all images, motions and weights.", "anchors": ["OpenANN/layers/SigmaPiConstraints.h: TriangleConstraint", "src/SigmaPi.cpp: thirdOrderNodes, forwardPropagate"]}
{"id": "C63", "title": "A sparse auto-encoder reports its objective and its exact gradient", "statement": "For a non-empty training set, error() of a SparseAutoEncoder is the halved mean squared reconstruction error plus weight decay plus the sparsity penalty (Kullback-Leibler divergence of the mean activations from the desired one) at the last parameters set, and gradient() and errorGradient() return its exact partial derivatives in the order of the parameter vector.", "quantifier": "all numbers of inputs and hidden units, all settings, parameters, training sets and sequences of calls", "why_tests_cant": "Derivatives of a composed function for all sizes and values; a test compares with finite differences at a few points.", "anchors": ["src/SparseAutoEncoder.cpp: error, gradient, errorGradient, trainingSet"]}
{"id": "C64", "title": "A sparse auto-encoder is a function of the last parameters set", "statement": "currentParameters() returns the last vector passed to setParameters() (initially weights within +-sqrt(6)/sqrt(H+D+1) and zero biases); operator() and reconstruct() return hidden representation and reconstruction of their argument for these parameters, whatever the object was used for before.", "quantifier": "all sizes, settings, parameters, instances, random initial weights and sequences of calls", "why_tests_cant": "The object keeps intermediate results of all functions in shared members; the claim is about all interleavings of calls.", "anchors": ["src/SparseAutoEncoder.cpp: SparseAutoEncoder, initialize, setParameters, currentParameters, operator(), reconstruct"]}
{"id": "C65", "title": "A pre-trained auto-encoder works as a layer of a network", "statement": "A SparseAutoEncoder that was trained and then added to a network passes on the hidden representation for the trained parameters, exposes exactly the weights and biases of its hidden layer as parameters, and computes exact derivatives for fine-tuning; its two interfaces agree on parameters and training set.", "quantifier": "all sizes, settings, trainings, parameters, batches, error signals and histories of calls of the layer functions", "why_tests_cant": "All combinations of calls of two interfaces that share the same members.", "anchors": ["src/SparseAutoEncoder.cpp: initialize, forwardPropagate, backpropagate, currentParameters"]}
{"id": "C66", "title": "An RBM computes contrastive divergence", "statement": "gradient(), gradient(n) and errorGradient() of an RBM are, for every sequence of random numbers, the statistics of cdN rounds of Gibbs sampling minus the statistics of the instances (the latter are the exact derivatives of the free energy), plus the derivatives of the penalties of the weights; error() is the sum of the squared reconstruction errors after one round; reconstructProb(n, steps) returns the probabilities after the given number of rounds.", "quantifier": "all numbers of visible and hidden units, rounds, penalties, parameters, training sets, batches, random numbers and sequences of calls", "why_tests_cant": "The result depends on a sequence of random numbers; a test sees one sequence and cannot check which distribution each unit is drawn from.", "anchors": ["src/RBM.cpp: error, gradient, errorGradient, reconstructProb, sampleHgivenV, sampleVgivenH, reality, daydream, fillGradient"]}
{"id": "C67", "title": "An RBM is a function of the last parameters set", "statement": "currentParameters() returns the last vector passed to setParameters() (initially the random weights and zero biases); operator() returns the probabilities of the hidden units given its argument, whatever random numbers are drawn and whatever the object was used for before.", "quantifier": "all sizes, settings, parameters, instances, batches, random numbers and sequences of calls", "why_tests_cant": "The object keeps samples and probabilities of all functions in shared members; the claim is about all interleavings of calls.", "anchors": ["src/RBM.cpp: RBM, initialize, setParameters, currentParameters, operator()"]}
{"id": "C68", "title": "A pre-trained RBM works as a layer of a network", "statement": "An RBM that was trained and then added to a network passes on the probabilities of the hidden units for the trained parameters; it exposes its weights and hidden biases as parameters exactly if it was created with backprop, computes exact derivatives, and currentParameters()/getParameters() return the parameters in use.", "quantifier": "all sizes, settings, trainings, parameters, batches, error signals, random numbers and histories of calls of the layer functions", "why_tests_cant": "All combinations of calls of two interfaces that share the same members.", "anchors": ["src/RBM.cpp: initialize, forwardPropagate, backpropagate, getParameters"]}
{"id": "C69", "title": "AdaBoost is boosting", "statement": "train() of an AdaBoost ensemble trains the added learners one after the other, each on a deterministic resample of the data set in which each instance occurs as often as its current weight demands; the weights start uniform and always are positive and sum up to one; after a learner with error between 0 and 1/2 the weights of the instances it classifies wrongly grow and those of the others shrink so that its error would become 1/2; the training error of the weighted vote is at most the product of the factors of the rounds.", "quantifier": "all data sets, numbers of learners, (deterministic) learners and optimizers", "why_tests_cant": "The claim holds for arbitrary learners, optimizers and numbers of rounds; a test trains one ensemble of one kind of learner.", "anchors": ["src/AdaBoost.cpp: train", "src/WeightedDataSet.cpp", "src/Evaluation.cpp: weightedAccuracy"]}
{"id": "C70", "title": "The weights of AdaBoost's models are a convex combination", "statement": "After training, getWeights() has one finite non-negative weight per learner; the weights sum up to one and a learner with a smaller error has a larger weight.", "quantifier": "all data sets, numbers of learners, learners and optimizers", "why_tests_cant": "The weights involve logarithms of the errors of all rounds; the edge cases (error 0, 1/2, 1) depend on the data.", "anchors": ["src/AdaBoost.cpp: train, getWeights"]}
{"id": "C71", "title": "Ensembles combine the outputs of their learners", "statement": "operator() of an AdaBoost ensemble returns the weighted sum of the outputs of its learners and that of a Bagging ensemble their mean, for single instances as well as for matrices of instances.", "quantifier": "all numbers of learners, weights, batches and learners", "why_tests_cant": "All numbers and kinds of learners and all inputs.", "anchors": ["src/AdaBoost.cpp: operator()", "src/Bagging.cpp: operator()"]}
{"id": "C72", "title": "Bagging trains each learner on a bootstrap sample", "statement": "train() of a Bagging ensemble trains every added learner on a sample of the data set, drawn with replacement, of the given relative size.", "quantifier": "all data sets, bag sizes, numbers of learners, learners, optimizers and random numbers", "why_tests_cant": "Undefined behaviour in the sampling does not necessarily show in a test.", "anchors": ["src/Bagging.cpp: train", "src/DataSetView.cpp: sample"]}
{"id": "C73", "title": "Local response normalization divides by the local energy", "statement": "A LocalResponseNormalization layer divides each value by (k + alpha * E)^beta, where E is the sum of the squares at the same position in the n adjacent feature maps, independently of the other instances of a batch.", "quantifier": "all numbers of feature maps, image sizes, settings, batches and histories of calls", "why_tests_cant": "All sizes and batches; a test with single instances does not notice that the number of the row is used instead of n.", "anchors": ["src/LocalResponseNormalization.cpp: forwardPropagate", "OpenANN/layers/LocalResponseNormalization.h"]}
{"id": "C74", "title": "Local response normalization computes exact derivatives", "statement": "backpropagate() of a LocalResponseNormalization layer returns the exact partial derivatives with respect to its input.", "quantifier": "all numbers of feature maps, image sizes, settings, batches, error signals and histories of calls", "why_tests_cant": "Exact derivatives for all values and batch sizes; a test compares with finite differences at a few points.", "anchors": ["src/LocalResponseNormalization.cpp: backpropagate"]}
{"id": "C75", "title": "The alpha-beta filter smooths signals and estimates their derivatives", "statement": "After setting its parameters, an AlphaBetaFilter layer returns, for the sequence of instances that it has processed since, estimates of position and velocity that do not depend on what happened before: a constant signal is reproduced exactly, the estimates are linear in the signal, and for every parameter other than 0 a signal with constant velocity is followed with vanishing error.", "quantifier": "all numbers of inputs, parameters, time steps, signals, numbers of time steps and histories of calls", "why_tests_cant": "Convergence is a statement about infinitely many time steps and all parameters.", "anchors": ["src/AlphaBetaFilter.cpp: updatedParameters, reset, forwardPropagate"]}
{"id": "C76", "title": "The alpha-beta filter works as a layer of a network", "statement": "Parameters of an AlphaBetaFilter can be set and read back, it processes batches row by row, and it computes exact derivatives.", "quantifier": "all numbers of inputs, parameters, batches, error signals and histories of calls", "why_tests_cant": "All combinations of parameters, batches and calls.", "anchors": ["src/AlphaBetaFilter.cpp: initialize, updatedParameters, forwardPropagate, backpropagate, getParameters"]}
{"id": "C77", "title": "PCA reports the shares of the variance", "statement": "After fit(), explainedVarianceRatio() has one entry per component: the share of the variance of the data in the k-th principal direction. The entries lie in [0, 1], are sorted and sum up to 1 if all components are kept.", "quantifier": "all data that are not constant, all numbers of components, with and without whitening", "why_tests_cant": "Optimality of the principal directions is a claim about all directions; a test checks the sum for one matrix.", "anchors": ["src/PCA.cpp: fit, explainedVarianceRatio", "OpenANN/PCA.h"]}
{"id": "C78", "title": "PCA returns the principal components", "statement": "transform() of the data passed to fit() returns centred, uncorrelated features sorted by variance, the coordinates in the principal directions; with whitening each feature has variance 1. Without whitening and with all components distances are kept.", "quantifier": "all data, numbers of components, with and without whitening", "why_tests_cant": "The claim must hold for data of every dimension and every valid singular value decomposition; the test uses two dimensions, where a transposed matrix often goes unnoticed.", "anchors": ["src/PCA.cpp: fit, transform"]}
{"id": "C79", "title": "ZCA whitening whitens without rotation", "statement": "The data passed to fit() are transformed to data with mean 0 and with a covariance matrix that differs from the identity by at most 1e-5 / (m + 1e-5) per entry, m being the least variance of the data in any direction; no direction gets a variance above 1; the transformation is the multiplication with a symmetric positive definite matrix.", "quantifier": "all data with at least two rows, every valid singular value decomposition", "why_tests_cant": "The error bound is a claim about all data sets and all directions.", "anchors": ["src/ZCAWhitening.cpp: fit, transform", "OpenANN/ZCAWhitening.h"]}
{"id": "C80", "title": "Fitted transformations treat instances separately and detect misuse", "statement": "After fit(), the transformation of an instance by PCA or ZCA whitening depends on this instance only, not on the other rows of the matrix; transform() without fit() or with a wrong number of columns is rejected.", "quantifier": "all fitted transformations, all pairs of matrices, all positions of a row", "why_tests_cant": "Ranges over all matrices that contain the instance.", "anchors": ["src/PCA.cpp: transform", "src/ZCAWhitening.cpp: transform"]}
{"id": "C81", "title": "CG, L-BFGS and LMA let the solver see the problem as it is", "statement": "Every request of the underlying solver is answered with the error (and gradient) of the problem at exactly the requested point: optimize() ends whenever the solver would end on the function itself and result() returns and installs exactly what the solver finds; the same holds if step() is called until it returns false while the user evaluates, trains or changes the problem in any way between the steps. After an interruption the result is what the solver had found until then.", "quantifier": "all solvers with reverse communication, all problems whose answers depend on their current parameters only, all interruptions and all interleavings of steps with other uses of the problem", "why_tests_cant": "Ranges over all solvers, problems and interleavings; a test runs one solver on one problem.", "anchors": ["src/CG.cpp: step, optimize, reset, result", "src/LBFGS.cpp: step, optimize, reset, result", "src/LMA.cpp: step, optimize, reset, result"]}
{"id": "C82", "title": "CG, L-BFGS and LMA report progress once per iteration", "statement": "step() of CG, L-BFGS and LMA returns true only after the solver has done a further iteration, and the problem is told so by finishedIteration() as the last action.", "quantifier": "all solvers, problems, numbers of steps and uses of the problem between the steps", "why_tests_cant": "Ranges over all numbers of steps and all solvers.", "anchors": ["src/CG.cpp: step, initialize", "src/LBFGS.cpp: step, initialize", "src/LMA.cpp: step, initialize"]}
{"id": "C83", "title": "The problem holds the optimum after optimize()", "statement": "After optimize() of CG, L-BFGS and LMA the parameters of the problem are the optimum that has been found, with or without interruption.", "quantifier": "all solvers, problems and interruptions", "why_tests_cant": "Whether the last evaluated point is the best one depends on the run of the solver.", "anchors": ["src/CG.cpp: optimize, reset, result", "src/LBFGS.cpp: optimize, reset, result", "src/LMA.cpp: optimize, reset", "src/AdaBoost.cpp: train", "src/Bagging.cpp: train"]}
{"id": "C84", "title": "LMA minimizes the error of the problem", "statement": "If its least squares solver succeeds, LMA returns parameters that minimize error() of the problem, i.e. the sum of the errors of the examples.", "quantifier": "all problems whose error is the sum of the errors of their examples, all solvers that find the minimum of the sum of squares of the reported values", "why_tests_cant": "A claim about all problems; on problems that can be solved without error, which tests use, the difference is not visible.", "anchors": ["src/LMA.cpp: step, initialize"]}
{"id": "C85", "title": "Optimizers pass on their settings and can be used again", "statement": "CG, L-BFGS and LMA pass the stopping criteria to the solver as they are given, and an optimizer that has finished behaves like a new one on the next problem.", "quantifier": "all stopping criteria, all solvers, all sequences of problems of any dimension", "why_tests_cant": "Ranges over all sequences of problems.", "anchors": ["src/CG.cpp: initialize, reset", "src/LBFGS.cpp: initialize, reset", "src/LMA.cpp: initialize, reset", "OpenANN/optimization/StoppingCriteria.h"]}
{"id": "C86", "title": "initialize() makes a network like new", "statement": "After initialize() a network has the parameters and computes the outputs of a newly built network with the same layers that has drawn the same random numbers: nothing of what it has been trained to before remains. The error function, the training set and the dropout switch are kept, and everything that holds for a newly built network holds for it.", "quantifier": "all networks of input, fully connected, compressed, extreme, convolutional, subsampling, max-pooling, intrinsic plasticity, dropout, restricted Boltzmann machine and sparse autoencoder layers without a maximal weight norm, all random numbers and all ways the network has been used before", "why_tests_cant": "Ranges over all networks, random numbers and earlier uses; a test sees one random network.", "anchors": ["src/Net.cpp: initialize, inputLayer, fullyConnectedLayer, outputLayer", "src/FullyConnected.cpp: initializeParameters", "src/Convolutional.cpp: initializeParameters", "src/Subsampling.cpp: initializeParameters", "src/Extreme.cpp: initializeParameters"]}
{"id": "C87", "title": "A network is a deterministic optimization problem", "statement": "As seen by an optimizer, a network whose layers are differentiable is a function of its parameters: after setParameters(x), error(), error(i) and errorGradient() return the same values no matter what has been done with the network before; error() is the mean of error(i); and for the mean squared error the returned gradient is the gradient of the returned error (for several instances: without penalties). finishedIteration() evaluates the network without dropout and changes neither its parameters nor the dropout switch.", "quantifier": "all networks of differentiable layers without a maximal weight norm, all training sets, parameters, batches and all uses of the network in between", "why_tests_cant": "Ranges over all histories of calls; a test evaluates a network in one state.", "anchors": ["src/Net.cpp: error, errorGradient, setParameters, finishedIteration", "src/Evaluator.cpp: MulticlassEvaluator::evaluate", "src/DirectStorageDataSet.cpp: finishIteration"]}
{"id": "C88", "title": "train() does what the optimizer promises", "statement": "train() without dropout starts at the current parameters, or at those of a new network if asked to reinitialize. With MBSGD the network ends at a point that gradient descent with momentum on disjoint batches reaches in the given number of epochs; with CG, L-BFGS and LMA at the result of the solver on the training error; with CMAES at the best of all evaluated points. The network remains usable and dropout is off afterwards. An unknown algorithm raises an exception and leaves the network as it was.", "quantifier": "all networks of differentiable layers without a maximal weight norm, training sets, stopping criteria, random numbers and permutations, all behaviours of the external solvers", "why_tests_cant": "Ranges over all networks, data sets and runs of the external libraries; a test trains one network and looks at its error.", "anchors": ["src/Convenience.cpp: train", "src/MBSGD.cpp: optimize, result", "src/CG.cpp: optimize, result", "src/LBFGS.cpp: optimize, result", "src/LMA.cpp: optimize, result", "src/IPOPCMAES.cpp: optimize, result"]}
{"id": "C89", "title": "makeMLNN() builds the requested multilayer perceptron", "statement": "makeMLNN() builds a network with the requested inputs, hidden layers and outputs. Its parameters are the weights and biases of the layers, and its outputs are, whatever has been done with it since, the function of the multilayer perceptron with the current parameters (followed by the softmax function for the cross entropy). error(i) is half the squared distance to the target, or the cross entropy.", "quantifier": "all numbers of inputs, outputs, hidden layers and units, all activation functions, all later uses of the network and all inputs", "why_tests_cant": "Ranges over all topologies, parameters and inputs.", "anchors": ["src/Convenience.cpp: makeMLNN", "src/Net.cpp: inputLayer, fullyConnectedLayer, outputLayer, operator(), error", "src/FullyConnected.cpp"]}
{"id": "C90", "title": "Parallel loops do not race", "statement": "Every loop of the library that is executed by several threads (forward and backward propagation of the convolutional, subsampling, max pooling, sigma-pi and local response normalization layers and the sampling of random patches) has the same result as if one thread executed all iterations in order. There is no data race, however the accesses of the threads interleave, every thread always makes progress and the loop terminates.", "quantifier": "all layer sizes, parameters and inputs, all numbers of threads, all distributions of the iterations among threads, all interleavings of single reads and writes", "why_tests_cant": "A test runs a few of the exponentially many interleavings and a data race usually has no visible effect; the absence of races must hold for each schedule.", "anchors": ["src/MaxPooling.cpp: forwardPropagate, backpropagate", "src/SigmaPi.cpp: forwardPropagate", "src/LocalResponseNormalization.cpp: forwardPropagate, backpropagate", "src/Subsampling.cpp: forwardPropagate", "src/Convolutional.cpp: forwardPropagate, backpropagate", "src/Preprocessing.cpp: sampleRandomPatches"]}
{"id": "C91", "title": "A data set can be propagated through the first layers of a network", "statement": "propagateDataSet(dataSet, l) returns a data set with the targets of dataSet whose instances are the outputs of the first l layers for the instances of dataSet. (Refuted: the result refers to matrices that do not exist any more, its number of inputs is that of the original, and the instances are passed through all layers for every positive l, so that the call fails unless the network has as many outputs as inputs.)", "quantifier": "all networks without a maximal weight norm, all data sets and all l", "why_tests_cant": "Reading freed memory often gives the expected numbers in a test; what is returned depends on l only for l <= 0, which a test of the last layer does not see.", "anchors": ["src/Net.cpp: propagateDataSet", "src/DirectStorageDataSet.cpp: DirectStorageDataSet, getInstance", "OpenANN/Net.h: propagateDataSet"]}
{"id": "C92", "title": "The layers of a network can be inspected", "statement": "numberOflayers() is the number of added layers plus the input layer. getOutputInfo(i) returns the sizes of the output of layer i, which follow from the arguments with which the layers have been added, in all later states of the network; data that is passed by hand through the layers that getLayer() returns has these sizes after each layer, and is the output of the network after the last one. Indices of layers that do not exist are rejected.", "quantifier": "all networks without a maximal weight norm, all states after any use, all layers and inputs", "why_tests_cant": "Ranges over all sequences of layers and all histories of calls.", "anchors": ["src/Net.cpp: numberOflayers, getLayer, getOutputInfo, addLayer", "OpenANN/layers/Layer.h: OutputInfo"]}
{"id": "C93", "title": "What a layer learns on its own stays in the network", "statement": "A restricted Boltzmann machine or a sparse autoencoder that is a layer of a network can be trained on its own through getLayer(), and the network then uses what it has learned. (This holds for a restricted Boltzmann machine whose weights are not parameters of the network: no later call changes its weights, and the other layers can be trained as before. It is refuted if the weights are parameters of the network: currentParameters() still returns the old weights, and as soon as they are installed, as optimizers do that start there, the network computes what it did before the layer was trained.)", "quantifier": "all networks without a maximal weight norm, all states after any use, all sequences of calls of the learner's functions, all later calls of functions of the network, all inputs", "why_tests_cant": "Ranges over all histories of calls of two interfaces of one object; a test of one interface does not see the state of the other.", "anchors": ["src/Net.cpp: getLayer, currentParameters, setParameters", "src/RBM.cpp: initialize, setParameters", "src/SparseAutoEncoder.cpp: initialize, setParameters", "benchmarks/mnist/rbm.cpp"]}
{"id": "C94", "title": "A maximal weight norm limits the weights of fully connected layers and nothing else", "statement": "With a maximal squared weight norm, setParameters(p) scales the incoming weights of every unit of a fully connected layer whose squared norm exceeds the limit down to that norm and leaves all biases, all other weights and all other layers alone. The network then computes the same outputs, errors and gradients as a network without the limit that has been given these scaled parameters, and the norms stay within the limit until the next initialize(). (Refuted: the limit also holds for a new network and directly after initialize(). Refuted: gradient() is the gradient of the error as a function of the parameters that have been set, as optimizers assume; it is that at the scaled parameters.)", "quantifier": "all networks, all limits (also different ones for each layer), all parameters, all histories of calls and all inputs", "why_tests_cant": "Ranges over all architectures, parameters and histories; a test with weights below the limit does not see it at all.", "anchors": ["src/FullyConnected.cpp: updatedParameters", "src/Net.cpp: setParameters, setRegularization, initialize", "OpenANN/Regularization.h: maxSquaredWeightNorm"]}
{"id": "C95", "title": "Numbers in files are the closest numbers with six digits", "statement": "Every double that is written to a text file is written as a decimal numeral that denotes a number with six significant digits, no number with six digits is closer to it, and the relative error is at most 5e-6. Reading the numeral, after any white space and before any white space or the end of the file, gives exactly that number, leaves the rest of the text untouched and raises no error. Writing what has been read gives the same text again, and the order of two numbers is never reversed. Integers of any size are written exactly and can be read as int or as double; integers that are stored as double can be read as int if they have at most six digits (but not with seven: 1000000 is written as 1e+06 and read as 1).", "quantifier": "all real numbers, all natural numbers, all decimal numerals with or without sign, fraction and exponent, and all surrounding white space", "why_tests_cant": "The property ranges over all numbers, including those next to a power of ten or half way between two numerals, where implementations usually fail.", "anchors": ["src/Net.cpp: save, load", "src/FANN.cpp: save, load", "src/LibSVM.cpp: save, load", "src/EigenWrapper.cpp"]}
{"id": "C96", "title": "Data files can be laid out freely and saved data sets can be loaded", "statement": "load() of the FANN format accepts every text that contains the three sizes and the numbers of the data set in the order of the format, with white space of any kind between them, and returns exactly these numbers; load() of the LibSVM format accepts every text that contains a line for each instance with a label and index:value, with empty lines, blanks and tabulators and with or without an end of line at the end, and returns the labels or the one-of-n coded classes and the features. A data set that has been saved can be loaded again and has all numbers rounded to the closest number with six digits. (Refuted for LibSVM with one class, with more than two classes and with labels of seven digits.)", "quantifier": "all data sets, all file contents that follow the formats, all layouts, all numerals", "why_tests_cant": "There are infinitely many layouts of each data set; a test uses those that the save function writes.", "anchors": ["src/FANN.cpp: save, load", "src/LibSVM.cpp: save, load", "OpenANN/io/FANNFormat.h", "OpenANN/io/LibSVM.h"]}
{"id": "C97", "title": "A network file can be loaded again", "statement": "load() accepts the text that save() has written, also with white space added at the end. The new network has the same numbers of inputs and outputs, the same error function and as many parameters, each the closest number with six digits, and writes the same text when it is saved. It computes the same outputs and errors as the saved network if no parameter needs more than six digits, and otherwise as the saved network with rounded parameters. (Partial: not for layers with random numbers that are not saved, not in dropout mode. Refuted for compression names that contain white space.)", "quantifier": "all networks without a maximal weight norm, of all architectures and in all states after any use; all contents of new memory and all random numbers; white space of any length", "why_tests_cant": "Ranges over all architectures, parameters and histories; the text depends on the alignment of the longest numeral, on the numbers of parameters and on the end of the file, where flags of the stream matter.", "anchors": ["src/Net.cpp: save, load, addLayer functions (architecture)", "OpenANN/Net.h: save, load"]}
{"id": "C98", "title": "Activation functions are safe and accurate in double precision", "statement": "In IEEE double precision, the logistic function and both tanh functions return a finite number in their documented range for every input that is not NaN, also for infinities and for numbers whose exponential overflows; the rectifier and the identity return a finite number for every finite input. The results are within 1e-12 of the documented functions. The derivatives that are computed from the outputs are finite and not negative and are within 1e-11 of the derivatives of the documented functions wherever these exist.", "quantifier": "all doubles (finite, infinite, subnormal), all five activation functions, and all mathematical libraries whose exp and tanh return a neighbour of the exact result", "why_tests_cant": "There are 2^64 doubles; overflow, underflow and cancellation occur only in parts of the range, and the accuracy has to hold everywhere.", "anchors": ["src/ActivationFunctions.cpp: activationFunction, activationFunctionDerivative", "OpenANN/ActivationFunctions.h"]}
{"id": "C99", "title": "NaN stays visible", "statement": "If a NaN arises somewhere, the activation functions do not turn it into a number, so that diverged training is noticed. (Refuted for the rectifier, which returns 0 for NaN, with derivative 0.)", "quantifier": "all activation functions", "why_tests_cant": "Tests use numbers.", "anchors": ["src/ActivationFunctions.cpp: rectifier, logistic, normaltanh, scaledtanh"]}
{"id": "C100", "title": "Softmax and cross entropy are safe and accurate in double precision", "statement": "In IEEE double precision, softmax turns every instance of a batch into a probability distribution: all outputs are finite and between 0 and 1, their sum is 1 up to n * 2^-48 and they are within n * 2^-36 of the exact values, where n is the number of components; the order of the components is kept. The cross entropy of probabilities and targets between 0 and 1 is finite, also if the probability of the right class is 0, and close to the documented formula. (Softmax: proved for single instances, and for those instances of a batch whose largest component is within 700 of the largest of the batch. Refuted: all outputs of an instance are NaN if another instance of the batch has a component that is more than 800 larger.)", "quantifier": "all batches of finite doubles of any size up to 2^31 components per instance, all orders in which sums are computed, all mathematical libraries whose exp and log return a neighbour of the exact result (for the order: the closest double)", "why_tests_cant": "Overflow and underflow depend on the magnitudes and the differences of all numbers of a batch; tests use single instances or numbers of similar size.", "anchors": ["src/ActivationFunctions.cpp: softmax", "OpenANN/ErrorFunctions.h: crossEntropy"]}
{"id": "C101", "title": "Layers of the user can be added to a network", "statement": "addLayer() and addOutputLayer() accept objects of any class derived from Layer, also classes that a user has written, in any order and mixed with layers of the library. If every object keeps the contract of a layer (it computes a function of each row that is determined by its parameters, and its backpropagate is the exact derivative of its forwardPropagate) and takes as many inputs as its predecessor has outputs, then the network can be built, dimension() is the sum of the numbers of parameters, the parameters of each object are a contiguous part of currentParameters() in the order in which the objects were added, operator() applies the objects one after the other, and gradient(n) is the exact gradient of error(n). A null pointer is rejected.", "quantifier": "all classes of layers that keep the contract, all sequences of objects, all input sizes, all sequences of calls of the network, all parameters at which the layers are differentiable", "why_tests_cant": "The classes do not exist yet when the library is tested: tests can only try some example classes.", "anchors": ["src/Net.cpp: Net::addLayer, Net::addOutputLayer, Net::initializeNetwork, Net::setParameters, Net::forwardPropagate, Net::backpropagate, Net::errorGradient", "OpenANN/layers/Layer.h: Layer"]}
{"id": "C102", "title": "Multilayer perceptrons compute what their weights say, up to rounding", "statement": "The outputs that a network of fully connected layers computes in double precision are finite and close to the function y = g(W x + b) applied layer by layer in real numbers: the distance is at most the number deviation(n, w, x, e, L), which depends only on the largest number of inputs of a layer n, the largest weight or bias w, the largest input x, the error of the inputs e and the number of layers L (for n = 3, w = 2, x = 1, e = 0, L = 2 it is below 10^-11). This holds for every order in which Eigen adds up products, for each instance of a batch no matter what the other instances contain, as long as the numbers stay below 2^90. (Beyond that it is false: an activation can be NaN for finite weights and inputs, and a rectifier turns it into 0, so that the network returns a finite number that is wrong.) The mean squared error of differences up to 2^30 is finite with a relative error of at most (2 n + 2) / 2^52 for n differences.", "quantifier": "all networks of fully connected layers of any depth and width up to 2^30, all activation functions, all weights, inputs and batches within the stated magnitude, all orders of summation, all mathematical libraries that return a neighbour of the exact result", "why_tests_cant": "The rounding errors depend on all weights and inputs and on the order of the additions, which differs between machines; tests compare some outputs with a tolerance that is chosen so that they pass.", "anchors": ["src/FullyConnected.cpp: FullyConnected::forwardPropagate", "src/Net.cpp: Net::forwardPropagate, Net::operator()", "OpenANN/ErrorFunctions.h: meanSquaredError"]}
{"id": "C103", "title": "Backpropagation computes the gradient, up to rounding", "statement": "The derivatives of the mean squared error with respect to the weights and biases of a network of fully connected layers, which the network computes in double precision by backpropagation over a batch, are finite and close to the derivatives of the error as a function of real weights: the distance is at most the number meanDeviation(...), which depends only on the sizes of the layers and of the batch, on the largest weight, input, target and output of a layer, and on the depth. The activation functions are LOGISTIC, TANH, TANH_SCALED and LINEAR. (Refuted for RECTIFIER: a rounding error of an activation near 0 can make the computed derivative 0 although the derivative is not 0.)", "quantifier": "all networks of fully connected layers of any depth and width up to 2^30, all batches of up to 2^30 instances, all weights, inputs and targets within the stated magnitude, all orders of summation, all mathematical libraries that return a neighbour of the exact result", "why_tests_cant": "Gradient checks compare with finite differences, whose own error is larger than the rounding errors, for some weights of some networks; the rounding errors depend on the order of the additions.", "anchors": ["src/Net.cpp: Net::errorGradient, Net::backpropagate, Net::forwardPropagate", "src/FullyConnected.cpp: FullyConnected::backpropagate, FullyConnected::forwardPropagate", "src/ActivationFunctions.cpp: activationFunctionDerivative"]}
{"id": "C104", "title": "IPOP-CMA-ES can be used step by step", "statement": "A user who calls restart() first, alternates getNext() and setError(), and restarts when terminated() says so, never makes the optimizer fail. getNext() returns the points of the current population in order; the population was sampled after the optimizer learned all complete generations of the run, each point with the error that was reported for it. The population size is doubled by each restart. terminated() says yes exactly if a generation is complete and the stopping criteria are met. result() returns the best point. Whatever is called, the optimizer frees each block of memory exactly once.", "quantifier": "all sequences of calls of setOptimizable, restart, getNext, setError, terminated and result, all behaviours of the CMA-ES library, all problems and stopping criteria", "why_tests_cant": "The interface has a state that depends on the whole history of calls; dangling pointers and double frees need not show in a test run, and CMA-ES is random.", "anchors": ["src/IPOPCMAES.cpp: IPOPCMAES::restart, IPOPCMAES::getNext, IPOPCMAES::setError, IPOPCMAES::terminated, IPOPCMAES::result, IPOPCMAES::~IPOPCMAES", "examples/polebalancing/NeuroEvolutionAgent.cpp"]}
{"id": "C105", "title": "Backpropagation of a classifier computes the gradient of the cross entropy, up to rounding", "statement": "With the cross entropy as error function, the derivatives with respect to the weights and biases of a network of fully connected layers, which the network computes in double precision from the softmax of its outputs, are finite and close to the derivatives of the mean cross entropy -sum t ln(softmax(y)) as a function of real weights: the distance is at most the number meanDeviation(...), which depends only on sizes, depth, the largest weight, input, target and output, and on how far the sums of the targets are from 1. The outputs of all layers are at most 350; the activation functions are LOGISTIC, TANH, TANH_SCALED and LINEAR. (Refuted without the bound on the outputs: if the outputs for one instance of a batch are more than 800 below an output for another one, all derivatives of the batch are NaN.)", "quantifier": "all networks of fully connected layers of any depth and width up to 2^30, all batches of up to 2^30 instances, all weights, inputs and targets within the stated magnitude, all orders of summation, all mathematical libraries that return a neighbour of the exact result", "why_tests_cant": "The rounding errors depend on the order of the additions and on all instances of the batch, because softmax subtracts the maximum of the batch; tests with small outputs never meet the NaN.", "anchors": ["src/Net.cpp: Net::errorGradient, Net::backpropagate, Net::forwardPropagate", "src/ActivationFunctions.cpp: softmax", "src/FullyConnected.cpp: FullyConnected::backpropagate, FullyConnected::forwardPropagate"]}
{"id": "C106", "title": "Every layer, data set and optimizer is deleted exactly once", "statement": "A network owns the layers that it creates and the layers that are passed to addLayer() and addOutputLayer(); a learner owns the data sets that it creates, a data stream owns its cache and train() owns its optimizer. In a program that uses only objects that exist, adds each layer to at most one network, deletes only layers that it has not added, and does not use a network whose training set comes from a data stream that was destroyed, no object is used or deleted after it was deleted, and when all networks and streams are destroyed everything has been deleted exactly once. (Refuted when a layer function or train() ends with an exception: each exception leaves one layer or optimizer behind that is never deleted. Without the rules: a layer that is added twice is deleted twice, and a network that was fed by a stream reads deleted memory after the stream is gone.)", "quantifier": "all programs with any number of networks, streams and layers of the user: all sequences of constructions, destructions, addLayer, layer functions, trainingSet, removeTrainingSet, train, setLearner, addSample and uses of the networks, with and without exceptions", "why_tests_cant": "Leaks and accesses to deleted memory depend on the order in which objects are used and destroyed and usually do not make a test fail.", "anchors": ["src/Net.cpp: Net::~Net, Net::addLayer, Net::addOutputLayer, Net::fullyConnectedLayer, Net::maxPoolingLayer", "src/Learner.cpp", "src/DataStream.cpp", "src/Convenience.cpp: train"]}
{"id": "C107", "title": "A split by a ratio has the documented sizes also in double precision", "statement": "Splitting a data set by a ratio between 0 and 1 given as a double divides the instances among two views without loss or duplicates, whatever the rounding errors. If the ratio is a fraction p/q rounded to a double, the first view has ratio * samples() instances, rounded up if this is not an integer; the same holds for the number of instances of a random sample without replacement. Ratios outside of the interval, NaN included, are rejected.", "quantifier": "every data set with less than 2^31 instances, every double as ratio, every fraction p/q with q up to 2^19, with and without shuffling", "why_tests_cant": "The result depends on the rounding error of one multiplication for every pair of ratio and data set size: 0.07 * 100 is larger than 7, 0.75 * 100 is exact. Tests try a few round numbers.", "anchors": ["src/DataSetView.cpp: split(std::vector<DataSetView>&, DataSet&, double, bool), sample", "OpenANN/io/DataSetView.h: split", "OpenANN/util/AssertionMacros.h: OPENANN_CHECK_WITHIN"]}
{"id": "C108", "title": "Max-pooling works for every double, also for infinities and NaN", "statement": "Max-pooling outputs the largest number that is read from each region whatever doubles the image contains; entries that are NaN are ignored and no output is NaN. Backpropagation passes the error of each output to the first largest number and 0 to all other positions, and never accesses memory outside of its matrices, also if the previous layers produced infinities or NaN.", "quantifier": "every number and size of maps, every kernel, every batch of images with any doubles, NaN and infinities included", "why_tests_cant": "Tests use a few images with ordinary numbers; the result depends on how comparisons treat NaN, infinities and the smallest double, and an out-of-range write need not be visible.", "anchors": ["src/MaxPooling.cpp: MaxPooling::forwardPropagate, MaxPooling::backpropagate"]}
{"id": "C109", "title": "Gradient descent is safe and accurate in double precision", "statement": "MBSGD rejects hyper-parameters outside of the documented intervals. Whatever rounding errors occur and however long it runs, its learning rate and momentum stay within [0, 1] and their limits, follow the documented schedules, and the learning rate stays positive; individual gains stay between their bounds. Each batch changes each parameter by the documented rule up to rounding. As long as gradients are bounded, no parameter becomes infinite or NaN.", "quantifier": "every combination of hyper-parameters (doubles, NaN and infinities included), every number of batches and restarts, every sequence of gradients, with and without Nesterov momentum and adaptive gains", "why_tests_cant": "Rounding errors accumulate over millions of batches; underflow, stagnation and NaN arguments show up only for particular combinations of numbers that tests do not reach.", "anchors": ["src/MBSGD.cpp: MBSGD::MBSGD, MBSGD::step, MBSGD::initialize", "OpenANN/optimization/MBSGD.h: MBSGD", "OpenANN/util/EigenWrapper.h: OPENANN_CHECK_MATRIX_BROKEN"]}
{"id": "C110", "title": "Scaling data to an interval is accurate and keeps the order in double precision", "statement": "scaleData() maps the smallest number of the data to the lower limit, the largest to the upper limit and everything in between linearly, up to rounding errors of 16 units in the last place of the intermediate results (largest number times scaling factor, lower limit, width of the interval); all results are finite and have the order of the data. Intervals without interior are rejected. (Refuted: the results need not lie in the interval exactly, and large numbers that differ little leave it by half of its width; constant data becomes NaN; NaN as a limit is accepted.)", "quantifier": "every non-empty matrix of doubles and every interval, with numbers up to 2^300 in magnitude, an interval and a range of the data of at least 2^-300; constant data and NaN limits for all doubles", "why_tests_cant": "The rounding errors depend on every number of the data; whether a result leaves the interval shows up only for particular numbers such as -3 and 2.", "anchors": ["src/Preprocessing.cpp: scaleData", "OpenANN/Preprocessing.h: scaleData"]}
{"id": "C111", "title": "Normalization of features is accurate in double precision", "statement": "Normalization::fit() stores means that are close to the exact means and positive standard deviations whose squares are close to the exact variances of the features; transform() then computes (x - mean) / std up to a few units in the last place, and no result is infinite or NaN, also for features that (almost) do not vary. Features that are constant are transformed to 0. (Refuted for constant features whose sum is not exact: 0.1, 0.1, 0.1 is transformed to -1, -1, -1; proved for integers and other multiples of a power of 2 with few enough digits.)", "quantifier": "every matrix of doubles up to 2^30 in magnitude with at least one and less than 2^31 instances, every order in which the numbers of a feature are added, every data set that is transformed, both ways to divide by the number of instances", "why_tests_cant": "The errors depend on every number, on the number of instances and on the order of the additions; underflow of the squares and constant features with inexact sums show up only for particular numbers.", "anchors": ["src/Normalization.cpp: Normalization::fit, Normalization::transform", "OpenANN/Normalization.h: Normalization"]}
{"id": "C112", "title": "Filtering a signal is accurate in double precision", "statement": "filter() computes each output as the weighted sum of the present and past inputs (mirrored at the start of the signal) divided by the first feedback coefficient, up to rounding errors proportional to the number of coefficients and to the sum of the absolute values; all outputs are finite. (What it computes with feedback coefficients is not a recursive filter, see the property of filter() with real numbers. Refuted: a first feedback coefficient of 0 is not rejected and then no output is finite; a signal that is too short is read out of bounds.)", "quantifier": "every signal at least as long as the filter with numbers up to 2^30 in magnitude, every filter with less than 2^30 coefficients up to 2^30 in magnitude and a first feedback coefficient of at least 2^-30 in magnitude, every channel and time", "why_tests_cant": "Rounding errors depend on all numbers and grow with the number of coefficients; out-of-bounds reads need not be visible.", "anchors": ["src/Preprocessing.cpp: filter", "OpenANN/Preprocessing.h: filter"]}
