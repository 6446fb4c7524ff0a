{
 "claims": [
  {
   "property": "C01",
   "status": "proved",
   "theorems": [
    "C01_split_groups_partition",
    "C01_split_groups_rejects"
   ],
   "note": ""
  },
  {
   "property": "C02",
   "status": "proved",
   "theorems": [
    "C02_split_ratio_partition"
   ],
   "note": ""
  },
  {
   "property": "C03",
   "status": "proved",
   "theorems": [
    "C03_merge_appends",
    "C03_complement_of_split"
   ],
   "note": ""
  },
  {
   "property": "C04",
   "status": "proved",
   "theorems": [
    "C04_views_keep_pairs",
    "C04_operations_succeed"
   ],
   "note": ""
  },
  {
   "property": "C05",
   "status": "partial",
   "theorems": [
    "C05_sample_without_replacement_partial",
    "C05_sample_with_replacement_refuted"
   ],
   "note": "true without replacement; with replacement every call is undefined behaviour (indices only reserved, then indexed)"
  },
  {
   "property": "C06",
   "status": "proved",
   "theorems": [
    "C06_resample_follows_weights",
    "C06_resample_indices_valid",
    "C06_random_resample_zero_draw_refuted"
   ],
   "note": "random mode: valid for every draw in (0,1]; the draw 0 (which generate<double> can return) yields index -1"
  },
  {
   "property": "C07",
   "status": "proved",
   "theorems": [
    "C07_stream_trains_per_full_cache",
    "C07_stream_unsupervised",
    "C07_mixed_targets_refuted"
   ],
   "note": "supervised and unsupervised streams; a stream that mixes both is undefined behaviour"
  },
  {
   "property": "C08",
   "status": "partial",
   "theorems": [
    "C08_instance_reference_partial",
    "C08_target_reference_partial",
    "C08_two_instances_refuted"
   ],
   "note": "references stay valid until another instance (target) is requested; then they are overwritten"
  },
  {
   "property": "C09",
   "status": "proved",
   "theorems": [
    "C09_created_data_sets_deleted_once",
    "C09_current_data_sets_alive",
    "C09_last_training_set_in_use",
    "C09_sets_in_use"
   ],
   "note": ""
  },
  {
   "property": "C10",
   "status": "proved",
   "theorems": [
    "C10_generateInt_range",
    "C10_generateInt_onto",
    "C10_generateIndex_valid",
    "C10_generateIndices_permutation",
    "C10_generateReal_range",
    "C10_generateReal_half_open_refuted"
   ],
   "note": "the half-open interval documented for generate<double> is refuted"
  },
  {
   "property": "C11",
   "status": "proved",
   "theorems": [
    "C11_decoding_first_largest",
    "C11_decoding_single",
    "C11_decoding_empty"
   ],
   "note": "two or more components; a single output is a two-class threshold"
  },
  {
   "property": "C12",
   "status": "proved",
   "theorems": [
    "C12_confusion_matrix_hits_accuracy",
    "C12_hits_count"
   ],
   "note": ""
  },
  {
   "property": "C13",
   "status": "partial",
   "theorems": [
    "C13_confusion_matrix_single_output_refuted"
   ],
   "note": "false: the matrix is 1x1, class 1 is out of range (refuted for every such data set)"
  },
  {
   "property": "C14",
   "status": "proved",
   "theorems": [
    "C14_weighted_accuracy"
   ],
   "note": ""
  },
  {
   "property": "C15",
   "status": "proved",
   "theorems": [
    "C15_error_measures"
   ],
   "note": ""
  },
  {
   "property": "C16",
   "status": "partial",
   "theorems": [
    "C16_cross_validation_partial",
    "C16_cross_validation_terminates",
    "C16_mean_accuracy_refuted",
    "C16_more_folds_than_instances_refuted"
   ],
   "note": "partition claims proved; the mean accuracy is refuted (integer division), more folds than instances divide by zero"
  },
  {
   "property": "C17",
   "status": "proved",
   "theorems": [
    "C17_evaluator_logs_every_interval",
    "C17_logged_error_is_sse_refuted"
   ],
   "note": "the logged error documented as SSE is SSE/N (refuted separately)"
  },
  {
   "property": "C18",
   "status": "proved",
   "theorems": [
    "C18_fann_round_trip"
   ],
   "note": "for every rounding of the decimal printing"
  },
  {
   "property": "C19",
   "status": "partial",
   "theorems": [
    "C19_round_trip_partial",
    "C19_load_two_classes",
    "C19_load_many_classes",
    "C19_round_trip_many_classes_refuted",
    "C19_round_trip_one_class_refuted"
   ],
   "note": "the round trip is false in general (two refutations); proved for one output with exactly two integer labels when the number of columns is passed to load; meaning of every well-formed file with two labels, or with labels 1..C, is proved"
  },
  {
   "property": "C20",
   "status": "proved",
   "theorems": [
    "C20_pack_defined",
    "C20_pack_ranges",
    "C20_unpack_after_pack"
   ],
   "note": ""
  },
  {
   "property": "C21",
   "status": "proved",
   "theorems": [
    "C21_epoch_uses_disjoint_batches"
   ],
   "note": ""
  },
  {
   "property": "C22",
   "status": "proved",
   "theorems": [
    "C22_schedules",
    "C22_schedules_monotone"
   ],
   "note": ""
  },
  {
   "property": "C23",
   "status": "proved",
   "theorems": [
    "C23_gains_in_range"
   ],
   "note": ""
  },
  {
   "property": "C24",
   "status": "proved",
   "theorems": [
    "C24_constructor_checks_arguments"
   ],
   "note": ""
  },
  {
   "property": "C25",
   "status": "proved",
   "theorems": [
    "C25_documented_recursion",
    "C25_result"
   ],
   "note": ""
  },
  {
   "property": "C26",
   "status": "proved",
   "theorems": [
    "C26_stopping_rule",
    "C26_optimize_stops_at_first",
    "C26_optimize_terminates"
   ],
   "note": ""
  },
  {
   "property": "C27",
   "status": "proved",
   "theorems": [
    "C27_handler_installed_while_observed",
    "C27_signal_reported_until_last_object",
    "C27_construction"
   ],
   "note": "a signal is assumed to arrive between calls, not inside one"
  },
  {
   "property": "C28",
   "status": "proved",
   "theorems": [
    "C28_batch_is_sum",
    "C28_all_is_sum",
    "C28_errors_and_gradient"
   ],
   "note": ""
  },
  {
   "property": "C29",
   "status": "partial",
   "theorems": [
    "C29_result_is_best_point",
    "C29_restarts_bounded",
    "C29_evaluation_limit_partial",
    "C29_evaluation_limit_refuted",
    "C29_optimize_terminates"
   ],
   "note": "the evaluation limit is refuted: it is applied per run and only after complete generations; the rest is proved for every CMA-ES library behaviour"
  },
  {
   "property": "C30",
   "status": "proved",
   "theorems": [
    "C30_ranges",
    "C30_non_decreasing",
    "C30_derivatives",
    "C30_logistic_error",
    "C30_matrix_functions"
   ],
   "note": "differentiability excludes the cut-off points -45, 45 of logistic and 0 of the rectifier"
  },
  {
   "property": "C31",
   "status": "proved",
   "theorems": [
    "C31_softmax_formula",
    "C31_softmax_distribution",
    "C31_softmax_shift"
   ],
   "note": ""
  },
  {
   "property": "C32",
   "status": "proved",
   "theorems": [
    "C32_fc_forward",
    "C32_fc_gradient"
   ],
   "note": "forward formula and exact derivatives w.r.t. every parameter and input, for every history state; hypotheses: activation differentiable at the pre-activations, no max-norm, non-zero weights if L1 is used"
  },
  {
   "property": "C33",
   "status": "proved",
   "theorems": [
    "C33_conv_output_size",
    "C33_conv_forward"
   ],
   "note": "Every output of a convolutional layer equals the activation of the bias plus the correlation of all input feature maps with the kernels; output sizes are n-2*(k/2)."
  },
  {
   "property": "C34",
   "status": "proved",
   "theorems": [
    "C34_conv_gradient"
   ],
   "note": "Backpropagation of a convolutional layer returns the exact partial derivatives with respect to inputs and every parameter."
  },
  {
   "property": "C35",
   "status": "partial",
   "theorems": [
    "C35_maxp_initialize",
    "C35_maxp_forward",
    "C35_maxp_maximum_partial",
    "C35_maxp_backward",
    "C35_maxp_gradient",
    "C35_maxp_maximum_refuted"
   ],
   "note": "Only the first row of each region is read (the index is reset for every kernel row), so the documented maximum is proved for kernels with one row and refuted for every geometry with two or more rows. The backward pass passes each error to the first maximum of that row; its exactness is proved where that maximum is unique."
  },
  {
   "property": "C36",
   "status": "partial",
   "theorems": [
    "C36_subs_initialize",
    "C36_subs_forward",
    "C36_subs_region_partial",
    "C36_subs_gradient",
    "C36_subs_region_refuted"
   ],
   "note": "The forward pass counts the first row of each region kernelRows times instead of reading the region, so the documented sum is proved for kernels with one row and refuted for every geometry with two or more rows. The backward pass is the exact gradient of the forward pass that is computed."
  },
  {
   "property": "C37",
   "status": "partial",
   "theorems": [
    "C37_gradient_exact_mse",
    "C37_gradient_exact_smooth_layers",
    "C37_gradient_cross_entropy_partial",
    "C37_cross_entropy_refuted"
   ],
   "note": "Exact for the mean squared error for every network built from any sequence of the modelled layers (input, fully connected, compressed, extreme, intrinsic plasticity, convolutional, subsampling, max-pooling, dropout, restricted Boltzmann machine, sparse autoencoder) without a maximal weight norm, in every reachable state, at every point where the layers are differentiable (everywhere for layers without kinks). For cross entropy the full statement is false (refuted): error(n) uses ln(y + 1e-10) but the gradient ignores the 1e-10; the partial theorem states what the gradient is exact for. Missing: targets that do not sum to one, maximal weight norm."
  },
  {
   "property": "C38",
   "status": "partial",
   "theorems": [
    "C38_value_is_mean",
    "C38_error_is_mean",
    "C38_gradient_general_partial",
    "C38_gradient_exact_partial",
    "C38_gradient_refuted"
   ],
   "note": "The value is proved to be the mean of error(n) over the batch, and error() the mean over the training set. The gradient part is false when there is a penalty and the batch has more than one instance (refuted: the gradient of the penalty is divided by the batch size); proved exact for batches of one instance or without penalties (mean squared error, no dropout), and the general form of the gradient is proved."
  },
  {
   "property": "C39",
   "status": "partial",
   "theorems": [
    "C39_dimension",
    "C39_network_can_be_built",
    "C39_current_parameters",
    "C39_pointers",
    "C39_outputs_determined",
    "C39_max_norm_refuted"
   ],
   "note": "Proved for all architectures and all reachable states without a maximal weight norm; with one, the coefficients differ from currentParameters() (refuted)."
  },
  {
   "property": "C40",
   "status": "partial",
   "theorems": [
    "C40_load_accepts_saved",
    "C40_loaded_is_rounded_partial",
    "C40_save_load_partial",
    "C40_precision_refuted",
    "C40_extreme_refuted",
    "C40_dropout_mode_refuted"
   ],
   "note": "Full statement is false of the code: parameters are written with six digits (C40_precision_refuted), the random constants of extreme learning machines, intrinsic plasticity, random compression and restricted Boltzmann machines without backpropagation are not written (C40_extreme_refuted), nor is the dropout mode (C40_dropout_mode_refuted). Proved: for every network without maximal norms load accepts the file and restores sizes, error function and rounded parameters, and saving again gives the same file; without the layers named above the loaded network computes exactly the function of the saved one with rounded parameters, and of the saved one itself if its parameters have six digits. Not covered: maximal norms, LRN and alpha-beta filter layers."
  },
  {
   "property": "C41",
   "status": "proved",
   "theorems": [
    "C41_max_norm"
   ],
   "note": "after setting the parameters every weight row has squared norm at most the maximum and rows within the bound are unchanged"
  },
  {
   "property": "C42",
   "status": "proved",
   "theorems": [
    "C42_dropout_training",
    "C42_dropout_scaling",
    "C42_dropout_expectation",
    "C42_dropout_gradient"
   ],
   "note": "training zeroes exactly the sampled units, testing scales, expectation over the random numbers, exact gradient"
  },
  {
   "property": "C43",
   "status": "proved",
   "theorems": [
    "C43_compressed_forward",
    "C43_same_as_fully_connected",
    "C43_compressed_gradient"
   ],
   "note": "forward, equality with the fully connected layer with the generated weights, exact gradients"
  },
  {
   "property": "C44",
   "status": "proved",
   "theorems": [
    "C44_scaleData",
    "C44_scaleData_interval"
   ],
   "note": ""
  },
  {
   "property": "C45",
   "status": "proved",
   "theorems": [
    "C45_normalization",
    "C45_transform_other",
    "C45_transform_before_fit"
   ],
   "note": ""
  },
  {
   "property": "C46",
   "status": "proved",
   "theorems": [
    "C46_centres_are_means",
    "C46_first_fit",
    "C46_next_fit",
    "C46_distances",
    "C46_fewer_points_than_centres_refuted",
    "C46_fewer_points_than_centres_ub_refuted"
   ],
   "note": "with at least one centre; fit requires at least as many points as centres in the first call and the same number of points later (finding: otherwise undefined behaviour)"
  },
  {
   "property": "C47",
   "status": "partial",
   "theorems": [
    "C47_dct",
    "C47_gaussian",
    "C47_sparse_random",
    "C47_average",
    "C47_edge_partial",
    "C47_identity",
    "C47_empty_rejected",
    "C47_compressor",
    "C47_edge_odd_refuted",
    "C47_average_ignores_inputs_refuted",
    "C47_more_outputs_than_inputs_refuted"
   ],
   "note": "entries of all compression types are proved; refuted parts: the edge matrix maps constant vectors to zero only for even block sizes, inputs after the last complete block are ignored, and averaging or edge matrices with more outputs than inputs divide by zero"
  },
  {
   "property": "C48",
   "status": "proved",
   "theorems": [
    "C48_log",
    "C48_disabled",
    "C48_message_without_level"
   ],
   "note": ""
  },
  {
   "property": "C49",
   "status": "partial",
   "theorems": [
    "C49_gain_increases_when_direction_kept_refuted"
   ],
   "note": "refuted: the code does the opposite of the documentation (gains shrink when the direction is kept)"
  },
  {
   "property": "C50",
   "status": "partial",
   "theorems": [
    "C50_fc_getParameters_partial",
    "C50_conv_getParameters_partial",
    "C50_subs_getParameters_partial",
    "C50_fc_getParameters_order_refuted",
    "C50_conv_getParameters_order_refuted",
    "C50_compressed_getParameters_refuted",
    "C50_subs_getParameters_refuted"
   ],
   "note": "FullyConnected and Convolutional: every current parameter exactly once, in the right order only without bias or with one unit (order refuted otherwise). Subsampling: right without bias, with bias the biases are replaced by weights (refuted). Compressed: returns the fixed compression matrix instead of its parameters (refuted)."
  },
  {
   "property": "C51",
   "status": "proved",
   "theorems": [
    "C51_extreme_forward",
    "C51_extreme_gradient"
   ],
   "note": ""
  },
  {
   "property": "C52",
   "status": "proved",
   "theorems": [
    "C52_ip_forward",
    "C52_ip_gradient"
   ],
   "note": ""
  },
  {
   "property": "C53",
   "status": "partial",
   "theorems": [
    "C53_ip_parameters",
    "C53_new_learner",
    "C53_ip_gradient",
    "C53_ip_error_gradient_refuted"
   ],
   "note": "round trip proved; a new object has slopes 1 and the random offsets; gradient(n) is the exact gradient of the KL objective of Triesch, and is refuted to be the gradient of error(n)"
  },
  {
   "property": "C54",
   "status": "partial",
   "theorems": [
    "C54_filter_computes_partial",
    "C54_fir_partial",
    "C54_iir_refuted",
    "C54_short_signal_refuted"
   ],
   "note": "proved for filters without feedback; with feedback the output is not the filtered signal (refuted), signals shorter than the filter are read out of bounds (refuted)"
  },
  {
   "property": "C55",
   "status": "proved",
   "theorems": [
    "C55_downsample"
   ],
   "note": ""
  },
  {
   "property": "C56",
   "status": "proved",
   "theorems": [
    "C56_patches",
    "C56_any_position"
   ],
   "note": ""
  },
  {
   "property": "C57",
   "status": "partial",
   "theorems": [
    "C57_logger_partial",
    "C57_deactivate_refuted"
   ],
   "note": "deactivation of existing loggers is refuted"
  },
  {
   "property": "C58",
   "status": "proved",
   "theorems": [
    "C58_set_current_parameters",
    "C58_error_unchanged",
    "C58_set_current_identity",
    "C58_max_norm_refuted"
   ],
   "note": "outputs and errors without dropout; with a maximal norm it is false (C58_max_norm_refuted) because new random weights are not rescaled"
  },
  {
   "property": "C59",
   "status": "partial",
   "theorems": [
    "C59_build",
    "C59_output_partial",
    "C59_bias_refuted",
    "C59_getParameters_throws"
   ],
   "note": "For layers without bias (false for layers with bias: every forward pass reads outside the input, C59_bias_refuted) and with at least one neuron and at least as many inputs as the order of each neuron (otherwise the loops over empty vectors are undefined)."
  },
  {
   "property": "C60",
   "status": "partial",
   "theorems": [
    "C60_weight_gradient_partial",
    "C60_input_gradient_refuted"
   ],
   "note": "Exact for the weights; the error signal for the previous layer misses the product of the other inputs (C60_input_gradient_refuted). Layers without bias."
  },
  {
   "property": "C61",
   "status": "proved",
   "theorems": [
    "C61_distance_translation",
    "C61_slope_translation_scale",
    "C61_distance_values",
    "C61_slope_values"
   ],
   "note": "For layers without bias (a forward pass with bias never succeeds, C59_bias_refuted)."
  },
  {
   "property": "C62",
   "status": "partial",
   "theorems": [
    "C62_stateless",
    "C62_output_partial",
    "C62_build",
    "C62_translation_scale_partial",
    "C62_distinct_angles_refuted",
    "C62_rotation_refuted"
   ],
   "note": "Same angles imply a shared weight, and the output is invariant under translation and spreading. That different angles have different weights and that the output is invariant under rotation is false (refuted with a 3 x 3 image and the default resolution). Layers without bias."
  },
  {
   "property": "C63",
   "status": "partial",
   "theorems": [
    "C63_error",
    "C63_error_gradient",
    "C63_gradient",
    "C63_logistic",
    "C63_error_finite_refuted",
    "C63_logistic_saturated_refuted"
   ],
   "note": "The value is the objective and the gradient is exact whenever all mean activations are strictly between 0 and 1; otherwise error() is not a finite number, also for beta = 0 (refuted) and for saturated logistic units (refuted). Gradient where the activation function has no kink. Infinity and NaN are modelled as one outcome."
  },
  {
   "property": "C64",
   "status": "proved",
   "theorems": [
    "C64_construction",
    "C64_usable",
    "C64_current_parameters",
    "C64_hidden_representation",
    "C64_reconstruction",
    "C64_batch"
   ],
   "note": "For all sequences of calls of the learner functions (the layer functions are in C65). pack/unpack with 64-bit sizes are modelled as if varargs were read correctly."
  },
  {
   "property": "C65",
   "status": "partial",
   "theorems": [
    "C65_parameters",
    "C65_pretrained_output",
    "C65_layer_gradient",
    "C65_layer_output",
    "C65_current_parameters_refuted",
    "C65_forward_replaces_training_set",
    "C65_training_set_refuted"
   ],
   "note": "Outputs, parameters and derivatives of the layer are exact (non-negative weight decay). That the interfaces agree is false: currentParameters is stale after fine-tuning and a forward pass replaces the training set. getParameters has no return statement."
  },
  {
   "property": "C66",
   "status": "partial",
   "theorems": [
    "C66_error_gradient",
    "C66_instance_gradient",
    "C66_gradient",
    "C66_positive_phase",
    "C66_reconstruction",
    "C66_instance_error",
    "C66_error",
    "C66_negative_phase_refuted",
    "C66_regularization_refuted"
   ],
   "note": "All results are characterised for every sequence of random numbers (non-negative penalties, non-zero weights if an L1 penalty is used, at least one round). What the property claims of the penalties is false: they are subtracted. The negative statistics are not those of any sample. The positive statistics are the derivatives of the free energy where no logistic unit is saturated."
  },
  {
   "property": "C67",
   "status": "proved",
   "theorems": [
    "C67_construction",
    "C67_usable",
    "C67_current_parameters",
    "C67_output",
    "C67_batch"
   ],
   "note": ""
  },
  {
   "property": "C68",
   "status": "partial",
   "theorems": [
    "C68_parameters",
    "C68_pretrained_output",
    "C68_layer_gradient",
    "C68_layer_output",
    "C68_current_parameters_refuted"
   ],
   "note": "Outputs, parameters and derivatives of the layer are exact. That currentParameters and getParameters return the parameters in use is false after fine-tuning; C67_current_parameters covers the learner interface."
  },
  {
   "property": "C69",
   "status": "proved",
   "theorems": [
    "C69_training",
    "C69_weights_are_distributions",
    "C69_reweighting",
    "C69_training_error",
    "C69_models_kept"
   ],
   "note": "Learners are deterministic functions of their state; the resample uses every instance as often as N times its weight, up to rounding."
  },
  {
   "property": "C70",
   "status": "partial",
   "theorems": [
    "C70_model_weights",
    "C70_finite_refuted",
    "C70_order_refuted"
   ],
   "note": "Proved if every learner is better than chance by a margin of 5e-11; otherwise false: error 1 gives weights that are not numbers, learners worse than chance are ranked in the wrong order."
  },
  {
   "property": "C71",
   "status": "partial",
   "theorems": [
    "C71_adaboost_output",
    "C71_bagging_output",
    "C71_vector_refuted"
   ],
   "note": "Proved for matrices of instances; operator() for a single instance initialises its matrix with itself."
  },
  {
   "property": "C72",
   "status": "partial",
   "theorems": [
    "C72_bagging_train_refuted"
   ],
   "note": "Refuted: train() with at least one learner always runs into the out of bounds write of sampling with replacement."
  },
  {
   "property": "C73",
   "status": "partial",
   "theorems": [
    "C73_output_partial",
    "C73_shrinks",
    "C73_setting_n_refuted",
    "C73_documented_refuted",
    "C73_batch_position_refuted"
   ],
   "note": "Proved: the exact function that is computed, and that it only shrinks values. It is not the documented function: the number of the row is used instead of n and the upper end of the window is excluded."
  },
  {
   "property": "C74",
   "status": "partial",
   "theorems": [
    "C74_gradient_partial",
    "C74_gradient_refuted"
   ],
   "note": "Proved for batches of up to two instances; false for larger batches."
  },
  {
   "property": "C75",
   "status": "proved",
   "theorems": [
    "C75_estimates",
    "C75_runs",
    "C75_gains",
    "C75_constant",
    "C75_linear",
    "C75_follows"
   ],
   "note": "The position estimate is that of the next time step."
  },
  {
   "property": "C76",
   "status": "partial",
   "theorems": [
    "C76_parameters_partial",
    "C76_parameters_refuted",
    "C76_batch_refuted",
    "C76_parameter_gradient_partial",
    "C76_gradient_refuted"
   ],
   "note": "Proved: non-negative parameters can be read back, derivatives with respect to the parameters after a reset. False: negative parameters, batches with several rows, derivatives with respect to the input."
  },
  {
   "property": "C77",
   "status": "partial",
   "theorems": [
    "C77_ratios",
    "C77_more_components_refuted"
   ],
   "note": "Proved for every valid singular value decomposition if there are not more components than rows; ratios beyond the number of rows are indeterminate (refuted)."
  },
  {
   "property": "C78",
   "status": "partial",
   "theorems": [
    "C78_centred",
    "C78_distances",
    "C78_components_partial",
    "C78_components_refuted"
   ],
   "note": "Centred outputs and preserved distances are proved. The outputs are the principal components only if V is symmetric: the code projects on the rows of V, refuted for every valid decomposition of a concrete data set."
  },
  {
   "property": "C79",
   "status": "proved",
   "theorems": [
    "C79_whitening",
    "C79_zero_phase",
    "C79_exact_refuted"
   ],
   "note": "For every valid singular value decomposition. The documented exact identity is refuted; the proved bound has the regularizer 1e-5 in it."
  },
  {
   "property": "C80",
   "status": "proved",
   "theorems": [
    "C80_rows_separately",
    "C80_misuse"
   ],
   "note": "For all states of the objects."
  },
  {
   "property": "C81",
   "status": "proved",
   "theorems": [
    "C81_gradient_optimize",
    "C81_leastSquares_optimize",
    "C81_interrupted_gradient",
    "C81_interrupted_leastSquares",
    "C81_steps_gradient",
    "C81_steps_leastSquares"
   ],
   "note": "For every reverse communication solver and every problem whose answers depend on the parameters set last; termination is relative to the termination of the solver on the function itself. 'gradient' covers CG and L-BFGS."
  },
  {
   "property": "C82",
   "status": "partial",
   "theorems": [
    "C82_progress_gradient",
    "C82_progress_leastSquares",
    "C82_first_step_gradient",
    "C82_first_step_leastSquares_refuted"
   ],
   "note": "Proved for all steps of CG and L-BFGS and all steps after the first one of LMA; the first step of LMA reports an iteration that has not been done."
  },
  {
   "property": "C83",
   "status": "partial",
   "theorems": [
    "C83_installed_leastSquares",
    "C83_installed_gradient_refuted",
    "C83_result_without_optimize"
   ],
   "note": "Proved for LMA; false for CG and L-BFGS until result() is called, which AdaBoost and Bagging do not do."
  },
  {
   "property": "C84",
   "status": "partial",
   "theorems": [
    "C84_leastSquares_zero_partial",
    "C84_leastSquares_refuted"
   ],
   "note": "False in general, with a problem on which no successful solver finds the minimum of the error; proved if the errors are not negative and parameters without error exist."
  },
  {
   "property": "C85",
   "status": "partial",
   "theorems": [
    "C85_settings",
    "C85_zero_iterations_refuted",
    "C85_reused",
    "C85_reused_leastSquares",
    "C85_reused_corrections_refuted"
   ],
   "note": "Settings are passed on unchanged except that a limit of 0 iterations means no limit; reuse is proved for CG and LMA and for L-BFGS with an unchanged number of corrections, and refuted for L-BFGS after a smaller problem."
  },
  {
   "property": "C86",
   "status": "partial",
   "theorems": [
    "C86_initialize_like_new_partial",
    "C86_initialize_forgets_partial",
    "C86_initialize_keeps_rbms",
    "C86_initialize_rbm_refuted"
   ],
   "note": "Proved for networks without a maximal weight norm (as the quantifier says) and without restricted Boltzmann machines whose weights are parameters of the network. With such machines it is false (C86_initialize_rbm_refuted): RBM::initializeParameters does nothing, so their weights survive initialize() (C86_initialize_keeps_rbms). The random numbers are an arbitrary function of the position of the layer."
  },
  {
   "property": "C87",
   "status": "proved",
   "theorems": [
    "C87_network_is_objective",
    "C87_finishedIteration",
    "C87_multiclassEvaluator"
   ],
   "note": ""
  },
  {
   "property": "C88",
   "status": "partial",
   "theorems": [
    "C88_train_MBSGD",
    "C88_train_gradient",
    "C88_train_LMA",
    "C88_train_CMAES",
    "C88_no_dropout_afterwards",
    "C88_unknown_algorithm",
    "C88_unknown_algorithm_refuted"
   ],
   "note": "Refuted: with an unknown algorithm the network has been reinitialized and its error function and dropout switch have been changed before the exception is raised. Training with dropout is only covered by C88_no_dropout_afterwards. finishedIteration() during CMAES is not modelled."
  },
  {
   "property": "C89",
   "status": "proved",
   "theorems": [
    "C89_makeMLNN",
    "C89_output",
    "C89_error"
   ],
   "note": ""
  },
  {
   "property": "C90",
   "status": "proved",
   "theorems": [
    "C90_conv_forward",
    "C90_conv_zero",
    "C90_subs_forward",
    "C90_maxp_forward",
    "C90_maxp_backward",
    "C90_sp_forward",
    "C90_lrn_forward",
    "C90_lrn_backward",
    "C90_patches"
   ],
   "note": "All nine parallel loops; memory model: interleaving of single accesses, justified for race-free programs."
  },
  {
   "property": "C91",
   "status": "partial",
   "theorems": [
    "C91_propagate_refuted",
    "C91_result_unusable",
    "C91_all_layers"
   ],
   "note": "Refuted for every network: the returned data set dangles and l is ignored. Proved instead: what a caller can observe (sizes, undefined accesses, the failing call)."
  },
  {
   "property": "C92",
   "status": "proved",
   "theorems": [
    "C92_output_info",
    "C92_pass_through"
   ],
   "note": ""
  },
  {
   "property": "C93",
   "status": "partial",
   "theorems": [
    "C93_fixed_kept",
    "C93_fixed_training",
    "C93_pretraining_lost",
    "C93_pretraining_kept_refuted"
   ],
   "note": "Proved for restricted Boltzmann machines whose weights are not parameters of the network. Refuted for the others; C93_pretraining_lost characterizes what happens for all of them."
  },
  {
   "property": "C94",
   "status": "partial",
   "theorems": [
    "C94_limited",
    "C94_same_network",
    "C94_every_state",
    "C94_norm",
    "C94_gradient",
    "C94_initial_refuted",
    "C94_gradient_refuted"
   ],
   "note": "Proved for all networks, limits, histories and parameters: setParameters stores the limited parameters, the network behaves like the unlimited network at the limited parameters, norms stay within the limit, and gradient(n) is exact at the limited parameters. Refuted with witnesses: the limit for new networks, and gradient(n) as gradient of error(n) as a function of the parameters that have been set."
  },
  {
   "property": "C95",
   "status": "proved",
   "theorems": [
    "C95_written",
    "C95_read_numeral",
    "C95_read_integer",
    "C95_round_trip",
    "C95_order",
    "C95_integers",
    "C95_integer_of_double",
    "C95_integer_of_double_refuted"
   ],
   "note": "Integers that are stored as double are covered up to six digits; the last theorem shows that this is sharp."
  },
  {
   "property": "C96",
   "status": "partial",
   "theorems": [
    "C96_fann_load",
    "C96_fann_round_trip",
    "C96_svm_load_two_classes",
    "C96_svm_load_many_classes",
    "C96_svm_round_trip_partial",
    "C96_svm_many_classes_refuted",
    "C96_svm_one_class_refuted",
    "C96_svm_large_labels_refuted"
   ],
   "note": "FANN is proved in full, LibSVM loading is proved for all layouts; the LibSVM round trip holds for two labels with at most six digits and is refuted for one class, more than two classes and labels with seven digits."
  },
  {
   "property": "C97",
   "status": "partial",
   "theorems": [
    "C97_load_accepts_saved",
    "C97_loaded_is_rounded_partial",
    "C97_save_load_partial",
    "C97_compression_name_refuted"
   ],
   "note": "Loading what has been saved is proved for all networks without maximal norms whose compression names are words; equality of the functions for layers without random numbers that are not saved (see C40), and refuted for compression names with white space."
  },
  {
   "property": "C98",
   "status": "proved",
   "theorems": [
    "C98_finite_and_ranges",
    "C98_accuracy",
    "C98_derivative_finite",
    "C98_derivative_accuracy"
   ],
   "note": "IEEE doubles (Flocq), any libm whose exp and tanh return a neighbour of the exact result; such a library exists."
  },
  {
   "property": "C99",
   "status": "partial",
   "theorems": [
    "C99_nan_visible_partial",
    "C99_rectifier_hides_nan_refuted"
   ],
   "note": "Holds for the logistic function, both tanh functions and the identity; refuted for the rectifier."
  },
  {
   "property": "C100",
   "status": "partial",
   "theorems": [
    "C100_softmax_one_instance",
    "C100_softmax_batch_partial",
    "C100_softmax_order_partial",
    "C100_softmax_far_instance_refuted",
    "C100_cross_entropy"
   ],
   "note": "Softmax for single instances and for instances of a batch whose largest component is within 700 of that of the batch, cross entropy in full. Missing: softmax of instances that are further below; refuted if they are more than 800 below."
  },
  {
   "property": "C101",
   "status": "proved",
   "theorems": [
    "C101_null_pointer",
    "C101_can_be_built",
    "C101_parameters",
    "C101_set_parameters",
    "C101_output",
    "C101_gradient_exact"
   ],
   "note": "Classes of layers are arbitrary tables of virtual functions; the contract is layer_ok (LayerFun_Spec) with contract (Layer_Spec). Exact gradients are stated for the mean squared error and points at which the layers are differentiable. LocalResponseNormalization, AlphaBetaFilter and SigmaPi do not keep the contract (C60, C74, C75)."
  },
  {
   "property": "C102",
   "status": "proved",
   "theorems": [
    "C102_network",
    "C102_overflow_refuted",
    "C102_mean_squared_error"
   ],
   "note": "In double precision (round to nearest, no fused operations); the library functions exp, log and tanh are assumed to return a neighbour of the exact result (Float_Spec.accurate). C102_overflow_refuted: without the bound on the magnitude the claim is false."
  },
  {
   "property": "C103",
   "status": "proved",
   "theorems": [
    "C103_same_network",
    "C103_weight",
    "C103_bias",
    "C103_rectifier_refuted"
   ],
   "note": "All finite weights, inputs and targets within the stated magnitudes; RECTIFIER is excluded and refuted (a rounding error changes the side of the kink). C103_same_network: the real network is that of C102."
  },
  {
   "property": "C104",
   "status": "partial",
   "theorems": [
    "C104_no_failure",
    "C104_points",
    "C104_terminated",
    "C104_memory",
    "C104_result_refuted",
    "C104_restart_in_generation_refuted",
    "C104_terminated_before_restart_refuted",
    "C104_larger_problem_refuted",
    "C104_copy_refuted"
   ],
   "note": "Everything is proved except that result() returns the best point, which is refuted: after step-wise use it returns an empty vector. Refuted as well: uses beyond the stated protocol (restart inside a generation, terminated() first, larger problem, copies)."
  },
  {
   "property": "C105",
   "status": "partial",
   "theorems": [
    "C105_weight",
    "C105_bias",
    "C105_far_instance_refuted"
   ],
   "note": "Proved for networks of fully connected layers in double precision (any depth, any order of summation) with outputs up to 350 and without rectifiers; refuted for batches whose outputs are more than 800 apart. The cross entropy is that of the formula, without the 1e-10 that crossEntropy adds to the outputs. Not covered: penalties, dropout, maximal weight norm, other layers."
  },
  {
   "property": "C106",
   "status": "partial",
   "theorems": [
    "C106_no_undefined_behaviour",
    "C106_deleted_once_partial",
    "C106_exceptions_refuted",
    "C106_shared_layer",
    "C106_deleted_by_user",
    "C106_stream_destroyed"
   ],
   "note": "Proved for all permitted programs: no use or deletion of deleted objects; if no layer function and no train() throws after creating an object, everything is deleted exactly once at the end. Refuted with exceptions: the number of objects that are never deleted equals the number of such exceptions. C106_shared_layer, C106_deleted_by_user and C106_stream_destroyed show that the rules are needed. Validation sets and data sets of the user: C09. The objects inside of layers (random number generator of RBM) and user layers whose initialize throws are not modelled."
  },
  {
   "property": "C107",
   "status": "partial",
   "theorems": [
    "C107_split_partition",
    "C107_split_size_partial",
    "C107_split_size_dyadic",
    "C107_sample_size_partial",
    "C107_split_rejects",
    "C107_seven_percent_refuted"
   ],
   "note": "Proved for all data sets below 2^31 instances: a split by any double in [0, 1] is a partition; for p/q with q <= 2^19, rounded to nearest, the size is p N / q rounded up if this is not an integer, otherwise p N / q or one more; exact for dyadic ratios; other ratios (NaN, infinity) are rejected in debug builds. Refuted: 0.07 of 100 instances are 8. Missing: an exact characterisation of the cases with one more instance. Sampling with replacement: C05."
  },
  {
   "property": "C108",
   "status": "partial",
   "theorems": [
    "C108_forward",
    "C108_backward_partial",
    "C108_backward_refuted",
    "C108_diverged_refuted"
   ],
   "note": "Forward pass proved for all doubles: the output is the largest number read (first row of the region, see C35) or -DBL_MAX if there is none above, never NaN. Backward pass proved if each region has a number above -DBL_MAX in the row that is read; refuted otherwise: it writes to index -1 (undefined behaviour), e.g. for images of NaN. conservativeResize is not modelled again (C35)."
  },
  {
   "property": "C109",
   "status": "partial",
   "theorems": [
    "C109_constructor_partial",
    "C109_nan_accepted_refuted",
    "C109_nan_rates_detected",
    "C109_schedules",
    "C109_gains",
    "C109_gain_rule_partial",
    "C109_gain_underflow_refuted",
    "C109_update",
    "C109_no_overflow",
    "C109_rate_positive_partial",
    "C109_rate_vanishes_refuted",
    "C109_momentum_stuck_refuted"
   ],
   "note": "Schedules, limits, gains, updates and absence of overflow proved for all documented hyper-parameters. The constructor is proved to accept exactly the documented arguments among those that are not NaN; refuted for NaN. The learning rate stays positive if the decay is larger than 1/2; refuted otherwise (it underflows to 0). The rule for adaptive gains is proved up to rounding unless the product of momentum and gradient underflows; refuted then. The momentum follows its schedule up to k/2^50, but is refuted to reach its maximum for tiny gains. Order of instances and stopping criteria are in C21 and C26."
  },
  {
   "property": "C110",
   "status": "proved",
   "theorems": [
    "C110_accurate",
    "C110_order",
    "C110_bad_interval",
    "C110_interval_refuted",
    "C110_cancellation_refuted",
    "C110_constant_refuted",
    "C110_nan_limit_refuted"
   ],
   "note": "IEEE doubles (Flocq); matrices as lists of rows; minCoeff and maxCoeff in any fixed order give the same value for finite data. Magnitudes limited to 2^300 in C110_accurate and C110_order. Containment in the interval, constant data and NaN limits are refuted."
  },
  {
   "property": "C111",
   "status": "partial",
   "theorems": [
    "C111_fit",
    "C111_transform",
    "C111_constant_partial",
    "C111_constant_refuted"
   ],
   "note": "IEEE doubles (Flocq), all orders of summation, division by the number of instances as quotient or as product with the reciprocal. Numbers up to 2^30 in magnitude. Constant features become 0 only if their sums are exact (multiples of a power of 2 with few digits): C111_constant_partial, C111_constant_refuted. Without instances nothing is claimed."
  },
  {
   "property": "C112",
   "status": "proved",
   "theorems": [
    "C112_filter",
    "C112_zero_refuted",
    "C112_short_refuted"
   ],
   "note": "IEEE doubles (Flocq); the computation of one output, which the loops over channels and time repeat independently. Magnitudes limited to 2^30. Zero divisor and short signals are refuted."
  }
 ]
}