{
 "claims": [
  {
   "property": "C01",
   "status": "proved",
   "theorems": [
    "C01_box_extrema"
   ],
   "note": "Exact extrema over any non-empty box, any dimension and weights (full-rank weights; the same-rank identity shortcut is modelled but not claimed)."
  },
  {
   "property": "C02",
   "status": "proved",
   "theorems": [
    "C02_ball_extrema",
    "C02_ball_unsupported",
    "C02_ball_constructor"
   ],
   "note": "Exact extrema for p=1,2,inf; other orders give NotImplementedError; constructor accepts exactly positive integers or inf."
  },
  {
   "property": "C03",
   "status": "partial",
   "theorems": [
    "C03_ball_finetune_lower_partial",
    "C03_ball_finetune_upper_refuted",
    "C03_ball_finetune_upper_single_refuted",
    "C03_ball_finetune_keyerror",
    "C03_ball_finetune_upper_value",
    "C03_ball_finetune_upper_partial",
    "C03_ball_finetune_upper_single"
   ],
   "note": "REFUTED for the upper side: get_upper_ball_finetune calls get_lower_ball, so its result can be below the function (witnesses). Its value is characterised (maximum over the box plus minimum over the ball) and the function never exceeds it by more than 2 eps times the dual norm of the weights given to the ball. Lower side proved; a lower corner without upper corner or coefficients is a KeyError."
  },
  {
   "property": "C04",
   "status": "proved",
   "theorems": [
    "C04_nb_tensors",
    "C04_extract_length",
    "C04_unpack_then_pack",
    "C04_pack_then_unpack",
    "C04_unpack_short",
    "C04_split_to_merge",
    "C04_by_type_slices"
   ],
   "note": "All six layouts, any number of merged inputs, any content."
  },
  {
   "property": "C05",
   "status": "proved",
   "theorems": [
    "C05_complete_valid",
    "C05_complete_tightest",
    "C05_complete_untight"
   ],
   "note": "All modes, box and p-ball domains."
  },
  {
   "property": "C06",
   "status": "partial",
   "theorems": [
    "C06_merge_by_type_partial",
    "C06_merge_affine_aliases",
    "C06_merge_affine_refuted"
   ],
   "note": "REFUTED in affine mode with compute_ibp_from_affine=True: upper and lower lists are the same Python object. Proved equal to per-input completion in every other case."
  },
  {
   "property": "C07",
   "status": "partial",
   "theorems": [
    "C07_relu_prime",
    "C07_relu_prime_tangent",
    "C07_relu_prime_left",
    "C07_relu_hull_partial",
    "C07_relu_hull_slack",
    "C07_relu_hull_exact",
    "C07_relu_hull_chord",
    "C07_relu_hull_short_refuted"
   ],
   "note": "Proved for stable intervals and crossing intervals at least epsilon wide, all slopes and coefficients; unconditionally within epsilon. REFUTED (for every epsilon > 0) for crossing intervals shorter than epsilon: the denominator is clipped to epsilon and the upper line cuts relu."
  },
  {
   "property": "C08",
   "status": "partial",
   "theorems": [
    "C08_relu_ibp",
    "C08_relu_partial",
    "C08_relu_slack",
    "C08_relu_short_refuted"
   ],
   "note": "ibp unconditional; affine/hybrid under the width condition, or with the affine upper bound raised by epsilon. REFUTED without it (same cause as C07)."
  },
  {
   "property": "C09",
   "status": "proved",
   "theorems": [
    "C09_add",
    "C09_minus",
    "C09_subtract",
    "C09_layer_add",
    "C09_layer_average",
    "C09_layer_subtract",
    "C09_layer_subtract_arity"
   ],
   "note": "Operators and the layers DecomonAdd, DecomonAverage (any number of inputs), DecomonSubtract, all modes and domains."
  },
  {
   "property": "C10",
   "status": "partial",
   "theorems": [
    "C10_maximum_partial",
    "C10_minimum_partial",
    "C10_layer_maximum_partial",
    "C10_layer_minimum_partial",
    "C10_ibp_unconditional",
    "C10_maximum_short_refuted"
   ],
   "note": "Operators and layers (any number of inputs); unconditional in ibp mode, under the width condition on the differences otherwise. REFUTED without it."
  },
  {
   "property": "C11",
   "status": "proved",
   "theorems": [
    "C11_multiply",
    "C11_pow",
    "C11_layer_multiply"
   ],
   "note": "multiply, pow and DecomonMultiply for any number of inputs, every mode; dc_decomp raises NotImplementedError in the code and is excluded by hypothesis."
  },
  {
   "property": "C12",
   "status": "partial",
   "theorems": [
    "C12_sum_partial",
    "C12_max_ibp",
    "C12_min_ibp",
    "C12_max_partial",
    "C12_min_partial",
    "C12_sum_negative_axis_refuted",
    "C12_min_dc_refuted"
   ],
   "note": "sum, max_, min_ along any axis of any shape. Interval mode unconditional. Affine modes: axis positive or -1, and pairwise maxima not on crossing intervals shorter than epsilon. Refuted: axis=-2 in affine mode reduces the weights along another axis; min_ raises ValueError on every input with a dc decomposition."
  },
  {
   "property": "C13",
   "status": "partial",
   "theorems": [
    "C13_negative_axis_refuted",
    "C13_short_refuted",
    "C13_sort_ibp",
    "C13_sort_partial"
   ],
   "note": "The comparator network sorts every line for every length (any sorted permutation g), bounds sound. Interval mode unconditional; affine modes need the comparator intervals not to be short crossing ones, and axis positive or -1: both conditions are necessary (refuted without)."
  },
  {
   "property": "C14",
   "status": "partial",
   "theorems": [
    "C14_exp_partial",
    "C14_log_partial",
    "C14_exp_short_refuted",
    "C14_log_small_refuted"
   ],
   "note": "exp and log in every mode, with the width / domain conditions; refuted on short intervals (exp) and on lower bounds below epsilon (log, AFFINE)."
  },
  {
   "property": "C15",
   "status": "partial",
   "theorems": [
    "C15_s_shape_ibp",
    "C15_s_shape_one_sided_partial",
    "C15_s_shape_crossing_refuted",
    "C15_derivatives"
   ],
   "note": "sigmoid, tanh, softsign proved s-shaped (derivative, convex then concave). Interval mode unconditional; affine modes proved when the interval does not contain 0; refuted for every interval [a,b] with a<=-epsilon, epsilon<=b: the tangent search never returns a tangency point, so one bound crosses the curve."
  },
  {
   "property": "C16",
   "status": "partial",
   "theorems": [
    "C16_softplus_ibp_partial",
    "C16_softplus_refuted",
    "C16_softplus_adaptive_refuted",
    "C16_softplus_everywhere_refuted"
   ],
   "note": "Interval mode proved. Affine modes refuted: the hull evaluates softsign instead of softplus, and A_SLOPE raises ValueError."
  },
  {
   "property": "C17",
   "status": "partial",
   "theorems": [
    "C17_frac_pos_ibp_partial",
    "C17_softmax_of_opposite",
    "C17_softmax_refuted",
    "C17_frac_pos_affine_refuted",
    "C17_frac_pos_hull_refuted"
   ],
   "note": "frac_pos proved in interval mode. The softmax layer is proved to enclose softmax(-x) in interval mode, and refuted for softmax(x); frac_pos affine upper bound refuted on every interval at least epsilon wide."
  },
  {
   "property": "C18",
   "status": "partial",
   "theorems": [
    "C18_abs_is_identity",
    "C18_abs_refuted"
   ],
   "note": "Refuted: abs returns the bounds of its argument (exactly, in interval mode)."
  },
  {
   "property": "C19",
   "status": "partial",
   "theorems": [
    "C19_dense",
    "C19_dense_identity",
    "C19_dense_exact",
    "C19_dense_identity_exact",
    "C19_dense_ibp_tight",
    "C19_dense_back",
    "C19_dense_back_bias_refuted",
    "C19_dense_back_identity_refuted",
    "C19_dense_back_errors",
    "C19_set_back_bounds",
    "C19_set_back_bounds_error"
   ],
   "note": "Sound, exact and (interval mode) tight for every kernel, width and mode. The backward-matrix option is refuted with a bias and with identity inputs."
  },
  {
   "property": "C20",
   "status": "proved",
   "theorems": [
    "C20_conv2d",
    "C20_conv2d_identity",
    "C20_conv2d_exact"
   ],
   "note": "Every stride, padding, dilation, data format, mode; identity inputs; exact affine functions stay exact."
  },
  {
   "property": "C21",
   "status": "proved",
   "theorems": [
    "C21_batch_normalization",
    "C21_batch_normalization_exact",
    "C21_training_error"
   ],
   "note": "Every axis, sign of gamma, absent gamma/beta; training raises."
  },
  {
   "property": "C22",
   "status": "partial",
   "theorems": [
    "C22_flatten_partial",
    "C22_flatten_channels_first_refuted",
    "C22_reshape",
    "C22_reshape_exact",
    "C22_permute",
    "C22_permute_exact",
    "C22_dropout",
    "C22_dropout_training_error"
   ],
   "note": "Flatten with channels_first is refuted in the affine modes: weights are not transposed with the biases."
  },
  {
   "property": "C23",
   "status": "partial",
   "theorems": [
    "C23_concatenate_partial",
    "C23_concatenate_axis_refuted",
    "C23_dot_partial",
    "C23_dot_axis_refuted",
    "C23_dot_arity",
    "C23_dot_dc"
   ],
   "note": "Concatenate on a negative axis other than -1 and Dot on positive axes of rank >= 2 blocks are refuted in the affine modes."
  },
  {
   "property": "C24",
   "status": "partial",
   "theorems": [
    "C24_max_pooling_partial",
    "C24_max_pooling_refuted",
    "C24_pool_size_error"
   ],
   "note": "Non-fast mode: same padding and non-square pools refuted; narrow crossing intervals as in C07."
  },
  {
   "property": "C25",
   "status": "partial",
   "theorems": [
    "C25_lower_hull_partial",
    "C25_lower_hull_refuted",
    "C25_upper_line",
    "C25_upper_line_unsound_refuted",
    "C25_upper_hull_partial",
    "C25_upper_hull_refuted",
    "C25_axis_error"
   ],
   "note": "Upper hull refuted: sound iff no coordinate alone decides the largest value. Lower hull sound for coefficients constant along the axis, refuted otherwise."
  },
  {
   "property": "C26",
   "status": "proved",
   "theorems": [
    "C26_add",
    "C26_minus",
    "C26_subtract",
    "C26_relu",
    "C26_maximum",
    "C26_minimum",
    "C26_max",
    "C26_dense",
    "C26_conv2d",
    "C26_flatten",
    "C26_reshape",
    "C26_permute"
   ],
   "note": "add, minus, subtract, relu, maximum, minimum, max, dense, conv, flatten, reshape, permute. Width conditions (C07) only in the affine modes."
  },
  {
   "property": "C27",
   "status": "partial",
   "theorems": [
    "C27_training",
    "C27_multiple_reaches",
    "C27_multiple_keeps",
    "C27_multiple_identity",
    "C27_order",
    "C27_single_reaches",
    "C27_single_identity",
    "C27_initializer",
    "C27_sum_to_one_shape_refuted"
   ],
   "note": "All constraints; ClipAlphaAndSumtoOne refuted (shape)."
  },
  {
   "property": "C28",
   "status": "partial",
   "theorems": [
    "C28_merge",
    "C28_merge_exact",
    "C28_identity_left",
    "C28_identity_right",
    "C28_fuse",
    "C28_convert",
    "C28_shapes",
    "C28_shapes_diagonal_refuted",
    "C28_linear_prod",
    "C28_linear_prod_merge"
   ],
   "note": "merge, fuse, conversion and backward_linear_prod proved for all sizes and weights; the advertised shapes are wrong for diagonal weights (refuted)"
  },
  {
   "property": "C29",
   "status": "partial",
   "theorems": [
    "C29_relu_partial",
    "C29_relu_slack",
    "C29_relu_short_refuted",
    "C29_s_shaped_partial",
    "C29_s_shaped_crossing_refuted",
    "C29_softplus_refuted",
    "C29_softplus_a_slope",
    "C29_linear",
    "C29_shape",
    "C29_shape_flat",
    "C29_shape_refuted",
    "C29_unsupported",
    "C29_dc",
    "C29_relu_arguments",
    "C29_softplus_everywhere_refuted"
   ],
   "note": "relu proved except crossing intervals shorter than epsilon; sigmoid/tanh/softsign on one side of 0 only; softplus refuted"
  },
  {
   "property": "C30",
   "status": "partial",
   "theorems": [
    "C30_dense",
    "C30_conv2d_square",
    "C30_conv2d_not_square",
    "C30_conv2d_channels_first_partial",
    "C30_conv2d_channels_first_refuted",
    "C30_conv2d_channels_first_error",
    "C30_batch_normalization",
    "C30_identity",
    "C30_flatten_channels_first_refuted"
   ],
   "note": "dense, channels_last convolution, batch normalisation and reshaping exact; channels_first refuted"
  },
  {
   "property": "C31",
   "status": "partial",
   "theorems": [
    "C31_permute_reads",
    "C31_permute_partial",
    "C31_permute_refuted"
   ],
   "note": "exact only when the permutation keeps the shape; refuted otherwise, with what the matrix computes for every shape"
  },
  {
   "property": "C32",
   "status": "partial",
   "theorems": [
    "C32_add",
    "C32_subtract",
    "C32_maximum_partial",
    "C32_multiply_coefficients",
    "C32_multiply_refuted",
    "C32_add_layer",
    "C32_add_layer_arity",
    "C32_subtract_layer",
    "C32_maximum_layer_partial",
    "C32_minimum_layer_max_refuted",
    "C32_binary_arity",
    "C32_average_layer_partial",
    "C32_average_layer_refuted",
    "C32_concatenate_layer_refuted"
   ],
   "note": "add, subtract and maximum proved; multiply, minimum, average (3 inputs) and concatenate refuted"
  },
  {
   "property": "C33",
   "status": "partial",
   "theorems": [
    "C33_minus_partial",
    "C33_minus_refuted",
    "C33_scale_nonnegative_partial",
    "C33_scale_negative_refuted",
    "C33_scale_negative_reads",
    "C33_minimum_is_maximum",
    "C33_minimum_refuted",
    "C33_max_axis_reads",
    "C33_max_axis_refuted",
    "C33_max_axis_single",
    "C33_sort_refuted",
    "C33_sort_shape"
   ],
   "note": "non-negative scale proved; the others refuted, with what they do compute"
  },
  {
   "property": "C34",
   "status": "partial",
   "theorems": [
    "C34_crown_partial",
    "C34_crown_back_bounds",
    "C34_back_matrix",
    "C34_merge_raises",
    "C34_nested_model",
    "C34_nested_model_inner_refuted",
    "C34_dense_node",
    "C34_relu_node",
    "C34_ball_error",
    "C34_ball_shapes",
    "C34_ball_refuted",
    "C34_ball_inf_refuted",
    "C34_several_outputs"
   ],
   "note": "proved for all graphs without merge, in the three modes, with or without forward bounds; nested models only as last node"
  },
  {
   "property": "C35",
   "status": "partial",
   "theorems": [
    "C35_convert_partial",
    "C35_convert_from_ibp",
    "C35_from_ibp_refuted",
    "C35_from_ibp_shapes_refuted",
    "C35_convert_hybrid",
    "C35_convert_affine",
    "C35_convert_ibp",
    "C35_count"
   ],
   "note": "Sound, with the tightest constants, for every pair of modes except from ibp, where the bounds are right but the first tensor is not the input domain (refuted)."
  },
  {
   "property": "C36",
   "status": "proved",
   "theorems": [
    "C36_input_tensors",
    "C36_input_tensors_exact",
    "C36_other_domain",
    "C36_input_check"
   ],
   "note": "All modes, box and balls; the constant bounds are exactly the extreme coordinates."
  },
  {
   "property": "C37",
   "status": "partial",
   "theorems": [
    "C37_names",
    "C37_unknown_name",
    "C37_flags",
    "C37_mode_roundtrip",
    "C37_default_flags",
    "C37_final_flags",
    "C37_final_flags_refuted",
    "C37_name_case_refuted",
    "C37_forward_count",
    "C37_backward_count"
   ],
   "note": "Finite table of names plus all flag pairs; both final flags off and upper-case names refuted."
  },
  {
   "property": "C38",
   "status": "partial",
   "theorems": [
    "C38_nodes",
    "C38_outputs",
    "C38_clone_forward_partial",
    "C38_clone_crown_partial",
    "C38_clone_crown_forward_partial",
    "C38_dense",
    "C38_relu",
    "C38_add",
    "C38_nested_model",
    "C38_nested_inputs_refuted"
   ],
   "note": "Any acyclic graph of sound operations, any number of nodes; clone end to end for forward, crown and crown-forward methods; dense, relu, add and nested models shown to be sound operations. Nested models with several inputs refuted."
  },
  {
   "property": "C39",
   "status": "partial",
   "theorems": [
    "C39_outputs",
    "C39_deepest",
    "C39_all_deepest",
    "C39_first_output_only_refuted",
    "C39_dropped_output_refuted",
    "C39_shared_layer_refuted",
    "C39_two_depths_refuted",
    "C39_shared_outputs",
    "C39_values_or_error",
    "C39_call_order_refuted"
   ],
   "note": "Exact characterisation of the outputs kept, for distinct layers and for layers called several times in the order of their distance to the end; for any calls, values of the graph or KeyError; KeyError proved for calls out of order; dropped, duplicated and first-only outputs refuted."
  },
  {
   "property": "C40",
   "status": "partial",
   "theorems": [
    "C40_split",
    "C40_split_idempotent",
    "C40_split_separates",
    "C40_preprocess_partial",
    "C40_nested_inputs_refuted",
    "C40_nested_outputs_refuted",
    "C40_shared"
   ],
   "note": "split_activation preserves the function, is idempotent and separates activations; the rewritten graph computes the same deepest outputs, layers called several times included (C40_shared). Nested models with several inputs or outputs refuted."
  },
  {
   "property": "C41",
   "status": "partial",
   "theorems": [
    "C41_softmax_back",
    "C41_softmax_forced",
    "C41_objects",
    "C41_function_partial",
    "C41_softmax_lost",
    "C41_softmax_refuted",
    "C41_names_refuted",
    "C41_names_grow",
    "C41_no_clash",
    "C41_clash_refuted"
   ],
   "note": "Function kept for every model whose last layer does not own a softmax; a final softmax is always lost and layers are renamed (findings). Nested models are not in the object model."
  },
  {
   "property": "C42",
   "status": "partial",
   "theorems": [
    "C42_to_decomon",
    "C42_tables",
    "C42_to_backward_of_decomon",
    "C42_to_backward",
    "C42_activation_names",
    "C42_backward_activation_names",
    "C42_activation_agree",
    "C42_activation_cases",
    "C42_groupsort_refuted",
    "C42_activation_dropped_refuted"
   ],
   "note": "Dispatch specified for every class name and activation name; forward and backward tables agree. Refuted: GroupSort2 unreachable, to_decomon drops the activation of a layer."
  },
  {
   "property": "C43",
   "status": "partial",
   "theorems": [
    "C43_grid_restores",
    "C43_grid_finetune_refuted",
    "C43_forward_partial",
    "C43_unfreeze_restores",
    "C43_backward_dense_refuted",
    "C43_backward_dense_inner",
    "C43_backward_activation_partial",
    "C43_backward_activation_refuted",
    "C43_backward_activation_ibp_refuted",
    "C43_grid_refuted",
    "C43_reset",
    "C43_reset_backward_refuted"
   ],
   "note": "Proved for any history on models of forward layers; refuted for backward layers, with the exact behaviour proved (weights never restored, AttributeError, ibp)."
  },
  {
   "property": "C44",
   "status": "partial",
   "theorems": [
    "C44_reject",
    "C44_accept",
    "C44_last",
    "C44_box",
    "C44_affine_partial",
    "C44_ibp_smaller_partial",
    "C44_hybrid_smaller_partial",
    "C44_ibp_ignored",
    "C44_ibp_refuted",
    "C44_hybrid_refuted"
   ],
   "note": "Proved for boxes (all modes), balls in affine mode after any history, and smaller radii in ibp and hybrid mode; refuted for larger radii. Models: sequences of Dense and relu."
  },
  {
   "property": "C45",
   "status": "partial",
   "theorems": [
    "C45_reset_all",
    "C45_share_all",
    "C45_all_not_attribute",
    "C45_decomon_reset",
    "C45_reset",
    "C45_reset_named",
    "C45_reset_requires",
    "C45_reset_errors",
    "C45_share",
    "C45_share_errors",
    "C45_share_refuted",
    "C45_single_shape",
    "C45_shape_list"
   ],
   "note": "reset_layer specified completely; sharing proved when build creates the named weights, refuted otherwise; both for all the weights at once (C45_reset_all, C45_share_all)."
  },
  {
   "property": "C46",
   "status": "partial",
   "theorems": [
    "C46_score",
    "C46_certificate",
    "C46_batch",
    "C46_sub_boxes_partial",
    "C46_sub_boxes_refuted",
    "C46_reject",
    "C46_back_partial",
    "C46_sequence",
    "C46_sequence_bounds"
   ],
   "note": "Scores exact, certificates, batch independence, sub-boxes for inputs with one axis; end to end for clones of Dense and relu layers. False with sub-boxes and inputs with several axes (C46_sub_boxes_refuted); with back bounds the score is valid but never negative."
  },
  {
   "property": "C47",
   "status": "partial",
   "theorems": [
    "C47_error_refuted",
    "C47_ignored_refuted",
    "C47_certificate_refuted"
   ],
   "note": "Refuted: integer labels are treated as masks, so the call is refused unless batch size = number of classes, and then gives false certificates. No positive statement holds."
  },
  {
   "property": "C48",
   "status": "partial",
   "theorems": [
    "C48_score",
    "C48_refuted",
    "C48_target_refuted",
    "C48_reject"
   ],
   "note": "Refuted in the three modes; the exact score is C48_score (a lower bound of the margin at some point)."
  },
  {
   "property": "C49",
   "status": "partial",
   "theorems": [
    "C49_range",
    "C49_batch",
    "C49_reject",
    "C49_back",
    "C49_sub_boxes_partial",
    "C49_sub_boxes_refuted",
    "C49_sub_boxes_axes_refuted",
    "C49_sequence"
   ],
   "note": "Sound and independent of batch_size without sub-boxes, sound with sub-boxes for one output and inputs with one axis; false otherwise (two refutations)."
  },
  {
   "property": "C50",
   "status": "partial",
   "theorems": [
    "C50_refine_partial",
    "C50_axes",
    "C50_axes_refuted"
   ],
   "note": "Full statement for inputs with one axis; refuted with several axes."
  },
  {
   "property": "C51",
   "status": "partial",
   "theorems": [
    "C51_upper",
    "C51_lower",
    "C51_range_refuted",
    "C51_random_refuted",
    "C51_adv_classes_refuted",
    "C51_adv_samples_refuted",
    "C51_adv_partial",
    "C51_check_classes_refuted",
    "C51_other"
   ],
   "note": "Upper and lower bounds by largest width: sound. Range, random splitting and most adversarial calls always raise."
  },
  {
   "property": "C52",
   "status": "partial",
   "theorems": [
    "C52_range",
    "C52_sound_partial",
    "C52_batch",
    "C52_norm",
    "C52_box",
    "C52_sequence",
    "C52_larger_refuted",
    "C52_negative_refuted"
   ],
   "note": "Exact extrema for p in {1,2,inf}; sound when the model is sound on the ball (clones of Dense/relu: radius not larger than at conversion). Refuted for larger and negative radii."
  },
  {
   "property": "C53",
   "status": "partial",
   "theorems": [
    "C53_score",
    "C53_certificate_partial",
    "C53_larger_refuted",
    "C53_affine_refuted",
    "C53_keras_refuted",
    "C53_box",
    "C53_targets_refuted",
    "C53_int_target"
   ],
   "note": "IBP mode: exact score and certificate. Other modes, Keras models, targets with batches: always raise. Refuted for larger radii."
  },
  {
   "property": "C54",
   "status": "partial",
   "theorems": [
    "C54_upper",
    "C54_lower_partial",
    "C54_lower_refuted",
    "C54_lower_lost_refuted",
    "C54_sub_boxes_refuted",
    "C54_sub_boxes_rows_refuted"
   ],
   "note": "Upper bounds: valid and at least as tight for any training outcome. Lower bounds: valid, never tighter, may be looser (refuted). Sub-boxes refused or misshaped."
  },
  {
   "property": "C55",
   "status": "partial",
   "theorems": [
    "C55_cross_entropy",
    "C55_cross_entropy_value",
    "C55_asymptotic",
    "C55_asymptotic_value",
    "C55_errors",
    "C55_backward_value",
    "C55_backward_refuted",
    "C55_build_box",
    "C55_build_ball",
    "C55_build_ball_refuted"
   ],
   "note": "Forward layer, any domain whose norms are supported: ce_sound (any number of classes). Asymptotic version with a known batch size. Backward version and balls through build_crossentropy_model are refuted."
  },
  {
   "property": "C56",
   "status": "proved",
   "theorems": [
    "C56_certifies",
    "C56_backward_certifies",
    "C56_complete",
    "C56_backward_complete",
    "C56_errors"
   ],
   "note": "Soundness (forward and backward) and, away from the numerical guards, completeness. Box only: the constructor refuses balls."
  },
  {
   "property": "C57",
   "status": "partial",
   "theorems": [
    "C57_score",
    "C57_score_affine",
    "C57_score_ibp",
    "C57_score_ibp_loose_refuted",
    "C57_check_refuted",
    "C57_backward_refuted",
    "C57_layout",
    "C57_no_mode",
    "C57_build_refuted"
   ],
   "note": "AdversarialScore in forward mode is sound on every domain; AdversarialCheck and the backward mode are refuted in every mode, and the builders always raise."
  },
  {
   "property": "C58",
   "status": "partial",
   "theorems": [
    "C58_sound_partial",
    "C58_value",
    "C58_ibp_any_domain",
    "C58_hybrid_range",
    "C58_hybrid_refuted",
    "C58_ball_refused"
   ],
   "note": "Box, ibp and affine modes (ibp: any domain). Hybrid mode applies softmax unconditionally: refuted. Balls: refused or misread."
  },
  {
   "property": "C59",
   "status": "partial",
   "theorems": [
    "C59_pack",
    "C59_pack_batch",
    "C59_upper_loss",
    "C59_upper_gap",
    "C59_lower_loss",
    "C59_lower_gap",
    "C59_ball_refused",
    "C59_ball_refuted"
   ],
   "note": "Packing proved for any domain, mode, dimensions; the losses computed from it on boxes; balls refuted."
  },
  {
   "property": "C60",
   "status": "partial",
   "theorems": [
    "C60_ibp",
    "C60_sound_partial",
    "C60_ball_refuted",
    "C60_ball_error"
   ],
   "note": "Any leading axes and number of classes. Hypotheses of the partial theorem: intervals of width 0 or at least epsilon (modes other than ibp), lower bound of the sum at least epsilon (affine), box (hybrid)."
  },
  {
   "property": "C61",
   "status": "partial",
   "theorems": [
    "C61_negative_axis_refuted",
    "C61_negative_axis_error",
    "C61_split_partial"
   ],
   "note": "split into slices along any axis of any shape; in the affine modes the axis must be positive or -1: refuted for other negative axes, with the exact condition for ValueError."
  },
  {
   "property": "C62",
   "status": "partial",
   "theorems": [
    "C62_identity_shape",
    "C62_identity",
    "C62_diag_partial",
    "C62_diag_refuted"
   ],
   "note": "Identity proved for every rank; diagonal proved for rank 2, refuted from rank 3 on (announced shape)."
  },
  {
   "property": "C63",
   "status": "partial",
   "theorems": [
    "C63_sound_partial",
    "C63_backward_partial",
    "C63_value",
    "C63_affine_refuted",
    "C63_negative_refuted",
    "C63_target_refuted"
   ],
   "note": "Forward and backward, ibp and hybrid modes, nonnegative weights, any domain. Affine mode always raises; negative weights and the documented reading are refuted."
  },
  {
   "property": "C64",
   "status": "partial",
   "theorems": [
    "C64_layer_partial",
    "C64_value_exists",
    "C64_value_unique",
    "C64_ibp",
    "C64_forward_partial",
    "C64_free",
    "C64_refuted",
    "C64_outputs_exist",
    "C64_outputs_partial",
    "C64_outputs_ibp",
    "C64_second_output_refuted",
    "C64_shared_same",
    "C64_shared_partial",
    "C64_sequential_partial"
   ],
   "note": "ibp mode: full. Affine and hybrid: full for layers without activation, maximum or exact max pooling; otherwise under the interval conditions at each node (false without: C64_refuted). Layers may be called several times, in the order of their distance to the end (C64_shared_same, C64_sequential_partial). Several outputs: bounds of the first output at the end of a longest path; the others are lost (C64_second_output_refuted)."
  },
  {
   "property": "C65",
   "status": "partial",
   "theorems": [
    "C65_layer_partial",
    "C65_crown_partial",
    "C65_crown_free",
    "C65_crown_forward_partial",
    "C65_refuted",
    "C65_outputs_partial",
    "C65_outputs_forward_partial",
    "C65_second_output_refuted"
   ],
   "note": "Under the interval conditions at each activation; unconditional without non-linear activations. ibp mode: boxes. Merges are refused by the code. Several outputs: only the first one at the end of a longest path has bounds (C65_second_output_refuted)."
  },
  {
   "property": "C66",
   "status": "partial",
   "theorems": [
    "C66_crown",
    "C66_forward",
    "C66_ibp_refuted"
   ],
   "note": "crown in every mode, forward-affine and forward-hybrid proved; forward-ibp refuted (interval arithmetic)."
  },
  {
   "property": "C67",
   "status": "partial",
   "theorems": [
    "C67_bounds_partial",
    "C67_adv_partial",
    "C67_range_partial",
    "C67_noise_partial",
    "C67_ibp_adv",
    "C67_ibp_adv_sub_boxes",
    "C67_ibp_range",
    "C67_ibp_noise",
    "C67_default_exact",
    "C67_refuted"
   ],
   "note": "forward-ibp: full, on boxes and balls, with sub-boxes. The other methods under the conditions of C64 and C65 at each node (false without: C67_refuted); default method on affine networks: exact. Not with back bounds."
  },
  {
   "property": "C68",
   "status": "proved",
   "theorems": [
    "C68_layer",
    "C68_forward",
    "C68_forward_constants",
    "C68_factor_needed"
   ],
   "note": "Full for the piecewise affine layers and the forward methods; one output, layers used once."
  },
  {
   "property": "C69",
   "status": "proved",
   "theorems": [
    "C69_crown",
    "C69_crown_forward",
    "C69_crown_constants",
    "C69_factor_needed"
   ],
   "note": "Full for the piecewise affine layers that the backward pass accepts (no merge layer, no pooling); one output, layers used once."
  },
  {
   "property": "C70",
   "status": "proved",
   "theorems": [
    "C70_bounds",
    "C70_adv",
    "C70_range",
    "C70_noise",
    "C70_default_adv",
    "C70_default_range",
    "C70_default_noise"
   ],
   "note": "Full for the piecewise affine layers the method accepts; one output, layers used once; sub-boxes (n_sub_boxes > 1) for inputs with one axis."
  },
  {
   "property": "C71",
   "status": "partial",
   "theorems": [
    "C71_lower",
    "C71_upper",
    "C71_largest_refuted",
    "C71_enclose_refuted"
   ],
   "note": "Theorem for get_lower_bound_grid and get_upper_bound_grid on every affine function, box and number of steps; the comment of the code (largest value at most 0) and the enclosure suggested by the names are refuted. Partial: full-rank weights; the caller (relu_ on a GridDomain) is not modelled."
  },
  {
   "property": "C72",
   "status": "partial",
   "theorems": [
    "C72_history",
    "C72_affine",
    "C72_ibp",
    "C72_inside_partial",
    "C72_noise_partial",
    "C72_noise_free",
    "C72_noise_ibp",
    "C72_noise_affine_partial",
    "C72_noise_ibp_refuted",
    "C72_noise_hybrid_refuted",
    "C72_noise_final_refuted",
    "C72_noise_fast_refuted",
    "C72_inside_near",
    "C72_noise_near",
    "C72_noise_affine_near"
   ],
   "note": "Equalities (affine, interval mode) hold for every network; C72_inside_partial and the noise theorems built on it keep the interval conditions of C64/C65 (removed for layers without condition and for forward-ibp); C72_inside_near, C72_noise_near and C72_noise_affine_near drop these conditions on piecewise affine networks, up to net_slack * epsilon; back_bounds left out"
  },
  {
   "property": "C73",
   "status": "partial",
   "theorems": [
    "C73_forward_partial",
    "C73_constants_partial",
    "C73_interval_partial",
    "C73_values",
    "C73_network_partial",
    "C73_decision_partial",
    "C73_factor_refuted",
    "C73_crown_partial",
    "C73_crown_constants_partial",
    "C73_crown_network_partial",
    "C73_crown_decision_partial",
    "C73_crown_more_runs",
    "C73_crown_exact",
    "C73_crown_forward_exact",
    "C73_lipschitz",
    "C73_nodes_within",
    "C73_crown_refuted",
    "C73_interval_curved_partial",
    "C73_values_curved",
    "C73_interval_decision_partial",
    "C73_exact_curved"
   ],
   "note": "Piecewise affine layers, as in C68 and C69; forward methods, crown, crown-forward-xxx. In interval mode also sigmoid, tanh, softsign, softplus. The error d of each call is a hypothesis. Missing: exponential, Multiply and Dot; curved activations in affine and hybrid modes (their affine bounds are refuted elsewhere)."
  },
  {
   "property": "C74",
   "status": "partial",
   "theorems": [
    "C74_inner_product",
    "C74_binary32",
    "C74_layer_error",
    "C74_bounds_partial",
    "C74_predictions_partial",
    "C74_any_arithmetic_partial",
    "C74_ordered_partial",
    "C74_one_sign_partial",
    "C74_margin_refuted",
    "C74_normalisation",
    "C74_network_bounds_partial",
    "C74_network_any_arithmetic_partial",
    "C74_network_predictions_partial",
    "C74_network_ordered_partial"
   ],
   "note": "forward-ibp on a box; Dense, Conv2D, Add, Average, Subtract, relu, linear, MaxPooling, Flatten, Reshape, Permute, Dropout, Concatenate, and with C74_network_\u2026: BatchNormalization, Maximum, Minimum (and Multiply for the order of the bounds); no overflow. Missing: Dot, curved activations, the margin of Multiply, and the other modes in floating point."
  },
  {
   "property": "C75",
   "status": "partial",
   "theorems": [
    "C75_announced",
    "C75_keras",
    "C75_returned_partial",
    "C75_network_announced",
    "C75_network_returned_partial",
    "C75_alone_partial",
    "C75_prepare",
    "C75_prepare_dc",
    "C75_prepare_differ",
    "C75_convert",
    "C75_convert_flat",
    "C75_convert_ibp",
    "C75_convert_image_refuted",
    "C75_convert_hidden_refuted",
    "C75_concat_axis_refuted",
    "C75_concat_odd",
    "C75_dc_merge_refuted",
    "C75_rank_refuted",
    "C75_rank_batch",
    "C75_dot_refuted",
    "C75_diagonal_reshape_refuted",
    "C75_diagonal_dense"
   ],
   "note": "Full statement: announced = returned for every converted layer. Proved for Dense, Flatten, Reshape, Permute, relu, sigmoid, tanh, softsign, exponential, softplus, softmax (last axis), Dropout, BatchNormalization, Add, Average, Subtract, Maximum, Minimum, Multiply, Concatenate under the listed conditions (elementwise merges: operands of one rank, broadcast); refuted for Convert2Mode from ibp, Concatenate on a negative axis other than -1 in affine modes, elementwise merges of operands of different ranks, Dot on two vectors, merging layers, BatchNormalization and curved activations with dc_decomp and diagonal weights. Missing: convolutions, pooling, Dot on other ranks, backward layers."
  },
  {
   "property": "C76",
   "status": "partial",
   "theorems": [
    "C76_interval",
    "C76_hybrid_partial",
    "C76_piecewise_partial",
    "C76_range_boxes",
    "C76_sub_boxes",
    "C76_affine_refuted",
    "C76_hybrid_refuted",
    "C76_pooling_refuted"
   ],
   "note": "Proved in full: nested domains for forward-ibp on every network, get_range_box on nested boxes and with sub-boxes (one output). Hybrid inside interval is proved for networks meeting the conditions of C64 or piecewise affine, with fast max pooling; refuted without fast. Isotonicity is refuted for forward-affine and forward-hybrid."
  },
  {
   "property": "C77",
   "status": "partial",
   "theorems": [
    "C77_rebuild",
    "C77_rebuild_refuted",
    "C77_activation",
    "C77_activation_iff",
    "C77_slope_refuted",
    "C77_activation_bounds",
    "C77_rebuild_twice",
    "C77_set_domain",
    "C77_bounds",
    "C77_sound_partial",
    "C77_to_decomon",
    "C77_to_decomon_slope",
    "C77_backward",
    "C77_backward_same",
    "C77_backward_activation",
    "C77_backward_dc_refuted",
    "C77_backward_inherits",
    "C77_to_backward",
    "C77_backward_pool",
    "C77_convert2mode",
    "C77_convert2mode_refuted",
    "C77_convert2backward",
    "C77_metric",
    "C77_domain",
    "C77_ball"
   ],
   "note": "Proved: exact round trip for every class but Activation, all but the slope for Activation, same bounds where the slope is not read, set_domain then rebuild gives the layer of the new domain with valid bounds, options honoured by to_decomon and to_backward, exact result for backward layers, Convert2Mode, Convert2BackwardMode, metrics and domains. Refuted: slope of activations, dc_decomp of BackwardDense/BackwardConv2D made from a Keras layer, input_dim of Convert2Mode. Partial: the bounds need nl_gaps as in C64; Fuse, MergeWithPrevious and DecomonModel are not modelled."
  },
  {
   "property": "C78",
   "status": "partial",
   "theorems": [
    "C78_clone",
    "C78_clone_from_ibp",
    "C78_independent",
    "C78_ibp",
    "C78_valid_partial",
    "C78_merge_previous",
    "C78_near"
   ],
   "note": "Per-sample refinement proved for the listed layers (with BatchNormalization on any axis and Permute) in all modes; validity on a batch: exact in ibp and for layers other than relu, maximum, minimum (C78_valid_partial, the others need the intervals of C64_forward_partial), and in all modes for all layers up to net_slack * epsilon (C78_near). Conv2D and pooling are not modelled with a batch axis."
  },
  {
   "property": "C79",
   "status": "partial",
   "theorems": [
    "C79_crown_partial",
    "C79_independent",
    "C79_near",
    "C79_constants",
    "C79_dense_block_refuted",
    "C79_dense_rows",
    "C79_relu_block_refuted",
    "C79_batchnorm_block_refuted",
    "C79_permute_block_refuted",
    "C79_from_ibp",
    "C79_from_ibp_refuted",
    "C79_single"
   ],
   "note": "Per-sample refinement, independence and validity (up to net_slack * epsilon) proved for chains of Dense, BatchNormalization, relu, linear, Dropout, Flatten, Reshape, Permute in all modes. Partial: it fails for Dense, BatchNormalization and Permute on blocks (crown), finetuned relu on blocks (crown-forward), and ibp to an affine final mode, each refuted; merge layers and Conv2D are not in the batched model."
  },
  {
   "property": "C80",
   "status": "partial",
   "theorems": [
    "C80_shared_calls_partial",
    "C80_converts",
    "C80_not_built",
    "C80_values",
    "C80_shared",
    "C80_copy",
    "C80_apart",
    "C80_bounds_ibp",
    "C80_bounds_free",
    "C80_batchnorm_refuted"
   ],
   "note": "Networks of Dense, Conv2D, BatchNormalization and layers without weights. Full statement proved at conversion, and for every later value of the weights when shared without BatchNormalization or when not shared; with layers called several times and crown methods under the conditions of C65 (C80_shared_calls_partial); false for BatchNormalization when shared (C80_batchnorm_refuted): it is copied."
  },
  {
   "property": "C81",
   "status": "partial",
   "theorems": [
    "C81_forward",
    "C81_crown",
    "C81_crown_shared_refuted"
   ],
   "note": "Forward methods: full. Crown methods: built exactly when every layer and every layer held as an activation is used once (C81_crown, C81_crown_shared_refuted). Layers of the class Softmax and nested models are left out."
  },
  {
   "property": "C82",
   "status": "partial",
   "theorems": [
    "C82_layers",
    "C82_empty_refuted",
    "C82_relu_refuted",
    "C82_params",
    "C82_slope",
    "C82_error"
   ],
   "note": "REFUTED: with ordinary layer names both functions return an empty dictionary for every cloned model, because backward layers are named x_backward while the functions look for backward_activation. What the functions compute on any list of layers is proved (first entry for each key; AttributeError on a forward layer with a matching name)."
  },
  {
   "property": "C83",
   "status": "partial",
   "theorems": [
    "C83_maximum",
    "C83_minimum",
    "C83_multiply",
    "C83_ordered",
    "C83_ordered_multiply",
    "C83_exact_maximum",
    "C83_exact_minimum",
    "C83_exact_multiply",
    "C83_maximum_refuted",
    "C83_multiply_refuted"
   ],
   "note": "Bounds up to an explicit margin, for any number of inputs and any arithmetic with bounded errors; order of the bounds in binary32. Without a margin refuted for Maximum and Multiply by binary32 numbers. Not covered: Dot, overflow."
  },
  {
   "property": "C84",
   "status": "partial",
   "theorems": [
    "C84_exact",
    "C84_upper",
    "C84_lower",
    "C84_upper_refuted"
   ],
   "note": "Upper line up to an explicit margin in any arithmetic with bounded errors; lower line without margin in binary32, every slope and finetuning. Upper line without margin refuted by [-1, 9] in binary32."
  },
  {
   "property": "C85",
   "status": "partial",
   "theorems": [
    "C85_lines_refuted",
    "C85_lines_partial",
    "C85_constants_partial",
    "C85_predictions_partial",
    "C85_relu",
    "C85_without_rounding"
   ],
   "note": "Binary32, sums in any order, Dense/Conv2D/relu/reshaping layers on a box. Exact enclosure refuted (relu on [-1, 9]); enclosure up to an explicit margin proved for the lines, the constants and the predictions. Missing: merges, BatchNormalization, pooling, curved activations, hybrid mode, overflow."
  },
  {
   "property": "C86",
   "status": "partial",
   "theorems": [
    "C86_bounds_refuted",
    "C86_bounds_partial",
    "C86_predictions_partial",
    "C86_decision_partial",
    "C86_batchnorm_partial",
    "C86_run_partial",
    "C86_forward_numbers",
    "C86_without_rounding_layers",
    "C86_without_rounding_products",
    "C86_without_rounding_bounds"
   ],
   "note": "Exact enclosure is refuted (relu on [-1, 9]). Proved: a run of crown or crown-forward-ibp in binary32 (interval mode, box, Dense/Conv2D/BatchNormalization/relu/reshaping layers, any order of the sums, any slope) is a run with an explicit error per call, so its bounds hold up to the margin of C73, for real values, for predictions computed with rounded layers and, without BatchNormalization, for binary32 predictions and decisions. Missing: other layers, affine and hybrid modes, overflow."
  },
  {
   "property": "C87",
   "status": "proved",
   "theorems": [
    "C87_calls",
    "C87_order",
    "C87_layers",
    "C87_one_call",
    "C87_nested"
   ],
   "note": "every graph of layers; depths as computed by Keras (kdepths, trusted transcription of map_graph)"
  },
  {
   "property": "C88",
   "status": "partial",
   "theorems": [
    "C88_forward",
    "C88_default",
    "C88_backward",
    "C88_all_or_nothing",
    "C88_kwargs_refuted",
    "C88_dc_refuted",
    "C88_layer_fn_refuted",
    "C88_backward_function",
    "C88_local_variable_refuted"
   ],
   "note": "Proved: with the default functions, and with any layer_fn that names input_dim and accepts the eight keywords, every method but crown converts each layer forward with the options of clone, and every backward method converts each layer backward with them; a layer_fn receives all the options or none. Refuted: **kwargs functions receive none; convert_forward drops dc_decomp; method crown ignores layer_fn; a backward layer_fn of the layer only fails if it has a local variable."
  },
  {
   "property": "C89",
   "status": "partial",
   "theorems": [
    "C89_logits_partial",
    "C89_preprocessed",
    "C89_shared",
    "C89_shared_refuted"
   ],
   "note": "Proved for chains whose last layer object is used once, other layers any number of times (C89_logits_partial); the preprocessed network is the network given (C89_preprocessed). Refuted with a shared softmax layer at the end: its inner calls lose their softmax too."
  }
 ]
}