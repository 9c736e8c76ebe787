{"id": "C01", "title": "Box domain bounds are the exact extrema", "statement": "BoxDomain.get_upper(x,w,b) (resp. get_lower) equals the maximum (resp. minimum) of the affine function z -> w.z+b over the box [x_min,x_max]: no point of the box exceeds it and some corner attains it.", "quantifier": "every input dimension, every weight matrix and bias, every non-empty box", "why_tests_cant": "a numeric test samples finitely many boxes and points; a wrong sign on one weight orthant or one corner is invisible to samples that do not hit it", "anchors": ["src/decomon/core.py:get_upper_box", "src/decomon/core.py:get_lower_box", "src/decomon/core.py:BoxDomain"]}
{"id": "C02", "title": "Ball domain bounds are the exact extrema (p = 1, 2, inf)", "statement": "BallDomain(eps,p).get_upper/get_lower(x0,w,b) for p in {1,2,inf} and eps >= 0 are the maximum/minimum of w.z+b over the p-ball of radius eps centred in x0 (Hoelder bound, attained); any other p raises NotImplementedError.", "quantifier": "every dimension, weight, bias, centre and radius eps >= 0, each supported norm", "why_tests_cant": "the statement quantifies over all points of an uncountable ball and all weights; tests never search for the maximiser", "anchors": ["src/decomon/core.py:get_upper_ball", "src/decomon/core.py:get_lower_ball", "src/decomon/core.py:get_lq_norm", "src/decomon/core.py:BallDomain"]}
{"id": "C03", "title": "Fine-tuned ball bounds stay valid bounds", "statement": "get_lower_ball_finetune / get_upper_ball_finetune, which split the weights between the ball and a bounding box with user coefficients alpha in [0,1], never go on the wrong side of the true extremum over the intersection of the ball with the box.", "quantifier": "every alpha in [0,1], weights, bias, ball and bounding box containing it", "why_tests_cant": "soundness must hold for every value the optimiser may give alpha", "anchors": ["src/decomon/core.py:get_lower_ball_finetune", "src/decomon/core.py:get_upper_ball_finetune"]}
{"id": "C04", "title": "Per-mode tensor layout round-trips", "statement": "For each of the six (mode, dc_decomp) configurations, the list of tensors exchanged between layers has exactly nb_tensors entries, unpacking then repacking it is the identity, packing then unpacking keeps every field of the mode, and cutting a concatenation of k such lists back into k inputs (by input or by type) returns the k original inputs in order.", "quantifier": "every mode, dc flag, number k of merged inputs and every tensor content", "why_tests_cant": "an off-by-one in one stride shows only for particular k / mode combinations and silently permutes upper and lower bounds", "anchors": ["src/decomon/core.py:InputsOutputsSpec"]}
{"id": "C05", "title": "Completing inputs never loosens nor breaks bounds", "statement": "get_fullinputs_from_inputsformode turns valid bounds into valid bounds, in hybrid mode the constant bounds returned are at least as tight as both the received ones and the ones implied by the affine bounds, and with tight=False they are unchanged.", "quantifier": "all modes, flags, domains (box / p-ball), dimensions and valid inputs", "why_tests_cant": "universally quantified inequality over all reals and all points of the domain", "anchors": ["src/decomon/core.py:InputsOutputsSpec.get_fullinputs_from_inputsformode"]}
{"id": "C06", "title": "Completing merged inputs keeps upper and lower bounds apart", "statement": "get_fullinputs_by_type_from_inputsformode_to_merge gives, for each input of a merge layer, the same bounds as completing this input alone, in every mode and for both values of compute_ibp_from_affine.", "quantifier": "every number of merged inputs, mode and flag value", "why_tests_cant": "the flag value that exposes aliasing is never used with affine mode in the test-suite; the statement covers all histories of list updates", "anchors": ["src/decomon/core.py:InputsOutputsSpec.get_fullinputs_by_type_from_inputsformode_to_merge"]}
{"id": "C07", "title": "ReLU linear hull is a valid relaxation for every slope", "statement": "For any bounds l <= u, slope in {V,A,Z,O,S} and fine-tuning coefficient in [0,1], the two lines returned by get_linear_hull_relu enclose relu on [l,u]: w_l z + b_l <= max(z,0) <= w_u z + b_u.", "quantifier": "every l <= u (including intervals shorter than the numerical epsilon), every slope, every coefficient, every z in [l,u]", "why_tests_cant": "needs all reals; degenerate intervals, l=0, u=0 and tiny crossing intervals are measure-zero for random tests", "anchors": ["src/decomon/utils.py:get_linear_hull_relu"]}
{"id": "C08", "title": "Forward ReLU propagates valid bounds", "statement": "relu_ (and the relu activation of a DecomonActivation/Dense layer) maps valid bounds on a pre-activation to valid bounds on its ReLU in ibp, affine and hybrid modes, for every slope and fine-tuning value.", "quantifier": "all modes, domains, dimensions, numbers of neurons, slopes, coefficients in [0,1]", "why_tests_cant": "for-all over points of the domain and over bounds", "anchors": ["src/decomon/utils.py:relu_", "src/decomon/layers/activations.py:relu"]}
{"id": "C09", "title": "Forward addition, negation and subtraction are sound", "statement": "add, minus, subtract (layers DecomonAdd, DecomonSubtract, DecomonAverage over any number of inputs) map valid bounds on the operands to valid bounds on the result; DecomonSubtract rejects a number of inputs other than 2.", "quantifier": "all modes, domains, dimensions, number of merged inputs", "why_tests_cant": "for-all over operands, functions and points", "anchors": ["src/decomon/utils.py:add", "src/decomon/utils.py:minus", "src/decomon/utils.py:subtract", "src/decomon/layers/decomon_merge_layers.py:DecomonAdd,DecomonAverage,DecomonSubtract"]}
{"id": "C10", "title": "Forward element-wise maximum and minimum are sound", "statement": "maximum / minimum (layers DecomonMaximum / DecomonMinimum over any number of inputs, with or without fine-tuning) map valid bounds to valid bounds on the element-wise max/min.", "quantifier": "all modes, domains, dimensions, number of inputs, coefficients in [0,1]", "why_tests_cant": "for-all over operands, functions and points", "anchors": ["src/decomon/utils.py:maximum", "src/decomon/utils.py:minimum", "src/decomon/layers/decomon_merge_layers.py:DecomonMaximum,DecomonMinimum"]}
{"id": "C11", "title": "Forward product (McCormick) is sound", "statement": "multiply, pow and DecomonMultiply map valid bounds on two (or n) operands to valid bounds on their product / square.", "quantifier": "all modes, dimensions, signs of the operands, number of inputs", "why_tests_cant": "bilinear inequality over four sign orthants and all reals", "anchors": ["src/decomon/layers/utils.py:multiply", "src/decomon/layers/utils.py:pow", "src/decomon/layers/decomon_merge_layers.py:DecomonMultiply"]}
{"id": "C12", "title": "Forward reductions sum / max / min along an axis are sound", "statement": "sum, max_ and min_ map valid bounds on the entries to valid bounds on the reduction.", "quantifier": "all modes, axis length n >= 1, entries", "why_tests_cant": "unbounded axis length", "anchors": ["src/decomon/layers/utils.py:sum", "src/decomon/layers/utils.py:max_", "src/decomon/layers/utils.py:min_"]}
{"id": "C13", "title": "Forward sort is a sorting network with sound bounds", "statement": "sort maps valid bounds on n entries to valid bounds on the ascending sorted entries: the k-th output bounds the k-th smallest value.", "quantifier": "every n, every mode, every entries", "why_tests_cant": "sorting networks must be verified for all permutations and all n", "anchors": ["src/decomon/layers/utils.py:sort"]}
{"id": "C14", "title": "Forward exponential and logarithm are sound", "statement": "exp (any bounds) and log (positive lower bound) map valid bounds to valid bounds on exp / log in each mode.", "quantifier": "all l <= u (0 < l for log), modes, dimensions", "why_tests_cant": "transcendental inequality over all reals, including degenerate intervals", "anchors": ["src/decomon/layers/utils.py:exp", "src/decomon/layers/utils.py:log", "src/decomon/layers/activations.py:exponential"]}
{"id": "C15", "title": "S-shaped activations (sigmoid, tanh, softsign) are enclosed", "statement": "The constant bounds and the linear hull computed for an s-shaped activation enclose the activation on [l,u] in all three cases (chord, constant, tangent search on the 100-point grid).", "quantifier": "every l <= u, each activation, each mode", "why_tests_cant": "the tangent point is found by a finite grid search; whether the resulting line bounds the curve must hold between the grid points", "anchors": ["src/decomon/utils.py:get_linear_hull_s_shape", "src/decomon/utils.py:get_t_upper", "src/decomon/utils.py:get_t_lower", "src/decomon/layers/activations.py:linear_hull_s_shape"]}
{"id": "C16", "title": "Softplus is enclosed", "statement": "The bounds computed for softplus (forward layer and backward hull) enclose log(1+exp z) on [l,u].", "quantifier": "every l <= u, slope, mode", "why_tests_cant": "for-all over reals", "anchors": ["src/decomon/utils.py:get_linear_softplus_hull", "src/decomon/layers/utils.py:softplus_", "src/decomon/layers/activations.py:softplus"]}
{"id": "C17", "title": "Softmax and positive reciprocal are enclosed", "statement": "The forward softmax layer returns bounds enclosing softmax of its inputs and frac_pos encloses 1/z for positive z.", "quantifier": "every bounds, modes, number of classes", "why_tests_cant": "for-all over reals and number of classes", "anchors": ["src/decomon/layers/activations.py:softmax", "src/decomon/layers/utils.py:frac_pos", "src/decomon/layers/utils.py:frac_pos_hull"]}
{"id": "C18", "title": "Absolute value is enclosed", "statement": "abs maps valid bounds on z to valid bounds on |z|.", "quantifier": "every bounds, modes", "why_tests_cant": "for-all over reals", "anchors": ["src/decomon/layers/utils.py:abs"]}
{"id": "C19", "title": "Dense layer is sound", "statement": "DecomonDense maps valid bounds on its input vector to valid bounds on kernel^T z + bias, in all modes, including the exact identity-input case.", "quantifier": "every kernel, bias, input/output width, mode, domain", "why_tests_cant": "for-all over weights and widths", "anchors": ["src/decomon/layers/decomon_layers.py:DecomonDense"]}
{"id": "C20", "title": "Convolution layer is sound", "statement": "DecomonConv2D maps valid bounds on its input image to valid bounds on the convolution for any stride, padding and dilation.", "quantifier": "every kernel, bias, image size, stride, dilation, padding, mode", "why_tests_cant": "for-all over weights, sizes and geometry", "anchors": ["src/decomon/layers/decomon_layers.py:DecomonConv2D"]}
{"id": "C21", "title": "Batch normalisation layer is sound", "statement": "DecomonBatchNormalization (inference) maps valid bounds to valid bounds on gamma*(z-mean)/sqrt(var+eps)+beta for gamma of any sign; training mode is refused.", "quantifier": "every parameter vectors with var >= 0, eps > 0, every mode", "why_tests_cant": "sign of gamma is per channel; for-all over parameters", "anchors": ["src/decomon/layers/decomon_layers.py:DecomonBatchNormalization"]}
{"id": "C22", "title": "Structural layers preserve and realign bounds", "statement": "DecomonFlatten, DecomonReshape, DecomonPermute, DecomonDropout and the linear activation map valid bounds on z to valid bounds on the reshaped/permuted/unchanged z: each output bound is attached to the right output entry.", "quantifier": "every shape, permutation and mode", "why_tests_cant": "index arithmetic for all ranks and shapes", "anchors": ["src/decomon/layers/decomon_reshape.py", "src/decomon/layers/decomon_layers.py:DecomonFlatten,DecomonDropout,DecomonActivation"]}
{"id": "C23", "title": "Concatenate and Dot merge layers are sound", "statement": "DecomonConcatenate and DecomonDot map valid bounds on the inputs to valid bounds on the concatenation / inner product along the requested axes.", "quantifier": "every number of inputs, shape, axis and mode", "why_tests_cant": "axis arithmetic for all ranks", "anchors": ["src/decomon/layers/decomon_merge_layers.py:DecomonConcatenate,DecomonDot", "src/decomon/layers/utils.py:permute_dimensions,broadcast,split,expand_dims"]}
{"id": "C24", "title": "Max-pooling layer is sound", "statement": "DecomonMaxPooling2D, in fast and exact modes, returns bounds enclosing max-pooling of any image within the input bounds, for any pool size, stride and padding.", "quantifier": "every image, pool size, stride, padding, mode", "why_tests_cant": "tests use square pools and positive data", "anchors": ["src/decomon/layers/maxpooling.py:DecomonMaxPooling2D"]}
{"id": "C25", "title": "Linear hulls of the max of a vector are valid", "statement": "get_upper_linear_hull_max / get_lower_linear_hull_max return affine functions above / below max(z_1..z_n) on the box [l,u], with or without fine-tuning coefficients in [0,1].", "quantifier": "every n, box and coefficients", "why_tests_cant": "for-all over boxes; one of the two is xfail in the test-suite", "anchors": ["src/decomon/layers/utils_pooling.py"]}
{"id": "C26", "title": "Difference-of-convex decomposition is preserved", "statement": "With dc_decomp=True, if the tensors h and g of the inputs are a convex and a concave function summing to the pre-activation, then so are the tensors returned by add, minus, relu_, maximum, minimum, max_, dense, flatten...", "quantifier": "every convex/concave pair, every operator, every input domain", "why_tests_cant": "convexity is a statement over all pairs of points and all weights in [0,1]", "anchors": ["src/decomon/utils.py:relu_,add,minus,maximum", "src/decomon/layers/utils.py:max_", "src/decomon/layers/decomon_layers.py:DecomonDense"]}
{"id": "C27", "title": "Fine-tuning constraints keep coefficients admissible", "statement": "After any sequence of optimiser updates followed by their constraints (NonPos, NonNeg, ClipAlpha, ClipAlphaGrid, ClipAlphaAndSumtoOne, MultipleConstraint) the coefficients satisfy the advertised set (sign, [0,1], partition of unity), constraints are idempotent and leave admissible values unchanged.", "quantifier": "every sequence of updates, every tensor", "why_tests_cant": "holds after every training history", "anchors": ["src/decomon/layers/utils.py:NonPos,NonNeg,ClipAlpha,ClipAlphaGrid,ClipAlphaAndSumtoOne,MultipleConstraint"]}
{"id": "C28", "title": "Backward composition of linear relaxations is sound", "statement": "merge_with_previous composes valid bounds of a layer with valid bounds downstream into valid bounds of the composition (diagonal or full weights), has the identity relaxation as neutral element and returns the advertised shapes; backward_linear_prod composes bounds on a domain of perturbation soundly, and its two functions have the values of merge_with_previous at every point of the domain.", "quantifier": "all widths, weights of any sign, all inner functions", "why_tests_cant": "for-all over matrices and over the functions bounded", "anchors": ["src/decomon/models/crown.py:merge_with_previous,MergeWithPrevious,Fuse", "src/decomon/backward_layers/utils.py:backward_linear_prod"]}
{"id": "C29", "title": "Backward activation layers are valid relaxations", "statement": "BackwardActivation for relu (all slopes, fine-tuned or not) returns diagonal weights and biases such that the relaxation encloses relu for each neuron within its bounds; activations without backward relaxation raise NotImplementedError.", "quantifier": "all bounds, slopes, coefficients, modes and numbers of neurons", "why_tests_cant": "for-all over reals", "anchors": ["src/decomon/backward_layers/activations.py:backward_relu", "src/decomon/backward_layers/backward_layers.py:BackwardActivation"]}
{"id": "C30", "title": "Backward linear layers are exact", "statement": "BackwardDense, BackwardConv2D, BackwardBatchNormalization, BackwardFlatten/Reshape/Dropout/InputLayer return weights and bias equal to the layer's affine map (same upper and lower).", "quantifier": "all kernels, biases, widths, geometries, repeated inputs", "why_tests_cant": "for-all over weights", "anchors": ["src/decomon/backward_layers/backward_layers.py", "src/decomon/backward_layers/utils_conv.py:get_toeplitz_channels_last,get_toeplitz_channels_first"]}
{"id": "C31", "title": "Backward permute is exact", "statement": "BackwardPermute returns the permutation matrix of keras Permute for any dims.", "quantifier": "every shape and permutation", "why_tests_cant": "tests use shapes on which a transposed matrix coincides", "anchors": ["src/decomon/backward_layers/backward_layers.py:BackwardPermute"]}
{"id": "C32", "title": "Backward binary merges are sound", "statement": "backward_add, backward_subtract, backward_maximum, backward_multiply (and BackwardAdd/Average/...) return, for each operand, affine bounds in that operand alone which enclose the downstream bound of the merged value whatever the other operand does within its bounds.", "quantifier": "all widths, downstream weights of any sign, operand bounds, number of averaged inputs", "why_tests_cant": "for-all over weights and functions", "anchors": ["src/decomon/backward_layers/utils.py:backward_add,backward_subtract,backward_maximum,backward_multiply,backward_linear_prod", "src/decomon/backward_layers/backward_merge.py"]}
{"id": "C33", "title": "Backward unary helpers are sound", "statement": "backward_minus, backward_scale, backward_minimum, backward_max_ and backward_sort return bounds on the composition of downstream bounds with -z, scale*z, min, max over an axis, sort.", "quantifier": "all downstream weights, any sign of the scale, any operand bounds", "why_tests_cant": "for-all over weights and sign of the scale", "anchors": ["src/decomon/backward_layers/utils.py:backward_minus,backward_scale,backward_minimum,backward_max_,backward_sort"]}
{"id": "C34", "title": "CROWN on a chain of layers is sound end to end", "statement": "For any sequential network of layers having sound backward relaxations, the bounds produced by the crown conversion (recursive backward pass from each node, then concretisation on the domain) enclose the network output on the whole domain, in ibp, affine and hybrid modes, with or without forward-computed intermediate bounds.", "quantifier": "any number of layers, widths, weights, any point of the box or ball domain", "why_tests_cant": "unbounded depth and for-all over inputs", "anchors": ["src/decomon/models/backward_cloning.py:crown_,get_input_nodes,crown_model,convert_backward", "src/decomon/models/crown.py:Convert2BackwardMode,Fuse"]}
{"id": "C35", "title": "Conversion between modes is sound", "statement": "Convert2Mode maps valid bounds in mode_from to valid bounds in mode_to for the nine pairs of modes, never loosens constant bounds, and is the identity on tensors when the modes are equal (up to tightening).", "quantifier": "nine pairs, all domains, dimensions and bounds", "why_tests_cant": "for-all over bounds and points", "anchors": ["src/decomon/models/utils.py:Convert2Mode"]}
{"id": "C36", "title": "Initial input tensors are valid bounds on the identity", "statement": "get_input_tensors builds, for each domain and (ibp, affine) pair, tensors in the advertised layout that are valid bounds of the identity function on the domain; unsupported domains raise NotImplementedError.", "quantifier": "box and p-balls, each mode, all dimensions", "why_tests_cant": "for-all over the points of the domain", "anchors": ["src/decomon/models/utils.py:get_input_tensors"]}
{"id": "C37", "title": "Conversion method table is consistent", "statement": "Each ConvertMethod determines (ibp, affine) and a feed direction consistent with its name; get_mode/get_ibp/get_affine are mutually inverse on the pairs used by clone and the number of output tensors of clone is that of its final mode.", "quantifier": "all methods and flag combinations", "why_tests_cant": "exhaustive finite table including flag pairs not covered by tests", "anchors": ["src/decomon/models/utils.py:get_ibp_affine_from_method,get_direction", "src/decomon/core.py:get_mode,get_ibp,get_affine", "src/decomon/models/convert.py:clone"]}
{"id": "C38", "title": "Forward conversion of a graph is sound end to end", "statement": "For any acyclic graph of layers whose forward operators are sound, converting the graph in forward mode yields, at every node, valid bounds of the function computed by the original model at this node over the whole input domain; in particular parents are always converted before their children.", "quantifier": "any DAG (any number of nodes, sharing, merges), all modes", "why_tests_cant": "unbounded graphs and for-all over inputs", "anchors": ["src/decomon/models/forward_cloning.py:convert_forward_functional_model", "src/decomon/models/utils.py:get_depth_dict"]}
{"id": "C39", "title": "The converted model has one bound tuple per original output", "statement": "convert_forward_functional_model and crown_model return the bounds of each output of the original model exactly once and in order.", "quantifier": "any DAG with any list of outputs", "why_tests_cant": "tests only use outputs of equal depth and distinct layers", "anchors": ["src/decomon/models/forward_cloning.py:convert_forward_functional_model", "src/decomon/models/utils.py:get_depth_dict", "src/decomon/models/backward_cloning.py:crown_model"]}
{"id": "C40", "title": "Splitting activations preserves the model function", "statement": "preprocess_keras_model / split_activation turn each layer with a non linear activation into the layer without activation followed by the activation, so that the rewritten chain computes the same function, shares its weights, and a second pass changes nothing.", "quantifier": "any chain of layers, any weights", "why_tests_cant": "function equality over all inputs and all chains", "anchors": ["src/decomon/models/utils.py:split_activation", "src/decomon/models/convert.py:preprocess_keras_model", "src/decomon/keras_utils.py:share_weights_and_build"]}
{"id": "C41", "title": "Converting a model does not alter the user's model", "statement": "clone leaves the function computed by the user's Keras model unchanged (including a final softmax activation).", "quantifier": "any model", "why_tests_cant": "side effect on a shared layer object visible only when the model is used after conversion", "anchors": ["src/decomon/layers/utils.py:softmax_to_linear,linear_to_softmax", "src/decomon/models/forward_cloning.py:convert_forward_functional_model", "src/decomon/models/backward_cloning.py:crown_model"]}
{"id": "C42", "title": "Layer conversion dispatch is total and explicit", "statement": "to_decomon / to_backward on any layer either returns the decomon/backward class of the layer's class name or raises: an unbuilt layer raises ValueError, an unknown class NotImplementedError; activation names resolve or raise and never silently yield a different activation.", "quantifier": "every class name and activation name", "why_tests_cant": "quantifies over all names, including ones absent from the tests", "anchors": ["src/decomon/layers/convert.py:to_decomon", "src/decomon/backward_layers/convert.py:to_backward", "src/decomon/layers/activations.py:deserialize,get", "src/decomon/backward_layers/activations.py:deserialize,get"]}
{"id": "C43", "title": "Freezing and unfreezing weights is reversible", "statement": "On a DecomonModel or layer, any sequence of freeze_weights/unfreeze_weights/freeze_alpha/unfreeze_alpha (and freeze_grid/unfreeze_grid of a backward activation) ends in the trainable set determined by the last freeze state of each group; unfreezing after freezing restores the initial trainable weights.", "quantifier": "any sequence of operations", "why_tests_cant": "stateful property over all histories", "anchors": ["src/decomon/layers/decomon_layers.py:freeze_weights,unfreeze_weights,freeze_alpha,unfreeze_alpha", "src/decomon/backward_layers/backward_layers.py:BackwardDense,BackwardActivation", "src/decomon/models/models.py:DecomonModel"]}
{"id": "C44", "title": "Changing the perturbation domain of a model is effective", "statement": "After DecomonModel.set_domain(d) with d of the same type, bounds computed by the model are valid on d; a domain of another type is rejected and leaves the model unchanged.", "quantifier": "any model, any pair of domains, any sequence of set_domain calls", "why_tests_cant": "requires tracking which component captured which domain", "anchors": ["src/decomon/models/models.py:set_domain,_check_domain", "src/decomon/models/utils.py:get_input_tensors", "src/decomon/core.py:InputsOutputsSpec"]}
{"id": "C45", "title": "Weight reset and sharing act on exactly the named weights", "statement": "reset_layer copies exactly the named weights and leaves all others unchanged, fails with an error when a layer is not built or a weight is not tracked, and share_weights_and_build makes later updates of the original visible in the new layer.", "quantifier": "any list of weights and names", "why_tests_cant": "quantifies over weight lists, duplicates and orders", "anchors": ["src/decomon/keras_utils.py:reset_layer,get_weight_index,share_weights_and_build"]}
{"id": "C46", "title": "A negative get_adv_box score is a robustness certificate", "statement": "With one-hot (0/1) source and target masks, get_adv_box returns for each sample the maximum over (target,source) pairs of an upper bound of f_target - f_source on the box (exactly the tightest of the available ones); hence a negative score excludes any adversarial point of the box, with or without batching and sub-boxes.", "quantifier": "any model bounds, batch, masks with at least one pair, box", "why_tests_cant": "for-all over points of the box", "anchors": ["src/decomon/wrapper.py:get_adv_box"]}
{"id": "C47", "title": "get_adv_box accepts integer labels", "statement": "As documented, get_adv_box(model, x_min, x_max, source_labels=k) with an integer label k (or an array of integer labels) and negative score certifies that class k stays predicted on the box.", "quantifier": "any number of samples and classes, any label", "why_tests_cant": "depends on arithmetic relation between the batch size and the number of classes", "anchors": ["src/decomon/wrapper.py:get_adv_box,prepare_labels"]}
{"id": "C48", "title": "A negative check_adv_box score is a robustness certificate", "statement": "As documented, if check_adv_box returns a negative value there is no adversarial example in the box.", "quantifier": "any bounds, masks, box", "why_tests_cant": "for-all over points of the box", "anchors": ["src/decomon/wrapper.py:check_adv_box"]}
{"id": "C49", "title": "get_range_box bounds the model on the box", "statement": "get_range_box / get_upper_box / get_lower_box return bounds enclosing every output of the model over the box, and the result does not depend on batch_size; an inconsistent box (x_max < x_min somewhere) is rejected.", "quantifier": "any batch, batch_size, number of sub-boxes, number of outputs", "why_tests_cant": "for-all over points, batch sizes and output widths", "anchors": ["src/decomon/wrapper.py:get_range_box,get_upper_box,get_lower_box"]}
{"id": "C50", "title": "refine_boxes covers the initial box", "statement": "refine_boxes returns, for every sample, a power of two (at most n_sub_boxes, more than half of it) of sub-boxes contained in the box and whose union is the box.", "quantifier": "any dimension, box, n_sub_boxes, input shape", "why_tests_cant": "coverage is a for-all over points; multi-dimensional inputs are not tested", "anchors": ["src/decomon/wrapper.py:refine_boxes"]}
{"id": "C51", "title": "refine_box splitting is sound", "statement": "refine_box(func, ...) with n_split parts evaluates func on sub-boxes covering the box and aggregates them into a valid bound, for deterministic and random splitting.", "quantifier": "any n_split, dimension, splitting choices", "why_tests_cant": "quantifies over random choices", "anchors": ["src/decomon/wrapper.py:refine_box"]}
{"id": "C52", "title": "get_range_noise bounds the model on the ball", "statement": "get_range_noise returns bounds enclosing every output of the model on the p-ball of radius eps, for p in {1,2,inf}, whatever the batching.", "quantifier": "any centre, radius, p, model bounds", "why_tests_cant": "for-all over the points of the ball", "anchors": ["src/decomon/wrapper.py:get_range_noise,_get_dual_ord"]}
{"id": "C53", "title": "A negative get_adv_noise score is a robustness certificate", "statement": "get_adv_noise returns, for models of each mode, a score whose negativity excludes adversarial points in the p-ball.", "quantifier": "any model mode, p, masks", "why_tests_cant": "mode combinations and norms not exercised by tests", "anchors": ["src/decomon/wrapper.py:get_adv_noise"]}
{"id": "C54", "title": "Tuning never degrades the reference bounds", "statement": "get_upper_box_tuning returns valid bounds at least as tight as the untuned upper bounds, get_lower_box_tuning at least as tight as the untuned lower bounds.", "quantifier": "any tuning history (any final coefficients in [0,1])", "why_tests_cant": "quantifies over training outcomes", "anchors": ["src/decomon/wrapper_with_tuning.py"]}
{"id": "C55", "title": "Certified cross-entropy loss is an upper bound", "statement": "DecomonLossFusion (non asymptotic) returns for every class i an upper bound over the domain of the cross-entropy -f_i + log sum_j exp f_j; the asymptotic version is an upper bound of max(max_{j != i} f_j - f_i, -1).", "quantifier": "any number of classes, bounds, point of the domain", "why_tests_cant": "transcendental inequality for all n", "anchors": ["src/decomon/metrics/loss.py:DecomonLossFusion"]}
{"id": "C56", "title": "Radius-robust loss certifies robustness", "statement": "A negative output of DecomonRadiusRobust for class i certifies that i is predicted at every point of the box.", "quantifier": "any box, number of classes, affine bounds", "why_tests_cant": "for-all over points of the box", "anchors": ["src/decomon/metrics/loss.py:DecomonRadiusRobust"]}
{"id": "C57", "title": "AdversarialScore / AdversarialCheck certify robustness", "statement": "A negative AdversarialScore (forward mode) excludes adversarial points in the domain; documentation claims the same for AdversarialCheck and for backward mode.", "quantifier": "any bounds, one-hot masks, modes", "why_tests_cant": "for-all over points of the domain", "anchors": ["src/decomon/metrics/metric.py:AdversarialCheck,AdversarialScore,_get_ibp_score,_get_affine_score,_get_backward_score"]}
{"id": "C58", "title": "Adversarial loss is an upper bound of the margin", "statement": "get_adv_loss (ibp, affine, hybrid; softmax=False) averages over the batch an upper bound of max_{t not source} f_t - f_source.", "quantifier": "any bounds, masks, number of classes, modes", "why_tests_cant": "for-all over points", "anchors": ["src/decomon/metrics/loss.py:get_adv_loss"]}
{"id": "C59", "title": "Loss packing and unpacking agree", "statement": "get_model packs the output tensors of a DecomonModel in one tensor, and the slices taken by get_upper_loss, get_lower_loss and get_adv_loss recover exactly x, w_u, b_u, w_l, b_l, u_c, l_c.", "quantifier": "any dimensions n_in, n_out, n_comp and modes", "why_tests_cant": "index arithmetic for all dimensions", "anchors": ["src/decomon/metrics/loss.py:get_model,get_upper_loss,get_lower_loss"]}
{"id": "C60", "title": "Symbolic categorical cross-entropy is sound", "statement": "categorical_cross_entropy maps valid bounds on logits to valid bounds on the cross-entropy for each class.", "quantifier": "any number of classes, modes, bounds", "why_tests_cant": "composition of transcendental relaxations for all reals", "anchors": ["src/decomon/metrics/utils.py:categorical_cross_entropy"]}
{"id": "C61", "title": "Forward split along an axis is sound", "statement": "split maps valid bounds on a tensor to one valid block of bounds per index of the axis, the c-th block bounding the c-th slice.", "quantifier": "every shape, axis, mode, set of inputs", "why_tests_cant": "unbounded ranks and axis lengths; index arithmetic must be right for every shape", "anchors": ["src/decomon/layers/utils.py:split", "src/decomon/layers/utils.py:expand_dims"]}
{"id": "C62", "title": "Batched identity and diagonal operators return what they announce", "statement": "BatchedIdentityLike(x) is, for every entry of the leading axes, the identity matrix of the size of the last axis; BatchedDiagLike(x) is the diagonal matrix of the last axis of x; the computed tensor has the shape announced by compute_output_spec.", "quantifier": "every rank and every shape", "why_tests_cant": "the tests use one rank; the announced shape is only compared with the computed one when a symbolic graph is run", "anchors": ["src/decomon/keras_utils.py:BatchedIdentityLike,BatchedDiagLike"]}
{"id": "C63", "title": "UpperScore bounds the weighted sum of the outputs", "statement": "The UpperScore layer returns an upper bound over the domain of sum_j y_j f_j; the documentation states that the score is negative or null when the maximum of the network is lower than the target y.", "quantifier": "any bounds, weights y, mode (ibp, affine, hybrid), forward or backward bounds, point of the domain", "why_tests_cant": "for-all over points of the domain and bounds", "anchors": ["src/decomon/metrics/metric.py:UpperScore,MetricLayer"]}
{"id": "C64", "title": "Forward bounds of a whole network contain the network", "statement": "For a Keras model built from Dense, Conv2D, BatchNormalization, Flatten, Reshape, Permute, Dropout, Activation, MaxPooling2D, Add, Average, Subtract, Multiply, Maximum, Minimum, Concatenate and Dot layers, clone with a forward method returns a model whose bounds, evaluated on a perturbation domain, contain the outputs of the network at every point of the domain.", "quantifier": "every network of these layers (any depth, widths, weights and connections between layers), every domain (box or ball), forward mode, output mode, point of the domain and output neuron", "why_tests_cant": "for-all over networks, weights and points of the domain; the tests compare bounds at sampled points of a few networks", "anchors": ["src/decomon/models/convert.py:clone", "src/decomon/models/forward_cloning.py:convert_forward", "src/decomon/layers/convert.py:to_decomon", "src/decomon/layers/decomon_layers.py", "src/decomon/layers/decomon_merge_layers.py", "src/decomon/layers/decomon_reshape.py", "src/decomon/layers/maxpooling.py"]}
{"id": "C65", "title": "Backward bounds of a whole network contain the network", "statement": "For a sequential Keras model built from Dense, Conv2D, BatchNormalization, Flatten, Reshape, Permute, Dropout and Activation layers, clone with a crown method returns bounds that contain the outputs of the network at every point of the domain.", "quantifier": "every such network (any depth, widths and weights), every domain, method (crown, crown-forward-*), output mode, point of the domain and output neuron", "why_tests_cant": "for-all over networks, weights and points of the domain", "anchors": ["src/decomon/models/convert.py:clone", "src/decomon/models/backward_cloning.py:convert_backward,crown_,get_input_nodes,crown_model", "src/decomon/backward_layers/convert.py:to_backward", "src/decomon/backward_layers/backward_layers.py"]}
{"id": "C66", "title": "No precision is lost on affine networks", "statement": "When every layer of the network is affine, the affine upper and lower bounds returned by clone are the network itself, and the constant bounds are its exact extrema over the domain.", "quantifier": "every network of affine layers (residual connections, averages, subtractions and concatenations included for the forward methods), every domain, method and output mode", "why_tests_cant": "for-all over networks and weights; tightness is an equality with an extremum over the domain, which sampling cannot show", "anchors": ["src/decomon/models/convert.py:clone", "src/decomon/models/forward_cloning.py:convert_forward", "src/decomon/models/backward_cloning.py:convert_backward", "src/decomon/layers/decomon_layers.py:DecomonDense,DecomonConv2D,DecomonBatchNormalization", "src/decomon/layers/decomon_merge_layers.py:DecomonAdd,DecomonAverage,DecomonSubtract,DecomonConcatenate"]}
{"id": "C67", "title": "Certificates given on a network are true of the network", "statement": "When the wrapper functions are applied to a Keras network (converted by clone with any method), a negative score of get_adv_box for a box means that no point of the box is adversarial, and the ranges of get_range_box and get_range_noise contain the outputs of the network on the box or the ball.", "quantifier": "every network of the supported layers (any graph, sizes and weights), every array of boxes or points, source and target labels, batch size, method, norm and radius; every point of the boxes and balls", "why_tests_cant": "a certificate is a for-all over an infinite set of inputs, for every network; sampling points cannot establish it", "anchors": ["src/decomon/wrapper.py:get_adv_box,get_range_box,get_range_noise", "src/decomon/models/convert.py:clone,convert", "src/decomon/models/models.py:DecomonModel"]}
{"id": "C68", "title": "Forward bounds of piecewise affine networks are right up to a multiple of epsilon", "statement": "Whatever the domain and the intermediate bounds, the bounds returned by clone with a forward method on a piecewise affine network (Dense, Conv2D, BatchNormalization, reshapes, relu, MaxPooling2D, Add, Average, Subtract, Maximum, Minimum, Concatenate) enclose the outputs of the network up to a constant times the Keras epsilon; the constant only depends on the layers and their weights, not on the inputs nor on the domain.", "quantifier": "every graph of these layers, all sizes, weights, slopes and finetuning coefficients, every box and ball (empty or degenerate ones included), the three forward modes and every final mode, every positive epsilon, every point of the domain", "why_tests_cant": "the enclosure fails by amounts of the order of epsilon on special boxes only (C64_refuted); that it never fails by more, for all weights and all domains, cannot be sampled", "anchors": ["src/decomon/models/convert.py:clone", "src/decomon/models/forward_cloning.py:convert_forward", "src/decomon/layers/utils.py:max_", "src/decomon/utils.py:relu_,get_linear_hull_relu,maximum", "src/decomon/layers/decomon_merge_layers.py:DecomonMaximum,DecomonMinimum,DecomonAdd"]}
{"id": "C69", "title": "CROWN bounds of piecewise affine networks are right up to a multiple of epsilon", "statement": "Whatever the domain and the intermediate bounds, the bounds returned by clone with a backward method (crown, crown-forward-ibp, crown-forward-affine, crown-forward-hybrid) on a chain or graph of Dense, Conv2D, BatchNormalization, reshapes, Dropout and relu layers enclose the outputs of the network up to a constant times the Keras epsilon; the constant only depends on the layers and their weights.", "quantifier": "every graph of these layers, all sizes, weights, slopes and finetuning coefficients, every box and ball (empty or degenerate ones included), every backward method and final mode, every positive epsilon, every point of the domain", "why_tests_cant": "the enclosure fails by amounts of the order of epsilon on special boxes only (C65_refuted); that the backward substitution never amplifies them beyond a factor fixed by the weights is a for-all over networks and domains", "anchors": ["src/decomon/models/convert.py:clone", "src/decomon/models/backward_cloning.py:convert_backward,crown_model,crown_", "src/decomon/backward_layers/backward_layers.py:BackwardDense,BackwardConv2D,BackwardActivation", "src/decomon/backward_layers/utils.py:backward_relu_", "src/decomon/layers/utils.py:merge_with_previous"]}
{"id": "C70", "title": "Certificates with a margin are true of relu networks, whatever the box", "statement": "When the wrapper functions are applied to a Keras network of piecewise affine layers converted by any method, a score of get_adv_box below minus a margin excludes adversarial points, and the ranges of get_range_box and get_range_noise widened by half this margin contain the outputs; the margin is a multiple of the Keras epsilon fixed by the weights of the network, and no condition on the boxes, on the balls or on the intermediate bounds is needed.", "quantifier": "every network of the piecewise affine layers the method accepts (any graph, sizes and weights), every array of boxes or points, source and target labels, batch size, number of sub-boxes (flat inputs), method, norm and radius; every point of the boxes and balls", "why_tests_cant": "a certificate is a for-all over an infinite set of inputs, for every network; the failures without the margin (C67_refuted) sit on boxes of the size of epsilon that sampling does not meet", "anchors": ["src/decomon/wrapper.py:get_adv_box,get_range_box,get_range_noise,refine_boxes", "src/decomon/models/convert.py:clone", "src/decomon/models/models.py:DecomonModel"]}
{"id": "C71", "title": "Bounds of an affine function on a regular grid", "statement": "get_lower_bound_grid on an affine function and a grid of n steps per coordinate of a box returns a number at most 0; it is 0 when the function is positive on the box; when the function is at most 0 somewhere on the grid, the number is one of its values on the grid, at a point where no single step on the grid gives a larger value at most 0, and it is either the maximum over the box or above minus one step of one coordinate. get_upper_bound_grid is the mirror image. The number is not always the largest value at most 0, as the comment of the code says, and the pair returned by get_bound_grid does not enclose the function on the grid.", "quantifier": "every affine function, box, dimension and number of steps", "why_tests_cant": "the value claimed is a maximum over exponentially many grid points, for every affine function", "anchors": ["src/decomon/utils.py:get_lower_bound_grid,get_upper_bound_grid,get_bound_grid,convert_lower_search_2_subset_sum,subset_sum_lower"]}
{"id": "C72", "title": "Changing the domain of a converted network", "statement": "After clone and any sequence of set_domain with domains of the same type, a model converted in affine mode (forward-affine, crown-forward-affine, without the fast approximation of pooling layers, affine outputs) predicts exactly what a new conversion with the last domain predicts. A model converted in interval mode predicts what it predicted before. For every method, when the last domain is inside the domain of the conversion (for instance a smaller ball), the predictions are valid bounds for the last domain, so get_range_noise on a DecomonModel with a radius at most the one of its conversion encloses the network; in affine mode it does so for every radius. A domain of another type is refused. With a larger radius the bounds are wrong in interval mode, in hybrid mode, with constant bounds at the output, and with fast pooling.", "quantifier": "every network, method, sequence of set_domain, sample", "why_tests_cant": "some objects of the converted graph keep the first domain and some read the new one; which of them matter depends on the method, the layers and the history", "anchors": ["src/decomon/models/models.py:DecomonModel.set_domain,_check_domain", "src/decomon/models/convert.py:clone", "src/decomon/layers/core.py:DecomonLayer", "src/decomon/models/utils.py:Convert2Mode,get_input_tensors", "src/decomon/models/crown.py:Convert2BackwardMode", "src/decomon/wrapper.py:get_range_noise"]}
{"id": "C73", "title": "Rounding errors", "statement": "The theorems about bounds suppose real numbers. When every call of a converted forward model (interval, affine or hybrid mode) returns entries within d of what it returns on real numbers, the outputs are bounds of the network up to the margin (E + 1)(epsilon + d r), where E depends only on the weights of the layers (net_error: product of the gains, as in C68) and r is 1 in interval mode and 1 + n X for n inputs between -X and X otherwise; in interval mode epsilon is not in the margin, and the activations sigmoid, tanh, softsign and softplus are covered too. If the predictions of the network have an error d' at each layer, they are between the bounds up to the same margin with d' added, and a class whose lower bound exceeds the upper bound of another by twice the margin is preferred on the whole domain, also by the rounded predictions. No multiple of d that does not depend on the weights is enough. For the methods crown and crown-forward-xxx (any mode and final conversion, one output), when each call of the backward pass is within d (backward layers, products, fusion, conversions), the outputs are bounds up to the margin F (epsilon + d (1 + W Y)), where F depends only on the gains of the layers and on W d (crown_error), W is the largest number of neurons of a node and Y bounds the values of the nodes on the domain; the same two consequences hold for rounded predictions and for decisions. Without margin the statement is false for every d > 0.", "quantifier": "every network of the piecewise affine layers, domain, mode, sample, and every way of rounding inside the calls", "why_tests_cant": "the errors depend on the order of the operations chosen by the backend and add up through layers", "anchors": ["src/decomon/layers/decomon_layers.py", "src/decomon/layers/activations.py", "src/decomon/layers/decomon_merge_layers.py", "src/decomon/models/convert.py:clone", "src/decomon/models/utils.py:Convert2Mode,get_input_tensors", "src/decomon/models/backward_cloning.py:crown_,get_input_nodes,crown_model,convert_backward", "src/decomon/models/crown.py:MergeWithPrevious,Fuse,Convert2BackwardMode"]}
{"id": "C74", "title": "Interval bounds in binary32", "statement": "For networks of Dense, Conv2D, Add, Average and Subtract layers, relu and linear activations, max pooling, Flatten, Reshape, Permute, Dropout and Concatenate converted with method forward-ibp on a box and computed in binary32 (every sum and product rounded to nearest, inner products added in any order, fused operations allowed, no overflow), the bounds enclose the network up to (E + 1) e and the binary32 predictions of the network up to twice that, where E depends on the weights (C73) and e = ((1+u)^(k+2) - 1) A + (2N+2)(1+u)^(k+2) eta with u = 2^-24, eta = 2^-150, k and N bounds of the numbers of operations on a path and in an inner product and of the number of inputs of the merges, A a bound of the sums of absolute values met by the layers. If the backend uses one order for each length, the lower bound never exceeds the upper bound, and when the weights of each neuron have one sign the predictions are between the bounds without any margin. With BatchNormalization, Maximum and Minimum layers too the bounds enclose the network up to (E + 1) e, e a bound of the explicit errors of all the layers, and with these and Multiply the lower bound never exceeds the upper bound. In general a margin is needed: for x0 - x1 + x2 at (1, 1, 2^-25) the upper bound is 0 while the network and its binary32 prediction are 2^-25.", "quantifier": "every such network, box, order of the additions, point of the box", "why_tests_cant": "the order of the additions is the choice of the backend and the cases where rounding exchanges a bound and a value are rare", "anchors": ["src/decomon/layers/decomon_layers.py:DecomonDense.call", "src/decomon/layers/decomon_layers.py:DecomonConv2D.call", "src/decomon/layers/decomon_merge_layers.py:DecomonAdd.call", "src/decomon/layers/activations.py:relu", "src/decomon/models/convert.py:clone", "src/decomon/layers/decomon_layers.py:DecomonBatchNormalization.call", "src/decomon/layers/decomon_merge_layers.py:DecomonMaximum.call"]}
{"id": "C75", "title": "Announced shapes are the shapes returned", "statement": "The shapes that converted layers announce to Keras (compute_output_shape, used to build every model) are those of the tensors their call returns, namely the tuple of bounds of the Keras output shape: x, then values of the output shape and weights with the input dimension in front of it. This holds for Dense (any rank), Flatten, Reshape, Permute, relu, sigmoid, tanh, softsign, exponential, softplus, softmax, Dropout, BatchNormalization, Add, Average, Subtract, Maximum, Minimum, Multiply and Concatenate, in the three modes, with or without dc_decomp, for boxes and balls, for any batch size, axes of any number and positive sizes, through whole networks, and for a layer converted alone from the shapes of its Keras inputs. It fails for the change of mode from ibp unless the domain is a box and the tensor has the shape of the input of the model, for Concatenate along a negative axis other than -1 in the affine modes, for weights given as a diagonal, for elementwise merging layers on operands of different ranks, for Dot on two vectors, and merging layers, BatchNormalization and curved activations with dc_decomp announce shapes but raise when called.", "quantifier": "every such layer, network, mode, domain, batch size and shapes", "why_tests_cant": "ranks and dimensions are unbounded and a wrong announced shape shows only when a later layer reads it", "anchors": ["src/decomon/layers/core.py:DecomonLayer.compute_output_shape", "src/decomon/layers/decomon_merge_layers.py:DecomonMerge.compute_output_shape", "src/decomon/models/utils.py:Convert2Mode.compute_output_shape", "src/decomon/core.py:InputsOutputsSpec.get_fullinputshapes_from_inputshapesformode", "src/decomon/layers/convert.py:_prepare_input_tensors"]}
{"id": "C76", "title": "Tighter inputs never loosen interval bounds", "statement": "With method forward-ibp, the bounds of the output of a network on a domain (box or ball) are inside its bounds on any domain that contains it; hence get_range_box on a box inside another returns bounds inside, whatever the batches, and asking for sub-boxes (n_sub_boxes, one output) never loosens the bounds of get_range_box and keeps them valid. The constant bounds of forward-hybrid are inside those of forward-ibp on the same or a larger domain, for networks whose layers meet the conditions of C64 or are piecewise affine, with max pooling in fast mode. None of this holds of forward-affine or, from one domain to another, of forward-hybrid (a larger box can have a better lower bound), and max pooling without fast makes hybrid bounds looser than interval ones.", "quantifier": "every network of C46, domains, pairs of nested domains, batches of boxes, batch sizes and numbers of sub-boxes", "why_tests_cant": "compares two runs for all pairs of nested domains, all weights and all depths", "anchors": ["src/decomon/models/convert.py:clone", "src/decomon/models/forward_cloning.py:convert_forward", "src/decomon/wrapper.py:get_range_box", "src/decomon/wrapper.py:refine_boxes", "src/decomon/layers/decomon_layers.py:DecomonDense.call", "src/decomon/layers/maxpooling.py:DecomonMaxPooling2D.call"]}
{"id": "C77", "title": "A layer rebuilt from its configuration", "statement": "Every layer of decomon, rebuilt by from_config from what its get_config returns, has the same options as before (domain, mode, dc_decomp, finetune, shared, fast, its own options and the parameters of the Keras layer), and rebuilding again changes nothing; after a change of domain the rebuilt layer is the layer made for the new domain and its bounds are valid on it. to_decomon and to_backward honour the options they are given. Perturbation domains, metric layers and the layers of the conversion also come back the same. Exceptions to find: options that a configuration does not record.", "quantifier": "every class of layer, every set of keyword arguments accepted by its constructor, every domain, every input of the rebuilt layer", "why_tests_cant": "ranges over all combinations of arguments and over all inputs of the rebuilt layers; the tests of the project rebuild a few layers with default options", "anchors": ["src/decomon/layers/core.py:DecomonLayer.get_config", "src/decomon/layers/decomon_layers.py:DecomonActivation", "src/decomon/layers/convert.py:to_decomon", "src/decomon/backward_layers/core.py:BackwardLayer.get_config", "src/decomon/backward_layers/convert.py:to_backward", "src/decomon/models/utils.py:Convert2Mode.get_config", "src/decomon/metrics/metric.py:MetricLayer.get_config", "src/decomon/core.py:PerturbationDomain.get_config"]}
{"id": "C78", "title": "A sample's bounds do not depend on its batch", "statement": "A cloned model is called on a batch. The bounds it returns for one sample are those it returns for the same sample in any other batch, of any size and at any position, and they are the bounds of that sample alone; so every sample of the batch gets valid bounds for its own domain. This concerns the tensors as decomon handles them, with their batch axis: broadcasts, reductions along an axis, batched products, reshapes, identity and diagonal matrices. Merging two backward bounds (crown) is also done sample by sample.", "quantifier": "every batch size and position, every domain (box or ball) per sample, every mode and final mode, every network of Dense (blocks of any rank), BatchNormalization (any axis), relu with any slope and finetuning, linear, Dropout, Flatten, Reshape, Permute, Add, Average, Subtract, Maximum, Minimum with one output, all weights", "why_tests_cant": "tests compare one batch with its own samples on a few networks; here all batches, sizes and networks are compared", "anchors": ["src/decomon/core.py: get_upper_box, get_lower_box, get_upper_ball, get_lower_ball, InputsOutputsSpec", "src/decomon/utils.py: get_linear_hull_relu, add, minus, subtract, relu_, maximum", "src/decomon/layers/decomon_merge_layers.py", "src/decomon/layers/decomon_layers.py: DecomonDense.call, DecomonFlatten.call, DecomonReshape.call", "src/decomon/models/utils.py: get_input_tensors, Convert2Mode.call", "src/decomon/models/crown.py: merge_with_previous"]}
{"id": "C79", "title": "Crown on a batch gives each sample its own bounds", "statement": "A model cloned with crown, or with crown-forward-ibp, -affine or -hybrid, is called on a batch. Each sample gets the bounds it would get alone: the backward pass, with its batched products, repeated kernels, diagonal weights and fused backward bounds, never mixes samples, and the result does not depend on the batch, its size or the position of the sample. So, for every sample, the value of the network lies between the returned bounds on the sample's own domain. A valid network whose layers act on blocks of any rank is not refused.", "quantifier": "every batch size and position, every domain per sample, every mode and final mode, with or without forward bounds, every chain of Dense, BatchNormalization, relu (any slope, finetuned or not), linear, Dropout, Flatten, Reshape, Permute with any weights and block shapes", "why_tests_cant": "tests run a few networks on a few batches and check the samples separately; no finite set of batches and networks shows that no entry of another sample is ever used", "anchors": ["src/decomon/backward_layers/backward_layers.py: BackwardDense, BackwardActivation, BackwardReshape, BackwardFlatten, BackwardDropout", "src/decomon/backward_layers/activations.py: backward_relu", "src/decomon/models/crown.py: Fuse, Convert2BackwardMode, MergeWithPrevious", "src/decomon/models/backward_cloning.py: crown_, get_input_nodes, crown_model, convert_backward", "src/decomon/models/convert.py: clone"]}
{"id": "C80", "title": "The converted model computes with the weights of the model given, then and later", "statement": "After clone, every converted layer computes with the values of the weights of the Keras layer it comes from, and the Keras model is left as it was. With shared weights (the default) this stays true whatever values the weights take afterwards: the model may be trained after the conversion and the bounds are those of the trained model. Without sharing, the converted model keeps the values at the time of the conversion, and an update of one model never reaches the other. A layer used at several places is converted once.", "quantifier": "every network of Dense, Conv2D, BatchNormalization (with or without bias, center, scale) and layers without weights, any order of creation of the variables, every value of the weights at the conversion and afterwards, shared or not, every domain", "why_tests_cant": "tests convert a model and compare immediately with a few weights; whether two layers hold the same variables only shows after an update, and histories of updates are unbounded", "anchors": ["src/decomon/layers/convert.py: to_decomon, _to_decomon_wo_input_init", "src/decomon/layers/decomon_layers.py: DecomonDense.share_weights, DecomonConv2D.share_weights, DecomonDense.build, DecomonConv2D.build, DecomonBatchNormalization.build, keras_weights_names", "src/decomon/layers/core.py: DecomonLayer.share_weights, DecomonLayer.reset_layer, DecomonLayer.build", "src/decomon/keras_utils.py: reset_layer, get_weight_index_from_name", "src/decomon/models/forward_cloning.py: convert_forward_functional_model"]}
{"id": "C81", "title": "A model that Keras accepts is converted: the layers of the converted model have distinct names", "statement": "clone returns a Keras model. Its layers are named after those of the model given, so that each name designates one layer, whatever the names of the layers of the model, also when a layer is called several times or an activation layer is shared by several layers, for every method. (Names of inputs that end with an underscore and a number apart, see C41.)", "quantifier": "every model (any number of layers, any names, any sharing of layers and of activation layers), every method", "why_tests_cant": "tests convert a few models with default names and one call per layer; clashes depend on the names chosen by users and on which layers they share", "anchors": ["src/decomon/layers/convert.py: to_decomon, _to_decomon_wo_input_init", "src/decomon/backward_layers/convert.py: to_backward", "src/decomon/models/forward_cloning.py: convert_forward_functional_model", "src/decomon/models/backward_cloning.py: retrieve_layer, crown_, get_input_nodes", "src/decomon/models/convert.py: convert, clone", "src/decomon/models/utils.py: split_activation"]}
{"id": "C82", "title": "The parameters of a grid domain can be retrieved", "statement": "get_grid_params(model) returns the variables A and B of every activation of the backward pass of a model cloned over a grid domain with option milp, and get_grid_slope(model) the slopes of every relu when the model is cloned with finetune; the key is the name of the activation layer.", "quantifier": "every model (any number of layers, any names), every method and mode", "why_tests_cant": "the repository has no test of these functions; the result depends on the names of all the layers of the converted model", "anchors": ["src/decomon/models/models.py: get_AB, get_AB_finetune", "src/decomon/__init__.py: get_grid_params, get_grid_slope", "src/decomon/backward_layers/convert.py: to_backward", "src/decomon/backward_layers/backward_layers.py: BackwardActivation.build"]}
{"id": "C83", "title": "Merge layers on computer arithmetic: Maximum, Minimum and Multiply", "statement": "In interval mode, the bounds returned by the converted Maximum, Minimum and Multiply layers, computed in floating point, contain the value of the layer for all inputs between the bounds given: exactly, or at least up to a margin of the order of the rounding unit times the size of the numbers computed. The lower bound is at most the upper bound.", "quantifier": "every number of inputs and of neurons, every bounds of the inputs, every arithmetic with a bounded relative and absolute error (binary32 in particular)", "why_tests_cant": "tests compare with a tolerance on a few boxes of ordinary numbers; the failures occur at particular numbers whose sizes differ", "anchors": ["src/decomon/utils.py: maximum, minimum, subtract, add, relu_, minus", "src/decomon/layers/utils.py: multiply", "src/decomon/layers/decomon_merge_layers.py: DecomonMaximum.call, DecomonMinimum.call, DecomonMultiply.call"]}
{"id": "C84", "title": "The relaxation of relu on computer arithmetic", "statement": "The two lines that bound relu over [l, u] (forward modes affine and hybrid, crown), computed in floating point, are above and below relu over [l, u]: exactly, or at least up to a margin of the order of the rounding unit times u.", "quantifier": "every l and u, every slope, every value of the finetuned slopes between 0 and 1, every arithmetic with bounded errors (binary32 in particular)", "why_tests_cant": "tests compare with a tolerance on a few boxes; rounding errors depend on the numbers", "anchors": ["src/decomon/utils.py: get_linear_hull_relu"]}
{"id": "C85", "title": "Forward-affine bounds on computer arithmetic", "statement": "The affine bounds returned by a model converted with method forward-affine, and the constant bounds computed from them, enclose the outputs of the network over the box when every operation is rounded: exactly, or at least up to a margin given by the rounding unit, epsilon() and the weights.", "quantifier": "every network of Dense, Conv2D, relu and reshaping layers, every weight, every box, every slope and finetuned slope between 0 and 1, every order of the sums, every point of the box", "why_tests_cant": "tests compare with a tolerance on small networks; rounding errors depend on the numbers, on the sizes and on the order of the sums chosen by the backend", "anchors": ["src/decomon/utils.py: relu_, get_linear_hull_relu", "src/decomon/core.py: get_upper_box, get_lower_box", "src/decomon/layers/decomon_layers.py: DecomonDense.call, DecomonConv2D.call", "src/decomon/models/utils.py: Convert2Mode"]}
{"id": "C86", "title": "Crown bounds on computer arithmetic", "statement": "The constant bounds returned by a model converted with method crown or crown-forward-ibp enclose the outputs of the network over the box when every operation is rounded, for the network on real numbers and for its predictions computed with the same arithmetic: exactly, or at least up to a margin given by the rounding unit, epsilon(), the weights and the sizes of the numbers; a class preferred by more than twice the margin is preferred on the whole box.", "quantifier": "every sequential network of Dense, Conv2D, BatchNormalization, relu and reshaping layers, every weight, every box, every slope and finetuned slope between 0 and 1, every order of the sums, every point of the box", "why_tests_cant": "tests compare with a tolerance on small networks; rounding errors depend on the numbers, on the depth and on the order of the sums chosen by the backend", "anchors": ["src/decomon/models/crown.py: merge_with_previous, Convert2BackwardMode, Fuse", "src/decomon/models/backward_cloning.py: crown_, get_input_nodes, crown_model", "src/decomon/backward_layers/activations.py: backward_relu", "src/decomon/core.py: get_upper_box, get_lower_box", "src/decomon/utils.py: get_linear_hull_relu"]}
{"id": "C87", "title": "Complexity counts every layer call once", "statement": "get_graph_complexity(model) is the number of calls of layers of the model other than inputs and Lambda layers: each call once, whatever the depth Keras gives to it; it does not depend on the order in which the model was built nor on its edges; it is at least the number of layers and equal to it exactly when no layer is called twice; one more call adds one; a nested model is one call whatever it contains.", "quantifier": "every graph of layers, with shared layers, several branches and nested models", "why_tests_cant": "depths depend on the whole graph and on shared layers; a test checks a few graphs", "anchors": ["src/decomon/metrics/complexity.py: get_graph_complexity"]}
{"id": "C88", "title": "Options given to a conversion reach the layers", "statement": "The slope, the perturbation domain, the mode of the method, finetune (with finetune_forward and finetune_backward), shared and dc_decomp given to clone or convert_forward / convert_backward are those with which every layer is converted, by the default functions and by a layer_fn given by the user that accepts them; a layer_fn that is not a function is refused; a layer_fn of the layer only is called with the layer.", "quantifier": "every method, every value of the options, every function given as layer_fn (names, defaults and ** parameter of its signature)", "why_tests_cant": "options pass through four functions with their own defaults; losing one gives a valid conversion with other options, and tests use the default layer_fn", "anchors": ["src/decomon/models/forward_cloning.py: include_dim_layer_fn, convert_forward", "src/decomon/models/backward_cloning.py: crown_model, convert_backward", "src/decomon/models/convert.py: convert, clone", "src/decomon/layers/convert.py: to_decomon", "src/decomon/backward_layers/convert.py: to_backward"]}
{"id": "C89", "title": "The network that is bounded is the user's network without its final softmax", "statement": "clone bounds the network given by the user, without the softmax that ends its last layer if there is one: softmax of the outputs of the network converted are the outputs of the model; nothing else is removed.", "quantifier": "every chain of layers, with activations given by name or as layers, every function computed by the layers, every input", "why_tests_cant": "the rewriting works on shared layer objects; which calls it changes depends on how objects are shared in the user's model", "anchors": ["src/decomon/layers/utils.py: softmax_to_linear", "src/decomon/models/convert.py: preprocess_keras_model, _clone_keras_model", "src/decomon/models/utils.py: split_activation, preprocess_layer", "src/decomon/models/forward_cloning.py: convert_forward_functional_model"]}
