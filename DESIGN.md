# Formal model of airbus/decomon — design

## 1. What is modelled and how

decomon computes, for a Keras network `f` and a perturbation domain `D`, constant and affine
functions enclosing `f` on `D` (LiRPA: forward IBP / affine / hybrid, and backward CROWN).
The model is a set of Gallina functions which follow the Python functions one by one (same
branches, same order of tensors, same special cases, exceptions as values), each carrying a
comment with the file and lines it mirrors.

* **Numbers** are Coq's real numbers `R`. Floating point rounding, NaN/inf, dtypes and
  `K.epsilon()`'s concrete value are not modelled: epsilon is a positive parameter.
* **Tensors** are index functions with explicit sizes (`vec := nat -> R`, `mat := nat -> nat -> R`,
  `w i j` = weight of input coordinate `i` in neuron `j`). All tensor operators of decomon act sample by
  sample, so the batch axis is dropped, except where batching itself is the subject (wrapper, labels, and C78, which relates the two views).
  A multi-dimensional neuron block is seen through its flattened index; operators working along an
  axis get an (outer, axis) index.
* **Errors** are values of a result type `Ok _ | Err e` (ValueError, NotImplementedError, KeyError...).
* **Structural code** (layout of tensors lists, graph traversal, freeze state, dispatch, wrapper
  batching, labels) is modelled over `nat`/`list`, executable by `vm_compute`.

Three layers of files:

| kind | files | content |
|---|---|---|
| library | `RLib.v` | sums, sign, clip, argmax... over `R`: generic maths, no decomon |
| model | `M_*.v` | definitions mirroring the code, no proof |
| specification | `Spec.v` | domains as sets of points, reference semantics of operators, `valid bound` predicates; does not mention the model |
| proofs | `P_*.v` | lemmas |
| theorems | `Properties_*.v` | one theorem per claim, closed by `exact`, with `Print Assumptions` and an `Example` showing a concrete non trivial instance |

## 2. Trusted base

* Coq 8.16.1 kernel; `coqchk` re-checks the compiled files.
* Axioms: only those of the standard library's reals, as printed by `Print Assumptions` under each theorem
  (`ClassicalDedekindReals.sig_forall_dec`, `ClassicalDedekindReals.sig_not_dec`,
  `FunctionalExtensionality.functional_extensionality_dep`; some analysis lemmas also use `Classical_Prop.classic`).
  Structural theorems are closed under the global context.
* The hand-made correspondence between the Python text and the model (section 4 lists what is left out).

## 3. Plan per property

Notation: *sound op* = "valid bounds in implies valid bounds out" where validity is
`forall x in D, l_c j <= f x j <= u_c j /\ w_l.x+b_l <= f x j <= w_u.x+b_u` restricted to the mode's fields.

| id | modelled | proof |
|---|---|---|
| C01 | get_upper_box, get_lower_box | sum of per-coordinate extrema; explicit corner |
| C02 | get_upper_ball, get_lower_ball, get_lq_norm | Hoelder for (1,inf), Cauchy-Schwarz for 2, explicit maximiser |
| C03 | the two finetune functions with kwargs as options | lower: sum of two valid bounds; upper: refuted by a 1-d witness; what it returns (maximum over the box plus minimum over the ball) and the largest possible error, 2 eps times the dual norm of the weights of the ball (Properties_Finetune) |
| C04 | InputsOutputsSpec index arithmetic on lists | case analysis on mode, induction on k |
| C05 | get_fullinputs_from_inputsformode | from C01/C02 and min/max |
| C06 | ..._to_merge, with list aliasing made explicit | equality except affine+flag; refuted there |
| C07 | get_linear_hull_relu | case split on signs; refuted for crossing intervals shorter than epsilon, with an error bound |
| C08 | relu_ | from C07 and monotonicity |
| C09-C14 | the operators of utils.py and layers/utils.py | per neuron inequalities, inductions on axis length; convexity of exp/concavity of log by MVT |
| C15 | s-shape hull, grid search kept abstract as "argmin" | chord/constant cases by concavity/convexity; tangent case refuted (a secant that is not tangent crosses the curve) |
| C16-C18 | softplus_, softmax, frac_pos, abs | refuted by witnesses, ibp parts proved |
| C19-C24 | layers | sums with sign split; geometry as index maps |
| C25 | utils_pooling | lower proved, upper refuted |
| C26 | h,g fields as functions of the point | convexity closed under max, sum, non negative scaling |
| C27 | constraints | clip algebra, op-list invariant |
| C28-C33 | backward layers | composition lemma; witnesses for the unsound ones; backward_linear_prod, which nothing calls, has the values of the composition on the domain (M_LinearProd, P_LinearProd) |
| C34 | crown_, get_input_nodes, crown_model on graphs given in topological order | induction on the node number, invariant on the input map |
| C35-C37 | models/utils.py | case analysis |
| C38-C39 | get_depth_dict + convert_forward_functional_model on DAGs | invariant "map output is valid for every processed node"; counter-example graphs for outputs |
| C40-C45, C62 | object state: layers as records in a heap; reset_layer_all_weights and share_layer_all_weights (M_AllWeights) | op-list invariants |
| C46-C54 | wrapper.py, wrapper_with_tuning.py | max/min over masks, batching by chunks, bisection coverage; clones of Dense and relu layers as instances |
| C55-C60, C63 | metrics | log-sum-exp monotonicity, layout arithmetic, maxima over pairs of classes; broken variants refuted on one- and two-input networks |
| C64-C66 | M_Network: the decomon and the backward layer of each Keras layer, assembled on a network given as a list of layers with their parents | the layer theorems plugged into C34 and C38; exactness: equal upper and lower weights kept by every affine layer, and products of exact backward weights |
| C67 | M_Clone: clone from its arguments (name of the method, final_ibp, final_affine, domain) to the DecomonModel of M_Wrapper | C64, C65 give the hypothesis `sound_on` of C46, C49, C52 |
| C68 | as C64; Spec_Near: bounds off by e (`near`), amplification of an error by a layer (`nl_gain`) and by a network (`net_slack`) | each layer maps bounds off by e to bounds off by gain (e + epsilon), without condition on the bounds (P_Near); induction on the graph; C68_factor_needed: the factor must depend on the weights |
| C69 | as C65; Spec_Near | each backward layer on bounds off by e is a relaxation off by le, with column sums of its slopes at most G and le + G e at most gain (e + epsilon); columns of a product multiply (P_NearCrown); induction along the graph; C69_factor_needed |
| C70 | as C67 | C68 and C69 through the proofs of C46, C49, C52 with a margin (P_CloneNear); C70_example_certified: a case where the certificate applies |
| C71 | utils.py 79-124 (M_Grid) | the running sums of the sorted copies are taken until one exceeds the target, so what is taken is a number of steps of each coordinate (P_Grid); counterexample (2, 3) with target 3 for the largest value |
| C72 | the converted graph with two domains, the attribute which set_domain replaces and the one of the conversion (M_Domain); clone (M_Clone) predicts with the domain of the model | outside hybrid mode only fast pooling reads the old domain, hence equality with a new conversion; a domain inside the old one: every tensor stays valid for the old domain and its first tensor for the new one (P_Domain); then C46-C55 through P_WrapperNoise; `C72_inside_near`, `C72_noise_near`, `C72_noise_affine_near` (P_DomainNear): the same on every piecewise affine network without the interval conditions, up to net_slack * epsilon as in C68/C69 |
| C73 | a run of a converted forward model: any assignment of tensors such that each call is within d of its value on real numbers (M_Rounding); the rounded evaluation of the network (Spec_Rounding) | C68 with the error of each call added: tensors within d of bounds with margin e are bounds with margin e + d r (P_Rounding); the network is Lipschitz layer by layer (P_Lipschitz). Crown methods: runs of the backward pass (M_RoundingCrown) where each backward layer, product, fusion and conversion is within d; the margin of a relaxation is split into what its columns multiply and what the products add (P_RoundingCrown). Interval mode: also sigmoid, tanh, softsign, softplus, which are increasing with slope at most 1 (P_RoundingCurved) |
| C74 | DecomonDense.call, DecomonConv2D.call and the calls of DecomonAdd, DecomonAverage and DecomonSubtract in interval mode, the same layers of Keras, with rounded operations; evaluation trees for the inner products, sums from the first input to the last (Spec_Float, M_Float); binary32 from Flocq without its largest value; DecomonBatchNormalization.call in interval mode with rounded operations and whole networks with BatchNormalization, Maximum, Minimum and Multiply (M_FloatNet) | error of a tree by induction on it; each call is then a call of C73 with an explicit d; monotone roundings: induction on the tree and on the network (P_Float32) |
| C75 | compute_output_shape of DecomonLayer, DecomonMerge and Convert2Mode, get_fullinputshapes, _prepare_input_tensors, get_layer_input_shape, and the call of seventeen layers on shapes (Spec_Shapes, M_Shapes) | both sides equal the tuple of the specification, layer by layer; networks by induction on the nodes |
| C76 | no new code: the forward conversion of C64 and get_range_box of C67 run on two domains; `inside` compares constant bounds (Spec_Inclusion) | every layer preserves `inside` between a run in ibp or hybrid mode and a run in ibp mode (P_Inclusion), then induction on the nodes; the input bounds are the extreme coordinates; with sub-boxes the result is the result of one part |
| C77 | constructors and get_config of the 18 forward classes, the two layers of loss.py, the backward classes, Convert2Mode, Convert2BackwardMode, MetricLayer and the domains, as functions from keyword arguments to attributes (M_Config); to_decomon, to_backward | lookups in a dictionary after pop and update; the constructor is described by its results (`layer_init_ok`), then run on its own configuration; bounds from C46/C72 (`layer_domains`) |
| C78 | the same code with the batch axis: core.py (bounds of boxes and balls, get_fullinputs), utils.py (add, minus, subtract, relu_, maximum, get_linear_hull_relu), Dense (with the branch on identity weights), BatchNormalization, Flatten, Reshape, Permute (with K.permute_dimensions and the rnn over the rows of the weights), merge layers, get_input_tensors, Convert2Mode, clone, merge_with_previous of crown.py, over tensors that are a shape and entries in row-major order (Spec_Batch, M_Batch) | each operation of Keras (broadcast, reduce, dot, batch_dot, reshape, rnn, diag) acts on sample b alone (P_Batch); each decomon function refines its model on one sample; both graphs evaluated together; bounds from C64 |
| C79 | the backward pass with the batch axis: BackwardDense, BackwardActivation (relu), BackwardBatchNormalization, BackwardPermute, BackwardReshape/Flatten/Dropout, identity weights, merge_with_previous, Fuse, Convert2BackwardMode, crown_, get_input_nodes, crown_model, convert_backward, clone (M_BatchCrown) | as C78: each step refines its model on one sample (P_BatchCrown), graphs evaluated together; validity by C68/C69 (bounds up to net_slack * epsilon) | `C79_crown_partial`, `C79_independent`, `C79_near`, `C79_constants`, `C79_from_ibp` (the constants after ibp: input box, zero weights, valid offsets), refuted for Dense, BatchNormalization and Permute on blocks, finetuned relu on blocks, ibp to an affine mode |
| C80 | to_decomon on the variables: share_weights, build (add_weight), reset_layer, keras_weights_names of Dense, Conv2D, BatchNormalization and layers without weights; one conversion per layer object (M_Weights on the variables of M_State) | the new layer holds variables of the original or fresh ones, distinct, of the same shapes; reset_layer by C45; a network read off the values of the variables (Spec_Weights), then C64 | `C80_converts`, `C80_values`, `C80_shared`, `C80_copy`, `C80_apart`, `C80_bounds_ibp`, `C80_bounds_free`; refuted for BatchNormalization, which is copied even when shared |
| C81 | the layer objects of the DecomonModel and their names: to_decomon, the renaming at each call, retrieve_layer and to_backward, the name check of keras.Model (M_Names on the objects of M_State) | the objects called by the preprocessed model, by induction on the nodes (P_Names): called once iff every object of the user is used once; names ending with the number of a call are distinct, and differ from names ending with _backward | `C81_forward`, `C81_crown`; refuted for crown methods on a layer used twice |
| C82 | get_AB, get_AB_finetune and the attributes they read (layer, rec, grid_finetune, alpha_b_l) on the layers of C81 (M_GridParams) | names of converted layers contain "backward_activation" only if a name of the user contains it or ends with "backward" (strings, by induction on the conversion); the dictionary by induction on the layers | `C82_params`, `C82_slope`, `C82_error`; `C82_empty_refuted`, `C82_relu_refuted` |
| C83 | DecomonMaximum.call, DecomonMinimum.call and DecomonMultiply.call in interval mode on any number of inputs, with rounded operations (M_FloatMerge) | one step: bounds of the rounding errors of a difference and a sum, or of three products, a sum and a difference; the endpoints moved by the error of the previous step; induction on the inputs |
| C84 | get_linear_hull_relu on one neuron, with rounded operations (M_FloatHull) | the errors at the two ends of the box, then convexity of relu; lower slopes in [0, 1] by monotone rounding |
| C85 | forward-affine on a box with rounded operations (M_FloatAffine): Dense, Conv2D, relu, Flatten, Reshape, Permute, Dropout, linear; final lines or constants | induction on the graph: lines enclose the node up to an error; for relu the errors of the bounds of the lines, of the hull (also on intervals shorter than epsilon()) and of the composition |
| C86 | crown and crown-forward-ibp in interval mode on a box with rounded operations (M_FloatCrown): Dense, Conv2D, relu, BatchNormalization, Flatten, Reshape, Permute, Dropout, linear | a run in binary32 is a run with errors (C73) of a clone whose finetune parameters are the computed slopes of the lower lines of relu; the error of each call: inner products of merge_with_previous, bounds of the lines, upper line of relu, line of BatchNormalization |
| C87 | get_graph_complexity (M_Complexity) on the graphs of M_Convert | the nodes listed depth by depth are a permutation of all the nodes |
| C88 | options of clone, convert, convert_forward, convert_backward and crown_model on their way to the functions that convert layers (M_LayerFn); calls of Python functions with keywords | each layer of functions is unfolded; a call succeeds iff the function accepts the keywords |
| C89 | preprocess_keras_model and softmax_to_linear on layer objects (M_State, M_Names): the function of the network converted | the objects replacing a layer compute the same function; the last object is the one that holds the softmax |

A property that is false of the faithful model keeps its user-level statement in `properties.jsonl`;
the model then has a theorem `..._refuted` exhibiting the failing input, plus the strongest positive
statement found. These are findings about the code and are listed in section 5.

## 4. Not modelled

TensorFlow/Keras themselves (ops are interpreted by their mathematical meaning), floating point (except C73, C74 and C83-C86), GPU, training loops (only their effect: any
value of the coefficients), saved files (`get_config` is in C77), plotting notebooks, tutorials.

In the backward layers: the constructors of BackwardDot and BackwardMaxPooling2D
raise; Convert2BackwardMode in ibp mode with a ball is an error in `crown_model` (the shapes do not match with three
inputs or more; `upper_rank3` in M_Convert says what broadcasting computes with one or two inputs); the caches of `crown_`; the
effect of `softmax_to_linear` on nested models (clone flattens them first, so only in direct calls of convert_forward).

Conversion of models: Keras's own depth computation (`map_graph`) is transcribed in `kdepths` and trusted; names of
layers are numbers (`fn_op`) when outputs are looked up; `tensor_index` of a multi-output node is ignored by the code and by
the model; `layer_map` and the cached converted layers have no effect on the bounds and are left out.

Object state (C41-C45): a layer object is its name, class and activation; the nodes of the model are the list of the
layers they call, in conversion order, without nested models. Freezing: the theorems are about the list
`_trainable_weights` which the code reads and writes; how Keras combines it with its own tracker is not modelled. set_domain: models
made of Dense and relu layers in sequence, forward methods. Weights: a variable is a number in a store; Keras's tracking of assigned attributes and
the order of `layer.weights` are transcribed in `set_attr`, `build_layer` and trusted.

User functions (C46-C54): M_Wrapper. Arrays keep their batch axis as a list of rows; `reshape`, `concatenate` and slicing are functions on
these lists. The model argument is a record holding flags, shape and the outputs for one sample as a function of the current
domain and the input; the theorems assume these outputs sound (`sound_on`, `sound_around`), and `seq_model` shows that
clones of Dense and relu layers are. Left out: several Decomon outputs, the tensor C of back bounds for
get_range_box (refused by the code), outputs with several axes in the
adversarial scores, numpy broadcasting of boxes of different shapes. Tuning: the training is any function of the coefficients. `Adam(lr=...)` in
wrapper_with_tuning.py is rejected by Keras 3, which is outside the model: the theorems speak of the code around it.

Losses and metrics (C55-C60, C63): M_Metrics. Outputs with one axis after the batch axis (C60: any axes). Left out: softmax inside the losses on a ball in
the affine modes (an error in the model; its input has one axis too many), training itself, metric layers fed without the extra leading tensor in
the affine and hybrid modes (tensors are then read in the wrong positions; in ibp mode the error is C57_layout), the names and inputs
of the Keras models returned by the builders.

Whole networks (C64-C66): M_Network. Seventeen kinds of Keras layers, one output (several in Properties_Outputs: the bounds returned are those of the first output of the list at the end of a longest path), one input shared by all the input nodes, no layer used twice, no nested
model (the graph theorems C34 and C38 have them; the instances here do not). Left out: softmax, the activations not listed in `Spec_Network.activation`,
UpSampling2D, ZeroPadding2D and the other layers without a decomon version, the backward pass through merges and pooling (the code raises: C34).
`nl_gaps` and `bl_gaps` are the hypotheses under which activations, maxima and pooling are sound (intervals of width 0 or at least epsilon, and for
S-shaped functions on one side of 0); they speak of the bounds computed at each node.

From end to end (C67): M_Clone. Back_bounds are left out; the splitting of activations and the replacement of a final softmax are C40 and C41.
`clone_fits`, `clone_gaps`, `clone_ready`, `ball_ready` (P_Clone, P_CloneThm) gather the conditions of C64 and C65 for each method.

Up to an error (C68): `near` is `valid` with a margin e on each side and needs no model definition. The theorem replaces the interval conditions of C64
(`nl_gaps`), false of some inputs, by a margin `net_slack net * epsilon`. It covers the piecewise affine layers; the margin is not optimal.

Backward methods up to an error (C69, C70): the scope is `bl_ok` without the curved activations (sigmoid, tanh, softsign). `clone_set` says which method was called and that it accepts the layers; it has no condition on values.
The margin of C70 is 2 `net_slack` epsilon; with the epsilon of Keras (1e-7) and weights of moderate size it is far below the differences of scores that matter, but no bound holds for all weights (C69_factor_needed). C67_refuted stays: without a margin the default certificate is wrong.
Grid (C71): weights of full rank, one column at a time. The one caller is `relu_` on a GridDomain (utils.py:377-420), a class which does not define the abstract methods of PerturbationDomain and cannot be instantiated; that branch is not modelled.

Change of domain (C72): M_Domain follows the reads of `self.perturbation_domain` (new) and of `self.inputs_outputs_spec` (old) layer by layer; Convert2BackwardMode and the backward
activations read the attribute; the input tensors and Convert2Mode are those of the conversion. That Keras runs the modified layers again (no cached function) is assumed, as everywhere in this model.

Rounding (C73): the error d of one call is a hypothesis: what the calls of the backend guarantee is not modelled except in C74. The scope is the one of C68 and C69 (piecewise affine layers, and in interval mode the activations sigmoid, tanh, softsign and softplus; forward methods, crown and crown-forward-xxx with one output); for the crown methods the margin uses a bound Y on the values of the nodes over the domain, which exists when the domain is bounded, and in interval mode the two corners of the input are copied without error; overflow and NaN are excluded by the fact that entries are real numbers.

Floating point (C74): interval mode only; inner products (Dense, Conv2D) and sums (Add, Average, Subtract) are rounded, layers that copy or compare entries (activations relu and linear, Flatten, Reshape, Permute, Dropout, Concatenate, MaxPooling) are exact: the filters of max pooling have a single 1. The first addition 0 + x of Python's `sum` is exact. BatchNormalization, Maximum and Minimum are added in M_FloatNet (`C74_network_…`): the interval mode of BatchNormalization is written out in lines 846-850 and each operation is rounded, the square root included; for the predictions of Keras, whose K.batch_normalization evaluates the affine form in an order chosen by the backend, the error of each layer is a hypothesis E'. Multiply is in the network theorem about the order of the bounds only, since the margin of C73 needs layers with a Lipschitz constant. Dot and the curved activations are left out. `rnd32` is the rounding of Flocq to 24 bits with the smallest positive number 2^-149 and no largest one: overflow, infinities and NaN are not modelled. The axioms are those of the standard library's real numbers (Flocq adds none). The trees cover pairwise, blocked and sequential sums and fused multiply-add, not reduced-precision products (TF32, bfloat16).

Shapes (C75): shapes are lists of known or unknown sizes; the operations of Keras on shapes (broadcast, dot, reshape, transpose, concatenate, rnn) are modelled by their documented rules, errors as ValueError. The layers are those of `slayer` (Dense, Flatten, Reshape, Permute, relu, sigmoid with tanh and softsign, exponential with softplus, softmax along the last axis, Dropout, BatchNormalization, Add, Average, Subtract, Maximum, Minimum, Multiply, Concatenate; the elementwise merges with broadcasting; Keras computes their shape apart from the batch, `keras_elementwise`); Dot on two vectors is apart (`keras_dot`, `call_dot`); the kernel of Dense is built from the announced shape. Axes of size 0 are excluded where a reshape divides by them. compute_output_shape of the backward layers is in C28 (merge_with_previous) and otherwise not modelled.

Inclusion (C76): layers and networks are those of C46/C64; product layers (Multiply, Dot) need bounds that hold, which C64 gives. The comparison of crown methods with each other or with forward methods is not stated: backward relaxations choose slopes from the bounds and are not monotone (as `C76_affine_refuted` for one relu).

Configurations (C77): M_Config. Keras is trusted for its own part: a class has parameters, refuses unknown keywords (ValueError) and missing ones (TypeError), and its configuration lists the values of its parameters; the normalisation of these values (kernel_size=3 read as (3, 3), functions read as names) and the weights are not modelled. Booleans and integers outside their annotated type are an exception of the model only. Fuse and MergeWithPrevious (lists of layers and shapes kept as such) and the revival of a whole DecomonModel by Keras are not modelled; frozen_weights, frozen_alpha, has_backward_bounds, which no configuration records, are those of C45.

Batches (C78): M_Batch. The operations of keras are modelled on row-major entries with broadcasting of axes of length 1 and errors (ValueError) on incompatible shapes. This justifies, for these layers, the convention of §1 that the other models drop the batch axis; Conv2D, pooling, Concatenate, Multiply, Dot, the smooth activations, the backward layers other than merge_with_previous and dc_decomp are not in M_Batch. The merge layers read the tuple of each input rather than slices by type (the two agree: `merge_by_type_ok` of P_Merge). K.identity weights and the constant 0 of relu are broadcast as in the code.

Batched backward pass (C79): M_BatchCrown, on chains of the layers of C78 with one input. Every backward layer is modelled with the shapes it computes: BackwardDense builds its block-diagonal kernel from the axes of its last input (backward_layers.py:72-97); without forward bounds this input comes from Convert2BackwardMode, which has flattened the block, so the kernel is not repeated and the merge fails; BackwardBatchNormalization, which reshapes its coefficients to the rank of that input (backward_layers.py, call), and BackwardPermute, which exchanges the axes of the layer, fail in the same way. The per-sample model of C65 gives BackwardDense the number of blocks of the layer, so it does not see this error, nor the broadcast error of the coefficients of a finetuned relu on a block; where C79's condition on blocks holds the two models agree (`C79_crown_partial`). The batch size is taken as a number (`y.shape[0]` in the code). Not in M_BatchCrown: merge layers (which branch the backward pass), Conv2D, and final tensors reshaped by the caller. `C78_near` (Properties_BatchCrown) completes C78: with the bounds of Spec_Near the three forward modes need no condition on relu, maximum and minimum.

Weights (C80): M_Weights. A session is a store of variables and the number of the next one; training is any change of the values of the store. `LDFixed` stands for every layer without weights. The attribute `kernel` is identified with the hidden `_kernel` that newer versions of Keras use (as in M_State); versions of Keras in which Conv2D.kernel cannot be assigned are not modelled. Initial values are any function. The backward layers read the variables of the Keras layer (BatchNormalization) or of a decomon layer converted with shared=True (Dense, Conv2D), so they always see the current values: after training, a crown-forward model with BatchNormalization mixes forward bounds of the old layer with backward bounds of the new one; only the forward part of this is stated (`C80_batchnorm_refuted`). PReLU's alpha and the alphas of finetuning are not among these weights.

Shared layers (M_Shared, P_Shared): a graph gives each node the number of the layer it calls, and several nodes may call one layer. Keras (and get_depth_dict) gives every call of a layer the largest depth of its calls met so far, so the order of the nodes matters. When the calls come in the order of their distance to the end (`in_order`: always so in a sequential model, and in a siamese network whose branches have the same length) the depths are those of distinct layers and every method returns what it returns for distinct layers (`C64_shared_same`), so C64, C65 and C80 apply with layers called several times. `C39_values_or_error` needs no condition on the calls. For the crown methods this concerns the tensors: the model that holds them cannot be built when a layer is called twice (C81).

Names (C81): M_Names. Layers whose name Keras chooses (inputs, Convert2Mode, Fuse, MergeWithPrevious, Convert2BackwardMode) are left out: Keras numbers them. A layer of the class Softmax is excluded from the theorems (`no_softmax`). keras.Model refuses two layers of the same name ("All operation names should be unique").

Grid parameters (C82): M_GridParams. The layers whose name Keras chooses are left out as in C81 (none contains "backward_activation"). `name.split(p)` has more than one part iff p occurs in name. The attributes are those of BackwardActivation over a GridDomain with opt_option milp; whether such a domain is otherwise usable is not part of the claim.

Merge layers in floating point (C83): M_FloatMerge, one neuron at a time as a pair (upper, lower). K.maximum, K.minimum, K.relu and negations do not round. A is a bound of the inputs and of the successive outputs of the layer. With m inputs the margin is iterated m - 1 times: the error of the previous output counts twice in `maximum` (it subtracts the lower bound and adds the upper bound), and 3 A times in `multiply`. The exact calls are those of M_MergeLayers and M_Ops (`C83_exact_…`). Networks with these layers: `C74_network_…`. Dot is not covered, nor overflow.

Relaxation of relu in floating point (C84): M_FloatHull. The products by the indices 0 and 1 and the sums with 0 do not round. The composition of these lines with the weights of the inputs (utils.py:387-394) is in M_FloatAffine.

Forward-affine mode in floating point (C85): M_FloatAffine, for a box. The sum of get_upper_box and get_lower_box is an inner product of 2n terms, in any order. Not modelled: merges, BatchNormalization, pooling and curved activations in this mode, hybrid mode, balls, overflow. The hypothesis 2^-150 <= 2^-24 epsilon() holds for the default 1e-7.

The methods crown and crown-forward-ibp in floating point (C86): M_FloatCrown, interval mode (the only mode of these methods: models/utils.py:42-53), final bounds also constant (the default of clone), one box, one output. The products of merge_with_previous are inner products in any order; every layer may be called several times, as the code does when it computes the bounds of each node. BatchNormalization: its weight and its constant are computed with rounded operations, the predictions of the model are then taken with an error per layer. The forward pass of crown-forward-ibp is a run of M_FloatNet, whose BatchNormalizations are rounded as in C74; E is the error of its layers. Not modelled in this way: curved activations, merges, crown-forward-affine and crown-forward-hybrid, overflow. For crown-forward-ibp the box is made of numbers of the arithmetic; the upper bounds of its forward pass then are (C86_forward_numbers).

Complexity (C87): M_Complexity. The class of an operation (InputLayer, Lambda or another) is a function of its number; depths are those of `kdepths`.

Options (C88): M_LayerFn. A function is known by the names of its parameters (with or without a default), its ** parameter, its local variables and whether it has `__code__`; functions with * parameters, parameters only positional and keyword names for the first parameter other than its own are left out. A call is represented by the keywords received. Slopes and methods are given as members of their enumerations; clone drops its other keywords (`extra`), a misspelt option included.

Final softmax (C89): on the objects of M_State and M_Names: chains of layers, a layer computes a function that depends on its class (its weights included) followed by its activation; V, core and act are any. The last layer of the preprocessed model (`model.layers[-1]`) is the last one called; Keras sorts layers by their greatest depth, so this is so for chains whose last layer is used once and for the witness of `C89_shared_refuted` (depths 3 and 2). A final layer of the class Softmax is excluded.

## 5. Findings

Every finding is a machine-checked theorem whose name ends in `_refuted`; the line says what the code does.

| property | theorem(s) | what happens in the code |
|---|---|---|
| C03 | `C03_ball_finetune_upper_refuted` | the fine-tuned upper bound over a ball uses the wrong sign and can be below the true value |
| C06 | `C06_merge_affine_refuted` | get_fullinputs_by_type with compute_ibp_from_affine in affine mode appends to aliased lists, so the constant bounds returned for the first input are wrong |
| C07, C08, C10 | `C07_relu_hull_short_refuted`, `C08_relu_short_refuted`, `C10_maximum_short_refuted` | a crossing interval shorter than Keras epsilon gives an upper line below relu (error at most epsilon, `C07_relu_hull_slack`) |
| C12 | `C12_sum_negative_axis_refuted` | with axis = -2 (or any negative axis but -1) the weights are reduced along another axis than the biases |
| C12 | `C12_min_dc_refuted` | `min_` raises ValueError on every input with a dc decomposition |
| C13 | `C13_negative_axis_refuted` | sort along axis -2 in the affine modes: the weights are cut and glued along another axis than the biases (layers/utils.py:748-775), so exchanged rows get wrong weights |
| C13 | `C13_short_refuted` | sort inherits the upper line of relu on crossing intervals shorter than epsilon (C07, C10) |
| C14 | `C14_exp_short_refuted`, `C14_log_small_refuted` | exp upper line on intervals shorter than epsilon; log lower line when the lower bound is below epsilon |
| C15 | `C15_s_shape_crossing_refuted` | sigmoid, tanh and softsign: on every interval around 0 one of the two affine bounds crosses the curve, because the 100-point grid search never returns a tangency point |
| C16 | `C16_softplus_refuted`, `C16_softplus_adaptive_refuted` | the softplus hull evaluates softsign; A_SLOPE raises ValueError |
| C16, C29 | `C16_softplus_everywhere_refuted`, `C29_softplus_everywhere_refuted` | not only at particular boxes: for every box [a, b] the upper line of softplus is below softplus at a and at b (softsign instead of softplus, and 0 when b <= 0) |
| C17 | `C17_softmax_refuted`, `C17_frac_pos_affine_refuted` | the softmax layer bounds softmax(-x); the affine upper bound of 1/z is wrong on every interval at least epsilon wide |
| C17 | `C17_frac_pos_hull_refuted` | layers/utils.py frac_pos_hull never returns: K.power is called without an exponent |
| C18 | `C18_abs_refuted` | abs returns the bounds of its argument |
| C19 | `C19_dense_back_bias_refuted`, `C19_dense_back_identity_refuted` | Dense with a backward matrix sums bias * matrix along the wrong axis; on an identity input the affine weights ignore the matrix |
| C22 | `C22_flatten_channels_first_refuted` | Flatten with channels_first transposes the biases and constants but not the affine weights |
| C23 | `C23_concatenate_axis_refuted`, `C23_dot_axis_refuted` | a negative concatenation axis other than -1 selects another axis for the weights; a positive Dot axis on a block of rank >= 2 leaves the weights unpermuted |
| C24 | `C24_max_pooling_refuted`, `C24_pool_size_error` | "same" padding pools zeros, non-square pools leave zero filters; pools higher than wide raise IndexError |
| C25 | `C25_upper_line_unsound_refuted`, `C25_upper_hull_refuted`, `C25_lower_hull_refuted` | the upper hull is below the maximum as soon as one coordinate alone decides it; fine-tuned lower hulls with different coefficients are above it |
| C27 | `C27_sum_to_one_shape_refuted` | ClipAlphaAndSumtoOne returns a tensor of another shape |
| C28 | `C28_shapes_diagonal_refuted` | merging diagonal weights works, but `compute_output_shape` raises ValueError on them |
| C29 | `C29_relu_short_refuted`, `C29_s_shaped_crossing_refuted`, `C29_softplus_refuted`, `C29_shape_refuted` | same hulls as C07, C15, C16; backward sigmoid, tanh and softplus do not flatten a block with several axes |
| C30 | `C30_conv2d_channels_first_refuted`, `C30_conv2d_channels_first_error`, `C30_conv2d_not_square`, `C30_flatten_channels_first_refuted` | channels_first convolutions take their patches from a channels_last image, without strides or dilation; non-square kernels raise ValueError; Flatten channels_first is the identity |
| C31 | `C31_permute_refuted` | BackwardPermute reshapes the transposed identity with the shape before permutation |
| C32 | `C32_multiply_refuted`, `C32_minimum_layer_max_refuted`, `C32_average_layer_refuted`, `C32_concatenate_layer_refuted` | products have weights of rank 4; Minimum bounds the maximum; Average forgets one input from the third on; Concatenate uses the size of its last input only |
| C33 | `C33_minus_refuted`, `C33_scale_negative_refuted`, `C33_minimum_refuted`, `C33_max_axis_refuted`, `C33_sort_refuted` | minus and negative scales exchange the two bounds; max over an axis sums one bound per entry; sort returns weights of another shape |
| C34 | `C34_nested_model_inner_refuted`, `C34_merge_raises` | the bounds of what follows a nested model are dropped (keyword mismatch); any merge on the way to the input raises NotImplementedError |
| C34 | `C34_ball_error`, `C34_ball_refuted` | the default method (crown, ibp mode) over a ball builds a tensor of rank 3: shape error with three inputs or more, wrong bounds with one |
| C35 | `C35_from_ibp_refuted`, `C35_from_ibp_shapes_refuted` | from ibp to affine/hybrid in the forward methods, the first tensor is the box of the outputs, not the input domain |
| C37 | `C37_final_flags_refuted`, `C37_name_case_refuted` | final_ibp = final_affine = False returns affine tensors; clone resolves the method name before lowering it |
| C38, C40 | `C38_nested_inputs_refuted`, `C40_nested_inputs_refuted`, `C40_nested_outputs_refuted` | each input of a nested model receives the tensors of all its inputs (an inner Add counts everything twice); a node reading one output of a nested model receives all of them |
| C39 | `C39_first_output_only_refuted`, `C39_dropped_output_refuted`, `C39_shared_layer_refuted`, `C39_two_depths_refuted`, `C39_call_order_refuted` | clone of a model with several outputs returns the bounds of the first deepest output only; outputs that are not deepest are dropped; a layer called twice duplicates the outputs; a layer called at two depths raises KeyError: always when it is called at i and later (in the order of the nodes) at j with the longest path to i and the longest path from j together longer than any path (C39_call_order_refuted; the converse, that in-order calls are converted, is C39_shared_outputs) |
| C41 | `C41_softmax_refuted`, `C41_softmax_lost` | clone turns a final softmax of the user's own model into a linear activation and never restores it |
| C41 | `C41_names_refuted`, `C41_names_grow`, `C41_clash_refuted` | clone renames the layers of the user's model, once per call; an input layer whose name ends with `_<number>` can clash with a new name |
| C42 | `C42_groupsort_refuted`, `C42_activation_dropped_refuted` | the entry GroupSort2 is compared with a lower-cased name; to_decomon on a layer with an activation drops it |
| C43 | `C43_backward_dense_refuted`, `C43_backward_activation_refuted`, `C43_backward_activation_ibp_refuted`, `C43_grid_refuted`, `C43_reset_backward_refuted` | unfreeze_weights does not restore the weights of BackwardDense/BackwardConv2D; freeze_alpha raises AttributeError as soon as the model holds a BackwardActivation without finetuning, and does nothing in ibp mode; with a grid it freezes a grid variable instead of alpha; reset_finetuning does not reach backward layers |
| C43 | `C43_grid_finetune_refuted` | BackwardActivation.freeze_grid drops the first two trainable weights; with fine-tuning the first is alpha: one variable of the grid stays trainable, and after unfreeze_grid alpha is lost and that variable is listed twice |
| C44 | `C44_ibp_refuted`, `C44_hybrid_refuted`, `C44_ibp_ignored` | set_domain with a larger ball: the radius was already used to build the input tensors and the specs of the layers, so the bounds are those of the old radius |
| C45 | `C45_share_refuted` | share_weights_and_build untracks a named weight which build does not create |
| C62 | `C62_diag_refuted` | BatchedDiagLike flattens all the axes but the first: another shape than announced from three axes on |
| C46, C49, C50 | `C50_axes_refuted`, `C50_axes`, `C49_sub_boxes_axes_refuted`, `C46_sub_boxes_refuted` | refine_boxes, inputs with several axes: x_max is overwritten with x_min (line 765), so the sub-boxes are the single point x_min; ranges and certificates computed with n_sub_boxes > 1 are wrong |
| C49 | `C49_sub_boxes_refuted` | get_range_box with sub-boxes and several outputs: the reduction mixes outputs and sub-boxes |
| C46 | `C46_back_partial` | models with back bounds: the column of the source itself is zero, so the score is never negative |
| C47 | `C47_error_refuted`, `C47_ignored_refuted`, `C47_certificate_refuted` | integer labels are used as 0/1 masks: refused unless the number of samples is the number of classes, and then meaningless (false certificates) |
| C48 | `C48_refuted`, `C48_target_refuted` | check_adv_box takes lower bounds of the targets minus upper bounds of the sources: a negative value excludes nothing; target_labels are ignored |
| C51 | `C51_range_refuted`, `C51_random_refuted`, `C51_adv_classes_refuted`, `C51_adv_samples_refuted`, `C51_check_classes_refuted` | refine_box never works with get_range_box, with random splitting (randint(0)), or with adversarial scores unless there is one sample and the number of parts divides the number of classes |
| C52 | `C52_larger_refuted`, `C52_negative_refuted` | a radius larger than at the conversion is ignored in ibp mode; a negative radius, which keeps the domain of the model, is used as it is |
| C53 | `C53_larger_refuted`, `C53_affine_refuted`, `C53_keras_refuted`, `C53_targets_refuted` | get_adv_noise: false certificates for larger radii in ibp mode, NotImplementedError in the affine modes (misplaced else), AttributeError for Keras models, ValueError with targets and batches |
| C54 | `C54_lower_refuted`, `C54_lower_lost_refuted`, `C54_sub_boxes_refuted`, `C54_sub_boxes_rows_refuted` | get_lower_box_tuning takes the minimum with the untuned lower bound: tuning can only loosen it; with sub-boxes training fails or the rows are those of the sub-boxes |
| C55 | `C55_backward_refuted`, `C55_build_ball_refuted`, `C55_build_ball`, `C55_errors` | the backward cross-entropy layer returns a softmax, at most 1; build_crossentropy_model ignores the domain of the model: the centre of a ball is read as a box (IndexError with one input); the asymptotic layer raises TypeError when the batch size is unknown |
| C57 | `C57_check_refuted`, `C57_backward_refuted`, `C57_build_refuted`, `C57_layout`, `C57_score_ibp_loose_refuted` | AdversarialCheck, and AdversarialScore in backward mode, exchange upper and lower bounds: negative values with adversarial points; the builders read `decomon_model.mode`, which does not exist; the layers drop one tensor; in ibp mode AdversarialScore ignores a positive lower bound of the class |
| C58 | `C58_hybrid_refuted`, `C58_hybrid_range`, `C58_ball_refused` | get_adv_loss in hybrid mode applies softmax to the bounds whatever the argument; balls are refused or misread |
| C59 | `C59_ball_refuted`, `C59_ball_refused` | the losses give the domain of a ball a tensor with an axis too many |
| C60 | `C60_ball_refuted`, `C60_ball_error` | categorical_cross_entropy does not pass the domain to sum: wrong upper bounds on balls in hybrid mode |
| C61 | `C61_negative_axis_refuted`, `C61_negative_axis_error` | split along a negative axis other than -1 in the affine modes cuts the weights along the next axis (layers/utils.py:695-698): wrong slices, or ValueError when the lengths differ |
| C63 | `C63_affine_refuted`, `C63_negative_refuted`, `C63_target_refuted` | UpperScore raises in affine mode (six tensors for four names), bounds a weighted sum only for nonnegative weights, and is not what its documentation says |
| C64 | `C64_refuted` | forward-affine: the upper bound of relu over an interval shorter than epsilon lies below relu, on a complete network, for every epsilon |
| C65 | `C65_refuted` | the same with crown |
| C64, C65 | `C64_second_output_refuted`, `C65_second_output_refuted` | a network with outputs y and 2 y: clone returns the bounds of the first output only (convert2mode reads one tuple), in every method, also when the mode does not change |
| C66 | `C66_ibp_refuted` | forward-ibp does not see that the branches of a merge depend on the same input (expected of intervals: a limit, not a defect) |
| C67 | `C67_refuted` | `get_adv_box` on a Keras model (default method crown) returns a negative score although the box contains an adversarial point: (relu y, 3 epsilon / 16) on a box of half-width epsilon / 4 |
| C71 | `C71_largest_refuted`, `C71_enclose_refuted` | the subset sum takes the smallest weights first and misses the largest value at most 0; the pair (upper, lower) does not enclose the function on the grid |
| C72 | `C72_noise_ibp_refuted`, `C72_noise_hybrid_refuted`, `C72_noise_final_refuted`, `C72_noise_fast_refuted` | get_range_noise on a DecomonModel with a radius larger than the one of its conversion: the upper bound is below a value of the network (forward-ibp, crown-forward-hybrid, crown-forward-affine with constant outputs, forward-affine with fast pooling) |
| C73 | `C73_factor_refuted` | a run whose calls are within d of real numbers, in interval mode: the upper bound is below a value of the network by more than K d, for any K fixed before the weights |
| C73 | `C73_crown_refuted` | crown in interval mode, y on the box [0, 1]: for every d > 0 a run whose calls are within d of real numbers and whose upper bound is below a value of the network |
| C74 | `C74_margin_refuted` | forward-ibp in binary32 on x0 - x1 + x2 at (1, 1, 2^-25), adding from left to right: the upper bound is 0, the network and its prediction in binary32 are 2^-25. The kernel is split into its positive and negative parts, so 2^-25 is added to 1 before 1 is subtracted |
| C75 | `C75_convert_ibp`, `C75_convert_image_refuted`, `C75_convert_hidden_refuted` | models/utils.py:313-347 Convert2Mode from ibp to affine or hybrid: the call builds x from the constant bounds, shape (batch, 2) + shape of the tensor; the announced shape is that of the input of the model. They agree exactly when the domain is a box and the tensor has shape (model_input_dim,) |
| C75 | `C75_concat_axis_refuted`, `C75_concat_odd` | Concatenate along a negative axis other than -1 in affine modes: op_w adds 1 to the axis, so the weights are concatenated along the next axis (or the call raises) and do not have the announced shape |
| C75 | `C75_dc_merge_refuted`, `C75_prepare_dc` | Add, Average, Subtract, Maximum, Minimum, Multiply, Concatenate, BatchNormalization, sigmoid, tanh, softsign, exponential, softplus and softmax with dc_decomp announce shapes, so the model is built, and raise NotImplementedError when called |
| C75 | `C75_rank_refuted`, `C75_rank_batch` | Add, Average, Subtract, Maximum, Minimum and Multiply of operands of different ranks, which Keras aligns after the batch axis: the model is built with the shapes of Keras, but the calls (decomon_merge_layers.py:118-398, 510-537) combine the tensors without adding the missing axes, so they raise, or, for Add in interval mode on a batch of the size of the axis in front, broadcast the batch axis of the small operand along an axis of the large one |
| C75 | `C75_dot_refuted` | Dot of two vectors: Keras announces (batch, 1); Dot.call sums the products along axis 1 and returns (batch,), with weights (batch, n) in place of (batch, n, 1), so the next layer gets a tensor of another rank |
| C75 | `C75_diagonal_reshape_refuted`, `C75_diagonal_dense` | weights given as a diagonal (rank of the offsets), which the calls accept: Reshape and Permute return a diagonal where full weights are announced; Dense returns one row per entry of the layer input where one per entry of the model input is announced |
| C76 | `C76_affine_refuted`, `C76_hybrid_refuted` | the lower slope of relu jumps from 1 to 0 when -l exceeds u (utils.py:128-201), so a larger box can have a better lower bound in the affine and hybrid methods: relu on [-1, 2] is bounded below by -1, on [-3, 2] by 0 |
| C76 | `C76_pooling_refuted` | maxpooling.py, fast=False: in hybrid mode the constants come from relu(b - a) + a, in ibp mode from the maximum of the upper bounds: on [0,1]x[0,2] hybrid returns 7/3, ibp 2 |
| C77 | `C77_rebuild_refuted`, `C77_slope_refuted` | DecomonActivation (decomon_layers.py:538-577) has no get_config: its slope is lost and the rebuilt layer uses volume-slope; relu with slope zero-lb on [-1, 2] has lower line 0 before and y after |
| C77 | `C77_backward_dc_refuted` | BackwardDense and BackwardConv2D made from a Keras layer with dc_decomp=True convert it with dc_decomp=False (backward_layers.py:54-64, 156-166); rebuilt, they read dc_decomp on the converted layer |
| C77 | `C77_convert2mode_refuted` | Convert2Mode.get_config (models/utils.py:350-355) omits input_dim: the announced shape of x becomes (2, -1) |
| C77 | `C77_to_decomon_slope` | a slope which does not exist is accepted by to_decomon on every layer but Activation, where the message is that the layer is not implemented (convert.py:107-112) |
| C77 | `C77_backward_inherits` | to_backward on a decomon layer does not read the mode and the domain it is given |
| C79 | `C79_dense_block_refuted`, `C79_dense_rows` | method crown on a Dense applied to a block (e.g. Reshape to (2, 1), then Dense(1)): BackwardDense reads the axes of its last input, which Convert2BackwardMode has flattened; its weights have the rows of the kernel only and the model raises ValueError. crown-forward-ibp works |
| C79 | `C79_batchnorm_block_refuted`, `C79_permute_block_refuted` | method crown on BatchNormalization or Permute applied to a block (2, 2): the layer receives flattened bounds (B, 4) with the axes of the block and raises ValueError. crown-forward-ibp works |
| C79 | `C79_relu_block_refuted` | crown-forward-xxx with finetune and a relu on a block (2, 2): the coefficients, of shape (4), are broadcast against (B, 2, 2): ValueError. crown works |
| C79 | `C79_from_ibp_refuted` | crown in mode ibp with an affine final mode: the first tensor is replaced by the input box while the weights are those of the output, (B, m, m): their bounds cannot be computed |
| C80 | `C80_batchnorm_refuted` | DecomonBatchNormalization has no share_weights: with shared=True (the default) its gamma, beta and moving statistics are copies. After the Keras model is trained (gamma from 1 to 2), the bounds of the converted model on [0, 1] are still [0, 1] while the model reaches 2; Dense and Conv2D of the same model follow |
| C81 | `C81_crown_shared_refuted` | crown (the default method) and crown-forward-xxx create one backward layer for each node, named after the layer of the node: when a layer is called at two nodes, or one activation layer is given to two layers (or a nested model, which is flattened, is called twice), two layers have the same name and the DecomonModel is refused (ValueError), although every name of the Keras model is distinct. Forward methods work |
| C82 | `C82_empty_refuted`, `C82_relu_refuted` | get_grid_params and get_grid_slope look for layers whose name contains "backward_activation"; to_backward names the backward layer of x "x_backward". With ordinary names both always return an empty dictionary, whatever the relu layers. If the user's layer is called "…backward" its activation is found with crown, and the functions raise AttributeError with crown-forward-xxx (`C82_named`, `C82_named_error`) |
| C83 | `C83_maximum_refuted`, `C83_multiply_refuted` | `maximum` computes relu(in1 - in0) + in0, which cancels in floating point. In binary32, with ibp, Maximum of the numbers -2^25 and 1 (boxes reduced to a point) has both bounds 0, and of -2^25 and 3 both bounds 4; Keras returns 1 and 3. K.maximum on the bounds would be exact. `multiply` adds and subtracts a product: 1 * x for x in [-2^25, 1/2] has upper bound 0, the value at 1/2 is 1/2 |
| C84 | `C84_upper_refuted` | the chord of relu is rounded to nearest: on [-1, 9] in binary32 the upper line is 8.999999 at 9 |
| C85 | `C85_lines_refuted` | same rounding through a whole forward-affine run: relu on [-1, 9], in binary32 the final upper line and upper bound are below 9 at the point 9 |
| C86 | `C86_bounds_refuted` | relu on [-1, 9] with methods crown and crown-forward-ibp in binary32: the upper bound is 9437183/1048576 < 9, the value of the model (and of its computation in binary32) at the point 9 |
| C88 | `C88_kwargs_refuted` | a layer_fn that takes its options as `**kwargs` is called with the layer only (forward_cloning.py:68 looks for the name input_dim in the signature): slope, domain, mode and finetune are lost without a message |
| C88 | `C88_dc_refuted` | convert_forward(dc_decomp=True) does not pass dc_decomp on (forward_cloning.py:119-128): the layers are converted with dc_decomp=False |
| C88 | `C88_layer_fn_refuted` | clone with method crown, the default, ignores layer_fn (convert.py:125, 145-160), even one that is not a function |
| C88 | `C88_local_variable_refuted` | crown_model counts the local variables of layer_fn as parameters (backward_cloning.py:318): a function of the layer with a local variable is called with keywords it does not have (TypeError) |
| C89 | `C89_shared`, `C89_shared_refuted` | clone replaces the softmax of the last layer object by linear wherever the object is called: with a layer of activation softmax called twice, the forward methods bound a network without the inner softmax either |
