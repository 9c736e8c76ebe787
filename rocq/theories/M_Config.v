(** Options of the layers: constructors, get_config and from_config. Definitions only.
    Keras (trusted): a class of layers takes parameters with default values, refuses other keyword arguments (ValueError) and
    missing positional arguments (TypeError); its configuration lists the values of its parameters; from_config(config) is
    cls(config as keyword arguments). What Keras does to the values (kernel_size=3 read as (3, 3)...) is not modelled. *)
From Coq Require Import String List Bool ZArith Reals.
From Verif Require Import RLib Spec Spec_Config Spec_Network M_Core M_Network M_Domain.
Import ListNotations.
Open Scope string_scope.
Open Scope list_scope.

(** ** dictionaries *)
Fixpoint lookup (k : string) (d : dict) : option cval :=
  match d with [] => None | (k', v) :: q => if String.eqb k k' then Some v else lookup k q end.
Definition mem (k : string) (l : list string) : bool := existsb (String.eqb k) l.
(** dict.pop for each key *)
Definition drop (ks : list string) (d : dict) : dict := filter (fun kv => negb (mem (fst kv) ks)) d.
(** d.update(e) *)
Definition update (d e : dict) : dict := List.app (drop (List.map fst e) d) e.
Definition arg (k : string) (dflt : cval) (d : dict) : cval := match lookup k d with Some v => v | None => dflt end.

(** ** enumerations: src/decomon/core.py:12-22, 115-125; Enum(value) raises ValueError *)
Definition slope_names : list (string * slope) :=
  [("volume-slope", V_SLOPE); ("adaptative-slope", A_SLOPE); ("same-slope", S_SLOPE); ("zero-lb", Z_SLOPE); ("one-lb", O_SLOPE)].
Definition mode_names : list (string * fmode) := [("ibp", IBP); ("affine", AFFINE); ("hybrid", HYBRID)].
Definition of_name {A} (l : list (string * A)) (s : string) : result A :=
  match find (fun p => String.eqb s (fst p)) l with Some p => Ok (snd p) | None => Err ValueError end.
Definition as_slope (v : cval) : result slope := match v with VSlope s => Ok s | VStr s => of_name slope_names s | _ => Err ValueError end.
Definition as_mode (v : cval) : result fmode := match v with VMode m => Ok m | VStr s => of_name mode_names s | _ => Err ValueError end.
(** the constructors do not look at the type of the other arguments; values outside the annotated type are not modelled *)
Definition as_bool (v : cval) : result bool := match v with VBool b => Ok b | _ => Err TypeError end.
Definition as_int (v : cval) : result Z := match v with VInt k => Ok k | _ => Err TypeError end.
(** Optional[PerturbationDomain], None replaced by BoxDomain() *)
Definition as_domain (v : cval) : result domain := match v with VNone => Ok Box | VDomain D => Ok D | _ => Err TypeError end.

(** ** Keras classes: parameters and those without default value *)
Definition base_params : list string := ["name"; "trainable"; "dtype"].
Definition keras_params (c : lclass) : list string :=
  base_params ++
  match c with
  | CConv2D => ["filters"; "kernel_size"; "strides"; "padding"; "data_format"; "dilation_rate"; "groups"; "activation"; "use_bias"; "kernel_initializer";
                "bias_initializer"; "kernel_regularizer"; "bias_regularizer"; "activity_regularizer"; "kernel_constraint"; "bias_constraint"]
  | CDense => ["units"; "activation"; "use_bias"; "kernel_initializer"; "bias_initializer"; "kernel_regularizer"; "bias_regularizer"; "activity_regularizer";
               "kernel_constraint"; "bias_constraint"]
  | CActivation => ["activation"]
  | CFlatten => ["data_format"]
  | CBatchNormalization => ["axis"; "momentum"; "epsilon"; "center"; "scale"; "beta_initializer"; "gamma_initializer"; "moving_mean_initializer";
                            "moving_variance_initializer"; "beta_regularizer"; "gamma_regularizer"; "beta_constraint"; "gamma_constraint"; "synchronized"]
  | CDropout => ["rate"; "noise_shape"; "seed"]
  | CInputLayer => ["shape"; "batch_size"; "sparse"; "batch_shape"; "input_tensor"]
  | CReshape => ["target_shape"]
  | CPermute => ["dims"]
  | CMaxPooling2D => ["pool_size"; "strides"; "padding"; "data_format"]
  | CConcatenate => ["axis"]
  | CDot => ["axes"; "normalize"]
  | _ => []
  end.
Definition keras_required (c : lclass) : list string :=
  match c with
  | CConv2D => ["filters"; "kernel_size"] | CDense => ["units"] | CActivation => ["activation"] | CDropout => ["rate"] | CReshape => ["target_shape"]
  | CPermute => ["dims"] | _ => []
  end.
(** default values: [VNone] stands for each of them *)
Definition keras_init (params required : list string) (kw : dict) : result dict :=
  if negb (forallb (fun k => match lookup k kw with Some _ => true | None => false end) required) then Err TypeError
  else if forallb (fun kv => mem (fst kv) params) kw then Ok (map (fun p => (p, arg p VNone kw)) params) else Err ValueError.

(** ** Layers of the forward pass *)

(** parameters of the class of decomon only, with their default value. DecomonActivation: layers/decomon_layers.py:545-556;
    DecomonLossFusion: metrics/loss.py:359-370; DecomonRadiusRobust: 452-462 *)
Definition own_params (c : lclass) : dict :=
  match c with
  | CActivation => [("slope", VSlope V_SLOPE)]
  | CLossFusion => [("asymptotic", VBool false); ("backward", VBool false)]
  | CRadiusRobust => [("backward", VBool false)]
  | _ => []
  end.
(** Slope(slope) at decomon_layers.py:568 *)
Definition own_value (k : string) (v : cval) : result cval :=
  if String.eqb k "slope" then s <- as_slope v ; Ok (VSlope s) else b <- as_bool v ; Ok (VBool b).
Definition own_init (c : lclass) (kw : dict) : result dict :=
  mapR (fun p => v <- own_value (fst p) (arg (fst p) (snd p) kw) ; Ok (fst p, v)) (own_params c).
(** removed by the constructor: decomon_layers.py:53 (Conv2D), 307-308 (Dense), then layers/core.py:49 *)
Definition popped (c : lclass) : list string :=
  match c with CConv2D => ["activation"; "slope"] | CDense => ["activation"; "kernel_constraint"; "slope"] | _ => ["slope"] end.
(** layers/core.py:30-39, the same in every class *)
Definition common : list string := ["perturbation_domain"; "dc_decomp"; "mode"; "finetune"; "shared"; "fast"].

(** layers/core.py:30-66 through the constructors of decomon_layers.py, decomon_reshape.py, maxpooling.py,
    decomon_merge_layers.py and loss.py: Keras first, then the domain, InputsOutputsSpec and the attributes, then the class;
    loss.py:474-478 for the checks of DecomonRadiusRobust *)
Definition layer_init (c : lclass) (kw : dict) : result attrs :=
  k <- keras_init (keras_params c) (keras_required c) (drop (map fst (own_params c) ++ popped c ++ common) kw) ;
  D <- as_domain (arg "perturbation_domain" VNone kw) ;
  dc <- as_bool (arg "dc_decomp" (VBool false) kw) ;
  mode <- as_mode (arg "mode" (VMode HYBRID) kw) ;
  ft <- as_bool (arg "finetune" (VBool false) kw) ;
  sh <- as_bool (arg "shared" (VBool false) kw) ;
  fs <- as_bool (arg "fast" (VBool true) kw) ;
  own <- own_init c kw ;
  match c, mode, D with
  | CRadiusRobust, IBP, _ | CRadiusRobust, _, Ball _ _ => Err NotImplementedError
  | _, _, _ => Ok (mk_attrs c k D dc mode ft sh fs own (dc, mode, D))
  end.

(** get_config: layers/core.py:75-87; loss.py:388-396, 481-488. DecomonActivation has no get_config of its own *)
Definition own_config (a : attrs) : dict := match at_class a with CActivation => [] | _ => at_own a end.
Definition common_config (a : attrs) : dict :=
  [("dc_decomp", VBool (at_dc a)); ("shared", VBool (at_shared a)); ("fast", VBool (at_fast a)); ("finetune", VBool (at_finetune a));
   ("mode", VMode (at_mode a)); ("perturbation_domain", VDomain (at_domain a))].
Definition layer_config (a : attrs) : dict := update (update (at_keras a) (common_config a)) (own_config a).
(** Layer.from_config *)
Definition from_config (c : lclass) (d : dict) : result attrs := layer_init c d.
Definition rebuild (a : attrs) : result attrs := from_config (at_class a) (layer_config a).

(** ** to_decomon: layers/convert.py:21-78 and _to_decomon_wo_input_init, 80-117. [built]: attribute built of the layer; a class
    without decomon version is the exception of the lookup. [name]: layer.name + "_decomon". Any exception becomes
    NotImplementedError (line 112) *)
Record toptions := mk_toptions { to_slope : cval; to_dc : bool; to_domain : option domain; to_finetune : bool; to_ibp : bool; to_affine : bool; to_shared : bool; to_fast : bool }.
Definition to_decomon_config (c : lclass) (k : dict) (name : cval) (o : toptions) : dict :=
  let d := update k
    [("name", name); ("dc_decomp", VBool (to_dc o)); ("perturbation_domain", VDomain (match to_domain o with Some D => D | None => Box end));
     ("mode", VMode (get_mode (to_ibp o) (to_affine o))); ("finetune", VBool (to_finetune o)); ("slope", to_slope o); ("shared", VBool (to_shared o));
     ("fast", VBool (to_fast o))] in
  match c with CActivation => d | _ => drop ["activation"] d end.
Definition to_decomon_attrs (built : bool) (c : lclass) (k : dict) (name : cval) (o : toptions) : result attrs :=
  if negb built then Err ValueError else
  match from_config c (to_decomon_config c k name o) with Ok a => Ok a | Err _ => Err NotImplementedError end.

(** ** Layers of the backward pass: backward_layers/core.py:25-73, backward_merge.py:44-92 (the same), backward_layers.py:33-66
    (Dense), 135-168 (Conv2D), 232-270 (Activation), backward_maxpooling.py:23-41. Wrapper(layer, **kwargs) of Keras keeps the
    layer; get_input_dim(layer) is taken to succeed *)
Definition bcommon : list string := ["rec"; "mode"; "perturbation_domain"; "dc_decomp"; "slope"; "finetune"].
Definition bown (c : bclass) : list string := match c with BDense | BConv2D => ["input_dim"] | _ => [] end.
Definition backward_init (c : bclass) (w : wrapped) (name : cval) (kw : dict) : result battrs :=
  k <- keras_init base_params [] (drop (bown c ++ bcommon) kw) ;
  rec <- as_int (arg "rec" (VInt 1) kw) ;
  r <- match w with
       | WDecomon a => Ok (at_mode a, at_domain a, at_dc a)
       | WKeras _ _ =>
           mode <- as_mode (arg "mode" (VMode HYBRID) kw) ;
           D <- as_domain (arg "perturbation_domain" VNone kw) ;
           dc <- as_bool (arg "dc_decomp" (VBool false) kw) ;
           Ok (mode, D, dc)
       end ;
  let '(mode, D, dc) := r : fmode * domain * bool in
  w' <- match c, w with
        | (BDense | BConv2D), WKeras lc kl =>
            a <- to_decomon_attrs true lc kl name
                   (mk_toptions (VSlope V_SLOPE) false (Some D) false (get_ibp mode) (get_affine mode) true false) ;
            Ok (WDecomon a)
        | _, _ => Ok w
        end ;
  own <- match c with
         | BActivation =>
             s <- as_slope (arg "slope" (VSlope V_SLOPE) kw) ;
             ft <- as_bool (arg "finetune" (VBool false) kw) ;
             Ok (Some (s, ft))
         | _ => Ok None
         end ;
  match c with
  | BMaxPooling2D => Err NotImplementedError
  | _ => Ok (mk_battrs c w' k rec mode D dc own (dc, mode, D))
  end.
(** core.py:61-71, backward_layers.py:261-269 *)
Definition backward_config (b : battrs) : dict :=
  update (update (bt_keras b) [("rec", VInt (bt_rec b)); ("mode", VMode (bt_mode b)); ("perturbation_domain", VDomain (bt_domain b)); ("dc_decomp", VBool (bt_dc b))])
    (match bt_own b with Some (s, ft) => [("slope", VSlope s); ("finetune", VBool ft)] | None => [] end).
(** Wrapper.from_config: the wrapped layer is rebuilt from its own configuration *)
Definition rebuild_wrapped (w : wrapped) : result wrapped :=
  match w with
  | WKeras c k => k' <- keras_init (keras_params c) (keras_required c) k ; Ok (WKeras c k')
  | WDecomon a => a' <- rebuild a ; Ok (WDecomon a')
  end.
Definition backward_rebuild (name : cval) (b : battrs) : result battrs :=
  w <- rebuild_wrapped (bt_layer b) ; backward_init (bt_class b) w name (backward_config b).
(** backward_layers/convert.py:17-48 to_backward, once the class is found: slope, mode, perturbation_domain, finetune, dtype and name
    are given, then the other arguments *)
Definition to_backward_attrs (c : bclass) (w : wrapped) (name dtype : cval) (sl mode : cval) (D : option domain) (ft : bool) (kw : dict) : result battrs :=
  backward_init c w name (update [("slope", sl); ("mode", mode); ("perturbation_domain", VDomain (match D with Some D => D | None => Box end)); ("finetune", VBool ft);
     ("dtype", dtype); ("name", name)] kw).

(** ** Layers of the conversion. Convert2Mode: models/utils.py:286-313, 350-355 *)
Definition convert2mode_init (kw : dict) : result cattrs :=
  _ <- keras_init base_params [] (drop ["mode_from"; "mode_to"; "perturbation_domain"; "input_dim"] kw) ;
  match lookup "mode_from" kw, lookup "mode_to" kw, lookup "perturbation_domain" kw with
  | Some a, Some b, Some (VDomain D) =>
      from <- as_mode a ; to_ <- as_mode b ; k <- as_int (arg "input_dim" (VInt (-1)) kw) ; Ok (mk_cattrs from to_ D k)
  | _, _, _ => Err TypeError
  end.
Definition convert2mode_config (base : dict) (a : cattrs) : dict :=
  update base [("mode_from", VMode (ct_from a)); ("mode_to", VMode (ct_to a)); ("perturbation_domain", VDomain (ct_domain a))].
(** core.py:47-54 with the input dimension of Convert2Mode: announced shape of x without the batch, from ibp *)
Definition x_shape_of (D : domain) (input_dim : Z) : list Z := match D with Box => [2%Z; input_dim] | Ball _ _ => [input_dim] end.

(** Convert2BackwardMode: models/crown.py:61-64, 94-97 *)
Definition convert2backward_init (kw : dict) : result (fmode * domain) :=
  _ <- keras_init base_params [] (drop ["mode"; "perturbation_domain"] kw) ;
  match lookup "mode" kw, lookup "perturbation_domain" kw with
  | Some a, Some (VDomain D) => m <- as_mode a ; Ok (m, D)
  | _, _ => Err TypeError
  end.
Definition convert2backward_config (base : dict) (a : fmode * domain) : dict :=
  update base [("mode", VMode (fst a)); ("perturbation_domain", VDomain (snd a))].
(** MetricLayer, AdversarialCheck, AdversarialScore, UpperScore: metrics/metric.py:22-62, 79-103, 167-190, 291-314. [VBool true]
    stands for MetricMode.BACKWARD, [VBool false] for FORWARD *)
Definition metric_init (kw : dict) : result (bool * bool * bool * domain) :=
  _ <- keras_init base_params [] (drop ["ibp"; "affine"; "mode"; "perturbation_domain"] kw) ;
  match lookup "ibp" kw, lookup "affine" kw, lookup "mode" kw, lookup "perturbation_domain" kw with
  | Some i, Some a, Some m, Some d => i <- as_bool i ; a <- as_bool a ; m <- as_bool m ; D <- as_domain d ; Ok (i, a, m, D)
  | _, _, _, _ => Err TypeError
  end.
Definition metric_config (base : dict) (q : bool * bool * bool * domain) : dict :=
  let '(i, a, m, D) := q in update base [("ibp", VBool i); ("affine", VBool a); ("mode", VBool m); ("perturbation_domain", VDomain D)].

(** ** Domains: core.py:28-30, 43-46 and 83-103. p: an integer, np.inf ([None]) or a float ([inr]) *)
Inductive dval := DInt (k : Z) | DInf | DFloat (x : R) | DOpt (o : optim) | DReal (x : R).
Definition ball_init (kw : list (string * dval)) : result pdomain :=
  let find k := match List.find (fun q => String.eqb k (fst q)) kw with Some q => Some (snd q) | None => None end in
  match find "eps" with
  | Some (DReal e) =>
      o <- match find "opt_option" with Some (DOpt o) => Ok o | None => Ok Milp | _ => Err ValueError end ;
      p <- match find "p" with
           | None => Ok (Pnum 2)
           | Some DInf => Ok Pinf
           | Some (DInt k) => if (k <=? 0)%Z then Err ValueError else Ok (Pnum (Z.to_nat k))
           | Some _ => Err ValueError
           end ;
      Ok (PBall e p o)
  | _ => Err TypeError
  end.
Definition box_init (kw : list (string * dval)) : result pdomain :=
  match kw with
  | [] => Ok (PBox Milp)
  | [("opt_option", DOpt o)] => Ok (PBox o)
  | _ => Err TypeError
  end.
Definition domain_config (D : pdomain) : list (string * dval) :=
  match D with
  | PBox o => [("opt_option", DOpt o)]
  | PBall e p o => [("opt_option", DOpt o); ("eps", DReal e); ("p", match p with Pinf => DInf | Pnum k => DInt (Z.of_nat k) end)]
  end.
Definition domain_init (D : pdomain) (kw : list (string * dval)) : result pdomain := match D with PBox _ => box_init kw | PBall _ _ _ => ball_init kw end.

(** ** Bounds computed by a layer with these attributes: the attribute perturbation_domain and inputs_outputs_spec are read as in
    M_Domain.v; [ft]: coefficients created by build when finetune. The slope is the one of the class (loss.py and the other
    classes have none: the default value stands for it, they do not read it) *)
Definition slope_attr (a : attrs) : slope := match lookup "slope" (at_own a) with Some (VSlope s) => s | _ => V_SLOPE end.
Definition attr_opts (a : attrs) (ft : vec) : lopts := mk_opts (slope_attr a) (if at_finetune a then Some ft else None) (at_fast a).
Definition attr_call (ke : R) (n : nat) (L : nlayer) (ft : vec) (a : attrs) : list tensor -> result (list tensor) :=
  let '(dc, mode, D) := at_spec a in
  layer_domains ke (mk_spec (at_dc a) (at_mode a) (at_domain a) n) (mk_spec dc mode D n) (attr_opts a ft) L.
