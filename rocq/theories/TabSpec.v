(* TabSpec.v -- the operator set of an operation, by the name of what it computes; one list for both frameworks. *)
From Coq Require Import String.
From Verif Require Import Base SDict FilterModel PlatModel LookupModel TabModel.
Local Open Scope list_scope.
Local Open Scope string_scope.

(* each operator set with the names of its operations *)
Definition kinds : list (string * list string) := [
  ("Conv", ["Conv2D"; "Conv2d"; "conv2d"]); ("DepthwiseConv2D", ["DepthwiseConv2D"; "depthwise_conv2d"]);
  ("ConvTranspose", ["Conv2DTranspose"; "ConvTranspose2d"; "conv2d_transpose"]); ("FullyConnected", ["Dense"; "Linear"]);
  ("Concatenate", ["Concatenate"; "concat"; "concatenate"; "cat"]); ("Stack", ["stack"]); ("Unstack", ["unstack"; "unbind"]);
  ("Gather", ["gather"]); ("Expend", ["expand"]); ("BatchNorm", ["BatchNormalization"; "batch_normalization"; "BatchNorm2d"]);
  ("L2Norm", ["l2_normalize"; "normalize"]); ("ReLU", ["ReLU"; "relu"]); ("ReLU6", ["ReLU6"; "relu6"]);
  ("LeakyReLU", ["LeakyReLU"; "leaky_relu"]); ("Elu", ["ELU"; "elu"]); ("HardTanh", ["hard_tanh"; "Hardtanh"; "hardtanh"]);
  ("Add", ["Add"; "add"]); ("Sub", ["Subtract"; "subtract"; "sub"]); ("Mul", ["Multiply"; "multiply"; "mul"]);
  ("Div", ["divide"; "truediv"; "div"]); ("Min", ["Minimum"; "minimum"]); ("Max", ["Maximum"; "maximum"]);
  ("PReLU", ["PReLU"; "prelu"]); ("AddBias", ["bias_add"]); ("Swish", ["swish"; "SiLU"; "silu"]); ("Sigmoid", ["Sigmoid"; "sigmoid"]);
  ("Softmax", ["Softmax"; "softmax"]); ("LogSoftmax", ["LogSoftmax"; "log_softmax"]); ("Tanh", ["Tanh"; "tanh"]);
  ("Gelu", ["GELU"; "gelu"]); ("HardSigmoid", ["Hardsigmoid"; "hardsigmoid"; "hard_sigmoid"]);
  ("HardSwish", ["Hardswish"; "hardswish"; "hard_swish"]); ("Flatten", ["Flatten"; "flatten"]); ("GetItem", ["getitem"]);
  ("Reshape", ["Reshape"; "reshape"; "view"]); ("Unsqueeze", ["expand_dims"; "unsqueeze"]); ("Squeeze", ["squeeze"]);
  ("Permute", ["Permute"; "permute"]); ("Transpose", ["transpose"]); ("Dropout", ["Dropout"; "dropout"]);
  ("SplitChunk", ["split"; "chunk"]); ("MaxPool", ["MaxPooling2D"; "MaxPool2d"; "max_pool2d"]);
  ("AvgPool", ["AveragePooling2D"; "AvgPool2d"; "avg_pool2d"]); ("Size", ["size"]); ("Shape", ["shape"]); ("Equal", ["equal"]);
  ("ArgMax", ["argmax"]); ("TopK", ["top_k"; "topk"]);
  ("FakeQuant", ["fake_quant_with_min_max_vars"; "fake_quantize_per_channel_affine"]);
  ("CombinedNonMaxSuppression", ["combined_non_max_suppression"; "MulticlassNMS"; "MulticlassNMSWithIndices"]);
  ("ZeroPadding2D", ["ZeroPadding2D"; "ZeroPad2d"]); ("Cast", ["cast"; "type"]); ("Resize", ["resize"]); ("Pad", ["pad"; "Cropping2D"]);
  ("Fold", ["space_to_batch_nd"; "fold"]); ("StridedSlice", ["strided_slice"]); ("SSDPostProcess", ["SSDPostProcess"]);
  ("Exp", ["exp"]); ("Sin", ["sin"]); ("Cos", ["cos"])].
Definition is_kind (name set : string) : Prop := exists l, In (set, l) kinds /\ In name l.
(* what an entry computes: an Activation layer computes the function it is given *)
Definition computes (o : op) : string :=
  match o with
  | Flt _ _ (("activation", V_str f) :: _) => f
  | Flt p _ _ => base "" p
  | Op p => base "" p
  end.
(* the operation is listed, in this row of the table *)
Definition listed (f : fw) (set : string) (o : op) : Prop := exists l, In (set, l) (fw_rows f) /\ In o l.
(* the names that the framework gives to the kernel and the bias of an operation, in the operator sets that have them *)
Definition kernel_name (f : fw) (o : op) : string :=
  match f with
  | Pytorch => "weight"
  | Keras => if orb (String.eqb (computes o) "DepthwiseConv2D") (String.eqb (computes o) "depthwise_conv2d") then "depthwise_kernel" else "kernel"
  end.
Definition weight_names (f : fw) (set : string) (o : op) : option (list (string * string)) :=
  if existsb (String.eqb set) ["Conv"; "ConvTranspose"; "FullyConnected"; "DepthwiseConv2D"]
  then Some [("kernel_attr", kernel_name f o); ("bias_attr", "bias")] else None.
(* the platform has an operator set of this name, and these are its options *)
Definition set_options (t : tpc2) (set : string) (q : qco) : Prop :=
  exists s, In s (or_old (t2_opsets t) []) /\ os_name s = set /\ q = or_old (os_qco s) (t2_default t).
(* the attached platform has these options for the entry *)
Definition has_options (a : fqc) (f : fw) (o : op) (q : qco) : Prop :=
  match key (fw_rows f) o with K_layer i n => In ((i, n), q) (q_layers a) | K_filter _ x => In (x, q) (q_filters a) end.
