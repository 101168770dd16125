(* TabModel.v -- the tables that say which operations of a framework belong to which operator set.

   Modelled (under model_compression_toolkit/target_platform_capabilities/):
     targetplatform2framework/attach2keras.py  AttachTpcToKeras L40-123
     targetplatform2framework/attach2pytorch.py  AttachTpcToPytorch L38-111
     schema/v2.py  OperatorSetNames L35-95
   used by LookupModel.attach.  The rows are generated from the source, with every name replaced by the path it is imported
   from.  Assumption: two different paths of a table are two different objects (true for the versions of the frameworks that
   the library supports; otherwise attaching raises).  The number of an object is its first position in the table, the number
   of a LayerFilterParams object likewise. *)
From Coq Require Import String Ascii.
From Verif Require Import Base SDict FilterModel PlatModel LookupModel.
Local Open Scope list_scope.
Local Open Scope string_scope.

(* an operation, or LayerFilterParams(operation, *conditions, **arguments) *)
Inductive op := Op (path : string) | Flt (path : string) (conds : list filt) (args : list (string * val)).
Definition rows := list (string * list op).

(* attach2keras.py L44-107 *)
Definition keras_rows : rows := [
  ("Conv", [Op "keras.layers.Conv2D"; Op "tf.nn.conv2d"]);
  ("DepthwiseConv2D", [Op "keras.layers.DepthwiseConv2D"; Op "tf.nn.depthwise_conv2d"]);
  ("ConvTranspose", [Op "keras.layers.Conv2DTranspose"; Op "tf.nn.conv2d_transpose"]);
  ("FullyConnected", [Op "keras.layers.Dense"]);
  ("Concatenate", [Op "tf.concat"; Op "keras.layers.Concatenate"]);
  ("Stack", [Op "tf.stack"]);
  ("Unstack", [Op "tf.unstack"]);
  ("Gather", [Op "tf.gather"; Op "tf.compat.v1.gather"]);
  ("Expend", []);
  ("BatchNorm", [Op "keras.layers.BatchNormalization"; Op "tf.nn.batch_normalization"]);
  ("ReLU", [Op "tf.nn.relu"; Op "keras.layers.ReLU"; Flt "keras.layers.Activation" [] [("activation", V_str "relu")]]);
  ("ReLU6", [Op "tf.nn.relu6"]);
  ("LeakyReLU", [Op "tf.nn.leaky_relu"; Op "keras.layers.LeakyReLU"; Flt "keras.layers.Activation" [] [("activation", V_str "leaky_relu")]]);
  ("HardTanh", [Flt "keras.layers.Activation" [] [("activation", V_str "hard_tanh")]]);
  ("Add", [Op "tf.add"; Op "keras.layers.Add"]);
  ("Sub", [Op "tf.subtract"; Op "keras.layers.Subtract"]);
  ("Mul", [Op "tf.math.multiply"; Op "keras.layers.Multiply"]);
  ("Div", [Op "tf.math.divide"; Op "tf.math.truediv"]);
  ("Min", [Op "tf.math.minimum"; Op "keras.layers.Minimum"]);
  ("Max", [Op "tf.math.maximum"; Op "keras.layers.Maximum"]);
  ("PReLU", [Op "keras.layers.PReLU"]);
  ("Swish", [Op "tf.nn.swish"; Flt "keras.layers.Activation" [] [("activation", V_str "swish")]]);
  ("HardSwish", [Flt "keras.layers.Activation" [] [("activation", V_str "hard_swish")]]);
  ("Sigmoid", [Op "tf.nn.sigmoid"; Flt "keras.layers.Activation" [] [("activation", V_str "sigmoid")]]);
  ("Tanh", [Op "tf.nn.tanh"; Flt "keras.layers.Activation" [] [("activation", V_str "tanh")]]);
  ("Gelu", [Op "tf.nn.gelu"; Flt "keras.layers.Activation" [] [("activation", V_str "gelu")]]);
  ("HardSigmoid", [Op "tf.keras.activations.hard_sigmoid"; Flt "keras.layers.Activation" [] [("activation", V_str "hard_sigmoid")]]);
  ("Flatten", [Op "keras.layers.Flatten"]);
  ("GetItem", [Op "tf.__operators__.getitem"]);
  ("Reshape", [Op "keras.layers.Reshape"; Op "tf.reshape"]);
  ("Permute", [Op "keras.layers.Permute"]);
  ("Transpose", [Op "tf.transpose"]);
  ("Unsqueeze", [Op "tf.expand_dims"]);
  ("Squeeze", [Op "tf.squeeze"]);
  ("Dropout", [Op "keras.layers.Dropout"]);
  ("SplitChunk", [Op "tf.split"]);
  ("MaxPool", [Op "keras.layers.MaxPooling2D"; Op "tf.nn.avg_pool2d"]);
  ("AvgPool", [Op "keras.layers.AveragePooling2D"]);
  ("Size", [Op "tf.size"]);
  ("Resize", [Op "tf.image.resize"]);
  ("Pad", [Op "tf.pad"; Op "keras.layers.Cropping2D"]);
  ("Fold", [Op "tf.space_to_batch_nd"]);
  ("Shape", [Op "tf.shape"; Op "tf.compat.v1.shape"]);
  ("Equal", [Op "tf.math.equal"]);
  ("ArgMax", [Op "tf.math.argmax"]);
  ("TopK", [Op "tf.nn.top_k"]);
  ("FakeQuant", [Op "tf.quantization.fake_quant_with_min_max_vars"]);
  ("CombinedNonMaxSuppression", [Op "tf.image.combined_non_max_suppression"]);
  ("ZeroPadding2D", [Op "keras.layers.ZeroPadding2D"]);
  ("Cast", [Op "tf.cast"]);
  ("StridedSlice", [Op "tf.strided_slice"]);
  ("Elu", [Op "tf.nn.elu"; Flt "keras.layers.Activation" [] [("activation", V_str "elu")]]);
  ("Softmax", [Op "tf.nn.softmax"; Op "keras.layers.Softmax"; Flt "keras.layers.Activation" [] [("activation", V_str "softmax")]]);
  ("LogSoftmax", [Op "tf.nn.log_softmax"]);
  ("AddBias", [Op "tf.nn.bias_add"]);
  ("L2Norm", [Op "tf.math.l2_normalize"]);
  ("SSDPostProcess", [Op "edgemdt_cl.keras.object_detection.ssd_post_process.SSDPostProcess"]);
  ("Exp", [Op "tf.math.exp"]);
  ("Sin", [Op "tf.math.sin"]);
  ("Cos", [Op "tf.math.cos"])].
(* attach2pytorch.py L42-105 *)
Definition pytorch_rows : rows := [
  ("Conv", [Op "torch.nn.Conv2d"]);
  ("DepthwiseConv2D", []);
  ("ConvTranspose", [Op "torch.nn.ConvTranspose2d"]);
  ("FullyConnected", [Op "torch.nn.Linear"]);
  ("Concatenate", [Op "torch.cat"; Op "torch.concat"; Op "torch.concatenate"]);
  ("Stack", [Op "torch.stack"]);
  ("Unstack", [Op "torch.unbind"]);
  ("Gather", [Op "torch.gather"]);
  ("Expend", [Op "torch.Tensor.expand"]);
  ("BatchNorm", [Op "torch.nn.BatchNorm2d"]);
  ("ReLU", [Op "torch.relu"; Op "torch.nn.ReLU"; Op "torch.nn.functional.relu"]);
  ("ReLU6", [Op "torch.nn.ReLU6"; Op "torch.nn.functional.relu6"]);
  ("LeakyReLU", [Op "torch.nn.LeakyReLU"; Op "torch.nn.functional.leaky_relu"]);
  ("HardTanh", [Flt "torch.nn.Hardtanh" [] [("min_val", V_num 0)]; Flt "torch.nn.functional.hardtanh" [] [("min_val", V_num 0)]]);
  ("Add", [Op "operator.add"; Op "torch.add"]);
  ("Sub", [Op "operator.sub"; Op "torch.sub"; Op "torch.subtract"]);
  ("Mul", [Op "operator.mul"; Op "torch.mul"; Op "torch.multiply"]);
  ("Div", [Op "operator.truediv"; Op "torch.div"; Op "torch.divide"]);
  ("AddBias", []);
  ("Min", [Op "torch.minimum"]);
  ("Max", [Op "torch.maximum"]);
  ("PReLU", [Op "torch.nn.PReLU"; Op "torch.nn.functional.prelu"]);
  ("Swish", [Op "torch.nn.SiLU"; Op "torch.nn.functional.silu"]);
  ("Sigmoid", [Op "torch.nn.Sigmoid"; Op "torch.sigmoid"; Op "torch.nn.functional.sigmoid"]);
  ("Tanh", [Op "torch.nn.Tanh"; Op "torch.tanh"; Op "torch.nn.functional.tanh"]);
  ("Gelu", [Op "torch.nn.GELU"; Op "torch.nn.functional.gelu"]);
  ("HardSigmoid", [Op "torch.nn.Hardsigmoid"; Op "torch.nn.functional.hardsigmoid"]);
  ("HardSwish", [Op "torch.nn.Hardswish"; Op "torch.nn.functional.hardswish"]);
  ("Flatten", [Op "torch.nn.Flatten"; Op "torch.flatten"]);
  ("GetItem", [Op "operator.getitem"]);
  ("Reshape", [Op "torch.reshape"; Op "torch.Tensor.view"]);
  ("Unsqueeze", [Op "torch.unsqueeze"]);
  ("Squeeze", [Op "torch.squeeze"]);
  ("Permute", [Op "torch.permute"]);
  ("Transpose", [Op "torch.transpose"]);
  ("Dropout", [Op "torch.nn.Dropout"; Op "torch.dropout"]);
  ("SplitChunk", [Op "torch.split"; Op "torch.chunk"]);
  ("MaxPool", [Op "torch.nn.MaxPool2d"; Op "torch.nn.functional.max_pool2d"]);
  ("AvgPool", [Op "torch.nn.AvgPool2d"; Op "torch.nn.functional.avg_pool2d"]);
  ("Size", [Op "torch.Tensor.size"]);
  ("Resize", [Op "torch.Tensor.resize"]);
  ("Pad", [Op "torch.nn.functional.pad"]);
  ("Fold", [Op "torch.nn.functional.fold"]);
  ("Shape", [Op "torch.Tensor.shape"]);
  ("Equal", [Op "torch.equal"]);
  ("ArgMax", [Op "torch.argmax"]);
  ("TopK", [Op "torch.topk"]);
  ("FakeQuant", [Op "torch.fake_quantize_per_channel_affine"]);
  ("ZeroPadding2D", [Op "torch.nn.ZeroPad2d"]);
  ("Cast", [Op "torch.Tensor.type"]);
  ("StridedSlice", []);
  ("Elu", [Op "torch.nn.ELU"; Op "torch.nn.functional.elu"]);
  ("Softmax", [Op "torch.nn.Softmax"; Op "torch.softmax"; Op "torch.nn.functional.softmax"]);
  ("LogSoftmax", [Op "torch.nn.LogSoftmax"]);
  ("L2Norm", [Flt "torch.nn.functional.normalize" [F_or 0 [F_attr "p" O_eq (V_num 2); F_attr "p" O_eq V_none]] []]);
  ("SSDPostProcess", []);
  ("CombinedNonMaxSuppression", [Op "edgemdt_cl.pytorch.MulticlassNMS"; Op "edgemdt_cl.pytorch.MulticlassNMSWithIndices"]);
  ("Exp", [Op "torch.exp"]);
  ("Sin", [Op "torch.sin"]);
  ("Cos", [Op "torch.cos"])].

(* the part of a path after its last dot *)
Fixpoint base (acc s : string) : string :=
  match s with
  | EmptyString => acc
  | String c r => if Ascii.eqb c "."%char then base "" r else base (acc ++ String c "") r
  end.
(* what tells two entries of a table apart *)
Definition show_arg (kv : string * val) : string := " " ++ fst kv ++ "=" ++ match snd kv with V_str s => s | _ => "" end.
Definition show (path : string) (args : list (string * val)) : string := path ++ fold_right (fun kv s => show_arg kv ++ s) "" args.
Definition tag (o : op) : string := match o with Op p => p | Flt p _ a => show p a end.
Fixpoint idx (s : string) (l : list string) : nat :=
  match l with [] => 0%nat | x :: r => if String.eqb s x then 0%nat else S (idx s r) end.
Definition tags (t : rows) : list string := flat_map (fun r => map tag (snd r)) t.
Definition path_of (o : op) : string := match o with Op p => p | Flt p _ _ => p end.
Definition paths (t : rows) : list string := flat_map (fun r => map path_of (snd r)) t.
Definition key (t : rows) (o : op) : lkey :=
  match o with
  | Op p => K_layer (idx p (paths t)) (base "" p)
  | Flt p c a => K_filter (idx (show p a) (tags t)) (LFilter (idx p (paths t)) (base "" p) c a)
  end.
(* the dictionaries _opset2layer and _opset2attr_mapping together *)
Definition table (attrs : list (string * list (string * ddict))) (t : rows) : list (string * oplayers) :=
  map (fun r => (fst r, OpLayers (fst r) (map (key t) (snd r)) (sget (fst r) attrs))) t.

Definition always (s : string) : ddict := DDict [] s.
Definition linear (kernel : string) : list (string * ddict) := [("kernel_attr", always kernel); ("bias_attr", always "bias")].
(* attach2keras.py L109-123 *)
Definition keras_attrs : list (string * list (string * ddict)) := [
  ("Conv", linear "kernel"); ("ConvTranspose", linear "kernel");
  ("DepthwiseConv2D",
    [("kernel_attr", DDict [(key keras_rows (Op "keras.layers.DepthwiseConv2D"), "depthwise_kernel");
                            (key keras_rows (Op "tf.nn.depthwise_conv2d"), "depthwise_kernel")] "kernel");
     ("bias_attr", always "bias")]);
  ("FullyConnected", linear "kernel")].
(* attach2pytorch.py L107-111 *)
Definition pytorch_attrs : list (string * list (string * ddict)) := [
  ("Conv", linear "weight"); ("ConvTranspose", linear "weight"); ("FullyConnected", linear "weight")].

Inductive fw := Keras | Pytorch.
Definition fw_rows (f : fw) : rows := match f with Keras => keras_rows | Pytorch => pytorch_rows end.
Definition fw_attrs (f : fw) := match f with Keras => keras_attrs | Pytorch => pytorch_attrs end.
Definition builtin (f : fw) : list (string * oplayers) := table (fw_attrs f) (fw_rows f).
(* OperatorSetNames.get_values(), v2.py L35-99 *)
Definition standard_names : list string := ["Conv"; "DepthwiseConv2D"; "ConvTranspose"; "FullyConnected"; "Concatenate";
  "Stack"; "Unstack"; "Gather"; "Expend"; "BatchNorm"; "L2Norm"; "ReLU"; "ReLU6"; "LeakyReLU"; "Elu"; "HardTanh"; "Add";
  "Sub"; "Mul"; "Div"; "Min"; "Max"; "PReLU"; "AddBias"; "Swish"; "Sigmoid"; "Softmax"; "LogSoftmax"; "Tanh"; "Gelu";
  "HardSigmoid"; "HardSwish"; "Flatten"; "GetItem"; "Reshape"; "Unsqueeze"; "Squeeze"; "Permute"; "Transpose";
  "Dropout"; "SplitChunk"; "MaxPool"; "AvgPool"; "Size"; "Shape"; "Equal"; "ArgMax"; "TopK"; "FakeQuant";
  "CombinedNonMaxSuppression"; "ZeroPadding2D"; "Cast"; "Resize"; "Pad"; "Fold"; "StridedSlice"; "SSDPostProcess";
  "Exp"; "Sin"; "Cos"].
