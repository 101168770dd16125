(* ImxModel.v -- C109: the default platform description (IMX500).

   Modelled (under model_compression_toolkit/target_platform_capabilities/tpc_models/):
     imx500_tpc/v1/tpc.py L31-249, get_target_platform_capabilities.py L27-58 (the choice of the platform)
   on top of PlatModel.v.  QuantizationMethod.POWER_OF_TWO is 0, SYMMETRIC is 1; Signedness.AUTO is 0.
   The names of operator sets are the values of OperatorSetNames (schema/v2.py L35-95).  The TFLite and QNNPACK descriptions
   are parameters of the choice. *)
From Coq Require Import String.
From Verif Require Import Base SDict PlatModel.
Local Open Scope list_scope.

Definition pot : nat := 0.
Definition symmetric : nat := 1.
(* L45-130 get_op_quantization_configs *)
Definition default_weight_attr_config : attrcfg := AttrCfg pot 8 false false None.      (* L61-67 *)
Definition kernel_base_config : attrcfg := AttrCfg symmetric 8 true true None.          (* L70-75 *)
Definition bias_config : attrcfg := AttrCfg pot 32 false false None.                    (* L78-83 *)
Definition eight_bits_default : opcfg :=                                                (* L91-102 *)
  new_opcfg default_weight_attr_config [] pot 8 (I_int 8) true false 0 None None (Some 32%Z).
Definition linear_eight_bits : opcfg :=                                                 (* L105-116 *)
  new_opcfg default_weight_attr_config [("kernel_attr"%string, kernel_base_config); ("bias_attr"%string, bias_config)]
            pot 8 (I_int 8) true false 0 None None (Some 32%Z).
Definition kernel_bits (b : Z) : list (string * attr_edit) := [("kernel_attr"%string, AttrEdit None (Some b) None None None)].
Definition simd_edit (z : Z) : op_edit := OpEdit None None None None None None None None None None (Some (Some z)).
Definition four_bits : opcfg := op_clone (kernel_bits 4) (simd_edit (32 * 2)) linear_eight_bits.   (* L123-124 *)
Definition two_bits : opcfg := op_clone (kernel_bits 2) (simd_edit (32 * 4)) linear_eight_bits.    (* L125-126 *)
Definition mixed_precision_cfg_list : list opcfg := [linear_eight_bits; four_bits; two_bits].      (* L128 *)

(* OperatorSetGroup and Fusing without a name: validate_and_set_name, v1.py L466-490, v2.py L119-144 *)
Definition group (l : list opset) : opgroup := G_group (String.concat "_" (map os_name l)) l.
Definition group_name (g : opgroup) : string := match g with G_set s => os_name s | G_group n _ => n end.
Definition fuse (gs : list opgroup) : result fusing := new_fusing gs None (String.concat "_" (map group_name gs)).

(* L172-194 *)
Definition no_quantization_names : list string :=
  ["Stack"; "Unstack"; "Dropout"; "Flatten"; "SplitChunk"; "GetItem"; "Reshape"; "Unsqueeze"; "Size"; "Permute"; "Transpose";
   "Equal"; "ArgMax"; "Gather"; "TopK"; "Squeeze"; "MaxPool"; "Pad"; "ZeroPadding2D"; "Cast"; "CombinedNonMaxSuppression";
   "FakeQuant"; "SSDPostProcess"]%string.
Definition disable_activation : op_edit := OpEdit None None None None None (Some false) None None None None None.
Definition disable_weights : attr_edit := AttrEdit None None None (Some false) None.
Definition plain (s : string) : opset := OpSet s None.
(* L133-249 generate_tpc *)
Definition generate_tpc (default_config base_config : opcfg) (mp : list opcfg) (name : string) : result tpc2 :=
  let! dq := new_qco None [default_config] in                                           (* L155 *)
  let! mq := new_qco (Some base_config) mp in                                           (* L158-159 *)
  let! nq := qco_edit_weights None disable_weights (qco_clone [] disable_activation dq) in   (* L169-170 *)
  let moved := map (fun s => OpSet s (Some nq)) no_quantization_names in
  let conv := OpSet "Conv" (Some mq) in let conv_transpose := OpSet "ConvTranspose" (Some mq) in
  let depthwise_conv := OpSet "DepthwiseConv2D" (Some mq) in let fc := OpSet "FullyConnected" (Some mq) in
  let relu := plain "ReLU" in let relu6 := plain "ReLU6" in let leaky_relu := plain "LeakyReLU" in let prelu := plain "PReLU" in
  let add := plain "Add" in let sub := plain "Sub" in let mul := plain "Mul" in let div := plain "Div" in
  let swish := plain "Swish" in let hard_swish := plain "HardSwish" in let sigmoid := plain "Sigmoid" in
  let tanh := plain "Tanh" in let hard_tanh := plain "HardTanh" in
  let ops := moved ++ [conv; conv_transpose; depthwise_conv; fc; relu; relu6; leaky_relu; add; sub; mul; div; prelu; swish;
                       hard_swish; sigmoid; tanh; hard_tanh] in                         (* L218-219 *)
  let any_relu := group [relu; relu6; leaky_relu; hard_tanh] in                         (* L220-227 *)
  let after_conv := group [relu; relu6; leaky_relu; hard_tanh; swish; hard_swish; prelu; sigmoid; tanh] in
  let conv_types := group [conv; conv_transpose; depthwise_conv] in
  let after_fc := group [relu; relu6; leaky_relu; hard_tanh; swish; hard_swish; sigmoid] in
  let any_binary := group [add; sub; mul; div] in
  let! f1 := fuse [conv_types; after_conv] in let! f2 := fuse [G_set fc; after_fc] in let! f3 := fuse [any_binary; any_relu] in
  new_tpc2 dq (Some ops) (Some [f1; f2; f3]) (Some 1%Z) (Some 0%Z) (Some "imx500"%string) false (Some name) true false.
(* L31-42 *)
Definition get_tpc : result tpc2 := generate_tpc eight_bits_default linear_eight_bits mixed_precision_cfg_list "imx500_tpc".

(* get_target_platform_capabilities.py L27-58; DEFAULT_TP_MODEL = 'default' *)
Definition get_target_platform_capabilities (tflite qnnpack : result tpc2) (fw name : string) (version : option string) : result tpc2 :=
  if negb (String.eqb fw "tensorflow" || String.eqb fw "pytorch") then Err E_assert else
  if String.eqb name "default" then get_tpc else
  if match version with Some v => negb (String.eqb v "v1") | None => false end then Err E_assert else
  if String.eqb name "imx500" then get_tpc else
  if String.eqb name "tflite" then tflite else
  if String.eqb name "qnnpack" then qnnpack else Err E_value.
