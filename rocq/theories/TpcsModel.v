(* TpcsModel.v -- C110: the TFLite and QNNPACK platform descriptions.

   Modelled (under model_compression_toolkit/target_platform_capabilities/tpc_models/):
     qnnpack_tpc/v1/tpc.py L28-186, tflite_tpc/v1/tpc.py L28-226
   on top of PlatModel.v; a node is configured as in LookupModel.v (node_quantization_config.py L106-107 raises).  QuantizationMethod.POWER_OF_TWO is 0, SYMMETRIC 1, UNIFORM 2; a fixed scale 1/n is the number n. *)
From Coq Require Import String.
From Verif Require Import Base SDict PlatModel ImxModel.
Local Open Scope list_scope.

Definition uniform : nat := 2.
Definition weights_off : attrcfg := AttrCfg symmetric 8 false false None.                     (* qnnpack L57-62, tflite L56-61 *)
Definition kernel_of (per_channel : bool) : attrcfg := AttrCfg symmetric 8 per_channel true None.   (* qnnpack L65-70, tflite L64-69 *)
Definition bias_off : attrcfg := AttrCfg symmetric 32 false false None.                       (* qnnpack L73-78, tflite L72-77 *)
Definition eight_bits : opcfg := new_opcfg weights_off [] pot 8 (I_int 8) true false 0 None None (Some 32%Z).   (* L88-99, L85-96 *)
Definition linear_config (per_channel : bool) : opcfg :=                                      (* L102-113, L99-110 *)
  new_opcfg weights_off [("kernel_attr"%string, kernel_of per_channel); ("bias_attr"%string, bias_off)] uniform 8 (I_int 8) true false 0 None None None.

(* qnnpack L120-186 generate_tpc: base_config and mixed_precision_cfg_list are not used *)
Definition qnnpack_generate (default_config base_config : opcfg) (mp : list opcfg) (name : string) : result tpc2 :=
  let! dq := new_qco None [default_config] in
  let conv := plain "Conv" in let conv_depthwise := plain "DepthwiseConv2D" in let conv_transpose := plain "ConvTranspose" in
  let batchnorm := plain "BatchNorm" in let relu := plain "ReLU" in let relu6 := plain "ReLU6" in
  let hard_tanh := plain "HardTanh" in let fc := plain "FullyConnected" in
  let convs := group [conv; conv_transpose] in let relus := group [relu; relu6; hard_tanh] in
  let! f1 := fuse [convs; G_set batchnorm; relus] in let! f2 := fuse [convs; G_set batchnorm] in
  let! f3 := fuse [convs; relus] in let! f4 := fuse [G_set fc; relus] in
  new_tpc2 dq (Some [conv; conv_depthwise; conv_transpose; batchnorm; relu; relu6; hard_tanh; fc]) (Some [f1; f2; f3; f4])
           (Some 1%Z) (Some 0%Z) (Some "qnnpack"%string) false (Some name) false false.
(* L28-43 *)
Definition qnnpack_tpc : result tpc2 := qnnpack_generate eight_bits (linear_config false) [] "qnnpack_tpc".

(* tflite L148-164, L185-187 *)
Definition preserving_names : list string :=
  ["Unstack"; "Transpose"; "Gather"; "Reshape"; "MaxPool"; "AvgPool"; "StridedSlice"; "Concatenate"; "Mul"; "Min"; "Max"; "ZeroPadding2D";
   "Resize"; "Pad"; "Fold"]%string.
Definition preserve_edit : op_edit := OpEdit None None None None None None (Some true) None None None None.
Definition fixed (zero scale : Z) : op_edit := OpEdit None None None None None None None None (Some (Some scale)) (Some (Some zero)) None.
Definition per_tensor : attr_edit := AttrEdit None None (Some false) None None.
(* L117-226 generate_tpc *)
Definition tflite_generate (default_config base_config : opcfg) (mp : list opcfg) (name : string) : result tpc2 :=
  let! dq := new_qco None [default_config] in
  let! bq := new_qco (Some base_config) [base_config] in
  let pq := qco_clone [] preserve_edit dq in
  let! sq := qco_edit_weights None per_tensor dq in
  let! fq := qco_edit_weights None per_tensor bq in
  let sigmoid := OpSet "Sigmoid" (Some sq) in let tanh := OpSet "Tanh" (Some (qco_clone [] (fixed (-128) 256) dq)) in
  let fc := OpSet "FullyConnected" (Some fq) in let squeeze := OpSet "Squeeze" (Some pq) in let conv2d := OpSet "Conv" (Some bq) in
  let relu := plain "ReLU" in let relu6 := plain "ReLU6" in let elu := plain "Elu" in let batch_norm := plain "BatchNorm" in
  let add := plain "Add" in let bias_add := plain "AddBias" in
  let kernel := group [conv2d; fc] in let acts := group [relu; elu] in
  let ops := map (fun s => OpSet s (Some pq)) preserving_names ++
    [OpSet "L2Norm" (Some (qco_clone [] (fixed 0 128) dq)); OpSet "LogSoftmax" (Some (qco_clone [] (fixed 127 16) dq));
     OpSet "Softmax" (Some (qco_clone [] (fixed (-128) 256) dq))] ++
    [fc; conv2d; relu; relu6; tanh; sigmoid; batch_norm; add; bias_add; elu; squeeze] in
  let! f1 := fuse [kernel; G_set bias_add] in let! f2 := fuse [kernel; G_set bias_add; acts] in
  let! f3 := fuse [G_set conv2d; G_set batch_norm; acts] in let! f4 := fuse [G_set conv2d; G_set squeeze; acts] in
  let! f5 := fuse [G_set batch_norm; acts] in let! f6 := fuse [G_set batch_norm; G_set add; acts] in
  new_tpc2 dq (Some ops) (Some [f1; f2; f3; f4; f5; f6]) (Some 1%Z) (Some 0%Z) (Some "tflite"%string) false (Some name) false false.
(* L28-42 *)
Definition tflite_tpc : result tpc2 := tflite_generate eight_bits (linear_config true) [] "tflite_tpc".
