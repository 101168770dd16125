(* FnLayExProps.v -- C85: calls that meet the hypotheses, and calls whose meaning is lost. *)
From Coq Require Import Permutation Sorted String.
From Verif Require Import LinNode LinSpec GraphModel GraphSpec GraphProofs GraphProps EqualizeGraphProps DecompProps HessianModel KCallModel KCallSpec FnLayModel FnLaySpec FnLayProps.
Local Open Scope nat_scope.

Definition ob (o : nat) : pyobj := match o with 0 => ONone | 1 => OStr "VALID" | 2 => OStr "SAME" | 3 => OStr "NHWC" | 4 => OStr "NCHW" | _ => OOther end.
Definition zeros (s : list nat) : nd := Nd s (fun _ => 0%R).
(* constants: kernels and vectors *)
Definition ar (v : val) : nd :=
  match v with
  | VC 0 => zeros [1; 1; 1; 1]
  | VC 1 => zeros [1; 1; 1; 2]
  | VC 2 => Nd [2] (fun i => INR (nth 0 i 0))
  | VC 3 => zeros [1]
  | VC 4 => zeros [2; 1]
  | VC 5 => zeros [1; 1; 2; 2]
  | _ => zeros []
  end.
Definition nums (l : list nat) : val := VSeq true (map VI l).

Definition nothing : fnode := FNode [] [] [] [] false.
Definition node_of (ps : params) (args : list val) (kw : kwargs) : fnode := match read_function ps false args kw with Ok n => n | Err _ => nothing end.
Ltac call := repeat split; cbn; try lia; try discriminate; try tauto; try (repeat constructor; cbn; intuition discriminate); try (intros; intuition (subst; cbn; auto; fail)).

Lemma plain_of args kw : Forall simple args -> Forall (fun q => simple (snd q)) kw -> plain_call args kw.
Proof. intros A B. rewrite Forall_forall in A, B. split; [exact A|]. intros k v I. apply (B _ I). Qed.
Ltac plain := apply plain_of; repeat (apply Forall_cons || apply Forall_nil); cbn; try exact I; (split; [discriminate|reflexivity]).

(* ---- instances ---- *)
(* tf.nn.conv2d(x, k, strides=[1, 2, 2, 1], padding="SAME"), an image of one pixel *)
Definition c_args : list val := [VT 0; VC 0].
Definition c_kw : kwargs := [(p_strides, nums [1; 2; 2; 1]); (p_padding, VO 2)].
Definition pixel : nd := zeros [1; 1; 1].
Example conv_call_ex : conv_call ob c_args c_kw /\ ungrouped ob ar c_args c_kw pixel /\ tf_conv2d ob ar c_args c_kw pixel <> None.
Proof.
  split; [|split; [|discriminate]].
  - constructor; [call| | | | | | | |]; cbn.
    + plain.
    + exists (VC 0). split; reflexivity.
    + discriminate.
    + discriminate.
    + exact I.
    + exact I.
    + discriminate.
    + left. reflexivity.
  - intros first h w c v F D G. cbn in F, G. injection F as <-. injection G as <-. cbn in D. injection D as _ _ <-. reflexivity.
Qed.
Definition chain : graph := Graph [0; 1; 2] [Edge 0 1 0 0; Edge 1 2 0 0] [0] [(2, 0)].
(* followed by tf.add(y, b): the addition goes into the layer *)
Example conv_absorbs_ex : exists g' L, substitute_conv ob ar no_check false (fun a => if Nat.eqb a 2 then F_add (node_of add_sig [VT 0; VC 3] []) else F_other) chain 1 3 (node_of conv_sig c_args c_kw) = Ok (g', Some L) /\
  g_nodes g' = [0; 3] /\ g_edges g' = [Edge 0 3 0 0] /\ g_out g' = [(3, 0)] /\ cl_bias L = Some (zeros [1]) /\ cl_strides L = (2, 2) /\ cl_pad L = P_same.
Proof. do 2 eexists. split; [reflexivity|]. repeat split. Qed.
Example conv_follower_ex : follower_sound ob ar false 1 (fun _ l _ => match l with [Some y] => tf_add ar [VT 0; VC 3] [] y | _ => None end) (fun a => if Nat.eqb a 2 then F_add (node_of add_sig [VT 0; VC 3] []) else F_other) chain 1.
Proof.
  intros a (L & _). assert (a = 2) as ->. { destruct L as (e & I & S & K). cbn in I. intuition (subst; cbn in *; congruence). } cbn [Nat.eqb]. eapply (fo_add _ _ _ _ _ _ [VT 0; VC 3] [] (VC 3)).
  - call.
  - apply plain_of; repeat constructor.
  - left. split; [reflexivity|]. exists 0. reflexivity.
  - reflexivity.
  - reflexivity.
  - reflexivity.
  - intros _. split; reflexivity.
Qed.
Definition d_kw : kwargs := [(p_strides, nums [1; 1; 1; 1]); (p_padding, VO 1)].
Example depthwise_call_ex : dw_call ob c_args d_kw /\ tf_depthwise_conv2d ob ar c_args d_kw pixel <> None /\ exists L, convert_dw ob ar (node_of dw_sig c_args d_kw) None = Ok (Some L).
Proof.
  split; [|split; [discriminate|eexists; reflexivity]]. constructor; [call| | | | | | |]; cbn.
  - plain.
  - exists (VC 0). split; reflexivity.
  - discriminate.
  - discriminate.
  - exact I.
  - intros v E. injection E as <-. reflexivity.
  - reflexivity.
Qed.
(* tf.nn.convolution with a vector for kernel; tf.matmul of two tensors *)
Example left_alone_ex : substitute_conv ob ar no_check false (fun _ => F_other) chain 1 3 (node_of conv_sig [VT 0; VC 2] []) = Ok (chain, None) /\
  length (prev_nodes (Graph [0; 1; 2] [Edge 0 2 0 0; Edge 1 2 0 1] [0; 1] [(2, 0)]) 2) = 2.
Proof. split; reflexivity. Qed.
(* tf.matmul(x, w, transpose_b=True) *)
Example matmul_call_ex : matmul_call ob [VT 0; VC 4] [(p_transpose_b, VI 1)] /\ plain_config ob [] /\ tf_matmul ob ar [VT 0; VC 4] [(p_transpose_b, VI 1)] (zeros [3; 1]) <> None /\
  exists w, convert_matmul ob ar [] 1 (node_of matmul_sig [VT 0; VC 4] [(p_transpose_b, VI 1)]) = Ok (Some w) /\ shp w = [1; 2].
Proof.
  split; [|split; [repeat split|split; [discriminate|eexists; split; reflexivity]]]. constructor; cbn.
  - call.
  - apply plain_of; repeat constructor.
  - exists 0. reflexivity.
  - exists (VC 4). split; reflexivity.
  - split; [discriminate|]. intros t E. discriminate.
  - reflexivity.
  - reflexivity.
  - reflexivity.
Qed.
Definition gate : graph := Graph [0; 1; 2] [Edge 0 1 0 0; Edge 0 2 0 0; Edge 1 2 0 1] [0] [(2, 0)].
Example swish_ex : wf gate /\ swish_site gate 1 2 /\ swish_found gate 1 2 /\ exists g', substitute_swish no_check gate 1 2 3 = Ok g' /\ g_nodes g' = [0; 3] /\ g_edges g' = [Edge 0 3 0 0] /\ g_out g' = [(3, 0)].
Proof.
  split; [split; [repeat (constructor; [cbn; intuition lia|]); constructor|]; intros e I; cbn in *; intuition (subst; cbn; tauto)|]. split; [|split; [|eexists; split; [reflexivity|repeat split]]].
  - constructor; cbn; auto; try lia; try reflexivity; [exists (Edge 1 2 0 1); cbn; auto| |]; intros (e & I & S & K); cbn in I; intuition (subst; cbn in *; congruence).
  - split; [cbn; intuition congruence|]. split; [reflexivity|]. exists 0. split; [exists (Edge 0 1 0 0)|exists (Edge 0 2 0 0)]; cbn; auto.
Qed.

(* ---- lost meaning ---- *)
(* FINDING (conv_funcs_to_layer.py L147, keras/reader/node_builder.py L48-49): padding given as a list of lists is taken for a
   constant array and stored with the weights, so the conversion finds no padding and builds a layer with padding "valid": the
   padding of the model is dropped without a message *)
Theorem explicit_padding_refuted : exists kw L y z, convert_conv ob ar (node_of conv_sig c_args kw) None = Ok (Some L) /\
  gives conv_sig c_args kw p_padding = Some (VSeq true [nums [0; 0]; nums [1; 1]; nums [0; 0]; nums [0; 0]]) /\
  tf_conv2d ob ar c_args kw pixel = Some y /\ run_layer L pixel = Some z /\ shp y = [3; 1; 1] /\ shp z = [1; 1; 1].
Proof.
  exists [(p_strides, nums [1; 1; 1; 1]); (p_padding, VSeq true [nums [0; 0]; nums [1; 1]; nums [0; 0]; nums [0; 0]])]. do 3 eexists. repeat split.
Qed.
(* FINDING (conv_funcs_to_layer.py L195-198): four strides of a call in NCHW are read at the places of NHWC, and the check
   that the others are 1 asks for both to be larger: the layer gets the stride of the channels and of the height *)
Theorem channels_first_strides_refuted : exists kw L y z, convert_conv ob ar (node_of conv_sig c_args kw) None = Ok (Some L) /\
  tf_conv2d ob ar c_args kw (zeros [1; 3; 3]) = Some y /\ run_layer L (zeros [1; 3; 3]) = Some z /\ cl_first L = true /\ shp y = [1; 2; 2] /\ shp z = [1; 3; 2].
Proof. exists [(p_strides, nums [1; 1; 2; 2]); (p_padding, VO 1); (p_data_format, VO 4)]. do 3 eexists. repeat split. Qed.
(* FINDING (conv_funcs_to_layer.py L164-165): a layout given as None, the default of tf.nn.convolution, is looked up in a
   table of names: the conversion stops with a key error *)
Theorem default_layout_refuted : exists kw, convert_conv ob ar (node_of conv_sig c_args kw) None = Err E_key /\ tf_conv2d ob ar c_args kw pixel <> None /\ gives conv_sig c_args kw p_data_format = Some (VO 0).
Proof. exists [(p_strides, nums [1; 1]); (p_padding, VO 1); (p_data_format, VO 0)]. repeat split. discriminate. Qed.
(* FINDING (conv_funcs_to_layer.py L167): the layer always has one group: a grouped convolution, whose kernel has fewer input
   channels than the image, becomes a layer that refuses the image *)
Theorem grouped_function_refuted : exists kw L, convert_conv ob ar (node_of conv_sig [VT 0; VC 1] kw) None = Ok (Some L) /\ tf_conv2d ob ar [VT 0; VC 1] kw (zeros [1; 1; 2]) <> None /\ run_layer L (zeros [1; 1; 2]) = None.
Proof. exists [(p_strides, nums [1; 1]); (p_padding, VO 1)]. eexists. repeat split. discriminate. Qed.
(* FINDING (conv_funcs_to_layer.py L228-265): the layout of a depthwise convolution is not looked at: the layer takes the last
   axis for the channels *)
Theorem depthwise_layout_refuted : exists kw L, convert_dw ob ar (node_of dw_sig c_args kw) None = Ok (Some L) /\ tf_depthwise_conv2d ob ar c_args kw (zeros [1; 2; 3]) <> None /\ run_layer L (zeros [1; 2; 3]) = None.
Proof. exists [(p_strides, nums [1; 1; 1; 1]); (p_padding, VO 1); (p_data_format, VO 4)]. eexists. repeat split. discriminate. Qed.
(* FINDING (conv_funcs_to_layer.py L50-57): tf.add of a vector behind a convolution in NCHW adds along the width; the
   conversion makes it the bias of the channels *)
Theorem channels_first_addition_refuted : exists kw L y z y', 
  extract_bias ar (fun _ => F_add (node_of add_sig [VT 0; VC 2] [])) chain 1 (node_of conv_sig [VT 0; VC 5] kw) = Some (ar (VC 2)) /\
  convert_conv ob ar (node_of conv_sig [VT 0; VC 5] kw) (Some (ar (VC 2))) = Ok (Some L) /\
  tf_conv2d ob ar [VT 0; VC 5] kw (zeros [2; 2; 2]) = Some y /\ tf_add ar [VT 0; VC 2] [] y = Some z /\ run_layer L (zeros [2; 2; 2]) = Some y' /\
  at_ z [0; 0; 1] = 1%R /\ at_ y' [0; 0; 1] = 0%R.
Proof.
  exists [(p_strides, nums [1; 1]); (p_padding, VO 1); (p_data_format, VO 4)]. do 4 eexists. split; [reflexivity|]. split; [reflexivity|]. split; [reflexivity|]. split; [reflexivity|]. split; [reflexivity|].
  split; cbn; change (Pos.to_nat 2) with 2; cbn; unfold lin_val; cbn; unfold weight; cbn; ring.
Qed.
(* FINDING (conv_funcs_to_layer.py L50-57): a vector of one entry is added to all channels; the conversion makes it the bias
   of a layer with more channels, which is refused *)
Theorem single_addition_refuted : exists kw L y, 
  extract_bias ar (fun _ => F_add (node_of add_sig [VT 0; VC 3] [])) chain 1 (node_of conv_sig [VT 0; VC 5] kw) = Some (ar (VC 3)) /\
  convert_conv ob ar (node_of conv_sig [VT 0; VC 5] kw) (Some (ar (VC 3))) = Ok (Some L) /\
  tf_conv2d ob ar [VT 0; VC 5] kw (zeros [1; 1; 2]) = Some y /\ tf_add ar [VT 0; VC 3] [] y <> None /\ run_layer L (zeros [1; 1; 2]) = None.
Proof. exists [(p_strides, nums [1; 1]); (p_padding, VO 1)]. do 2 eexists. repeat split. discriminate. Qed.
(* FINDING (conv_funcs_to_layer.py L40-44, L87-90): whether the convolution is itself an output of the model is not looked at;
   if it is, absorbing the addition stops when the node is removed *)
Theorem output_absorbed_refuted : substitute_conv ob ar no_check false (fun _ => F_add (node_of add_sig [VT 0; VC 3] [])) (Graph [0; 1; 2] [Edge 0 1 0 0; Edge 1 2 0 0] [0] [(1, 0); (2, 0)]) 1 3 (node_of conv_sig c_args c_kw) = Err E_critical.
Proof. reflexivity. Qed.
(* FINDING (matmul_substitution.py L62-66): the flags transpose_a, adjoint_a and adjoint_b are looked up in the configuration of
   the layer around the function, not among the arguments of the call, so they are ignored *)
Theorem transposed_operand_refuted : exists w, matmul_sig = [p_a; p_b; p_transpose_a; p_transpose_b; p_adjoint_a; p_adjoint_b; p_name] /\ 
  convert_matmul ob ar [] 1 (node_of matmul_sig [VT 0; VC 4] [(p_transpose_a, VI 1)]) = Ok (Some w) /\
  tf_matmul ob ar [VT 0; VC 4] [(p_transpose_a, VI 1)] (zeros [2; 3]) <> None /\ run_dense w (zeros [2; 3]) = None.
Proof. eexists. repeat split. discriminate. Qed.
Theorem adjoint_operand_refuted : exists w y, convert_matmul ob ar [] 1 (node_of matmul_sig [VT 0; VC 4] [(p_adjoint_b, VI 1)]) = Ok (Some w) /\
  tf_matmul ob ar [VT 0; VC 4] [(p_adjoint_b, VI 1)] (zeros [3; 1]) = Some y /\ shp y = [3; 2] /\ run_dense w (zeros [3; 1]) = None.
Proof. do 2 eexists. repeat split. Qed.
(* FINDING (matmul_substitution.py L68-73): a constant in the first place, tf.matmul(w, x), stops the conversion *)
Theorem constant_first_refuted : convert_matmul ob ar [] 1 (node_of matmul_sig [VC 4; VT 0] []) = Err E_critical /\ tf_matmul ob ar [VC 4; VT 0] [] (zeros [1; 3]) <> None.
Proof. split; [reflexivity|discriminate]. Qed.
(* FINDING (sigmoid_mul_to_swish.py L63-66): the nodes are compared, not the tensors: a product of one output of a node with
   the sigmoid of another of its outputs is replaced, and the first output is no longer read *)
Theorem two_tensors_swish_refuted : exists g g', swish_site g 1 2 /\ In (Edge 0 1 1 0) (g_edges g) /\ In (Edge 0 2 0 0) (g_edges g) /\ substitute_swish no_check g 1 2 3 = Ok g' /\ g_edges g' = [Edge 0 3 1 0].
Proof.
  exists (Graph [0; 1; 2] [Edge 0 1 1 0; Edge 0 2 0 0; Edge 1 2 0 1] [0] [(2, 0)]). eexists. split; [|cbn; auto 6].
  constructor; cbn; auto; try lia; try reflexivity; [exists (Edge 1 2 0 1); cbn; auto| |]; intros (e & I & S & K); cbn in I; intuition (subst; cbn in *; congruence).
Qed.
(* FINDING (sigmoid_mul_to_swish.py L63-88): the number of tensors multiplied is not looked at: with a third one the node that
   is to be removed still has an edge, and the substitution stops *)
Theorem three_factors_refuted : exists g e, In (Edge 3 2 0 2) (g_edges g) /\ substitute_swish no_check g 1 2 4 = Err e.
Proof. exists (Graph [0; 1; 2; 3] [Edge 0 1 0 0; Edge 0 2 0 0; Edge 1 2 0 1; Edge 3 2 0 2] [0; 3] [(2, 0)]). eexists. split; [cbn; auto|reflexivity]. Qed.
Print Assumptions explicit_padding_refuted.
Print Assumptions channels_first_strides_refuted.
Print Assumptions default_layout_refuted.
Print Assumptions grouped_function_refuted.
Print Assumptions depthwise_layout_refuted.
Print Assumptions channels_first_addition_refuted.
Print Assumptions single_addition_refuted.
Print Assumptions output_absorbed_refuted.
Print Assumptions transposed_operand_refuted.
Print Assumptions adjoint_operand_refuted.
Print Assumptions constant_first_refuted.
Print Assumptions two_tensors_swish_refuted.
Print Assumptions three_factors_refuted.
