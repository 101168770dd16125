(* LinNode.v -- the linear layers a substitution edits, as nodes of the graph hold them.
   Sources: core/common/graph/base_node.py (weights, framework_attr), core/keras/default_framework_info.py
   L58-61 and core/pytorch/default_framework_info.py L50-52 (channel axes of the kernels). *)
From Verif Require Export Nd.

(* Keras Conv2D, DepthwiseConv2D, Conv2DTranspose, Dense; PyTorch Conv2d, ConvTranspose2d, Linear *)
Inductive lkind : Set := K_conv | K_dw | K_convT | K_dense | T_conv | T_convT | T_linear.
(* the attribute padding: 'valid', 'same', or the two numbers of PyTorch *)
Inductive padding : Set := P_valid | P_same | P_num (ph pw : nat).
Record lin := Lin {
  l_kind : lkind;
  l_kernel : nd;              (* get_weights_by_keys(KERNEL) *)
  l_bias : option nd;         (* get_weights_by_keys(BIAS) *)
  l_use_bias : bool;          (* framework_attr[USE_BIAS] *)
  l_groups : nat;             (* framework_attr[GROUPS]; 1 for layers without the attribute *)
  l_in : nat; l_out : nat;    (* framework_attr[IN_CHANNELS], [OUT_CHANNELS] in PyTorch *)
  l_stride : nat * nat; l_dil : nat * nat; l_pad : padding
}.
Definition set_weights (l : lin) (k : nd) (b : option nd) (u : bool) : lin :=
  Lin (l_kind l) k b u (l_groups l) (l_in l) (l_out l) (l_stride l) (l_dil l) (l_pad l).
Definition set_kernel (l : lin) (k : nd) : lin := set_weights l k (l_bias l) (l_use_bias l).

(* channel_axis: (output, input) *)
Definition out_axis (k : lkind) : nat :=
  match k with K_conv => 3 | K_dw => 2 | K_convT => 2 | K_dense => 1 | T_conv => 0 | T_convT => 1 | T_linear => 0 end.
Definition in_axis (k : lkind) : nat :=
  match k with K_conv => 2 | K_dw => 2 | K_convT => 3 | K_dense => 0 | T_conv => 1 | T_convT => 0 | T_linear => 1 end.
