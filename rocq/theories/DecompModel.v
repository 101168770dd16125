(* DecompModel.v -- layers replaced by equivalent layers when the graph is prepared.
   Sources: core/keras/graph_substitutions/substitutions/dwconv_to_conv.py L39-123,
     separableconv_decomposition.py L48-166 and activation_decomposition.py L29-107 of the same directory.
   A DepthwiseConv2D is a layer of kind K_dw; its depth multiplier is l_out / l_in.  Initializers, regularizers, constraints, names and the
   reuse group of the new nodes are not modelled (they do not influence what the model computes unless a layer is reused). *)
From Coq Require Import String.
From Verif Require Import LinNode GraphModel.
Open Scope string_scope.
Open Scope R_scope.

(* ---- DepthwiseConv2D with several filters per channel ---- *)
(* dwconv_to_conv.py L83-115: None if the layer is left alone; the new node is built without a bias unless use_bias *)
Definition dw_to_conv (l : lin) : result (option lin) :=
  if Nat.eqb (l_out l / l_in l) 1 then Ok None else
  match shp (l_kernel l) with
  | [h; w; c; m] =>
      let! k := reshape (l_kernel l) [Some h; Some w; Some 1%nat; Some (c * m)%nat] in
      let! b := if l_use_bias l then match l_bias l with Some b => Ok (Some b) | None => Err E_index end else Ok None in
      Ok (Some (Lin K_conv k b (l_use_bias l) c (l_in l) (c * m) (l_stride l) (l_dil l) (l_pad l)))
  | _ => Err E_index
  end.
(* ---- SeparableConv2D ---- *)
Record sep := Sep {
  s_dk : nd; s_pk : nd;                     (* depthwise_kernel, pointwise_kernel *)
  s_bias : option nd; s_use_bias : bool;
  s_in : nat; s_mult : nat; s_out : nat;    (* channels of the input, depth_multiplier, filters *)
  s_stride : nat * nat; s_dil : nat * nat; s_pad : padding
}.
(* separableconv_decomposition.py L75-112 *)
Definition sep_dw (s : sep) : lin := Lin K_dw (s_dk s) None false 1 (s_in s) (s_in s * s_mult s) (s_stride s) (s_dil s) (s_pad s).
Definition sep_pw (s : sep) : lin := Lin K_conv (s_pk s) (s_bias s) (s_use_bias s) 1 (s_in s * s_mult s) (s_out s) (1, 1)%nat (s_dil s) P_valid.

(* ---- the activation attribute of a layer ---- *)
(* activation_decomposition.py L45-95, L105: the node put behind the layer and the attribute the layer keeps; None: the layer does not match *)
Inductive post_node := N_softmax (axis : Z) | N_activation (name : string).
Definition decompose_activation (act : option string) : option (post_node * string) :=
  match act with
  | None => None
  | Some a => if String.eqb a "linear" then None else
              Some (if String.eqb a "softmax" then N_softmax (-1) else N_activation a, "linear"%string)
  end.

(* ---- the edits of the graph ---- *)
Section Edits.
Variable validate : graph -> result unit.
(* dwconv_to_conv.py L117-128: n is replaced by m *)
Definition swap_node (g : graph) (n m : nat) : result graph :=
  let g := add_node_nx g m in
  match in_edges g n with
  | [] => Err E_index
  | e :: _ => let! g := add_edge validate g (Edge (src e) m (si e) (ti e)) in
              let! g := remove_edge validate g (src e) n in
              let! g := reconnect_out_edges validate g n m in
              remove_node validate g n None (Some [(m, 0%nat)])
  end.
(* separableconv_decomposition.py L148-166: n is replaced by d and p *)
Definition split_node (g : graph) (n d p : nat) : result graph :=
  let g := add_node_nx (add_node_nx g d) p in
  let! g := add_edge validate g (Edge d p 0 0) in
  let! g := reconnect_in_edges validate g n d in
  let! g := reconnect_out_edges validate g n p in
  let! g := replace_output_node validate g n p in
  remove_node validate g n None None.
(* activation_decomposition.py L93-105: a is put behind n *)
Definition append_node (g : graph) (n a : nat) : result graph :=
  let g := add_node_nx g a in
  let! g := reconnect_out_edges validate g n a in
  let! g := add_edge validate g (Edge n a 0 0) in
  replace_output_node validate g n a.
End Edits.
