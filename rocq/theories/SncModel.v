(* SncModel.v -- shift negative correction: the corrected layer, its padding, and the editing of the graph.
   Sources: core/common/substitutions/shift_negative_activation.py L46-87, L247-505,
     core/keras/graph_substitutions/substitutions/shift_negative_activation.py L150-230,
     core/pytorch/graph_substitutions/substitutions/shift_negative_activation.py L180-222.
   Real numbers stand for floating point numbers.  The choice of the shift is SncShiftModel.v; the
   statistics, quantization configurations and fusing information that the pass updates are not modelled. *)
From Verif Require Import LinNode BnModel GraphModel.

(* L70-80: the axes over which the kernel is summed *)
Definition sum_axes (l : lin) : list nat :=
  let axes := filter (fun k => negb (Nat.eqb k (out_axis (l_kind l)))) (seq 0 (length (shp (l_kernel l)))) in
  if Nat.eqb (out_axis (l_kind l)) (in_axis (l_kind l)) then filter (fun k => negb (Nat.eqb k 3)) axes else axes.
(* L46-87 *)
Definition op2d_bias_correction (l : lin) (shift : R) : result lin :=
  let bias := opt (l_bias l) 0 in
  let flag := match l_bias l with None => true | Some _ => l_use_bias l end in
  let correction := nmap (Rmult shift) (nsum (sum_axes l) (l_kernel l)) in
  let! b := bop Rminus bias (flatten correction) in
  Ok (set_weights l (l_kernel l) (Some b) flag).

Record pads := Pads { p_top : Z; p_btm : Z; p_left : Z; p_right : Z }.
Definition set_pad (l : lin) (p : padding) : lin :=
  Lin (l_kind l) (l_kernel l) (l_bias l) (l_use_bias l) (l_groups l) (l_in l) (l_out l) (l_stride l) (l_dil l) p.
(* framework_attr[KERNEL_SIZE] of a convolution, which is the extent of its kernel *)
Definition kernel_size (l : lin) (k : nat) : Z := Z.of_nat (nth k (kernel_hw l) 1%nat).
(* keras L150-180; hw and ohw: height and width of input_shape and output_shape *)
Definition compute_op2d_padding (l : lin) (hw ohw : Z * Z) : pads :=
  let sh := Z.of_nat (fst (l_stride l)) in
  let sw := Z.of_nat (snd (l_stride l)) in
  let ph := (sh * fst ohw - fst hw + kernel_size l 0 - sh)%Z in
  let pw := (sw * snd ohw - snd hw + kernel_size l 1 - sw)%Z in
  Pads (ph / 2) (ph - ph / 2) (pw / 2) (pw - pw / 2).
(* keras L183-199, pytorch L180-204: the values and the node with its padding switched off.  Dense layers have no padding attribute. *)
Definition get_padding_values (l : lin) (hw ohw : Z * Z) : option pads * lin :=
  match l_kind l with
  | K_conv | K_dw | K_convT =>
      match l_pad l with
      | P_same => if Z.eqb (kernel_size l 0) 1 && Z.eqb (kernel_size l 1) 1 then (None, l)
                  else (Some (compute_op2d_padding l hw ohw), set_pad l P_valid)
      | _ => (None, l)
      end
  | T_conv | T_convT =>
      match l_pad l with
      | P_num a b => (Some (Pads (Z.of_nat a) (Z.of_nat a) (Z.of_nat b) (Z.of_nat b)), set_pad l (P_num 0 0))
      | _ => (None, l)                                  (* a string: the padding stays *)
      end
  | K_dense | T_linear => (None, l)
  end.
(* L356-374, L383-386, L400-409: zero is the padding of a ZeroPadding2D node in front of the layer; PyTorch's
   ZeroPad2d keeps four numbers, and padding[0][0] raises.  The result: the new layer and the pad node, if any *)
Definition correct_layer (l : lin) (hw ohw : Z * Z) (zero : option pads) (shift : R) : result (lin * option pads) :=
  let! pl := match zero with
             | Some z => if is_keras (l_kind l) then Ok (Some z, l) else Err E_type
             | None => Ok (get_padding_values l hw ohw) end in
  let! l' := op2d_bias_correction (snd pl) shift in
  Ok (l', match fst pl with
          | Some p => if (0 <? p_top p + p_btm p + p_left p + p_right p)%Z then Some p else None
          | None => None end).

(* ---- the graph: L356-365, L382-384, L407-417 ---- *)
Definition snc_graph (validate : graph -> result unit) (g : graph) (nl op2d add : nat) (zero pad : option nat) : result graph :=
  let! g := match zero with Some z => remove_between validate g z nl op2d | None => Ok g end in
  let! g := insert_after validate g add nl in
  match pad with Some p => insert_before validate g p op2d | None => Ok g end.

(* L489-560: the next linear node, a padding node and the nodes between; fuel stands for the depth of the recursion *)
Section Next.
Variables (linear bypass is_pad : nat -> bool) (clash : option nat -> nat -> bool) (g : graph).
Fixpoint next_to_correct (fuel : nat) (n : nat) (pad : option nat) (by_ : list nat) : result (option (nat * option nat * list nat)) :=
  match fuel with
  | O => Err E_fuel
  | S f =>
      match next_nodes g n with
      | [m] =>
          if linear m then if clash pad m then Ok None else Ok (Some (m, pad, by_))
          else if bypass m then next_to_correct f m pad (by_ ++ [m])
          else if is_pad m then match pad with None => next_to_correct f m (Some m) by_ | Some _ => Ok None end
          else Ok None
      | _ => Ok None
      end
  end.
End Next.
(* keras L202-216, pytorch L207-222 *)
Definition pad_clash (l : lin) : bool :=
  match l_kind l with
  | K_conv | K_dw | K_convT => match l_pad l with P_same => true | _ => false end
  | T_conv | T_convT => match l_pad l with P_num a b => Nat.ltb 0 (a + b) | _ => false end
  | _ => false
  end.
