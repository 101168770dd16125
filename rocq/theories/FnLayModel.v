(* FnLayModel.v -- calls of TensorFlow functions replaced by Keras layers.
   Sources (under model_compression_toolkit/core/keras/graph_substitutions/substitutions): conv_funcs_to_layer.py L37-90,
     L106-199, L214-268; matmul_substitution.py L40-97; sigmoid_mul_to_swish.py L40-88.
   A functional node is what the reader makes of the call (KCallModel.v).  Names of parameters are numbers in the order of
   the alphabet; True and False are the integers 1 and 0.  Node names, shapes of the nodes, initializers, the reuse group
   and the number format of the arrays are not modelled. *)
From Coq Require Import String.
From Verif Require Import LinNode GraphModel HessianModel KCallModel.
Open Scope res_scope.
Local Open Scope nat_scope.

(* names *)
Definition p_a := 0. Definition p_adjoint_a := 1. Definition p_adjoint_b := 2. Definition p_b := 3. Definition p_bias := 4.
Definition p_data_format := 5. Definition p_dilations := 6. Definition p_filter := 7. Definition p_filters := 8.
Definition p_input := 9. Definition p_name := 10. Definition p_padding := 11. Definition p_rate := 12. Definition p_strides := 13.
Definition p_transpose_a := 14. Definition p_transpose_b := 15. Definition p_value := 16. Definition p_x := 17. Definition p_y := 18.

(* what stands behind a value that is not a number, a sequence or an array *)
Inductive pyobj := ONone | OStr (s : string) | OOther.

(* the layer put into the graph: Conv2D or DepthwiseConv2D with its weights and attributes *)
Record conv_layer := CLayer {
  cl_dw : bool;
  cl_kernel : nd; cl_bias : option nd;
  cl_strides : nat * nat; cl_dil : nat * nat; cl_pad : padding;
  cl_first : bool                        (* data_format is channels_first *)
}.

Section Sub.
Variable obj : nat -> pyobj.
Variable array_of : val -> nd.           (* the entries of a constant *)

Fixpoint contents (v : val) : nd := match v with VA v => contents v | _ => array_of v end.
Definition is_none (v : val) : bool := match v with VO o => match obj o with ONone => true | _ => false end | _ => false end.
Fixpoint ints (l : list val) : option (list nat) :=
  match l with
  | [] => Some []
  | VI i :: r => option_map (cons i) (ints r)
  | _ => None
  end.
(* conv_funcs_to_layer.py L176-199; a layer refuses other numbers of strides *)
Definition parse_pair (n : fnode) (key : nat) : result (option (nat * nat)) :=
  match dict_get key (f_kw n) with
  | None => Ok (Some (1, 1))
  | Some v =>
      if is_none v then Ok (Some (1, 1)) else
      match v with
      | VI i => Ok (Some (i, i))
      | VSeq _ l => match ints l with
                    | Some [a] => Ok (Some (a, a))
                    | Some [a; b] => Ok (Some (a, b))
                    | Some [a; b; c; d] => if Nat.ltb 1 a && Nat.ltb 1 d then Ok None else Ok (Some (b, c))
                    | _ => Err E_value
                    end
      | _ => Err E_type
      end
  end.
(* the attribute padding of a layer *)
Definition layer_padding (s : string) : result padding :=
  if String.eqb s "VALID" then Ok P_valid else if String.eqb s "SAME" then Ok P_same else Err E_value.
(* L147-151: the outer None: not a string, the graph is left alone *)
Definition parse_padding (v : option val) : result (option padding) :=
  let! s := match v with
            | None => Ok (Some "VALID"%string)
            | Some (VI 0) => Ok (Some "VALID"%string)
            | Some (VSeq _ []) => Ok (Some "VALID"%string)
            | Some (VO o) => match obj o with
                             | ONone => Ok (Some "VALID"%string)
                             | OStr s => Ok (Some (if String.eqb s "" then "VALID"%string else s))
                             | OOther => Ok None
                             end
            | Some _ => Ok None
            end in
  match s with Some s => let! p := layer_padding s in Ok (Some p) | None => Ok None end.
(* L164-165 *)
Definition parse_format (v : option val) : result bool :=
  match v with
  | None => Ok false
  | Some (VO o) => match obj o with
                   | OStr s => if String.eqb s "NHWC" then Ok false else if String.eqb s "NCHW" then Ok true else Err E_key
                   | _ => Err E_key
                   end
  | Some _ => Err E_key
  end.

(* ---- the bias that follows (L37-65) ---- *)
Inductive follower := F_add (n : fnode) | F_bias_add (n : fnode) | F_other.
Definition first_some {A} (a b : option A) : option A := match a with Some _ => a | None => b end.
Definition extract_bias (info : nat -> follower) (g : graph) (c : nat) (cn : fnode) : option nd :=
  match next_nodes g c with
  | [a] =>
      match prev_nodes g a with
      | [_] =>
          match info a with
          | F_add n => match first_some (dict_get 0 (f_weights n)) (dict_get 1 (f_weights n)) with
                       | Some w => let b := contents w in if Nat.eqb (length (shp b)) 1 then Some b else None
                       | None => None
                       end
          | F_bias_add n => option_map contents (first_some (dict_get 1 (f_weights n)) (dict_get p_bias (f_kw cn)))
          | F_other => None
          end
      | _ => None
      end
  | _ => None
  end.

(* ---- tf.nn.conv2d, tf.nn.convolution (L120-171) ---- *)
Definition conv_kernel (n : fnode) : option nd := option_map contents (first_some (dict_get 1 (f_weights n)) (dict_get p_filters (f_kw n))).
Definition convert_conv (n : fnode) (b : option nd) : result (option conv_layer) :=
  match conv_kernel n with
  | None => Ok None
  | Some k =>
      if negb (Nat.eqb (length (shp k)) 4) then Ok None else
      match f_args n with
      | _ :: _ => Err E_critical
      | [] =>
          let! s := parse_pair n p_strides in
          match s with
          | None => Ok None
          | Some s =>
              let! p := parse_padding (dict_get p_padding (f_kw n)) in
              match p with
              | None => Ok None
              | Some p =>
                  let! d := parse_pair n p_dilations in
                  match d with
                  | None => Ok None
                  | Some d => let! f := parse_format (dict_get p_data_format (f_kw n)) in
                              Ok (Some (CLayer false k b s d p f))
                  end
              end
          end
      end
  end.
(* ---- tf.nn.depthwise_conv2d (L228-265) ---- *)
(* the attribute dilation_rate of a layer *)
Definition layer_pair (v : val) : result (nat * nat) :=
  match v with
  | VI i => Ok (i, i)
  | VSeq _ l => match ints l with Some [a; b] => Ok (a, b) | _ => Err E_value end
  | _ => Err E_value
  end.
Definition given (k : nat) (n : fnode) : option val :=
  match dict_get k (f_kw n) with Some v => if is_none v then None else Some v | None => None end.
(* L242-247 *)
Definition dw_strides (n : fnode) : result (option (nat * nat)) :=
  match dict_get p_strides (f_kw n) with
  | None => Ok (Some (1, 1))
  | Some (VSeq _ l) => match ints l with
                       | Some (a :: b :: c :: d :: _) => if Nat.ltb 1 a || Nat.ltb 1 d then Ok None else Ok (Some (b, c))
                       | Some _ => Err E_index
                       | None => Err E_type
                       end
  | Some _ => Err E_type
  end.
(* L248-253; the layer's default is "valid" *)
Definition dw_padding (n : fnode) : result (option padding) :=
  match dict_get p_padding (f_kw n) with
  | None => Ok (Some P_valid)
  | Some (VO o) => match obj o with OStr s => let! p := layer_padding s in Ok (Some p) | _ => Ok None end
  | Some _ => Ok None
  end.
(* L254-257 *)
Definition dw_dilation (n : fnode) : result (nat * nat) :=
  match given p_rate n with
  | Some v => layer_pair v
  | None => match given p_dilations n with Some v => layer_pair v | None => Ok (1, 1) end
  end.
Definition convert_dw (n : fnode) (b : option nd) : result (option conv_layer) :=
  match dict_get 1 (f_weights n) with
  | None => Ok None
  | Some w =>
      let k := contents w in
      if Nat.ltb (length (shp k)) 4 then Err E_index else
      match f_args n with
      | _ :: _ => Err E_critical
      | [] =>
          let! s := dw_strides n in
          match s with
          | None => Ok None
          | Some s =>
              let! p := dw_padding n in
              match p with
              | None => Ok None
              | Some p => let! d := dw_dilation n in Ok (Some (CLayer true k b s d p false))
              end
          end
      end
  end.

(* ---- matmul_substitution.py L54-86; cfg is the configuration of the layer that wraps the function; the kernel of the
   Dense layer, which has no bias; the outer None: the graph is left alone ---- *)
Definition truth (v : option val) : bool :=
  match v with
  | None => false
  | Some (VI i) => negb (Nat.eqb i 0)
  | Some v => negb (is_none v)
  end.
Definition convert_matmul (cfg : kwargs) (prevs : nat) (n : fnode) : result (option nd) :=
  if Nat.ltb 1 prevs then Ok None else
  if truth (dict_get p_adjoint_a cfg) || truth (dict_get p_adjoint_b cfg) then Ok None else
  if truth (dict_get p_transpose_a cfg) then Ok None else
  match option_map contents (first_some (dict_get 1 (f_weights n)) (dict_get p_b (f_kw n))) with
  | None => Err E_critical
  | Some w =>
      if negb (Nat.eqb (length (shp w)) 2) then Ok None else
      Ok (Some (if truth (dict_get p_transpose_b (f_kw n)) || truth (nth_error (f_args n) 1) then transpose [1; 0] w else w))
  end.
End Sub.

(* ---- the edits of the graph ---- *)
Section Edits.
Variable validate : graph -> result unit.
(* conv_funcs_to_layer.py L77-90 without a bias to absorb; matmul_substitution.py L88-95 *)
Definition replace_call (g : graph) (n m : nat) : result graph :=
  let g := add_node_nx g m in
  let! g := reconnect_in_edges validate g n m in
  let! g := reconnect_out_edges validate g n m in
  let! g := replace_output_node validate g n m in
  remove_node validate g n None None.
(* conv_funcs_to_layer.py L77-90 with a bias *)
Definition replace_call_and_add (g : graph) (n m : nat) : result graph :=
  let g := add_node_nx g m in
  let! g := reconnect_in_edges validate g n m in
  match next_nodes g n with
  | [] => Err E_index
  | a :: _ =>
      let! g := reconnect_out_edges validate g a m in
      let! g := replace_output_node validate g a m in
      let! g := remove_edge validate g n a in
      let! g := remove_node validate g a None None in
      remove_node validate g n None None
  end.
Definition replace_conv_node (g : graph) (n m : nat) (remove_add : bool) : result graph :=
  if remove_add then replace_call_and_add g n m else replace_call g n m.
(* sigmoid_mul_to_swish.py L63-88 for the edge from the sigmoid s to the multiplication u *)
Definition substitute_swish (g : graph) (s u w : nat) : result graph :=
  if mem s (map fst (g_out g)) then Ok g else
  match prev_nodes g s with
  | [] => Err E_index
  | i :: _ =>
      if Nat.ltb 1 (length (next_nodes g s)) || negb (mem i (prev_nodes g u)) then Ok g else
      let g := add_node_nx g w in
      let! g := reconnect_in_edges validate g s w in
      let! g := reconnect_out_edges validate g u w in
      let! g := replace_output_node validate g u w in
      let! g := remove_edge validate g i u in
      let! g := remove_edge validate g s u in
      let! g := remove_node validate g s None None in
      remove_node validate g u None None
  end.
End Edits.

(* conv_funcs_to_layer.py L106-174 and L214-268: the edited graph and the layer of the new node m *)
Section Substitute.
Variable obj : nat -> pyobj.
Variable array_of : val -> nd.
Variable validate : graph -> result unit.
Definition substitute_conv (dw : bool) (info : nat -> follower) (g : graph) (c m : nat) (cn : fnode) : result (graph * option conv_layer) :=
  let b := extract_bias array_of info g c cn in
  let! l := if dw then convert_dw obj array_of cn b else convert_conv obj array_of cn b in
  match l with
  | None => Ok (g, None)
  | Some l => let! g := replace_conv_node validate g c m (match b with Some _ => true | None => false end) in Ok (g, Some l)
  end.
Definition substitute_matmul (cfg : kwargs) (g : graph) (c m : nat) (cn : fnode) : result (graph * option nd) :=
  let! w := convert_matmul obj array_of cfg (length (prev_nodes g c)) cn in
  match w with
  | None => Ok (g, None)
  | Some w => let! g := replace_call validate g c m in Ok (g, Some w)
  end.
End Substitute.
