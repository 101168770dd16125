(* FnLaySpec.v -- what the TensorFlow functions and the Keras layers that replace them compute.
   Arrays are those of one sample: height, width, channels (NHWC) or channels, height, width (NCHW); entries outside an
   array are 0.  None stands for a call that is refused. *)
From Coq Require Import String.
From Verif Require Import LinNode LinSpec GraphModel GraphSpec EqualizeGraphProps HessianModel KCallModel KCallSpec FnLayModel.
Local Open Scope nat_scope.

Fixpoint inside (s idx : list nat) : bool :=
  match s, idx with [], [] => true | d :: s, i :: idx => Nat.ltb i d && inside s idx | _, _ => false end.
Definition array (s : list nat) (f : list nat -> R) : nd := Nd s (fun idx => if inside s idx then f idx else 0%R).
Definition entry (a : nd) (idx : list nat) : R := if inside (shp a) idx then at_ a idx else 0%R.

(* ---- the layout of an image ---- *)
Definition dims (first : bool) (s : list nat) : option (nat * nat * nat) :=
  match s with [a; b; c] => Some (if first then (b, c, a) else (a, b, c)) | _ => None end.
Definition place (first : bool) (h w c : nat) : list nat := if first then [c; h; w] else [h; w; c].
(* the channel and the position an index stands for *)
Definition where_ (first : bool) (idx : list nat) : nat * (Z * Z) :=
  let '(a, b, c) := match idx with [a; b; c] => (a, b, c) | _ => (0, 0, 0) end in
  if first then (a, (Z.of_nat b, Z.of_nat c)) else (c, (Z.of_nat a, Z.of_nat b)).
Definition pixels (first : bool) (x : nd) : LinSpec.tensor := fun c p => at_ x (place first (Z.to_nat (fst p)) (Z.to_nat (snd p)) c).
(* a convolution applied to an array in the given layout *)
Definition convolve (first : bool) (l : lin) (x : nd) : option nd :=
  match dims first (shp x) with
  | Some (h, w, c) =>
      let hw := (Z.of_nat h, Z.of_nat w) in
      let o := out_hw l hw in
      Some (array (place first (Z.to_nat (fst o)) (Z.to_nat (snd o)) (l_out l))
                  (fun idx => let '(ch, p) := where_ first idx in lin_val l hw (pixels first x) ch p))
  | None => None
  end.
(* zeros around an image: before and after, for the height and the width *)
Definition pad_image (first : bool) (t b l r : nat) (x : nd) : option nd :=
  match dims first (shp x) with
  | Some (h, w, c) =>
      Some (array (place first (t + h + b) (l + w + r) c)
                  (fun idx => let '(ch, (y, z)) := where_ first idx in
                              if Z.leb (Z.of_nat t) y && Z.leb (Z.of_nat l) z
                              then entry x (place first (Z.to_nat y - t) (Z.to_nat z - l) ch) else 0%R))
  | None => None
  end.

Section Tf.
Variable obj : nat -> pyobj.
Variable array_of : val -> nd.
Definition none_or (v : option val) : option val := match v with Some v => if is_none obj v then None else Some v | None => None end.
(* strides and dilations: numbers for the height and the width; four numbers follow the layout, those of the batch and
   the channels must be 1 *)
Definition spatial (first : bool) (v : option val) : option (nat * nat) :=
  match none_or v with
  | None => Some (1, 1)
  | Some (VI i) => Some (i, i)
  | Some (VSeq _ l) =>
      match ints l with
      | Some [a] => Some (a, a)
      | Some [a; b] => Some (a, b)
      | Some [n; a; b; c] =>
          if first then if Nat.eqb n 1 && Nat.eqb a 1 then Some (b, c) else None
          else if Nat.eqb n 1 && Nat.eqb c 1 then Some (a, b) else None
      | _ => None
      end
  | _ => None
  end.
Definition format (v : option val) : option bool :=
  match none_or v with
  | None => Some false
  | Some (VO o) => match obj o with
                   | OStr s => if String.eqb s "NHWC" then Some false else if String.eqb s "NCHW" then Some true else None
                   | _ => None
                   end
  | _ => None
  end.
Inductive tf_pad := TP_valid | TP_same | TP_explicit (t b l r : nat).
Definition pads (first : bool) (v : option val) : option tf_pad :=
  match none_or v with
  | None => Some TP_valid
  | Some (VO o) => match obj o with
                   | OStr s => if String.eqb s "VALID" then Some TP_valid else if String.eqb s "SAME" then Some TP_same else None
                   | _ => None
                   end
  | Some (VSeq _ [VSeq _ n; VSeq _ a; VSeq _ b; VSeq _ c]) =>
      match ints n, (if first then ints b else ints a), (if first then ints c else ints b), (if first then ints a else ints c) with
      | Some [0; 0], Some [t; u], Some [l; r], Some [0; 0] => Some (TP_explicit t u l r)
      | _, _, _, _ => None
      end
  | _ => None
  end.
Definition padded_conv (first : bool) (p : tf_pad) (mk : padding -> lin) (x : nd) : option nd :=
  match p with
  | TP_valid => convolve first (mk P_valid) x
  | TP_same => convolve first (mk P_same) x
  | TP_explicit t b l r => match pad_image first t b l r x with Some x => convolve first (mk P_valid) x | None => None end
  end.
(* ---- the functions, by what the call gives their parameters ---- *)
(* tf.nn.conv2d and tf.nn.convolution *)
Definition conv_sig : params := [p_input; p_filters; p_strides; p_padding; p_data_format; p_dilations; p_name].
Definition tf_conv2d (args : list val) (kw : kwargs) (x : nd) : option nd :=
  let a := gives conv_sig args kw in
  match a p_filters, format (a p_data_format) with
  | Some kv, Some first =>
      let k := contents array_of kv in
      match shp k, dims first (shp x), spatial first (a p_strides), spatial first (a p_dilations), pads first (a p_padding) with
      | [_; _; ci; co], Some (_, _, c), Some s, Some d, Some p =>
          let groups := c / ci in
          if Nat.eqb c (groups * ci) && Nat.ltb 0 groups && Nat.eqb (co mod groups) 0
          then padded_conv first p (Lin K_conv k None false groups c co s d) x else None
      | _, _, _, _, _ => None
      end
  | _, _ => None
  end.
Definition dw_sig : params := [p_input; p_filter; p_strides; p_padding; p_data_format; p_dilations; p_name].
Definition four (v : option val) : bool := match v with Some (VSeq _ l) => Nat.eqb (length l) 4 | _ => false end.
Definition pair_or_none (v : option val) : bool := match none_or v with Some (VSeq _ l) => Nat.eqb (length l) 2 | None => true | _ => false end.
Definition tf_depthwise_conv2d (args : list val) (kw : kwargs) (x : nd) : option nd :=
  let a := gives dw_sig args kw in
  match a p_filter, format (a p_data_format) with
  | Some kv, Some first =>
      let k := contents array_of kv in
      match shp k, dims first (shp x), spatial first (a p_strides), spatial first (a p_dilations), pads first (a p_padding) with
      | [_; _; ci; m], Some (_, _, c), Some s, Some d, Some p =>
          if Nat.eqb c ci && Nat.ltb 0 c && Nat.ltb 0 m && four (a p_strides) && pair_or_none (a p_dilations)
          then padded_conv first p (Lin K_dw k None false 1 c (c * m) s d) x else None
      | _, _, _, _, _ => None
      end
  | _, _ => None
  end.
(* numpy's rules for arrays of different shapes *)
Definition broadcast_add (a b : nd) : option nd :=
  match bop Rplus a b with Ok r => Some (array (shp r) (at_ r)) | Err _ => None end.
(* tf.add of the tensor y and a constant *)
Definition add_sig : params := [p_x; p_y; p_name].
Definition tf_add (args : list val) (kw : kwargs) (y : nd) : option nd :=
  match gives add_sig args kw p_x, gives add_sig args kw p_y with
  | Some (VT _), Some v => broadcast_add y (contents array_of v)
  | Some v, Some (VT _) => broadcast_add (contents array_of v) y
  | _, _ => None
  end.
Definition bias_sig : params := [p_value; p_bias; p_data_format; p_name].
Definition tf_bias_add (args : list val) (kw : kwargs) (y : nd) : option nd :=
  match gives bias_sig args kw p_bias, format (gives bias_sig args kw p_data_format) with
  | Some v, Some first =>
      let b := contents array_of v in
      match dims first (shp y), shp b with
      | Some (_, _, c), [n] => if Nat.eqb n c then Some (array (shp y) (fun idx => at_ y idx + at_ b [fst (where_ first idx)])%R) else None
      | _, _ => None
      end
  | _, _ => None
  end.

(* matrix product along the last two axes; x may have more axes than two *)
Definition swap_last (x : nd) : nd :=
  match rev (shp x) with
  | b :: a :: r => array (rev r ++ [b; a]) (fun idx => match rev idx with j :: i :: r => at_ x (rev r ++ [j; i]) | _ => 0%R end)
  | _ => x
  end.
Definition product (x w : nd) : option nd :=
  match rev (shp x), shp w with
  | c :: d :: r, [c'; u] =>
      if Nat.eqb c c' then Some (array (rev (d :: r) ++ [u]) (fun idx => rsum c (fun k => at_ x (removelast idx ++ [k]) * at_ w [k; last idx 0%nat])%R)) else None
  | _, _ => None
  end.
Definition matmul_sig : params := [p_a; p_b; p_transpose_a; p_transpose_b; p_adjoint_a; p_adjoint_b; p_name].
(* tf.matmul of the tensor x and a constant matrix; for real numbers the adjoint is the transpose *)
Definition tf_matmul (args : list val) (kw : kwargs) (x : nd) : option nd :=
  let a := gives matmul_sig args kw in
  let flag k := truth obj (a k) in
  if (flag p_transpose_a && flag p_adjoint_a) || (flag p_transpose_b && flag p_adjoint_b) then None else
  match a p_a, a p_b with
  | Some (VT _), Some v =>
      let w := contents array_of v in
      match shp w with
      | [_; _] => product (if flag p_transpose_a || flag p_adjoint_a then swap_last x else x)
                          (if flag p_transpose_b || flag p_adjoint_b then swap_last w else w)
      | _ => None
      end
  | Some v, Some (VT _) =>
      let w := contents array_of v in
      match shp w, shp x with
      | [_; _], [_; _] => product (if flag p_transpose_a || flag p_adjoint_a then swap_last w else w)
                                  (if flag p_transpose_b || flag p_adjoint_b then swap_last x else x)
      | _, _ => None
      end
  | _, _ => None
  end.
End Tf.

(* ---- the layers; a layer is refused when its weights do not have the shapes that follow from its attributes ---- *)
Definition fits_bias (b : option nd) (n : nat) : bool :=
  match b with None => true | Some b => match shp b with [m] => Nat.eqb m n | _ => false end end.
Definition has_bias (b : option nd) : bool := match b with Some _ => true | None => false end.
Definition run_layer (l : conv_layer) (x : nd) : option nd :=
  match dims (cl_first l) (shp x), shp (cl_kernel l) with
  | Some (_, _, c), [_; _; ci; o] =>
      let out := if cl_dw l then c * o else o in
      if Nat.eqb ci c && Nat.ltb 0 c && fits_bias (cl_bias l) out
      then convolve (cl_first l) (Lin (if cl_dw l then K_dw else K_conv) (cl_kernel l) (cl_bias l) (has_bias (cl_bias l)) 1 c out
                                      (cl_strides l) (cl_dil l) (cl_pad l)) x
      else None
  | _, _ => None
  end.
(* Dense without bias *)
Definition run_dense (w x : nd) : option nd :=
  match rev (shp x), shp w with
  | c :: d :: r, [c'; u] =>
      if Nat.eqb c c' then Some (array (rev (d :: r) ++ [u]) (fun idx => rsum c (fun k => at_ x (removelast idx ++ [k]) * at_ w [k; last idx 0%nat])%R)) else None
  | _, _ => None
  end.

(* all values of the call are numbers, constants, tensors, or sequences without tensors in them *)
Definition plain_call (args : list val) (kw : kwargs) : Prop :=
  (forall v, In v args -> simple v) /\ (forall k v, In (k, v) kw -> simple v).
(* the value given to a parameter, if any, is no constant array *)
Definition not_array (v : option val) : Prop := match v with Some v => ~ constant v | None => True end.
Definition constant_given (v : option val) : Prop := exists c, v = Some c /\ constant c.
Definition four_numbers (v : option val) : Prop := match v with Some (VSeq _ l) => length l = 4 | _ => False end.

(* ---- calls that the replacement carries over ---- *)
Section Calls.
Variable obj : nat -> pyobj.
Variable array_of : val -> nd.
(* tf.nn.conv2d, tf.nn.convolution: the kernel is an array, the settings are not; a layout, if given, is a name; strides
   and dilations of a call in NCHW are given for the height and the width only *)
Record conv_call (args : list val) (kw : kwargs) : Prop := {
  cc_valid : valid_call conv_sig args kw; cc_plain : plain_call args kw;
  cc_kernel : constant_given (gives conv_sig args kw p_filters);
  cc_strides : not_array (gives conv_sig args kw p_strides); cc_padding : not_array (gives conv_sig args kw p_padding);
  cc_format : not_array (gives conv_sig args kw p_data_format); cc_dilations : not_array (gives conv_sig args kw p_dilations);
  cc_named : forall v, gives conv_sig args kw p_data_format = Some v -> is_none obj v = false;
  cc_first : format obj (gives conv_sig args kw p_data_format) = Some false \/
             (~ four_numbers (gives conv_sig args kw p_strides) /\ ~ four_numbers (gives conv_sig args kw p_dilations))
}.
(* all input channels go into each filter *)
Definition ungrouped (args : list val) (kw : kwargs) (x : nd) : Prop :=
  forall first h w c v, format obj (gives conv_sig args kw p_data_format) = Some first -> dims first (shp x) = Some (h, w, c) ->
    gives conv_sig args kw p_filters = Some v -> nth 2 (shp (contents array_of v)) 0 = c.
(* tf.nn.depthwise_conv2d: the layout is NHWC *)
Record dw_call (args : list val) (kw : kwargs) : Prop := {
  dc_valid : valid_call dw_sig args kw; dc_plain : plain_call args kw;
  dc_kernel : constant_given (gives dw_sig args kw p_filter);
  dc_strides : not_array (gives dw_sig args kw p_strides); dc_padding : not_array (gives dw_sig args kw p_padding);
  dc_dilations : not_array (gives dw_sig args kw p_dilations);
  dc_named : forall v, gives dw_sig args kw p_padding = Some v -> is_none obj v = false;
  dc_last : format obj (gives dw_sig args kw p_data_format) = Some false
}.
(* the constant added by a call of tf.add *)
Definition add_operand (args : list val) (kw : kwargs) (v : val) : Prop :=
  gives add_sig args kw p_y = Some v /\ (exists t, gives add_sig args kw p_x = Some (VT t)) \/
  gives add_sig args kw p_x = Some v /\ (exists t, gives add_sig args kw p_y = Some (VT t)).
(* the node behind the convolution: an addition whose constant, if it is a vector, has one entry for each of the co output
   channels, which come last; or a bias addition in the layout of the convolution; or anything else *)
Inductive follower_ok (first : bool) (co : nat) (op : list (option nd) -> nat -> option nd) : follower -> Prop :=
| fo_other : follower_ok first co op F_other
| fo_add n args kw v : valid_call add_sig args kw -> plain_call args kw -> add_operand args kw v -> constant v ->
    read_function add_sig false args kw = Ok n ->
    (forall l k, op l k = match l with [Some y] => tf_add array_of args kw y | _ => None end) ->
    (length (shp (contents array_of v)) = 1 -> first = false /\ shp (contents array_of v) = [co]) -> follower_ok first co op (F_add n)
| fo_bias n args kw v : valid_call bias_sig args kw -> plain_call args kw -> gives bias_sig args kw p_bias = Some v -> constant v ->
    read_function bias_sig false args kw = Ok n ->
    (forall l k, op l k = match l with [Some y] => tf_bias_add obj array_of args kw y | _ => None end) ->
    format obj (gives bias_sig args kw p_data_format) = Some first -> shp (contents array_of v) = [co] -> follower_ok first co op (F_bias_add n).
(* tf.matmul: the first operand is a tensor that is taken as it is, the second is an array *)
Record matmul_call (args : list val) (kw : kwargs) : Prop := {
  mc_valid : valid_call matmul_sig args kw; mc_plain : plain_call args kw;
  mc_a : exists t, gives matmul_sig args kw p_a = Some (VT t);
  mc_b : constant_given (gives matmul_sig args kw p_b);
  mc_tb : not_array (gives matmul_sig args kw p_transpose_b) /\ forall t, gives matmul_sig args kw p_transpose_b <> Some (VT t);
  mc_ta : truth obj (gives matmul_sig args kw p_transpose_a) = false;
  mc_aa : truth obj (gives matmul_sig args kw p_adjoint_a) = false;
  mc_ab : truth obj (gives matmul_sig args kw p_adjoint_b) = false
}.
(* the layer around the function has no settings with the names of its parameters *)
Definition plain_config (cfg : kwargs) : Prop :=
  truth obj (dict_get p_adjoint_a cfg) = false /\ truth obj (dict_get p_adjoint_b cfg) = false /\ truth obj (dict_get p_transpose_a cfg) = false.
End Calls.

(* the node a behind c: nothing else reads c, and a reads nothing else *)
Definition followed (g : graph) (c a : nat) : Prop := linked g c a /\ out_degree g c = 1 /\ in_degree g a = 1.
(* what a node computes that reads one tensor *)
Definition at_node (f : nd -> option nd) (op : list (option nd) -> nat -> option nd) : Prop :=
  forall l k, op l k = match l with [Some x] => f x | _ => None end.
Definition follower_sound obj array_of first co (op : nat -> list (option nd) -> nat -> option nd) (info : nat -> follower) g c : Prop :=
  forall a, followed g c a -> follower_ok obj array_of first co (op a) (info a).

(* ---- x * sigmoid(x) ---- *)
(* the sigmoid s reads one tensor, the multiplication u reads two, there is no cycle between them *)
Record swish_site (g : graph) (s u : nat) : Prop := {
  ss_s : In s (g_nodes g); ss_u : In u (g_nodes g); ss_su : s <> u;
  ss_link : linked g s u; ss_ds : in_degree g s = 1; ss_du : in_degree g u = 2;
  ss_back : ~ linked g u s; ss_self : ~ linked g s s
}.
(* the sigmoid is no output of the model, nothing else reads it, and both nodes read from one node *)
Definition swish_found (g : graph) (s u : nat) : Prop :=
  ~ In s (map fst (g_out g)) /\ out_degree g s = 1 /\ exists i, linked g i s /\ linked g i u.
Definition sigmoid (t : R) : R := (/ (1 + exp (- t)))%R.
Definition each (f : R -> R) (x : nd) : nd := array (shp x) (fun idx => f (at_ x idx)).
Definition run_sigmoid (l : list (option nd)) : option nd := match l with [Some x] => Some (each sigmoid x) | _ => None end.
Definition run_multiply (l : list (option nd)) : option nd :=
  match l with
  | [Some x; Some y] => match bop Rmult x y with Ok r => Some (array (shp r) (at_ r)) | Err _ => None end
  | _ => None
  end.
Definition run_swish (l : list (option nd)) : option nd := match l with [Some x] => Some (each (fun t => t * sigmoid t)%R x) | _ => None end.
