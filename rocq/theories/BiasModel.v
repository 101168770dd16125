(* BiasModel.v -- bias correction: the correction term of a layer and its application.
   Sources: core/common/statistics_correction/compute_bias_correction_of_graph.py L43-204,
     core/common/statistics_correction/apply_bias_correction_to_graph.py L42-81,
     core/common/quantization/quantize_node.py L39-57 (the order of the channel axes).
   Real numbers stand for floating point numbers.  The statistics collector is its mean; the quantization
   functions are a parameter of each candidate. *)
From Verif Require Import LinNode.

(* compute L96-104 on a quotient of two array lengths: it is less than one or not an integer *)
Definition bad_quotient (a b : nat) : bool := Nat.ltb a b || negb (Nat.eqb (a mod b) 0).
(* compute L145-165; eps: output channels by the input channels of one group *)
Definition group_products (eps mu : nd) : result nd :=
  match shp eps, shp mu with
  | [n_out; e], m :: _ =>
      if Nat.eqb e 0 then Err E_zero_div else
      let ng := (m / e)%nat in
      if bad_quotient m e || bad_quotient n_out ng then Ok (Nd [n_out] (fun _ => 0)) else
      let per := (n_out / ng)%nat in
      (* L160-163: output channel o belongs to group o / per, whose means are mu[e * (o / per) : e * (o / per + 1)] *)
      Ok (Nd [n_out] (fun idx => let o := hd 0%nat idx in rsum e (fun j => at_ eps [o; j] * at_ mu [(o / per) * e + j]%nat)))
  | _, _ => Err E_index
  end.
(* compute L107-142 *)
Definition bias_term (k : lkind) (kernel qkernel mu : nd) : result nd :=
  let oa := out_axis k in
  let ia := in_axis k in
  let! err := bop Rminus qkernel kernel in
  let axes := filter (fun i => negb (Nat.eqb i oa) && negb (Nat.eqb i ia)) (seq 0 (length (shp err))) in
  let! eps := if Nat.eqb oa ia then reshape (nsum [0; 1]%nat err) [None; Some 1%nat] else Ok (nsum axes err) in
  let eps := if Nat.ltb ia oa then transpose [1; 0]%nat eps else eps in
  group_products eps mu.
(* apply L54-81 *)
Definition apply_term (l : lin) (term : nd) : result lin :=
  match l_bias l with
  | Some b => let! b' := bop Rminus b term in Ok (set_weights l (l_kernel l) (Some b') (l_use_bias l))
  | None => Ok (set_weights l (l_kernel l) (Some (nmap Ropp term)) true)
  end.

(* a candidate's weights configuration: the quantization of the kernel, the two flags, and bias_corrected *)
Record wcfg := WCfg { w_quant : nd -> nd; w_correct : bool; w_second : bool; w_term : option nd }.
(* compute L76-93 *)
Definition compute_candidate (l : lin) (mu : nd) (c : wcfg) : result wcfg :=
  if w_correct c && negb (w_second c)
  then let! t := bias_term (l_kind l) (l_kernel l) (w_quant c (l_kernel l)) mu in Ok (WCfg (w_quant c) (w_correct c) (w_second c) (Some t))
  else Ok c.
(* compute L43-56; enabled: the kernel is quantized *)
Definition compute_node (enabled positional : bool) (l : lin) (mu : nd) (cs : list wcfg) : result (list wcfg) :=
  if negb enabled then Ok cs
  else if positional then Ok (map (fun c => WCfg (w_quant c) false (w_second c) (w_term c)) cs)
  else mapM (compute_candidate l mu) cs.
(* apply L42-51 for the candidate that became final; bias - None raises *)
Definition apply_node (on enabled : bool) (l : lin) (c : wcfg) : result lin :=
  if on && enabled && negb (w_second c) && w_correct c
  then match w_term c with Some t => apply_term l t | None => Err E_type end
  else Ok l.
(* the layer of the exported model: quantize_graph_weights.py L41-50 *)
Definition quantized_layer (l : lin) (c : wcfg) : lin := set_kernel l (w_quant c (l_kernel l)).
