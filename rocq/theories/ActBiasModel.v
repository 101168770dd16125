(* ActBiasModel.v -- activation bias correction: the mean error of the activation quantizer in front of a linear layer,
   moved into the bias of the layer.
   Sources: core/common/statistics_correction/compute_activation_bias_correction_of_graph.py L24-179,
     core/common/statistics_correction/apply_activation_bias_correction_to_graph.py L23-77,
     core/common/statistics_correction/statistics_correction.py L97-110 (the order of the two corrections),
     core/common/graph/base_graph.py L701-716 (the node a preserving node takes its quantization from).
   Real numbers stand for floating point numbers.  A histogram is its bin edges and the counts of the bins; the
   quantization function of the final activation configuration is a function on numbers.  Where numpy would divide by a
   total count of zero (and go on with nan) the model raises. *)
From Verif Require Import LinNode.

(* compute L50-62 *)
Definition bin_centers (edges : list R) : list R := map (fun p => (fst p + snd p) / 2) (combine edges (tl edges)).
Definition lsum (l : list R) : R := fold_right Rplus 0 l.
(* compute L113-114 *)
Definition weighted_mean (centers counts : list R) : R := lsum (map (fun p => fst p * snd p) (combine centers counts)) / lsum counts.

(* the attribute kernel_size: absent, an integer, a tuple *)
Inductive ksz : Set := KS_none | KS_int (n : nat) | KS_tuple (l : list nat).
(* compute L91 *)
Definition supported_ksz (k : ksz) : bool :=
  match k with KS_none => true | KS_int 1 => true | KS_tuple [1%nat; 1%nat] => true | _ => false end.

(* compute L134-144 *)
Definition act_term (k : lkind) (kernel : nd) (mean_diff : R) : nd :=
  let axes := filter (fun i => negb (Nat.eqb i (out_axis k))) (seq 0 (length (shp kernel))) in
  let axes := if Nat.eqb (out_axis k) (in_axis k) then filter (fun i => negb (Nat.eqb i 3)) axes else axes in
  flatten (nmap (fun x => mean_diff * x) (nsum axes kernel)).

(* a node as far as the correction looks at it *)
Inductive amode : Set := M_quant | M_preserve | M_none.
Record anode := ANode {
  a_match : bool;                              (* of a type in activation_bias_correction_node_matchers *)
  a_prev : list nat;                           (* get_prev_nodes: positions in the graph *)
  a_mode : amode;                              (* quantization mode of the activation *)
  a_cfg : option (R -> R);                     (* final_activation_quantization_cfg.quantize_node_output *)
  a_hist : option (list R * list R);           (* get_out_stats_collector(n).hc.get_histogram(), if there is one *)
  a_ksz : ksz;                                 (* framework_attr.get(kernel_size) *)
  a_kind : lkind;                              (* for channel_axis *)
  a_kernel : option nd                         (* get_weights_by_keys(kernel_attr) *)
}.
(* base_graph L701-716; a walk longer than the number of nodes is a loop *)
Fixpoint source_from (fuel : nat) (g : list anode) (n : nat) : result nat :=
  match fuel with
  | O => Err E_fuel
  | S f => match nth_error g n with
           | None => Err E_key
           | Some a => match a_mode a with
                       | M_preserve => match a_prev a with [m] => source_from f g m | _ => Err E_assert end
                       | _ => Ok n
                       end
           end
  end.
(* compute L24-47 *)
Definition quantized_input (g : list anode) (a : anode) : result (option anode) :=
  match a_prev a with
  | [p] => let! s := source_from (S (length g)) g p in
           match nth_error g s with
           | None => Err E_key
           | Some b => Ok (match a_mode b with M_quant => Some b | _ => None end)
           end
  | _ => Ok None
  end.
(* compute L102-117 *)
Definition mean_shift (q : R -> R) (edges counts : list R) : R :=
  weighted_mean (bin_centers (map q edges)) counts - weighted_mean (bin_centers edges) counts.
(* compute L119-126: nan and infinity are not below the threshold *)
Definition below_threshold (thr mean_diff mean_float : R) : bool :=
  if Req_EM_T mean_float 0 then false else if Rlt_dec (100 * Rabs mean_diff / Rabs mean_float) thr then true else false.
(* compute L65-145 *)
Definition act_correction (thr : R) (a prev : anode) : result (option nd) :=
  if negb (supported_ksz (a_ksz a)) then Ok None else
  match a_cfg prev, a_hist prev with
  | Some q, Some (edges, counts) =>
      if Req_EM_T (lsum counts) 0 then Err E_zero_div else
      let d := mean_shift q edges counts in
      if below_threshold thr d (weighted_mean (bin_centers edges) counts) then Ok None else
      Ok (match a_kernel a with Some k => Some (act_term (a_kind a) k d) | None => None end)
  | _, _ => Ok None
  end.
(* compute L167-179: the term of each node *)
Definition act_corrections (thr : R) (g : list anode) : result (list (option nd)) :=
  mapM (fun a => if a_match a
                 then let! p := quantized_input g a in
                      match p with Some b => act_correction thr a b | None => Ok None end
                 else Ok None) g.

(* apply L49-77 *)
Definition apply_act_term (l : lin) (term : nd) : result lin :=
  match l_bias l with
  | None => Ok (set_weights l (l_kernel l) (Some (nmap Ropp term)) true)
  | Some b => let! b' := bop Rminus b term in Ok (set_weights l (l_kernel l) (Some b') (l_use_bias l))
  end.
(* apply L39-46: on is core_config.quantization_config.activation_bias_correction *)
Definition apply_act (on : bool) (l : lin) (term : option nd) : result lin :=
  match on, term with true, Some t => apply_act_term l t | _, _ => Ok l end.
