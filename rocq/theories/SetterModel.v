(* SetterModel.v -- finalising the bit-widths of the nodes after the mixed-precision search.

   Modelled (under model_compression_toolkit/core/common/):
     mixed_precision/bit_width_setter.py   set_bit_widths L24-80, _get_node_qc_by_bit_widths L83-109, _set_node_final_qc L112-133
     graph/base_graph.py                   get_configurable_sorted_nodes L610-630 (with L537-552), include_reused_nodes = False
     graph/base_node.py                    has_any_weight_attr_to_quantize L512-521, is_quantization_preserving L205-209
   The graph is the list of its nodes in topological order; the loop over graph.nodes treats each node on its own, so its
   order does not matter.  Configurations are lists of natural numbers (a negative index is not modelled).  Deep copies are
   values.  No final configuration is set beforehand. *)
From Coq Require Import String Ascii.
From Verif Require Import Base SDict MPModel HessianModel FilterModel PlatModel LookupModel CandModel.
Local Open Scope list_scope.

Record snode := SNode { sn_name : string; sn_attrs : list wname; sn_node : cnode }.
Definition sn_cands (n : snode) : list cand := cn_cands (sn_node n).
Definition sn_reuse (n : snode) : bool := cn_reuse (sn_node n).
(* final_weights_quantization_cfg, final_activation_quantization_cfg: the candidate whose part was taken *)
Record final := Final { f_weights : option cand; f_act : option cand }.

(* str.split('_') and '_'.join *)
Definition us : ascii := "_"%char.
Fixpoint split_us (s : string) : list string :=
  match s with
  | EmptyString => [EmptyString]
  | String c r => if Ascii.eqb c us then EmptyString :: split_us r
                  else match split_us r with [] => [String c EmptyString] | x :: l => String c x :: l end
  end.
Fixpoint join_us (l : list string) : string :=
  match l with
  | [] => EmptyString
  | [x] => x
  | x :: r => (x ++ String us (join_us r))%string
  end.
(* '_'.join(node.name.split('_')[:-2]), L48 *)
Definition original_name (s : string) : string :=
  let l := split_us s in join_us (firstn (length l - 2) l).

Definition is_configurable_node (n : snode) : result bool :=
  let! w := weights_configurable_node (sn_node n) in
  let! a := configurable_act (sn_cands n) in
  Ok (w || a).
Definition configurable_snodes (g : list snode) : result (list snode) := filterM is_configurable_node g.

(* sorted_nodes_names.index(node_name) *)
Fixpoint index_of (s : string) (l : list string) : option nat :=
  match l with
  | [] => None
  | x :: r => if String.eqb x s then Some O else option_map S (index_of s r)
  end.
Definition act_enabled (n : snode) : result bool := let! m := single_mode (sn_cands n) in Ok (amode_eqb m M_quant).
(* get_attr_config for a positional or a named attribute *)
Definition attr_cfg (c : cand) (a : wname) : result wcfg :=
  match a with
  | W_pos i => match dict_get i (cd_pos c) with Some w => Ok w | None => Err E_critical end
  | W_name s => get_attr_config c s
  end.
Definition attr_enabled (n : snode) (a : wname) : result bool :=
  let! l := mapM (fun c => attr_cfg c a) (sn_cands n) in Ok (forallb wc_enable l).
Definition any_weight (n : snode) : result bool :=
  let! l := mapM (attr_enabled n) (sn_attrs n) in Ok (existsb (fun b => b) l).

(* L83-133 *)
Definition node_final (i : nat) (n : snode) : result final :=
  let! a := act_enabled n in
  let! k := if a then Ok true else
            match cn_kernel (sn_node n) with None => Ok false | Some s => attr_enabled n (W_name s) end in
  if k then match nth_error (sn_cands n) i with Some c => Ok (Final (Some c) (Some c)) | None => Err E_index end
  else Err E_critical.
(* L53-70 *)
Definition fixed_final (n : snode) : result final :=
  let! a := act_enabled n in
  let! fa := if a then match sn_cands n with [] => Err E_assert | c :: _ => Ok (Some c) end else Ok None in
  let! w := any_weight n in
  let! fw := if w then match sn_cands n with [] => Err E_assert | c :: _ => Ok (Some c) end else Ok None in
  Ok (Final fw fa).
(* L74-78 *)
Definition single_final (n : snode) : result final :=
  match sn_cands n with
  | [c] => Ok (Final (Some c) (if amode_eqb (cd_mode c) M_preserve then None else Some c))
  | _ => Err E_assert
  end.

Definition set_bit_widths (mp : bool) (g : list snode) (cfg : list nat) : result (list final) :=
  if mp then
    let! conf := configurable_snodes g in
    if existsb (fun n => match sn_cands n with [] => true | _ => false end) conf then Err E_assert else
    let names := map sn_name conf in
    mapM (fun n =>
            let name := if sn_reuse n then original_name (sn_name n) else sn_name n in
            match index_of name names with
            | Some p => match nth_error cfg p with Some i => node_final i n | None => Err E_index end
            | None => fixed_final n
            end) g
  else mapM single_final g.
