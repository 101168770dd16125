(* CandModel.v -- filtering of a node's quantization candidates.

   Modelled (all under model_compression_toolkit/core/common/):
     quantization/filter_nodes_candidates.py        _filter_bit_method_dups L41-70, filter_node_candidates L73-145
     quantization/candidate_node_quantization_config.py   remove_duplicates L92-100
     mixed_precision/mixed_precision_candidates_filter.py filter_candidates_for_mixed_precision L19-60
     graph/base_node.py     _is_single_quant_mode L182-191, is_weights_quantization_enabled L223-245,
                            is_configurable_weight L247-257, has_configurable_activation L267-274,
                            is_all_activation_candidates_equal L475-485, is_all_weights_candidates_equal L487-502,
                            get_unique_weights_candidates L580-603, get_unique_activation_candidates L605-619
     graph/base_graph.py    get_weights_configurable_nodes L554-572, get_activation_configurable_nodes L589-597

   Candidates are those of LookupModel.  Sets of configurations (seen_candidates) are lists searched with ==: the
   hashes only use fields that == compares (node_quantization_config.py L236-250, L365-374, L616-622).
   No final configuration has been chosen yet (L185-187, L233-235 do not apply).  Resource targets are reduced to
   which of the four are restricted. *)
From Coq Require Import String.
From Verif Require Import Base SDict MPModel HessianModel FilterModel PlatModel LookupModel.
Local Open Scope list_scope.

Definition FLOAT_BITWIDTH : Z := 32.          (* constants.py *)
Definition POWER_OF_TWO : nat := 0.           (* mct_quantizers QuantizationMethod *)

(* NodeActivationQuantizationConfig.__eq__ L208-234 and NodeWeightsQuantizationConfig.__eq__ L592-614 *)
Definition act_eqb (a b : cand) : bool :=
  Nat.eqb (cd_method a) (cd_method b) && Z.eqb (cd_bits a) (cd_bits b) && amode_eqb (cd_mode a) (cd_mode b).
Definition weights_eqb (a b : cand) : bool :=
  opt_eqb Z.eqb (cd_simd a) (cd_simd b) && ndict_eqb wcfg_eqb (cd_pos a) (cd_pos b) &&
  sdict_eqb wcfg_eqb (cd_named a) (cd_named b).

(* _is_single_quant_mode, base_node.py L182-191: the assertion, then the mode *)
Definition single_mode (cs : list cand) : result amode :=
  match cs with
  | [] => Err E_assert
  | c :: r => if forallb (fun d => amode_eqb (cd_mode d) (cd_mode c)) r then Ok (cd_mode c) else Err E_assert
  end.
(* get_all_weights_attr_candidates L632-644; is_weights_quantization_enabled L223-245 (Logger.error does not raise) *)
Definition attr_cands (k : string) (cs : list cand) : result (list wcfg) := mapM (fun c => get_attr_config c k) cs.
Definition weights_enabled (k : string) (cs : list cand) : result bool := let! l := attr_cands k cs in Ok (forallb wc_enable l).

(* [x for x in l if x not in seen and not seen.add(x)] *)
Fixpoint uniq {A} (eqb : A -> A -> bool) (seen l : list A) : list A :=
  match l with
  | [] => []
  | x :: r => if existsb (eqb x) seen then uniq eqb seen r else x :: uniq eqb (seen ++ [x]) r
  end.

(* _filter_bit_method_dups L41-70 *)
Definition bm_key := ((option Z * option nat) * (Z * nat))%type.
Definition bm_key_eqb (a b : bm_key) : bool :=
  opt_eqb Z.eqb (fst (fst a)) (fst (fst b)) && opt_eqb Nat.eqb (snd (fst a)) (snd (fst b)) &&
  Z.eqb (fst (snd a)) (fst (snd b)) && Nat.eqb (snd (snd a)) (snd (snd b)).
Definition bm_key_of (kernel : option string) (c : cand) : result bm_key :=
  match kernel with
  | None => Ok ((None, None), (cd_bits c, cd_method c))
  | Some k => let! w := get_attr_config c k in Ok ((Some (wc_bits w), Some (wc_method w)), (cd_bits c, cd_method c))
  end.
Definition bit_method_dups (kernel : option string) (cs : list cand) : result (list cand) :=
  let! keyed := mapM (fun c => let! k := bm_key_of kernel c in Ok (k, c)) cs in
  Ok (map snd (uniq (fun a b => bm_key_eqb (fst a) (fst b)) [] keyed)).

(* c.activation_quantization_cfg.activation_n_bits = FLOAT_BITWIDTH; ... = POWER_OF_TWO (L94-95, L114-115) *)
Definition float_act (c : cand) : cand :=
  Cand POWER_OF_TWO FLOAT_BITWIDTH (cd_mode c) (cd_signed c) (cd_simd c) (cd_pos c) (cd_named c).
(* the attribute that get_attr_config finds (node_quantization_config.py L452-485), to update it in place *)
Definition attr_key (c : cand) (name : string) : result string :=
  match filter (fun kv => str_contains (fst kv) name) (cd_named c) with
  | [] => Err E_critical
  | [kv] => Ok (fst kv)
  | _ => match sget name (cd_named c) with Some _ => Ok name | None => Err E_critical end
  end.
Definition set_attr_bits (k : string) (b : Z) (m : nat) (c : cand) : result cand :=
  let! key := attr_key c k in
  match sget key (cd_named c) with
  | None => Err E_key
  | Some w => Ok (Cand (cd_method c) (cd_bits c) (cd_mode c) (cd_signed c) (cd_simd c) (cd_pos c)
                       (sset key (WCfg m b (wc_per_channel w) (wc_enable w)) (cd_named c)))
  end.
(* kernel_config.weights_n_bits = FLOAT_BITWIDTH; ... = POWER_OF_TWO (L97-100, L138-141) *)
Definition float_kernel (kernel : option string) (c : cand) : result cand :=
  match kernel with None => Ok c | Some k => set_attr_bits k FLOAT_BITWIDTH POWER_OF_TWO c end.

(* filter_node_candidates L73-145 *)
Definition filter_node (kernel : option string) (cs : list cand) : result (list cand) :=
  let! ken := match kernel with None => Ok false | Some k => weights_enabled k cs end in
  let! mode := single_mode cs in
  if negb ken && amode_eqb mode M_no then
    match cs with
    | [] => Err E_index
    | c :: _ => let! d := float_kernel kernel (float_act c) in Ok [d]
    end
  else if amode_eqb mode M_no then
    bit_method_dups kernel (map float_act (uniq weights_eqb [] cs))
  else if amode_eqb mode M_fln_no || amode_eqb mode M_fln_quant then
    bit_method_dups kernel (uniq weights_eqb [] cs)
  else if negb ken then
    let! l := mapM (float_kernel kernel) (uniq act_eqb [] cs) in
    bit_method_dups kernel l
  else Ok cs.

(* NodeQuantizationConfig.remove_duplicates L92-100 *)
Definition remove_duplicates (cs : list cand) : list cand := uniq cand_eqb [] cs.
(* get_unique_weights_candidates L580-603, get_unique_activation_candidates L605-619 *)
Definition unique_weights (attr : option string) (cs : list cand) : result (list cand) :=
  match attr with
  | None => Ok []
  | Some k => let! l := mapM (fun c => let! w := get_attr_config c k in Ok (w, c)) cs in
              Ok (map snd (uniq (fun a b => wcfg_eqb (fst a) (fst b)) [] l))
  end.
Definition unique_activation (cs : list cand) : list cand := uniq act_eqb [] cs.

(* has_configurable_activation L267-274 (with L475-485), is_configurable_weight L247-257 (with L487-502) *)
Definition configurable_act (cs : list cand) : result bool :=
  let! m := single_mode cs in
  Ok (amode_eqb m M_quant && negb (match cs with [] => true | c :: _ => forallb (fun d => act_eqb d c) cs end)).
Definition configurable_weight (k : string) (cs : list cand) : result bool :=
  let! e := weights_enabled k cs in
  if e then let! l := attr_cands k cs in
            Ok (negb (match l with [] => true | w :: r => forallb (fun x => wcfg_eqb x w) r end))
  else Ok false.

(* a node of the graph, as far as candidate filtering goes *)
Record cnode := CNode { cn_id : nat; cn_kernel : option string; cn_reuse : bool; cn_cfg : nodecfg }.
Definition with_cands (n : cnode) (cs : list cand) : cnode :=
  CNode (cn_id n) (cn_kernel n) (cn_reuse n) (NodeCfg (nc_base (cn_cfg n)) cs).
Definition cn_cands (n : cnode) : list cand := nc_cands (cn_cfg n).
(* filter_nodes_candidates L24-38 *)
Definition filter_nodes (g : list cnode) : result (list cnode) :=
  mapM (fun n => let! cs := filter_node (cn_kernel n) (cn_cands n) in Ok (with_cands n cs)) g.

(* get_weights_configurable_nodes, base_graph.py L554-572, for one node; an empty name is falsy *)
Definition weights_configurable_node (n : cnode) : result bool :=
  match cn_kernel n with
  | None | Some EmptyString => Ok false
  | Some k => let! b := configurable_weight k (cn_cands n) in Ok (b && negb (cn_reuse n))
  end.

(* filter_candidates_for_mixed_precision L19-60 *)
Record restricted := Restricted { r_weights : bool; r_activation : bool; r_total : bool; r_bops : bool }.
Definition keep_base_activation (n : cnode) : result cnode :=
  let! conf := configurable_act (cn_cands n) in
  if conf then
    Ok (with_cands n (filter (fun c => amode_eqb (cd_mode c) M_quant && Z.eqb (cd_bits c) (cd_bits (nc_base (cn_cfg n)))) (cn_cands n)))
  else Ok n.
Definition keep_base_weights (n : cnode) : result cnode :=
  let! conf := weights_configurable_node n in
  if conf then
    match cn_kernel n with
    | None => Err E_critical
    | Some k =>
        let! b := get_attr_config (nc_base (cn_cfg n)) k in
        let! cs := filterM (fun c => let! w := get_attr_config c k in Ok (wc_enable w && Z.eqb (wc_bits w) (wc_bits b))) (cn_cands n) in
        Ok (with_cands n cs)
    end
  else Ok n.
Definition mp_filter (t : restricted) (g : list cnode) : result (list cnode) :=
  if r_total t || r_bops t then Ok g
  else if r_weights t && negb (r_activation t) then mapM keep_base_activation g
  else if r_activation t && negb (r_weights t) then mapM keep_base_weights g
  else Ok g.
