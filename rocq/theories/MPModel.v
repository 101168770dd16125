(* MPModel.v -- nodes, quantization candidates and the resource-utilization calculator used by the
   mixed-precision search.

   Sources (under model_compression_toolkit/core/common):
     graph/base_node.py, graph/base_graph.py, quantization/node_quantization_config.py,
     mixed_precision/resource_utilization_tools/resource_utilization.py and
     resource_utilization_calculator.py, mixed_precision/mixed_precision_ru_helper.py.

   Names of nodes and of weight attributes are natural numbers.  A weight attribute is looked up by its exact name
   (the substring matching of get_attr_config, node_quantization_config.py L544-560, is not modelled).
   The node list of a graph stands both for graph.nodes and for its topological order. *)
From Verif Require Import Base HessianModel.

(* ActivationQuantizationMode, node_quantization_config.py L41-47 *)
Inductive amode := A_QUANT | A_FLN_QUANT | A_NO_QUANT | A_PRESERVE | A_FLN_NO_QUANT.
Definition amode_eqb (a b : amode) : bool :=
  match a, b with
  | A_QUANT, A_QUANT | A_FLN_QUANT, A_FLN_QUANT | A_NO_QUANT, A_NO_QUANT | A_PRESERVE, A_PRESERVE
  | A_FLN_NO_QUANT, A_FLN_NO_QUANT => true
  | _, _ => false
  end.

(* NodeActivationQuantizationConfig, L82-250: mode, bits, and a tag standing for all remaining fields compared by __eq__ *)
Record acfg := mkA { a_mode : amode; a_bits : Z; a_tag : nat }.
(* WeightsAttrQuantizationConfig, L253-374 *)
Record wcfg := mkW { w_enable : bool; w_bits : Z; w_tag : nat }.
(* CandidateNodeQuantizationConfig: activation configuration and the attribute -> configuration dict of the weights *)
Record cand := mkC { c_act : acfg; c_w : list (nat * wcfg) }.

(* __eq__ of the two, L208-234 and L342-363 *)
Definition acfg_eqb (x y : acfg) : bool :=
  amode_eqb (a_mode x) (a_mode y) && Z.eqb (a_bits x) (a_bits y) && Nat.eqb (a_tag x) (a_tag y).
Definition wcfg_eqb (x y : wcfg) : bool :=
  Bool.eqb (w_enable x) (w_enable y) && Z.eqb (w_bits x) (w_bits y) && Nat.eqb (w_tag x) (w_tag y).

(* BaseNode: name, candidates, weight sizes per attribute, number of output elements, reuse flag, kernel attribute,
   multiply-accumulate count (fw_impl.get_node_mac_operations) *)
Record node := mkN { n_name : nat; n_cands : list cand; n_wsizes : list (nat * Z); n_out : Z; n_reuse : bool;
                     n_kernel : option nat; n_mac : Z }.

(* Graph: nodes, predecessors (get_prev_nodes), inner nodes of fused operations, and the cuts of the memory schedule
   expressed as node names (resource_utilization_calculator.py L142-159) *)
Record graph := mkG { g_nodes : list node; g_prev : nat -> list nat; g_inner : list nat; g_cuts : list (list nat) }.

Definition attrs (n : node) : list nat := map fst (n_wsizes n).
Definition find_node (g : graph) (x : nat) : result node :=
  match find (fun n => Nat.eqb (n_name n) x) (g_nodes g) with Some n => Ok n | None => Err E_index end.

(* get_attr_config, node_quantization_config.py L452-485 *)
Definition attr_config (w : list (nat * wcfg)) (a : nat) : result wcfg :=
  match dict_get a w with Some c => Ok c | None => Err E_critical end.
(* get_all_weights_attr_candidates, base_node.py L632-644 *)
Definition attr_cands (n : node) (a : nat) : result (list wcfg) := mapM (fun c => attr_config (c_w c) a) (n_cands n).
(* _is_single_quant_mode, base_node.py L182-191 (no final configuration is set during the search) *)
Definition single_mode (n : node) (q : amode) : result bool :=
  match n_cands n with
  | [] => Err E_assert
  | c :: cs => if forallb (fun d => amode_eqb (a_mode (c_act d)) (a_mode (c_act c))) cs
               then Ok (amode_eqb (a_mode (c_act c)) q) else Err E_assert
  end.
Definition act_enabled (n : node) : result bool := single_mode n A_QUANT.           (* L193-197 *)
Definition preserving (n : node) : result bool := single_mode n A_PRESERVE.         (* L205-209 *)
(* is_weights_quantization_enabled, L223-245 *)
Definition weights_enabled (n : node) (a : nat) : result bool :=
  let! cs := attr_cands n a in Ok (forallb w_enable cs).
(* is_all_weights_candidates_equal L487-502, is_all_activation_candidates_equal L475-485 *)
Definition all_weights_equal (n : node) (a : nat) : result bool :=
  let! cs := attr_cands n a in
  Ok (match cs with [] => true | c :: r => forallb (fun d => wcfg_eqb d c) r end).
Definition all_acts_equal (n : node) : bool :=
  match n_cands n with [] => true | c :: _ => forallb (fun d => acfg_eqb (c_act d) (c_act c)) (n_cands n) end.
(* is_configurable_weight L247-257, has_any_configurable_weight L259-265, has_configurable_activation L267-274 *)
Definition configurable_weight (n : node) (a : nat) : result bool :=
  let! e := weights_enabled n a in
  if e then let! q := all_weights_equal n a in Ok (negb q) else Ok false.
Definition any_configurable_weight (n : node) : result bool :=
  let! l := mapM (configurable_weight n) (attrs n) in Ok (existsb id l).
Definition configurable_act (n : node) : result bool :=
  let! e := act_enabled n in Ok (e && negb (all_acts_equal n)).

(* first occurrences, the "seen" idiom of get_unique_*_candidates *)
Fixpoint uniq {A} (eqb : A -> A -> bool) (seen : list A) (l : list A) : list A :=
  match l with
  | [] => []
  | x :: r => if existsb (eqb x) seen then uniq eqb seen r else x :: uniq eqb (seen ++ [x]) r
  end.
(* get_unique_weights_candidates L580-603 (the attribute configurations of the surviving candidates),
   get_unique_activation_candidates L605-619 (their activation configurations) *)
Definition unique_weights (n : node) (a : nat) : result (list wcfg) :=
  let! cs := attr_cands n a in Ok (uniq wcfg_eqb [] cs).
Definition unique_acts (n : node) : list acfg := uniq acfg_eqb [] (map c_act (n_cands n)).

(* retrieve_preserved_quantization_node, base_graph.py L701-716; a walk longer than the number of nodes is a loop *)
Fixpoint preserved_from (fuel : nat) (g : graph) (n : node) : result node :=
  match fuel with
  | O => Err E_fuel
  | S f => let! p := preserving n in
           if p then match g_prev g (n_name n) with
                     | [m] => let! n' := find_node g m in preserved_from f g n'
                     | _ => Err E_assert
                     end
           else Ok n
  end.
Definition preserved (g : graph) (n : node) : result node := preserved_from (S (length (g_nodes g))) g n.

(* BitwidthMode and TargetInclusionCriterion, resource_utilization_calculator.py L41-76 *)
Inductive bmode := B_Float | B_Max | B_Min | B_Custom | B_Default.
Inductive crit := T_Conf | T_NonConf | T_AnyQ | T_Any | T_AnyQNonFused.
Definition float_bits : Z := 32.      (* FLOAT_BITWIDTH *)

Definition py_max (l : list Z) : result Z := match l with [] => Err E_value | x :: r => Ok (fold_left Z.max r x) end.
Definition py_min (l : list Z) : result Z := match l with [] => Err E_value | x :: r => Ok (fold_left Z.min r x) end.

(* _get_weight_nbits, L722-762 *)
Definition weight_nbits (n : node) (a : nat) (m : bmode) (qc : option (list (nat * wcfg))) : result Z :=
  let fallback :=
    match m with
    | B_Float => Ok float_bits
    | _ =>
      let! e := weights_enabled n a in
      if negb e then Ok float_bits else
      let! cs := unique_weights n a in
      match m with
      | B_Max => py_max (map w_bits cs)
      | B_Min => py_min (map w_bits cs)
      | _ => match cs with [c] => Ok (w_bits c) | _ => Err E_value end
      end
    end in
  match qc with
  | None => fallback
  | Some w =>
      match m with
      | B_Custom => match dict_get a w with
                    | Some c => Ok (if w_enable c then w_bits c else float_bits)
                    | None => fallback
                    end
      | _ => Err E_assert
      end
  end.

(* _get_activation_nbits, L684-720 *)
Definition act_nbits (g : graph) (n : node) (m : bmode) (qc : option acfg) : result Z :=
  let! p := preserved g n in
  match qc with
  | Some c => match m with
              | B_Custom => Ok (if amode_eqb (a_mode c) A_QUANT then a_bits c else float_bits)
              | _ => Err E_assert
              end
  | None =>
      match m with
      | B_Float => Ok float_bits
      | _ =>
        let! e := act_enabled p in
        if negb e then Ok float_bits else
        match m with
        | B_Max => py_max (map (fun c => a_bits (c_act c)) (n_cands p))
        | B_Min => py_min (map (fun c => a_bits (c_act c)) (n_cands p))
        | _ => match unique_acts p with [c] => Ok (a_bits c) | _ => Err E_value end
        end
      end
  end.

(* monadic filter: [x for x in l if f(x)] *)
Fixpoint filterM {A} (f : A -> result bool) (l : list A) : result (list A) :=
  match l with
  | [] => Ok []
  | x :: r => let! b := f x in let! ys := filterM f r in Ok (if b then x :: ys else ys)
  end.

(* _get_target_weight_attrs, L606-630 *)
Definition target_weight_attrs (n : node) (t : crit) : result (list nat) :=
  match t with
  | T_Any => Ok (attrs n)
  | T_Conf => filterM (configurable_weight n) (attrs n)
  | T_AnyQ | T_AnyQNonFused => filterM (weights_enabled n) (attrs n)
  | T_NonConf => let! q := filterM (weights_enabled n) (attrs n) in
                 let! c := filterM (configurable_weight n) (attrs n) in
                 Ok (filter (fun a => negb (existsb (Nat.eqb a) c)) q)
  end.

(* size * nbits / 8 *)
Definition bytes_of (size nbits : Z) : Q := inject_Z (size * nbits) / 8.
Definition sum_Q (l : list Q) : Q := fold_left Qplus l 0%Q.

(* compute_node_weights_utilization, L278-323 (bytes only; the element count of Utilization is not modelled) *)
Definition node_weights_bytes (n : node) (ats : list nat) (m : bmode) (qc : option (list (nat * wcfg))) : result Q :=
  let! _ := match qc with
            | Some w => match m with
                        | B_Custom => if existsb (fun k => negb (existsb (Nat.eqb k) (attrs n))) (map fst w)
                                      then Err E_value else Ok tt
                        | _ => Err E_value
                        end
            | None => Ok tt
            end in
  match ats with
  | [] => Err E_value
  | _ => let! l := mapM (fun a => match dict_get a (n_wsizes n) with
                                  | None => Err E_key
                                  | Some size => let! b := weight_nbits n a m qc in Ok (bytes_of size b)
                                  end) ats in
         Ok (sum_Q l)
  end.

(* custom configurations per node name; an empty dict is falsy *)
Definition qc_get {V} (qcs : option (list (nat * V))) (x : nat) : option V :=
  match qcs with None => None | Some d => dict_get x d end.

(* _validate_custom_qcs on a dict, L764-789 *)
Definition validate_qcs {V} (g : graph) (qcs : option (list (nat * V))) (m : bmode) : result unit :=
  match qcs with
  | None => Ok tt
  | Some d => match m with
              | B_Custom => if forallb (fun k => existsb (fun n => Nat.eqb (n_name n) k) (g_nodes g)) (map fst d)
                            then Ok tt else Err E_value
              | _ => Err E_value
              end
  end.

(* compute_weights_utilization, L242-276, with _collect_target_nodes_w_attrs L588-604: reused nodes are skipped *)
Definition weights_per_node (g : graph) (t : crit) (m : bmode) (wq : option (list (nat * list (nat * wcfg))))
  : result (list Q) :=
  let! _ := validate_qcs g wq m in
  let! l := mapM (fun n => let! ats := target_weight_attrs n t in Ok (n, ats)) (g_nodes g) in
  let tgt := filter (fun p => match snd p with [] => false | _ => negb (n_reuse (fst p)) end) l in
  mapM (fun p => node_weights_bytes (fst p) (snd p) m (qc_get wq (n_name (fst p)))) tgt.
Definition weights_utilization (g : graph) (t : crit) (m : bmode) (wq : option (list (nat * list (nat * wcfg))))
  : result Q := let! l := weights_per_node g t m wq in Ok (sum_Q l).

(* _get_target_activation_nodes, L652-682, with include_reused = True; an empty list of nodes means all nodes *)
Definition is_target_act (g : graph) (t : crit) (n : node) : result bool :=
  match t with
  | T_Any => Ok true
  | T_Conf => configurable_act n
  | T_AnyQ => let! e := act_enabled n in let! p := preserving n in Ok (e || p)
  | T_AnyQNonFused => let! e := act_enabled n in let! p := preserving n in
                      Ok ((e || p) && negb (existsb (Nat.eqb (n_name n)) (g_inner g)))
  | T_NonConf => let! e := act_enabled n in let! c := configurable_act n in Ok (e && negb c)
  end.
Definition target_acts (g : graph) (t : crit) (nodes : list node) : result (list node) :=
  filterM (is_target_act g t) (match nodes with [] => g_nodes g | _ => nodes end).

(* _extract_qc, L346-365 *)
Definition extract_qc (g : graph) (n : node) (aq : option (list (nat * acfg))) : result (option acfg) :=
  match aq with
  | None | Some [] => Ok None
  | Some d =>
      let! p := preserving n in
      if p && match dict_get (n_name n) d with Some _ => true | None => false end then Err E_assert
      else let! r := preserved g n in Ok (dict_get (n_name r) d)
  end.

(* compute_node_activation_tensor_utilization, L446-476; the node is already known to be a target *)
Definition node_act_bytes (g : graph) (m : bmode) (aq : option (list (nat * acfg))) (n : node) : result Q :=
  let! qc := extract_qc g n aq in
  let! b := act_nbits g n m qc in
  Ok (bytes_of (n_out n) b).

(* compute_activation_utilization_by_cut, L367-408: per-cut sums of the target nodes; cuts without targets are skipped *)
Definition act_per_cut (g : graph) (t : crit) (m : bmode) (aq : option (list (nat * acfg))) : result (list Q) :=
  let! _ := validate_qcs g aq m in
  let! tg := target_acts g t [] in
  match tg with
  | [] => Ok []
  | _ =>
    let! l := mapM (fun cut => let! ns := mapM (find_node g) cut in target_acts g t ns) (g_cuts g) in
    mapM (fun ns => let! bs := mapM (node_act_bytes g m aq) ns in Ok (sum_Q bs))
         (filter (fun ns => match ns with [] => false | _ => true end) l)
  end.
Definition q_max (x y : Q) : Q := if Qle_bool x y then y else x.
(* the total: 0 without any target node, otherwise the maximum over the cuts (max() of no cut raises ValueError) *)
Definition act_utilization (g : graph) (t : crit) (m : bmode) (aq : option (list (nat * acfg)))
  : result (Q * list Q) :=
  let! tg := target_acts g t [] in
  let! l := act_per_cut g t m aq in
  match tg with
  | [] => Ok (0%Q, [])
  | _ => match l with [] => Err E_value | x :: r => Ok (fold_left q_max r x, l) end
  end.

(* compute_node_bops / compute_bops, L478-564 *)
Definition node_bops (g : graph) (t : crit) (m : bmode) (aq : option (list (nat * acfg)))
    (wq : option (list (nat * list (nat * wcfg)))) (n : node) : result Z :=
  match t with
  | T_Conf | T_NonConf => Err E_value
  | _ =>
    let! _ := validate_qcs g aq m in
    match n_kernel n with
    | None => Ok 0%Z
    | Some k =>
        if Z.eqb (n_mac n) 0 then Ok 0%Z else
        match g_prev g (n_name n) with
        | [x] =>
            let! a := find_node g x in
            let! skip := match t with
                         | T_AnyQ => let! e := act_enabled a in let! w := weights_enabled n k in Ok (negb (e || w))
                         | _ => Ok false
                         end in
            if skip then Ok 0%Z else
            let! qc := extract_qc g a aq in
            let! ab := act_nbits g a m qc in
            let! wb := weight_nbits n k m (qc_get wq (n_name n)) in
            Ok (ab * wb * n_mac n)%Z
        | _ => Err E_assert
        end
    end
  end.
Definition bops (g : graph) (t : crit) (m : bmode) (aq : option (list (nat * acfg)))
    (wq : option (list (nat * list (nat * wcfg)))) : result Z :=
  let! l := mapM (node_bops g t m aq wq) (g_nodes g) in Ok (fold_left Z.add l 0%Z).

(* ResourceUtilization, resource_utilization.py L40-150; None is infinity *)
Record ru := mkRU { ru_w : option Q; ru_a : option Q; ru_t : option Q; ru_b : option Q }.
Definition le_inf (x y : option Q) : bool :=
  match y with None => true | Some b => match x with None => false | Some a => Qle_bool a b end end.
(* is_satisfied_by, L83-99: [self] is the target *)
Definition is_satisfied_by (self r : ru) : bool :=
  le_inf (ru_w r) (ru_w self) && le_inf (ru_a r) (ru_a self) && le_inf (ru_t r) (ru_t self) && le_inf (ru_b r) (ru_b self).
Definition restricted (x : option Q) : bool := match x with None => false | Some _ => true end.

(* the set of requested targets; get_restricted_targets, L101-103 *)
Record targets := mkT { t_w : bool; t_a : bool; t_t : bool; t_b : bool }.
Definition restricted_targets (r : ru) : targets :=
  mkT (restricted (ru_w r)) (restricted (ru_a r)) (restricted (ru_t r)) (restricted (ru_b r)).

(* compute_resource_utilization with allow_unused_qcs = True, L161-240, together with the per-cut details *)
Definition compute_ru (g : graph) (t : crit) (m : bmode) (aq : option (list (nat * acfg)))
    (wq : option (list (nat * list (nat * wcfg)))) (tg0 : targets) : result (ru * list Q) :=
  let tg := if t_w tg0 || t_a tg0 || t_t tg0 || t_b tg0 then tg0 else mkT true true true true in
  let! _ := validate_qcs g aq m in
  let! _ := validate_qcs g wq m in
  let wq := if t_w tg || t_t tg || t_b tg then wq else None in
  let aq := if t_a tg || t_t tg || t_b tg then aq else None in
  let! w := if t_w tg || t_t tg then weights_utilization g t m wq else Ok 0%Q in
  let! (a, cuts) := if t_a tg || t_t tg then act_utilization g t m aq else Ok (0%Q, []) in
  let! b := if t_b tg then bops g t m aq wq else Ok 0%Z in
  Ok (mkRU (if t_w tg then Some w else None) (if t_a tg then Some a else None)
           (if t_t tg then Some (w + a)%Q else None) (if t_b tg then Some (inject_Z b) else None), cuts).

(* A mixed-precision configuration: node name -> candidate index *)
Definition mpcfg := list (nat * nat).
(* get_quantization_candidates, mixed_precision_ru_helper.py L75-91 *)
Definition quant_candidates (g : graph) (cfg : mpcfg) : result (list (nat * acfg) * list (nat * list (nat * wcfg))) :=
  let! l := mapM (fun p => let! n := find_node g (fst p) in
                           match nth_error (n_cands n) (snd p) with
                           | None => Err E_index
                           | Some c => Ok (fst p, c)
                           end) cfg in
  Ok (map (fun p => (fst p, c_act (snd p))) l, map (fun p => (fst p, c_w (snd p))) l).

(* compute_utilization, mixed_precision_ru_helper.py L38-73: one vector per requested target, in the order
   weights, activation, total, bops; targets not requested are absent *)
Record uvec := mkU { u_w : list Q; u_a : list Q; u_t : list Q; u_b : list Q }.
Definition compute_utilization (g : graph) (tg : targets) (cfg : mpcfg) : result uvec :=
  let! (aq, wq) := quant_candidates g cfg in
  let! (r, cuts) := compute_ru g T_AnyQNonFused B_Custom (Some aq) (Some wq) tg in
  let v (x : option Q) := match x with None => [] | Some q => [q] end in
  let! w := if t_t tg then weights_utilization g T_AnyQNonFused B_Custom (Some wq) else Ok 0%Q in
  Ok (mkU (v (ru_w r)) (if t_a tg then cuts else []) (if t_t tg then map (fun c => (c + w)%Q) cuts else []) (v (ru_b r))).

(* compute_resource_utilization_for_config, mixed_precision_search_manager.py L289-309 *)
Definition ru_for_config (g : graph) (tg : targets) (cfg : mpcfg) : result ru :=
  let! (aq, wq) := quant_candidates g cfg in
  let! (r, _) := compute_ru g T_AnyQNonFused B_Custom (Some aq) (Some wq) tg in Ok r.
