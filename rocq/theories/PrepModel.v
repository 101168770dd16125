(* PrepModel.v -- the quantization configurations of a graph when its preparation ends.

   Modelled (under model_compression_toolkit/):
     core/graph_prep_runner.py  get_finalized_graph L113-190: the check of the error method L113-118, loading the
                                configurations L155, manual bit-widths L158-159, single precision L173-175, filtering L187
     core/common/graph/base_graph.py  override_fused_node_activation_quantization_candidates L864-892
     quantization_preparation/load_fqc.py  load_fqc_configuration L33-48, _set_fusion_info L142-158
   on top of LookupModel.load_graph, ManualModel.set_manual and CandModel.filter_node.
   Simplifications: the graph is the one after the substitutions (they run before the configurations are loaded, except
   channel equalization, which does not touch the number or the bit-widths of the candidates); the settings that set_qc
   copies into every configuration (L166-171) are the same everywhere and are left out; which nodes lie inside a fused
   operation, and the configuration of that operation, are parameters (FuseModel computes them). *)
From Coq Require Import String.
From Verif Require Import Base SDict MPModel HessianModel FilterModel PlatModel LookupModel CandModel ManualModel.
Local Open Scope list_scope.

(* NodeActivationQuantizationConfig(fusing_op_quantization_cfg, ...) with quant_mode = FLN_QUANT, L875-881; the constructor
   raises for a configuration that is both quantized and preserving *)
Definition fused_act (o : opcfg) (c : cand) : cand :=
  Cand (oc_method o) (oc_bits o) M_fln_quant (oc_signed o) (cd_simd c) (cd_pos c) (cd_named c).
(* override_fused_node_activation_quantization_candidates L870-892 for one node; [fused n] is the configuration of the
   operation that n is inside of.  The functions that a configuration keeps from before (L878-879) take part in ==; they
   are determined by the method the configuration had *)
Definition override_node (o : option opcfg) (c : nodecfg) : result nodecfg :=
  match o with
  | Some q =>
      if oc_enable q then
        if oc_preserve q then Err E_value else
        Ok (NodeCfg (fused_act q (nc_base c))
              (map snd (uniq (fun a b => cand_eqb (snd a) (snd b) && Nat.eqb (fst a) (fst b)) []
                          (map (fun x => (cd_method x, fused_act q x)) (nc_cands c)))))
      else Ok (NodeCfg (set_mode M_fln_no (nc_base c)) (uniq weights_eqb [] (map (set_mode M_fln_no) (nc_cands c))))
  | None => Ok (NodeCfg (set_mode M_fln_no (nc_base c)) (uniq weights_eqb [] (map (set_mode M_fln_no) (nc_cands c))))
  end.
Definition override (fused : nat -> option (option opcfg)) (st : list (nat * nodecfg)) (n : gnode) : result mnode :=
  match dict_get (gn_id n) st with
  | None => Err E_attr
  | Some c => let! c' := match fused (gn_id n) with Some o => override_node o c | None => Ok c end in
              Ok (MNode (gn_id n) (gn_attrs n) c')
  end.

(* n.quantization_cfg.candidates_quantization_cfg = [n.quantization_cfg.base_quantization_cfg], L173-174 *)
Definition single (m : mnode) : mnode := MNode (mn_id m) (mn_attrs m) (NodeCfg (nc_base (mn_cfg m)) [nc_base (mn_cfg m)]).
(* filter_nodes_candidates, for the node n of the graph *)
Definition filter_one (p : gnode * mnode) : result mnode :=
  let! cs := filter_node (gn_kernel (fst p)) (nc_cands (mn_cfg (snd p))) in
  Ok (MNode (mn_id (snd p)) (mn_attrs (snd p)) (NodeCfg (nc_base (mn_cfg (snd p))) cs)).

(* get_finalized_graph L113-190; [hmse]: the weights error method is HMSE *)
Definition prepare (hmse gptq mixed : bool) (fuel : nat) (f : fqc) (g : lgraph)
    (fused : nat -> option (option opcfg)) (bw : option bwconfig) : result (list mnode) :=
  if hmse && negb gptq then Err E_value else
  let! st := load_graph fuel f g in
  let! ms := mapM (override fused st) (lg_nodes g) in
  let! ms := match bw with Some c => set_manual c ms | None => Ok ms end in
  let ms := if mixed then ms else map single ms in
  mapM filter_one (combine (lg_nodes g) ms).
