(* LookupModel.v -- choosing quantization options for a node and restricting them by the graph.

   Modelled (under model_compression_toolkit/):
     target_platform_capabilities/targetplatform2framework/attach2fw.py  AttachTpcToFramework.attach L22-66
     .../operations_to_layers.py  validate_op_sets L127-152, get_layers_by_op L76-97
     .../framework_quantization_capabilities.py  _get_config_options_mapping L184-214, get_fusing_patterns L100-119
     quantization_preparation/load_fqc.py  L51-139, L161-230
     core/common/quantization/set_node_quantization_config.py  filter_node_qco_by_graph L31-102
     core/common/quantization/candidate_node_quantization_config.py  L61-71, L79-90, L102-141
     core/common/quantization/node_quantization_config.py  constructors L82-114, L253-277, L377-444;
                                                           get_attr_config L452-485; __eq__ L208-234, L342-363, L592-614
     core/common/graph/base_node.py  sort_node_candidates L712-729
   Simplifications: two LayerFilterParams objects are the same dictionary key iff they carry the same number [i];
   the default of an attribute-name mapping is a name (None is not modelled); the quantization functions are
   determined by the quantization method; fields that set_qc fills later are None in all candidates here. *)
From Coq Require Import String.
From Verif Require Import Base SDict FilterModel PlatModel HessianModel MPModel.
Local Open Scope list_scope.

(* ---- tables of a platform attached to a framework ---- *)

(* a layer of the framework: a class/function with its __name__, or a LayerFilterParams object *)
Inductive lkey := K_layer (id : nat) (name : string) | K_filter (i : nat) (f : lfilter).
Definition lkey_eqb (a b : lkey) : bool :=
  match a, b with
  | K_layer x _, K_layer y _ => Nat.eqb x y
  | K_filter i _, K_filter j _ => Nat.eqb i j
  | _, _ => false
  end.
(* DefaultDict.get, defaultdict.py L41-57 *)
Record ddict := DDict { dd_known : list (lkey * string); dd_default : string }.
Definition dd_get (d : ddict) (k : lkey) : string :=
  match find (fun p => lkey_eqb k (fst p)) (dd_known d) with Some p => snd p | None => dd_default d end.

(* OperationsSetToLayers L27-46 *)
Record oplayers := OpLayers { ol_name : string; ol_layers : list lkey; ol_attr : option (list (string * ddict)) }.

(* validate_op_sets L127-152 *)
Fixpoint key_repeats (seen : list lkey) (l : list lkey) : bool :=
  match l with [] => false | k :: r => existsb (lkey_eqb k) seen || key_repeats (seen ++ [k]) r end.
Fixpoint validate_op_sets (names : list string) (seen : list lkey) (l : list oplayers) : result unit :=
  match l with
  | [] => Ok tt
  | o :: r =>
      if existsb (String.eqb (ol_name o)) names then Err E_assert else
      if key_repeats seen (ol_layers o) then Err E_critical else
      validate_op_sets (names ++ [ol_name o]) (seen ++ ol_layers o) r
  end.

(* the loop of attach L44-64; each OperationsSetToLayers is appended and the result validated *)
Definition attach_step (custom builtin : list (string * oplayers)) (acc : list oplayers) (s : opset) : result (list oplayers) :=
  let add o := let acc' := acc ++ [OpLayers (os_name s) (ol_layers o) (ol_attr o)] in
               let! _ := validate_op_sets [] [] acc' in Ok acc' in
  match sget (os_name s) custom with
  | Some o => add o
  | None => match sget (os_name s) builtin with
            | Some o => match ol_layers o with [] => Ok acc | _ => add o end
            | None => Err E_critical
            end
  end.

(* the attached platform: the two tables and the default options *)
Record fqc := Fqc { q_filters : list (lfilter * qco); q_layers : list ((nat * string) * qco); q_default : qco }.

(* _get_config_options_mapping L184-214: the options of each layer (in the dictionary order of the layers) *)
Definition layer_options (t : tpc2) (o : oplayers) (l : lkey) : result qco :=
  let! q := options_of_opset t (ol_name o) in
  let q := match q with Some q => q | None => t2_default t end in
  Ok (qco_map_keys (option_map (map (fun kv => (fst kv, dd_get (snd kv) l))) (ol_attr o)) q).
Fixpoint kset (k : lkey) (v : qco) (d : list (lkey * qco)) : list (lkey * qco) :=
  match d with [] => [(k, v)] | (k', v') :: r => if lkey_eqb k k' then (k', v) :: r else (k', v') :: kset k v r end.
Definition options_mapping (t : tpc2) (ops : list oplayers) : result (list (lkey * qco)) :=
  foldM (fun d o => foldM (fun d l => let! q := layer_options t o l in Ok (kset l q d)) (ol_layers o) d) ops [].
Definition split_tables (t : tpc2) (d : list (lkey * qco)) : fqc :=
  Fqc (flat_map (fun p => match fst p with K_filter _ f => [(f, snd p)] | _ => [] end) d)
      (flat_map (fun p => match fst p with K_layer i s => [((i, s), snd p)] | _ => [] end) d)
      (t2_default t).
(* attach L22-66 (with __exit__ L162-172) *)
Definition attach (custom builtin : list (string * oplayers)) (t : tpc2) : result fqc :=
  let! ops := foldM (attach_step custom builtin) (or_old (t2_opsets t) []) [] in
  let! d := options_mapping t ops in
  Ok (split_tables t d).

(* ---- lookup ---- *)

(* any(qco != qcos[0] for qco in qcos[1:]) *)
Definition conflicting (l : list qco) : bool :=
  match l with [] => false | q :: r => existsb (fun x => negb (qco_eqb x q)) r end.

(* fetch_qc_options_for_node L82-118, with return_default=False *)
Definition fetch_opt (f : fqc) (n : fnode) : result (option qco) :=
  let! fm := filterM (fun p => lf_match n (fst p)) (q_filters f) in
  let fq := map snd fm in
  if conflicting fq then Err E_value else
  let lq := map snd (filter (fun p => is_match_type n (fst (fst p)) (snd (fst p))) (q_layers f)) in
  if conflicting lq then Err E_value else
  Ok (match fq, lq with q :: _, _ => Some q | [], q :: _ => Some q | [], [] => None end).
Definition fetch (f : fqc) (n : fnode) : result qco := let! o := fetch_opt f n in Ok (or_old o (q_default f)).

(* ---- graphs ---- *)

(* weight attributes of a node: positional or named *)
Inductive wname := W_pos (i : nat) | W_name (s : string).
Record gnode := GNode { gn_id : nat; gn_f : fnode; gn_attrs : list wname; gn_kernel : option string; gn_act : bool; gn_custom : bool }.
(* nodes in topological order, edges (source, sink) *)
Record lgraph := LGraph { lg_nodes : list gnode; lg_edges : list (nat * nat) }.
Definition lnext (g : lgraph) (n : nat) : list nat := map snd (filter (fun e => Nat.eqb (fst e) n) (lg_edges g)).
Definition lprev (g : lgraph) (n : nat) : list nat := map fst (filter (fun e => Nat.eqb (snd e) n) (lg_edges g)).
Definition lnode (g : lgraph) (n : nat) : option gnode := find (fun x => Nat.eqb (gn_id x) n) (lg_nodes g).
Definition opts_at (f : fqc) (g : lgraph) (n : nat) : result qco :=
  match lnode g n with Some x => fetch f (gn_f x) | None => Err E_key end.

(* the while loop of filter_node_qco_by_graph L60-70; [fuel] bounds the number of iterations *)
Fixpoint next_nodes (fuel : nat) (f : fqc) (g : lgraph) (queue acc : list nat) : result (list nat) :=
  match queue with
  | [] => Ok acc
  | n :: r =>
      match fuel with
      | O => Err E_fuel
      | S k =>
          let! q := opts_at f g n in
          match qo_cfgs q with
          | [] => Err E_index
          | c :: _ => next_nodes k f g (if oc_preserve c then r ++ lnext g n else r) (acc ++ [n])
          end
      end
  end.

Definition zmin (l : list Z) : option Z := match l with [] => None | z :: r => Some (fold_left Z.min r z) end.
(* output_act_bitwidth L96-97: the last option among those with the most bits *)
Definition widest_option (l : list opcfg) : option opcfg :=
  match l with
  | [] => None
  | c :: r => let m := fold_left Z.max (map oc_bits r) (oc_bits c) in
              find (fun c => Z.eqb (oc_bits c) m) (rev l)
  end.

(* filter_node_qco_by_graph L31-102 *)
Definition filter_by_graph (fuel : nat) (f : fqc) (g : lgraph) (n : nat) (q : qco) : result (opcfg * list opcfg) :=
  let! ns := next_nodes fuel f g (lnext g n) [] in
  match ns with
  | [] => Ok (qo_base q, qo_cfgs q)
  | _ =>
      let! nq := mapM (opts_at f g) ns in
      let! limits := mapM max_input_bits (filter (fun c => oc_enable c || oc_preserve c) (flat_map qo_cfgs nq)) in
      match zmin limits with
      | None => Ok (qo_base q, qo_cfgs q)
      | Some lim =>
          let opts := filter (fun c => Z.leb (oc_bits c) lim) (qo_cfgs q) in
          match opts with
          | [] => Err E_critical
          | _ =>
              let! over := mapM (fun qc => let! m := max_input_bits (qo_base qc) in Ok (Z.ltb m (oc_bits (qo_base q)))) nq in
              if existsb (fun b => b) over then
                match widest_option opts with Some c => Ok (c, opts) | None => Err E_key end
              else Ok (qo_base q, opts)
          end
      end
  end.

(* ---- candidates ---- *)

Inductive amode := M_quant | M_fln_quant | M_preserve | M_no | M_fln_no.
Definition amode_eqb (a b : amode) : bool :=
  match a, b with
  | M_quant, M_quant | M_fln_quant, M_fln_quant | M_preserve, M_preserve | M_no, M_no | M_fln_no, M_fln_no => true
  | _, _ => false
  end.
(* WeightsAttrQuantizationConfig L253-277 and its __eq__ L342-363 *)
Record wcfg := WCfg { wc_method : nat; wc_bits : Z; wc_per_channel : bool; wc_enable : bool }.
Definition wcfg_of (a : attrcfg) : wcfg := WCfg (ac_method a) (ac_bits a) (ac_per_channel a) (ac_enable a).
Definition wcfg_eqb (a b : wcfg) : bool :=
  Nat.eqb (wc_method a) (wc_method b) && Z.eqb (wc_bits a) (wc_bits b) &&
  Bool.eqb (wc_per_channel a) (wc_per_channel b) && Bool.eqb (wc_enable a) (wc_enable b).
(* CandidateNodeQuantizationConfig: activation part (L82-114), weights part (L377-444) *)
Record cand := Cand {
  cd_method : nat; cd_bits : Z; cd_mode : amode; cd_signed : nat;
  cd_simd : option Z; cd_pos : list (nat * wcfg); cd_named : list (string * wcfg) }.
Definition ndict_eqb {V} (veqb : V -> V -> bool) (a b : list (nat * V)) : bool :=
  Nat.eqb (length a) (length b) &&
  forallb (fun kv => match dict_get (fst kv) b with Some v => veqb (snd kv) v | None => false end) a.
(* == on candidates: the signedness is not compared (L208-234) *)
Definition cand_eqb (a b : cand) : bool :=
  Nat.eqb (cd_method a) (cd_method b) && Z.eqb (cd_bits a) (cd_bits b) && amode_eqb (cd_mode a) (cd_mode b) &&
  opt_eqb Z.eqb (cd_simd a) (cd_simd b) && ndict_eqb wcfg_eqb (cd_pos a) (cd_pos b) &&
  sdict_eqb wcfg_eqb (cd_named a) (cd_named b).

Definition pos_attr : string := "pos_attr".
(* the attribute configuration of the platform that applies to a weight attribute of the node, L399-440 *)
Definition attr_cfg_for (c : opcfg) (w : wname) : result attrcfg :=
  match w with
  | W_pos _ => match filter (fun kv => str_contains (fst kv) pos_attr) (oc_attrs c) with
               | [] => Ok (oc_default c) | [kv] => Ok (snd kv) | _ => Err E_value end
  | W_name s => match filter (fun kv => str_contains s (fst kv)) (oc_attrs c) with
                | [] => Ok (oc_default c) | [kv] => Ok (snd kv) | _ => Err E_critical end
  end.
Definition new_weights (c : opcfg) (attrs : list wname) : result (list (nat * wcfg) * list (string * wcfg)) :=
  foldM (fun d w => let! a := attr_cfg_for c w in
                    Ok (match w with
                        | W_pos i => (dict_set i (wcfg_of a) (fst d), snd d)
                        | W_name s => (fst d, sset s (wcfg_of a) (snd d)) end)) attrs ([], []).
(* _create_candidate, load_fqc.py L196-230 *)
Definition new_cand (attrs : list wname) (c : opcfg) : result cand :=
  if oc_enable c && oc_preserve c then Err E_value else
  let mode := if oc_enable c then M_quant else if oc_preserve c then M_preserve else M_no in
  let! (p, s) := new_weights c attrs in
  Ok (Cand (oc_method c) (oc_bits c) mode (oc_signed c) (oc_simd c) p s).

Record nodecfg := NodeCfg { nc_base : cand; nc_cands : list cand }.
(* NodeQuantizationConfig.__post_init__ L102-111 with its validations L113-141 *)
Definition same_weights_mode (a b : cand) : bool :=
  ndict_eqb (fun x y => Bool.eqb (wc_enable x) (wc_enable y)) (cd_pos a) (cd_pos b) &&
  sdict_eqb (fun x y => Bool.eqb (wc_enable x) (wc_enable y)) (cd_named a) (cd_named b).
Definition new_nodecfg (base : cand) (cands : list cand) : result nodecfg :=
  if negb (existsb (cand_eqb base) cands) then Err E_value else
  if existsb (fun c => negb (amode_eqb (cd_mode c) (cd_mode base))) cands then Err E_value else
  if existsb (fun c => negb (same_weights_mode base c)) cands then Err E_value else
  Ok (NodeCfg base cands).

(* NodeWeightsQuantizationConfig.get_attr_config L452-485, for a name *)
Definition get_attr_config (c : cand) (name : string) : result wcfg :=
  match filter (fun kv => str_contains (fst kv) name) (cd_named c) with
  | [] => Err E_critical
  | [kv] => Ok (snd kv)
  | _ => match sget name (cd_named c) with Some w => Ok w | None => Err E_critical end
  end.
(* sort_node_candidates, base_node.py L712-729: list.sort(reverse=True) is stable *)
Definition key_le (a b : Z * Z) : bool := Z.ltb (fst a) (fst b) || (Z.eqb (fst a) (fst b) && Z.leb (snd a) (snd b)).
Fixpoint insert_desc (x : (Z * Z) * cand) (l : list ((Z * Z) * cand)) : list ((Z * Z) * cand) :=
  match l with
  | [] => [x]
  | y :: r => if key_le (fst y) (fst x) then x :: l else y :: insert_desc x r
  end.
Definition sort_desc (l : list ((Z * Z) * cand)) : list ((Z * Z) * cand) := fold_right insert_desc [] l.
Definition sort_candidates (kernel : option string) (l : list cand) : result (list cand) :=
  let! keyed := mapM (fun c => match kernel with
                               | Some k => let! w := get_attr_config c k in Ok ((wc_bits w, cd_bits c), c)
                               | None => Ok ((0%Z, cd_bits c), c) end) l in
  Ok (map snd (sort_desc keyed)).

(* update_activation_quantization_mode L61-71 *)
Definition set_mode (m : amode) (c : cand) : cand :=
  Cand (cd_method c) (cd_bits c) m (cd_signed c) (cd_simd c) (cd_pos c) (cd_named c).
Definition set_modes (m : amode) (n : nodecfg) : nodecfg := NodeCfg (set_mode m (nc_base n)) (map (set_mode m) (nc_cands n)).
(* get_activation_quant_mode L79-90 *)
Definition node_mode (n : nodecfg) : result amode :=
  if existsb (fun c => negb (amode_eqb (cd_mode c) (cd_mode (nc_base n)))) (nc_cands n) then Err E_value else Ok (cd_mode (nc_base n)).

(* _disable_unsupported_quant_preserving, load_fqc.py L161-180 *)
Definition disable_preserving (g : lgraph) (st : list (nat * nodecfg)) (n : nat) (c : nodecfg) : result nodecfg :=
  let! m := node_mode c in
  if negb (amode_eqb m M_preserve) then Ok c else
  match lprev g n with
  | [p] => match dict_get p st with
           | None => Err E_attr
           | Some pc => let! pm := node_mode pc in Ok (if amode_eqb pm M_no then set_modes M_no c else c)
           end
  | _ => Ok (set_modes M_no c)
  end.

(* set_quantization_configs_to_node, load_fqc.py L51-79 *)
Definition set_node (fuel : nat) (f : fqc) (g : lgraph) (st : list (nat * nodecfg)) (n : gnode) : result (list (nat * nodecfg)) :=
  let! q := fetch f (gn_f n) in
  let! (base, opts) := filter_by_graph fuel f g (gn_id n) q in
  let! cands := mapM (new_cand (gn_attrs n)) opts in
  let! sp := new_cand (gn_attrs n) base in
  let! nc := new_nodecfg sp cands in
  let! sorted := sort_candidates (gn_kernel n) (nc_cands nc) in
  let nc := NodeCfg (nc_base nc) sorted in
  let nc := if gn_act n then nc else set_modes M_no nc in
  let! nc := disable_preserving g st (gn_id n) nc in
  Ok (dict_set (gn_id n) nc st).

(* _validate_custom_ops_have_qco L184-193 and the loop L135-138 *)
Definition check_custom (f : fqc) (n : gnode) : result unit :=
  if gn_custom n then
    let! o := fetch_opt f (gn_f n) in
    match o with
    | None => Err E_critical
    | Some q => if existsb (fun c => ac_enable (oc_default c)) (qo_cfgs q) then Err E_critical else Ok tt
    end
  else Ok tt.
Definition load_graph (fuel : nat) (f : fqc) (g : lgraph) : result (list (nat * nodecfg)) :=
  let! _ := mapM (check_custom f) (lg_nodes g) in
  foldM (set_node fuel f g) (lg_nodes g) [].

(* ---- fusing patterns of the attached platform ---- *)
(* get_layers_by_op, operations_to_layers.py L76-97 *)
Definition layers_of_name (ops : list oplayers) (name : string) : option (list lkey) :=
  option_map ol_layers (find (fun o => String.eqb name (ol_name o)) ops).
Definition layers_by_op (ops : list oplayers) (p : opgroup) : list lkey :=
  match p with
  | G_set s => or_old (layers_of_name ops (os_name s)) []
  | G_group name l =>
      match layers_of_name ops name with
      | Some r => r
      | None => flat_map (fun s => or_old (layers_of_name ops (os_name s)) []) l
      end
  end.
(* itertools.product *)
Fixpoint product {A} (l : list (list A)) : list (list A) :=
  match l with [] => [[]] | x :: r => flat_map (fun a => map (cons a) (product r)) x end.
(* get_fusing_patterns L100-119 *)
Definition fusing_patterns (ops : list oplayers) (t : tpc2) : list (list lkey * option opcfg) :=
  match t2_fusing t with
  | None => []
  | Some l => flat_map (fun p => map (fun x => (x, fu_cfg p)) (product (map (layers_by_op ops) (fu_groups p)))) l
  end.
