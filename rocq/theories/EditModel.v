(* EditModel.v -- the network editor: rules of a node filter and an action, applied to the nodes of a graph.
   Sources (under model_compression_toolkit/core/common): network_editors/edit_network.py L21-41,
     network_editors/actions.py (the ten actions), network_editors/node_filters.py, matchers/node_matcher.py L26-89,
     graph/graph_searches.py L30-41 (_node_filter), quantization/node_quantization_config.py L54-72, L144-150, L452-590,
     graph/base_node.py L646-656 and graph/functional_node.py L84-106 (is_match_type),
     quantization/quantization_params_fn_selection.py, quantization/quantization_fn_selection.py,
     mixed_precision/bit_width_setter.py L36-120 (which final configurations are the objects of a candidate);
     the editor runs twice: core/quantization_prep_runner.py L84 and core/runner.py L154.
   A configuration object is the list of its data fields; field names that are methods of the object are not
   modelled.  Values of fields are opaque.  An error aborts the run, so the partly edited graph is not returned. *)
From Coq Require Import String.
From Verif Require Export Base SDict.
From Verif Require Import FilterModel.
Local Open Scope list_scope.

(* a Python value: None, or some object *)
Definition pyv := option nat.
Definition cfg := list (string * pyv).

(* hasattr(self, k) / setattr(self, k, v), node_quantization_config.py L68-72; the properties of the class have no setter.
   A missing field is only warned about. *)
Definition set_field (props : list string) (c : cfg) (k : string) (v : pyv) : result cfg :=
  if existsb (String.eqb k) props then Err E_attr
  else Ok (match sget k c with Some _ => sset k v c | None => c end).

(* NodeActivationQuantizationConfig, L144-150 *)
Definition act_props : list string := ["enable_activation_quantization"%string; "quantization_preserving"%string].
(* NodeWeightsQuantizationConfig, L520 *)
Definition w_props : list string := ["all_weight_attrs"%string].

(* keys of the weights' configurations: positional weights and named ones; the two dictionaries
   pos_attributes_config_mapping and attributes_config_mapping are one list *)
Inductive akey := A_pos (i : nat) | A_name (s : string).
Definition akey_eqb (a b : akey) : bool :=
  match a, b with
  | A_pos i, A_pos j => Nat.eqb i j
  | A_name s, A_name t => String.eqb s t
  | _, _ => false
  end.
Fixpoint aget (k : akey) (l : list (akey * cfg)) : option cfg :=
  match l with [] => None | (k', c) :: r => if akey_eqb k k' then Some c else aget k r end.
Fixpoint aset (k : akey) (c : cfg) (l : list (akey * cfg)) : list (akey * cfg) :=
  match l with
  | [] => []
  | (k', c') :: r => if akey_eqb k k' then (k', c) :: r else (k', c') :: aset k c r
  end.
Record wcfg := WCfg { w_fields : cfg; w_attrs : list (akey * cfg) }.

(* _extract_config_for_attributes_with_name, L544-560: the stored names that contain the given one *)
Definition names_with (w : wcfg) (s : string) : list (akey * cfg) :=
  filter (fun kc => match fst kc with A_name t => str_contains t s | A_pos _ => false end) (w_attrs w).
(* has_attribute_config, L501-518 *)
Definition has_attr (w : wcfg) (a : akey) : bool :=
  match a with
  | A_pos _ => match aget a (w_attrs w) with Some _ => true | None => false end
  | A_name s => Nat.leb 1 (length (names_with w s))
  end.
(* get_attr_config, L452-485: the key of the configuration that is returned *)
Definition get_attr (w : wcfg) (a : akey) : result akey :=
  let found :=
    match a with
    | A_pos _ => match aget a (w_attrs w) with Some _ => Some a | None => None end
    | A_name s =>
        match names_with w s with
        | [(k, _)] => Some k
        | _ :: _ :: _ => match aget a (w_attrs w) with Some _ => Some a | None => None end
        | [] => None
        end
    end in
  match found with Some k => Ok k | None => Err E_critical end.
(* a method of the configuration object under a key *)
Definition on_attr (w : wcfg) (k : akey) (f : cfg -> cfg) : wcfg :=
  match aget k (w_attrs w) with Some c => WCfg (w_fields w) (aset k (f c) (w_attrs w)) | None => w end.

(* NodeWeightsQuantizationConfig.set_quant_config_attr, L562-590 *)
Definition set_weights_field (w : wcfg) (k : string) (v : pyv) (attr : option akey) : result wcfg :=
  match attr with
  | None => let! c := set_field w_props (w_fields w) k v in Ok (WCfg c (w_attrs w))
  | Some a =>
      if has_attr w a then
        let! key := get_attr w a in
        Ok (on_attr w key (fun c => match sget k c with Some _ => sset k v c | None => c end))
      else Err E_critical
  end.

(* a candidate; a final configuration is an object of its own, or the object of a candidate
   (bit_width_setter.py: copy.deepcopy outside of mixed precision, L119-120 the object itself for a configurable node) *)
Record cand := Cand { c_act : cfg; c_w : wcfg }.
Inductive final (A : Type) := Own (c : A) | Shared (i : nat).
Arguments Own {A} c.
Arguments Shared {A} i.

Record node := Node {
  n_name : string;
  n_class : string;                     (* layer_class *)
  n_func : option string;               (* functional_op of a FunctionalNode *)
  n_weights : pyv;                      (* node.weights as one value *)
  n_fattr : pyv;                        (* node.framework_attr as one value *)
  n_cands : list cand;
  n_fact : option (final cfg);          (* final_activation_quantization_cfg *)
  n_fw : option (final wcfg)            (* final_weights_quantization_cfg *)
}.
Definition with_cands n cs := Node (n_name n) (n_class n) (n_func n) (n_weights n) (n_fattr n) cs (n_fact n) (n_fw n).
Definition with_fact n c := Node (n_name n) (n_class n) (n_func n) (n_weights n) (n_fattr n) (n_cands n) (Some (Own c)) (n_fw n).
Definition with_fw n c := Node (n_name n) (n_class n) (n_func n) (n_weights n) (n_fattr n) (n_cands n) (n_fact n) (Some (Own c)).

(* node filters and their combinations *)
Inductive matcher :=
  | M_type (t : string) | M_name (s : string) | M_scope (s : string)
  | M_any | M_and (a b : matcher) | M_or (a b : matcher) | M_not (a : matcher).
(* the value of .apply: Some b for a bool, None for Python's None, which the filters of node_filters.py return
   when they do not match *)
Definition truthy (r : option bool) : bool := match r with Some true => true | _ => false end.
(* is_match_type: a type is its name; a functional node compares with functional_op *)
Definition node_type (n : node) : string := match n_func n with Some f => f | None => n_class n end.
Fixpoint match_node (m : matcher) (n : node) : option bool :=
  match m with
  | M_type t => if String.eqb t (node_type n) then Some true else None
  | M_name s => if String.eqb (n_name n) s then Some true else None
  | M_scope s => if str_contains (n_name n) s then Some true else None
  | M_any => Some true
  | M_and a b => let x := match_node a n in if truthy x then match_node b n else x
  | M_or a b => let x := match_node a n in if truthy x then x else match_node b n
  | M_not a => Some (negb (truthy (match_node a n)))
  end.

(* the tables of the quantization methods: parameter functions and quantizers, None where there is none *)
Record tables := Tables {
  t_act_params : nat -> option nat;     (* get_activation_quantization_params_fn *)
  t_act_fn : nat -> option nat;         (* fw_info.activation_quantizer_mapping.get *)
  t_w_params : nat -> option nat;       (* get_weights_quantization_params_fn *)
  t_w_fn : nat -> option nat            (* get_weights_quantization_fn *)
}.

Inductive action :=
  | Change_cand_w (attr : option akey) (kw : list (string * pyv))
  | Change_final_w (attr : option akey) (kw : list (string * pyv))
  | Change_cand_act (kw : list (string * pyv))
  | Change_final_act (kw : list (string * pyv))
  | Change_params_fn (attr : option akey) (act w : option nat)
  | Final_act_method (m : option nat)
  | Cand_act_method (m : option nat)
  | Final_w_method (a : akey) (m : option nat)
  | Cand_w_method (a : akey) (m : option nat)
  | Replace_layer (cls : string) (fn : pyv -> option pyv -> pyv -> result (pyv * pyv)).

(* for parameter_name, parameter_value in self.kwargs.items(): *)
Definition set_act_kw (kw : list (string * pyv)) (c : cfg) : result cfg :=
  foldM (fun c kv => set_field act_props c (fst kv) (snd kv)) kw c.
Definition set_w_kw (attr : option akey) (kw : list (string * pyv)) (w : wcfg) : result wcfg :=
  foldM (fun w kv => set_weights_field w (fst kv) (snd kv) attr) kw w.

(* for nqc in node.candidates_quantization_cfg: *)
Definition each_cand (f : cand -> result cand) (n : node) : result node :=
  let! cs := mapM f (n_cands n) in Ok (with_cands n cs).
Fixpoint replace_nth {A} (l : list A) (i : nat) (x : A) : list A :=
  match l, i with
  | [], _ => []
  | _ :: r, O => x :: r
  | a :: r, S j => a :: replace_nth r j x
  end.
(* if node.final_... is not None: *)
Definition on_final_act (f : cfg -> result cfg) (n : node) : result node :=
  match n_fact n with
  | None => Ok n
  | Some (Own c) => let! c' := f c in Ok (with_fact n c')
  | Some (Shared i) =>
      match nth_error (n_cands n) i with
      | Some c => let! a' := f (c_act c) in Ok (with_cands n (replace_nth (n_cands n) i (Cand a' (c_w c))))
      | None => Ok n
      end
  end.
Definition on_final_w (f : wcfg -> result wcfg) (n : node) : result node :=
  match n_fw n with
  | None => Ok n
  | Some (Own c) => let! c' := f c in Ok (with_fw n c')
  | Some (Shared i) =>
      match nth_error (n_cands n) i with
      | Some c => let! w' := f (c_w c) in Ok (with_cands n (replace_nth (n_cands n) i (Cand (c_act c) w')))
      | None => Ok n
      end
  end.
(* the object that is the final activation configuration *)
Definition final_act (n : node) : option cfg :=
  match n_fact n with
  | None => None
  | Some (Own c) => Some c
  | Some (Shared i) => option_map c_act (nth_error (n_cands n) i)
  end.
Definition final_w (n : node) : option wcfg :=
  match n_fw n with
  | None => None
  | Some (Own c) => Some c
  | Some (Shared i) => option_map c_w (nth_error (n_cands n) i)
  end.

Section Editor.
Context (T : tables).

(* actions.py, ChangeFinalActivationQuantizationMethod: a missing quantizer is stored as None *)
Definition final_act_method (m : nat) (c : cfg) : result cfg :=
  match t_act_params T m with
  | None => Err E_critical
  | Some p =>
      let c := sset "activation_quantization_params_fn" (Some p) c in
      let c := sset "activation_quantization_fn" (t_act_fn T m) c in
      Ok (sset "activation_quantization_method" (Some m) c)
  end.
(* ChangeCandidatesActivationQuantizationMethod *)
Definition cand_act_method (m : nat) (c : cfg) : result cfg :=
  match t_act_params T m with
  | None => Err E_critical
  | Some p =>
      let c := sset "activation_quantization_params_fn" (Some p) c in
      match t_act_fn T m with
      | None => Err E_critical
      | Some q =>
          let c := sset "activation_quantization_fn" (Some q) c in
          Ok (sset "activation_quantization_method" (Some m) c)
      end
  end.
(* ChangeFinalWeightsQuantizationMethod and ChangeCandidatesWeightsQuantizationMethod *)
Definition w_method (a : akey) (m : nat) (w : wcfg) : result wcfg :=
  match t_w_params T m with
  | None => Err E_critical
  | Some p =>
      let! k := get_attr w a in
      let w := on_attr w k (sset "weights_quantization_params_fn" (Some p)) in
      match t_w_fn T m with
      | None => Err E_critical
      | Some q =>
          let w := on_attr w k (sset "weights_quantization_fn" (Some q)) in
          Ok (on_attr w k (sset "weights_quantization_method" (Some m)))
      end
  end.
(* ChangeQuantizationParamFunction, for one candidate *)
Definition params_fn (attr : option akey) (act w : option nat) (c : cand) : result cand :=
  let a' := match act with Some f => sset "activation_quantization_params_fn" (Some f) (c_act c) | None => c_act c end in
  match w with
  | None => Ok (Cand a' (c_w c))
  | Some f =>
      match attr with
      | None => Err E_critical
      | Some a =>
          let! k := get_attr (c_w c) a in
          Ok (Cand a' (on_attr (c_w c) k (sset "weights_quantization_params_fn" (Some f))))
      end
  end.

Definition apply_action (a : action) (n : node) : result node :=
  match a with
  | Change_cand_w attr kw => each_cand (fun c => let! w := set_w_kw attr kw (c_w c) in Ok (Cand (c_act c) w)) n
  | Change_final_w attr kw => on_final_w (set_w_kw attr kw) n
  | Change_cand_act kw => each_cand (fun c => let! x := set_act_kw kw (c_act c) in Ok (Cand x (c_w c))) n
  | Change_final_act kw => on_final_act (set_act_kw kw) n
  | Change_params_fn attr act w => each_cand (params_fn attr act w) n
  | Final_act_method None | Cand_act_method None | Final_w_method _ None | Cand_w_method _ None => Ok n
  | Final_act_method (Some m) => on_final_act (final_act_method m) n
  | Cand_act_method (Some m) => each_cand (fun c => let! x := cand_act_method m (c_act c) in Ok (Cand x (c_w c))) n
  | Final_w_method a (Some m) => on_final_w (w_method a m) n
  | Cand_w_method a (Some m) => each_cand (fun c => let! w := w_method a m (c_w c) in Ok (Cand (c_act c) w)) n
  | Replace_layer cls fn =>
      let params := match final_act n with
                    | None => None
                    | Some c => sget "activation_quantization_params" c
                    end in
      let! (ws, fa) := fn (n_weights n) params (n_fattr n) in
      Ok (Node (n_name n) cls (n_func n) ws fa (n_cands n) (n_fact n) (n_fw n))
  end.

Record rule := Rule { r_filter : matcher; r_action : action }.

(* edit_network_graph: the nodes a filter selects are collected before the action changes any of them *)
Definition matched (m : matcher) (g : list node) : list nat :=
  filter (fun i => match nth_error g i with Some n => truthy (match_node m n) | None => false end) (seq 0 (length g)).
Definition act_on (a : action) (g : list node) (i : nat) : result (list node) :=
  match nth_error g i with
  | Some n => let! n' := apply_action a n in Ok (replace_nth g i n')
  | None => Ok g
  end.
Definition edit_rule (g : list node) (r : rule) : result (list node) :=
  foldM (act_on (r_action r)) (matched (r_filter r) g) g.
Definition edit_network_graph (rules : list rule) (g : list node) : result (list node) := foldM edit_rule rules g.
End Editor.
