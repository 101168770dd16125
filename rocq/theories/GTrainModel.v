(* GTrainModel.v -- C93: where the outcome of GPTQ training goes.
   Model of gptq/common/gptq_training.py (__init__ L63-136, gptq_training L302-318), gptq/common/gptq_graph.py (get_compare_points),
   gptq/runner.py (_apply_gptq), of gptq_wrapper, get_gptq_trainable_parameters, get_weights_for_loss and update_graph in both
   frameworks (gptq/{pytorch,keras}/{gptq_training,graph_info}.py), of update_layer_quantization_params and of the order in which the
   regularization goes through the layers (soft_quantizer_reg.py).
   What the optimizers do is arbitrary: the outcome of training is any value for each trained variable.  The optimizers' setting up
   is in OptimModel.v, losses and data in GptqLossModel.v and TrainDataModel.v.  The names of TensorFlowOpLayers (keras L423-424) are
   left out, they have no kernel.  Aliasing of the copied graphs is not modelled. *)
From Coq Require Import String List Arith Lia Bool QArith.
From Verif Require Import Base FilterModel.
Import ListNotations.
Open Scope nat_scope.
Open Scope list_scope.
Open Scope res_scope.

Inductive gfw := GTorch | GKeras.

(* dictionaries with attribute names as keys *)
Definition keys_with {V} (name : string) (ws : list (string * V)) : list string := filter (fun k => str_contains k name) (map fst ws).
Fixpoint assign {V} (k : string) (v : V) (ws : list (string * V)) : list (string * V) :=
  match ws with [] => [(k, v)] | (k', x) :: r => if String.eqb k' k then (k', v) :: r else (k', x) :: assign k v r end.
Fixpoint lookup {V} (k : string) (ws : list (string * V)) : option V :=
  match ws with [] => None | (k', x) :: r => if String.eqb k' k then Some x else lookup k r end.
(* base_node.py set_weights_by_keys L334-339 *)
Definition set_weight {V} (name : string) (v : V) (ws : list (string * V)) : list (string * V) :=
  match keys_with name ws with [k] => assign k v ws | _ => assign name v ws end.
(* base_node.py get_weights_by_keys L306-322 *)
Definition get_weight {V} (name : string) (ws : list (string * V)) : option V :=
  match keys_with name ws with [k] => lookup k ws | _ => None end.
(* node_quantization_config.py set_quant_config_attr L562-590 with get_attr_config L451-482 *)
Definition set_params {P} (attr : string) (p : P) (cfg : list (string * P)) : result (list (string * P)) :=
  match keys_with attr cfg with
  | [] => Err E_critical
  | [k] => Ok (assign k p cfg)
  | _ => match lookup attr cfg with Some _ => Ok (assign attr p cfg) | None => Err E_critical end
  end.

Section Train.
  (* tensors, quantization parameters, the trained variables of a quantizer *)
  Context {V P A : Type}.
  (* quantizer(training=False, inputs) and get_quant_config *)
  Variables (hard : V -> A -> V) (qconf : A -> P).
  Record tnode := mk_tnode {
    t_name : string;
    t_reuse : bool;
    t_kernel : option string;          (* kernel_attr *)
    t_quant : bool;                    (* is_weights_quantization_enabled(kernel_attr) *)
    t_bias : bool;                     (* the layer built from the node has a bias *)
    t_weights : list (string * V);
    t_params : list (string * P)       (* weights_quantization_params of each attribute *)
  }.
  (* gptq_graph.py L41-47 *)
  Definition trained_node (n : tnode) : bool := match t_kernel n with Some _ => t_quant n && negb (t_reuse n) | None => false end.
  Definition compare_points (ns : list tnode) : list tnode := filter trained_node ns.
  (* a wrapped layer *)
  Record layer := mk_layer { l_name : string; l_attr : string; l_float : V; l_bias : bool }.
  (* gptq_wrapper (pytorch L182-194, keras L225-236), called for nodes that are not reused (pytorch_model_builder.py L309-333,
     instance_builder.py L118-125); ns in topological order *)
  Fixpoint wrapped (ns : list tnode) : result (list layer) :=
    match ns with
    | [] => Ok []
    | n :: r => if t_reuse n then wrapped r else
        match t_kernel n with
        | Some k => if t_quant n then
                      match get_weight k (t_weights n) with
                      | Some v => let! ls := wrapped r in Ok (mk_layer (t_name n) k v (t_bias n) :: ls)
                      | None => Err E_attr
                      end
                    else wrapped r
        | None => wrapped r
        end
    end.
  (* a layer after training: its trained variables and its bias *)
  Record outcome := mk_outcome { o_aux : A; o_bias : V }.
  (* update_graph (pytorch L331-354, keras L420-446) with update_layer_quantization_params *)
  Definition update_node (train_bias : bool) (l : layer) (o : outcome) (n : tnode) : result tnode :=
    match t_kernel n with
    | Some k =>
        if String.eqb k (l_attr l) then
          let ws := set_weight (l_attr l) (hard (l_float l) (o_aux o)) (t_weights n) in
          let! ps := set_params k (qconf (o_aux o)) (t_params n) in
          let ws := if train_bias && l_bias l then set_weight "bias" (o_bias o) ws else ws in
          Ok (mk_tnode (t_name n) (t_reuse n) (t_kernel n) (t_quant n) (t_bias n) ws ps)
        else Err E_key
    | None => Err E_key
    end.
  Definition update_layer (train_bias : bool) (ns : list tnode) (lo : layer * outcome) : result (list tnode) :=
    match filter (fun n => String.eqb (t_name n) (l_name (fst lo))) ns with
    | [n] => let! n' := update_node train_bias (fst lo) (snd lo) n in
             Ok (map (fun m => if String.eqb (t_name m) (l_name (fst lo)) then n' else m) ns)
    | _ => Err E_critical
    end.
  Definition update_graph (train_bias : bool) (ns : list tnode) (los : list (layer * outcome)) : result (list tnode) :=
    foldM (update_layer train_bias) los ns.

  Record hess_cfg := mk_hess { h_per_sample : bool; h_norm : bool; h_log : bool; h_scale : bool }.
  Record gcfg := mk_gcfg { g_epochs : nat; g_train_bias : bool; g_hess : option hess_cfg; g_soft : bool }.
  (* __init__ L79-136: gf, gq: the nodes of the float and the quantized graph; aux: the number of variables of the quantizer of a
     layer in the group WEIGHTS (PyTorch counts them one by one, Keras layer by layer) *)
  Definition prepare (fw : gfw) (c : gcfg) (aux : nat) (service : bool) (fscale qscale : Q) (gf gq : list tnode) : result (list layer) :=
    let cps := compare_points gf in
    let! ls := wrapped gq in
    if match g_hess c with Some _ => negb service | None => false end then Err E_critical else
    if negb (Qeq_bool fscale qscale) then Err E_critical else
    let weights := match fw with GTorch => aux * length ls | GKeras => length ls end in
    if negb (Nat.eqb (length cps) weights && Nat.eqb weights (length ls)) then Err E_critical else
    match g_hess c with
    | Some h => if h_per_sample h && (h_norm h || h_log h || h_scale h) then Err E_runtime else Ok ls
    | None => Ok ls
    end.
  (* training without layers: PyTorch L249 goes through the loop anyway, the regularization asks for the maximum of no weights
     (soft_quantizer_reg.py L58); Keras L332 leaves it out *)
  Definition train (fw : gfw) (c : gcfg) (ls : list layer) : result unit :=
    match fw, ls with GTorch, [] => if g_soft c then Err E_runtime else Ok tt | _, _ => Ok tt end.
  (* gptq_training L302-318.  order: the layers of the trained model, in its own order *)
  Definition gptq (fw : gfw) (c : gcfg) (aux : nat) (service : bool) (fscale qscale : Q) (gf gq : list tnode) (res : string -> outcome)
      (order : list layer -> list layer) : result (list tnode) :=
    let! ls := prepare fw c aux service fscale qscale gf gq in
    let! _ := train fw c ls in
    update_graph (g_train_bias c) gq (map (fun l => (l, res (l_name l))) (order ls)).
  (* runner.py L59-69 *)
  Definition apply_gptq (fw : gfw) (c : option gcfg) aux service fscale qscale gf gq res order : result (list tnode) :=
    match c with
    | Some c => if Nat.ltb 0 (g_epochs c) then gptq fw c aux service fscale qscale gf gq res order else Ok gq
    | None => Ok gq
    end.
  (* soft_quantizer_reg.py: the weights, in the order of the compare points, beside the layers, in the order of the model *)
  Definition reg_pairs {W} (ls : list layer) (ws : list W) : result (list (layer * W)) :=
    if Nat.eqb (length ws) (length ls) then Ok (combine ls ws) else Err E_value.
End Train.

(* The order of model.layers of a Keras functional model (Keras, _map_graph_network): by the distance to the outputs, the largest
   first, and in the order of a depth-first search from the outputs within one distance.  A node is a layer with the layers it gets its
   inputs from, the list is in topological order. *)
Definition knode := (nat * list nat)%type.
Definition parents (g : list knode) (n : nat) : list nat := match find (fun p => Nat.eqb (fst p) n) g with Some p => snd p | None => [] end.
Definition lmax (l : list nat) : nat := fold_right Nat.max 0 l.
Fixpoint depths (g : list knode) : list (knode * nat) :=
  match g with
  | [] => []
  | p :: r => let ds := depths r in (p, lmax (map (fun c => S (snd c)) (filter (fun c => existsb (Nat.eqb (fst p)) (snd (fst c))) ds))) :: ds
  end.
Definition depth (g : list knode) (n : nat) : nat := match find (fun c => Nat.eqb (fst (fst c)) n) (depths g) with Some c => snd c | None => 0 end.
Fixpoint visit (fuel : nat) (g : list knode) (seen : list nat) (n : nat) : list nat :=
  if existsb (Nat.eqb n) seen then seen else
  match fuel with O => seen | S f => fold_left (visit f g) (parents g n) (seen ++ [n]) end.
Definition visited (g : list knode) (outputs : list nat) : list nat := fold_left (visit (S (length g)) g) outputs [].
Definition keras_layers (g : list knode) (outputs : list nat) : list nat :=
  let v := visited g outputs in flat_map (fun d => filter (fun n => Nat.eqb (depth g n) d) v) (rev (seq 0 (S (lmax (map (depth g) v))))).
