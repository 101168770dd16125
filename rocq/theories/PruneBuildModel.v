(* PruneBuildModel.v -- building the pruned graph.
   Sources (under model_compression_toolkit/core):
     common/pruning/prune_graph.py L28-69, common/pruning/pruning_section.py L77-96,
     keras/pruning/pruning_keras_implementation.py L38-87 and L198-236,
     pytorch/pruning/pruning_pytorch_implementation.py L39-99 and L216-265,
     common/graph/base_node.py L292-339 (weights by name).
   Not modelled: the input shapes that the code edits next to the weights, and the attributes that
   PyTorch edits on layers inside a section (num_features, num_parameters). *)
From Coq Require Import String.
From Verif Require Import Base SDict HessianModel FilterModel PruneModel PruneMemModel.
Open Scope Z_scope.
Open Scope res_scope.

(* w.compress(mask.astype(bool), axis): a kept index outside the axis raises, indices beyond the mask are dropped *)
Definition compress (w : tensor) (mask : list Z) (axis : nat) : result tensor :=
  let! d := dim w axis in
  if existsb (fun i => Nat.leb d i) (kept mask) then Err E_index else Ok (take_kept w (kept mask) axis).
(* w.compress(mask) works on the flattened tensor; biases are vectors, and only those are modelled *)
Definition compress_flat (w : tensor) (mask : list Z) : result tensor :=
  match t_shape w with [_] => compress w mask 0 | _ => Err E_runtime end.

(* base_node.py set_weights_by_keys L324-339 *)
Fixpoint wset (k : wkey) (w : tensor) (l : list (wkey * tensor)) : list (wkey * tensor) :=
  match l with
  | [] => [(k, w)]
  | kv :: r => if wkey_eqb k (fst kv) then (fst kv, w) :: r else kv :: wset k w r
  end.
Definition set_weights (n : pnode) (ws : list (wkey * tensor)) : pnode :=
  PNode (pn_id n) (pn_name n) (pn_kind n) ws (pn_oca n) (pn_oshape n) (pn_simd n) (pn_use_bias n) (pn_units n).
Definition set_weight (name : string) (w : tensor) (n : pnode) : pnode :=
  let key := match weight_names name n with [k] => k | _ => WS name end in
  set_weights n (wset key w (pn_weights n)).
Definition set_units (u : Z) (n : pnode) : pnode :=
  PNode (pn_id n) (pn_name n) (pn_kind n) (pn_weights n) (pn_oca n) (pn_oshape n) (pn_simd n) (pn_use_bias n) u.

(* _prune_keras_edge_node, _prune_pytorch_edge_node *)
Definition prune_edge (f : fw) (is_exit : bool) (mask : list Z) (n : pnode) : result pnode :=
  let! ax := axis_of (if is_exit then snd else fst) (channel_axis f (pn_kind n)) in
  let! k := kernel_of f n in
  let! k' := compress k mask ax in
  let! n := match kernel_attr f (pn_kind n) with Some name => Ok (set_weight name k' n) | None => Err E_type end in
  if is_exit then Ok n else
  let! n := if pn_use_bias n then
              match get_weight (Some "bias"%string) n with
              | None => Err E_attr
              | Some b => let! b' := compress_flat b mask in Ok (set_weight "bias" b' n)
              end
            else Ok n in
  Ok (set_units (fold_right Z.add 0 mask) n).
(* prune_intermediate_node: Keras L53-72; PyTorch L54-84 replaces the weights by an empty dictionary before
   it loops over them *)
Definition prune_inter (f : fw) (mask : list Z) (n : pnode) : result pnode :=
  match f with
  | Keras => let! ws := mapM (fun kw => let! w := compress (snd kw) mask (length (t_shape (snd kw)) - 1) in Ok (fst kw, w)) (pn_weights n) in
             Ok (set_weights n ws)
  | Pytorch => Ok (set_weights n [])
  end.

(* node objects are changed in place *)
Definition on_node (nodes : list pnode) (op : nat * (pnode -> result pnode)) : result (list pnode) :=
  mapM (fun n => if Nat.eqb (pn_id n) (fst op) then snd op n else Ok n) nodes.
(* apply_inner_section_mask *)
Definition section_ops (f : fw) (s : section) (mask : list Z) : list (nat * (pnode -> result pnode)) :=
  [(pn_id (sc_entry s), prune_edge f false mask)] ++
  map (fun n => (pn_id n, prune_inter f mask)) (sc_inter s) ++
  [(pn_id (sc_exit s), prune_edge f true mask)].
(* the masks whose node (a node of the graph) has the name of the section's entry *)
Definition masks_named (g : pgraph) (masks : masks_t) (name : string) : list (list Z) :=
  map snd (filter (fun kv => match node_of g (fst kv) with Ok n => String.eqb (pn_name n) name | Err _ => false end) masks).
Definition prune_section (f : fw) (g : pgraph) (masks : masks_t) (nodes : list pnode) (s : section) : result (list pnode) :=
  match masks_named g masks (pn_name (sc_entry s)) with
  | [mask] => if existsb (Z.eqb 0) mask then foldM on_node (section_ops f s mask) nodes else Ok nodes
  | _ => Err E_critical
  end.
(* build_pruned_graph L28-69: the nodes of the copy after pruning *)
Definition pruned_nodes (f : fw) (g : pgraph) (masks : masks_t) : result (list pnode) :=
  let! secs := sections f g in
  if negb (Nat.eqb (length secs) (length masks)) then Err E_critical
  else foldM (prune_section f g masks) secs (pg_nodes g).
