(* PruneMemModel.v -- pruning sections of a graph, the memory of a graph under pruning masks, and the
   pruned graph itself.
   Sources (under model_compression_toolkit/core):
     common/graph/base_graph.py L754-861 (pruning sections), common/pruning/memory_calculator.py,
     common/pruning/prune_graph.py, common/pruning/pruning_section.py,
     keras/pruning/pruning_keras_implementation.py, pytorch/pruning/pruning_pytorch_implementation.py,
     keras/default_framework_info.py L45-75, pytorch/default_framework_info.py L38-60 (kernel tables).
   Both frameworks are modelled; tensors carry their shape and their values. *)
From Coq Require Import String.
From Verif Require Import Base SDict HessianModel FilterModel PruneModel.
Open Scope Z_scope.
Open Scope res_scope.

Inductive fw := Keras | Pytorch.

(* the layer types the pruning code tells apart: Conv2D/Conv2d and Conv2DTranspose/ConvTranspose2d with
   their groups attribute, Dense/Linear, DepthwiseConv2D, BatchNorm2d, PReLU with num_parameters, others *)
Inductive kind :=
| K_conv (transpose : bool) (groups : Z) | K_dense | K_depthwise | K_bn | K_prelu (num_parameters : Z) | K_other.

Inductive wkey := WS (name : string) | WI (position : Z).
Record tensor := Tensor { t_shape : list nat; t_val : list nat -> Q }.
Definition t_size (w : tensor) : nat := fold_right Nat.mul 1%nat (t_shape w).

Inductive oshape := O_flat (l : list Z) | O_many (ls : list (list Z)).
Record pnode := PNode {
  pn_id : nat; pn_name : string; pn_kind : kind;
  pn_weights : list (wkey * tensor);           (* node.weights *)
  pn_oca : option Z; pn_oshape : oshape;       (* out_channel_axis, output_shape *)
  pn_simd : list Z;                            (* simd_size of the candidates *)
  pn_use_bias : bool;                          (* framework_attr use_bias / bias *)
  pn_units : Z                                 (* framework_attr filters/units/out_channels/out_features *)
}.
Record pgraph := PGraph { pg_nodes : list pnode; pg_edges : list (nat * nat); pg_topo : list pnode }.

(* kernel_ops_attribute_mapping of both frameworks; a node of Keras is never of a type listed only there *)
Definition kernel_attr (f : fw) (k : kind) : option string :=
  match k, f with
  | K_conv _ _, Keras | K_dense, Keras => Some "kernel"%string
  | K_conv _ _, Pytorch | K_dense, Pytorch => Some "weight"%string
  | K_depthwise, Keras => Some "depthwise_kernel"%string
  | _, _ => None
  end.
(* kernel_channels_mapping: (output axis, input axis) *)
Definition channel_axis (f : fw) (k : kind) : option (nat * nat) :=
  match f, k with
  | Keras, K_conv false _ => Some (3, 2)%nat
  | Keras, K_conv true _ => Some (2, 3)%nat
  | Keras, K_dense => Some (1, 0)%nat
  | Keras, K_depthwise => Some (2, 2)%nat
  | Pytorch, K_conv false _ => Some (0, 1)%nat
  | Pytorch, K_conv true _ => Some (1, 0)%nat
  | Pytorch, K_dense => Some (0, 1)%nat
  | _, _ => None
  end.

(* _is_keras_node_pruning_section_edge L176-195, _is_pytorch_node_pruning_section_edge L194-213 *)
Definition is_edge (n : pnode) : bool :=
  match pn_kind n with K_conv _ g => Z.eqb g 1 | K_dense => true | _ => false end.
(* is_node_intermediate_pruning_section: keras L117-131, pytorch L129-143 *)
Definition is_inter (n : pnode) : bool :=
  match pn_kind n with K_conv _ _ | K_dense | K_depthwise => false | _ => true end.

(* base_node.py _get_weight_name L292-304, get_weights_by_keys L306-322 *)
Definition weight_names (name : string) (n : pnode) : list wkey :=
  map fst (filter (fun kv => match fst kv with WS k => str_contains k name | WI _ => false end) (pn_weights n)).
Definition wkey_eqb (a b : wkey) : bool :=
  match a, b with WS x, WS y => String.eqb x y | WI x, WI y => Z.eqb x y | _, _ => false end.
Fixpoint wget (k : wkey) (l : list (wkey * tensor)) : option tensor :=
  match l with [] => None | (k', w) :: r => if wkey_eqb k k' then Some w else wget k r end.
Definition get_weight (name : option string) (n : pnode) : option tensor :=
  match name with
  | None => None
  | Some s => match weight_names s n with [k] => wget k (pn_weights n) | _ => None end
  end.
Definition kernel_of (f : fw) (n : pnode) : result tensor :=
  match get_weight (kernel_attr f (pn_kind n)) n with Some w => Ok w | None => Err E_attr end.
Definition dim (w : tensor) (axis : nat) : result nat := from_index (nth_error (t_shape w) axis).
Definition axis_of {A B} (p : A * B -> nat) (o : option (A * B)) : result nat :=
  match o with Some a => Ok (p a) | None => Err E_type end.

(* pruning_section.py has_matching_channel_count L98-118 and is_node_exit_node of both frameworks *)
Definition matching (f : fw) (x e : pnode) : result bool :=
  let! ia := axis_of snd (channel_axis f (pn_kind x)) in
  let! oa := axis_of fst (channel_axis f (pn_kind e)) in
  let! kx := kernel_of f x in let! a := dim kx ia in
  let! ke := kernel_of f e in let! b := dim ke oa in
  Ok (Nat.eqb a b).
Definition is_exit (f : fw) (x e : pnode) : result bool := if is_edge x then matching f x e else Ok false.

Definition out_edges (g : pgraph) (n : nat) : list (nat * nat) := filter (fun e => Nat.eqb (fst e) n) (pg_edges g).
Definition in_edges (g : pgraph) (n : nat) : list (nat * nat) := filter (fun e => Nat.eqb (snd e) n) (pg_edges g).
Definition node_of (g : pgraph) (i : nat) : result pnode := from_key (find (fun n => Nat.eqb (pn_id n) i) (pg_nodes g)).

(* base_graph.py _is_node_topology_prunable L786-815 *)
Fixpoint topology_prunable (fuel : nat) (f : fw) (g : pgraph) (entry next : pnode) : result bool :=
  match out_edges g (pn_id next) with
  | [(_, d)] =>
      match fuel with
      | O => Err E_fuel
      | S k =>
          let! n := node_of g d in
          let! x := is_exit f n entry in
          if x && Nat.eqb (length (in_edges g (pn_id n))) 1 then Ok true
          else if negb (is_inter n) || negb (Nat.eqb (length (in_edges g (pn_id n))) 1) || negb (Nat.eqb (length (out_edges g (pn_id n))) 1)
          then Ok false else topology_prunable k f g entry n
      end
  | _ => Ok false
  end.
(* _find_intermediate_and_exit_nodes L843-861 *)
Fixpoint find_exit (fuel : nat) (f : fw) (g : pgraph) (entry from : pnode) : result (list pnode * pnode) :=
  match out_edges g (pn_id from) with
  | [] => Err E_index
  | (_, d) :: _ =>
      match fuel with
      | O => Err E_fuel
      | S k =>
          let! n := node_of g d in
          let! x := is_exit f n entry in
          if x then Ok ([], n)
          else let! r := find_exit k f g entry n in Ok (n :: fst r, snd r)
      end
  end.

Record section := Section_ { sc_entry : pnode; sc_inter : list pnode; sc_exit : pnode }.
Definition sc_nodes (s : section) : list pnode := [sc_entry s] ++ sc_inter s ++ [sc_exit s].

(* get_pruning_sections_entry_nodes L768-784; the loops take at most one step per node *)
Definition entry_nodes (f : fw) (g : pgraph) : result (list pnode) :=
  let! l := mapM (fun n => let! b := if is_edge n then topology_prunable (length (pg_nodes g)) f g n n else Ok false in Ok (n, b)) (pg_topo g) in
  Ok (map fst (filter snd l)).
(* get_pruning_sections L754-766, _create_pruning_section L818-841 (its two checks cannot fail here) *)
Definition sections (f : fw) (g : pgraph) : result (list section) :=
  let! es := entry_nodes f g in
  mapM (fun e => let! r := find_exit (length (pg_nodes g)) f g e e in Ok (Section_ e (fst r) (snd r))) es.

(* ---- memory_calculator.py ---- *)
Definition masks_t := list (nat * list Z).       (* entry node -> output channel mask *)

(* np.where(mask)[0] *)
Definition kept (mask : list Z) : list nat := filter (fun i => negb (Z.eqb (nth i mask 0) 0)) (seq 0 (length mask)).
Fixpoint replace {A} (i : nat) (v : A) (l : list A) : list A :=
  match l, i with [] , _ => [] | _ :: r, O => v :: r | x :: r, S j => x :: replace j v r end.
Definition take_kept (w : tensor) (ks : list nat) (axis : nat) : tensor :=
  Tensor (replace axis (length ks) (t_shape w))
         (fun idx => t_val w (replace axis (nth (nth axis idx 0%nat) ks 0%nat) idx)).

Inductive axis := A_at (i : nat) | A_last.
Definition resolve (w : tensor) (a : axis) : nat := match a with A_at i => i | A_last => length (t_shape w) - 1 end.

(* _prune_tensor L326-345 (its mask is given) *)
Definition prune_tensor (w : tensor) (mask : list Z) (a : axis) : result tensor :=
  let! d := dim w (resolve w a) in
  if negb (Nat.eqb d (length mask)) then Err E_critical else Ok (take_kept w (kept mask) (resolve w a)).

(* attrs_oi_channels_info_for_pruning: keras L133-173, pytorch L145-191.  [get_num_parameters]()[1] of a
   node without kernel is the number of all its parameters. *)
Definition attrs_info (f : fw) (n : pnode) : list (wkey * (option axis * option axis)) :=
  match kernel_attr f (pn_kind n) with
  | Some k =>
      let (o, i) := match channel_axis f (pn_kind n) with Some (o, i) => (Some (A_at o), Some (A_at i)) | None => (None, None) end in
      [(WS k, (o, i)); (WS "bias", (Some (A_at 0), None))]
  | None =>
      let scalar := match f with Pytorch => Nat.leb (list_sum (map (fun kv => t_size (snd kv)) (pn_weights n))) 1 | Keras => false end in
      map (fun kv => (fst kv, (if scalar then None else Some A_last, None))) (pn_weights n)
  end.
(* attr in w_attr *)
Definition attr_in (attr w_attr : wkey) : result bool :=
  match attr, w_attr with WS a, WS b => Ok (str_contains b a) | _, _ => Err E_type end.

(* get_pruned_node_num_params L283-299 *)
Definition weight_params (info : list (wkey * (option axis * option axis))) (im om : option (list Z)) (kw : wkey * tensor) : result Z :=
  let! l := mapM (fun a => let! b := attr_in (fst a) (fst kw) in Ok (snd a, b)) info in
  match filter snd l with
  | [((out_axis, in_axis), _)] =>
      let! w := match in_axis, im with Some a, Some m => prune_tensor (snd kw) m a | _, _ => Ok (snd kw) end in
      let! w := match out_axis, om with Some a, Some m => prune_tensor w m a | _, _ => Ok w end in
      Ok (Z.of_nat (t_size w))
  | _ => Err E_critical
  end.

(* l[i] for a possibly negative i *)
Definition pyget (l : list Z) (i : Z) : result Z :=
  let j := if Z.ltb i 0 then i + Z.of_nat (length l) else i in
  if Z.ltb j 0 then Err E_index else from_index (nth_error l (Z.to_nat j)).
(* L305-319 *)
Fixpoint same_channels (ax v : Z) (ls : list (list Z)) : result bool :=
  match ls with
  | [] => Ok true
  | l :: r => if Z.ltb ax (Z.of_nat (length l)) then let! x := pyget l ax in if Z.eqb x v then same_channels ax v r else Ok false
              else Ok false
  end.
Definition num_channels (n : pnode) : result Z :=
  match pn_oca n with
  | None => Err E_critical
  | Some ax =>
      match pn_oshape n with
      | O_flat [] => Err E_index
      | O_flat l => pyget l ax
      | O_many [] => Err E_index
      | O_many (l :: r) => let! v := pyget l ax in let! b := same_channels ax v (l :: r) in if b then Ok v else Err E_critical
      end
  end.

(* get_node_nparams_with_padded_channels L347-376; num_oc is an integer *)
Definition ceil_div (a b : Z) : Z := (a + b - 1) / b.
Definition padded_params (nparams num_oc : Z) (simd : nat) : result Z :=
  if Z.leb 1 num_oc then Ok (ceil_div num_oc (Z.of_nat simd) * Z.of_nat simd * ceil_div nparams num_oc) else Err E_critical.

(* get_pruned_node_num_params L266-324 *)
Definition node_params (f : fw) (padded : bool) (n : pnode) (im om : option (list Z)) : result Z :=
  let! ps := mapM (weight_params (attrs_info f n) im om) (pn_weights n) in
  let total := fold_right Z.add 0 ps in
  let! oc := match om with Some m => Ok (fold_right Z.add 0 m) | None => num_channels n end in
  if padded then let! s := get_simd (pn_simd n) in padded_params total oc s else Ok total.

(* _get_exit_node_input_mask L183-213 *)
Definition ones (k : nat) : list Z := repeat 1 k.
Definition input_mask (f : fw) (secs : list section) (masks : masks_t) (n : pnode) : result (option (list Z)) :=
  match find (fun s => Nat.eqb (pn_id (sc_exit s)) (pn_id n)) secs with
  | Some s => Ok (dict_get (pn_id (sc_entry s)) masks)
  | None =>
      match channel_axis f (pn_kind n) with
      | None => Err E_critical
      | Some (_, ia) => let! k := kernel_of f n in let! d := dim k ia in Ok (Some (ones d))
      end
  end.

(* get_section_mask_from_node_mask L132-157, _get_pruning_section_num_params L231-264 *)
Definition section_params (f : fw) (padded : bool) (secs : list section) (masks : masks_t) (s : section) : result Z :=
  let! ic := input_mask f secs masks (sc_entry s) in
  let me := dict_get (pn_id (sc_entry s)) masks in
  let mx := dict_get (pn_id (sc_exit s)) masks in
  let! a := node_params f padded (sc_entry s) ic me in
  let! b := mapM (fun n => node_params f padded n me me) (sc_inter s) in
  let! c := node_params f padded (sc_exit s) me mx in
  Ok (a + fold_right Z.add 0 b + c).

(* get_nparams_of_nonpruned_nodes L159-181 *)
Definition memb (n : pnode) (l : list pnode) : bool := existsb (fun x => Nat.eqb (pn_id x) (pn_id n)) l.
Definition nonpruned_params (f : fw) (padded : bool) (g : pgraph) (secs : list section) : result Z :=
  let pruned := flat_map sc_nodes secs in
  let! l := mapM (fun n => node_params f padded n None None) (filter (fun n => negb (memb n pruned)) (pg_nodes g)) in
  Ok (fold_right Z.add 0 l).

(* _get_nodes_from_adjacent_sections L215-229, get_nparams_of_shared_nodes L87-108.  A node is the entry
   of one section at most, so the set of entries that are also exits is a filter of the entries; its
   (arbitrary) order does not matter to a sum. *)
Definition shared_params (f : fw) (padded : bool) (secs : list section) (masks : masks_t) : result Z :=
  let shared := filter (fun e => memb e (map sc_exit secs)) (map sc_entry secs) in
  let! l := mapM (fun n => let! ic := input_mask f secs masks n in
                           node_params f padded n ic (dict_get (pn_id n) masks)) shared in
  Ok (fold_right Z.add 0 l).

(* get_pruned_graph_num_params L65-85 *)
Definition graph_params (f : fw) (padded : bool) (g : pgraph) (masks : masks_t) : result Z :=
  let! secs := sections f g in
  let! a := nonpruned_params f padded g secs in
  let! bs := mapM (section_params f padded secs masks) secs in
  let! c := shared_params f padded secs masks in
  Ok (a + fold_right Z.add 0 bs - c).
(* get_pruned_graph_memory L49-63: four bytes for a parameter *)
Definition graph_memory (f : fw) (padded : bool) (g : pgraph) (masks : masks_t) : result Q :=
  let! p := graph_params f padded g masks in Ok (inject_Z (p * 4)).
