(* FuseModel.v -- model of the book-keeping of fused operations and of fusing nodes of a graph.
   Sources (under model_compression_toolkit/core/common): fusion/fusing_info.py L29-371 (FusingInfo),
   L373-459 (FusingInfoGenerator), L462-525 (helpers), fusion/graph_fuser.py L34-165.
   Nodes are natural numbers as in GraphModel; name gives the name of a node.  An element of a fusing
   pattern is a layer type or a LayerFilterParams; matches says whether a node matches it (L479-480, L509-510). *)
From Coq Require Import String.
From Verif Require Import Base GraphModel.
Open Scope list_scope.
Open Scope res_scope.

Section Fuse.
Context {E : Type}.
Variable name : nat -> string.
Variable matches : E -> nat -> bool.

(* a dictionary with string keys in order of insertion *)
Fixpoint sget {V} (k : string) (d : list (string * V)) : option V :=
  match d with [] => None | (k', v) :: r => if String.eqb k k' then Some v else sget k r end.
Fixpoint sset {V} (k : string) (v : V) (d : list (string * V)) : list (string * V) :=
  match d with [] => [(k, v)] | (k', v') :: r => if String.eqb k k' then (k', v) :: r else (k', v') :: sset k v r end.
Definition sdel {V} (k : string) (d : list (string * V)) : list (string * V) := filter (fun kv => negb (String.eqb k (fst kv))) d.
Definition sin {V} (k : string) (d : list (string * V)) : bool := match sget k d with Some _ => true | None => false end.

(* the op_quantization_cfg of a pattern: which one, and its enable_activation_quantization *)
Record qcfg := QCfg { qc_id : nat; qc_enabled : bool }.
Record pattern := Pattern { fp_layers : list E; fp_cfg : option qcfg }.
Record finfo := FInfo {
  fi_patterns : list pattern;
  fi_manual : list (list string);                (* _manual_fused_ops *)
  fi_data : list (string * list nat);            (* fusing_data *)
  fi_map : list (string * string);               (* node_name_to_fused_op_id *)
  fi_cfg : list (string * option qcfg)           (* fused_op_id_to_quant_config *)
}.

Fixpoint list_eqb {A} (eqb : A -> A -> bool) (a b : list A) : bool :=
  match a, b with [], [] => true | x :: a, y :: b => eqb x y && list_eqb eqb a b | _, _ => false end.
Definition names_eqb : list string -> list string -> bool := list_eqb String.eqb.

(* L487-514 *)
Fixpoint match_all (p : list E) (ns : list nat) : bool :=
  match p, ns with [], [] => true | x :: p, n :: ns => matches x n && match_all p ns | _, _ => false end.
Definition is_valid_fusion (patterns : list (list E)) (ns : list nat) (manual : list (list string)) : bool :=
  if existsb (fun m => names_eqb m (map name ns)) manual then true else
  if Nat.leb (length ns) 1 then false else existsb (fun p => match_all p ns) patterns.

(* L124-134 *)
Definition set_cfg (f : finfo) (op : string) (ns : list nat) : finfo :=
  match find (fun fp => is_valid_fusion [fp_layers fp] ns []) (fi_patterns f) with
  | Some fp => FInfo (fi_patterns f) (fi_manual f) (fi_data f) (fi_map f) (sset op (fp_cfg fp) (fi_cfg f))
  | None => f
  end.
Definition map_nodes (op : string) (ns : list nat) (m : list (string * string)) : list (string * string) :=
  fold_left (fun m n => sset (name n) op m) ns m.
(* L51-61: construction; every operation must have a prefixed id and at least two nodes *)
Definition FUSED_OP_ID_PREFIX : string := "FusedNode_"%string.
Definition make_info (patterns : list pattern) (manual : list (list string)) (data : list (string * list nat)) : result finfo :=
  if negb (forallb (fun kv => String.prefix FUSED_OP_ID_PREFIX (fst kv) && Nat.ltb 1 (length (snd kv))) data) then Err E_assert else
  let m := fold_left (fun m kv => map_nodes (fst kv) (snd kv) m) data [] in
  Ok (fold_left (fun f kv => set_cfg f (fst kv) (snd kv)) data (FInfo patterns manual data m [])).

(* L79-90 *)
Definition add_manual (f : finfo) (names : list string) : result finfo :=
  if existsb (names_eqb names) (fi_manual f) then Err E_assert
  else Ok (FInfo (fi_patterns f) (fi_manual f ++ [names]) (fi_data f) (fi_map f) (fi_cfg f)).
(* L101-122 *)
Definition add_op (f : finfo) (op : string) (ns : list nat) : result finfo :=
  if sin op (fi_data f) then Err E_value else
  Ok (set_cfg (FInfo (fi_patterns f) (fi_manual f) (sset op ns (fi_data f)) (map_nodes op ns (fi_map f)) (fi_cfg f)) op ns).
(* L136-157 *)
Definition remove_op (f : finfo) (op : string) : result finfo :=
  match sget op (fi_data f) with
  | None => Err E_value
  | Some ns =>
      let manual := match remove_first (fun m => names_eqb m (map name ns)) (fi_manual f) with Some l => l | None => fi_manual f end in
      Ok (FInfo (fi_patterns f) manual (sdel op (fi_data f)) (fold_left (fun m n => sdel (name n) m) ns (fi_map f)) (sdel op (fi_cfg f)))
  end.
(* L159-169, L201-219, L221-247 *)
Definition op_of_node (f : finfo) (nm : string) : option string := sget nm (fi_map f).
Definition inner_nodes (f : finfo) : list nat := flat_map (fun kv => removelast (snd kv)) (fi_data f).
Definition in_fused_op (f : finfo) (n : nat) : bool := existsb (fun kv => mem n (snd kv)) (fi_data f).
Definition quantized_in_op (f : finfo) (n : nat) : result bool :=
  if in_fused_op f n then
    match sget (name n) (fi_map f) with
    | None => Err E_key
    | Some op => match sget op (fi_cfg f) with
                 | None => Err E_key
                 | Some None => Ok false
                 | Some (Some q) => Ok (qc_enabled q)
                 end
    end
  else Ok false.

(* L273-329; graph_nodes is the set of all nodes of an acyclic graph *)
Fixpoint chain_ok (g : graph) (ns : list nat) : bool :=
  match ns with
  | a :: ((b :: _) as r) => match next_nodes g a with [s] => Nat.eqb s b | _ => false end && chain_ok g r
  | _ => true
  end.
Definition validate_op (f : finfo) (g : graph) (seen : list nat) (kv : string * list nat) : result (list nat) :=
  let ns := snd kv in
  if negb (forallb (fun n => mem n (g_nodes g)) ns) then Err E_value else
  if negb (chain_ok g ns) then Err E_value else
  if existsb (fun n => mem n seen) ns then Err E_value else
  if negb (is_valid_fusion (map fp_layers (fi_patterns f)) ns (fi_manual f)) then Err E_value else
  Ok (seen ++ ns).
Definition validate (f : finfo) (g : graph) : result unit :=
  let! _ := foldM (validate_op f g) (fi_data f) [] in Ok tt.

(* L462-484 *)
Definition valid_patterns (ps : list (list E)) (n i : nat) : list (list E) :=
  filter (fun p => match nth_error p i with Some x => matches x n | None => false end) ps.
(* L422-429: fuel is what is left of max_layer_patterns, nexts is next_nodes *)
Fixpoint search (g : graph) (fuel i : nat) (ps : list (list E)) (next : nat) (acc : list nat) : list nat :=
  match fuel with
  | O => acc
  | S fuel =>
      match valid_patterns ps next i with
      | [] => acc
      | ps' => let acc := acc ++ [next] in
               match next_nodes g next with [s] => search g fuel (S i) ps' s acc | _ => acc end
      end
  end.
(* L258-271 *)
Fixpoint join (l : list string) : string :=
  match l with [] => ""%string | [s] => s | s :: r => (s ++ "_" ++ join r)%string end.
Definition op_id (ns : list nat) : string := (FUSED_OP_ID_PREFIX ++ join (map name ns))%string.
(* L410-436 *)
Definition gen_step (g : graph) (layers : list (list E)) (depth : nat) (st : list (string * list nat) * list nat) (n : nat) : result (list (string * list nat) * list nat) :=
  let '(data, fused) := st in
  if mem n fused then Ok st else
  let ns := search g depth 0%nat layers n [] in
  if is_valid_fusion layers ns [] then
    if sin (op_id ns) data then Err E_assert else Ok (sset (op_id ns) ns data, fused ++ ns)
  else Ok st.
(* L438-455: find maps a name to the nodes with that name *)
Definition manual_step (g : graph) (data : list (string * list nat)) (names : list string) : result (list (string * list nat)) :=
  let! ns := mapM (fun nm => match filter (fun n => String.eqb nm (name n)) (g_nodes g) with [n] => Ok n | _ => Err E_value end) names in
  let data := filter (fun kv => negb (existsb (fun n => mem n (snd kv)) ns)) data in
  if sin (op_id ns) data then Err E_assert else Ok (sset (op_id ns) ns data).
(* L380-459; topo is get_topo_sorted_nodes *)
Definition generate (g : graph) (topo : list nat) (patterns : list pattern) (manual : list (list string)) : result finfo :=
  match patterns with
  | [] => make_info patterns manual []
  | _ => let layers := map fp_layers patterns in
         let depth := fold_right Nat.max 0%nat (map (@length _) layers) in
         let! st := foldM (gen_step g layers depth) topo ([], []) in
         let! data := foldM (manual_step g) manual (fst st) in
         make_info patterns manual data
  end.

(* ---- graph_fuser.py ---- *)
Section Fuser.
Variable check : graph -> result unit.
(* e_attr[0]: the attributes of the oldest edge *)
Definition oldest (g : graph) (u v : nat) : result edge := match between g u v with e :: _ => Ok e | [] => Err E_type end.
(* L153-158: graph_output_tensors[graph_output_nodes.index(node)] = ... *)
Fixpoint repl (n f : nat) (names : list nat) (outs : list (nat * nat)) : list (nat * nat) :=
  match names, outs with
  | x :: names, o :: outs => if Nat.eqb n x then (f, snd o) :: outs else o :: repl n f names outs
  | _, _ => outs end.
(* L106-165 *)
Definition fuse_group (g : graph) (ns : list nat) (f : nat) : result graph :=
  match ns with
  | [] => Ok g
  | first :: _ =>
      let last := last ns first in
      let! g := foldM (fun g p => let! e := oldest g p first in
                                  let! g := add_edge check g (Edge p f (si e) (ti e)) in
                                  remove_edge check g p first) (prev_nodes g first) g in
      let! g := foldM (fun g s => let! e := oldest g last s in
                                  let! g := add_edge check g (Edge f s (si e) (ti e)) in
                                  remove_edge check g last s) (next_nodes g last) g in
      let! g := foldM (fun g c => foldM (fun g m =>
                         if negb (mem m ns) then Err E_assert else
                         let! g := remove_edge check g c m in
                         foldM (fun g ie => remove_edge check g (src ie) m) (in_edges g m) g) (next_nodes g c) g) (removelast ns) g in
      (* the list of outputs is taken once and edited in place *)
      let out_nodes := map fst (g_out g) in
      let! g := foldM (fun g n =>
                         if mem n out_nodes then
                           let outs := repl n f out_nodes (g_out g) in
                           remove_node check (set_out g outs) n None (Some outs)
                         else remove_node check g n None None) ns g in
      Ok (add_node_nx g f)
  end.
End Fuser.
(* L60-66: fused_of gives the new node of an operation; the check uses what is left of the information *)
Definition fuse_all (g : graph) (f : finfo) (fused_of : string -> nat) : result (graph * finfo) :=
  foldM (fun st kv => let '(g, f) := st in
                      let! f := remove_op f (fst kv) in
                      let! g := fuse_group (validate f) g (snd kv) (fused_of (fst kv)) in Ok (g, f)) (fi_data f) (g, f).
(* L49-58: the operations are regenerated first and must be those of the graph (dictionaries are compared
   without regard to order) *)
Definition dict_same {V} (eqb : V -> V -> bool) (a b : list (string * V)) : bool :=
  Nat.eqb (length a) (length b) && forallb (fun kv => match sget (fst kv) b with Some v => eqb (snd kv) v | None => false end) a.
Definition opt_cfg_eqb (a b : option qcfg) : bool :=
  match a, b with Some a, Some b => Nat.eqb (qc_id a) (qc_id b) && Bool.eqb (qc_enabled a) (qc_enabled b) | None, None => true | _, _ => false end.
Definition same_info (a b : finfo) : bool :=
  dict_same (list_eqb Nat.eqb) (fi_data a) (fi_data b) && dict_same String.eqb (fi_map a) (fi_map b) && dict_same opt_cfg_eqb (fi_cfg a) (fi_cfg b).
Definition apply_fusion (g : graph) (topo : list nat) (f : finfo) (fused_of : string -> nat) : result (graph * finfo) :=
  let! expected := generate g topo (fi_patterns f) (fi_manual f) in
  if same_info expected f then fuse_all g f fused_of else Err E_value.
End Fuse.
