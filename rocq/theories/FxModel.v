(* FxModel.v -- reading a traced PyTorch model into a graph, and running the model rebuilt from a graph.
   Sources (under model_compression_toolkit/core):
     pytorch/reader/graph_builders.py L33-423, pytorch/reader/reader.py L68-93,
     common/graph/base_node.py L357-373 (positional weights), common/graph/functional_node.py,
     pytorch/back2framework/pytorch_model_builder.py L39-205 and L228-415.
   The traced model is a list of fx nodes.  An fx node has an operation, a target, positional and keyword
   arguments; an argument is another fx node, a plain value, or a list of arguments (tuples, slices and
   dictionaries are lists here; the reader turns lists into tuples, L310, which is not distinguished).
   An fx node is identified by a number, which is also its name; plain values are numbers.
   Not modelled: the shapes (L128-159, L337: a placeholder stands for one tensor); layer attributes; the
   rejection of Tensor.to and of unknown operations (L223-226, L235); wrapped operations
   (PytorchQuantizationWrapper), whose call belongs to another package. *)
From Coq Require String.
From Verif Require Import Base GraphModel.
Open Scope res_scope.
Local Open Scope nat_scope.
Notation name := String.string.

(* torch.fx.Node *)
Inductive arg := ANode (n : nat) | AConst (c : nat) | AList (l : list arg).
Inductive fxop := FPlaceholder | FGetAttr | FFunction | FModule | FOutput.     (* call_method is FFunction *)
Record fxnode := Fx { f_id : nat; f_op : fxop; f_target : nat; f_args : list arg; f_kwargs : list (name * arg) }.

Definition is_node (a : arg) : bool := match a with ANode _ => true | _ => false end.
Definition arg_is (n : nat) (a : arg) : bool := match a with ANode m => Nat.eqb m n | _ => false end.
Definition is_op (o : fxop) (nd : fxnode) : bool :=
  match o, f_op nd with
  | FPlaceholder, FPlaceholder | FGetAttr, FGetAttr | FFunction, FFunction | FModule, FModule | FOutput, FOutput => true
  | _, _ => false end.
(* Node.all_input_nodes: the distinct nodes among the arguments, in order of appearance *)
Fixpoint arg_nodes (a : arg) : list nat :=
  match a with ANode n => [n] | AConst _ => [] | AList l => flat_map arg_nodes l end.
Definition all_input_nodes (nd : fxnode) : list nat :=
  firsts (flat_map arg_nodes (f_args nd) ++ flat_map (fun kv => arg_nodes (snd kv)) (f_kwargs nd)).

Inductive alloc := Pos (i : nat) | Key (k : name).
Inductive rkind := KPlaceholder | KFunctional | KModule.
(* BaseNode / FunctionalNode, the fields the builder reads; a constant is represented by the fx node holding it *)
Record rnode := R { r_id : nat; r_kind : rkind; r_target : nat;
  r_args : list arg; r_kwargs : list (name * arg); r_aslist : bool; r_allocs : list alloc;
  r_weights : list (nat * nat); r_reuse : bool; r_group : option (nat * list nat) }.

(* graph_builders.py L49-60, L297-298 *)
Definition first_list (nd : fxnode) : option (list arg) := match f_args nd with AList l :: _ => Some l | _ => None end.
Definition inputs_as_list (nd : fxnode) : bool := match first_list nd with Some l => forallb is_node l | None => false end.
(* the arguments among which input tensors are looked for: L81-86, L376-380 *)
Definition tensor_args (nd : fxnode) : list arg :=
  match first_list nd with Some l => if inputs_as_list nd then l else f_args nd | None => f_args nd end.
(* [i for i, arg in enumerate(l) if arg == n] *)
Definition positions_of (n : nat) (l : list arg) : list nat :=
  map fst (filter (fun p => arg_is n (snd p)) (enumerate_from 0 l)).
(* L87-94 *)
Definition tensor_input_alloc (nd : fxnode) : list alloc :=
  flat_map (fun n => map Pos (positions_of n (tensor_args nd)) ++
                     map (fun kv => Key (fst kv)) (filter (fun kv => arg_is n (snd kv)) (f_kwargs nd))) (all_input_nodes nd).
(* L80-84, L308 *)
Definition op_call_args (nd : fxnode) : list arg :=
  filter (fun a => negb (is_node a)) (if inputs_as_list nd then tl (f_args nd) else f_args nd).
(* L289-294 *)
Definition op_call_kwargs (nd : fxnode) : list (name * arg) := filter (fun kv => negb (is_node (snd kv))) (f_kwargs nd).
(* L237-251: positions of the constants among the inputs (keys of node.weights) *)
Definition const_weights (consts : list nat) (nd : fxnode) : list (nat * nat) :=
  match first_list nd with
  | Some l => flat_map (fun n => if mem n consts then map (fun i => (i, n)) (positions_of n l) else []) (all_input_nodes nd)
  | None => filter (fun p => mem (snd p) consts) (enumerate_from 0 (all_input_nodes nd))
  end.

(* L401-423: the target and the sorted identities of the weights *)
Fixpoint insert_nat (x : nat) (l : list nat) : list nat :=
  match l with [] => [x] | y :: r => if Nat.leb x y then x :: l else y :: insert_nat x r end.
Definition reuse_key (layer_weights : nat -> list nat) (nd : fxnode) (ws : list (nat * nat)) : nat * list nat :=
  (f_target nd, fold_right insert_nat [] ((if is_op FModule nd then layer_weights (f_target nd) else []) ++ map snd ws)).
Fixpoint list_eqb (a b : list nat) : bool :=
  match a, b with [], [] => true | x :: a, y :: b => Nat.eqb x y && list_eqb a b | _, _ => false end.
Definition key_eqb (a b : nat * list nat) : bool := Nat.eqb (fst a) (fst b) && list_eqb (snd a) (snd b).
Definition set_group (k : nat * list nat) (id : nat) (r : rnode) : rnode :=
  if Nat.eqb (r_id r) id
  then R (r_id r) (r_kind r) (r_target r) (r_args r) (r_kwargs r) (r_aslist r) (r_allocs r) (r_weights r) (r_reuse r) (Some k)
  else r.

Section Read.
(* identities of the parameters and buffers of the layer with the given target *)
Context (layer_weights : nat -> list nat).

(* nodes_builder L189-342, one node.  The state is the list of nodes built so far and seen_targets. *)
Definition read_node (consts : list nat) (st : list rnode * list ((nat * list nat) * nat)) (nd : fxnode)
    : list rnode * list ((nat * list nat) * nat) :=
  let (rs, seen) := st in
  match f_op nd with
  | FOutput | FGetAttr => st
  | o =>
    let ws := match o with FPlaceholder => [] | _ => const_weights consts nd end in
    let key := reuse_key layer_weights nd ws in
    let has_weights := negb (match snd key with [] => true | _ => false end) in
    let found := find (fun p => key_eqb (fst p) key) seen in
    let fresh (reuse : bool) :=
      match o with
      | FFunction => R (f_id nd) KFunctional (f_target nd) (op_call_args nd) (op_call_kwargs nd) (inputs_as_list nd)
                       (tensor_input_alloc nd) ws reuse (if reuse then Some key else None)
      | FPlaceholder => R (f_id nd) KPlaceholder (f_target nd) [] [] false [] ws reuse (if reuse then Some key else None)
      | _ => R (f_id nd) KModule (f_target nd) [] [] false [] ws reuse (if reuse then Some key else None)
      end in
    match found with
    | Some (_, base) => if has_weights then (map (set_group key base) rs ++ [fresh true], seen)
                        else (rs ++ [fresh false], (key, f_id nd) :: seen)
    | None => (rs ++ [fresh false], (key, f_id nd) :: seen)
    end
  end.
(* consts_dict (L228-233); a node only refers to nodes before it *)
Definition const_ids (prog : list fxnode) : list nat := map f_id (filter (is_op FGetAttr) prog).
Definition is_graph_node (nd : fxnode) : bool := negb (is_op FGetAttr nd || is_op FOutput nd).
Definition graph_ids (prog : list fxnode) : list nat := map f_id (filter is_graph_node prog).
Definition read_nodes (prog : list fxnode) : list rnode := fst (fold_left (read_node (const_ids prog)) prog ([], [])).
Definition lookup_node (rs : list rnode) (n : nat) : option rnode := find (fun r => Nat.eqb (r_id r) n) rs.

(* edges_builder L369-390: connectivity_dict, as a list of (input node, node, dst_index) *)
Fixpoint index_of (n : nat) (l : list nat) : nat :=
  match l with [] => 0 | x :: r => if Nat.eqb x n then 0 else S (index_of n r) end.
Definition edge_args (nd : fxnode) : list arg := if is_op FFunction nd then tensor_args nd else f_args nd.
Definition connectivity (prog : list fxnode) : list (nat * (nat * nat)) :=
  flat_map (fun nd =>
    if is_op FOutput nd then [] else
    flat_map (fun n =>
      if mem n (graph_ids prog) then
        let n_edges := Nat.max (length (positions_of n (edge_args nd))) 1 in
        map (fun i => (n, (f_id nd, index_of n (all_input_nodes nd) + i))) (seq 0 n_edges)
      else []) (all_input_nodes nd)) prog.
(* L391-396 *)
Definition edges_builder (prog : list fxnode) : list edge :=
  flat_map (fun nd => map (fun c => Edge (f_id nd) (fst (snd c)) 0 (snd (snd c)))
                          (filter (fun c => Nat.eqb (fst c) (f_id nd)) (connectivity prog))) prog.
(* L214, L344-353, reader.py L68-93 *)
Definition output_nodes (prog : list fxnode) : list nat := flat_map all_input_nodes (filter (is_op FOutput) prog).
Definition used_consts (rs : list rnode) : list nat := flat_map (fun r => map snd (r_weights r)) rs.
Definition build_graph (prog : list fxnode) : result (graph * list rnode) :=
  let rs := read_nodes prog in
  if negb (forallb (fun c => mem c (used_consts rs)) (const_ids prog)) then Err E_critical
  else if negb (forallb (fun n => mem n (graph_ids prog)) (output_nodes prog)) then Err E_key
  else Ok (Graph (graph_ids prog) (edges_builder prog) (map f_id (filter (is_op FPlaceholder) prog))
                 (map (fun n => (n, index_of n (output_nodes prog))) (output_nodes prog)), rs).
End Read.

(* ---- running the rebuilt model ---- *)
(* what an operation returns: one value (a tensor, a tuple, ...), or a Python list of values *)
Inductive ores (V : Type) := One (v : V) | Many (l : list V).
Arguments One {V}. Arguments Many {V}.
(* what an operation receives: a tensor, a plain value, a list of these, or an fx node left among the arguments *)
Inductive cval (V : Type) := CT (v : V) | CC (c : nat) | CL (l : list (cval V)) | CFx (n : nat).
Arguments CT {V}. Arguments CC {V}. Arguments CL {V}. Arguments CFx {V}.

Section Run.
Context {V : Type}.
Notation kwargs := (list (name * cval V)).
Context (op : nat -> list (cval V) -> kwargs -> ores V).   (* the layer or function with the given target *)
Context (cst : nat -> V).                                   (* the value of a constant *)
Context (quant : nat -> option (V -> V)).                   (* the activation quantizer of a node, if it is used *)
Context (cat : list V -> V).                                (* torch.cat(..., dim=0) *)

(* arguments kept by the reader: fx nodes inside lists are still there *)
Fixpoint kept_arg (a : arg) : cval V :=
  match a with ANode n => CFx n | AConst c => CC c | AList l => CL (map kept_arg l) end.

(* list.insert *)
Fixpoint insert_at {A} (i : nat) (x : A) (l : list A) : list A :=
  match i, l with 0, _ => x :: l | S _, [] => [x] | S i, y :: r => y :: insert_at i x r end.

(* base_node.py L367-373 *)
Fixpoint insert_weight (p : nat * nat) (l : list (nat * nat)) : list (nat * nat) :=
  match l with [] => [p] | q :: r => if Nat.leb (fst p) (fst q) then p :: l else q :: insert_weight p r end.
Definition insert_positional_weights (ws : list (nat * nat)) (ts : list V) : result (list V) :=
  foldM (fun ts (p : nat * nat) => if Nat.ltb (length ts) (fst p) then Err E_critical else Ok (insert_at (fst p) (cst (snd p)) ts))
        (fold_right insert_weight [] ws) ts.

(* pytorch_model_builder.py L70-100; a mismatch of the lengths is only logged (L88-90) *)
Definition merge_inputs (r : rnode) (ts : list V) : result (list (cval V) * kwargs) :=
  let args := map kept_arg (r_args r) in
  let kw := map (fun kv => (fst kv, kept_arg (snd kv))) (r_kwargs r) in
  match r_kind r, r_allocs r with
  | KFunctional, _ :: _ =>
      foldM (fun (st : list (cval V) * kwargs) (p : alloc * V) =>
               match fst p with
               | Key k => if existsb (fun kv => String.eqb (fst kv) k) (snd st) then Err E_assert
                          else Ok (fst st, snd st ++ [(k, CT (snd p))])
               | Pos i => Ok (insert_at i (CT (snd p)) (fst st), snd st)
               end) (combine (r_allocs r) ts) (args, kw)
  | _, _ => Ok (map CT ts ++ args, kw)
  end.

(* L103-165, for an operation that is not wrapped; opn is the operation registered for the node.
   The result is the list of tensors kept for the node, and the same before quantization. *)
Definition run_operation (opn : list (cval V) -> kwargs -> ores V) (r : rnode) (ts : list V) : result (list V * list V) :=
  let! ts := insert_positional_weights (r_weights r) ts in
  let! out := match r_kind r with
    | KFunctional => if r_aslist r then Ok (opn (CL (map CT ts) :: map kept_arg (r_args r)) (map (fun kv => (fst kv, kept_arg (snd kv))) (r_kwargs r)))
                     else let! m := merge_inputs r ts in Ok (opn (fst m) (snd m))
    | _ => let! m := merge_inputs r ts in Ok (opn (fst m) (snd m))
    end in
  match quant (r_id r), out with
  | Some q, Many l => Ok ([q (cat l)], [cat l])
  | Some q, One v => Ok ([q v], [v])
  | None, Many l => Ok (l, l)
  | None, One v => Ok ([v], [v])
  end.

(* _add_modules L294-325: the target whose operation is registered for each node, and reuse_groups *)
Definition add_new (st : list (nat * nat) * list ((nat * list nat) * nat)) (r : rnode) :=
  if r_reuse r then st else
  ((r_id r, r_target r) :: fst st, match r_group r with Some k => (k, r_target r) :: snd st | None => snd st end).
Definition add_reused (groups : list ((nat * list nat) * nat)) (ops : list (nat * nat)) (r : rnode) : result (list (nat * nat)) :=
  if r_reuse r then
    match r_group r with
    | Some k => match find (fun p => key_eqb (fst p) k) groups with Some (_, t) => Ok ((r_id r, t) :: ops) | None => Err E_runtime end
    | None => Err E_runtime end
  else Ok ops.
Definition add_all_modules (nodes : list rnode) : result (list (nat * nat)) :=
  let st := fold_left add_new nodes ([], []) in foldM (add_reused (snd st)) nodes (fst st).

Definition dict_get {A} (d : list (nat * A)) (n : nat) : option A := option_map snd (find (fun p => Nat.eqb (fst p) n) d).

(* _build_input_tensors_list L39-67 *)
Definition input_tensors (g : graph) (inputs : list V) (env : list (nat * list V)) (r : rnode) : result (list V) :=
  match r_kind r with
  | KPlaceholder => match nth_error inputs (index_of (r_id r) (g_in g)) with Some v => Ok [v] | None => Err E_index end
  | _ => let! ls := mapM (fun e => match dict_get env (src e) with Some l => Ok l | None => Err E_key end)
                         (sort_by ti (in_edges g (r_id r))) in Ok (concat ls)
  end.

(* forward L357-392: one node *)
Definition step (g : graph) (rs : list rnode) (ops : list (nat * nat)) (inputs : list V)
    (st : list (nat * list V) * list (nat * list V)) (n : nat) : result (list (nat * list V) * list (nat * list V)) :=
  match lookup_node rs n with
  | None => Err E_key
  | Some r =>
    let! ts := input_tensors g inputs (fst st) r in
    let! opn := match r_kind r with
      | KPlaceholder => Ok (fun args _ => match args with CT v :: _ => One v | _ => Many [] end)   (* DummyPlaceHolder *)
      | _ => match dict_get ops n with Some t => Ok (op t) | None => Err E_attr end
      end in
    let! o := run_operation opn r ts in Ok ((n, fst o) :: fst st, (n, snd o) :: snd st)
  end.

(* _generate_outputs L182-200: a node with several tensors contributes a list of them *)
Inductive out := OTensor (v : V) | OList (l : list V).
Definition generate_outputs (outs : list nat) (env : list (nat * list V)) : result (list out) :=
  let! ls := mapM (fun n => match dict_get env n with
                            | Some [v] => Ok [OTensor v] | Some [] => Ok [] | Some l => Ok [OList l] | None => Err E_type end) outs in
  Ok (concat ls).

(* PytorchModel.forward; order is the order of node_sort, float_out is return_float_outputs; a single output is
   returned without its list (L390) *)
Definition forward (g : graph) (rs : list rnode) (order : list nat) (float_out : bool) (inputs : list V) : result (list out) :=
  let! nodes := mapM (fun n => match lookup_node rs n with Some r => Ok r | None => Err E_key end) order in
  let! ops := add_all_modules nodes in
  let! st := foldM (step g rs ops inputs) order ([], []) in
  generate_outputs (map fst (g_out g)) (if float_out then snd st else fst st).
End Run.
Arguments OTensor {V}. Arguments OList {V}.
