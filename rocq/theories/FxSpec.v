(* FxSpec.v -- what a traced PyTorch model computes, and which calls the toolkit can rebuild. *)
From Coq Require Import Permutation.
From Verif Require Import Base GraphModel FxModel.
Local Open Scope nat_scope.

Section Traced.
Context {V : Type} (op : nat -> list (cval V) -> list (name * cval V) -> ores V) (cst : nat -> V) (quant : nat -> option (V -> V)).

(* the value of an argument when the nodes have the values val *)
Fixpoint value_of (val : nat -> ores V) (a : arg) : cval V :=
  match a with
  | ANode n => match val n with One v => CT v | Many l => CL (map CT l) end
  | AConst c => CC c
  | AList l => CL (map (value_of val) l)
  end.
(* the node's output after its activation quantizer *)
Definition quantized (n : nat) (o : ores V) : ores V :=
  match quant n, o with None, _ => o | Some q, One v => One (q v) | Some q, Many l => Many (map q l) end.
(* raw n is what node n returns and val n what its consumers see, when the model runs on the inputs *)
Record traced (prog : list fxnode) (inputs : list V) (raw val : nat -> ores V) : Prop := {
  tr_input : Forall2 (fun nd v => raw (f_id nd) = One v) (filter (is_op FPlaceholder) prog) inputs;
  tr_const : forall nd, In nd prog -> f_op nd = FGetAttr -> val (f_id nd) = One (cst (f_id nd));
  tr_call : forall nd, In nd prog -> f_op nd = FFunction \/ f_op nd = FModule ->
    raw (f_id nd) = op (f_target nd) (map (value_of val) (f_args nd)) (map (fun kv => (fst kv, value_of val (snd kv))) (f_kwargs nd));
  tr_quant : forall nd, In nd prog -> is_graph_node nd = true -> val (f_id nd) = quantized (f_id nd) (raw (f_id nd))
}.
(* Python does not care about the order of keyword arguments *)
Definition keyword_order_free : Prop :=
  forall t args kw kw', Permutation kw kw' -> NoDup (map fst kw) -> op t args kw = op t args kw'.
End Traced.

(* the nodes among arguments, with repetitions *)
Definition nodes_in (l : list arg) : list nat := flat_map arg_nodes l.
Definition no_nodes (a : arg) : Prop := arg_nodes a = [].
(* every argument is a node or contains no node *)
Definition flat (l : list arg) : Prop := forall a, In a l -> is_node a = true \/ no_nodes a.
(* no node occurs twice, except that the last one may be repeated *)
Definition repeats_last (z k : nat) (l : list nat) : Prop := exists pre, NoDup (z :: pre) /\ l = pre ++ repeat z k.

(* calls the toolkit rebuilds *)
Inductive plain (consts : list nat) (nd : fxnode) : Prop :=
| plain_source : f_op nd = FPlaceholder \/ f_op nd = FGetAttr -> nodes_in (f_args nd) = [] -> nodes_in (map snd (f_kwargs nd)) = [] -> plain consts nd
| plain_output : f_op nd = FOutput -> plain consts nd
(* f(x, 3, y, other=z): each tensor is an argument of its own, and used once (the last one, if it is not a
   constant and not a keyword argument, may be used several times) *)
| plain_function z k : f_op nd = FFunction -> flat (f_args nd) -> flat (map snd (f_kwargs nd)) -> NoDup (map fst (f_kwargs nd)) ->
    first_list nd = None \/ (inputs_as_list nd = false /\ forall n, In n (nodes_in (f_args nd) ++ nodes_in (map snd (f_kwargs nd))) -> ~ In n consts) ->
    repeats_last z k (nodes_in (f_args nd) ++ nodes_in (map snd (f_kwargs nd))) ->
    k <= 1 \/ (nodes_in (map snd (f_kwargs nd)) = [] /\ ~ In z consts) -> plain consts nd
(* f([x, c, y], 3, dim=1): the first argument is a list of tensors, and there are no other tensors *)
| plain_list z k l rest : f_op nd = FFunction -> f_args nd = AList (map ANode l) :: rest -> nodes_in rest = [] ->
    nodes_in (map snd (f_kwargs nd)) = [] -> repeats_last z k (filter (fun n => negb (mem n consts)) l) -> plain consts nd
(* layer(x, y) *)
| plain_module z k l : f_op nd = FModule -> f_args nd = map ANode l -> f_kwargs nd = [] ->
    repeats_last z k l -> k <= 1 \/ ~ In z consts -> plain consts nd.

(* names are unique; arguments are nodes of the model which have a value *)
Record wf_prog (prog : list fxnode) : Prop := {
  wp_ids : NoDup (map f_id prog);
  wp_args : forall nd n, In nd prog -> In n (all_input_nodes nd) -> In n (graph_ids prog) \/ In n (const_ids prog)
}.
(* moreover arguments come earlier in the program *)
Definition in_order (prog : list fxnode) : Prop :=
  forall a nd b n, prog = a ++ nd :: b -> In n (all_input_nodes nd) -> In n (graph_ids a) \/ In n (const_ids a).

(* an order in which every node comes after the nodes it reads *)
Definition topological (g : graph) (order : list nat) : Prop :=
  Permutation order (g_nodes g) /\
  forall a n b e, order = a ++ n :: b -> In e (g_edges g) -> snk e = n -> In (src e) a.

(* what the model returns: the nodes in its return statement *)
Definition returned (prog : list fxnode) : list nat := flat_map (fun nd => nodes_in (f_args nd ++ map snd (f_kwargs nd))) (filter (is_op FOutput) prog).
