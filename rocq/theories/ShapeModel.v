(* ShapeModel.v -- replacing the sizes a PyTorch reshape or view reads from the graph by the sizes seen when tracing.
   Sources: core/pytorch/graph_substitutions/substitutions/reshape_with_static_shapes.py L26-108,
     core/pytorch/back2framework/pytorch_model_builder.py L84-104 (how the call is put together afterwards).
   The graph is that of GraphModel.  networkx raises for the edges of a node that is not in the graph; the recursion is
   bounded by the number of nodes.  Logger.error (builder L89) only logs. *)
From Coq Require Import ZArith.
From Verif Require Import Base GraphModel FxModel.
Open Scope res_scope.
Local Open Scope nat_scope.

(* the fields of the node: shapes of its inputs and outputs, positional arguments of the call (each one a shape here, or
   something else), keywords of the call, and where the input tensors go *)
Inductive rarg := RShape (s : list Z) | ROther (c : nat).
Record rsnode := RS { rs_in : list (list Z); rs_out : list (list Z); rs_args : list rarg; rs_kwargs : list (name * rarg); rs_allocs : list alloc }.
Fixpoint zlist_eqb (a b : list Z) : bool :=
  match a, b with [], [] => true | x :: a, y :: b => Z.eqb x y && zlist_eqb a b | _, _ => false end.
(* s[0] = -1 *)
Definition batch_minus_one (s : list Z) : result (list Z) := match s with [] => Err E_index | _ :: r => Ok ((-1)%Z :: r) end.
(* L56-75; rs_in of the result has one shape, and rs_out was changed in place *)
Definition static_node (r : rsnode) : result rsnode :=
  match rs_out r with
  | [o] =>
      let! o' := batch_minus_one o in
      let allocs := firstn (length (filter (fun s => negb (zlist_eqb s [1%Z])) (rs_in r))) (rs_allocs r) in
      match rs_in r with
      | [] => Err E_index
      | i :: _ => let! i' := batch_minus_one i in Ok (RS [i'] [o'] [RShape o'] (rs_kwargs r) allocs)
      end
  | _ => Err E_critical
  end.

Definition is_nil {A} (l : list A) : bool := match l with [] => true | _ => false end.
Section Shape.
Variable validate : graph -> result unit.
(* L87-108 *)
Fixpoint clean (fuel : nat) (g : graph) (n : nat) : result graph :=
  match fuel with
  | 0 => Err E_fuel
  | S f =>
      if negb (mem n (g_nodes g)) then Err E_runtime else
      if is_nil (out_edges g n) && negb (mem n (map fst (g_out g))) then
        let ps := map src (in_edges g n) in
        let! g := foldM (fun g p => remove_edge validate g p n) ps g in
        let! g := remove_node validate g n None None in
        foldM (clean f) ps g
      else Ok g
  end.
(* L77-84 *)
Definition drop_sizes (g : graph) (n : nat) : result graph :=
  let ps := map src (filter (fun e => Nat.ltb 0 (ti e)) (in_edges g n)) in
  let! g1 := foldM (fun g p => remove_edge validate g p n) ps g in
  foldM (clean (S (length (g_nodes g)))) ps g1.
(* L36-84 *)
Definition static_shapes (g : graph) (n : nat) (r : rsnode) : result (graph * rsnode) :=
  if is_nil (rs_in r) then Ok (g, r) else
  let! r' := static_node r in
  let! g' := drop_sizes g n in
  Ok (g', r').
End Shape.

(* pytorch_model_builder.py L84-104 for one input tensor x: the positional and keyword arguments *)
Inductive carg (T : Type) := CTensor (x : T) | CArg (a : rarg).
Arguments CTensor {T}. Arguments CArg {T}.
Definition insert_at {A} (i : nat) (x : A) (l : list A) : list A := firstn i l ++ x :: skipn i l.
Definition call_of {T} (r : rsnode) (x : T) : list (carg T) * list (name * carg T) :=
  let args := map CArg (rs_args r) in
  let kws := map (fun p => (fst p, CArg (snd p))) (rs_kwargs r) in
  match rs_allocs r with
  | [] => (CTensor x :: args, kws)
  | Pos i :: _ => (insert_at i (CTensor x) args, kws)
  | Key k :: _ => (args, kws ++ [(k, CTensor x)])
  end.
