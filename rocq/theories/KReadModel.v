(* KReadModel.v -- reading a Keras model, with the models nested in it, into one flat graph.
   Sources (under model_compression_toolkit/core):
     keras/reader/reader.py L36-183, keras/reader/connectivity_handler.py L45-252,
     keras/reader/nested_model/{nested_model_handler.py L24-64, nodes_merger.py L24-46,
     outputs_merger.py L26-52, edges_merger.py L25-169}, common/graph/edge.py L59-75 (equality of edges),
     common/graph/base_graph.py L71-103 (construction of a graph).
   A Keras model is the list of its nodes (the values of _nodes_by_depth, one after another), its input
   tensors and its output tensors; tensors are numbers.  A node is one call of a layer: it has the layer's
   name, and the layer is an input layer, an operation or a model.  u_id stands for the internal node
   object that build_node creates for it (node_builder.py); objects are distinct, so these are.
   Simplifications: the attributes and weights of the layers are not modelled; a layer called twice is
   recognised by its name (node_builder.py L231-245 gives the second call the name <name>_reused_<i>, and
   no layer of the model is taken to bear such a name). *)
From Verif Require Import Base GraphModel.
Open Scope res_scope.
Local Open Scope nat_scope.

Inductive kmodel := KModel (k_nodes : list knode) (k_ins k_outs : list nat)
with knode := KNode (u_id k_name : nat) (k_layer : klayer) (k_in k_out : list nat)
with klayer := LInput | LOp | LModel (m : kmodel).

Definition nodes_of (m : kmodel) := let 'KModel ns _ _ := m in ns.
Definition ins_of (m : kmodel) := let 'KModel _ i _ := m in i.
Definition outs_of (m : kmodel) := let 'KModel _ _ o := m in o.
Definition uid (n : knode) := let 'KNode u _ _ _ _ := n in u.
Definition kname (n : knode) := let 'KNode _ m _ _ _ := n in m.
Definition layer (n : knode) := let 'KNode _ _ l _ _ := n in l.
Definition kin (n : knode) := let 'KNode _ _ _ i _ := n in i.
Definition kout (n : knode) := let 'KNode _ _ _ _ o := n in o.
Definition is_input (n : knode) : bool := match layer n with LInput => true | _ => false end.

(* list.index *)
Fixpoint index_of (x : nat) (l : list nat) : result nat :=
  match l with [] => Err E_value | y :: r => if Nat.eqb y x then Ok 0 else let! i := index_of x r in Ok (S i) end.
(* connectivity_handler.py L171-176: a node is listed once per position at which it reads the tensor *)
Definition readers (ns : list knode) (t : nat) : list knode :=
  flat_map (fun n => map (fun _ => n) (filter (Nat.eqb t) (kin n))) ns.
(* L179-180: the last node that outputs the tensor *)
Definition producer (ns : list knode) (t : nat) : option knode :=
  find (fun n => mem t (kout n)) (rev ns).
(* L117-133: no reader at all is a KeyError *)
Definition build_inputs (ns : list knode) (ins : list nat) : result (list nat) :=
  let! ls := mapM (fun t => match readers ns t with
                            | [] => Err E_key
                            | rs => Ok (map uid (filter is_input rs)) end) ins in
  Ok (concat ls).
(* L135-155 *)
Definition build_outputs (ns : list knode) (outs : list nat) : result (list (nat * nat)) :=
  mapM (fun t => match producer ns t with
                 | None => Err E_attr
                 | Some p => let! i := index_of t (kout p) in Ok (uid p, i) end) outs.
(* L182-200, L202-223, reader.py L36-56 *)
Definition edges_from (ns : list knode) (s : knode) : result (list edge) :=
  let! ls := mapM (fun t => mapM (fun d => let! i := index_of t (kout s) in
                                           let! j := index_of t (kin d) in
                                           Ok (Edge (uid s) (uid d) i j))
                                 (filter (fun d => negb (Nat.eqb (uid s) (uid d))) (readers ns t)))
                  (kout s) in
  Ok (concat ls).
Definition get_edges (ns : list knode) : result (list edge) :=
  let! ls := mapM (edges_from ns) ns in Ok (concat ls).
(* base_graph.py L71-103 *)
Definition make_graph (nodes : list nat) (es : list edge) (ins : list nat) (outs : list (nat * nat)) : graph :=
  fold_left add_edge_nx es (fold_left add_node_nx nodes (Graph [] [] ins outs)).
(* reader.py L96-117 *)
Definition build_graph (ns : list knode) (ins outs : list nat) : result graph :=
  let! i := build_inputs ns ins in
  let! o := build_outputs ns outs in
  let! es := get_edges ns in
  Ok (make_graph (map uid ns) es i o).

(* networkx MultiDiGraph.edges: the edges out of every node, in the order of the nodes *)
Definition all_edges (g : graph) : list edge := flat_map (out_edges g) (g_nodes g).
(* edge.py L59-75, as written: the sink index of the other edge is compared with the source index of this one *)
Definition edge_eq (e other : edge) : bool :=
  Nat.eqb (snk other) (snk e) && Nat.eqb (src other) (src e) && Nat.eqb (si other) (si e) && Nat.eqb (ti other) (si e).
Definition same_edge (a b : edge) : bool :=
  Nat.eqb (src a) (src b) && Nat.eqb (snk a) (snk b) && Nat.eqb (si a) (si b) && Nat.eqb (ti a) (ti b).
(* list.remove: takes away the first element that is the given object or equal to it.  remove_object: the
   given edge is itself in the list; remove_copy: it is another object, made by convert_to_edge (L139). *)
Definition remove_by (p : edge -> bool) (l : list edge) : result (list edge) :=
  match remove_first p l with Some r => Ok r | None => Err E_value end.
Definition remove_object (e : edge) (l : list edge) := remove_by (fun y => same_edge y e || edge_eq y e) l.
Definition remove_copy (e : edge) (l : list edge) := remove_by (fun y => edge_eq y e) l.

(* edges_merger.py L94-126 (get_inner_inputs_successors L129-147: the edges of the inner graph that leave the input) *)
Definition rewire_incoming (h : graph) (in_edges : list edge) (res : list edge) : result (list edge) :=
  foldM (fun res e =>
    let! res := foldM (fun res i =>
        if Nat.eqb (ti e) (fst i)
        then foldM (fun res o => remove_copy o (res ++ [Edge (src e) (snk o) (si e) (ti o)]))
                   (filter (fun o => Nat.eqb (src o) (snd i)) (all_edges h)) res
        else Ok res) (enumerate_from 0 (g_in h)) res in
    remove_object e res) in_edges res.
(* L67-91 *)
Definition rewire_outgoing (outs : list (nat * nat)) (out_edges : list edge) (res : list edge) : result (list edge) :=
  foldM (fun res o =>
    foldM (fun res e => if Nat.eqb (si e) (fst o)
                        then remove_object e (res ++ [Edge (fst (snd o)) (snk e) (snd (snd o)) (ti e)])
                        else Ok res) out_edges res) (enumerate_from 0 outs) res.
(* L25-64, L150-169 *)
Definition merge_edges (u : nat) (g h : graph) : result (list edge) :=
  let outer := all_edges g in
  let! res := rewire_incoming h (filter (fun e => Nat.eqb (snk e) u) outer) (outer ++ all_edges h) in
  rewire_outgoing (g_out h) (filter (fun e => Nat.eqb (src e) u) outer) res.
(* nodes_merger.py L24-46 *)
Definition remove_node_of (l : list nat) (n : nat) : result (list nat) :=
  match remove_first (Nat.eqb n) l with Some r => Ok r | None => Err E_value end.
Definition merge_nodes (u : nat) (g h : graph) : result (list nat) :=
  let! l := foldM remove_node_of (g_in h) (g_nodes g ++ g_nodes h) in
  remove_node_of l u.
(* outputs_merger.py L26-52 *)
Definition merge_outputs (u : nat) (g h : graph) : result (list (nat * nat)) :=
  mapM (fun o => if Nat.eqb u (fst o)
                 then match nth_error (g_out h) (snd o) with Some o' => Ok o' | None => Err E_index end
                 else Ok o) (g_out g).
(* nested_model_handler.py L24-64 *)
Definition merge_graphs (u : nat) (g h : graph) : result graph :=
  let! ns := merge_nodes u g h in
  let! o := merge_outputs u g h in
  let! es := merge_edges u g h in
  Ok (make_graph ns es (g_in g) o).

(* whether an earlier node of the list is a call of a layer of the same name *)
Definition called_before (ns : list knode) (n : knode) : bool :=
  match find (fun p => Nat.eqb (kname p) (kname n)) ns with
  | Some p => negb (Nat.eqb (uid p) (uid n)) | None => false end.

(* reader.py L120-169: outer_keras_model.get_layer(name) raises ValueError on the name of a second call *)
Fixpoint parse_model (m : kmodel) : result graph :=
  match m with KModel ns ins outs =>
    let! g := build_graph ns ins outs in
    (fix flatten (l : list knode) (g : graph) : result graph :=
       match l with
       | [] => Ok g
       | n :: r =>
           match n with
           | KNode u _ (LModel inner) _ _ =>
               if called_before ns n then Err E_value else
               let! h := parse_model inner in
               let! g := merge_graphs u g h in
               flatten r g
           | _ => flatten r g
           end
       end) ns g
  end.
