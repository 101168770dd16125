(* GraphModel.v -- the computation graph and the primitives that edit it.
   Sources (under model_compression_toolkit/core/common):
     graph/base_graph.py L43-60, L161-181, L310-343, L345-535, L737-752, L894-915,
     graph/edge.py, graph/graph_searches.py L36-122, substitutions/remove_identity.py L21-59,
     substitutions/shift_negative_activation.py L90-182 (inserting and removing a node between two nodes).
   A graph is a networkx.MultiDiGraph.  Nodes are natural numbers (object identity; BaseNode does not
   define equality).  g_edges lists the edges in the order in which they were added: networkx keeps the
   edges of a node grouped by the other end, in order of insertion, and removes parallel edges last-in
   first-out, so that this list determines everything the code can observe. *)
From Verif Require Import Base.
Open Scope res_scope.

(* edge.py L25-48 *)
Record edge := Edge { src : nat; snk : nat; si : nat; ti : nat }.
Record graph := Graph {
  g_nodes : list nat; g_edges : list edge;
  g_in : list nat;                  (* input_nodes *)
  g_out : list (nat * nat)          (* output_nodes: OutTensor(node, node_out_index) *)
}.
Definition set_edges (g : graph) (es : list edge) : graph := Graph (g_nodes g) es (g_in g) (g_out g).
Definition set_nodes (g : graph) (ns : list nat) : graph := Graph ns (g_edges g) (g_in g) (g_out g).
Definition set_in (g : graph) (l : list nat) : graph := Graph (g_nodes g) (g_edges g) l (g_out g).
Definition set_out (g : graph) (l : list (nat * nat)) : graph := Graph (g_nodes g) (g_edges g) (g_in g) l.

Definition mem (n : nat) (l : list nat) : bool := existsb (Nat.eqb n) l.
Definition is_between (u v : nat) (e : edge) : bool := Nat.eqb (src e) u && Nat.eqb (snk e) v.
(* get_edge_data(u, v).values() *)
Definition between (g : graph) (u v : nat) : list edge := filter (is_between u v) (g_edges g).
(* the distinct elements in order of first occurrence *)
Fixpoint firsts (l : list nat) : list nat :=
  match l with [] => [] | x :: r => x :: filter (fun y => negb (Nat.eqb x y)) (firsts r) end.
(* base_graph.py L517-535 and L496-515 without sorting: grouped by the other end *)
Definition out_edges (g : graph) (u : nat) : list edge :=
  flat_map (between g u) (firsts (map snk (filter (fun e => Nat.eqb (src e) u) (g_edges g)))).
Definition in_edges (g : graph) (v : nat) : list edge :=
  flat_map (fun u => between g u v) (firsts (map src (filter (fun e => Nat.eqb (snk e) v) (g_edges g)))).
(* L310-343 *)
Definition next_nodes (g : graph) (n : nat) : list nat := map snk (out_edges g n).
Definition prev_nodes (g : graph) (n : nat) : list nat := map src (in_edges g n).
(* list.sort(key=...): stable *)
Fixpoint insert_by (key : edge -> nat) (e : edge) (l : list edge) : list edge :=
  match l with [] => [e] | x :: r => if Nat.leb (key e) (key x) then e :: l else x :: insert_by key e r end.
Definition sort_by (key : edge -> nat) (l : list edge) : list edge := fold_right (insert_by key) [] l.

(* networkx add_node / add_edge / remove_node / remove_edge *)
Definition add_node_nx (g : graph) (n : nat) : graph := if mem n (g_nodes g) then g else set_nodes g (g_nodes g ++ [n]).
Definition add_edge_nx (g : graph) (e : edge) : graph :=
  let g := add_node_nx (add_node_nx g (src e)) (snk e) in set_edges g (g_edges g ++ [e]).
Fixpoint remove_first {A} (p : A -> bool) (l : list A) : option (list A) :=
  match l with [] => None | x :: r => if p x then Some r else option_map (cons x) (remove_first p r) end.
Definition remove_edge_nx (g : graph) (u v : nat) : result graph :=
  match remove_first (is_between u v) (rev (g_edges g)) with
  | Some es => Ok (set_edges g (rev es)) | None => Err E_runtime end.
Definition remove_node_nx (g : graph) (n : nat) : result graph :=
  if mem n (g_nodes g)
  then Ok (Graph (filter (fun m => negb (Nat.eqb n m)) (g_nodes g))
                 (filter (fun e => negb (Nat.eqb n (src e)) && negb (Nat.eqb n (snk e))) (g_edges g)) (g_in g) (g_out g))
  else Err E_runtime.

Section Surgery.
(* validate_graph_after_change L43-60: raises unless the fusing information agrees with the graph (or
   validation is switched off).  FuseModel gives the check itself. *)
Variable validate : graph -> result unit.
Definition checked (g : graph) : result graph := let! _ := validate g in Ok g.

(* L903-915 *)
Definition add_edge (g : graph) (e : edge) : result graph := checked (add_edge_nx g e).
Definition remove_edge (g : graph) (u v : nat) : result graph := let! g := remove_edge_nx g u v in checked g.
(* L161-181 *)
Definition set_inputs (g : graph) (l : list nat) : result graph := checked (set_in g l).
Definition set_outputs (g : graph) (l : list (nat * nat)) : result graph := checked (set_out g l).

(* L345-360 *)
Definition reconnect_out_edges (g : graph) (c n : nat) : result graph :=
  let! g := foldM (fun g oe => let! g := add_edge g (Edge n (snk oe) (si oe) (ti oe)) in
                               remove_edge g c (snk oe)) (out_edges g c) g in
  checked g.
(* L362-377 *)
Definition reconnect_in_edges (g : graph) (c n : nat) : result graph :=
  let! g := foldM (fun g ie => let! g := add_edge g (Edge (src ie) n (si ie) (ti ie)) in
                               remove_edge g (src ie) c) (in_edges g c) g in
  checked g.
(* L379-403 *)
Fixpoint enumerate_from {A} (i : nat) (l : list A) : list (nat * A) :=
  match l with [] => [] | x :: r => (i, x) :: enumerate_from (S i) r end.
Definition add_node_with_in_edges (g : graph) (n : nat) (ins : list nat) (idx : list nat) : result graph :=
  let idx := match idx with [] => repeat 0%nat (length ins) | _ => idx end in
  if negb (Nat.eqb (length idx) (length ins)) then Err E_critical else
  let! g := foldM (fun g x => let '(k, (m, i)) := x in add_edge g (Edge m n i k)) (enumerate_from 0%nat (combine ins idx)) (add_node_nx g n) in
  checked g.
(* L405-426 *)
Definition replace_output_node (g : graph) (c n : nat) : result graph :=
  let! g := set_outputs g (map (fun o => if Nat.eqb c (fst o) then (n, snd o) else o) (g_out g)) in checked g.
(* L428-451 (new_node is not None) *)
Definition replace_input_node (g : graph) (c n : nat) : result graph :=
  let! g := set_inputs g (match remove_first (Nat.eqb c) (g_in g) with Some l => l ++ [n] | None => g_in g end) in checked g.
(* L453-494 *)
Definition remove_node (g : graph) (n : nat) (ins : option (list nat)) (outs : option (list (nat * nat))) : result graph :=
  let! g := if mem n (map fst (g_out g)) then match outs with None => Err E_critical | Some l => set_outputs g l end else Ok g in
  let! g := if mem n (g_in g) then match ins with None => Err E_critical | Some l => set_inputs g l end else Ok g in
  match in_edges g n, out_edges g n with
  | [], [] => let! g := remove_node_nx g n in checked g
  | _, _ => Err E_assert
  end.
(* L737-752 *)
Definition replace_node (g : graph) (c n : nat) : result graph :=
  let g := add_node_nx g n in
  let! g := reconnect_out_edges g c n in
  let! g := reconnect_in_edges g c n in
  let! g := replace_output_node g c n in
  let! g := replace_input_node g c n in
  let! g := remove_node g c None None in
  checked g.

(* remove_identity.py L21-59: a node with another number of inputs is left alone.  graph_outputs is the
   list of the graph itself and is edited in place. *)
Definition remove_identity (g : graph) (n : nat) : result graph :=
  match prev_nodes g n with
  | [p] =>
      let outs := map (fun o => if Nat.eqb (fst o) n then (p, snd o) else o) (g_out g) in
      let! g := reconnect_out_edges (set_out g outs) n p in
      let! g := remove_edge g p n in
      remove_node g n None (Some outs)
  | _ => Ok g
  end.

(* shift_negative_activation.py L90-111, L114-134, L137-156, L159-182 *)
Definition insert_between (g : graph) (n a b : nat) : result graph :=
  let g := add_node_nx g n in
  match between g a b with
  | [] => Err E_attr                                   (* get_edge_data gives None *)
  | [e] => let! g := add_edge g (Edge a n (si e) (ti e)) in
           let! g := add_edge g (Edge n b (si e) (ti e)) in
           remove_edge g a b
  | _ => Err E_assert
  end.
Definition insert_after (g : graph) (n a : nat) : result graph :=
  match next_nodes g a with [b] => insert_between g n a b | _ => Err E_critical end.
Definition insert_before (g : graph) (n b : nat) : result graph :=
  match prev_nodes g b with [a] => insert_between g n a b | _ => Err E_critical end.
Definition remove_between (g : graph) (n a b : nat) : result graph :=
  match between g a n with
  | [] => Err E_attr
  | [e] => let! g := add_edge g (Edge a b (si e) (ti e)) in
           let! g := remove_edge g a n in
           let! g := remove_edge g n b in
           remove_node g n None None
  | _ => Err E_assert
  end.
End Surgery.

(* edge.py L59-75; BaseNode objects are equal when they are the same object *)
Definition edge_eq (self other : edge) : bool :=
  Nat.eqb (snk other) (snk self) && Nat.eqb (src other) (src self) && Nat.eqb (si other) (si self) && Nat.eqb (ti other) (si self).

(* graph_searches.py L36-47, L49-64, L66-122; a matcher is what its apply method computes *)
Definition node_filter (g : graph) (p : nat -> bool) : list nat := filter p (g_nodes g).
(* self.edges: the edges of the nodes in the order of the nodes *)
Definition all_edges (g : graph) : list edge := flat_map (out_edges g) (g_nodes g).
Definition edge_filter (g : graph) (p : nat * nat -> bool) : list (nat * nat) :=
  map (fun e => (src e, snk e)) (filter (fun e => p (src e, snk e) && negb (Nat.eqb (length (out_edges g (src e))) 0)) (all_edges g)).
(* node_matcher_list[index:] is the list that remains; an empty list raises IndexError and cannot be built *)
Fixpoint walk_match (g : graph) (ms : list (nat -> bool)) (n : nat) (acc : list nat) : list (list nat) :=
  match ms with
  | [] => []
  | m :: r =>
      if m n then
        match r with
        | [] => [acc ++ [n]]
        | _ :: r' => flat_map (fun nn => walk_match g r nn (acc ++ [n]))
                       (filter (fun nn => Nat.eqb (length (next_nodes g nn)) 1 || match r' with [] => true | _ => false end) (next_nodes g n))
        end
      else []
  end.
Definition walk_filter (g : graph) (ms : list (nat -> bool)) : list (list nat) :=
  flat_map (fun n => walk_match g ms n []) (filter (fun n => Nat.eqb (length (next_nodes g n)) 1) (g_nodes g)).
