(* JoinModel.v -- how the collapsing substitutions edit the graph.
   Sources (core/common/substitutions): linear_collapsing.py L96-111, L149-181 and L229-261,
     residual_collapsing.py L61-110. *)
From Verif Require Import Base GraphModel MergeModel.
Open Scope res_scope.

Section Join.
Variable validate : graph -> result unit.
(* linear_collapsing.py L167-175, L251-259, residual_collapsing.py L95-104: c takes the place of a and b;
   sides are the other nodes whose edges to b are removed *)
Definition join_nodes (g : graph) (a b c : nat) (sides : list nat) : result graph :=
  let g := add_node_nx g c in
  let! g := reconnect_out_edges validate g b c in
  let! g := reconnect_in_edges validate g a c in
  let! g := replace_output_node validate g b c in
  let! g := remove_edge validate g a b in
  let! g := foldM (fun g s => remove_edge validate g s b) sides g in
  let! g := remove_node validate g a None None in
  remove_node validate g b None None.
Definition counted (d : nat) (g g' : graph) : bool :=
  Nat.eqb (length (g_nodes g)) (1 + length (g_nodes g')) && Nat.eqb (length (g_edges g)) (d + length (g_edges g')).
(* linear_collapsing.py L149-181, with the checks of L177-179 *)
Definition join_conv (g : graph) (a b c : nat) : result graph :=
  let! g' := join_nodes g a b c [] in if counted 1 g g' then Ok g' else Err E_assert.
(* L251-261 *)
Definition join_const (g : graph) (a b c : nat) : result graph := join_nodes g a b c [].
(* residual_collapsing.py L64-79: the node both read, or None when the graph is left alone *)
Definition residual_source (reused : nat -> bool) (g : graph) (a b : nat) : result (option nat) :=
  if reused a || reused b then Ok None else
  if Nat.ltb 1 (length (next_nodes g a)) || Nat.ltb (length (prev_nodes g a)) 1 || negb (Nat.eqb (length (prev_nodes g b)) 2) then Ok None else
  match remove_first (Nat.eqb a) (prev_nodes g b) with
  | None => Err E_value
  | Some others =>
      match prev_nodes g a, others with
      | p :: _, q :: _ => Ok (if Nat.eqb p q then Some q else None)
      | _, _ => Err E_index
      end
  end.
(* L84-110 *)
Definition join_residual (g : graph) (a b c p : nat) : result graph :=
  let! g' := join_nodes g a b c [p] in if counted 2 g g' then Ok g' else Err E_assert.
End Join.
