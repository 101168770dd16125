(* MergeModel.v -- how substitutions edit the graph: two consecutive nodes become one, a node is appended.
   Sources (core/common/substitutions): batchnorm_folding.py L90-101 and L131-152, L225-236 and L285-299,
     batchnorm_refusing.py L94-113 and L142-163, batchnorm_reconstruction.py L157-167,
     linear_collapsing.py (the same edits). *)
From Verif Require Import Base GraphModel.
Open Scope res_scope.

Section Merge.
Variable validate : graph -> result unit.
(* batchnorm_folding.py L131-152: a is the first node, b the second, c the new one *)
Definition merge_nodes (g : graph) (a b c : nat) : result graph :=
  let nodes := length (g_nodes g) in
  let edges := length (g_edges g) in
  let g := add_node_nx g c in
  let! g := reconnect_out_edges validate g b c in
  let! g := reconnect_in_edges validate g a c in
  let! g := replace_output_node validate g b c in
  let! g := remove_edge validate g a b in
  let! g := remove_node validate g b None None in
  let! g := remove_node validate g a None None in
  if Nat.eqb nodes (S (length (g_nodes g))) && Nat.eqb edges (S (length (g_edges g))) then Ok g else Err E_assert.
(* batchnorm_folding.py L95-101, L231-236: merging is skipped for reused nodes and for branches *)
Definition may_merge (reused : nat -> bool) (g : graph) (a b : nat) : bool :=
  negb (reused a || reused b) && Nat.leb (length (next_nodes g a)) 1 && Nat.leb (length (prev_nodes g b)) 1.
(* batchnorm_reconstruction.py L157-167: n is put behind a *)
Definition append_node (g : graph) (a n : nat) : result graph :=
  let nodes := length (g_nodes g) in
  let edges := length (g_edges g) in
  let! g := reconnect_out_edges validate g a n in
  let! g := replace_output_node validate g a n in
  let! g := add_node_with_in_edges validate g n [a] [] in
  if Nat.eqb (length (g_nodes g)) (S nodes) && Nat.eqb (length (g_edges g)) (S edges) then Ok g else Err E_assert.
End Merge.
