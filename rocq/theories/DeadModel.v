(* DeadModel.v -- removing the nodes whose result is not used, when a PyTorch model is read.
   Sources: core/pytorch/reader/reader.py L121-155 (remove_broken_nodes_from_graph), L173-187 (model_reader).
   The loops run over lists which their bodies change, as in Python: a loop over a list looks at index 0, 1, ... of the
   list as it is at that moment.  graph.out_degree is the one of networkx (out_degree of GraphSpec counts the same
   edges); graph.remove_edge and graph.remove_node are those of GraphModel. *)
From Verif Require Import Base GraphModel FxModel.
Open Scope res_scope.
Local Open Scope nat_scope.

Definition degree (g : graph) (n : nat) : nat := length (filter (fun e => Nat.eqb (src e) n) (g_edges g)).

Section Dead.
Variable validate : graph -> result unit.

(* L142-149: one parent of n; the state is the graph and nodes_to_remove *)
Definition leave_parent (n : nat) (st : graph * list nat) (p : nat) : result (graph * list nat) :=
  let l := if Nat.eqb (degree (fst st) p) 1 then snd st ++ [p] else snd st in
  let! g := remove_edge validate (fst st) p n in Ok (g, l).
(* L139-153: one node *)
Definition remove_dead (st : graph * list nat) (n : nat) : result (graph * list nat) :=
  let! st := foldM (leave_parent n) (map src (in_edges (fst st) n)) st in
  let! g := remove_node validate (fst st) n None None in
  match remove_first (Nat.eqb n) (snd st) with Some l => Ok (g, l) | None => Err E_value end.
(* L137-153: the for loop is at index k of nodes_to_remove; when it ends and nodes are left it starts again *)
Fixpoint dead_loop (fuel k : nat) (st : graph * list nat) : result graph :=
  match fuel, snd st with
  | _, [] => Ok (fst st)
  | 0, _ => Err E_fuel
  | S fuel, l => match nth_error l k with
                 | Some n => let! st := remove_dead st n in dead_loop fuel (S k) st
                 | None => dead_loop fuel 0 st
                 end
  end.
(* L130-154 *)
Definition remove_broken_nodes (g : graph) : result graph :=
  let outs := map fst (g_out g) in
  foldM (fun g n => dead_loop (2 * length (g_nodes g)) 0 (g, [n]))
        (filter (fun n => Nat.eqb (degree g n) 0 && negb (mem n outs)) (g_nodes g)) g.
(* L175-180, from the traced model on *)
Definition model_reader (layer_weights : nat -> list nat) (prog : list fxnode) : result (graph * list rnode) :=
  let! gr := build_graph layer_weights prog in
  if existsb (fun n => match out_edges (fst gr) n with [] => true | _ => false end) (g_in (fst gr)) then Err E_value else
  let! g := remove_broken_nodes (fst gr) in
  Ok (g, filter (fun r => mem (r_id r) (g_nodes g)) (snd gr)).
End Dead.
