(* DeadSpec.v -- which nodes of a graph contribute to its outputs. *)
From Verif Require Import Base GraphModel GraphSpec.
Local Open Scope nat_scope.

(* the node is an output of the graph, or a node it feeds is used *)
Inductive used (g : graph) : nat -> Prop :=
| used_output n i : In (n, i) (g_out g) -> used g n
| used_by e : In e (g_edges g) -> used g (snk e) -> used g (src e).
Definition acyclic (g : graph) : Prop := exists rank : nat -> nat, forall e, In e (g_edges g) -> rank (src e) < rank (snk e).
(* the part of the graph on the nodes satisfying keep *)
Definition part (keep : nat -> bool) (g : graph) : graph :=
  Graph (filter keep (g_nodes g)) (filter (fun e => keep (src e) && keep (snk e)) (g_edges g)) (g_in g) (g_out g).
Definition feeds_nothing (g : graph) (n : nat) : Prop := forall e, In e (g_edges g) -> src e <> n.
