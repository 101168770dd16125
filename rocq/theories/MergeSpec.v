(* MergeSpec.v -- merging two nodes of a graph. *)
From Verif Require Import Base GraphModel GraphSpec FuseSpec.

(* e is the only edge leaving a and the only edge entering b *)
Record mergeable (g : graph) (a b c : nat) (e : edge) : Prop := {
  mg_wf : wf g;
  mg_new : ~ In c (g_nodes g);
  mg_diff : a <> b;
  mg_out : filter (fun x => Nat.eqb (src x) a) (g_edges g) = [e];
  mg_in : filter (fun x => Nat.eqb (snk x) b) (g_edges g) = [e];
  mg_acyclic : forall x, In x (g_edges g) -> ~ (src x = b /\ snk x = a);
  mg_noout : ~ In a (map fst (g_out g));
  mg_noin : ~ In a (g_in g) /\ ~ In b (g_in g)
}.

(* g' is g with n reading the first output of a and taking over its readers *)
Definition appended (g : graph) (a n : nat) (g' : graph) : Prop :=
  Permutation.Permutation (g_edges g') (Edge a n 0 0 :: map (resrc a n) (g_edges g)) /\
  (forall m, In m (g_nodes g') <-> In m (g_nodes g) \/ m = n) /\ g_in g' = g_in g /\ g_out g' = map (reout a n) (g_out g).
(* a has one output *)
Definition single_output (g : graph) (a : nat) : Prop :=
  (forall e, In e (g_edges g) -> src e = a -> si e = 0%nat) /\ (forall o, In o (g_out g) -> fst o = a -> snd o = 0%nat).
