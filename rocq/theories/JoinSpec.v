(* JoinSpec.v -- joining two nodes when the second has further inputs. *)
From Coq Require Import Permutation.
From Verif Require Import Base GraphModel GraphSpec FuseSpec.

(* e is the only edge leaving a; it and sides are the edges entering b *)
Record joinable (g : graph) (a b c : nat) (e : edge) (sides : list edge) : Prop := {
  j_wf : wf g;
  j_new : ~ In c (g_nodes g);
  j_diff : a <> b;
  j_out : filter (fun x => Nat.eqb (src x) a) (g_edges g) = [e];
  j_in : Permutation (filter (fun x => Nat.eqb (snk x) b) (g_edges g)) (e :: sides);
  j_acyclic : forall x, In x (g_edges g) -> src x = b -> snk x <> a /\ snk x <> b;
  j_noout : ~ In a (map fst (g_out g));
  j_noin : ~ In a (g_in g) /\ ~ In b (g_in g)
}.
(* c takes the place of both nodes; the edges that entered b are gone *)
Definition joined (g : graph) (a b c : nat) (g' : graph) : Prop := fused_with (fun x => negb (Nat.eqb (snk x) b)) g [a; b] c g'.
(* a reads only the value that b reads besides a *)
Record residual (g : graph) (a b c p : nat) (e e1 e2 : edge) : Prop := {
  r_join : joinable g a b c e [e2];
  r_in : filter (fun x => Nat.eqb (snk x) a) (g_edges g) = [e1];
  r_src : src e1 = p /\ src e2 = p;
  r_same : si e1 = si e2
}.
