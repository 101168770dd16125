(* StatsSpec.v -- what statistics collection promises, in terms of nodes and tensors. *)
From Coq Require Import Permutation.
From Verif Require Import Base StatsModel.
Local Open Scope nat_scope.

(* a graph whose topological order lists the same nodes once each, sources before sinks *)
Record graph_ok (g : sgraph) : Prop := {
  go_nodup : NoDup (order g);
  go_topo : Permutation (topo g) (order g);
  go_edges : forall u v, In (u, v) (gedges g) -> exists a b c, topo g = a ++ u :: b ++ v :: c;
  go_outs : NoDup (outs g) }.

(* the node's own activation is quantized, or (under bias correction) it feeds a node whose kernel is quantized *)
Definition own_stats (g : sgraph) (n : nat) : Prop :=
  act_quantized (info g n) = true \/ fln_quantized (info g n) = true.
Definition needs_stats (g : sgraph) (bc : bool) (n : nat) : Prop :=
  own_stats g n \/ (bc = true /\ exists m, In (n, m) (gedges g) /\ In m (order g) /\ kernel_quantized (info g m) = true).

(* node values agree with the declared number of outputs *)
Definition value_ok {T} (g : sgraph) (env : nat -> value T) : Prop :=
  forall n, In n (order g) -> match env n with V1 _ => n_outputs (info g n) = 1
                           | VL l => n_outputs (info g n) <> 1 /\ length l = n_outputs (info g n) end.
(* the k-th tensor of a node *)
Definition tensor_of {T} (v : value T) (k : nat) : option T :=
  match v with V1 t => if Nat.eqb k 0 then Some t else None | VL l => nth_error l k end.

(* the updates of the collector of output k of node n, in order *)
Definition updates_of {T W} (us : list (update T W)) (n k : nat) : list (T * option W) :=
  map (fun u => (u_tensor u, u_weight u)) (filter (fun u => Nat.eqb (u_node u) n && Nat.eqb (u_out u) k) us).

(* bin k of a histogram with the given edges contains x: half-open, the last bin closed *)
Definition in_bin (edges : list Q) (k : nat) (x : Q) : Prop :=
  (nth k edges 0 <= x /\ (x < nth (S k) edges 0 \/ (S (S k) = length edges /\ x == nth (S k) edges 0)))%Q.

(* the position a weight is read at: along dimensions of size 1 the first one, along the others the element's own *)
Definition weight_position (shape i j : list nat) : Prop :=
  length j = length shape /\
  forall d, d < length shape -> nth d j 0 = if Nat.eqb (nth d shape 0) 1 then 0 else nth d i 0.
