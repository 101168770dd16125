(* ShapeSpec.v -- reshaping, and the graph without the edges into n that carry sizes. *)
From Coq Require Import ZArith.
From Verif Require Import Base GraphModel GraphSpec DeadSpec.
Local Open Scope nat_scope.

Fixpoint zprod (l : list Z) : Z := match l with [] => 1 | x :: r => x * zprod r end%Z.
(* the shape a tensor of [count] elements gets from reshape(s): at most one size is -1 and stands for what is left *)
Inductive reshaped (count : Z) : list Z -> list Z -> Prop :=
  | R_plain s : Forall (fun d => 0 <= d)%Z s -> zprod s = count -> reshaped count s s
  | R_infer a b d : Forall (fun d => 0 <= d)%Z a -> Forall (fun d => 0 <= d)%Z b -> (zprod a * zprod b <> 0)%Z -> (0 <= d)%Z ->
      zprod (a ++ d :: b) = count -> reshaped count (a ++ (-1)%Z :: b) (a ++ d :: b).

(* the edges into n other than the one at input 0 are gone *)
Definition without_sizes (g : graph) (n : nat) : graph :=
  set_edges g (filter (fun e => negb (Nat.eqb (snk e) n && Nat.ltb 0 (ti e))) (g_edges g)).
(* input 0 of n comes from one node, which is not read as a size too *)
Definition one_tensor (g : graph) (n : nat) : Prop :=
  exists e, filter (fun e => Nat.eqb (snk e) n && Nat.eqb (ti e) 0) (g_edges g) = [e] /\
  forall e', In e' (g_edges g) -> snk e' = n -> src e' = src e -> ti e' = 0.
(* a leads to b along edges *)
Inductive leads (g : graph) : nat -> nat -> Prop :=
  | L_here a : leads g a a
  | L_step e b : In e (g_edges g) -> leads g (snk e) b -> leads g (src e) b.
