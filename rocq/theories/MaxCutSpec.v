(* MaxCutSpec.v -- execution orders of a model graph and their peak activation memory, stated on the graph alone. *)
From Coq Require Import Permutation.
From Verif Require Import Base MaxCutModel.
Open Scope nat_scope.

(* a well-formed model graph: at least one operation (an empty one makes max([]) raise, memory_graph.py L86), distinct operations, each with an output; edges join existing outputs and operations; no cycle *)
Definition wf_graph (g : mgraph) : Prop :=
  g_ops g <> [] /\ NoDup (g_ops g) /\
  (forall n, In n (g_ops g) -> 1 <= g_nout g n) /\
  (forall s i d, In (s, i, d) (g_edges g) -> In s (g_ops g) /\ i < g_nout g s /\ In d (g_ops g)) /\
  (exists rank : nat -> nat, forall s i d, In (s, i, d) (g_edges g) -> rank s < rank d).

(* an execution order runs every operation once, each after the producers of its inputs *)
Definition before (sigma : list nat) (s d : nat) : Prop := exists a b c, sigma = a ++ s :: b ++ d :: c.
Definition valid_order (g : mgraph) (sigma : list nat) : Prop :=
  Permutation sigma (g_ops g) /\ forall s i d, In (s, i, d) (g_edges g) -> before sigma s d.

(* tensors held while [o] runs after [past] and before [future]: the outputs of o, and the tensors produced in the past that
   are model outputs (nobody reads them) or are read by o or in the future *)
Definition outputs (g : mgraph) (n : nat) : list (nat * nat) := map (fun i => (n, i)) (seq 0 (g_nout g n)).
Definition readers (g : mgraph) (t : nat * nat) : list nat :=
  map snd (filter (fun e => Nat.eqb (fst (fst e)) (fst t) && Nat.eqb (snd (fst e)) (snd t)) (g_edges g)).
Definition needed (g : mgraph) (later : list nat) (t : nat * nat) : bool :=
  match readers g t with [] => true | rs => existsb (fun d => existsb (Nat.eqb d) later) rs end.
Definition live (g : mgraph) (past : list nat) (o : nat) (future : list nat) : list (nat * nat) :=
  filter (needed g (o :: future)) (flat_map (outputs g) past) ++ outputs g o.
Definition mem (g : mgraph) (ts : list (nat * nat)) : nat := fold_right Nat.add 0 (map (fun t => g_size g (fst t) (snd t)) ts).

Fixpoint peak_from (g : mgraph) (past rest : list nat) : nat :=
  match rest with
  | [] => 0
  | o :: future => Nat.max (mem g (live g past o future)) (peak_from g (past ++ [o]) future)
  end.
Definition peak (g : mgraph) (sigma : list nat) : nat := peak_from g [] sigma.
